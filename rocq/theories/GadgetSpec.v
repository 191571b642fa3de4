(** * What a Gadget-2 file is and what reading it should give, independent of the model's loops. *)
From Verif Require Export GadgetModel.
Local Open Scope Z_scope.

(** A particle: positions and velocities as three float32 bit patterns, its own mass, its id. *)
Record particle := { p_x : list Z; p_v : list Z; p_m : Z; p_id : Z }.

(** A Fortran record: length, bytes, length. *)
Definition frecord (e : order) (bs : list Z) : list Z :=
  put_int e 4 (Z.of_nat (length bs)) ++ bs ++ put_int e 4 (Z.of_nat (length bs)).

(** The bytes of a header with words h. *)
Fixpoint put_words (e : order) (sizes : list nat) (h : list Z) : list Z :=
  match sizes, h with
  | n :: sizes', w :: h' => put e n w ++ put_words e sizes' h'
  | _, _ => []
  end.

(** A type is dark matter / has one mass in the header if the configuration lists it. *)
Definition dm_type (c : Context) (t : nat) : Prop := In (Z.of_nat t) (c_dm c).
Definition single_type (c : Context) (t : nat) : Prop := In (Z.of_nat t) (c_single c).

Definition listed (l : list Z) (t : nat) : bool := if in_dec Z.eq_dec (Z.of_nat t) l then true else false.

(** The particles of the file in file order, each with its type. *)
Definition typed (parts : list (list particle)) : list (nat * particle) :=
  flat_map (fun t => map (fun p => (t, p)) (nth t parts [])) (seq 0 6).

(** A snapshot file: header, positions, velocities, ids of [idw] bytes, and the masses of the
    particles whose type has no single mass. *)
Definition gadget_file (e : order) (idw : nat) (h : list Z) (c : Context) (parts : list (list particle)) : list Z :=
  let all := map snd (typed parts) in
  let multi := map snd (filter (fun tp => negb (listed (c_single c) (fst tp))) (typed parts)) in
  frecord e (put_words e header_layout h)
  ++ frecord e (flat_map (fun p => flat_map (put e 4) (p_x p)) all)
  ++ frecord e (flat_map (fun p => flat_map (put e 4) (p_v p)) all)
  ++ frecord e (flat_map (fun p => put_int e idw (p_id p)) all)
  ++ frecord e (flat_map (fun p => put e 4 (p_m p)) multi).

Definition word (n : nat) (v : Z) : Prop := 0 <= v < 256 ^ Z.of_nat n.

Definition fits (n : nat) (v : Z) : Prop := - 256 ^ Z.of_nat n <= 2 * v < 256 ^ Z.of_nat n.

Record good_particle (idw : nat) (p : particle) : Prop := {
  gp_x3 : length (p_x p) = 3%nat; gp_x : Forall (word 4) (p_x p);
  gp_v3 : length (p_v p) = 3%nat; gp_v : Forall (word 4) (p_v p);
  gp_m : word 4 (p_m p); gp_id : fits idw (p_id p) }.

Record good_snapshot (idw : nat) (h : list Z) (parts : list (list particle)) : Prop := {
  gs_words : Forall2 word header_layout h;
  gs_types : length parts = 6%nat;
  gs_counts : forall t, (t < 6)%nat -> nth t h 0 = Z.of_nat (length (nth t parts []));
  gs_parts : Forall (Forall (good_particle idw)) parts }.

(** What the user should get: the dark matter particles in file order, each with its own data. *)
Definition dm_particles (c : Context) (parts : list (list particle)) : list (nat * particle) :=
  filter (fun tp => listed (c_dm c) (fst tp)) (typed parts).

Definition mass_of (F : f32ops) (h : list Z) (c : Context) (tp : nat * particle) : Z :=
  f32_mul F (if listed (c_single c) (fst tp) then f32_of_64 F (nth (6 + fst tp) h 0) else p_m (snd tp))
          (f32_of_64 F (c_mass_units c)).

Definition velocity_of (F : f32ops) (h : list Z) (tp : nat * particle) : list Z :=
  map (fun v => f32_mul F v (f32_of_64 F (sqrt_64 F (nth 12 h 0)))) (p_v (snd tp)).

(** A coordinate of the periodic box of width BoxSize (word 24), in the configured units. *)
Definition coord_of (F : f32ops) (h : list Z) (c : Context) (x : Z) : option Z :=
  let W := f32_of_64 F (nth 24 h 0) in
  let x' := if f32_lt F x (f32_zero F) then f32_add F x W       (* below the box: one width up *)
            else if f32_ge F x W then f32_sub F x W else x in   (* above: one width down *)
  if f32_naninf F x' || f32_lt F x' (f32_neg F W) || f32_lt F (f32_dbl F W) x' then None  (* corrupted *)
  else Some (f32_mul F x' (f32_of_64 F (c_pos_units c))).
