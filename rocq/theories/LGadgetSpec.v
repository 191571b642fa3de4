(** * What an LGadget-2 file is, independent of the model's reading functions. *)
From Verif Require Export GadgetSpec LGadgetModel.
Local Open Scope Z_scope.

(** A snapshot file: header, positions, velocities, 8 byte ids, each a Fortran record. *)
Definition lgadget_file (e : order) (h : list Z) (parts : list particle) : list Z :=
  frecord e (put_words e lg_layout h)
  ++ frecord e (flat_map (fun p => flat_map (put e 4) (p_x p)) parts)
  ++ frecord e (flat_map (fun p => flat_map (put e 4) (p_v p)) parts)
  ++ frecord e (flat_map (fun p => put_int e 8 (p_id p)) parts).

(** How the number n of particles is stored in the counters a, b (elements 0 and 1): with LGadgetNpartNum = 1 in the first alone, with 2 in both, the first
    counting units of 2^32. *)
Definition counted (npartNum a b n : Z) : Prop := (npartNum = 1 /\ a = n) \/ (npartNum = 2 /\ n = b + a * 2 ^ 32).

Record lg_good (npartNum : Z) (h : list Z) (parts : list particle) : Prop := {
  lg_words : Forall2 word lg_layout h;
  lg_cnt : counted npartNum (nth 0 h 0) (nth 1 h 0) (Z.of_nat (length parts));
  lg_small : nth 0 h 0 <= 100 * 1000 \/ npartNum = 1;
  lg_parts : Forall (good_particle 8) parts }.

(** A coordinate in the periodic box of width BoxSize (word 24). *)
Definition lg_wrapped (F : f32ops) (h : list Z) (x : Z) : option Z :=
  let W := f32_of_64 F (nth 24 h 0) in
  let x' := if f32_lt F x (f32_zero F) then f32_add F x W else if f32_ge F x W then f32_sub F x W else x in
  if f32_naninf F x' || f32_lt F x' (f32_neg F W) || f32_lt F (f32_dbl F W) x' then None else Some x'.
