(** * C34: Gadget-2 particle blocks. *)
From Coq Require Import Reals Lra.
From Verif Require Import GadgetSpec GadgetProofs2.
Import ListNotations.
Local Open Scope Z_scope.

(** Reading a complete snapshot file, in either byte order, on any machine, with 4 or 8 byte ids, for
    any float arithmetic and whatever the buffers held before: exactly the dark matter particles, in
    file order, each with its own position, velocity, mass and id — or the corruption error when a
    coordinate of one of them is out of bounds. *)
Theorem C34_dark_matter_only : forall F sys e cap stale c idw h parts rest,
  (forall n, length (stale n) = n) -> good_snapshot idw h parts ->
  idw = 8%nat \/ idw = 4%nat ->
  typed parts <> [] -> Z.of_nat (idw * length (typed parts)) < 2 ^ 31 ->
  (12 * length (typed parts) <= cap)%nat ->
  read_gadget2 F sys e cap stale c (gadget_file e idw h c parts ++ rest) =
  Some (let dm := dm_particles c parts in
        match map_opt (map_opt (coord_of F h c)) (map (fun tp => p_x (snd tp)) dm) with
        | Some X => Some (X, map (velocity_of F h) dm, map (mass_of F h c) dm, map (fun tp => p_id (snd tp)) dm)
        | None => None
        end).
Proof.
  intros F sys e cap stale c idw h parts rest Hst Hg Hw Hne Hs Hc. apply read_gadget2_spec; auto.
  destruct (typed parts); [congruence|discriminate].
Qed.
Print Assumptions C34_dark_matter_only.

(** Exact arithmetic: the bit patterns denote numbers and the operations compute exactly. *)
Record exact (F : f32ops) (val : Z -> R) : Prop := {
  ex_mul : forall a b, val (f32_mul F a b) = (val a * val b)%R;
  ex_add : forall a b, val (f32_add F a b) = (val a + val b)%R;
  ex_sub : forall a b, val (f32_sub F a b) = (val a - val b)%R;
  ex_neg : forall a, val (f32_neg F a) = (- val a)%R;
  ex_dbl : forall a, val (f32_dbl F a) = (2 * val a)%R;
  ex_zero : val (f32_zero F) = 0%R;
  ex_lt : forall a b, f32_lt F a b = true <-> (val a < val b)%R;
  ex_ge : forall a b, f32_ge F a b = true <-> (val b <= val a)%R;
  ex_fin : forall a, f32_naninf F a = false }.

(** Under exact arithmetic a coordinate less than a box width outside the box comes back as its image inside the box, in the
    configured units, and one that is more than two box widths below or three above is reported as corruption. *)
Theorem C34_coordinates : forall F val h c x, exact F val ->
  let W := val (f32_of_64 F (nth 24 h 0)) in
  let u := val (f32_of_64 F (c_pos_units c)) in
  (0 < W)%R ->
  ((- W <= val x < 2 * W)%R -> exists y k, coord_of F h c x = Some y /\ (val y = (val x + IZR k * W) * u)%R /\
     (0 <= val x + IZR k * W < W)%R) /\
  ((val x < - 2 * W \/ 3 * W < val x)%R -> coord_of F h c x = None).
Proof.
  intros F val h c x [Em Ea Es En Ed Ez Elt Ege Ef] W u HW. unfold coord_of. cbv zeta.
  assert (Lt : forall a b, (val a < val b)%R -> f32_lt F a b = true) by (intros; now apply Elt).
  assert (NLt : forall a b, (val b <= val a)%R -> f32_lt F a b = false).
  { intros a b H. destruct (f32_lt F a b) eqn:Q; [|reflexivity]. apply Elt in Q. lra. }
  assert (Ge : forall a b, (val b <= val a)%R -> f32_ge F a b = true) by (intros; now apply Ege).
  assert (NGe : forall a b, (val a < val b)%R -> f32_ge F a b = false).
  { intros a b H. destruct (f32_ge F a b) eqn:Q; [|reflexivity]. apply Ege in Q. lra. }
  fold W in HW |- *. set (w := f32_of_64 F (nth 24 h 0)) in *.
  split.
  - intros Hx. destruct (Rlt_dec (val x) 0) as [Q|Q].
    + rewrite (Lt x) by (rewrite Ez; lra). rewrite Ef, (NLt (f32_add F x w)), (NLt (f32_dbl F w)) by (rewrite ?Ea, ?En, ?Ed; fold W; lra).
      cbn [orb]. eexists _, 1%Z. split; [reflexivity|]. rewrite Em, Ea. fold W u. lra.
    + rewrite (NLt x) by (rewrite Ez; lra). destruct (Rle_dec W (val x)) as [Q2|Q2].
      * rewrite Ge by (fold W; lra). rewrite Ef, (NLt (f32_sub F x w)), (NLt (f32_dbl F w)) by (rewrite ?Es, ?En, ?Ed; fold W; lra).
        cbn [orb]. eexists _, (-1)%Z. split; [reflexivity|]. rewrite Em, Es. fold W u. lra.
      * rewrite NGe by (fold W; lra). rewrite Ef, (NLt x), (NLt (f32_dbl F w)) by (rewrite ?En, ?Ed; fold W; lra).
        cbn [orb]. eexists _, 0%Z. split; [reflexivity|]. rewrite Em. fold W u. lra.
  - intros [Hx|Hx].
    + rewrite (Lt x) by (rewrite Ez; lra). rewrite Ef, (Lt (f32_add F x w)) by (rewrite Ea, En; fold W; lra). reflexivity.
    + rewrite (NLt x) by (rewrite Ez; lra). rewrite Ge by (fold W; lra).
      rewrite Ef, (Lt (f32_dbl F w)) by (rewrite Es, Ed; fold W; lra). rewrite orb_true_r. reflexivity.
Qed.
Print Assumptions C34_coordinates.

(** Integer arithmetic is exact: the hypotheses can be met. *)
Example C34_coordinates_nonvacuous : exists F val, exact F val /\ (0 < val (f32_of_64 F 10))%R.
Proof.
  exists {| f32_of_64 := fun x => x; sqrt_64 := Z.sqrt; f32_mul := Z.mul; f32_add := Z.add; f32_sub := Z.sub; f32_neg := Z.opp;
            f32_dbl := fun x => 2 * x; f32_lt := Z.ltb; f32_ge := fun a b => b <=? a; f32_zero := 0; f32_naninf := fun _ => false |}, IZR.
  split; [|cbn; lra]. constructor; cbn -[Z.mul]; intros.
  - apply mult_IZR. - apply plus_IZR. - apply minus_IZR. - apply opp_IZR. - apply mult_IZR. - reflexivity.
  - rewrite Z.ltb_lt. split; [apply IZR_lt|apply lt_IZR]. - rewrite Z.leb_le. split; [apply IZR_le|apply le_IZR]. - reflexivity.
Qed.

(** Every particle selected is of a configured type, none is lost and none is repeated. *)
Theorem C34_selection : forall c parts t p,
  In (t, p) (dm_particles c parts) <-> In (t, p) (typed parts) /\ dm_type c t.
Proof.
  intros. unfold dm_particles, dm_type. rewrite filter_In. cbn [fst]. unfold listed.
  destruct (in_dec Z.eq_dec (Z.of_nat t) (c_dm c)); intuition congruence.
Qed.
Print Assumptions C34_selection.

(** The particle count of the header agrees with what Read returns, for duplicate-free configurations... *)
Theorem C34_header_count : forall idw h c parts, good_snapshot idw h parts ->
  Forall (fun j => 0 <= j < 6) (c_dm c) -> NoDup (c_dm c) ->
  header_n h c = Some (Z.of_nat (length (dm_particles c parts))).
Proof. exact header_n_spec. Qed.
Print Assumptions C34_header_count.

(** ... and little endian headers are read exactly; big endian headers are always read byte-swapped
    (readGadget2Header ignores the order), see [C97_big_endian_header_refuted]. *)
Theorem C97_header_partial : forall idw h c parts rest, good_snapshot idw h parts ->
  read_gadget2_header LE (gadget_file LE idw h c parts ++ rest) = Some h.
Proof. intros. rewrite read_header_spec by assumption. f_equal. apply swapped_le. apply (gs_words _ _ _ H). Qed.
Print Assumptions C97_header_partial.

(** A small snapshot: two dark matter types (1, 2) around gas (0) and a star (4). *)
Definition ex_part (k : Z) : particle :=
  {| p_x := [k; k + 1; k + 2]; p_v := [k + 3; k + 4; k + 5]; p_m := k + 6; p_id := k + 7 |}.
Definition ex_parts : list (list particle) :=
  [[ex_part 10; ex_part 20]; [ex_part 30; ex_part 40]; [ex_part 50]; []; [ex_part 60]; []].
Definition ex_header : list Z :=
  [2; 2; 1; 0; 1; 0] ++ [0; 100; 0; 0; 0; 0] ++ [1; 0] ++ [0; 0] ++ [2; 2; 1; 0; 1; 0] ++ [0; 1]
  ++ [1000; 0; 0; 0] ++ [0; 0] ++ [0; 0; 0; 0; 0; 0] ++ [0] ++ repeat 0 60.
Definition ex_context : Context := {| c_dm := [1; 2]; c_single := [1]; c_mass_units := 1; c_pos_units := 1 |}.
(** Integer arithmetic in place of float32. *)
Definition ex_ops : f32ops :=
  {| f32_of_64 := fun x => x; sqrt_64 := fun x => x; f32_mul := Z.mul; f32_add := Z.add; f32_sub := Z.sub;
     f32_neg := Z.opp; f32_dbl := Z.mul 2; f32_lt := Z.ltb; f32_ge := Z.geb; f32_zero := 0; f32_naninf := fun _ => false |}.

Lemma ex_good : good_snapshot 8 ex_header ex_parts.
Proof.
  split.
  - unfold ex_header, header_layout. cbn [repeat app]. repeat constructor; unfold word; cbn; lia.
  - reflexivity.
  - intros t Ht. do 6 (destruct t as [|t]; [reflexivity|]). lia.
  - repeat constructor; unfold word, fits; cbn; lia.
Qed.

Example C34_nonvacuous :
  good_snapshot 8 ex_header ex_parts /\
  read_gadget2 ex_ops LE BE 1000 (repeat 7) ex_context (gadget_file BE 8 ex_header ex_context ex_parts) =
  Some (Some ([[30; 31; 32]; [40; 41; 42]; [50; 51; 52]], [[33; 34; 35]; [43; 44; 45]; [53; 54; 55]],
              [100; 100; 56], [37; 47; 57])).
Proof. split; [exact ex_good|vm_compute; reflexivity]. Qed.

(** Duplicated type indices in the configuration make the header count too large. *)
Theorem C97_duplicate_types_refuted : exists idw h c parts, good_snapshot idw h parts /\
  Forall (fun j => 0 <= j < 6) (c_dm c) /\
  header_n h c <> Some (Z.of_nat (length (dm_particles c parts))).
Proof.
  exists 8%nat, ex_header, {| c_dm := [1; 1]; c_single := [1]; c_mass_units := 1; c_pos_units := 1 |}, ex_parts.
  split; [exact ex_good|]. split; [repeat constructor; lia|]. vm_compute. discriminate.
Qed.
Print Assumptions C97_duplicate_types_refuted.

Theorem C97_big_endian_header_refuted : exists idw h c parts, good_snapshot idw h parts /\
  read_gadget2_header BE (gadget_file BE idw h c parts) <> Some h /\
  total_particles BE c (gadget_file BE idw h c parts) = Some 50331648 /\
  length (dm_particles c parts) = 3%nat.
Proof.
  exists 8%nat, ex_header, ex_context, ex_parts. split; [exact ex_good|].
  split; [vm_compute; discriminate|]. split; vm_compute; reflexivity.
Qed.
Print Assumptions C97_big_endian_header_refuted.

(** Files of a snapshot that hold no particle at all (division by the number of ids) panic. *)
Theorem C97_empty_file_refuted : forall F sys e cap stale c idw h parts rest,
  (forall n, length (stale n) = n) -> good_snapshot idw h parts -> typed parts = [] ->
  read_gadget2 F sys e cap stale c (gadget_file e idw h c parts ++ rest) = None.
Proof.
  intros F sys e cap stale c idw h parts rest Hst Hg He. apply no_particles; auto; rewrite He; cbn [length]; lia.
Qed.
Print Assumptions C97_empty_file_refuted.

(** Files without a mass block, which is how Gadget-2 writes a snapshot whose types all have a single
    mass, panic. *)
Theorem C97_no_mass_block_refuted : forall F sys e cap stale c idw h parts,
  (forall n, length (stale n) = n) -> good_snapshot idw h parts ->
  idw = 8%nat \/ idw = 4%nat ->
  typed parts <> [] -> Z.of_nat (idw * length (typed parts)) < 2 ^ 31 ->
  (12 * length (typed parts) <= cap)%nat ->
  let all := map snd (typed parts) in
  read_gadget2 F sys e cap stale c
    (frecord e (put_words e header_layout h)
     ++ frecord e (flat_map (fun p => flat_map (put e 4) (p_x p)) all)
     ++ frecord e (flat_map (fun p => flat_map (put e 4) (p_v p)) all)
     ++ frecord e (flat_map (fun p => put_int e idw (p_id p)) all)) = None.
Proof.
  intros F sys e cap stale c idw h parts Hst Hg Hw Hne Hs Hc all.
  apply (no_mass_block F sys e cap stale c idw h parts); auto.
  destruct (typed parts); [congruence|discriminate].
Qed.
Print Assumptions C97_no_mass_block_refuted.

(** Id blocks of 2 GiB or more (2^28 or more 8-byte ids): the record length overflows its int32, the
    ids are not read and the old contents of the buffer are returned as ids. *)
Theorem C97_large_id_block_refuted : forall sys e cap stale n size s,
  2 ^ 31 <= Z.of_nat size < 2 ^ 32 -> n <> 0%nat ->
  read_ids sys e cap stale (get_int e (put_int e 4 (Z.of_nat size))) n s = Some (mem_ints sys 8 n (stale (8 * n)%nat), s).
Proof.
  intros. now apply large_ids.
Qed.
Print Assumptions C97_large_id_block_refuted.

(** Ids are read as signed: 4-byte ids of 2^31 and more come back negative. *)
Example C34_unsigned_ids :
  read_ids LE LE 100 (repeat 0) 4 1 (put LE 4 (2 ^ 31 + 5)) = Some ([- 2 ^ 31 + 5], []).
Proof. reflexivity. Qed.
