(** * C144-C145: the region a header reports, and whether files are skipped because of it. *)
From Verif Require Import LosSpec BoxModel InterpProofs ShellProofs BoxProofs.
From Coq Require Import Reals Lra List ZArith Lia Bool.
Import List ListNotations.
Local Open Scope R_scope.

(** The coordinates of a vector. *)
Definition coord3 (a : nat) (v : vec3) : R := match a with 0%nat => fst (fst v) | 1%nat => snd (fst v) | _ => snd v end.

(** ** C144 *)
(** For particles of the box [0, L)^3 and along every axis: the region is the whole box or at most half as wide; every particle has an image in it (its own
    position or a neighbouring image); and if it is at most half as wide as the box then both of its ends are images of particles. *)
Theorem C144_region : forall L xs, 0 < L -> xs <> [] -> (forall v a, In v xs -> 0 <= coord3 a v < L) ->
  exists o w, bounding_box xs L = Some (o, w) /\ forall a,
    (0 <= coord3 a w <= L / 2 \/ (coord3 a o = 0 /\ coord3 a w = L)) /\
    (forall v, In v xs -> exists k : Z, (-1 <= k <= 1)%Z /\ coord3 a o <= coord3 a v + IZR k * L <= coord3 a o + coord3 a w) /\
    (coord3 a w <= L / 2 -> (exists v k, In v xs /\ coord3 a o = coord3 a v + IZR k * L) /\
       (exists v k, In v xs /\ coord3 a o + coord3 a w = coord3 a v + IZR k * L)).
Proof.
  intros L xs HL Hne Hin.
  destruct (bounding_box_spec L xs HL Hne) as (o & w & E & Ax & Ay & Az).
  { intros v Hv. repeat split; first [apply (Hin v 0%nat Hv)|apply (Hin v 1%nat Hv)|apply (Hin v 2%nat Hv)]. }
  exists o, w. split; [exact E|]. intros a.
  assert (G : forall p : vec3 -> R, axis_ok L (p o) (p w) (map p xs) ->
    (0 <= p w <= L / 2 \/ (p o = 0 /\ p w = L)) /\
    (forall v, In v xs -> exists k : Z, (-1 <= k <= 1)%Z /\ p o <= p v + IZR k * L <= p o + p w) /\
    (p w <= L / 2 -> (exists v k, In v xs /\ p o = p v + IZR k * L) /\ (exists v k, In v xs /\ p o + p w = p v + IZR k * L))).
  { intros p (A & B & C). split; [exact A|]. split; [intros v Hv; apply B; now apply in_map|].
    intros Hw. destruct (C Hw) as (_ & _ & (x & k & Hx & E1) & (x' & k' & Hx' & E2)).
    apply in_map_iff in Hx, Hx'. destruct Hx as (v & <- & Hv), Hx' as (v' & <- & Hv'). split; [exists v, k|exists v', k']; auto. }
  destruct a as [|[|a]]; [exact (G px Ax)|exact (G py Ay)|exact (G pz Az)].
Qed.
Print Assumptions C144_region.

(** A file without particles has no region: the code panics. *)
Theorem C144_empty_refuted : forall L, bounding_box [] L = None.
Proof. reflexivity. Qed.
Print Assumptions C144_empty_refuted.

Example C144_nonvacuous : bounding_box [(1, 50, 10); (98, 51, 60); (3, 49, 90)] 100 = Some ((-2, 49, 0), (5, 2, 100)).
Proof.
  unfold bounding_box, box_step, box_coord, box_limit. cbn [fold_left fst snd].
  repeat (match goal with |- context [Rltb ?a ?b] =>
    lazymatch a with context [Rltb] => fail | context [if _ then _ else _] => fail | context [match _ with _ => _ end] => fail | _ => 
    lazymatch b with context [Rltb] => fail | context [if _ then _ else _] => fail | context [match _ with _ => _ end] => fail | _ => destruct (Rltb_spec a b); try (exfalso; lra); cbn [andb fst snd] end end end).
  repeat f_equal; lra.
Qed.

(** ** C145 *)
(** If a file holds a particle closer than r to the centre of a halo (in the periodic box) then the file is not skipped, provided its region is, along every axis,
    the whole box or at most half of it less r. The file is described by the header computed from its own particles. *)
Theorem C145_not_skipped_partial : forall L xs c r v v' o w, 0 < L -> 0 < r -> in_box L c ->
  (forall u a, In u xs -> 0 <= coord3 a u < L) -> In v xs -> near L c v v' -> dist2_3 v' c < r * r ->
  bounding_box xs L = Some (o, w) -> (forall a, coord3 a w = L \/ r + coord3 a w <= L / 2) ->
  sheet_intersect c r o w L = true.
Proof.
  intros L xs c r v v' o w HL Hr Hc Hin Hv Hnear Hd E Hw.
  destruct (bounding_box_spec L xs HL) as (o' & w' & E' & Ax & Ay & Az).
  { intros ->. contradiction. }
  { intros u Hu. repeat split; first [apply (Hin u 0%nat Hu)|apply (Hin u 1%nat Hu)|apply (Hin u 2%nat Hu)]. }
  rewrite E in E'. injection E' as <- <-.
  assert (Ix : In (px v) (map px xs)) by (apply in_map; exact Hv). assert (Iy : In (py v) (map py xs)) by (apply in_map; exact Hv).
  assert (Iz : In (pz v) (map pz xs)) by (apply in_map; exact Hv).
  pose proof (Hw 0%nat) as Wx. pose proof (Hw 1%nat) as Wy. pose proof (Hw 2%nat) as Wz.
  destruct c as ((cx, cy), cz), o as ((ox, oy), oz), w as ((wx, wy), wz), v as ((vx, vy), vz), v' as ((qx, qy), qz).
  cbn [coord3 px py pz fst snd] in *. destruct Hc as (B1 & B2 & B3), Hnear as (N1 & N2 & N3). unfold dist2_3 in Hd.
  pose proof (Rle_0_sqr (qx - cx)). pose proof (Rle_0_sqr (qy - cy)). pose proof (Rle_0_sqr (qz - cz)). unfold Rsqr in *.
  assert (Hab : forall a, a * a < r * r -> Rabs a < r).
  { intros a Ha. unfold Rabs. destruct (Rcase_abs a); nra. }
  assert (G : forall x o w vx q xs', axis_ok L o w xs' -> In vx xs' -> 0 <= x <= L -> nearest_image L (vx - x) (q - x) -> Rabs (q - x) < r ->
    w = L \/ r + w <= L / 2 -> in_range x r o w L = true).
  { clear -HL Hr. intros x o w vx q xs' (A & B & C) Hv Hx (Hd & k & Hk) Ha Hw.
    destruct (B vx Hv) as (j & Hj & Hb). destruct Hw as [Hw|Hw].
    - destruct A as [A|(A1 & A2)]; [lra|]. subst o. unfold in_range. apply orb_true_iff. left. apply andb_true_iff. rewrite !Rltb_true. lra.
    - assert (Hw' : w <= L / 2) by lra. destruct (C Hw') as (C1 & C2 & _).
      apply (in_range_straddle x r o w L (vx + IZR j * L) (q - x)); try assumption; try lra.
      split; [exact Hd|]. exists (k - j)%Z. rewrite minus_IZR. lra. }
  unfold sheet_intersect. rewrite (G cx ox wx vx qx _ Ax), (G cy oy wy vy qy _ Ay), (G cz oz wz vz qz _ Az); try assumption; try reflexivity; apply Hab; lra.
Qed.
Print Assumptions C145_not_skipped_partial.

(** Without the proviso: a file with particles at x = 50 and x = 99 in a box of width 100 is skipped for a halo of radius 5 at x = 1, which is 2 away from
    the second particle. *)
Theorem C145_skipped_refuted : let xs := [(50, 50, 50); (99, 50, 50)] in
  bounding_box xs 100 = Some ((50, 50, 50), (49, 0, 0)) /\ near 100 (1, 50, 50) (99, 50, 50) (-1, 50, 50) /\
  dist2_3 (-1, 50, 50) (1, 50, 50) = 2 * 2 /\ sheet_intersect (1, 50, 50) 5 (50, 50, 50) (49, 0, 0) 100 = false.
Proof.
  cbv zeta. split; [|split; [|split]].
  - unfold bounding_box, box_step, box_coord, box_limit. cbn [fold_left fst snd].
    repeat (match goal with |- context [Rltb ?a ?b] =>
      lazymatch a with context [Rltb] => fail | context [if _ then _ else _] => fail | context [match _ with _ => _ end] => fail | _ => 
      lazymatch b with context [Rltb] => fail | context [if _ then _ else _] => fail | context [match _ with _ => _ end] => fail | _ => destruct (Rltb_spec a b); try (exfalso; lra); cbn [andb fst snd] end end end).
    repeat f_equal; lra.
  - unfold near, nearest_image. repeat split; try lra; [exists (-1)%Z|exists 0%Z|exists 0%Z]; lra.
  - unfold dist2_3. lra.
  - unfold sheet_intersect, in_range, wrap_dist. cbv zeta.
    repeat (match goal with |- context [Rltb ?a ?b] =>
      lazymatch a with context [Rltb] => fail | context [if _ then _ else _] => fail | _ => 
      lazymatch b with context [Rltb] => fail | context [if _ then _ else _] => fail | _ => destruct (Rltb_spec a b); try (exfalso; lra); cbn [andb orb] end end end).
    all: first [reflexivity|exfalso; lra].
Qed.
Print Assumptions C145_skipped_refuted.

(** A file across a face: particles at x = 1, 98 and 3; a halo at x = 97. *)
Example C145_nonvacuous : let xs := [(1, 50, 10); (98, 50, 10); (3, 50, 10)] in
  bounding_box xs 100 = Some ((-2, 50, 10), (5, 0, 0)) /\ (5 : R) + 5 <= 100 / 2 /\ near 100 (97, 50, 10) (1, 50, 10) (101, 50, 10) /\
  dist2_3 (101, 50, 10) (97, 50, 10) < 5 * 5.
Proof.
  cbv zeta. split; [|split; [lra|split]].
  - unfold bounding_box, box_step, box_coord, box_limit. cbn [fold_left fst snd].
    repeat (match goal with |- context [Rltb ?a ?b] =>
      lazymatch a with context [Rltb] => fail | context [if _ then _ else _] => fail | context [match _ with _ => _ end] => fail | _ => 
      lazymatch b with context [Rltb] => fail | context [if _ then _ else _] => fail | context [match _ with _ => _ end] => fail | _ => destruct (Rltb_spec a b); try (exfalso; lra); cbn [andb fst snd] end end end).
    repeat f_equal; lra.
  - unfold near, nearest_image. repeat split; try lra; [exists 1%Z|exists 0%Z|exists 0%Z]; lra.
  - unfold dist2_3. lra.
Qed.
