(** * C194 and C195: the angles of a slice of a tetrahedron. *)
From Coq Require Import Reals Lra Psatz List Bool ZArith Lia Permutation.
From Verif Require Import RealBase ShellModel ShellProofs GeomModel GeomSpec GeomProofs GeomProofs2 GeomProofs5 Props_Geom SliceAngModel SliceAngSpec SliceAngProofs SliceAngProofs2 SliceAngProofs3.
Import List ListNotations.
Local Open Scope R_scope.

Lemma some_low t z : (2 <= length (slice_points t (plucker_tetra t) z))%nat -> exists i, (i < 4)%nat /\ cz (vertex t i) < z.
Proof.
  intros H. rewrite slice_length in H. destruct (filter (is_low t z) [0; 1; 2; 3]%nat) as [|i l] eqn:F; [cbn in H; lia|].
  assert (I : In i (filter (is_low t z) [0; 1; 2; 3]%nat)) by (rewrite F; left; reflexivity). apply filter_In in I. destruct I as (I & L).
  exists i. split; [cbn in I; lia|]. unfold is_low in L. destruct (Rltb_spec (cz (vertex t i)) z); [assumption|discriminate].
Qed.
Lemma range_two phis r : angle_range phis = Some r -> (2 <= length phis)%nat.
Proof. destruct phis as [|a [|b l]]; try discriminate. cbn. lia. Qed.

(** ** C194 *)
(** Every point of the slice is seen from the axis at an angle within the range that AngleRange reports ... *)
Theorem C194_covers : forall t z start width, angle_range (slice_phis t (plucker_tetra t) z) = Some (start, width) ->
  (0 <= start < 2 * PI /\ 0 < width <= 2 * PI) /\
  forall phi x y, in_tetra t (V3 x y z) -> seen_at phi x y -> in_arc start width phi.
Proof.
  intros t z start width H. pose proof (range_two _ _ H) as L. unfold slice_phis in L. rewrite map_length in L. destruct (some_low t z L) as (i & Hi & Lo).
  rewrite slice_phis_eq in H. assert (F : Forall turn (map corner_phi (map fst (slice_points t (plucker_tetra t) z)))).
  { apply Forall_forall. intros a A. apply in_map_iff in A. destruct A as (p & <- & _). apply corner_phi_turn. }
  split.
  - destruct (range_arc _ _ _ F H) as (T & W & _). unfold turn in T. pose proof PI_RGT_0. lra.
  - intros phi x y In S. apply (range_covers (map fst (slice_points t (plucker_tetra t) z)) start width phi x y H); [|exact S]. apply (C168_whole t z i Hi Lo). exact In.
Qed.
Print Assumptions C194_covers.
(** ... and when the axis does not meet the slice and the first two corners are seen in different directions, the range is exact: less than half a turn, and a
    direction is in it iff a point of the slice is seen there. Missing: slices whose first two corners are seen in the same direction (C194_aligned_refuted). *)
Theorem C194_exact_partial : forall t z start width p0 p1 rest, map fst (slice_points t (plucker_tetra t) z) = p0 :: p1 :: rest ->
  (forall phi, seen_at phi (fst p0) (snd p0) -> ~ seen_at phi (fst p1) (snd p1)) -> ~ in_tetra t (V3 0 0 z) ->
  angle_range (slice_phis t (plucker_tetra t) z) = Some (start, width) ->
  width < PI /\ forall phi, in_arc start width phi <-> exists x y, in_tetra t (V3 x y z) /\ seen_at phi x y.
Proof.
  intros t z start width p0 p1 rest E D N H. pose proof (range_two _ _ H) as L. unfold slice_phis in L. rewrite map_length in L. destruct (some_low t z L) as (i & Hi & Lo).
  pose proof (C168_whole t z i Hi Lo) as Wh. pose proof H as H'. rewrite slice_phis_eq in H'. set (pts := map fst (slice_points t (plucker_tetra t) z)) in *.
  assert (Out : ~ hull pts 0 0) by (intros X; apply N; apply Wh; exact X).
  assert (Nd : corner_phi p0 <> corner_phi p1).
  { intros X. apply (D (corner_phi p0)); [|rewrite X]; apply corner_seen; apply (corner_nz pts Out); rewrite E; [left|right; left]; reflexivity. }
  split; [destruct (range_exact pts Out p0 p1 rest start width E Nd H') as (hi & _ & _ & _ & W); exact W|].
  intros phi. split.
  - intros A. destruct (range_hit pts Out p0 p1 rest start width phi E Nd H' A) as (x & y & X & Y). exists x, y. split; [apply Wh; exact X|exact Y].
  - intros (x & y & X & Y). exact (proj2 (C194_covers t z start width H) phi x y X Y).
Qed.
Print Assumptions C194_exact_partial.

Lemma corner_phi_unique p phi : turn phi -> seen_at phi (fst p) (snd p) -> corner_phi p = phi.
Proof.
  intros T S. apply same_dir_turn; [apply corner_phi_turn|exact T|]. apply (seen_same _ _ (fst p) (snd p)); [|exact S]. apply corner_seen. intros ->.
  destruct S as (r & R' & X & Y). cbn [fst snd] in X, Y. pose proof (sin2_cos2 phi) as P2. unfold Rsqr in P2. assert (cos phi = 0) by nra. assert (sin phi = 0) by nra. nra.
Qed.
(** The tetrahedron with one vertex below the plane z = 0, at the axis, and three above it. *)
Definition up (x1 y1 x2 y2 x3 y3 : R) : tetra := Tetra (V3 0 0 (-1)) (V3 (2 * x1) (2 * y1) 1) (V3 (2 * x2) (2 * y2) 1) (V3 (2 * x3) (2 * y3) 1).
Lemma up_points x1 y1 x2 y2 x3 y3 : let t := up x1 y1 x2 y2 x3 y3 in slice_points t (plucker_tetra t) 0 = [(x1, y1, 0%nat); (x2, y2, 1%nat); (x3, y3, 2%nat)].
Proof.
  cbv zeta. set (t := up x1 y1 x2 y2 x3 y3). assert (A : Rltb (-1) 0 = true) by (destruct (Rltb_spec (-1) 0); [reflexivity|lra]). assert (B : Rltb 1 0 = false) by (destruct (Rltb_spec 1 0); [lra|reflexivity]).
  unfold slice_points, crosses_z. cbn [seq flat_map nth edge_starts edge_ends t up vertex t_0 t_1 t_2 t_3 cz]. rewrite A, B. cbn [Bool.eqb negb app].
  fold t. rewrite (edge_dir t 0), (edge_dir t 1), (edge_dir t 2) by lia. cbn [nth edge_starts edge_ends t up vertex t_0 t_1 t_2 t_3 sub3 cx cy cz].
  unfold intersect_z. cbn [sub3 cx cy cz]. unfold Reqb. destruct (Req_EM_T (1 - -1) 0); [lra|]. repeat f_equal; field.
Qed.
(** A slice whose first two corners are seen in the same direction is reported as a full circle, however narrow it is. *)
Theorem C194_aligned_refuted : let t := up 1 0 2 0 1 1 in angle_range (slice_phis t (plucker_tetra t) 0) = Some (0, 2 * PI) /\ ~ in_tetra t (V3 0 0 0) /\
  in_arc 0 (2 * PI) PI /\ forall x y, in_tetra t (V3 x y 0) -> ~ seen_at PI x y.
Proof.
  intros t. pose proof PI_RGT_0 as Hpi.
  assert (W : forall x y, in_tetra t (V3 x y 0) -> 1 <= x).
  { intros x y (a & b & c & d & Ha & Hb & Hc & Hd & S & M). unfold t, up, mix3 in M. cbn [t_0 t_1 t_2 t_3 cx cy cz] in M. injection M as Mx My Mz. lra. }
  split; [|split; [intros K; apply W in K; lra|split]].
  - unfold slice_phis. unfold t. rewrite up_points. cbn [map fst snd].
    assert (A : corner_phi (1, 0) = 0) by (apply corner_phi_unique; [unfold turn; lra|]; exists 1; rewrite cos_0, sin_0; cbn [fst snd]; repeat split; lra).
    assert (B : corner_phi (2, 0) = 0) by (apply corner_phi_unique; [unfold turn; lra|]; exists 2; rewrite cos_0, sin_0; cbn [fst snd]; repeat split; lra).
    rewrite A, B. unfold angle_range. replace (Rltb (angular_width 0 0) (angular_width 0 0)) with false by (destruct (Rltb_spec (angular_width 0 0) (angular_width 0 0)); [lra|reflexivity]).
    assert (E : angular_width 0 0 = 2 * PI) by (unfold angular_width; destruct (Rltb_spec 0 0); lra). rewrite E. cbn [fold_left]. pose proof (corner_phi_turn (1, 1)) as T.
    unfold expand. pose proof (aw_range 0 (corner_phi (1, 1)) ltac:(unfold turn; lra) T). pose proof (aw_range (corner_phi (1, 1)) 0 T ltac:(unfold turn; lra)).
    destruct (Rltb_spec (angular_width 0 (corner_phi (1, 1))) (angular_width (corner_phi (1, 1)) 0)).
    + destruct (Rltb_spec (2 * PI) (angular_width 0 (corner_phi (1, 1)))); [lra|]. destruct (Rltb_spec PI (2 * PI)); [reflexivity|lra].
    + destruct (Rltb_spec (2 * PI) (angular_width (corner_phi (1, 1)) 0)); [lra|]. destruct (Rltb_spec PI (2 * PI)); [reflexivity|lra].
  - exists PI. split; [lra|]. rewrite Rplus_0_l. apply same_dir_refl.
  - intros x y K (r & R' & X & _). apply W in K. rewrite cos_PI in X. lra.
Qed.
Print Assumptions C194_aligned_refuted.
Lemma up_out : ~ in_tetra (up 1 0 0 1 1 1) (V3 0 0 0).
Proof. intros (a & b & c & d & Ha & Hb & Hc & Hd & S & M). unfold up, mix3 in M. cbn [t_0 t_1 t_2 t_3 cx cy cz] in M. injection M as Mx My Mz. lra. Qed.
Lemma phi_10 : corner_phi (1, 0) = 0.
Proof. pose proof PI_RGT_0. apply corner_phi_unique; [unfold turn; lra|]. exists 1. rewrite cos_0, sin_0. cbn [fst snd]. repeat split; lra. Qed.
Lemma phi_01 : corner_phi (0, 1) = PI / 2.
Proof. pose proof PI_RGT_0. apply corner_phi_unique; [unfold turn; lra|]. exists 1. rewrite cos_PI2, sin_PI2. cbn [fst snd]. repeat split; lra. Qed.
Lemma phi_11 : corner_phi (1, 1) = PI / 4.
Proof.
  pose proof PI_RGT_0. assert (0 < sqrt 2) by (apply sqrt_lt_R0; lra). apply corner_phi_unique; [unfold turn; lra|]. exists (sqrt 2). rewrite cos_PI4, sin_PI4. cbn [fst snd].
  split; [assumption|]. split; field; lra.
Qed.
(** The hypotheses of C194_exact_partial are met by a triangle beside the axis, and its range is a quarter turn. *)
Example C194_nonvacuous : let t := up 1 0 0 1 1 1 in map fst (slice_points t (plucker_tetra t) 0) = [(1, 0); (0, 1); (1, 1)] /\
  (forall phi, seen_at phi 1 0 -> ~ seen_at phi 0 1) /\ ~ in_tetra t (V3 0 0 0) /\ angle_range (slice_phis t (plucker_tetra t) 0) = Some (0, PI / 2).
Proof.
  intros t. pose proof PI_RGT_0 as Hpi. split; [unfold t; rewrite up_points; reflexivity|]. split.
  { intros phi (r & R' & X & Y) (r' & R2 & X2 & Y2). assert (sin phi = 0) by nra. assert (cos phi = 0) by nra. nra. }
  split; [exact up_out|]. unfold slice_phis, t. rewrite up_points. cbn [map fst snd]. rewrite phi_10, phi_01, phi_11.
  assert (A : angular_width 0 (PI / 2) = PI / 2) by (unfold angular_width; destruct (Rltb_spec 0 (PI / 2)); lra).
  assert (B : angular_width (PI / 2) 0 = 3 * (PI / 2)) by (unfold angular_width; destruct (Rltb_spec (PI / 2) 0); lra).
  assert (C : angular_width 0 (PI / 4) = PI / 4) by (unfold angular_width; destruct (Rltb_spec 0 (PI / 4)); lra).
  assert (D : angular_width (PI / 4) (PI / 2) = PI / 4) by (unfold angular_width; destruct (Rltb_spec (PI / 4) (PI / 2)); lra).
  unfold angle_range. rewrite A, B. destruct (Rltb_spec (3 * (PI / 2)) (PI / 2)); [lra|]. rewrite A. cbn [fold_left]. unfold expand. rewrite C, D.
  destruct (Rltb_spec (PI / 4) (PI / 4)); [lra|]. destruct (Rltb_spec (PI / 2) (PI / 4)); [lra|]. destruct (Rltb_spec PI (PI / 2)); [lra|reflexivity].
Qed.

(** ** C195 *)
(** There is one line for every corner, each between the two corners that link joined. *)
Theorem C195_lines : forall t z, let pts := map fst (slice_points t (plucker_tetra t) z) in let ls := slice_lines t (plucker_tetra t) z in
  let se := link (map snd (slice_points t (plucker_tetra t) z)) in
  length ls = length pts /\ forall i l, nth_error ls i = Some l ->
    (nth i (fst se) None = Some (la_from l) /\ nth i (snd se) None = Some (la_to l)) \/ (nth i (fst se) None = Some (la_to l) /\ nth i (snd se) None = Some (la_from l)).
Proof.
  intros t z pts ls se. split; [apply slice_lines_length|]. intros i l N. destruct (slice_line t z i l N) as (s & e & Hi & A & B & Hs & He & El).
  destruct (line_facts _ s e Hs He) as (P' & Q' & C & _). rewrite <- El in C. unfold se. rewrite A, B. destruct C as [(_ & _ & -> & ->)|(_ & _ & -> & ->)]; auto.
Qed.
Print Assumptions C195_lines.
(** IntersectingLines reports exactly the lines of the slice that the ray at the given angle meets (never more than two): for every angle that is not the angle of
    a corner, when no line passes through the axis. Missing: the angles of the corners (C195_corner_refuted). *)
Theorem C195_meets_partial : forall t z phi l1 l2, let pts := map fst (slice_points t (plucker_tetra t) z) in let ls := slice_lines t (plucker_tetra t) z in
  0 <= phi < 2 * PI -> (forall p, In p pts -> ~ seen_at phi (fst p) (snd p)) ->
  (forall l, In l ls -> ~ on_segment (nth (la_from l) pts (0, 0)) (nth (la_to l) pts (0, 0)) 0 0) ->
  intersecting_lines phi ls = (l1, l2) ->
  forall i l, nth_error ls i = Some l -> (ray_meets phi (nth (la_from l) pts (0, 0)) (nth (la_to l) pts (0, 0)) <-> l1 = Some i \/ l2 = Some i).
Proof. intros t z phi l1 l2 pts ls T NC NO H. exact (slice_intersecting t z phi T NC NO l1 l2 H). Qed.
Print Assumptions C195_meets_partial.
(** At the angle of a corner the lines that end there are never reported, although the ray meets both. *)
Theorem C195_corner_refuted : forall t z i l k, let pts := map fst (slice_points t (plucker_tetra t) z) in let ls := slice_lines t (plucker_tetra t) z in
  nth_error ls i = Some l -> k = la_from l \/ k = la_to l -> nth k pts (0, 0) <> (0, 0) ->
  let phi := corner_phi (nth k pts (0, 0)) in
  ray_meets phi (nth (la_from l) pts (0, 0)) (nth (la_to l) pts (0, 0)) /\ fst (intersecting_lines phi ls) <> Some i /\ snd (intersecting_lines phi ls) <> Some i.
Proof.
  intros t z i l k pts ls N K Z phi. destruct (slice_line t z i l N) as (s & e & Hi & A & B & Hs & He & El). fold pts in Hs, He, El.
  destruct (line_facts pts s e Hs He) as (P' & Q' & C & _). rewrite <- El in C.
  assert (K' : k = s \/ k = e) by (destruct C as [(_ & _ & F & G)|(_ & _ & F & G)]; rewrite F, G in K; tauto).
  assert (Hit : line_hit phi l = false).
  { rewrite El. apply line_corner; auto; [apply corner_phi_turn|]. unfold phi. destruct K' as [->| ->]; auto. }
  split.
  - exists (fst (nth k pts (0, 0))), (snd (nth k pts (0, 0))). split; [|apply corner_seen; exact Z].
    destruct K as [->| ->]; [exists 0|exists 1]; (split; [lra|]; split; ring).
  - pose proof (loop_first phi ls 0 _ eq_refl) as F. change (lines_loop phi ls 0 None) with (intersecting_lines phi ls) in F.
    destruct (fst (intersecting_lines phi ls)) as [m|].
    + destruct F as (k1 & l' & -> & N1 & H1 & _ & G). cbn [Nat.add]. split; [intros E; injection E as ->; congruence|].
      destruct (snd (intersecting_lines phi ls)) as [m2|]; [|discriminate]. destruct G as (k2 & l2 & -> & _ & N2 & H2 & _). cbn [Nat.add]. intros E; injection E as ->; congruence.
    + destruct F as (-> & _). split; discriminate.
Qed.
Print Assumptions C195_corner_refuted.
(** The hypotheses of C195_meets_partial are met: the triangle (1, 0), (0, 1), (1, 1), one of whose lines is met by the ray at an eighth of a half turn. *)
Example C195_nonvacuous : let t := up 1 0 0 1 1 1 in let pts := map fst (slice_points t (plucker_tetra t) 0) in let ls := slice_lines t (plucker_tetra t) 0 in
  (forall p, In p pts -> ~ seen_at (PI / 8) (fst p) (snd p)) /\ (forall l, In l ls -> ~ on_segment (nth (la_from l) pts (0, 0)) (nth (la_to l) pts (0, 0)) 0 0) /\
  exists i l, nth_error ls i = Some l /\ ray_meets (PI / 8) (nth (la_from l) pts (0, 0)) (nth (la_to l) pts (0, 0)).
Proof.
  intros t pts ls. pose proof PI_RGT_0 as Hpi. assert (Ep : pts = [(1, 0); (0, 1); (1, 1)]) by (unfold pts, t; rewrite up_points; reflexivity).
  assert (Out : ~ hull pts 0 0). { intros K. apply up_out. apply (C168_whole t 0 0%nat); [lia|cbn; lra|exact K]. }
  split; [|split].
  - intros p P S. apply corner_phi_unique in S; [|unfold turn; lra]. rewrite Ep in P. destruct P as [<-|[<-|[<-|[]]]]; rewrite ?phi_10, ?phi_01, ?phi_11 in S; lra.
  - intros l L K. apply In_nth_error in L. destruct L as (i & L). destruct (slice_line t 0 i l L) as (s & e & Hi & _ & _ & Hs & He & El). fold pts in Hs, He, El.
    apply Out. destruct (line_facts pts s e Hs He) as (P' & Q' & C & _). rewrite <- El in C.
    apply (hull_segment pts (nth (la_from l) pts (0, 0)) (nth (la_to l) pts (0, 0))); [| |exact K]; destruct C as [(_ & _ & F & G)|(_ & _ & F & G)]; rewrite ?F, ?G; apply nth_In; assumption.
  - assert (N : nth_error ls 0%nat = Some (line_angle (map corner_phi pts) 0 1)).
    { unfold ls, slice_lines, line_angles. rewrite slice_phis_eq. fold pts. unfold t. rewrite up_points. cbn [map snd].
      let r := eval vm_compute in (link [0; 1; 2]%nat) in change (link [0; 1; 2]%nat) with r. reflexivity. }
    exists 0%nat, (line_angle (map corner_phi pts) 0 1). split; [exact N|]. destruct (line_facts pts 0 1) as (P' & Q' & C & _); [rewrite Ep; cbn; lia|rewrite Ep; cbn; lia|].
    assert (M : ray_meets (PI / 8) (1, 0) (0, 1)).
    { replace (PI / 8) with (0 + PI / 8) by ring. apply (segment_ray 0 (PI / 2) 1 1); cbn [fst snd]; rewrite ?Rplus_0_l, ?cos_0, ?sin_0, ?cos_PI2, ?sin_PI2; lra. }
    rewrite Ep in C |- *. destruct C as [(_ & _ & -> & ->)|(_ & _ & -> & ->)]; cbn [nth]; [exact M|apply meets_swap; exact M].
Qed.
