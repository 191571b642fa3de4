(** * Proofs about line segments, volumes, orientations, lines and angles. *)
From Coq Require Import Reals Lra Psatz List Bool ZArith Lia.
From Verif Require Import RealBase GeomSpec GeomProofs.
Import List ListNotations.
Local Open Scope R_scope.

Lemma Rltb_iff x y : Rltb x y = true <-> x < y.
Proof. unfold Rltb. destruct (Rlt_dec x y); split; intros; try discriminate; auto; contradiction. Qed.
Lemma Rleb_iff x y : Rleb x y = true <-> x <= y.
Proof. unfold Rleb. destruct (Rle_dec x y); split; intros; try discriminate; auto; contradiction. Qed.
Lemma between_iff a b c : Rltb a b && Rltb b c = true <-> a < b < c.
Proof. rewrite andb_true_iff, !Rltb_iff. reflexivity. Qed.

(** ** Line segments and spheres *)
Lemma quad_in_ball s o d l : 0 <= s_r s -> dot3 d d = 1 ->
  (in_ball s (along o d l) <-> l * l + 2 * dot3 d (sub3 o (s_c s)) * l + (dot3 (sub3 o (s_c s)) (sub3 o (s_c s)) - s_r s * s_r s) <= 0).
Proof.
  intros H U. unfold in_ball. rewrite dist_le by auto. unfold d2, along, dot3, sub3 in *. cbn [cx cy cz].
  set (k := s_r s * s_r s). destruct o as [ox oy oz], d as [dx dy dz], (s_c s) as [x y z]. cbn [cx cy cz] in *.
  assert (E : (x - (ox + l * dx)) ^ 2 + (y - (oy + l * dy)) ^ 2 + (z - (oz + l * dz)) ^ 2 - k =
    (dx * dx + dy * dy + dz * dz) * (l * l) + 2 * (dx * (ox - x) + dy * (oy - y) + dz * (oz - z)) * l +
    ((ox - x) * (ox - x) + (oy - y) * (oy - y) + (oz - z) * (oz - z) - k)) by ring.
  rewrite U in E. lra.
Qed.
Lemma segment_ok s o d st en : 0 <= s_r s -> dot3 d d = 1 -> cy d * (cy o - cy (s_c s)) + cz d * (cz o - cz (s_c s)) = 0 ->
  let '(enter, exit, enters, exits) := line_segment_intersect s (Segment o d st en) in
  ((exists l, in_ball s (along o d l)) ->
     (forall l, in_ball s (along o d l) <-> enter <= l <= exit) /\ (enters = true <-> st < enter < en) /\ (exits = true <-> st < exit < en)) /\
  ((~ exists l, in_ball s (along o d l)) -> enters = false /\ exits = false).
Proof.
  intros H U Z. pose proof (fun l => quad_in_ball s o d l H U) as Q.
  unfold line_segment_intersect. cbv zeta. cbn [g_o g_d g_start g_end].
  set (b := 2 * cx d * (cx o - cx (s_c s)) + cy d * (cy o - cy (s_c s)) + cz d * (cz o - cz (s_c s))).
  assert (B : b = 2 * dot3 d (sub3 o (s_c s))) by (unfold b, dot3, sub3; cbn [cx cy cz]; lra).
  set (c := (cx o - cx (s_c s)) * (cx o - cx (s_c s)) + (cy o - cy (s_c s)) * (cy o - cy (s_c s)) + (cz o - cz (s_c s)) * (cz o - cz (s_c s)) - s_r s * s_r s).
  assert (C : c = dot3 (sub3 o (s_c s)) (sub3 o (s_c s)) - s_r s * s_r s) by reflexivity.
  rewrite <- B, <- C in Q. clearbody b c. clear B C Z.
  assert (Q' : forall l, in_ball s (along o d l) <-> (2 * l + b) * (2 * l + b) <= b * b - 4 * c) by (intros; rewrite Q; lra).
  clear Q. set (disc := b * b - 4 * c) in *. clearbody disc.
  unfold Rltb at 1. destruct (Rlt_dec 0 disc) as [P|P].
  - pose proof (sqrt_sqrt disc ltac:(lra)) as SS. pose proof (sqrt_lt_R0 disc P) as SP. set (q := sqrt disc) in *. clearbody q. split.
    + intros _. split; [|split; apply between_iff]. intros l. rewrite Q', <- SS. split; intros K; [|nra].
      assert (- q <= 2 * l + b <= q); [|lra]. split; apply Rnot_lt_le; intros ?; nra.
    + intros K. exfalso. apply K. exists (- b / 2). rewrite Q'. replace (2 * (- b / 2) + b) with 0 by field. lra.
  - unfold Reqb. destruct (Req_EM_T disc 0) as [E|E].
    + split.
      * intros _. split; [|split; apply between_iff]. intros l. rewrite Q', E. split; intros K.
        -- assert (2 * l + b = 0) by (apply Rsqr_0_uniq; pose proof (Rle_0_sqr (2 * l + b)) as N0; unfold Rsqr in *; lra). lra. -- replace (2 * l + b) with 0 by lra. lra.
      * intros K. exfalso. apply K. exists (- b / 2). rewrite Q'. replace (2 * (- b / 2) + b) with 0 by field. lra.
    + split; [|auto]. intros (l & K). exfalso. rewrite Q' in K. pose proof (Rle_0_sqr (2 * l + b)) as N0; unfold Rsqr in N0. lra.
Qed.

(** ** Volumes *)
Lemma volume_det t : volume t = Rabs (det_tetra t) / 6.
Proof.
  unfold volume. cbv zeta. unfold det_tetra, det3, dot3, cross3, sub3. cbn [cx cy cz].
  match goal with |- context [Rltb (?e / 6) 0] => set (x := e) end.
  match goal with |- _ = Rabs ?e / 6 => replace e with x by (unfold x; ring) end. clearbody x.
  unfold Rltb. destruct (Rlt_dec (x / 6) 0); [rewrite Rabs_left by lra|rewrite Rabs_right by lra]; lra.
Qed.
Ltac expand := unfold det_tetra, det3, dot3, cross3, sub3, swap01, swap12, swap23, tetra_translate, add3, mix3, along in *; cbn [cx cy cz t_0 t_1 t_2 t_3] in *.
Lemma det_swap t : det_tetra (swap01 t) = - det_tetra t /\ det_tetra (swap12 t) = - det_tetra t /\ det_tetra (swap23 t) = - det_tetra t.
Proof. destruct t as [[t00 t01 t02] [t10 t11 t12] [t20 t21 t22] [t30 t31 t32]]. expand. repeat split; ring. Qed.
Lemma det_translate t dx : det_tetra (tetra_translate t dx) = det_tetra t.
Proof. destruct t as [[t00 t01 t02] [t10 t11 t12] [t20 t21 t22] [t30 t31 t32]], dx as [x0 x1 x2]. expand. ring. Qed.
(** Lagrange: the determinant of a matrix that keeps dot products is 1 or -1. *)
Lemma gram a b c : det3 a b c * det3 a b c = dot3 a a * (dot3 b b * dot3 c c - dot3 b c * dot3 b c) - dot3 a b * (dot3 a b * dot3 c c - dot3 b c * dot3 a c)
  + dot3 a c * (dot3 a b * dot3 b c - dot3 b b * dot3 a c).
Proof. destruct a as [a0 a1 a2], b as [b0 b1 b2], c as [c0 c1 c2]. expand. ring. Qed.
Lemma rotate_sub a b m : sub3 (rotate_vec a m) (rotate_vec b m) = rotate_vec (sub3 a b) m.
Proof. destruct a as [a0 a1 a2], b as [b0 b1 b2], m as [[m00 m01 m02] [m10 m11 m12] [m20 m21 m22]]. unfold rotate_vec. expand. cbn [r_0 r_1 r_2 cx cy cz]. f_equal; ring. Qed.
Lemma rotate_mat v m : rotate_vec v m = mat_apply m v.
Proof. reflexivity. Qed.
Lemma det_rotate t m : orthogonal m -> Rabs (det_tetra (tetra_rotate t m)) = Rabs (det_tetra t).
Proof.
  intros O. unfold det_tetra, tetra_rotate. cbn [t_0 t_1 t_2 t_3]. rewrite !rotate_sub. apply Rsqr_eq_abs_0. unfold Rsqr. rewrite !gram, !rotate_mat, !O. reflexivity.
Qed.

(** ** Orientation *)
Lemma orient_cases t dir : orient t dir = t \/ orient t dir = swap01 t.
Proof. unfold orient. cbv zeta. destruct (_ || _); auto. Qed.
Lemma orient_det t : 0 <= det_tetra (orient t 1) /\ det_tetra (orient t (-1)) <= 0.
Proof.
  destruct (det_swap t) as (S & _ & _). unfold orient. cbv zeta. change ((1 =? -1)%Z) with false. change ((-1 =? 1)%Z) with false.
  change ((-1 =? -1)%Z) with true. change ((1 =? 1)%Z) with true. rewrite !andb_false_r, !andb_true_r, orb_false_r, orb_false_l. cbn [cx cy cz].
  match goal with |- context [Rltb 0 ?d] => set (dot := d) end.
  assert (E : dot = - det_tetra t) by (unfold dot; destruct t as [[t00 t01 t02] [t10 t11 t12] [t20 t21 t22] [t30 t31 t32]]; expand; ring). rewrite E. fold (swap01 t).
  split; unfold Rltb; [destruct (Rlt_dec 0 (- det_tetra t))|destruct (Rlt_dec (- det_tetra t) 0)]; lra.
Qed.

(** ** Lines *)
Lemma line_eps_pos : 0 < line_eps. Proof. unfold line_eps. lra. Qed.
Lemma line_eps_iff x y : line_eps_eq x y = true <-> Rabs (x - y) < line_eps.
Proof.
  unfold line_eps_eq. rewrite andb_true_iff, !Rltb_iff. split; [intros; apply Rabs_def1; lra|intros K; apply Rabs_def2 in K; lra].
Qed.
Lemma line_init_ok l x1 y1 x2 y2 l' : line_init l x1 y1 x2 y2 = (l', true) ->
  on_line l' x1 y1 /\ (l_vert l' = false -> on_line l' x2 y2) /\ (l_vert l' = true -> Rabs (x2 - l_y0 l') < line_eps).
Proof.
  unfold line_init. destruct (line_eps_eq x1 x2) eqn:E.
  - destruct (line_eps_eq y1 y2); intros K; [discriminate|]. injection K as <-. unfold on_line. cbn [l_vert l_y0].
    repeat split; auto; try discriminate. intros _. apply line_eps_iff in E. rewrite Rabs_minus_sym. exact E.
  - intros K. cbv zeta in K. injection K as <-. unfold on_line. cbn [l_vert l_y0 l_m]. assert (x1 <> x2).
    { intros ->. assert (line_eps_eq x2 x2 = true); [|congruence]. apply line_eps_iff. unfold Rminus. rewrite Rplus_opp_r, Rabs_R0. apply line_eps_pos. }
    repeat split; try discriminate; [field; lra|]. intros _. field. lra.
Qed.
Lemma line_init_fails l x1 y1 x2 y2 : snd (line_init l x1 y1 x2 y2) = false <-> Rabs (x1 - x2) < line_eps /\ Rabs (y1 - y2) < line_eps.
Proof.
  unfold line_init. rewrite <- !line_eps_iff. destruct (line_eps_eq x1 x2), (line_eps_eq y1 y2); cbn; split; intros; try tauto; try discriminate; destruct H; discriminate.
Qed.
Lemma solve_sound l1 l2 x y : solve l1 l2 = Some (x, y) ->
  on_line l1 x y /\ on_line l2 x y /\ forall x' y', on_line l1 x' y' -> on_line l2 x' y' -> x' = x /\ y' = y.
Proof.
  unfold solve, are_parallel, on_line. destruct (line_eps_eq (l_m l1) (l_m l2)) eqn:E; [rewrite orb_true_r; discriminate|]. rewrite orb_false_r.
  assert (N : l_m l1 <> l_m l2).
  { intros C. rewrite C in E. assert (K : line_eps_eq (l_m l2) (l_m l2) = true); [|congruence]. apply line_eps_iff. unfold Rminus. rewrite Rplus_opp_r, Rabs_R0. apply line_eps_pos. }
  destruct (l_vert l1) eqn:V1, (l_vert l2) eqn:V2; cbn; intros K; inversion K; subst; repeat split; try (intros; lra); auto; try congruence.
  - field. lra.
  - intros. apply Rmult_eq_reg_r with (l_m l1 - l_m l2); [|lra]. unfold Rdiv. rewrite Rmult_assoc, Rinv_l by lra. lra.
  - intros. assert (x' = (l_y0 l2 - l_y0 l1) / (l_m l1 - l_m l2)) as ->; [|lra].
    apply Rmult_eq_reg_r with (l_m l1 - l_m l2); [|lra]. unfold Rdiv. rewrite Rmult_assoc, Rinv_l by lra. lra.
Qed.

(** ** Angles *)
Lemma angular_distance_ok a b : 0 <= a < 2 * PI -> 0 <= b < 2 * PI -> same_direction (a + angular_distance a b) b /\ - PI <= angular_distance a b <= PI.
Proof.
  intros A B. unfold angular_distance. cbv zeta. unfold Rltb. destruct (Rlt_dec PI (b - a)); [|destruct (Rlt_dec (b - a) (- PI))].
  - split; [exists (-1)%Z; lra|lra]. - split; [exists 1%Z; lra|lra]. - split; [exists 0%Z; lra|lra].
Qed.
Lemma angle_in_range_sound phi low width : 0 <= phi < 2 * PI -> 0 <= low < 2 * PI -> 0 <= width <= 2 * PI -> angle_in_range phi low width = true ->
  exists a, low <= a <= low + width /\ same_direction a phi.
Proof.
  intros P L W. unfold angle_in_range. cbv zeta. unfold Rltb. destruct (Rlt_dec (2 * PI) (low + width)) as [H|H].
  - rewrite orb_true_iff, !Rleb_iff. intros [K|K].
    + exists phi. split; [lra|]. exists 0%Z. lra.
    + exists (phi + 2 * PI). split; [lra|]. exists 1%Z. lra.
  - rewrite andb_true_iff, !Rleb_iff. intros [K1 K2]. exists phi. split; [lra|]. exists 0%Z. lra.
Qed.
Lemma angle_in_range_complete phi low width a : 0 <= phi < 2 * PI -> 0 <= low < 2 * PI -> 0 <= width <= 2 * PI -> low + width <> 2 * PI \/ phi <> 0 \/ low = 0 ->
  low <= a <= low + width -> same_direction a phi -> angle_in_range phi low width = true.
Proof.
  intros P L W N A (k & K). pose proof PI_RGT_0 as PP.
  assert (k = 0 \/ k = 1)%Z as [-> | ->].
  { assert (-1 < k)%Z by (apply lt_IZR; nra). assert (k < 2)%Z by (apply lt_IZR; nra). lia. }
  - unfold angle_in_range. cbv zeta. unfold Rltb. destruct (Rlt_dec (2 * PI) (low + width)) as [H|H].
    + apply orb_true_iff. left. apply Rleb_iff. lra.
    + apply andb_true_iff. rewrite !Rleb_iff. lra.
  - unfold angle_in_range. cbv zeta. unfold Rltb. destruct (Rlt_dec (2 * PI) (low + width)) as [H|H].
    + apply orb_true_iff. right. apply Rleb_iff. lra.
    + apply andb_true_iff. rewrite !Rleb_iff. lra.
Qed.
