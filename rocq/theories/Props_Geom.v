(** * C157-C170: the geometry package (exact arithmetic). *)
From Coq Require Import Reals Lra Psatz List Bool ZArith Lia Permutation.
From Verif Require Import RealBase GeomSpec GeomProofs GeomProofs2 GeomProofs3 GeomProofs4 GeomProofs5 GeomProofs6 GeomProofs7.
Import List ListNotations.
Local Open Scope R_scope.

(** ** C157 *)
Theorem C157_point : forall s v, 0 <= s_r s -> (vec_intersect s v = true <-> in_ball s v).
Proof. exact vec_intersect_iff. Qed.
Print Assumptions C157_point.
Theorem C157_spheres : forall s1 s2, 0 <= s_r s1 -> 0 <= s_r s2 -> (sphere_intersect s1 s2 = true <-> exists p, in_ball s1 p /\ in_ball s2 p).
Proof. exact sphere_intersect_iff. Qed.
Print Assumptions C157_spheres.
Theorem C157_tetra_contained : forall s t, 0 <= s_r s -> (tetra_contain s t = true <-> forall p, in_tetra t p -> in_ball s p).
Proof. exact tetra_contain_iff. Qed.
Print Assumptions C157_tetra_contained.
Theorem C157_bounding_sphere : forall t p, in_tetra t p -> in_ball (bounding_sphere t) p.
Proof. exact bounding_contains. Qed.
Print Assumptions C157_bounding_sphere.
(** The bounding sphere is centred at the centre of the four corners and goes through the furthest one. *)
Theorem C157_bounding_tight : forall t, let s := bounding_sphere t in
  4 * cx (s_c s) = cx (t_0 t) + cx (t_1 t) + cx (t_2 t) + cx (t_3 t) /\ 4 * cy (s_c s) = cy (t_0 t) + cy (t_1 t) + cy (t_2 t) + cy (t_3 t) /\
  4 * cz (s_c s) = cz (t_0 t) + cz (t_1 t) + cz (t_2 t) + cz (t_3 t) /\ In (s_r s) (map (dist3 (s_c s)) [t_0 t; t_1 t; t_2 t; t_3 t]).
Proof. exact bounding_tight. Qed.
Print Assumptions C157_bounding_tight.
Example C157_nonvacuous : sphere_intersect (Sphere (V3 0 0 0) 1) (Sphere (V3 2 0 0) 1) = true /\ sphere_intersect (Sphere (V3 0 0 0) 1) (Sphere (V3 2 1 0) 1) = false.
Proof.
  split; [apply sum_within_iff; unfold d2; cbn; lra|]. apply not_true_is_false. intros K. apply sum_within_iff in K. unfold d2 in K. cbn in K. lra.
Qed.

(** ** C158 *)
(** s1.SphereContain(s2) is true exactly when s2 is the smaller sphere and s1 contains it ... *)
Theorem C158_contains_partial : forall s1 s2, 0 <= s_r s2 -> (sphere_contain s1 s2 = true <-> s_r s2 < s_r s1 /\ forall p, in_ball s2 p -> in_ball s1 p).
Proof. exact sphere_contain_iff. Qed.
Print Assumptions C158_contains_partial.
(** ... and not when "s1 is completely contained in s2", as documented: then it is always false. *)
Theorem C158_documented_refuted : forall s1 s2, 0 <= s_r s1 -> (forall p, in_ball s1 p -> in_ball s2 p) -> sphere_contain s1 s2 = false.
Proof.
  intros s1 s2 H K. apply not_true_is_false. intros C. unfold sphere_contain in C. unfold Rleb in C. destruct (Rle_dec (s_r s1) (s_r s2)) as [|N]; [discriminate|].
  apply Rnot_le_lt in N. set (c := s_c s1) in *.
  assert (P1 : in_ball s1 (V3 (cx c + s_r s1) (cy c) (cz c))) by (unfold in_ball; apply dist_le; auto; unfold d2; cbn [cx cy cz]; fold c; right; ring).
  assert (P2 : in_ball s1 (V3 (cx c - s_r s1) (cy c) (cz c))) by (unfold in_ball; apply dist_le; auto; unfold d2; cbn [cx cy cz]; fold c; right; ring).
  apply K in P1, P2. unfold in_ball in P1, P2. pose proof (dist_pos (s_c s2) (V3 (cx c + s_r s1) (cy c) (cz c))).
  assert (R2 : 0 <= s_r s2) by lra. apply dist_le in P1, P2; auto. unfold d2 in *. cbn [cx cy cz] in *.
  pose proof (pow2_ge_0 (cx (s_c s2) - cx c)). pose proof (pow2_ge_0 (cy (s_c s2) - cy c)). pose proof (pow2_ge_0 (cz (s_c s2) - cz c)).
  assert (s_r s2 * s_r s2 < s_r s1 * s_r s1) by nra. lra.
Qed.
Print Assumptions C158_documented_refuted.
Example C158_nonvacuous : sphere_contain (Sphere (V3 0 0 0) 3) (Sphere (V3 1 0 0) 1) = true.
Proof.
  unfold sphere_contain. cbn [s_r s_c]. unfold Rleb. destruct (Rle_dec 3 1); [lra|]. apply sum_within_iff. unfold d2; cbn; lra.
Qed.

(** ** C159 *)
Theorem C159_overlap_partial : forall s t, 0 <= s_r s -> tetra_intersect s t = true -> exists p, in_tetra t p /\ in_ball s p.
Proof. exact tetra_intersect_sound. Qed.
Print Assumptions C159_overlap_partial.
(** A sphere of radius 1/10 in the middle of a tetrahedron is not found. *)
Theorem C159_inside_refuted : let t := Tetra (V3 0 0 0) (V3 4 0 0) (V3 0 4 0) (V3 0 0 4) in let s := Sphere (V3 1 1 1) (1 / 10) in
  (forall p, in_ball s p -> in_tetra t p) /\ tetra_intersect s t = false.
Proof.
  split.
  - intros p K. unfold in_ball in K. apply dist_le in K; [|cbn; lra]. unfold d2 in K. cbn [s_c s_r cx cy cz] in K.
    assert (B : forall a b c, (1 - a) ^ 2 + b ^ 2 + c ^ 2 <= 1 / 10 * (1 / 10) -> 9 / 10 <= a <= 11 / 10).
    { intros a b c H. pose proof (pow2_ge_0 b). pose proof (pow2_ge_0 c). split; apply Rnot_lt_le; intros ?; nra. }
    assert (X : 9 / 10 <= cx p <= 11 / 10) by (apply (B _ (1 - cy p) (1 - cz p)); lra). assert (Y : 9 / 10 <= cy p <= 11 / 10) by (apply (B _ (1 - cx p) (1 - cz p)); lra).
    assert (Z : 9 / 10 <= cz p <= 11 / 10) by (apply (B _ (1 - cx p) (1 - cy p)); lra). clear B K.
    exists (1 - cx p / 4 - cy p / 4 - cz p / 4), (cx p / 4), (cy p / 4), (cz p / 4). repeat split; try lra.
    unfold mix3. destruct p as [a b c]. cbn [cx cy cz t_0 t_1 t_2 t_3]. f_equal; field.
  - apply not_true_is_false. intros K. apply existsb_exists in K. destruct K as (i & Hi & K). apply sum_within_iff in K. unfold d2 in K. cbn [s_c s_r] in K.
    cbn in Hi. destruct Hi as [<-|[<-|[<-|[<-|[]]]]]; cbn in K; lra.
Qed.
Print Assumptions C159_inside_refuted.
Example C159_nonvacuous : tetra_intersect (Sphere (V3 0 0 0) 1) (Tetra (V3 0 0 0) (V3 4 0 0) (V3 0 4 0) (V3 0 0 4)) = true.
Proof. apply existsb_exists. exists 0%nat. split; [cbn; auto|]. apply sum_within_iff. unfold d2; cbn; lra. Qed.

(** ** C160 *)
(** What is promised for a segment with a direction of length 1: when the line meets the ball, enter and exit delimit the part inside of the ball and the flags say
    whether they are on the segment; otherwise both flags are false. *)
Definition segment_right (s : sphere) (ls : segment) (res : R * R * bool * bool) : Prop :=
  let '(enter, exit, enters, exits) := res in
  ((exists l, in_ball s (along (g_o ls) (g_d ls) l)) ->
     (forall l, in_ball s (along (g_o ls) (g_d ls) l) <-> enter <= l <= exit) /\ (enters = true <-> g_start ls < enter < g_end ls) /\ (exits = true <-> g_start ls < exit < g_end ls)) /\
  ((~ exists l, in_ball s (along (g_o ls) (g_d ls) l)) -> enters = false /\ exits = false).
Theorem C160_segment_partial : forall s ls, 0 <= s_r s -> dot3 (g_d ls) (g_d ls) = 1 ->
  cy (g_d ls) * (cy (g_o ls) - cy (s_c s)) + cz (g_d ls) * (cz (g_o ls) - cz (s_c s)) = 0 -> segment_right s ls (line_segment_intersect s ls).
Proof. intros s [o d a b] H U Z. exact (segment_ok s o d a b H U Z). Qed.
Print Assumptions C160_segment_partial.
(** A segment along y from (0, -2, 0) through the unit sphere: no intersection is found. *)
Theorem C160_other_axes_refuted : let s := Sphere (V3 0 0 0) 1 in let ls := Segment (V3 0 (-2) 0) (V3 0 1 0) 0 4 in
  line_segment_intersect s ls = (0, 0, false, false) /\ ~ segment_right s ls (line_segment_intersect s ls).
Proof.
  cbv zeta. assert (E : line_segment_intersect (Sphere (V3 0 0 0) 1) (Segment (V3 0 (-2) 0) (V3 0 1 0) 0 4) = (0, 0, false, false)).
  { unfold line_segment_intersect. cbn [g_o g_d s_c s_r cx cy cz g_start g_end]. cbv zeta. unfold Rltb at 1, Reqb at 1.
    match goal with |- context [Rlt_dec 0 ?d] => replace d with (- 8) by lra end.
    destruct (Rlt_dec 0 (- 8)); [lra|]. destruct (Req_EM_T (- 8) 0); [lra|]. reflexivity. }
  split; [exact E|]. rewrite E. unfold segment_right. cbn [g_o g_d g_start g_end]. intros [K _].
  assert (I : in_ball (Sphere (V3 0 0 0) 1) (along (V3 0 (-2) 0) (V3 0 1 0) 2)) by (unfold in_ball; apply dist_le; [cbn; lra|]; unfold d2, along; cbn; lra).
  destruct (K (ex_intro _ 2 I)) as [K' _]. apply K' in I. lra.
Qed.
Print Assumptions C160_other_axes_refuted.
Example C160_nonvacuous : line_segment_intersect (Sphere (V3 7 0 0) 1) (Segment (V3 0 0 0) (V3 1 0 0) 1 (15 / 2)) = (6, 8, true, false).
Proof.
  unfold line_segment_intersect. cbn [g_o g_d s_c s_r cx cy cz g_start g_end]. cbv zeta. unfold Rltb at 1.
  match goal with |- context [Rlt_dec 0 ?d] => replace d with (2 * 2) by lra end. destruct (Rlt_dec 0 (2 * 2)); [|lra]. rewrite sqrt_square by lra.
  match goal with |- (?a, ?b, _, _) = _ => replace a with 6 by lra; replace b with 8 by lra end. unfold Rltb.
  destruct (Rlt_dec 1 6), (Rlt_dec 6 (15 / 2)), (Rlt_dec 1 8), (Rlt_dec 8 (15 / 2)); try lra; reflexivity.
Qed.

(** ** C161 *)
(** Volume is the volume: a b c / 6 for the corner of a box, the same after translations, rotations and reflections and for any order of the vertices, additive when
    the tetrahedron is cut by a plane through an edge, and 0 only when the vertices are in a plane. *)
Theorem C161_corner : forall a b c, volume (Tetra (V3 0 0 0) (V3 a 0 0) (V3 0 b 0) (V3 0 0 c)) = Rabs (a * b * c) / 6.
Proof. intros. rewrite volume_det. do 2 f_equal. expand. ring. Qed.
Print Assumptions C161_corner.
Theorem C161_moved : forall t dx m, orthogonal m -> volume (tetra_translate t dx) = volume t /\ volume (tetra_rotate t m) = volume t.
Proof. intros t dx m O. rewrite !volume_det, det_translate, (det_rotate t m O). auto. Qed.
Print Assumptions C161_moved.
(** tetra_rotate applies the matrix to every corner, tetra_translate adds the vector to every corner. *)
Theorem C161_corners_moved : forall t dx m i, (i < 4)%nat -> vertex (tetra_rotate t m) i = mat_apply m (vertex t i) /\
  sub3 (vertex (tetra_translate t dx) i) (vertex t i) = dx.
Proof.
  intros t dx m i Hi. split; [faces i Hi; reflexivity|]. destruct dx as [x0 x1 x2], t as [[t00 t01 t02] [t10 t11 t12] [t20 t21 t22] [t30 t31 t32]].
  faces i Hi; unfold tetra_translate; cbn [vertex t_0 t_1 t_2 t_3]; expand; f_equal; ring.
Qed.
Print Assumptions C161_corners_moved.
Theorem C161_reordered : forall t, volume (swap01 t) = volume t /\ volume (swap12 t) = volume t /\ volume (swap23 t) = volume t.
Proof. intros t. rewrite !volume_det. destruct (det_swap t) as (-> & -> & ->). rewrite Rabs_Ropp. auto. Qed.
Print Assumptions C161_reordered.
Theorem C161_cut : forall p q r s u, 0 <= u <= 1 -> let m := mix3 (1 - u) u 0 0 p q zero3 zero3 in
  volume (Tetra p m r s) + volume (Tetra m q r s) = volume (Tetra p q r s).
Proof.
  intros p q r s u H m. rewrite !volume_det. assert (A : det_tetra (Tetra p m r s) = u * det_tetra (Tetra p q r s)) by (unfold m, zero3; named; expand; ring).
  assert (B : det_tetra (Tetra m q r s) = (1 - u) * det_tetra (Tetra p q r s)) by (unfold m, zero3; named; expand; ring). rewrite A, B, !Rabs_mult, !(Rabs_right u), !(Rabs_right (1 - u)) by lra. lra.
Qed.
Print Assumptions C161_cut.
Theorem C161_flat : forall t n d, nonzero n -> (forall i, (i < 4)%nat -> dot3 n (vertex t i) = d) -> volume t = 0.
Proof.
  intros t n d N H. rewrite volume_det. pose proof (H 0%nat ltac:(lia)) as H0. pose proof (H 1%nat ltac:(lia)) as H1. pose proof (H 2%nat ltac:(lia)) as H2. pose proof (H 3%nat ltac:(lia)) as H3.
  cbn [vertex] in *. set (a := sub3 (t_1 t) (t_0 t)). set (b := sub3 (t_2 t) (t_0 t)). set (c := sub3 (t_3 t) (t_0 t)).
  assert (A : dot3 n a = 0) by (unfold a, sub3, dot3 in *; cbn [cx cy cz]; lra). assert (B : dot3 n b = 0) by (unfold b, sub3, dot3 in *; cbn [cx cy cz]; lra).
  assert (C : dot3 n c = 0) by (unfold c, sub3, dot3 in *; cbn [cx cy cz]; lra).
  assert (Z : det_tetra t = 0).
  { change (det_tetra t) with (det3 a b c). clearbody a b c. destruct n as [n0 n1 n2], a as [a0 a1 a2], b as [b0 b1 b2], c as [c0 c1 c2].
    assert (X : n0 * det3 (V3 a0 a1 a2) (V3 b0 b1 b2) (V3 c0 c1 c2) = 0 /\ n1 * det3 (V3 a0 a1 a2) (V3 b0 b1 b2) (V3 c0 c1 c2) = 0 /\ n2 * det3 (V3 a0 a1 a2) (V3 b0 b1 b2) (V3 c0 c1 c2) = 0).
    { unfold dot3 in A, B, C. cbn [cx cy cz] in A, B, C. expand. repeat split.
      - transitivity ((n0 * a0 + n1 * a1 + n2 * a2) * (b1 * c2 - b2 * c1) + (n0 * b0 + n1 * b1 + n2 * b2) * (c1 * a2 - c2 * a1) + (n0 * c0 + n1 * c1 + n2 * c2) * (a1 * b2 - a2 * b1)); [ring|rewrite A, B, C; ring].
      - transitivity ((n0 * a0 + n1 * a1 + n2 * a2) * (b2 * c0 - b0 * c2) + (n0 * b0 + n1 * b1 + n2 * b2) * (c2 * a0 - c0 * a2) + (n0 * c0 + n1 * c1 + n2 * c2) * (a2 * b0 - a0 * b2)); [ring|rewrite A, B, C; ring].
      - transitivity ((n0 * a0 + n1 * a1 + n2 * a2) * (b0 * c1 - b1 * c0) + (n0 * b0 + n1 * b1 + n2 * b2) * (c0 * a1 - c1 * a0) + (n0 * c0 + n1 * c1 + n2 * c2) * (a0 * b1 - a1 * b0)); [ring|rewrite A, B, C; ring]. }
    destruct X as (X0 & X1 & X2). unfold nonzero in N. cbn [cx cy cz] in N. apply Rmult_integral in X0, X1, X2. tauto. }
  rewrite Z, Rabs_R0. lra.
Qed.
Print Assumptions C161_flat.
Example C161_nonvacuous : orthogonal (M3 (V3 0 (-1) 0) (V3 1 0 0) (V3 0 0 1)) /\ volume (Tetra (V3 0 2 0) (V3 3 0 0) (V3 0 0 1) (V3 0 0 0)) = 1.
Proof.
  split; [intros v u; named; unfold mat_apply, dot3; cbn [r_0 r_1 r_2 cx cy cz]; ring|]. rewrite volume_det. expand.
  match goal with |- Rabs ?e / 6 = 1 => replace e with 6 by lra end. rewrite Rabs_right by lra. lra.
Qed.

(** ** C162 *)
(** The right-hand normal of a face given by three vertices. *)
Definition face_normal (t : tetra) (f : nat) : v3 :=
  let A := vertex t (vertex_idx f 0) in cross3 (sub3 (vertex t (vertex_idx f 1)) A) (sub3 (vertex t (vertex_idx f 2)) A).
(** The vertex that is not on face f has the number f. *)
Definition towards_inside (t : tetra) (f : nat) : R := dot3 (face_normal t f) (sub3 (vertex t f) (vertex t (vertex_idx f 0))).
(** Orient keeps the four points, and then all four faces point the same way: inwards for +1 and outwards for -1 (right-hand normals). *)
Theorem C162_orient_partial : forall t, (orient t 1 = t \/ orient t 1 = swap01 t) /\ (orient t (-1) = t \/ orient t (-1) = swap01 t) /\
  (forall f, (f < 4)%nat -> 0 <= towards_inside (orient t 1) f) /\ (forall f, (f < 4)%nat -> towards_inside (orient t (-1)) f <= 0) /\
  (volume t <> 0 -> forall f, (f < 4)%nat -> 0 < towards_inside (orient t 1) f /\ towards_inside (orient t (-1)) f < 0).
Proof.
  intros t. split; [apply orient_cases|]. split; [apply orient_cases|]. destruct (orient_det t) as [A B].
  assert (E : forall t f, (f < 4)%nat -> towards_inside t f = det_tetra t).
  { clear. intros t f Hf. unfold towards_inside, face_normal. faces f Hf; cbn [vertex_idx nth tetra_idxs vertex]; named; cbn [t_0 t_1 t_2 t_3]; expand; ring. }
  split; [intros f Hf; rewrite E by auto; exact A|]. split; [intros f Hf; rewrite E by auto; exact B|]. intros V f Hf. rewrite !E by auto.
  assert (D : forall u, u = t \/ u = swap01 t -> det_tetra u <> 0).
  { intros u Hu C. apply V. rewrite volume_det. destruct Hu as [<-|Hu]; [rewrite C, Rabs_R0; lra|]. subst u. rewrite (proj1 (det_swap t)) in C.
    replace (det_tetra t) with 0 by lra. rewrite Rabs_R0. lra. }
  pose proof (D _ (orient_cases t 1)). pose proof (D _ (orient_cases t (-1))). lra.
Qed.
Print Assumptions C162_orient_partial.
(** "All faces point outward for dir = +1" is the other way round. *)
Theorem C162_outward_refuted : forall t f, (f < 4)%nat -> volume t <> 0 -> 0 < towards_inside (orient t 1) f.
Proof. intros t f Hf V. apply (C162_orient_partial t); auto. Qed.
Print Assumptions C162_outward_refuted.
Example C162_nonvacuous : volume (Tetra (V3 0 2 0) (V3 3 0 0) (V3 0 0 1) (V3 0 0 0)) <> 0.
Proof. rewrite (proj2 C161_nonvacuous). lra. Qed.

(** ** C163 *)
(** A ray through the interior of a tetrahedron that has been oriented with +1: the two distances delimit exactly the part of the ray in the tetrahedron. *)
Theorem C163_distances_partial : forall t0 P L, volume t0 <> 0 -> long_enough L -> let t := orient t0 1 in (exists l, in_interior t (along P L l)) ->
  exists enter leave, intersection_distance (plucker_tetra t) t (anchored_init P L) = Some (Num enter, Num leave) /\ enter < leave /\
    forall l, in_tetra t (along P L l) <-> enter <= l <= leave.
Proof.
  intros t0 P L V HL t I. apply through_interior; auto. destruct (orient_det t0) as [A _]. fold t in A. assert (det_tetra t <> 0); [|lra].
  intros C. apply V. rewrite volume_det. destruct (orient_cases t0 1) as [E|E]; fold t in E; rewrite E in C; [|rewrite (proj1 (det_swap t0)) in C].
  - rewrite C, Rabs_R0. lra. - replace (det_tetra t0) with 0 by lra. rewrite Rabs_R0. lra.
Qed.
Print Assumptions C163_distances_partial.
(** For every tetrahedron and every ray: no false distances. A distance that is a number belongs to a point of the tetrahedron. *)
Theorem C163_no_false_hits : forall t P L u v, long_enough L -> intersection_distance (plucker_tetra t) t (anchored_init P L) = Some (u, v) ->
  (u = NotFinite \/ exists l, u = Num l /\ in_tetra t (along P L l)) /\ (v = NotFinite \/ exists l, v = Num l /\ in_tetra t (along P L l)).
Proof. exact distances_on_tetra. Qed.
Print Assumptions C163_no_false_hits.
(** A ray in the plane of a face, through the face: ok is true but the first distance is NaN. *)
Theorem C163_face_refuted : let t := Tetra (V3 0 0 0) (V3 1 0 0) (V3 0 1 0) (V3 0 0 1) in let P := V3 (-1) (1 / 4) 0 in let L := V3 1 0 0 in
  orient t 1 = t /\ in_tetra t (along P L (3 / 2)) /\ exists v, intersection_distance (plucker_tetra t) t (anchored_init P L) = Some (NotFinite, v).
Proof.
  intros t P L. split.
  { destruct (orient_cases t 1) as [E|E]; auto. exfalso. pose proof (proj1 (orient_det t)) as D. rewrite E in D. unfold t in D. expand. lra. }
  split.
  { exists (1 / 4), (1 / 2), (1 / 4), 0. repeat split; try lra. unfold t, P, L, along, mix3. cbn. f_equal; field. }
  unfold intersection_distance. change (a_p (anchored_init P L)) with (plucker_init P L).
  assert (B : exists g, intersection_bary (plucker_tetra t) (plucker_init P L) = Some (fbary t P L 3, g)).
  { assert (E3 : enters t P L 3 = true) by (apply enters_iff; unfold t, P, L; blow; repeat split; lra).
    unfold intersection_bary. cbn [bary_loop]. rewrite !(bary_face_eq t P L 3) by lia. rewrite E3. cbv beta iota. rewrite !(bary_face_eq t P L 2) by lia. cbv beta iota.
    destruct (leaves t P L 2) eqn:L2; [eauto|]. rewrite !(bary_face_eq t P L 1) by lia. cbv beta iota. destruct (leaves t P L 1) eqn:L1; [eauto|].
    rewrite !(bary_face_eq t P L 0) by lia. cbv beta iota. destruct (leaves t P L 0) eqn:L0; [eauto|]. exfalso.
    first [assert (leaves t P L 2 = true) by (apply leaves_iff; unfold t, P, L; blow; repeat split; lra); congruence
          |assert (leaves t P L 1 = true) by (apply leaves_iff; unfold t, P, L; blow; repeat split; lra); congruence
          |assert (leaves t P L 0 = true) by (apply leaves_iff; unfold t, P, L; blow; repeat split; lra); congruence]. }
  destruct B as (g & ->). eexists. f_equal. f_equal.
  unfold distance, fbary. cbn [b_w0 b_w1 b_w2 b_face]. cbv zeta. change (p_u (a_p (anchored_init P L))) with L.
  assert (HL : long_enough L) by (left; cbn; rewrite Rabs_right; lra). destruct (pick_ok L HL) as (p & _ & _ & C). rewrite !C.
  match goal with |- context [Reqb ?s 0] => replace s with 0 by (unfold t, P, L; blow; lra) end. unfold Reqb. destruct (Req_EM_T 0 0); [reflexivity|lra].
Qed.
Print Assumptions C163_face_refuted.
Example C163_nonvacuous : let t := Tetra (V3 0 0 0) (V3 1 0 0) (V3 0 1 0) (V3 0 0 1) in
  volume t <> 0 /\ long_enough (V3 1 0 0) /\ in_interior (orient t 1) (along (V3 (-1) (1 / 4) (1 / 4)) (V3 1 0 0) (5 / 4)).
Proof.
  intros t. assert (O : orient t 1 = t) by apply C163_face_refuted. split; [|split].
  - rewrite volume_det. unfold t. expand. match goal with |- Rabs ?e / 6 <> 0 => replace e with 1 by lra end. rewrite Rabs_R1. lra.
  - left. cbn. rewrite Rabs_right; lra.
  - rewrite O. exists (1 / 4), (1 / 4), (1 / 4), (1 / 4). repeat split; try lra. unfold t, along, mix3. cbn. f_equal; field.
Qed.

(** ** C164 *)
(** Translating a ray, a tetrahedron and its edges is the same as building them from the translated points. *)
Theorem C164_translate : forall P L t dx, anchored_translate (anchored_init P L) dx = anchored_init (add3 P dx) L /\
  plucker_tetra_translate (plucker_tetra t) dx = plucker_tetra (tetra_translate t dx).
Proof. intros. split; [apply translate_init|apply translate_tetra]. Qed.
Print Assumptions C164_translate.
(** Two rays meet or are parallel exactly when their permuted inner product is 0. *)
Theorem C164_dot : forall P L Q M, plucker_dot (plucker_init P L) (plucker_init Q M) true = 0 <-> dot3 (sub3 Q P) (cross3 L M) = 0.
Proof.
  intros. replace (plucker_dot _ _ _) with (dot3 (sub3 Q P) (cross3 L M)); [reflexivity|]. named. unfold plucker_dot, plucker_init, moment. cbn [p_u p_v cx cy cz]. expand. ring.
Qed.
Print Assumptions C164_dot.
(** The vector made from a segment is the ray that starts at its first end and points to the second. *)
Theorem C164_segment : forall P Q, anchored_segment P Q = anchored_init P (sub3 Q P) /\ a_o (anchored_segment P Q) = P /\ along P (p_u (a_p (anchored_segment P Q))) 1 = Q.
Proof.
  intros [P0 P1 P2] [Q0 Q1 Q2]. split; [reflexivity|]. split; [reflexivity|]. unfold anchored_segment, plucker_segment, along, plucker_init. cbn [a_p p_u cx cy cz]. f_equal; ring.
Qed.
Print Assumptions C164_segment.
Example C164_nonvacuous : plucker_dot (plucker_init (V3 0 0 0) (V3 1 0 0)) (plucker_init (V3 3 5 0) (V3 0 1 0)) true = 0.
Proof. apply C164_dot. expand. lra. Qed.

(** ** C165 *)
Theorem C165_line_init : forall l x1 y1 x2 y2 l', line_init l x1 y1 x2 y2 = (l', true) ->
  on_line l' x1 y1 /\ (l_vert l' = false -> on_line l' x2 y2) /\ (l_vert l' = true -> Rabs (x2 - l_y0 l') < line_eps).
Proof. exact line_init_ok. Qed.
Print Assumptions C165_line_init.
(** Solve returns the point that both lines share, and it is the only one ... *)
Theorem C165_solve_partial : forall l1 l2 x y, solve l1 l2 = Some (x, y) ->
  on_line l1 x y /\ on_line l2 x y /\ forall x' y', on_line l1 x' y' -> on_line l2 x' y' -> x' = x /\ y' = y.
Proof. exact solve_sound. Qed.
Print Assumptions C165_solve_partial.
(** ... it is found whenever the slopes are not within 0.00001 of each other and one of the lines is not vertical ... *)
Theorem C165_solve_found_partial : forall l1 l2, l_vert l1 = false \/ l_vert l2 = false -> line_eps <= Rabs (l_m l1 - l_m l2) -> exists x y, solve l1 l2 = Some (x, y).
Proof.
  intros l1 l2 V M. unfold solve, are_parallel. assert (F : line_eps_eq (l_m l1) (l_m l2) = false) by (apply not_true_is_false; intros K; apply line_eps_iff in K; lra).
  rewrite F, orb_false_r. destruct (l_vert l1), (l_vert l2); cbn; destruct V; try discriminate; eauto.
Qed.
Print Assumptions C165_solve_found_partial.
(** ... but a vertical and a horizontal line "do not intersect": M of a new vertical line is 0, as is that of a horizontal one. *)
Theorem C165_perpendicular_refuted : forall x y, let l0 := Line 0 0 false in
  exists v h, line_init l0 x (y - 1) x (y + 1) = (v, true) /\ line_init l0 (x - 1) y (x + 1) y = (h, true) /\
    on_line v x y /\ on_line h x y /\ solve v h = None.
Proof.
  intros x y l0. pose proof line_eps_pos as EP. assert (E1 : line_eps = 1 / 100000) by reflexivity.
  assert (S : forall a, line_eps_eq a a = true) by (intros; apply line_eps_iff; unfold Rminus; rewrite Rplus_opp_r, Rabs_R0; lra).
  assert (F : forall a, line_eps_eq (a - 1) (a + 1) = false).
  { intros a. apply not_true_is_false. intros K. apply line_eps_iff in K. replace (a - 1 - (a + 1)) with (-2) in K by lra. rewrite Rabs_left in K; lra. }
  exists (Line x 0 true), (Line (y - (y - y) / (x - 1 - (x + 1)) * (x - 1)) ((y - y) / (x - 1 - (x + 1))) false). unfold line_init. rewrite S, !F.
  split; [reflexivity|]. split; [reflexivity|]. assert (Z : (y - y) / (x - 1 - (x + 1)) = 0) by (field; lra). rewrite Z. unfold on_line. cbn [l_vert l_y0 l_m].
  split; [reflexivity|]. split; [lra|]. unfold solve, are_parallel. cbn [l_vert l_m]. rewrite S. reflexivity.
Qed.
Print Assumptions C165_perpendicular_refuted.
Example C165_nonvacuous : solve (Line 0 1 false) (Line 2 (-1) false) = Some (1, 1).
Proof.
  unfold solve, are_parallel. cbn [l_vert l_m l_y0]. replace (line_eps_eq 1 (-1)) with false; cbn.
  - f_equal. f_equal; field. - symmetry. apply not_true_is_false. intros K. apply line_eps_iff in K. unfold line_eps in K. rewrite Rabs_right in K; lra.
Qed.

(** ** C166 *)
(** The line made from a Pluecker vector goes through its origin, but in general not in its direction: the direction is used as a second point. *)
Theorem C166_aligned_refuted : let ap := anchored_init (V3 1 0 0) (V3 0 1 0) in forall l0, exists l, line_plucker l0 ap = (l, true) /\
  on_line l 1 0 /\ ~ on_line l 1 1.
Proof.
  intros ap l0. unfold line_plucker, ap, anchored_init, plucker_init. cbn [a_o a_p p_u cx cy]. unfold line_init.
  assert (F : line_eps_eq 1 0 = false). { apply not_true_is_false. intros K. apply line_eps_iff in K. unfold line_eps in K. rewrite Rabs_right in K; lra. }
  rewrite F. eexists. split; [reflexivity|]. unfold on_line. cbn [l_vert l_y0 l_m]. split; [field|]. intros K. lra.
Qed.
Print Assumptions C166_aligned_refuted.
(** It is right when the ray starts at the origin of the coordinate system. *)
Theorem C166_aligned_partial : forall l0 L l, line_plucker l0 (anchored_init (V3 0 0 0) L) = (l, true) -> l_vert l = false ->
  forall u, on_line l (u * cx L) (u * cy L).
Proof.
  intros l0 L l. unfold line_plucker, anchored_init, plucker_init. cbn [a_o a_p p_u cx cy]. intros K V u. destruct (line_init_ok _ _ _ _ _ _ K) as (A & B & _). specialize (B V).
  unfold on_line in *. rewrite V in *. assert (Y : l_y0 l = 0) by lra. rewrite B, Y. ring.
Qed.
Print Assumptions C166_aligned_partial.
Example C166_nonvacuous : exists l, line_plucker (Line 0 0 false) (anchored_init (V3 0 0 0) (V3 1 2 0)) = (l, true) /\ l_vert l = false.
Proof.
  unfold line_plucker, anchored_init, plucker_init. cbn [a_o a_p p_u cx cy]. unfold line_init.
  replace (line_eps_eq 0 1) with false; [eexists; split; reflexivity|]. symmetry. apply not_true_is_false. intros K. apply line_eps_iff in K. unfold line_eps in K. rewrite Rabs_left in K; lra.
Qed.

(** ** C167 *)
Theorem C167_distance_partial : forall a b, 0 <= a < 2 * PI -> 0 <= b < 2 * PI -> same_direction (a + angular_distance a b) b /\ - PI <= angular_distance a b <= PI.
Proof. exact angular_distance_ok. Qed.
Print Assumptions C167_distance_partial.
(** The documented range [0, 2 pi) is not the range of the result. *)
Theorem C167_range_refuted : angular_distance 1 0 = -1.
Proof.
  pose proof PI2_3_2. unfold angular_distance. cbv zeta. unfold Rltb. assert (PI > 3) by (pose proof PI2_3_2; unfold PI2 in *; lra).
  destruct (Rlt_dec PI (0 - 1)); [lra|]. destruct (Rlt_dec (0 - 1) (- PI)); lra.
Qed.
Print Assumptions C167_range_refuted.
(** AngleInRange is true exactly for the directions in the range, except for the direction 0 when the range ends at 2 pi. *)
Theorem C167_in_range_partial : forall phi low width, 0 <= phi < 2 * PI -> 0 <= low < 2 * PI -> 0 <= width <= 2 * PI -> low + width <> 2 * PI \/ phi <> 0 \/ low = 0 ->
  (angle_in_range phi low width = true <-> exists a, low <= a <= low + width /\ same_direction a phi).
Proof. intros phi low width P L W N. split; [apply angle_in_range_sound; auto|]. intros (a & A & S). apply (angle_in_range_complete phi low width a); auto. Qed.
Print Assumptions C167_in_range_partial.
Theorem C167_end_refuted : angle_in_range 0 PI PI = false /\ same_direction (PI + PI) 0.
Proof.
  pose proof PI_RGT_0. split; [|exists 1%Z; lra]. unfold angle_in_range. cbv zeta. unfold Rltb. destruct (Rlt_dec (2 * PI) (PI + PI)); [lra|].
  unfold Rleb. destruct (Rle_dec PI 0); [lra|]. reflexivity.
Qed.
Print Assumptions C167_end_refuted.
Example C167_nonvacuous : angle_in_range 0 (3 * PI / 2) PI = true.
Proof.
  pose proof PI_RGT_0. unfold angle_in_range. cbv zeta. unfold Rltb. destruct (Rlt_dec (2 * PI) (3 * PI / 2 + PI)); [|lra].
  apply orb_true_iff. right. apply Rleb_iff. lra.
Qed.

(** ** C168 *)
(** A slice has no, three or four corners; at least three when the plane is strictly between the lowest and the highest vertex; the corners are in the tetrahedron
    and in the plane; and link joins them in a cycle that visits every corner once, each line within one face. *)
Theorem C168_corners : forall t z, let n := length (slice_points t (plucker_tetra t) z) in n = 0%nat \/ n = 3%nat \/ n = 4%nat.
Proof. intros t z. cbv zeta. rewrite slice_length. destruct (length (filter _ _)) as [|[|[|[|]]]]; auto. Qed.
Print Assumptions C168_corners.
Theorem C168_found : forall t z i j, (i < 4)%nat -> (j < 4)%nat -> cz (vertex t i) < z -> z < cz (vertex t j) -> (3 <= length (slice_points t (plucker_tetra t) z))%nat.
Proof.
  intros t z i j Hi Hj Li Lj. rewrite slice_length. assert (A : is_low t z i = true) by (apply Rltb_iff; auto).
  assert (B : is_low t z j = false) by (apply not_true_is_false; intros K; apply Rltb_iff in K; lra).
  cbn [filter]. faces i Hi; faces j Hj; try congruence; rewrite ?A, ?B;
    repeat match goal with |- context [if is_low t z ?k then _ else _] => destruct (is_low t z k) end; cbn; lia.
Qed.
Print Assumptions C168_found.
Theorem C168_in_plane : forall t z x y i, In (x, y, i) (slice_points t (plucker_tetra t) z) -> in_tetra t (V3 x y z).
Proof. exact slice_in_tetra. Qed.
Print Assumptions C168_in_plane.
(** The polygon of the corners is the whole intersection, unless no vertex is below the plane. *)
Theorem C168_whole : forall t z i, (i < 4)%nat -> cz (vertex t i) < z ->
  forall x y, in_tetra t (V3 x y z) <-> hull (map fst (slice_points t (plucker_tetra t) z)) x y.
Proof. intros t z i Hi L x y. split; [apply slice_complete with (i0 := i); auto|apply slice_hull_in]. Qed.
Print Assumptions C168_whole.
Theorem C168_cycle : forall t z, let edges := map snd (slice_points t (plucker_tetra t) z) in let n := length edges in
  exists starts ends, link edges = (map Some starts, map Some ends) /\ Permutation starts (seq 0 n) /\ Permutation ends (seq 0 n) /\
    forall k, (k < n)%nat -> nth k ends n = nth (Nat.modulo (S k) n) starts n /\ common_face (nth (nth k starts n) edges 6%nat) (nth (nth k ends n) edges 6%nat).
Proof. exact slice_tour. Qed.
Print Assumptions C168_cycle.
(** The corner with edge number i is on that edge. *)
Theorem C168_on_edge : forall t z x y i, In (x, y, i) (slice_points t (plucker_tetra t) z) ->
  (i < 6)%nat /\ exists u, 0 <= u <= 1 /\ V3 x y z = along (vertex t (fst (edge_vertices i))) (sub3 (vertex t (snd (edge_vertices i))) (vertex t (fst (edge_vertices i)))) u.
Proof. exact slice_on_edge. Qed.
Print Assumptions C168_on_edge.
(** A plane that touches the tetrahedron in its lowest face has no corners. *)
Theorem C168_touching_refuted : let t := Tetra (V3 0 0 0) (V3 1 0 0) (V3 0 1 0) (V3 0 0 1) in
  in_tetra t (V3 (1 / 4) (1 / 4) 0) /\ slice_points t (plucker_tetra t) 0 = [].
Proof.
  intros t. split.
  - exists (1 / 2), (1 / 4), (1 / 4), 0. repeat split; try lra. unfold t, mix3. cbn. f_equal; field.
  - assert (N : forall i, is_low t 0 i = false). { intros i. apply not_true_is_false. intros K. apply Rltb_iff in K. destruct i as [|[|[|i]]]; cbn in K; lra. }
    apply length_zero_iff_nil. rewrite slice_length. cbn [filter]. rewrite !N. reflexivity.
Qed.
Print Assumptions C168_touching_refuted.
Example C168_nonvacuous : length (slice_points (Tetra (V3 0 0 0) (V3 1 0 0) (V3 0 1 0) (V3 0 0 1)) (plucker_tetra (Tetra (V3 0 0 0) (V3 1 0 0) (V3 0 1 0) (V3 0 0 1))) (1 / 2)) = 3%nat.
Proof.
  destruct (C168_corners (Tetra (V3 0 0 0) (V3 1 0 0) (V3 0 1 0) (V3 0 0 1)) (1 / 2)) as [K|[K|K]]; auto; exfalso.
  - pose proof (C168_found (Tetra (V3 0 0 0) (V3 1 0 0) (V3 0 1 0) (V3 0 0 1)) (1 / 2) 0 3 ltac:(lia) ltac:(lia) ltac:(cbn; lra) ltac:(cbn; lra)). lia.
  - rewrite slice_length in K. cbn [filter] in K. assert (A : is_low (Tetra (V3 0 0 0) (V3 1 0 0) (V3 0 1 0) (V3 0 0 1)) (1 / 2) 3 = false) by (apply not_true_is_false; intros C; apply Rltb_iff in C; cbn in C; lra).
    assert (B : forall i, (i < 3)%nat -> is_low (Tetra (V3 0 0 0) (V3 1 0 0) (V3 0 1 0) (V3 0 0 1)) (1 / 2) i = true) by (intros i Hi; apply Rltb_iff; destruct i as [|[|[|i]]]; cbn; lra || lia).
    rewrite A, !B in K by lia. cbn in K. discriminate.
Qed.

(** ** C169 *)
(** The greater number is the squared radius of the furthest point of the polygon ... *)
Theorem C169_furthest : forall pts lo hi, rsqr_min_max pts = Some (lo, hi) ->
  (forall x y, hull pts x y -> x * x + y * y <= hi) /\ exists x y, In (x, y) pts /\ x * x + y * y = hi.
Proof.
  intros pts lo hi K. destruct (rsqr_spec pts lo hi K) as (A & _ & ((x, y) & I & E)). split; [|exists x, y; auto].
  clear x y I E K. intros X Y (ws & Hl & Hp & Hs & HX & HY).
  assert (G : forall ws pts, length ws = length pts -> (forall v, In v ws -> 0 <= v) -> (forall p, In p pts -> fst p * fst p + snd p * snd p <= hi) ->
    2 * (X * fold_right Rplus 0 (map (fun p : R * (R * R) => fst p * fst (snd p)) (List.combine ws pts)) + Y * fold_right Rplus 0 (map (fun p => fst p * snd (snd p)) (List.combine ws pts)))
      <= fold_right Rplus 0 ws * (X * X + Y * Y + hi)).
  { clear. induction ws as [|v ws IH]; intros [|[x y] pts] Hl Hp H; try discriminate; [cbn; lra|]. cbn [List.combine map fold_right fst snd].
    assert (Hv : 0 <= v) by (apply Hp; left; auto). assert (Hxy : x * x + y * y <= hi) by (apply (H (x, y)); left; auto).
    specialize (IH pts ltac:(cbn in Hl; lia) (fun u Hu => Hp u (or_intror Hu)) (fun p Hq => H p (or_intror Hq))).
    set (S1 := fold_right Rplus 0 (map (fun p : R * (R * R) => fst p * fst (snd p)) (List.combine ws pts))) in *. set (S2 := fold_right Rplus 0 (map (fun p : R * (R * R) => fst p * snd (snd p)) (List.combine ws pts))) in *.
    assert (2 * (X * x + Y * y) <= X * X + Y * Y + hi) by (pose proof (Rle_0_sqr (X - x)); pose proof (Rle_0_sqr (Y - y)); unfold Rsqr in *; lra). nra. }
  specialize (G ws pts Hl Hp (fun p Hq => proj2 (A p Hq))). rewrite <- HX, <- HY, Hs in G. lra.
Qed.
Print Assumptions C169_furthest.
(** ... but the smaller one is the squared radius of the closest corner, not of the closest point. *)
Theorem C169_closest_refuted : let pts := [(1, 0); (-1, 1); (-1, -1)] in hull pts 0 0 /\ exists hi, rsqr_min_max pts = Some (1, hi).
Proof.
  split.
  - exists [1 / 2; 1 / 4; 1 / 4]. split; [reflexivity|]. split; [intros v [<-|[<-|[<-|[]]]]; lra|]. cbn. repeat split; lra.
  - destruct (rsqr_min_max [(1, 0); (-1, 1); (-1, -1)]) as [[lo hi]|] eqn:E; [|discriminate]. exists hi. do 2 f_equal.
    destruct (rsqr_spec _ _ _ E) as (A & (p & I & L) & _). pose proof (A (1, 0) ltac:(left; reflexivity)) as B. cbn in B.
    destruct I as [<-|[<-|[<-|[]]]]; cbn in L; lra.
Qed.
Print Assumptions C169_closest_refuted.
Example C169_nonvacuous : exists lo hi, rsqr_min_max [(1, 0); (-1, 1); (-1, -1)] = Some (lo, hi).
Proof. destruct C169_closest_refuted as [_ (hi & E)]. eauto. Qed.

(** ** C170 *)
(** Every Platonic solid has one normal of length 1 per side. *)
Theorem C170_unit_normals : forall s, length (normals s) = sides s /\ Forall (fun v => dot3 v v = 1) (normals s).
Proof. intros s. split; [unfold normals; rewrite map_length; apply faces_length|apply normals_unit]. Qed.
Print Assumptions C170_unit_normals.
Theorem C170_new : forall n s, new_solid n = Some s <-> n = Z.of_nat (sides s).
Proof.
  intros n s. split.
  - unfold new_solid. intros K. destruct n as [|p|p]; try discriminate. repeat (destruct p as [p|p|]; try discriminate; try (injection K as <-; reflexivity)).
  - intros ->. destruct s; reflexivity.
Qed.
Print Assumptions C170_new.
(** The unique normals specify different planes, except for those of the icosahedron: number 5 and 6 are opposite. *)
Theorem C170_unique_partial : forall s i j, s <> Icosahedron -> (i < j < length (unique_normals s))%nat ->
  ~ same_plane (nth i (unique_normals s) zero3) (nth j (unique_normals s) zero3).
Proof. intros s i j H K. exact (unique_separate s H i j K). Qed.
Print Assumptions C170_unique_partial.
Theorem C170_icosahedron_refuted : (6 < length (unique_normals Icosahedron))%nat /\
  same_plane (nth 5 (unique_normals Icosahedron) zero3) (nth 6 (unique_normals Icosahedron) zero3).
Proof. split; [cbn; lia|apply icosahedron_double]. Qed.
Print Assumptions C170_icosahedron_refuted.
(** The number of unique normals is the one that NewUniquePlatonicSolid takes; the octahedron, with four, cannot be asked for. *)
Theorem C170_new_unique : forall n s, new_unique_solid n = Some s -> n = Z.of_nat (length (unique_normals s)).
Proof.
  intros n s K. unfold new_unique_solid in K. destruct n as [|p|p]; try discriminate. repeat (destruct p as [p|p|]; try discriminate; try (injection K as <-; reflexivity)).
Qed.
Print Assumptions C170_new_unique.
Example C170_nonvacuous : new_unique_solid 10 = Some Icosahedron /\ length (unique_normals Dodecahedron) = 6%nat.
Proof. split; reflexivity. Qed.
