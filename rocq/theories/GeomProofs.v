(** * Proofs about spheres, tetrahedra and lines. *)
From Coq Require Import Reals Lra Psatz List Bool ZArith.
From Verif Require Import RealBase GeomSpec.
Import List ListNotations.
Local Open Scope R_scope.

(** ** Distances *)
Definition d2 (a b : v3) : R := (cx a - cx b) ^ 2 + (cy a - cy b) ^ 2 + (cz a - cz b) ^ 2.
Lemma d2_pos a b : 0 <= d2 a b. Proof. unfold d2. pose proof (pow2_ge_0 (cx a - cx b)). pose proof (pow2_ge_0 (cy a - cy b)). pose proof (pow2_ge_0 (cz a - cz b)). lra. Qed.
Lemma dist_d2 a b : dist3 a b = sqrt (d2 a b). Proof. reflexivity. Qed.
Lemma dist_pos a b : 0 <= dist3 a b. Proof. apply sqrt_pos. Qed.
Lemma dist_sq a b : dist3 a b * dist3 a b = d2 a b. Proof. apply sqrt_sqrt, d2_pos. Qed.
Lemma dist_le a b r : 0 <= r -> (dist3 a b <= r <-> d2 a b <= r * r).
Proof.
  intros Hr. pose proof (dist_pos a b). pose proof (dist_sq a b). split; intros K; [nra|].
  apply Rnot_lt_le. intros C. nra.
Qed.
Lemma dist_sym a b : dist3 a b = dist3 b a.
Proof. unfold dist3. f_equal. ring. Qed.
Lemma cauchy a b c d e f : a * d + b * e + c * f <= sqrt (a ^ 2 + b ^ 2 + c ^ 2) * sqrt (d ^ 2 + e ^ 2 + f ^ 2).
Proof.
  rewrite <- sqrt_mult by nra.
  destruct (Rle_or_lt (a * d + b * e + c * f) 0) as [H|H]; [eapply Rle_trans; [apply H|apply sqrt_pos]|].
  rewrite <- (sqrt_square (a * d + b * e + c * f)) by lra. apply sqrt_le_1_alt.
  pose proof (pow2_ge_0 (a * e - b * d)). pose proof (pow2_ge_0 (a * f - c * d)). pose proof (pow2_ge_0 (b * f - c * e)). nra.
Qed.
Lemma triangle a b c : dist3 a c <= dist3 a b + dist3 b c.
Proof.
  pose proof (dist_pos a b). pose proof (dist_pos b c). apply dist_le; [lra|].
  pose proof (dist_sq a b). pose proof (dist_sq b c).
  pose proof (cauchy (cx a - cx b) (cy a - cy b) (cz a - cz b) (cx b - cx c) (cy b - cy c) (cz b - cz c)) as C.
  change (sqrt ((cx a - cx b) ^ 2 + (cy a - cy b) ^ 2 + (cz a - cz b) ^ 2)) with (dist3 a b) in C.
  change (sqrt ((cx b - cx c) ^ 2 + (cy b - cy c) ^ 2 + (cz b - cz c) ^ 2)) with (dist3 b c) in C.
  unfold d2 in *. nra.
Qed.

Lemma sum_within_iff a b q : sum_within a b q = true <-> d2 a b <= q.
Proof.
  unfold sum_within, d2. cbv zeta. pose proof (pow2_ge_0 (cx a - cx b)). pose proof (pow2_ge_0 (cy a - cy b)). pose proof (pow2_ge_0 (cz a - cz b)).
  unfold Rltb. repeat match goal with |- context [Rlt_dec ?x ?y] => destruct (Rlt_dec x y) end; split; intros K; first [discriminate|reflexivity|lra|exfalso; lra].
Qed.
Lemma vec_intersect_iff s v : 0 <= s_r s -> (vec_intersect s v = true <-> in_ball s v).
Proof. intros H. unfold vec_intersect, in_ball. rewrite sum_within_iff, dist_le by auto. reflexivity. Qed.

Lemma sphere_intersect_iff s1 s2 : 0 <= s_r s1 -> 0 <= s_r s2 ->
  (sphere_intersect s1 s2 = true <-> exists p, in_ball s1 p /\ in_ball s2 p).
Proof.
  intros H1 H2. unfold sphere_intersect, in_ball. cbv zeta. rewrite sum_within_iff, <- dist_le by lra. split.
  - intros K. destruct (Req_dec (s_r s1 + s_r s2) 0) as [Z|Z].
    + exists (s_c s1). split; [apply dist_le; [lra|unfold d2; nra]|]. rewrite dist_sym. lra.
    + set (u := s_r s1 / (s_r s1 + s_r s2)). assert (U : u * (s_r s1 + s_r s2) = s_r s1) by (unfold u; field; lra).
      assert (0 <= u) by (unfold u; apply Rmult_le_pos; [lra|left; apply Rinv_0_lt_compat; lra]).
      assert (u <= 1) by (apply Rmult_le_reg_r with (s_r s1 + s_r s2); lra).
      pose proof (dist_pos (s_c s1) (s_c s2)) as Hp. pose proof (dist_sq (s_c s1) (s_c s2)) as Hs.
      exists (V3 (cx (s_c s1) + u * (cx (s_c s2) - cx (s_c s1))) (cy (s_c s1) + u * (cy (s_c s2) - cy (s_c s1))) (cz (s_c s1) + u * (cz (s_c s2) - cz (s_c s1)))).
      split; apply dist_le; try lra; unfold d2 in *; cbn [cx cy cz].
      * replace (_ + _ + _) with (u * u * (dist3 (s_c s1) (s_c s2) * dist3 (s_c s1) (s_c s2))) by (rewrite Hs; ring).
        set (D := dist3 (s_c s1) (s_c s2)) in *. replace (u * u * (D * D)) with ((u * D) * (u * D)) by ring.
        assert (0 <= u * D) by nra. assert (u * D <= s_r s1) by nra. nra.
      * replace (_ + _ + _) with ((1 - u) * (1 - u) * (dist3 (s_c s1) (s_c s2) * dist3 (s_c s1) (s_c s2))) by (rewrite Hs; ring).
        set (D := dist3 (s_c s1) (s_c s2)) in *. replace ((1 - u) * (1 - u) * (D * D)) with (((1 - u) * D) * ((1 - u) * D)) by ring.
        assert (0 <= (1 - u) * D) by nra. assert ((1 - u) * D <= s_r s2) by nra. nra.
  - intros (p & A & B). pose proof (triangle (s_c s1) p (s_c s2)). rewrite (dist_sym p) in H. lra.
Qed.

Lemma sphere_contain_iff s1 s2 : 0 <= s_r s2 ->
  (sphere_contain s1 s2 = true <-> s_r s2 < s_r s1 /\ forall p, in_ball s2 p -> in_ball s1 p).
Proof.
  intros H2. unfold sphere_contain, in_ball. cbv zeta. unfold Rleb. destruct (Rle_dec (s_r s1) (s_r s2)) as [H|H].
  { split; [discriminate|]. intros [? _]. lra. }
  rewrite sum_within_iff, <- dist_le by lra. split.
  - intros K. split; [lra|]. intros p Hp. pose proof (triangle (s_c s1) (s_c s2) p). lra.
  - intros [_ K]. pose proof (dist_pos (s_c s1) (s_c s2)) as Hp. pose proof (dist_sq (s_c s1) (s_c s2)) as Hs. set (D := dist3 (s_c s1) (s_c s2)) in *.
    destruct (Req_dec D 0) as [Z|Z]; [lra|].
    set (k := s_r s2 / D). assert (E : k * D = s_r s2) by (unfold k; field; lra). assert (0 <= k) by (unfold k; apply Rmult_le_pos; [lra|left; apply Rinv_0_lt_compat; lra]).
    pose (q := V3 (cx (s_c s2) + k * (cx (s_c s2) - cx (s_c s1))) (cy (s_c s2) + k * (cy (s_c s2) - cy (s_c s1))) (cz (s_c s2) + k * (cz (s_c s2) - cz (s_c s1)))).
    assert (A : dist3 (s_c s2) q <= s_r s2).
    { apply dist_le; [lra|]. unfold d2, q; cbn [cx cy cz]. unfold d2 in Hs.
      replace (_ + _ + _) with (k * k * (D * D)) by (rewrite Hs; ring). nra. }
    specialize (K q A). apply dist_le in K; [|lra]. unfold d2, q in K; cbn [cx cy cz] in K. unfold d2 in Hs.
    assert (K' : (1 + k) * (1 + k) * (D * D) <= s_r s1 * s_r s1) by (rewrite Hs; eapply Rle_trans; [|exact K]; right; ring).
    replace ((1 + k) * (1 + k) * (D * D)) with ((D + s_r s2) * (D + s_r s2)) in K' by (rewrite <- E; ring).
    apply Rnot_lt_le. intros C. nra.
Qed.

(** The ball is convex. *)
Lemma ball_convex s a b c d p q r t : 0 <= a -> 0 <= b -> 0 <= c -> 0 <= d -> a + b + c + d = 1 ->
  in_ball s p -> in_ball s q -> in_ball s r -> in_ball s t -> in_ball s (mix3 a b c d p q r t).
Proof.
  intros Ha Hb Hc Hd H Hp Hq Hr Ht. unfold in_ball in *.
  assert (R0 : 0 <= s_r s) by (pose proof (dist_pos (s_c s) p); lra).
  apply dist_le in Hp, Hq, Hr, Ht; auto. apply dist_le; auto.
  set (k := s_r s * s_r s) in *. clearbody k. destruct s as [[x y z] rr]. unfold d2, mix3 in *; cbn [cx cy cz s_c] in *.
  assert (J : forall x xp xq xr xt, (x - (a * xp + b * xq + c * xr + d * xt)) ^ 2 <= a * (x - xp) ^ 2 + b * (x - xq) ^ 2 + c * (x - xr) ^ 2 + d * (x - xt) ^ 2).
  { clear - Ha Hb Hc Hd H. intros. replace (x - (a * xp + b * xq + c * xr + d * xt)) with (a * (x - xp) + b * (x - xq) + c * (x - xr) + d * (x - xt))
      by (replace x with ((a + b + c + d) * x) at 5 by (rewrite H; ring); ring).
    generalize (x - xp) (x - xq) (x - xr) (x - xt). intros p q r t.
    assert (E : a * p ^ 2 + b * q ^ 2 + c * r ^ 2 + d * t ^ 2 - (a * p + b * q + c * r + d * t) ^ 2 =
      a * b * (p - q) ^ 2 + a * c * (p - r) ^ 2 + a * d * (p - t) ^ 2 + b * c * (q - r) ^ 2 + b * d * (q - t) ^ 2 + c * d * (r - t) ^ 2).
    { replace (a * p ^ 2 + b * q ^ 2 + c * r ^ 2 + d * t ^ 2) with ((a + b + c + d) * (a * p ^ 2 + b * q ^ 2 + c * r ^ 2 + d * t ^ 2)) by (rewrite H; ring). ring. }
    assert (P : forall u v w, 0 <= u -> 0 <= v -> 0 <= u * v * w ^ 2) by (intros; apply Rmult_le_pos; [apply Rmult_le_pos|apply pow2_ge_0]; auto).
    pose proof (P a b (p - q) Ha Hb). pose proof (P a c (p - r) Ha Hc). pose proof (P a d (p - t) Ha Hd). pose proof (P b c (q - r) Hb Hc).
    pose proof (P b d (q - t) Hb Hd). pose proof (P c d (r - t) Hc Hd). lra. }
  pose proof (J x (cx p) (cx q) (cx r) (cx t)). pose proof (J y (cy p) (cy q) (cy r) (cy t)). pose proof (J z (cz p) (cz q) (cz r) (cz t)).
  set (A := (x - cx p) ^ 2 + (y - cy p) ^ 2 + (z - cz p) ^ 2) in *. set (B := (x - cx q) ^ 2 + (y - cy q) ^ 2 + (z - cz q) ^ 2) in *.
  set (C := (x - cx r) ^ 2 + (y - cy r) ^ 2 + (z - cz r) ^ 2) in *. set (D := (x - cx t) ^ 2 + (y - cy t) ^ 2 + (z - cz t) ^ 2) in *.
  apply Rle_trans with (a * A + b * B + c * C + d * D); [unfold A, B, C, D; lra|].
  apply Rle_trans with ((a + b + c + d) * k); [|rewrite H; lra]. nra.
Qed.

Lemma vertices_in t i : in_tetra t (vertex t i).
Proof.
  assert (E : forall x : v3, x = V3 (cx x) (cy x) (cz x)) by (intros []; reflexivity).
  destruct i as [|[|[|i]]]; unfold in_tetra, mix3; [exists 1, 0, 0, 0|exists 0, 1, 0, 0|exists 0, 0, 1, 0|exists 0, 0, 0, 1]; repeat split; try lra;
    cbn [vertex]; rewrite E at 1; f_equal; ring.
Qed.
Lemma tetra_contain_iff s t : 0 <= s_r s -> (tetra_contain s t = true <-> forall p, in_tetra t p -> in_ball s p).
Proof.
  intros H. unfold tetra_contain. rewrite forallb_forall. split.
  - intros K p (a & b & c & d & Ha & Hb & Hc & Hd & E & ->). apply ball_convex; auto; apply vec_intersect_iff; auto.
    + apply (K 0%nat); cbn; tauto. + apply (K 1%nat); cbn; tauto. + apply (K 2%nat); cbn; tauto. + apply (K 3%nat); cbn; tauto.
  - intros K i _. apply vec_intersect_iff; auto. apply K, vertices_in.
Qed.
Lemma tetra_intersect_sound s t : 0 <= s_r s -> tetra_intersect s t = true -> exists p, in_tetra t p /\ in_ball s p.
Proof. intros H K. apply existsb_exists in K. destruct K as (i & _ & K). exists (vertex t i). split; [apply vertices_in|]. apply vec_intersect_iff; auto. Qed.

Lemma bounding_radius t : 0 <= s_r (bounding_sphere t). Proof. apply sqrt_pos. Qed.
Lemma bounding_contains t p : in_tetra t p -> in_ball (bounding_sphere t) p.
Proof.
  intros Hp. revert p Hp. apply tetra_contain_iff; [apply bounding_radius|]. unfold tetra_contain. apply forallb_forall. intros i Hi.
  apply vec_intersect_iff; [apply bounding_radius|]. unfold in_ball. apply dist_le; [apply bounding_radius|].
  unfold bounding_sphere. cbv zeta. cbn [s_c s_r]. set (b := V3 _ _ _).
  set (f := fun v => (cx b - cx v) * (cx b - cx v) + (cy b - cy v) * (cy b - cy v) + (cz b - cz v) * (cz b - cz v)).
  change (fold_left _ _ _) with (fold_left (fun m i => if Rltb m (f (vertex t i)) then f (vertex t i) else m) (seq 1 3) (f (t_0 t))).
  assert (E : forall v, d2 b v = f v) by (intros; unfold d2, f; ring).
  assert (P : forall v, 0 <= f v) by (intros v; rewrite <- E; apply d2_pos). rewrite E.
  assert (M : forall m v, m <= (if Rltb m (f v) then f v else m) /\ f v <= (if Rltb m (f v) then f v else m))
    by (intros; unfold Rltb; destruct (Rlt_dec m (f v)); lra).
  cbn [seq fold_left].
  set (m1 := if Rltb (f (t_0 t)) (f (vertex t 1)) then f (vertex t 1) else f (t_0 t)).
  set (m2 := if Rltb m1 (f (vertex t 2)) then f (vertex t 2) else m1). set (m3 := if Rltb m2 (f (vertex t 3)) then f (vertex t 3) else m2).
  destruct (M (f (t_0 t)) (vertex t 1)) as [A1 A2]. destruct (M m1 (vertex t 2)) as [B1 B2]. destruct (M m2 (vertex t 3)) as [C1 C2].
  fold m1 in A1, A2. fold m2 in B1, B2. fold m3 in C1, C2. pose proof (P (t_0 t)).
  rewrite sqrt_sqrt by lra. cbn in Hi. destruct Hi as [<-|[<-|[<-|[<-|[]]]]]; cbn [vertex] in *; lra.
Qed.

Lemma bounding_tight t : let s := bounding_sphere t in
  4 * cx (s_c s) = cx (t_0 t) + cx (t_1 t) + cx (t_2 t) + cx (t_3 t) /\ 4 * cy (s_c s) = cy (t_0 t) + cy (t_1 t) + cy (t_2 t) + cy (t_3 t) /\
  4 * cz (s_c s) = cz (t_0 t) + cz (t_1 t) + cz (t_2 t) + cz (t_3 t) /\ In (s_r s) (map (dist3 (s_c s)) [t_0 t; t_1 t; t_2 t; t_3 t]).
Proof.
  unfold bounding_sphere. cbv zeta. cbn [s_c s_r]. set (b := V3 _ _ _).
  split; [unfold b; cbn [cx]; lra|]. split; [unfold b; cbn [cy]; lra|]. split; [unfold b; cbn [cz]; lra|].
  set (f := fun v => (cx b - cx v) * (cx b - cx v) + (cy b - cy v) * (cy b - cy v) + (cz b - cz v) * (cz b - cz v)).
  change (fold_left _ _ _) with (fold_left (fun m i => if Rltb m (f (vertex t i)) then f (vertex t i) else m) (seq 1 3) (f (t_0 t))).
  assert (E : forall v, dist3 b v = sqrt (f v)) by (intros; unfold dist3, f; f_equal; ring).
  cbn [map]. rewrite !E. cbn [seq fold_left vertex].
  repeat match goal with |- context [if ?c then _ else _] => destruct c end; cbn [In]; auto.
Qed.
