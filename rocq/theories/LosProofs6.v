(** * Euler rotations. *)
From Coq Require Import Reals Lra Lia ZArith List Bool.
From Verif Require Import LosModel LosSpec LoopFacts ShellProofs ShellModel LosProofs3.
Import List ListNotations.
Local Open Scope R_scope.

Definition zero9 : matrix := {| vals := repeat 0 9; width := 3; height := 3 |}.

Lemma euler_vals a b c : euler_matrix a b c zero9 = Some {| vals :=
  [cos c * cos a - sin c * cos b * sin a; - (cos c * sin a) - sin c * cos b * cos a; sin c * sin b;
   sin c * cos a + cos c * cos b * sin a; - (sin c * sin a) + cos c * cos b * cos a; - (cos c * sin b);
   sin b * sin a; sin b * cos a; cos b]; width := 3; height := 3 |}.
Proof.
  unfold euler_matrix, newMatrix, mult, multAt, newMatrix, zeros, zero9. cbn -[Rplus Rmult Ropp Rminus].
  f_equal. f_equal. repeat (apply f_equal2; [ring|]). reflexivity.
Qed.

Lemma rotate_vals a b c m x y z : euler_matrix a b c zero9 = Some m ->
  rotate_vec (x, y, z) m =
  let x1 := cos a * x - sin a * y in let y1 := sin a * x + cos a * y in
  let y2 := cos b * y1 - sin b * z in let z2 := sin b * y1 + cos b * z in
  Some (cos c * x1 - sin c * y2, sin c * x1 + cos c * y2, z2).
Proof.
  rewrite euler_vals. intros [= <-]. unfold rotate_vec. cbn [vals rd nth_error]. cbv zeta. f_equal.
  apply f_equal2; [apply f_equal2|]; ring.
Qed.

Definition norm2 (v : vec3) : R := dot3 v v.

Lemma spherical_spec x y z : 0 < x * x + y * y + z * z ->
  let '(phi, th) := spherical_angles (x, y, z) in let r := sqrt (x * x + y * y + z * z) in
  x = r * sin th * cos phi /\ y = r * sin th * sin phi /\ z = r * cos th.
Proof.
  intros H. unfold spherical_angles. set (r := sqrt (x * x + y * y + z * z)).
  assert (Hr : 0 < r) by (apply sqrt_lt_R0; exact H).
  assert (Hrr : r * r = x * x + y * y + z * z) by (apply sqrt_sqrt; lra).
  assert (Hz : -1 <= z / r <= 1).
  { assert (- r <= z <= r). { clearbody r. split; apply Rnot_lt_le; intros Hlt; nra. }
    split; apply Rmult_le_reg_r with r; try lra; unfold Rdiv; rewrite Rmult_assoc, Rinv_l by lra; lra. }
  assert (Hq : 1 - (z / r) * (z / r) = (x * x + y * y) / (r * r)).
  { apply Rmult_eq_reg_r with (r * r); [|nra]. transitivity (r * r - z * z); [field; lra|]. rewrite Hrr at 1.
    field_simplify; [|lra]. ring. }
  cbv zeta.
  rewrite cos_acos, sin_acos by exact Hz. unfold Rsqr. rewrite Hq.
  assert (Es : sqrt ((x * x + y * y) / (r * r)) = sqrt (x * x + y * y) / r).
  { rewrite sqrt_div_alt by nra. rewrite sqrt_square by lra. reflexivity. }
  rewrite Es. split; [|split; [|field; lra]].
  - destruct (Req_dec (x * x + y * y) 0) as [E|E].
    + rewrite E, sqrt_0. assert (x = 0) by nra. unfold Rdiv. rewrite !Rmult_0_l, Rmult_0_r, Rmult_0_l. exact H0.
    + destruct (atan2_cos_sin y x) as (Hc & _); [nra|]. rewrite Hc.
      assert (0 < sqrt (x * x + y * y)) by (apply sqrt_lt_R0; nra). field. lra.
  - destruct (Req_dec (x * x + y * y) 0) as [E|E].
    + rewrite E, sqrt_0. assert (y = 0) by nra. unfold Rdiv. rewrite !Rmult_0_l, Rmult_0_r, Rmult_0_l. exact H0.
    + destruct (atan2_cos_sin y x) as (_ & Hc); [nra|]. rewrite Hc.
      assert (0 < sqrt (x * x + y * y)) by (apply sqrt_lt_R0; nra). field. lra.
Qed.

(** The matrix is a rotation: it preserves inner products. *)
Lemma euler_isometry a b c m u v u' v' : euler_matrix a b c zero9 = Some m ->
  rotate_vec u m = Some u' -> rotate_vec v m = Some v' -> dot3 u' v' = dot3 u v.
Proof.
  destruct u as ((x, y), z), v as ((x', y'), z'). intros Hm. rewrite !(rotate_vals _ _ _ _ _ _ _ Hm). cbv zeta.
  intros [= <-] [= <-]. unfold dot3.
  pose proof (sin2_cos2 a) as Ha. pose proof (sin2_cos2 b) as Hb. pose proof (sin2_cos2 c) as Hc. unfold Rsqr in *.
  set (sa := sin a) in *. set (ca := cos a) in *. set (sb := sin b) in *. set (cb := cos b) in *. set (sc := sin c) in *. set (cc := cos c) in *.
  clearbody sa ca sb cb sc cc.
  set (X := ca * x - sa * y). set (X' := ca * x' - sa * y'). set (Y := sa * x + ca * y). set (Y' := sa * x' + ca * y').
  assert (E1 : X * X' + Y * Y' = x * x' + y * y').
  { unfold X, X', Y, Y'. replace (x * x' + y * y') with ((sa * sa + ca * ca) * (x * x' + y * y')) by (rewrite Ha; ring). ring. }
  clearbody X X' Y Y'.
  set (U := cb * Y - sb * z). set (U' := cb * Y' - sb * z'). set (W := sb * Y + cb * z). set (W' := sb * Y' + cb * z').
  assert (E2 : U * U' + W * W' = Y * Y' + z * z').
  { unfold U, U', W, W'. replace (Y * Y' + z * z') with ((sb * sb + cb * cb) * (Y * Y' + z * z')) by (rewrite Hb; ring). ring. }
  clearbody U U' W W'.
  replace ((cc * X - sc * U) * (cc * X' - sc * U') + (sc * X + cc * U) * (sc * X' + cc * U')) with ((sc * sc + cc * cc) * (X * X' + U * U')) by ring.
  rewrite Hc. lra.
Qed.

Lemma euler_total a b c m v : euler_matrix a b c zero9 = Some m -> exists v', rotate_vec v m = Some v'.
Proof. destruct v as ((x, y), z). intros Hm. rewrite (rotate_vals _ _ _ _ _ _ _ Hm). cbv zeta. eauto. Qed.

(** Rotating there and back. *)
Lemma euler_inverse a b c m m' v v' : euler_matrix a b c zero9 = Some m -> euler_matrix (- c) (- b) (- a) zero9 = Some m' ->
  rotate_vec v m = Some v' -> rotate_vec v' m' = Some v.
Proof.
  destruct v as ((x, y), z), v' as ((x', y'), z'). intros Hm Hm'. rewrite (rotate_vals _ _ _ _ _ _ _ Hm), (rotate_vals _ _ _ _ _ _ _ Hm'). cbv zeta.
  intros [= <- <- <-]. rewrite !cos_neg, !sin_neg.
  pose proof (sin2_cos2 a) as Ha. pose proof (sin2_cos2 b) as Hb. pose proof (sin2_cos2 c) as Hc. unfold Rsqr in *.
  set (sa := sin a) in *. set (ca := cos a) in *. set (sb := sin b) in *. set (cb := cos b) in *. set (sc := sin c) in *. set (cc := cos c) in *.
  clearbody sa ca sb cb sc cc.
  set (X := ca * x - sa * y). set (Y := sa * x + ca * y).
  set (U := cb * Y - sb * z). set (W := sb * Y + cb * z).
  assert (E1 : cc * (cc * X - sc * U) - - sc * (sc * X + cc * U) = X).
  { replace X with ((sc * sc + cc * cc) * X) at 3 by (rewrite Hc; ring). ring. }
  assert (E2 : - sc * (cc * X - sc * U) + cc * (sc * X + cc * U) = U).
  { replace U with ((sc * sc + cc * cc) * U) at 3 by (rewrite Hc; ring). ring. }
  rewrite E1, E2.
  assert (E3 : cb * U - - sb * W = Y).
  { unfold U, W. replace Y with ((sb * sb + cb * cb) * Y) at 3 by (rewrite Hb; ring). ring. }
  assert (E4 : - sb * U + cb * W = z).
  { unfold U, W. replace z with ((sb * sb + cb * cb) * z) at 3 by (rewrite Hb; ring). ring. }
  rewrite E3, E4. f_equal. unfold X, Y. f_equal. f_equal.
  - replace x with ((sa * sa + ca * ca) * x) at 3 by (rewrite Ha; ring). ring.
  - replace y with ((sa * sa + ca * ca) * y) at 3 by (rewrite Ha; ring). ring.
Qed.

Lemma between_angles v1 v2 m : euler_between v1 v2 zero9 = Some m ->
  euler_matrix (PI / 2 - fst (spherical_angles v1)) (snd (spherical_angles v1) - snd (spherical_angles v2))
    (fst (spherical_angles v2) - PI / 2) zero9 = Some m.
Proof. unfold euler_between. destruct (spherical_angles v1), (spherical_angles v2). auto. Qed.

Lemma between_total v1 v2 : exists m, euler_between v1 v2 zero9 = Some m.
Proof. unfold euler_between. destruct (spherical_angles v1), (spherical_angles v2). rewrite euler_vals. eauto. Qed.

(** M v1 points along v2 and has the length of v1. *)
Lemma between_maps x1 y1 z1 x2 y2 z2 m : 0 < x1 * x1 + y1 * y1 + z1 * z1 -> 0 < x2 * x2 + y2 * y2 + z2 * z2 ->
  euler_between (x1, y1, z1) (x2, y2, z2) zero9 = Some m ->
  let k := sqrt (x1 * x1 + y1 * y1 + z1 * z1) / sqrt (x2 * x2 + y2 * y2 + z2 * z2) in
  rotate_vec (x1, y1, z1) m = Some (k * x2, k * y2, k * z2).
Proof.
  intros H1 H2 Hm. cbv zeta. apply between_angles in Hm.
  pose proof (spherical_spec _ _ _ H1) as S1. pose proof (spherical_spec _ _ _ H2) as S2.
  destruct (spherical_angles (x1, y1, z1)) as (p1, t1). destruct (spherical_angles (x2, y2, z2)) as (p2, t2).
  cbn [fst snd] in Hm. set (r1 := sqrt (x1 * x1 + y1 * y1 + z1 * z1)) in *. set (r2 := sqrt (x2 * x2 + y2 * y2 + z2 * z2)) in *.
  assert (Hr1 : 0 < r1) by (apply sqrt_lt_R0; exact H1). assert (Hr2 : 0 < r2) by (apply sqrt_lt_R0; exact H2).
  clearbody r1 r2. rewrite (rotate_vals _ _ _ _ _ _ _ Hm). cbv zeta.
  destruct S1 as (E1 & E2 & E3), S2 as (F1 & F2 & F3). clear H1 H2 Hm. 
  rewrite E1, E2, E3, F1, F2, F3. clear E1 E2 E3 F1 F2 F3 x1 y1 z1 x2 y2 z2.
  rewrite cos_shift, sin_shift. replace (p2 - PI / 2) with (- (PI / 2 - p2)) by ring. rewrite cos_neg, sin_neg, cos_shift, sin_shift.
  rewrite cos_minus, sin_minus.
  pose proof (sin2_cos2 p1) as Ha. pose proof (sin2_cos2 t1) as Hb. unfold Rsqr in *.
  assert (X : sin p1 * (r1 * sin t1 * cos p1) - cos p1 * (r1 * sin t1 * sin p1) = 0) by ring.
  assert (Y : cos p1 * (r1 * sin t1 * cos p1) + sin p1 * (r1 * sin t1 * sin p1) = r1 * sin t1).
  { transitivity ((sin p1 * sin p1 + cos p1 * cos p1) * (r1 * sin t1)); [ring|rewrite Ha; ring]. }
  rewrite X, Y.
  assert (U : (cos t1 * cos t2 + sin t1 * sin t2) * (r1 * sin t1) - (sin t1 * cos t2 - cos t1 * sin t2) * (r1 * cos t1) = r1 * sin t2).
  { transitivity ((sin t1 * sin t1 + cos t1 * cos t1) * (r1 * sin t2)); [ring|rewrite Hb; ring]. }
  assert (W : (sin t1 * cos t2 - cos t1 * sin t2) * (r1 * sin t1) + (cos t1 * cos t2 + sin t1 * sin t2) * (r1 * cos t1) = r1 * cos t2).
  { transitivity ((sin t1 * sin t1 + cos t1 * cos t1) * (r1 * cos t2)); [ring|rewrite Hb; ring]. }
  rewrite U, W. f_equal. apply f_equal2; [apply f_equal2|]; field; lra.
Qed.

Lemma between_inverse v1 v2 m m' v v' : euler_between v1 v2 zero9 = Some m -> euler_between v2 v1 zero9 = Some m' ->
  rotate_vec v m = Some v' -> rotate_vec v' m' = Some v.
Proof.
  intros Hm Hm'. apply between_angles in Hm, Hm'. apply (euler_inverse _ _ _ _ _ _ _ Hm). rewrite <- Hm'. f_equal; ring.
Qed.

Lemma between_isometry v1 v2 m u v u' v' : euler_between v1 v2 zero9 = Some m ->
  rotate_vec u m = Some u' -> rotate_vec v m = Some v' -> dot3 u' v' = dot3 u v.
Proof. intros Hm. apply between_angles in Hm. apply (euler_isometry _ _ _ _ _ _ _ _ Hm). Qed.
