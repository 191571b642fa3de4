(** * Geometry of a circle and the rays of a ring. *)
From Coq Require Import Reals Lra Lia ZArith List Bool.
From Verif Require Import LosModel LosSpec LoopFacts LosProofs LosProofs2 InterpProofs ShellProofs ShellModel.
Import List ListNotations.
Local Open Scope R_scope.

(** ** Angles *)
Lemma away_sin a d : 0 <= a -> - PI + a < d < PI - a -> cos d < 0 -> sin a < Rabs (sin d).
Proof.
  intros Ha Hd Hc. pose proof PI_RGT_0.
  assert (W : forall x, 0 <= x < PI - a -> cos x < 0 -> sin a < sin x).
  { intros x Hx Hcx. assert (PI / 2 < x).
    { apply Rnot_le_lt. intros Hle. assert (0 <= cos x) by (apply cos_ge_0; lra). lra. }
    rewrite <- (sin_PI_x a). apply sin_decreasing_1; lra. }
  destruct (Rle_dec 0 d).
  - apply Rlt_le_trans with (sin d); [apply W; lra|apply Rle_abs].
  - apply Rlt_le_trans with (sin (- d)); [apply W; [lra|rewrite cos_neg; exact Hc]|].
    rewrite sin_neg. rewrite <- Rabs_Ropp. apply Rle_abs.
Qed.

Lemma toward_angle a d : 0 <= a <= PI / 2 -> - PI <= d < PI -> 0 < cos d -> Rabs (sin d) <= sin a -> - a <= d <= a.
Proof.
  intros Ha Hd Hc Hs. pose proof PI_RGT_0.
  assert (W : forall x, 0 <= x <= PI -> 0 < cos x -> sin x <= sin a -> x <= a).
  { intros x Hx Hcx Hsx. assert (x < PI / 2).
    { apply Rnot_le_lt. intros Hle. assert (cos x <= 0) by (apply cos_le_0; lra). lra. }
    apply Rnot_lt_le. intros Hlt. assert (sin a < sin x) by (apply sin_increasing_1; lra). lra. }
  destruct (Rle_dec 0 d).
  - pose proof (Rle_abs (sin d)). split; [lra|]. apply W; lra.
  - pose proof (Rle_abs (- sin d)). rewrite Rabs_Ropp in *. rewrite <- sin_neg in *. 
    assert (- d <= a); [|lra]. apply W; [lra|rewrite cos_neg; exact Hc|lra].
Qed.

Lemma atan2_range y x : 0 < x * x + y * y -> - PI < atan2 y x <= PI.
Proof.
  intros H. unfold atan2. pose proof PI_RGT_0. destruct (Rltb_spec 0 x).
  - pose proof (atan_bound (y / x)). lra.
  - destruct (Rltb_spec x 0).
    + pose proof (atan_bound (y / x)). destruct (Rleb_spec 0 y).
      * assert (atan (y / x) <= 0).
        { rewrite <- atan_0. assert (y / x <= 0). { unfold Rdiv. assert (/ x < 0) by (apply Rinv_lt_0_compat; lra). nra. }
          destruct H2 as [H2|H2]; [left; apply atan_increasing; exact H2|right; rewrite H2; reflexivity]. }
        lra.
      * assert (0 < atan (y / x)).
        { rewrite <- atan_0. apply atan_increasing. unfold Rdiv. assert (/ x < 0) by (apply Rinv_lt_0_compat; lra). nra. }
        lra.
    + destruct (Rltb_spec 0 y); [lra|]. destruct (Rltb_spec y 0); lra.
Qed.

(** A circle (centre and squared radius) that does not contain the origin. *)
Section Circle.
Variables cx cy r2 : R.
Let d2 := cx * cx + cy * cy.
Hypothesis Hr : 0 < r2.
Hypothesis Hd : r2 <= d2.
Let D := sqrt d2.
Let P := atan2 cy cx.
Let alpha := half_angular_width d2 r2.

Lemma D_pos : 0 < D. Proof. apply sqrt_lt_R0. lra. Qed.
Lemma D_sq : D * D = d2. Proof. apply sqrt_sqrt. lra. Qed.
Lemma P_range : - PI < P <= PI. Proof. apply atan2_range. unfold d2 in *. lra. Qed.
Lemma P_cos_sin : cx = D * cos P /\ cy = D * sin P.
Proof.
  destruct (atan2_cos_sin cy cx) as (Hc & Hs); [unfold d2 in *; lra|]. unfold P, D, d2.
  rewrite Hc, Hs. assert (0 < sqrt (cx * cx + cy * cy)) by (apply sqrt_lt_R0; unfold d2 in *; lra). split; field; lra.
Qed.
Lemma alpha_range : 0 <= alpha <= PI / 2.
Proof.
  unfold alpha, half_angular_width. assert (0 <= r2 / d2) by (apply Rle_mult_inv_pos; lra).
  pose proof (sqrt_pos (r2 / d2)).
  pose proof (asin_bound (sqrt (r2 / d2))) as Hb. split; [|apply Hb].
  rewrite <- asin_0. destruct H0 as [H0|H0]; [|rewrite <- H0; lra].
  apply Rnot_lt_le. intros Hlt.
  assert (sqrt (r2 / d2) <= 1).
  { rewrite <- sqrt_1. apply sqrt_le_1_alt. apply Rmult_le_reg_r with d2; [lra|]. unfold Rdiv. rewrite Rmult_assoc, Rinv_l by lra. lra. }
  assert (sin (asin (sqrt (r2 / d2))) < sin (asin 0)).
  { pose proof (asin_bound 0). apply sin_increasing_1; lra. }
  rewrite !sin_asin in H2 by lra. lra.
Qed.
Lemma alpha_sin : 0 <= sin alpha /\ D * sin alpha * (D * sin alpha) = r2.
Proof.
  unfold alpha, half_angular_width. assert (Hq : 0 <= r2 / d2) by (apply Rle_mult_inv_pos; lra).
  assert (sqrt (r2 / d2) <= 1).
  { rewrite <- sqrt_1. apply sqrt_le_1_alt. apply Rmult_le_reg_r with d2; [lra|]. unfold Rdiv. rewrite Rmult_assoc, Rinv_l by lra. lra. }
  pose proof (sqrt_pos (r2 / d2)). rewrite sin_asin by lra. split; [lra|].
  replace (D * sqrt (r2 / d2) * (D * sqrt (r2 / d2))) with ((D * D) * (sqrt (r2 / d2) * sqrt (r2 / d2))) by ring.
  rewrite D_sq, sqrt_sqrt by exact Hq. field. lra.
Qed.

Section Ray.
Variable phi : R.
Let b := cy * cos phi - cx * sin phi.
Let dir := cx * cos phi + cy * sin phi.

Lemma b_dir : d2 - b * b = dir * dir.
Proof. unfold d2, b, dir. pose proof (sin2_cos2 phi) as H. unfold Rsqr in H. 
  replace (cx * cx + cy * cy) with ((cx * cx + cy * cy) * (sin phi * sin phi + cos phi * cos phi)) by (rewrite H; ring). ring. Qed.
Lemma dir_angle : dir = D * cos (phi - P).
Proof. unfold dir. destruct P_cos_sin as (Ex & Ey). rewrite cos_minus. rewrite Ex, Ey. ring. Qed.
Lemma b_angle : b = - (D * sin (phi - P)).
Proof. unfold b. destruct P_cos_sin as (Ex & Ey). rewrite sin_minus. rewrite Ex, Ey. ring. Qed.
Lemma b_small : b * b <= r2 <-> Rabs (sin (phi - P)) <= sin alpha.
Proof.
  destruct alpha_sin as (Ha & Hr2). pose proof D_pos. rewrite b_angle. set (s := sin (phi - P)). clearbody s.
  assert (E : - (D * s) * - (D * s) = (D * Rabs s) * (D * Rabs s)).
  { unfold Rabs. destruct (Rcase_abs s); ring. }
  rewrite E, <- Hr2. pose proof (Rabs_pos s). split; intros H1.
  - apply Rnot_lt_le. intros Hlt. assert (D * sin alpha < D * Rabs s) by (apply Rmult_lt_compat_l; lra).
    assert (0 <= D * sin alpha) by (apply Rmult_le_pos; lra). nra.
  - assert (D * Rabs s <= D * sin alpha) by (apply Rmult_le_compat_l; lra).
    assert (0 <= D * Rabs s) by (apply Rmult_le_pos; lra). nra.
Qed.
Lemma dir_sign : (dir < 0 <-> cos (phi - P) < 0) /\ (0 < dir <-> 0 < cos (phi - P)).
Proof. rewrite dir_angle. pose proof D_pos. split; split; intros; nra. Qed.

Lemma hit_angle : 0 <= phi < 2 * PI -> 0 < dir -> b * b <= r2 ->
  - alpha <= phi - P <= alpha \/ 2 * PI - alpha <= phi - P <= 2 * PI + alpha.
Proof.
  intros Hphi H1 H2. apply dir_sign in H1. apply b_small in H2. pose proof P_range. pose proof alpha_range.
  destruct (Rlt_dec (phi - P) PI).
  - left. apply toward_angle; try lra; assumption.
  - right. assert (- alpha <= phi - P - 2 * PI <= alpha); [|lra].
    replace (phi - P) with (phi - P - 2 * PI + 2 * PI) in H1, H2 by ring.
    apply toward_angle; try lra.
    + rewrite cos_plus, cos_2PI, sin_2PI in H1. lra.
    + rewrite sin_plus, cos_2PI, sin_2PI in H2. 
      replace (sin (phi - P - 2 * PI) * 1 + cos (phi - P - 2 * PI) * 0) with (sin (phi - P - 2 * PI)) in H2 by ring. exact H2.
Qed.

Lemma ghost_angle : dir < 0 -> b * b <= r2 -> ~ (- PI + alpha < phi - P < PI - alpha) /\ ~ (PI + alpha < phi - P < 3 * PI - alpha).
Proof.
  intros H1 H2. apply dir_sign in H1. apply b_small in H2. pose proof P_range. pose proof alpha_range.
  split; intros H3.
  - pose proof (away_sin alpha (phi - P) (proj1 H0) H3 H1). lra.
  - replace (phi - P) with (phi - P - 2 * PI + 2 * PI) in H1, H2 by ring.
    rewrite cos_plus, cos_2PI, sin_2PI in H1. rewrite sin_plus, cos_2PI, sin_2PI in H2.
    replace (sin (phi - P - 2 * PI) * 1 + cos (phi - P - 2 * PI) * 0) with (sin (phi - P - 2 * PI)) in H2 by ring.
    assert (sin alpha < Rabs (sin (phi - P - 2 * PI))); [|lra]. apply away_sin; lra.
Qed.

(** The points of the ray inside the circle. *)
Definition inside2 (t : R) : Prop := (t * cos phi - cx) * (t * cos phi - cx) + (t * sin phi - cy) * (t * sin phi - cy) <= r2.
Lemma inside2_iff t : inside2 t <-> (t - dir) * (t - dir) <= r2 - b * b.
Proof.
  unfold inside2. pose proof b_dir. unfold d2 in *. pose proof (sin2_cos2 phi) as H'. unfold Rsqr in H'.
  assert (E : (t * cos phi - cx) * (t * cos phi - cx) + (t * sin phi - cy) * (t * sin phi - cy) =
     t * t * (sin phi * sin phi + cos phi * cos phi) - 2 * t * dir + (cx * cx + cy * cy)) by (unfold dir; ring).
  rewrite E, H'. split; intros; nra.
Qed.
End Ray.
End Circle.
