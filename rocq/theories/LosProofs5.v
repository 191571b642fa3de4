(** * The density a circle adds to every ray. *)
From Coq Require Import Reals Lra Lia ZArith List Bool.
From Verif Require Import LosModel LosSpec LoopFacts LosProofs LosProofs2 LosProofs3 LosProofs4 InterpProofs ShellProofs ShellModel.
Import List ListNotations.
Local Open Scope R_scope.

(** The part of insertToRing after the rotation. *)
Definition circle_part (h : Halo) (cx cy r2 rho : R) (p : Ring) : option Ring :=
  let d2 := cx * cx + cy * cy in
  if Rltb d2 r2 then loop (h_n h) (insert_one h cx cy d2 r2 rho) p
  else
    let alpha := half_angular_width d2 r2 in
    let projPhi := atan2 cy cx in
    let '(iLo1, iHi1, iLo2, iHi2) := idx_range h (projPhi - alpha) (projPhi + alpha) in
    do p1 <- zloop iLo1 iHi1 (insert_two h cx cy d2 r2 rho) p;
    zloop iLo2 iHi2 (insert_two h cx cy d2 r2 rho) p1.

Lemma one_ops_idx cx cy r2 rho n i o : In o (one_ops cx cy r2 rho n i) -> snd o = i /\ (let '(s, e, _, _) := o in ordered s e).
Proof. intros [<-|[]]. split; [reflexivity|exact I]. Qed.

Definition circle_density (h : Halo) (cx cy r2 rho lo dr : R) (i j : nat) : R :=
  if Rltb (cx * cx + cy * cy) r2 then density lo dr i j (one_ops cx cy r2 rho (h_n h) i)
  else INR (visit_count h cx cy r2 i) * density lo dr i j (two_ops cx cy r2 rho (h_n h) i).

(** The insertions circle_part makes: they do not depend on the ring. *)
Definition circle_ops (h : Halo) (cx cy r2 rho : R) : list plateau :=
  let d2 := cx * cx + cy * cy in
  if Rltb d2 r2 then flat_map (one_ops cx cy r2 rho (h_n h)) (seq 0 (h_n h))
  else
    let alpha := half_angular_width d2 r2 in
    let projPhi := atan2 cy cx in
    let '(iLo1, iHi1, iLo2, iHi2) := idx_range h (projPhi - alpha) (projPhi + alpha) in
    flat_map (two_ops cx cy r2 rho (h_n h)) (seq (Z.to_nat iLo1) (Z.to_nat (iHi1 - iLo1))) ++
    flat_map (two_ops cx cy r2 rho (h_n h)) (seq (Z.to_nat iLo2) (Z.to_nat (iHi2 - iLo2))).

Lemma circle_ops_spec h cx cy r2 rho : rays_ok h -> 0 < r2 ->
  ops_ok (h_n h) (circle_ops h cx cy r2 rho) /\
  (forall p, circle_part h cx cy r2 rho p = inserts p (circle_ops h cx cy r2 rho)) /\
  (forall lo dr i j, (i < h_n h)%nat -> density lo dr i j (circle_ops h cx cy r2 rho) = circle_density h cx cy r2 rho lo dr i j).
Proof.
  intros Hh Hr. unfold circle_part, circle_ops, circle_density. cbv zeta.
  destruct (Rltb_spec (cx * cx + cy * cy) r2) as [Hlt|Hge].
  - split; [|split].
    + apply flat_ops_ok; [apply one_ops_idx|lia].
    + intros p. transitivity (loop (h_n h) (fun k => insert_one h cx cy (cx * cx + cy * cy) r2 rho (0 + k)%nat) p); [reflexivity|].
      apply (loop_ops (one_ops cx cy r2 rho (h_n h))). intros i q Hi. apply insert_one_ops; [exact Hh|lia].
    + intros lo dr i j Hi. rewrite density_flat by (intros k o Ho; apply (one_ops_idx _ _ _ _ _ _ _ Ho)).
      destruct (Nat.leb_spec 0 i); [|lia]. destruct (Nat.ltb_spec i (0 + h_n h)); [reflexivity|lia].
  - apply Rnot_lt_le in Hge. unfold visit_count.
    destruct (idx_range h _ _) as (((lo1, hi1), lo2), hi2) eqn:E.
    destruct (visits h cx cy r2 Hh Hr Hge _ _ _ _ E) as (V1 & V2 & V3 & V4 & V).
    split; [|split].
    + apply Forall_app. split; [|].
      * destruct (Z.le_gt_cases lo1 hi1).
        -- apply flat_ops_ok; [apply two_ops_ok|lia].
        -- replace (Z.to_nat (hi1 - lo1)) with O by lia. constructor.
      * destruct (Z.le_gt_cases lo2 hi2).
        -- apply flat_ops_ok; [apply two_ops_ok|lia].
        -- replace (Z.to_nat (hi2 - lo2)) with O by lia. constructor.
    + intros p. rewrite inserts_app.
      rewrite (zloop_ops (two_ops cx cy r2 rho (h_n h)) _ lo1 hi1 (h_n h)) by (try assumption; intros; apply insert_two_ops; assumption).
      destruct (inserts p _) as [p1|]; [|reflexivity].
      apply (zloop_ops (two_ops cx cy r2 rho (h_n h)) _ lo2 hi2 (h_n h)); try assumption. intros; apply insert_two_ops; assumption.
    + intros lo dr i j Hi. rewrite density_app, !density_flat by (intros k o Ho; apply (two_ops_ok _ _ _ _ _ _ _ Ho)).
      rewrite !seq_zrange by assumption.
      destruct (in_zrange lo1 hi1 i), (in_zrange lo2 hi2 i); cbn [Nat.add INR]; ring.
Qed.

Lemma circle_part_spec h cx cy r2 rho p : rays_ok h -> 0 < r2 -> good p -> p_n p = h_n h ->
  exists p', circle_part h cx cy r2 rho p = Some p' /\ good p' /\ same_shape p p' /\
    forall i j, (i < h_n h)%nat -> (j < p_bins p)%nat -> rowsum (p_derivs p') (i * p_bins p) (S j) =
      rowsum (p_derivs p) (i * p_bins p) (S j) + circle_density h cx cy r2 rho (p_lowR p) (p_dr p) i j.
Proof.
  intros Hh Hr G En. destruct (circle_ops_spec h cx cy r2 rho Hh Hr) as (Hok & E & D). rewrite E.
  destruct (inserts_spec (circle_ops h cx cy r2 rho) p G) as (p' & -> & G' & S' & R'); [rewrite En; exact Hok|].
  exists p'. split; [reflexivity|]. split; [exact G'|]. split; [exact S'|]. intros i j Hi Hj. rewrite R', D by assumption. reflexivity.
Qed.

(** ** Chords *)
Lemma one_chord cx cy r2 rho n i : cx * cx + cy * cy < r2 ->
  exists e, one_ops cx cy r2 rho n i = [(None, Some e, rho, i)] /\ log_chord (inside2 cx cy r2 (ring_phi n i)) None (Some e).
Proof.
  intros Hr. unfold one_ops. set (phi := ring_phi n i). clearbody phi.
  set (b := cy * cos phi - cx * sin phi). set (dir := cx * cos phi + cy * sin phi).
  pose proof (b_dir cx cy phi) as Hbd. cbv zeta in Hbd. fold b dir in Hbd.
  assert (Hb2 : b * b <= cx * cx + cy * cy) by nra.
  unfold one_val_intr_dist. rewrite Hbd.
  assert (Hs : sqrt (dir * dir) = Rabs dir) by (apply sqrt_Rsqr_abs).
  rewrite Hs. set (s := sqrt (r2 - b * b)).
  assert (Hss : s * s = r2 - b * b) by (apply sqrt_sqrt; lra).
  assert (Hs0 : 0 <= s) by apply sqrt_pos.
  assert (Hgt : Rabs dir < s).
  { apply Rnot_le_lt. intros Hle. assert (s * s <= Rabs dir * Rabs dir) by (apply Rmult_le_compat; lra).
    assert (Rabs dir * Rabs dir = dir * dir) by (unfold Rabs; destruct (Rcase_abs dir); ring). lra. }
  assert (E : (if Rltb 0 dir then s + Rabs dir else s - Rabs dir) = s + dir).
  { destruct (Rltb_spec 0 dir); [rewrite Rabs_pos_eq by lra; ring|].
    rewrite Rabs_left1 by lra. ring. }
  rewrite E. pose proof (Rle_abs (- dir)). rewrite Rabs_Ropp in H.
  unfold go_log. destruct (Rltb_spec 0 (s + dir)); [|lra].
  exists (ln (s + dir)). split; [reflexivity|]. intros x. unfold inside2.
  pose proof (inside2_iff cx cy r2 phi (exp x)) as I2. cbv zeta in I2. fold b dir in I2. unfold inside2 in I2. rewrite I2.
  pose proof (exp_pos x). split.
  - intros Hx. split; [exact I|]. assert (exp x <= s + dir).
    { apply Rnot_lt_le. intros Hlt. assert (s * s < (exp x - dir) * (exp x - dir)) by (apply Rmult_le_0_lt_compat; lra). lra. }
    rewrite <- (ln_exp x). destruct H1 as [H1|H1]; [left; apply ln_increasing; lra|right; rewrite H1; reflexivity].
  - intros (_ & Hx). assert (exp x <= s + dir).
    { rewrite <- (exp_ln (s + dir)) by assumption. destruct Hx as [Hx|Hx]; [left; apply exp_increasing; exact Hx|right; rewrite Hx; reflexivity]. }
    rewrite <- Hss. assert (- s <= exp x - dir <= s).
    { split; [|lra]. pose proof (Rle_abs dir). lra. }
    nra.
Qed.

Lemma two_chord cx cy r2 rho n i : r2 <= cx * cx + cy * cy ->
  0 < cx * cos (ring_phi n i) + cy * sin (ring_phi n i) ->
  (cy * cos (ring_phi n i) - cx * sin (ring_phi n i)) * (cy * cos (ring_phi n i) - cx * sin (ring_phi n i)) <= r2 ->
  exists s e, two_ops cx cy r2 rho n i = [(s, e, rho, i)] /\ ordered s e /\ log_chord (inside2 cx cy r2 (ring_phi n i)) s e.
Proof.
  intros Hd. unfold two_ops. set (phi := ring_phi n i). clearbody phi.
  set (b := cy * cos phi - cx * sin phi). set (dir := cx * cos phi + cy * sin phi). intros Hdir Hb.
  pose proof (b_dir cx cy phi) as Hbd. cbv zeta in Hbd. fold b dir in Hbd.
  unfold two_val_intr_dist. rewrite Hbd. destruct (Rltb_spec (r2 - b * b) 0); [lra|].
  rewrite sqrt_square by lra. set (q := sqrt (r2 - b * b)).
  assert (Hqq : q * q = r2 - b * b) by (apply sqrt_sqrt; lra).
  assert (Hq0 : 0 <= q) by apply sqrt_pos.
  assert (Hle : q <= dir). { apply Rnot_lt_le. intros Hlt. nra. }
  exists (go_log (dir - q)), (go_log (dir + q)). split; [reflexivity|]. split; [apply go_log_ordered; lra|].
  unfold go_log. destruct (Rltb_spec 0 (dir + q)); [|lra]. intros x. unfold inside2.
  pose proof (inside2_iff cx cy r2 phi (exp x)) as I2. cbv zeta in I2. fold b dir in I2. unfold inside2 in I2. rewrite I2.
  pose proof (exp_pos x) as Hx.
  assert (A : (exp x - dir) * (exp x - dir) <= r2 - b * b <-> dir - q <= exp x <= dir + q).
  { rewrite <- Hqq. split.
    - intros H. split; apply Rnot_lt_le; intros Hlt; nra.
    - intros H. nra. }
  rewrite A.
  assert (B : exp x <= dir + q <-> x <= ln (dir + q)).
  { split; intros H.
    - rewrite <- (ln_exp x). destruct H as [H|H]; [left; apply ln_increasing; lra|right; rewrite H; reflexivity].
    - rewrite <- (exp_ln (dir + q)) by assumption. destruct H as [H|H]; [left; apply exp_increasing; exact H|right; rewrite H; reflexivity]. }
  destruct (Rltb_spec 0 (dir - q)) as [Hp|Hp].
  - assert (C : dir - q <= exp x <-> ln (dir - q) <= x).
    { split; intros H.
      - rewrite <- (ln_exp x). destruct H as [H|H]; [left; apply ln_increasing; lra|right; rewrite H; reflexivity].
      - rewrite <- (exp_ln (dir - q)) by assumption. destruct H as [H|H]; [left; apply exp_increasing; exact H|right; rewrite H; reflexivity]. }
    rewrite C, B. reflexivity.
  - rewrite B. split; [intros (_ & H); auto|intros (_ & H); split; [lra|exact H]].
Qed.

(** A ray misses the circle unless it points towards it and passes close enough. *)
Lemma two_miss cx cy r2 phi : r2 <= cx * cx + cy * cy ->
  cx * cos phi + cy * sin phi <= 0 \/ r2 < (cy * cos phi - cx * sin phi) * (cy * cos phi - cx * sin phi) ->
  log_chord (inside2 cx cy r2 phi) None None.
Proof.
  intros Hd. set (b := cy * cos phi - cx * sin phi). set (dir := cx * cos phi + cy * sin phi). intros H.
  pose proof (b_dir cx cy phi) as Hbd. cbv zeta in Hbd. fold b dir in Hbd.
  intros x. pose proof (inside2_iff cx cy r2 phi (exp x)) as I2. cbv zeta in I2. fold b dir in I2. rewrite I2.
  pose proof (exp_pos x) as Hx. split; [|intros (_ & [])]. intros H1. split; [exact I|].
  clear I2. set (t := exp x) in *. clearbody b dir t. destruct H as [H|H].
  - assert (0 < t * t) by (apply Rmult_lt_0_compat; exact Hx). assert (0 <= t * - dir) by (apply Rmult_le_pos; lra). nra.
  - pose proof (Rle_0_sqr (t - dir)) as Hq. unfold Rsqr in Hq. lra.
Qed.

Lemma two_ops_away cx cy r2 rho n i lo dr j : r2 <= cx * cx + cy * cy ->
  cx * cos (ring_phi n i) + cy * sin (ring_phi n i) = 0 ->
  density lo dr i j (two_ops cx cy r2 rho n i) = 0.
Proof.
  intros Hd Hdir. pose proof (b_dir cx cy (ring_phi n i)) as Hbd. cbv zeta in Hbd. rewrite Hdir in Hbd.
  unfold two_ops, two_val_intr_dist. cbv zeta. destruct (Rltb_spec (r2 - (cy * cos (ring_phi n i) - cx * sin (ring_phi n i)) * (cy * cos (ring_phi n i) - cx * sin (ring_phi n i))) 0); [reflexivity|].
  rewrite Hbd. replace (r2 - _) with 0 by lra. rewrite Rmult_0_l, sqrt_0. 
  replace (0 - 0) with 0 by ring. replace (0 + 0) with 0 by ring. unfold go_log. destruct (Rltb_spec 0 0); [lra|].
  cbn [density covered]. destruct (i =? i)%nat; unfold Rdiv; ring.
Qed.

Lemma two_ops_far cx cy r2 rho n i : r2 < (cy * cos (ring_phi n i) - cx * sin (ring_phi n i)) * (cy * cos (ring_phi n i) - cx * sin (ring_phi n i)) ->
  two_ops cx cy r2 rho n i = [].
Proof. intros H. unfold two_ops, two_val_intr_dist. cbv zeta. destruct (Rltb_spec (r2 - (cy * cos (ring_phi n i) - cx * sin (ring_phi n i)) * (cy * cos (ring_phi n i) - cx * sin (ring_phi n i))) 0); [reflexivity|lra]. Qed.

Lemma density_single lo dr i j s e rho : density lo dr i j [(s, e, rho, i)] = rho * (covered s e (lo + INR j * dr) (lo + INR (S j) * dr) / dr).
Proof. cbn [density]. rewrite Nat.eqb_refl. ring. Qed.

(** Every ray that meets the circle gets exactly the density of its chord. *)
Lemma circle_hit h cx cy r2 rho lo dr i j : rays_ok h -> (2 <= h_n h)%nat -> 0 < r2 -> (i < h_n h)%nat ->
  (exists t, 0 < t /\ inside2 cx cy r2 (ring_phi (h_n h) i) t) ->
  exists s e, ordered s e /\ log_chord (inside2 cx cy r2 (ring_phi (h_n h) i)) s e /\
    circle_density h cx cy r2 rho lo dr i j = rho * (covered s e (lo + INR j * dr) (lo + INR (S j) * dr) / dr).
Proof.
  intros Hh Hn Hr Hi (t & Ht & Hin). unfold circle_density.
  destruct (Rltb_spec (cx * cx + cy * cy) r2) as [Hlt|Hge].
  - destruct (one_chord cx cy r2 rho (h_n h) i Hlt) as (e & -> & Hc). exists None, (Some e).
    split; [exact I|]. split; [exact Hc|]. apply density_single.
  - apply Rnot_lt_le in Hge. 
    destruct (Rlt_dec 0 (cx * cos (ring_phi (h_n h) i) + cy * sin (ring_phi (h_n h) i))) as [Hdir|Hdir];
    [destruct (Rle_dec ((cy * cos (ring_phi (h_n h) i) - cx * sin (ring_phi (h_n h) i)) * (cy * cos (ring_phi (h_n h) i) - cx * sin (ring_phi (h_n h) i))) r2) as [Hb|Hb]|].
    + destruct (two_chord cx cy r2 rho (h_n h) i Hge Hdir Hb) as (s & e & -> & Ho & Hc).
      exists s, e. split; [exact Ho|]. split; [exact Hc|]. rewrite (hit_once h cx cy r2 Hh Hr Hge i Hn Hi Hdir Hb).
      rewrite density_single. cbn [INR]. ring.
    + exfalso. apply (two_miss cx cy r2 (ring_phi (h_n h) i) Hge) with (x := ln t) ; [right; lra|].
      rewrite exp_ln by exact Ht. exact Hin.
    + exfalso. apply (two_miss cx cy r2 (ring_phi (h_n h) i) Hge) with (x := ln t) ; [left; lra|].
      rewrite exp_ln by exact Ht. exact Hin.
Qed.

(** The condition under which nothing is added to rays pointing away: the circle spans less than a half turn less one ray
    spacing, and it does not cross the negative x axis from below. *)
Definition no_ghosts (n : nat) (cx cy r2 : R) : Prop :=
  cx * cx + cy * cy < r2 \/
  (r2 <= (cx * cx + cy * cy) * (cos (PI / INR n) * cos (PI / INR n)) /\ (0 <= cy \/ 0 <= cx \/ r2 < cy * cy)).

Lemma circle_miss h cx cy r2 rho lo dr i j : rays_ok h -> (2 <= h_n h)%nat -> 0 < r2 -> (i < h_n h)%nat -> no_ghosts (h_n h) cx cy r2 ->
  ~ (exists t, 0 < t /\ inside2 cx cy r2 (ring_phi (h_n h) i) t) ->
  circle_density h cx cy r2 rho lo dr i j = 0.
Proof.
  intros Hh Hn Hr Hi Hng Hmiss. unfold circle_density.
  destruct (Rltb_spec (cx * cx + cy * cy) r2) as [Hlt|Hge].
  - exfalso. apply Hmiss. destruct (one_chord cx cy r2 rho (h_n h) i Hlt) as (e & _ & Hc).
    exists (exp e). split; [apply exp_pos|]. apply Hc. split; [exact I|lra].
  - apply Rnot_lt_le in Hge. destruct Hng as [Hng|(HB & HA)]; [lra|].
    set (phi := ring_phi (h_n h) i) in *.
    destruct (Rle_dec ((cy * cos phi - cx * sin phi) * (cy * cos phi - cx * sin phi)) r2) as [Hb|Hb].
    2:{ rewrite two_ops_far by (fold phi; lra). cbn [density]. ring. }
    destruct (Rtotal_order (cx * cos phi + cy * sin phi) 0) as [Hdir|[Hdir|Hdir]].
    + assert (HP := P_range cx cy r2 Hr Hge). assert (Ha := alpha_range cx cy r2 Hr Hge). cbv zeta in HP, Ha.
      destruct (alpha_sin cx cy r2 Hr Hge) as (Hsa & Hsr). cbv zeta in Hsa, Hsr.
      assert (HD := D_pos cx cy r2 Hr Hge). assert (HDD := D_sq cx cy r2 Hr Hge). cbv zeta in HD, HDD.
      set (D := sqrt (cx * cx + cy * cy)) in *. set (P := atan2 cy cx) in *. set (alpha := half_angular_width (cx * cx + cy * cy) r2) in *.
      destruct (P_cos_sin cx cy r2 Hr Hge) as (Ex & Ey). cbv zeta in Ex, Ey. fold D P in Ex, Ey.
      pose proof PI_RGT_0. assert (Hn2 : 2 <= INR (h_n h)) by (replace 2 with (INR 2) by reflexivity; apply le_INR; exact Hn).
      assert (Hpn : 0 < PI / INR (h_n h) <= PI / 2).
      { split; [apply Rdiv_lt_0_compat; lra|]. apply Rmult_le_compat_l; [lra|]. apply Rinv_le_contravar; lra. }
      assert (Hcos : 0 <= cos (PI / INR (h_n h))) by (apply cos_ge_0; lra).
      assert (Hal : alpha <= PI / 2 - PI / INR (h_n h)).
      { apply Rnot_lt_le. intros Hlt.
        assert (Hsc : sin (PI / 2 - PI / INR (h_n h)) < sin alpha) by (apply sin_increasing_1; lra).
        rewrite sin_shift in Hsc. rewrite <- Hsr, <- HDD in HB.
        assert (D * cos (PI / INR (h_n h)) < D * sin alpha) by (apply Rmult_lt_compat_l; lra).
        assert (0 <= D * cos (PI / INR (h_n h))) by (apply Rmult_le_pos; lra). nra. }
      rewrite (no_ghost h cx cy r2 Hh Hr Hge i Hi); [cbn [INR]; ring| | |exact Hdir|exact Hb].
      * fold alpha. replace (1 / INR (h_n h) * (2 * PI)) with (2 * (PI / INR (h_n h))) by (field; lra). lra.
      * fold alpha P. destruct (Rle_dec 0 P) as [|Hneg]; [left; assumption|right]. apply Rnot_le_lt in Hneg.
        assert (Hsin : sin P < 0). { apply sin_lt_0_var; lra. }
        assert (Hcy : cy < 0) by (rewrite Ey; nra).
        destruct HA as [HA|[HA|HA]]; [lra| |].
        -- assert (- (PI / 2) <= P).
           { apply Rnot_lt_le. intros Hlt. assert (cos P < 0).
             { replace P with (- (- P)) by ring. rewrite cos_neg. apply cos_lt_0; lra. }
             rewrite Ex in HA. nra. }
           lra.
        -- assert (Hlt : sin alpha < sin (P + PI)).
           { rewrite neg_sin. apply Rmult_lt_reg_l with D; [lra|]. 
             assert (0 <= D * sin alpha) by (apply Rmult_le_pos; lra).
             assert (Ec : D * - sin P = - cy) by (rewrite Ey; ring). rewrite Ec.
             apply Rnot_le_lt. intros Hle. rewrite <- Hsr in HA.
             assert ((- cy) * (- cy) <= D * sin alpha * (D * sin alpha)) by (apply Rmult_le_compat; lra). lra. }
           destruct (Rlt_dec (PI / 2) (P + PI)); [lra|].
           assert (alpha < P + PI); [|lra]. apply Rnot_le_lt. intros Hle.
           assert (sin (P + PI) <= sin alpha) by (apply sin_incr_1; lra). lra.
    + rewrite (two_ops_away cx cy r2 rho (h_n h) i lo dr j Hge Hdir). ring.
    + exfalso. apply Hmiss. destruct (two_chord cx cy r2 rho (h_n h) i Hge Hdir Hb) as (s & e & E & Ho & Hc).
      exists (cx * cos phi + cy * sin phi). split; [exact Hdir|].
      apply inside2_iff. rewrite Rminus_diag_eq by reflexivity. lra.
Qed.
