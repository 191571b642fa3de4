(** * Median profiles: the pixel of a direction. *)
From Coq Require Import Reals Lra Lia ZArith List Bool Permutation.
From Verif Require Import ProfModel ProfSpec LosSpec LoopFacts InterpProofs LosProofs3 ShellProofs ProfProofs.
From Verif Require Import Props_Pixel.
Import List ListNotations.
Local Open Scope R_scope.

(** ** Specification *)
(** phi and theta are polar angles of d. *)
Definition polar (d : vec3) (phi theta : R) : Prop :=
  0 <= phi < 2 * PI /\ 0 <= theta <= PI /\ exists r, 0 < r /\ d = (r * sin theta * cos phi, r * sin theta * sin phi, r * cos theta).

(** p is the number of the equal-area cell (C84) that the direction d is in. *)
Definition has_pixel (lvl : Z) (d : vec3) (p : Z) : Prop :=
  if (lvl =? 0)%Z then p = 0%Z else
  exists phi theta upper k m, polar d phi theta /\ is_cell (lvl - 1) k m /\ in_sphere_cell lvl upper k m phi theta /\ p = sphere_cell_number lvl upper k m.

(** ** Polar angles *)
Lemma cos_one_zero x : - (2 * PI) < x < 2 * PI -> cos x = 1 -> x = 0.
Proof.
  intros Hx E. assert (E2 : cos x = 1 - 2 * sin (x / 2) * sin (x / 2)) by (replace x with (2 * (x / 2)) at 1 by field; apply cos_2a_sin).
  assert (Hs : sin (x / 2) = 0) by nra. destruct (Rtotal_order x 0) as [H|[H|H]]; [|exact H|]; exfalso.
  - assert (0 < sin (- (x / 2))) by (apply sin_gt_0; lra). rewrite sin_neg in H0. lra.
  - assert (0 < sin (x / 2)) by (apply sin_gt_0; lra). lra.
Qed.

Lemma angle_unique a b : 0 <= a < 2 * PI -> 0 <= b < 2 * PI -> cos a = cos b -> sin a = sin b -> a = b.
Proof.
  intros Ha Hb Ec Es. assert (a - b = 0); [|lra]. apply cos_one_zero; [lra|]. rewrite cos_minus, Ec, Es. pose proof (sin2_cos2 b) as H. unfold Rsqr in H. lra.
Qed.

Lemma polar_unique d phi theta phi' theta' : polar d phi theta -> polar d phi' theta' -> theta = theta' /\ (sin theta <> 0 -> phi = phi').
Proof.
  intros (Hp & Ht & r & Hr & E) (Hp' & Ht' & r' & Hr' & E'). rewrite E in E'. injection E' as E1 E2 E3.
  assert (Err : r * r = r' * r').
  { pose proof (sin2_cos2 theta) as A. pose proof (sin2_cos2 theta') as A'. pose proof (sin2_cos2 phi) as B. pose proof (sin2_cos2 phi') as B'. unfold Rsqr in *.
    transitivity ((r * sin theta * cos phi) * (r * sin theta * cos phi) + (r * sin theta * sin phi) * (r * sin theta * sin phi) + r * cos theta * (r * cos theta)).
    - transitivity (r * r * (sin theta * sin theta * (sin phi * sin phi + cos phi * cos phi) + cos theta * cos theta)); [rewrite B, Rmult_1_r, A; ring|ring].
    - rewrite E1, E2, E3. transitivity (r' * r' * (sin theta' * sin theta' * (sin phi' * sin phi' + cos phi' * cos phi') + cos theta' * cos theta')); [ring|rewrite B', Rmult_1_r, A'; ring]. }
  assert (Er : r = r') by nra. subst r'. apply Rmult_eq_reg_l in E3; [|lra].
  assert (Eth : theta = theta') by (rewrite <- (acos_cos theta Ht), <- (acos_cos theta' Ht'), E3; reflexivity). split; [exact Eth|]. subst theta'.
  intros Hs. assert (Hrs : r * sin theta <> 0) by (apply Rmult_integral_contrapositive; split; lra). apply Rmult_eq_reg_l in E1; [|exact Hrs]. apply Rmult_eq_reg_l in E2; [|exact Hrs]. now apply angle_unique.
Qed.

(** The angles that the program computes. *)
Lemma polar_exists dx dy dz : 0 < dx * dx + dy * dy + dz * dz ->
  polar (dx, dy, dz) (if Rltb (atan2 dy dx) 0 then atan2 dy dx + 2 * PI else atan2 dy dx) (acos (dz / sqrt (dx * dx + dy * dy + dz * dz))).
Proof.
  intros H. pose proof PI_RGT_0 as Hpi. set (r2 := dx * dx + dy * dy + dz * dz) in *. assert (Hr : 0 < sqrt r2) by (apply sqrt_lt_R0; exact H). pose proof (sqrt_sqrt r2 ltac:(lra)) as Hrr.
  set (r := sqrt r2) in *. assert (Hz : -1 <= dz / r <= 1).
  { assert (Hzz : dz * dz <= r * r) by (rewrite Hrr; unfold r2; nra). assert (E : dz = dz / r * r) by (field; lra). set (q := dz / r) in *. rewrite E in Hzz. assert (q * q <= 1) by (apply Rmult_le_reg_r with (r * r); nra). nra. }
  assert (Hth : 0 <= acos (dz / r) <= PI) by apply acos_bound. assert (Ec : cos (acos (dz / r)) = dz / r) by (apply cos_acos; exact Hz).
  assert (Hs0 : 0 <= sin (acos (dz / r))) by (apply sin_ge_0; lra).
  assert (Hs2 : (r * sin (acos (dz / r))) * (r * sin (acos (dz / r))) = dx * dx + dy * dy).
  { pose proof (sin2_cos2 (acos (dz / r))) as A. unfold Rsqr in A. rewrite Ec in A. set (sn := sin (acos (dz / r))) in *. assert (E : dz = dz / r * r) by (field; lra). set (q := dz / r) in *.
    transitivity (r * r * (sn * sn)); [ring|]. replace (sn * sn) with (1 - q * q) by lra. transitivity (r * r - (q * r) * (q * r)); [ring|]. rewrite <- E, Hrr. unfold r2. ring. }
  set (phi := if Rltb (atan2 dy dx) 0 then atan2 dy dx + 2 * PI else atan2 dy dx).
  set (th := acos (dz / r)) in *. clearbody th. assert (Hsq : r * sin th = sqrt (dx * dx + dy * dy)) by (symmetry; apply sqrt_lem_1; nra).
  assert (Hz2 : r * cos th = dz) by (rewrite Ec; field; lra).
  assert (G : 0 <= phi < 2 * PI /\ dx = r * sin th * cos phi /\ dy = r * sin th * sin phi).
  { destruct (Req_dec (dx * dx + dy * dy) 0) as [E0|E0].
    - assert (dx = 0) by nra. assert (dy = 0) by nra. subst dx dy. rewrite Hsq, E0, sqrt_0. split; [|split; ring]. unfold phi, atan2. rewrite (proj2 (Rltb_false 0 0)) by lra. rewrite (proj2 (Rltb_false 0 0)) by lra. lra.
    - assert (Hp : 0 < dx * dx + dy * dy) by nra. pose proof (atan2_range dy dx Hp) as Hr2. rewrite Hsq. unfold phi.
      destruct (atan2_cos_sin dy dx Hp) as (A0 & B0). set (D := sqrt (dx * dx + dy * dy)) in *. assert (HD : 0 < D) by (apply sqrt_lt_R0; exact Hp).
      assert (A : dx = D * cos (atan2 dy dx)) by (rewrite A0; field; lra). assert (B : dy = D * sin (atan2 dy dx)) by (rewrite B0; field; lra). clear A0 B0.
      destruct (Rltb (atan2 dy dx) 0) eqn:E; [apply Rltb_true in E|apply Rltb_false in E].
      + split; [lra|]. replace (atan2 dy dx + 2 * PI) with (atan2 dy dx + 2 * INR 1 * PI) by (cbn; ring). rewrite cos_period, sin_period. lra.
      + split; [lra|]. lra. }
  destruct G as (G1 & G2 & G3). split; [exact G1|]. split; [exact Hth|]. exists r. split; [lra|]. rewrite <- G2, <- G3, Hz2. reflexivity.
Qed.

Lemma in_cell_centre l k m phi : (0 <= l)%Z -> is_cell l k m -> in_cell l k m 0 phi -> k = 0%Z /\ m = 0%Z.
Proof.
  intros Hl (Hk & Hm) (Hi & _). assert (k = 0%Z).
  { destruct (Z.eq_dec k 0) as [E|E]; [exact E|]. exfalso. unfold inner in Hi. destruct (Z.eqb_spec k 0); [lia|].
    assert (0 < IZR (2 * k - 1) / IZR (2 * l + 1)) by (apply Rdiv_lt_0_compat; apply IZR_lt; lia). lra. }
  subst k. unfold sectors in Hm. cbn in Hm. lia.
Qed.

Lemma sphere_cell_unique lvl d phi theta u k m phi' theta' u' k' m' : (1 <= lvl)%Z -> polar d phi theta -> polar d phi' theta' ->
  is_cell (lvl - 1) k m -> is_cell (lvl - 1) k' m' -> in_sphere_cell lvl u k m phi theta -> in_sphere_cell lvl u' k' m' phi' theta' ->
  u = u' /\ k = k' /\ m = m'.
Proof.
  intros Hl P P' C C' (I1 & I2) (I1' & I2'). destruct (polar_unique d phi theta phi' theta' P P') as (Et & Ep). subst theta'.
  assert (Eu : u = u') by (destruct u, u'; try reflexivity; exfalso; cbv iota in I1, I1'; lra). split; [exact Eu|].
  destruct (Req_dec (sin theta) 0) as [Es|Es].
  - assert (E0 : sqrt (1 - Rabs (cos theta)) = 0).
    { pose proof (sin2_cos2 theta) as A. unfold Rsqr in A. rewrite Es in A. assert (Ea : Rabs (cos theta) = 1) by (unfold Rabs; destruct (Rcase_abs (cos theta)); nra). rewrite Ea, Rminus_diag_eq by reflexivity. apply sqrt_0. }
    rewrite E0 in *. destruct (in_cell_centre (lvl - 1) _ _ _ ltac:(lia) C I2) as (-> & ->). destruct (in_cell_centre (lvl - 1) _ _ _ ltac:(lia) C' I2') as (-> & ->). auto.
  - rewrite <- (Ep Es) in I2'. apply (C84_cells_disjoint (lvl - 1) k m k' m' _ _ ltac:(lia) C C' I2 I2').
Qed.

Lemma direction_pixel_spec lvl dx dy dz p : (0 <= lvl)%Z -> 0 < dx * dx + dy * dy + dz * dz -> (lvl = 1%Z -> dz <> 0) ->
  (0 <= direction_pixel lvl dx dy dz < SpherePixelNum lvl)%Z /\ (direction_pixel lvl dx dy dz = p <-> has_pixel lvl (dx, dy, dz) p).
Proof.
  intros Hl H Hz. pose proof (polar_exists dx dy dz H) as P. unfold direction_pixel, has_pixel. cbv zeta.
  set (phi := if Rltb _ _ then _ else _) in *. set (theta := acos _) in *. destruct (Z.eqb_spec lvl 0) as [->|E0].
  - unfold SpherePixel, SpherePixelNum. cbn [Z.eqb]. split; [lia|]. split; intros; congruence.
  - assert (Heq : lvl = 1%Z -> theta <> PI / 2).
    { intros E1 Et. destruct P as (_ & _ & r & Hr & Ed). injection Ed as _ _ Ez. rewrite Et, cos_PI2, Rmult_0_r in Ez. now apply Hz. }
    destruct (C84_sphere_pixel lvl phi theta ltac:(lia) (proj1 P) (proj1 (proj2 P)) Heq) as (u & k & m & Hc & Hi & En & Hr). split; [exact Hr|]. rewrite En. split.
    + intros <-. exists phi, theta, u, k, m. auto.
    + intros (phi' & theta' & u' & k' & m' & P' & Hc' & Hi' & ->). destruct (sphere_cell_unique lvl _ _ _ _ _ _ _ _ _ _ _ ltac:(lia) P P' Hc Hc' Hi Hi') as (-> & -> & ->). reflexivity.
Qed.

(** ** Median profiles *)
Definition act2_of (c : ProfConf) (s : ESphere) (tw : R) (x : vec) : option (nat * nat) :=
  let '(dx, dy, dz) := displacement s tw x in
  let r2 := dx * dx + dy * dy + dz * dz in
  if Rleb r2 (e_R s * pc_rMin c * (e_R s * pc_rMin c)) || Rleb (e_R s * pc_rMax c * (e_R s * pc_rMax c)) r2 then None else
  Some (Z.to_nat (radial_index c s r2), Z.to_nat (direction_pixel (pc_level c) dx dy dz)).

Section Median.
  Variables (c : ProfConf) (s : ESphere) (tw : R).
  Hypothesis Hb : (0 < pc_bins c)%nat.
  Hypothesis Hm : 0 < pc_rMin c < pc_rMax c.
  Hypothesis HR : 0 < e_R s.
  Hypothesis Hl : (0 <= pc_level c)%Z.
  Let rMin := e_R s * pc_rMin c.
  Let rMax := e_R s * pc_rMax c.

  Definition off_equator (x : vec) : Prop := pc_level c = 1%Z -> let '(_, _, dz) := displacement s tw x in dz <> 0.

  Lemma act2_bins x j p : off_equator x -> act2_of c s tw x = Some (j, p) -> (j < pc_bins c)%nat /\ (p < Z.to_nat (SpherePixelNum (pc_level c)))%nat.
  Proof.
    unfold act2_of, off_equator. intros Ho. destruct (displacement s tw x) as ((dx, dy), dz). cbv zeta. pose proof (sq3_nonneg dx dy dz) as H0. set (r2 := dx * dx + dy * dy + dz * dz) in *.
    destruct (_ || _) eqn:E; [discriminate|]. apply (annulus_iff c s 0 (fun _ _ _ => true) Hm HR r2 H0) in E. destruct (radial_index_spec c s r2 0 Hb Hm HR E H0) as ((k & Hk & Ek) & _).
    assert (Hp : 0 < r2). { destruct (Rle_lt_dec r2 0) as [G|G]; [|exact G]. exfalso. rewrite (Rle_antisym _ _ G H0), sqrt_0 in E. unfold rMin in *. nra. }
    destruct (direction_pixel_spec (pc_level c) dx dy dz 0 Hl Hp Ho) as (D & _). rewrite Ek, Nat2Z.id. intros [= <- <-]. split; [exact Hk|lia].
  Qed.

  Lemma act2_spec x j p : off_equator x -> in_half_box tw (e_c s) x ->
    act2_of c s tw x = Some (j, p) <-> in_bin (e_c s) (pc_bins c) rMin rMax j x /\
      has_pixel (pc_level c) (let '(a0, b0, c0) := e_c s in let '(a, b, d) := x in (a - a0, b - b0, d - c0)) (Z.of_nat p).
  Proof.
    unfold act2_of, off_equator. intros Ho Hh. rewrite (displacement_id s tw x Hh) in *. unfold in_bin. destruct (e_c s) as ((a0, b0), c0), x as ((a, b), d). cbv zeta.
    change (dist2_3 (a, b, d) (a0, b0, c0)) with ((a - a0) * (a - a0) + (b - b0) * (b - b0) + (d - c0) * (d - c0)).
    pose proof (sq3_nonneg (a - a0) (b - b0) (d - c0)) as H0. set (r2 := (a - a0) * (a - a0) + (b - b0) * (b - b0) + (d - c0) * (d - c0)) in *.
    destruct (_ || _) eqn:E.
    - split; [discriminate|]. intros ((HX & _) & _). apply (annulus_iff c s 0 (fun _ _ _ => true) Hm HR r2 H0) in HX. congruence.
    - apply (annulus_iff c s 0 (fun _ _ _ => true) Hm HR r2 H0) in E. destruct (radial_index_spec c s r2 j Hb Hm HR E H0) as ((k & Hk & Ek) & HI). fold rMin rMax in HI. rewrite <- HI, Ek, Nat2Z.id.
      assert (Hp : 0 < r2). { destruct (Rle_lt_dec r2 0) as [G|G]; [|exact G]. exfalso. rewrite (Rle_antisym _ _ G H0), sqrt_0 in E. unfold rMin in *. nra. }
      destruct (direction_pixel_spec (pc_level c) (a - a0) (b - b0) (d - c0) (Z.of_nat p) Hl Hp Ho) as (D1 & D2). rewrite <- D2. set (q := direction_pixel _ _ _ _) in *. clearbody q.
      split; [intros [= <- <-]|intros ((_ & G1) & G2)].
      + split; [split; [exact E|reflexivity]|lia].
      + f_equal. f_equal; lia.
  Qed.
End Median.

(** ** Finishing *)
Lemma bin_centre_spec n rMin rMax j : (0 < n)%nat -> 0 < rMin < rMax -> bin_centre n rMin rMax j = sqrt (edge n rMin rMax j * edge n rMin rMax (S j)).
Proof.
  intros Hn Hr. rewrite !(edge_exp n rMin rMax Hn Hr), <- exp_plus. unfold bin_centre. cbv zeta. set (d := (ln rMax - ln rMin) / INR n). rewrite S_INR.
  replace (ln rMin + INR j * d + (ln rMin + (INR j + 1) * d)) with ((ln rMin + d * (INR j + / 2)) + (ln rMin + d * (INR j + / 2))) by field. set (e := ln rMin + d * (INR j + / 2)). rewrite (exp_plus e e). symmetry. apply sqrt_square. left. apply exp_pos.
Qed.

Lemma bin_volume_spec n rMin rMax j : (0 < n)%nat -> 0 < rMin < rMax -> bin_volume n rMin rMax j = shell_volume (edge n rMin rMax j) (edge n rMin rMax (S j)).
Proof.
  intros Hn Hr. rewrite !(edge_exp n rMin rMax Hn Hr). unfold bin_volume, shell_volume. cbv zeta. set (d := (ln rMax - ln rMin) / INR n). rewrite Nat.add_1_r.
  rewrite (Rplus_comm (d * INR j)), (Rmult_comm d (INR j)), (Rplus_comm (d * INR (S j))), (Rmult_comm d (INR (S j))). field.
Qed.

Lemma shell_volume_pos lo hi : 0 < lo < hi -> 0 < shell_volume lo hi.
Proof. intros H. unfold shell_volume. pose proof PI_RGT_0. apply Rmult_lt_0_compat; [apply Rdiv_lt_0_compat; lra|]. assert (lo * lo < hi * hi) by nra. assert (lo * (lo * (lo * 1)) < hi * (hi * (hi * 1))) by nra. cbn [pow]. lra. Qed.
