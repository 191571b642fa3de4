(** * C205: pixels of particles in median profiles, with rounding *)
From Coq Require Import Reals Lra Lia List Bool ZArith Psatz.
From Flocq Require Import Core.
From Verif Require Import RealBase InterpProofs ShellProofs RoundModel Props_Round Props_RoundRing Props_RoundIndex RoundPixelModel.
Local Open Scope R_scope.

(** ** Specification *)

(** What is assumed about math.Acos and math.Cos: they are close to the functions they stand for (near 1, math.Acos loses half the digits). *)
Definition trig_ok (facos fcos : R -> R) : Prop :=
  (forall c, -1 <= c <= 1 -> Rabs (facos c - acos c) <= / 2 ^ 25) /\ (forall x, Rabs x <= 2 -> Rabs (fcos x - cos x) <= / 2 ^ 40).

(** The direction is at least 2^-10 radians from the polar axis. *)
Definition off_axis (dx dy dz : R) : Prop := 0 < dx * dx + dy * dy + dz * dz /\ / 2 ^ 20 * (dx * dx + dy * dy + dz * dz) <= dx * dx + dy * dy.

(** ** Proofs *)
Lemma wrap64_id z : (- 2 ^ 63 <= z < 2 ^ 63)%Z -> wrap64 z = z.
Proof. intros H. unfold wrap64. rewrite Z.mod_small by lia. lia. Qed.

Lemma go_int_pos x : 0 <= x -> x < 2 ^ 60 -> go_int (Some x) = Rtrunc x /\ (0 <= Rtrunc x < 2 ^ 60)%Z.
Proof.
  intros H0 H1. destruct (Rtrunc_pos x H0) as (T0 & T1 & T2). assert (Rtrunc x < 2 ^ 60)%Z. { apply lt_IZR. change (IZR (2 ^ 60)) with 1152921504606846976. lra. }
  unfold go_int. cbv zeta. destruct (Z.leb_spec (- 2 ^ 63) (Rtrunc x)), (Z.ltb_spec (Rtrunc x) (2 ^ 63)); cbn [andb]; lia.
Qed.

Section Acc.
Variable M : machine.
Hypothesis HM : accurate M.
Variables facos fcos : R -> R.

Lemma f_disk_ok x phi l : (1 <= l <= 2 ^ 20)%Z -> 0 <= x <= 3 -> 0 <= phi <= 2 * PI * (1 - / 2 ^ 40) -> (0 <= f_disk_pixel M (Some x) phi l < f_disk_num l)%Z.
Proof.
  intros Hl Hx Hphi. pose proof v_val as Hv. pose proof pi_bounds as Hpi. unfold f_disk_pixel. cbn [option_map].
  assert (HL : 3 <= IZR (2 * l + 1) <= 2 ^ 22). { split; [apply IZR_le; lia|]. replace (2 ^ 22) with (IZR 4194304) by lra. apply IZR_le. lia. }
  pose proof (r64_rel M HM (IZR (2 * l + 1)) ltac:(lra)) as E1. set (d := r64 M (IZR (2 * l + 1))) in *. clearbody d. assert (Pd : 0 <= d <= 2 ^ 23) by (split; nra).
  assert (Pxd : 0 <= x * d <= 3 * 2 ^ 23) by (split; [apply Rmult_le_pos; lra|apply Rmult_le_compat; lra]).
  pose proof (r64_rel M HM (x * d) ltac:(lra)) as E2. set (q := r64 M (x * d)) in *. clearbody q. assert (Pq : 0 <= q <= 2 ^ 30) by (split; nra).
  destruct (go_int_pos q) as [G1 G2]; [lra|lra|]. rewrite G1. set (ir0 := Rtrunc q) in *. clearbody ir0.
  destruct (Z.eqb_spec ir0 0) as [E0|E0]; [unfold f_disk_num; nia|].
  rewrite (wrap64_id (ir0 + 1)) by lia. cbv zeta. assert (Q0 : (1 <= Z.quot (ir0 + 1) 2)%Z) by (apply Z.quot_le_lower_bound; lia).
  set (ir := if (l <=? Z.quot (ir0 + 1) 2)%Z then l else Z.quot (ir0 + 1) 2). assert (Hir : (1 <= ir <= l)%Z) by (unfold ir; destruct (Z.leb_spec l (Z.quot (ir0 + 1) 2)); lia). clearbody ir.
  rewrite (wrap64_id (8 * ir)) by lia.
  assert (HI : 8 <= IZR (8 * ir) <= 2 ^ 23). { split; [apply IZR_le; lia|]. replace (2 ^ 23) with (IZR 8388608) by lra. apply IZR_le. lia. }
  pose proof (r64_rel M HM (IZR (8 * ir)) ltac:(lra)) as E3. set (e := r64 M (IZR (8 * ir))) in *. clearbody e. set (I := IZR (8 * ir)) in *. assert (EI : I = IZR (8 * ir)) by reflexivity. clearbody I.
  pose proof (r64_rel M HM (2 * PI) ltac:(lra)) as ET. set (T := r64 M (2 * PI)) in *. clearbody T.
  assert (Pe : 0 <= e) by nra. assert (Pep : 0 <= e * phi) by (apply Rmult_le_pos; lra). pose proof (r64_rel M HM _ Pep) as E4. set (f := r64 M (e * phi)) in *. clearbody f. assert (Pf : 0 <= f) by nra.
  assert (PT : 0 < T) by nra. assert (PfT : 0 <= f / T) by (unfold Rdiv; apply Rmult_le_pos; [exact Pf|left; apply Rinv_0_lt_compat; exact PT]).
  pose proof (r64_rel M HM _ PfT) as E5. set (g := r64 M (f / T)) in *. clearbody g. assert (Pg : 0 <= g). { apply Rle_trans with (f / T * (1 - v)); [apply Rmult_le_pos; lra|exact (proj1 E5)]. }
  assert (Hg : g < I).
  { assert (F1 : f <= I * (2 * PI) * ((1 - / 2 ^ 40) * (1 + v) * (1 + v))).
    { apply Rle_trans with (e * phi * (1 + v)); [lra|]. apply Rle_trans with (I * (1 + v) * (2 * PI * (1 - / 2 ^ 40)) * (1 + v)); [|right; ring].
      apply Rmult_le_compat_r; [lra|]. apply Rmult_le_compat; try lra. }
    assert (F2 : g * T <= f * (1 + v)). { assert (X : f / T * T = f) by (field; apply Rgt_not_eq; exact PT). apply Rle_trans with (f / T * (1 + v) * T); [apply Rmult_le_compat_r; [left; exact PT|exact (proj2 E5)]|]. right. replace (f / T * (1 + v) * T) with (f / T * T * (1 + v)) by ring. rewrite X. reflexivity. }
    apply (Rmult_lt_reg_r T); [exact PT|]. apply Rle_lt_trans with (f * (1 + v)); [exact F2|].
    apply Rle_lt_trans with (I * (2 * PI) * ((1 - / 2 ^ 40) * (1 + v) * (1 + v)) * (1 + v)); [apply Rmult_le_compat_r; lra|].
    apply Rlt_le_trans with (I * (2 * PI * (1 - v))); [|apply Rmult_le_compat_l; lra].
    replace (I * (2 * PI) * ((1 - / 2 ^ 40) * (1 + v) * (1 + v)) * (1 + v)) with (I * (2 * PI) * ((1 - / 2 ^ 40) * (1 + v) * (1 + v) * (1 + v))) by ring.
    replace (I * (2 * PI * (1 - v))) with (I * (2 * PI) * (1 - v)) by ring. apply Rmult_lt_compat_l; [apply Rmult_lt_0_compat; lra|].
    assert (V2 : v < / 2 ^ 45) by (unfold v; lra). assert ((1 + v) * (1 + v) * (1 + v) <= 1 + 4 * v) by nra. 
    assert ((1 - / 2 ^ 40) * ((1 + v) * (1 + v) * (1 + v)) <= (1 - / 2 ^ 40) * (1 + 4 * v)) by (apply Rmult_le_compat_l; lra). lra. }
  destruct (go_int_pos g) as [G3 G4]; [lra|lra|]. rewrite G3.
  destruct (Rtrunc_pos g Pg) as (T0 & T1 & T2). assert (Hith : (Rtrunc g < 8 * ir)%Z) by (apply lt_IZR; rewrite <- EI; lra). set (ith := Rtrunc g) in *. clearbody ith.
  assert (Sq : ((2 * (ir - 1) + 1) * (2 * (ir - 1) + 1) + 8 * ir = (2 * ir + 1) * (2 * ir + 1))%Z) by ring.
  assert (Sq2 : ((2 * ir + 1) * (2 * ir + 1) <= (l * 2 + 1) * (l * 2 + 1))%Z) by nia. assert (Sq3 : ((l * 2 + 1) * (l * 2 + 1) <= 2 ^ 50)%Z) by nia.
  unfold f_disk_num. rewrite wrap64_id by nia. nia.
Qed.

Lemma f_disk_centre x phi l : (1 <= l <= 2 ^ 20)%Z -> - / 2 ^ 24 <= x < 0 -> f_disk_pixel M (Some x) phi l = 0%Z.
Proof.
  intros Hl Hx. pose proof v_val as Hv. unfold f_disk_pixel. cbn [option_map].
  assert (HL : 3 <= IZR (2 * l + 1) <= 2 ^ 22). { split; [apply IZR_le; lia|]. replace (2 ^ 22) with (IZR 4194304) by lra. apply IZR_le. lia. }
  pose proof (r64_rel M HM (IZR (2 * l + 1)) ltac:(lra)) as E1. set (d := r64 M (IZR (2 * l + 1))) in *. clearbody d. assert (Pd : 0 <= d <= 2 ^ 23) by (split; nra).
  assert (Pxd : - (/ 2) <= x * d <= 0). { split; [|nra]. assert ((- x) * d <= / 2 ^ 24 * 2 ^ 23) by (apply Rmult_le_compat; lra). lra. }
  pose proof (r64_abs M HM (x * d) (/ 2) ltac:(apply Rabs_le; lra)) as E2. apply Rabs_le_inv in E2. set (q := r64 M (x * d)) in *. clearbody q.
  assert (G : go_int (Some q) = 0%Z).
  { unfold go_int. cbv zeta. assert (T : Rtrunc q = 0%Z).
    { unfold Rtrunc. destruct (Rle_dec 0 q) as [P|P].
      - destruct (base_Int_part q) as [B1 B2]. assert (IZR (Int_part q) < 1) by lra. assert (-1 < IZR (Int_part q)) by lra. apply lt_IZR in H, H0. lia.
      - destruct (base_Int_part (- q)) as [B1 B2]. assert (IZR (Int_part (- q)) < 1) by lra. assert (-1 < IZR (Int_part (- q))) by lra. apply lt_IZR in H, H0. lia. }
    rewrite T. reflexivity. }
  rewrite G. reflexivity.
Qed.

Lemma f_disk_in x phi l : (1 <= l <= 2 ^ 20)%Z -> - / 2 ^ 24 <= x <= 3 -> 0 <= phi <= 2 * PI * (1 - / 2 ^ 40) -> (0 <= f_disk_pixel M (Some x) phi l < f_disk_num l)%Z.
Proof.
  intros Hl Hx Hp. destruct (Rlt_dec x 0) as [N|N]; [|apply f_disk_ok; [exact Hl|lra|exact Hp]].
  rewrite f_disk_centre by (try exact Hl; lra). unfold f_disk_num. nia.
Qed.

Hypothesis HT : trig_ok facos fcos.

Lemma cos_pi4_near : / 2 <= cos_pi4 M fcos.
Proof.
  pose proof v_val as Hv. pose proof pi_bounds as Hpi. unfold cos_pi4. pose proof (r64_rel M HM (PI / 4) ltac:(lra)) as E. set (x := r64 M (PI / 4)) in *. clearbody x.
  assert (B : 0 <= x <= PI / 3) by (split; nra). destruct HT as [_ HC]. pose proof (HC x ltac:(apply Rabs_le; lra)) as E2. apply Rabs_le_inv in E2.
  (* cos x >= cos (11 pi / 40) > 1/2 + ... *)
  assert (C : 1 / 2 + / 2 ^ 40 <= cos x).
  { pose proof (cos_bound x 0 ltac:(lra) ltac:(lra)) as [K _]. unfold cos_approx, cos_term in K. simpl in K.
    assert (Hx2 : x <= 7 / 8 + / 2 ^ 20) by nra. assert (x * x <= (7 / 8 + / 2 ^ 20) * (7 / 8 + / 2 ^ 20)) by (apply Rmult_le_compat; lra). lra. }
  lra.
Qed.

Definition eta : R := / 2 ^ 26 + / 2 ^ 40.

Lemma cos_nonneg_near a : - / 2 ^ 20 <= a <= PI / 2 + eta -> - eta <= cos a <= 1.
Proof.
  intros H. pose proof pi_bounds as Hpi. pose proof (COS_bound a) as [_ B]. split; [|exact B].
  assert (He : 0 < eta < / 2 ^ 20) by (unfold eta; lra).
  destruct (Rle_dec a (PI / 2)) as [L|L]; [pose proof (cos_ge_0 a ltac:(lra) ltac:(lra)); lra|].
  replace a with (PI / 2 + (a - PI / 2)) by ring. rewrite cos_plus, cos_PI2, sin_PI2. assert (sin (a - PI / 2) < a - PI / 2) by (apply sin_lt_x; lra). lra.
Qed.

Lemma ring_coordinate t : - (/ 2 ^ 25 + / 2 ^ 45) <= t <= PI + / 2 ^ 25 + / 2 ^ 45 -> - / 2 ^ 24 <= r64 M (fcos (r64 M (t / 2)) / cos_pi4 M fcos) <= 3.
Proof.
  intros H. pose proof pi_bounds as Hpi. assert (Hv : 0 < v < / 2 ^ 50) by (unfold v; lra).
  assert (Ba : Rabs (t / 2) <= 2) by (apply Rabs_le; lra). pose proof (r64_abs M HM (t / 2) 2 Ba) as E1. apply Rabs_le_inv in E1. set (a := r64 M (t / 2)) in *. clearbody a.
  destruct HT as [_ HC]. pose proof (HC a ltac:(apply Rabs_le; lra)) as E2. apply Rabs_le_inv in E2. pose proof (cos_nonneg_near a ltac:(unfold eta; split; lra)) as E3.
  set (x := fcos a) in *. clearbody x. pose proof cos_pi4_near as Hk. set (k := cos_pi4 M fcos) in *. clearbody k.
  assert (Pk : 0 < / k <= 2). { split; [apply Rinv_0_lt_compat; lra|]. rewrite <- (Rinv_inv 2). apply Rinv_le_contravar; lra. }
  unfold eta in E3. assert (Hx : - (/ 2 ^ 26 + / 2 ^ 38) <= x <= 1 + / 2 ^ 40) by (split; lra).
  assert (Q : - (2 * (/ 2 ^ 26 + / 2 ^ 38)) <= x / k <= 2 * (1 + / 2 ^ 40)).
  { unfold Rdiv. set (j := / k) in *. clearbody j. split.
    - destruct (Rle_dec 0 x) as [P|P]; [assert (0 <= x * j) by (apply Rmult_le_pos; lra); lra|]. assert ((- x) * j <= (/ 2 ^ 26 + / 2 ^ 38) * 2) by (apply Rmult_le_compat; lra). lra.
    - destruct (Rle_dec 0 x) as [P|P]; [apply Rle_trans with ((1 + / 2 ^ 40) * 2); [apply Rmult_le_compat; lra|lra]|]. assert (0 <= (- x) * j) by (apply Rmult_le_pos; lra). lra. }
  pose proof (r64_abs M HM (x / k) 3 ltac:(apply Rabs_le; lra)) as E4. apply Rabs_le_inv in E4. split; lra.
Qed.

Lemma acos_upper c : / 2 ^ 21 <= c <= 1 -> acos c <= PI / 2 - / 2 ^ 21.
Proof.
  intros H. pose proof pi_bounds as Hpi. destruct (Rle_dec (acos c) (PI / 2 - / 2 ^ 21)) as [L|L]; [exact L|]. exfalso. pose proof (acos_bound c) as B.
  pose proof (cos_decreasing_1 (PI / 2 - / 2 ^ 21) (acos c) ltac:(lra) ltac:(lra) ltac:(lra) ltac:(lra) ltac:(lra)) as D. rewrite cos_acos in D by lra.
  rewrite cos_shift in D. assert (sin (/ 2 ^ 21) < / 2 ^ 21) by (apply sin_lt_x; lra). lra.
Qed.

Lemma acos_lower c : -1 <= c <= - / 2 ^ 21 -> PI / 2 + / 2 ^ 21 <= acos c.
Proof. intros H. pose proof (acos_upper (- c) ltac:(lra)) as E. rewrite acos_opp in E. lra. Qed.

(** The third coordinate over the distance, rounded, stays within [-1, 1] off the axis. *)
Lemma cosine_ok dx dy dz : off_axis dx dy dz ->
  let c := r64 M (dz / r64 M (sqrt (dist2 M dx dy dz))) in
  -1 <= c <= 1 /\ (/ 2 ^ 20 * sqrt (dx * dx + dy * dy + dz * dz) <= dz -> / 2 ^ 21 <= c) /\ (dz <= - (/ 2 ^ 20 * sqrt (dx * dx + dy * dy + dz * dz)) -> c <= - / 2 ^ 21).
Proof.
  intros [Hs Hax] c. pose proof (dist2_rel M HM dx dy dz) as E. cbv zeta in E. subst c. set (s := dx * dx + dy * dy + dz * dz) in *. assert (Hz : dz * dz <= s * (1 - / 2 ^ 20)) by (unfold s in *; lra). clearbody s.
  set (s' := dist2 M dx dy dz) in *. clearbody s'. assert (Hu : 0 < u < / 2 ^ 23) by (unfold u; lra). assert (Hv : 0 < v < / 2 ^ 50) by (unfold v; lra).
  set (q := sqrt s). assert (Pq : 0 < q) by (apply sqrt_lt_R0; exact Hs). assert (Q2 : q * q = s) by (apply sqrt_sqrt; lra).
  assert (HU : 4 * u = / 2 ^ 22) by (unfold u; lra). rewrite HU in E.
  assert (R1 : q * (1 - / 2 ^ 22) <= sqrt s').
  { rewrite <- (sqrt_square (q * (1 - / 2 ^ 22))) by (apply Rmult_le_pos; lra). apply sqrt_le_1_alt. apply Rle_trans with (s * (1 - / 2 ^ 22)); [|exact (proj1 E)].
    replace (q * (1 - / 2 ^ 22) * (q * (1 - / 2 ^ 22))) with (q * q * ((1 - / 2 ^ 22) * (1 - / 2 ^ 22))) by ring. rewrite Q2. apply Rmult_le_compat_l; lra. }
  assert (R2 : sqrt s' <= q * (1 + / 2 ^ 22)).
  { rewrite <- (sqrt_square (q * (1 + / 2 ^ 22))) by (apply Rmult_le_pos; lra). apply sqrt_le_1_alt. apply Rle_trans with (s * (1 + / 2 ^ 22)); [exact (proj2 E)|].
    replace (q * (1 + / 2 ^ 22) * (q * (1 + / 2 ^ 22))) with (q * q * ((1 + / 2 ^ 22) * (1 + / 2 ^ 22))) by ring. rewrite Q2. apply Rmult_le_compat_l; lra. }
  assert (R0 : 0 <= sqrt s') by apply sqrt_pos. pose proof (r64_rel M HM _ R0) as E3. set (q' := sqrt s') in *. clearbody q'. set (r := r64 M q') in *. clearbody r.
  assert (R3 : q * (1 - / 2 ^ 22 - v) <= r). { apply Rle_trans with (q' * (1 - v)); [|lra]. apply Rle_trans with (q * (1 - / 2 ^ 22) * (1 - v)); [|apply Rmult_le_compat_r; lra]. rewrite Rmult_assoc. apply Rmult_le_compat_l; lra. }
  assert (R4 : r <= q * (3 / 2)). { apply Rle_trans with (q' * (1 + v)); [lra|]. apply Rle_trans with (q * (1 + / 2 ^ 22) * (1 + v)); [apply Rmult_le_compat_r; lra|]. rewrite Rmult_assoc. apply Rmult_le_compat_l; [lra|]. nra. }
  assert (Pr : 0 < r). { apply Rlt_le_trans with (q * (1 - / 2 ^ 22 - v)); [apply Rmult_lt_0_compat; lra|exact R3]. }
  assert (Z1 : Rabs dz <= q * (1 - / 2 ^ 21)).
  { apply Rsqr_incr_0; [|apply Rabs_pos|apply Rmult_le_pos; lra]. rewrite <- Rsqr_abs. unfold Rsqr. apply Rle_trans with (s * (1 - / 2 ^ 20)); [exact Hz|].
    replace (q * (1 - / 2 ^ 21) * (q * (1 - / 2 ^ 21))) with (q * q * ((1 - / 2 ^ 21) * (1 - / 2 ^ 21))) by ring. rewrite Q2. apply Rmult_le_compat_l; lra. }
  assert (Ir : 0 < / r) by (apply Rinv_0_lt_compat; exact Pr). assert (X : r * / r = 1) by (apply Rinv_r; lra).
  assert (G : forall e, Rabs dz <= r * e -> Rabs (dz / r) <= e).
  { intros e He. unfold Rdiv. rewrite Rabs_mult, (Rabs_pos_eq (/ r)) by lra. apply Rle_trans with (r * e * / r); [apply Rmult_le_compat_r; lra|]. right. field. lra. }
  assert (B : Rabs (dz / r) <= 1 - / 2 ^ 40).
  { apply G. apply Rle_trans with (q * (1 - / 2 ^ 21)); [exact Z1|]. apply Rle_trans with (q * (1 - / 2 ^ 22 - v) * (1 - / 2 ^ 40)); [|apply Rmult_le_compat_r; lra].
    rewrite Rmult_assoc. apply Rmult_le_compat_l; [lra|]. nra. }
  pose proof (r64_abs M HM (dz / r) 1 ltac:(lra)) as E5. apply Rabs_le_inv in B, E5. split; [split; lra|]. split; intros HZ.
  - assert (/ 2 ^ 20 * (2 / 3) <= dz / r).
    { unfold Rdiv. apply Rle_trans with (/ 2 ^ 20 * (2 / 3) * r * / r); [right; field; lra|]. apply Rmult_le_compat_r; [lra|]. apply Rle_trans with (/ 2 ^ 20 * q); [|exact HZ]. lra. }
    lra.
  - assert (dz / r <= - (/ 2 ^ 20 * (2 / 3))).
    { unfold Rdiv. apply Rle_trans with (- (/ 2 ^ 20 * (2 / 3)) * r * / r); [|right; field; lra]. apply Rmult_le_compat_r; [lra|]. apply Rle_trans with (- (/ 2 ^ 20 * q)); [exact HZ|]. lra. }
    lra.
Qed.

Lemma median_pixel_ok phi dx dy dz lvl : off_axis dx dy dz -> 0 <= phi <= 2 * PI * (1 - / 2 ^ 40) -> (2 <= lvl <= 2 ^ 20)%Z ->
  exists p, median_pixel M facos fcos phi dx dy dz lvl = Some p /\ (0 <= p < 2 * ((2 * (lvl - 1) + 1) * (2 * (lvl - 1) + 1)))%Z /\
    (dz <= - (/ 2 ^ 20 * sqrt (dx * dx + dy * dy + dz * dz)) -> (p < (2 * (lvl - 1) + 1) * (2 * (lvl - 1) + 1))%Z) /\
    (/ 2 ^ 20 * sqrt (dx * dx + dy * dy + dz * dz) <= dz -> ((2 * (lvl - 1) + 1) * (2 * (lvl - 1) + 1) <= p)%Z).
Proof.
  intros Hax Hphi Hl. destruct (cosine_ok dx dy dz Hax) as (Hc & HU & HD). unfold median_pixel. cbv zeta. set (c := r64 M (dz / r64 M (sqrt (dist2 M dx dy dz)))) in *. clearbody c.
  assert (N1 : Rltb 1 (Rabs c) = false) by (apply Rltb_false; apply Rabs_le; lra). rewrite N1. unfold f_sphere_num, f_sphere_pixel. destruct (Z.eqb_spec lvl 0) as [E|_]; [lia|].
  pose proof pi_bounds as Hpi. assert (Hv : 0 < v < / 2 ^ 50) by (unfold v; lra). destruct HT as [HA _]. pose proof (HA c Hc) as EA. apply Rabs_le_inv in EA. pose proof (acos_bound c) as BA.
  set (t := facos c) in *. clearbody t. pose proof (r64_abs M HM PI 4 ltac:(apply Rabs_le; lra)) as EP. pose proof (r64_abs M HM (PI / 2) 4 ltac:(apply Rabs_le; lra)) as EH. apply Rabs_le_inv in EP, EH.
  assert (DN : f_disk_num (lvl - 1) = ((2 * (lvl - 1) + 1) * (2 * (lvl - 1) + 1))%Z) by (unfold f_disk_num; ring). rewrite <- DN.
  assert (D1 : (f_disk_num (lvl - 1) <= 2 ^ 50)%Z) by (rewrite DN; nia).
  destruct (Rltb (r64 M (PI / 2)) t) eqn:B; [apply Rltb_true in B|apply Rltb_false in B]; cbn [option_map].
  - pose proof (f_disk_in _ phi (lvl - 1) ltac:(lia) (ring_coordinate t ltac:(lra)) Hphi) as P. cbv zeta. set (p := f_disk_pixel _ _ _ _) in *. clearbody p.
    destruct (Z.leb_spec 0 p), (Z.ltb_spec p (f_disk_num (lvl - 1) * 2)); try lia. cbn [andb]. exists p. split; [reflexivity|]. split; [lia|]. split; [intros _; lia|].
    intros HZ. specialize (HU HZ). pose proof (acos_upper c ltac:(lra)). exfalso. lra.
  - pose proof (r64_abs M HM (r64 M PI - t) 4 ltac:(apply Rabs_le; lra)) as ET. apply Rabs_le_inv in ET.
    pose proof (f_disk_in _ phi (lvl - 1) ltac:(lia) (ring_coordinate (r64 M (r64 M PI - t)) ltac:(lra)) Hphi) as P. cbv zeta. set (p := f_disk_pixel _ _ _ _) in *. clearbody p.
    rewrite wrap64_id by lia. destruct (Z.leb_spec 0 (f_disk_num (lvl - 1) + p)), (Z.ltb_spec (f_disk_num (lvl - 1) + p) (f_disk_num (lvl - 1) * 2)); try lia. cbn [andb].
    exists (f_disk_num (lvl - 1) + p)%Z. split; [reflexivity|]. split; [lia|]. split; [|intros _; lia].
    intros HZ. specialize (HD HZ). pose proof (acos_lower c ltac:(lra)). exfalso. lra.
Qed.
End Acc.

(** ** C205 *)

(** The pixel of a particle away from the polar axis is found without a panic, among the 2 (2 (lvl - 1) + 1)² pixels of the level, and in the hemisphere of the particle. *)
Theorem C205_pixel_partial : forall M facos fcos phi dx dy dz lvl, accurate M -> trig_ok facos fcos -> off_axis dx dy dz -> 0 <= phi <= 2 * PI * (1 - / 2 ^ 40) -> (2 <= lvl <= 2 ^ 20)%Z ->
  exists p, median_pixel M facos fcos phi dx dy dz lvl = Some p /\ (0 <= p < 2 * ((2 * (lvl - 1) + 1) * (2 * (lvl - 1) + 1)))%Z /\
    (dz <= - (/ 2 ^ 20 * sqrt (dx * dx + dy * dy + dz * dz)) -> (p < (2 * (lvl - 1) + 1) * (2 * (lvl - 1) + 1))%Z) /\
    (/ 2 ^ 20 * sqrt (dx * dx + dy * dy + dz * dz) <= dz -> ((2 * (lvl - 1) + 1) * (2 * (lvl - 1) + 1) <= p)%Z).
Proof. intros M facos fcos phi dx dy dz lvl HM HT. apply median_pixel_ok; assumption. Qed.
Print Assumptions C205_pixel_partial.

Lemma ieee32_zero : r32 ieee 0 = 0. Proof. cbn [r32 ieee]. apply round_0. apply valid_rnd_N. Qed.

Lemma ieee32_square : r32 ieee ((1 + / 2 ^ 23) * (1 + / 2 ^ 23)) = 1 + / 2 ^ 22.
Proof.
  cbn [r32 ieee]. unfold round, scaled_mantissa, cexp, F2R. cbn [Fnum Fexp].
  assert (Em : mag radix2 ((1 + / 2 ^ 23) * (1 + / 2 ^ 23)) = 1%Z :> Z). { apply mag_unique. rewrite Rabs_pos_eq by lra. cbn. lra. }
  rewrite Em. change (FLX_exp 24 1) with (-23)%Z. replace (Znearest (fun x => negb (Z.even x)) ((1 + / 2 ^ 23) * (1 + / 2 ^ 23) * bpow radix2 (- -23))) with 8388610%Z.
  - cbn. lra.
  - symmetry. apply Znearest_imp. change (bpow radix2 (- -23)) with (IZR 8388608). apply Rabs_lt. lra.
Qed.

Lemma ieee32_keep : r32 ieee (1 + / 2 ^ 22) = 1 + / 2 ^ 22.
Proof.
  cbn [r32 ieee]. apply round_generic; [apply valid_rnd_N|]. apply generic_format_FLX. exists (Float radix2 4194305 (-22)); [|cbn; lia]. unfold F2R. cbn. lra.
Qed.

Lemma axis_dist dz : dz = 1 + / 2 ^ 23 \/ dz = - (1 + / 2 ^ 23) -> dist2 ieee 0 0 dz = 1 + / 2 ^ 22.
Proof.
  intros H. unfold dist2. rewrite Rmult_0_l, !ieee32_zero, Rplus_0_l, ieee32_zero, Rplus_0_l. replace (dz * dz) with ((1 + / 2 ^ 23) * (1 + / 2 ^ 23)) by (destruct H as [-> | ->]; ring).
  rewrite ieee32_square. exact ieee32_keep.
Qed.

Lemma axis_nan dz : dz = 1 + / 2 ^ 23 \/ dz = - (1 + / 2 ^ 23) -> 1 < Rabs (r64 ieee (dz / r64 ieee (sqrt (dist2 ieee 0 0 dz)))).
Proof.
  intros H. rewrite axis_dist by exact H. assert (Hv : 0 < v < / 2 ^ 50) by (unfold v; lra). remember (1 + / 2 ^ 23) as b eqn:Eb. assert (Pb : 1 <= b) by lra.
  assert (Q : sqrt (1 + / 2 ^ 22) <= b * (1 - / 2 ^ 48)).
  { rewrite <- (sqrt_square (b * (1 - / 2 ^ 48))) by (apply Rmult_le_pos; lra). apply sqrt_le_1_alt. rewrite Eb. lra. }
  pose proof (r64_rel ieee ieee_accurate _ (sqrt_pos (1 + / 2 ^ 22))) as E. assert (Q0 : 1 <= sqrt (1 + / 2 ^ 22)). { rewrite <- sqrt_1 at 1. apply sqrt_le_1_alt. lra. }
  set (q := sqrt (1 + / 2 ^ 22)) in *. clearbody q. set (r := r64 ieee q) in *. clearbody r. assert (Pr : 0 < r). { apply Rlt_le_trans with (q * (1 - v)); [apply Rmult_lt_0_compat; lra|exact (proj1 E)]. }
  assert (R1 : r <= b * ((1 - / 2 ^ 48) * (1 + v))). { apply Rle_trans with (q * (1 + v)); [exact (proj2 E)|]. rewrite <- Rmult_assoc. apply Rmult_le_compat_r; lra. }
  assert (V : (1 - / 2 ^ 48) * (1 + v) <= 1 - / 2 ^ 49) by (unfold v; lra).
  assert (R2 : r <= b * (1 - / 2 ^ 49)). { apply Rle_trans with (b * ((1 - / 2 ^ 48) * (1 + v))); [exact R1|]. apply Rmult_le_compat_l; lra. }
  assert (G : 1 + / 2 ^ 49 <= b / r).
  { unfold Rdiv. assert (I : 0 < / r) by (apply Rinv_0_lt_compat; exact Pr). apply Rle_trans with ((1 + / 2 ^ 49) * r * / r); [right; field; apply Rgt_not_eq; exact Pr|]. apply Rmult_le_compat_r; [lra|].
    apply Rle_trans with ((1 + / 2 ^ 49) * (b * (1 - / 2 ^ 49))); [apply Rmult_le_compat_l; lra|]. replace ((1 + / 2 ^ 49) * (b * (1 - / 2 ^ 49))) with (b * ((1 + / 2 ^ 49) * (1 - / 2 ^ 49))) by ring.
    rewrite <- (Rmult_1_r b) at 2. apply Rmult_le_compat_l; lra. }
  assert (A : Rabs (dz / r) = b / r). { unfold Rdiv. rewrite Rabs_mult, (Rabs_pos_eq (/ r)) by (left; apply Rinv_0_lt_compat; exact Pr). f_equal. destruct H as [-> | ->]; [apply Rabs_pos_eq; lra|rewrite Rabs_Ropp; apply Rabs_pos_eq; lra]. }
  destruct ieee_accurate as (_ & A53 & _). specialize (A53 (dz / r)). rewrite A in A53. pose proof (Rabs_triang_inv (dz / r) (dz / r - r64 ieee (dz / r))) as T.
  replace (dz / r - (dz / r - r64 ieee (dz / r))) with (r64 ieee (dz / r)) in T by ring. rewrite (Rabs_minus_sym (dz / r)) in T. rewrite A in T.
  assert (/ 2 ^ 53 * (b / r) <= / 2 ^ 50 * (b / r)) by (apply Rmult_le_compat_r; lra). lra.
Qed.

Lemma axis_pixel facos fcos dz lvl : dz = 1 + / 2 ^ 23 \/ dz = - (1 + / 2 ^ 23) -> (1 <= lvl <= 2 ^ 20)%Z ->
  median_pixel ieee facos fcos 0 0 0 dz lvl = let p := ((2 * (lvl - 1) + 1) * (2 * (lvl - 1) + 1) + 1)%Z in if (lvl =? 1)%Z then None else Some p.
Proof.
  intros H Hl. unfold median_pixel. cbv zeta. rewrite (proj2 (Rltb_true _ _) (axis_nan dz H)). unfold f_sphere_pixel, f_sphere_num. destruct (Z.eqb_spec lvl 0); [lia|]. cbn [option_map].
  assert (D : f_disk_pixel ieee None 0 (lvl - 1) = 1%Z).
  { unfold f_disk_pixel. cbn [option_map]. change (go_int None) with (- 2 ^ 63)%Z. change (- 2 ^ 63 =? 0)%Z with false. cbv zeta. cbv iota.
    change (Z.quot (wrap64 (- 2 ^ 63 + 1)) 2) with (-4611686018427387903)%Z. destruct (Z.leb_spec (lvl - 1) (-4611686018427387903)); [lia|].
    change (wrap64 (8 * -4611686018427387903)) with 8%Z. rewrite Rmult_0_r. assert (Z0 : r64 ieee 0 = 0) by (apply (ieee_exact 0 0 0); [cbn; ring|cbn; lia]). rewrite Z0.
    replace (0 / r64 ieee (2 * PI)) with 0 by (unfold Rdiv; ring). rewrite Z0.
    assert (G : go_int (Some 0) = 0%Z). { destruct (go_int_pos 0) as [G1 G2]; [lra|lra|]. destruct (Rtrunc_pos 0 (Rle_refl 0)) as (T0 & T1 & T2). rewrite G1. apply Z.le_antisymm; [|exact T0]. apply le_IZR. exact T1. }
    rewrite G. reflexivity. }
  rewrite D. assert (DN : f_disk_num (lvl - 1) = ((2 * (lvl - 1) + 1) * (2 * (lvl - 1) + 1))%Z) by (unfold f_disk_num; ring). rewrite DN. rewrite wrap64_id by nia.
  destruct (Z.eqb_spec lvl 1) as [-> |N]; [reflexivity|].
  set (m := ((2 * (lvl - 1) + 1) * (2 * (lvl - 1) + 1))%Z). assert (9 <= m)%Z by (unfold m; nia). clearbody m. destruct (Z.leb_spec 0 (m + 1)), (Z.ltb_spec (m + 1) (m * 2)); try lia. reflexivity.
Qed.

(** A particle just below the centre: at level 1 the program panics; at higher levels it is counted in the hemisphere above the centre. *)
Theorem C205_axis_refuted : exists dz, dz < -1 /\ (forall facos fcos, median_pixel ieee facos fcos 0 0 0 dz 1 = None) /\
  (forall facos fcos lvl, (2 <= lvl <= 2 ^ 20)%Z -> exists p, median_pixel ieee facos fcos 0 0 0 dz lvl = Some p /\ ((2 * (lvl - 1) + 1) * (2 * (lvl - 1) + 1) <= p)%Z).
Proof.
  exists (- (1 + / 2 ^ 23)). split; [lra|]. split; intros.
  - rewrite axis_pixel by (try (right; reflexivity); lia). reflexivity.
  - rewrite axis_pixel by (try (right; reflexivity); lia). cbv zeta. destruct (Z.eqb_spec lvl 1); [lia|]. eexists. split; [reflexivity|]. lia.
Qed.
Print Assumptions C205_axis_refuted.

Example C205_nonvacuous : accurate ieee /\ trig_ok acos cos /\ off_axis 1 0 (-1) /\ 0 <= 1 <= 2 * PI * (1 - / 2 ^ 40) /\ -1 <= - (/ 2 ^ 20 * sqrt (1 * 1 + 0 * 0 + -1 * -1)).
Proof.
  split; [exact ieee_accurate|]. split; [split; intros; rewrite Rminus_diag_eq, Rabs_R0 by reflexivity; lra|]. split; [unfold off_axis; lra|]. pose proof pi_bounds. split; [lra|].
  assert (sqrt (1 * 1 + 0 * 0 + -1 * -1) <= 2). { rewrite <- (sqrt_square 2) by lra. apply sqrt_le_1_alt. lra. } lra.
Qed.
