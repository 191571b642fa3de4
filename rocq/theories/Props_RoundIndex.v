(** * C203, C204: rounding cannot make an index leave its table *)
From Coq Require Import Reals Lra Lia List Bool ZArith Psatz.
From Flocq Require Import Core.
From Verif Require Import RealBase InterpProofs ShellProofs KdeProofs RoundModel Props_Round RoundIndexModel.
Import List ListNotations.
Local Open Scope R_scope.

(** ** Specification *)

(** The lines i of two index ranges (upper ends exclusive). *)
Definition in_ranges (r : Z * Z * Z * Z) (i : nat) : nat :=
  let '(lo1, hi1, lo2, hi2) := r in
  ((if (lo1 <=? Z.of_nat i)%Z && (Z.of_nat i <? hi1)%Z then 1 else 0) + (if (lo2 <=? Z.of_nat i)%Z && (Z.of_nat i <? hi2)%Z then 1 else 0))%nat.
Definition ranges_ok (n : nat) (r : Z * Z * Z * Z) : Prop :=
  let '(lo1, hi1, lo2, hi2) := r in (0 <= lo1 /\ hi1 <= Z.of_nat n /\ 0 <= lo2 /\ hi2 <= Z.of_nat n)%Z.

(** ** Proofs *)
Section Acc.
Variable M : machine.
Hypothesis HM : accurate M.

Lemma quot_close a d B : 0 < d -> Rabs a <= B * d -> Rabs (r64 M (a / d) * d - a) <= v * (B * d).
Proof.
  intros Hd Ha. pose proof v_val as Hv. assert (E : Rabs (a / d) <= B).
  { apply (Rmult_le_reg_r d); [exact Hd|]. rewrite <- (Rabs_pos_eq d) at 2 by lra. rewrite <- Rabs_mult. unfold Rdiv. rewrite Rmult_assoc, Rinv_l, Rmult_1_r by lra. exact Ha. }
  pose proof (r64_abs M HM _ _ E) as E1. replace (r64 M (a / d) * d - a) with ((r64 M (a / d) - a / d) * d) by (field; lra).
  rewrite Rabs_mult, (Rabs_pos_eq d) by lra. rewrite <- Rmult_assoc. apply Rmult_le_compat_r; lra.
Qed.

Lemma r64_sign x : 0 <= r64 M x -> 0 <= x.
Proof.
  intros H. pose proof v_val as Hv. destruct (Rle_dec 0 x); [assumption|]. pose proof (r64_abs M HM x (Rabs x) (Rle_refl _)) as E. rewrite (Rabs_left1 x) in E by lra.
  apply Rabs_le_inv in E. assert (r64 M x <= x * (1 - v)) by lra. assert (x * (1 - v) < 0) by nra. lra.
Qed.

Lemma f_search_ok x0 dx n x : (2 <= n)%nat -> 0 < dx -> Rabs x0 + INR n * dx <= 2 ^ 40 * dx -> x0 <= x <= f_lim M x0 dx n ->
  exists i, f_search M x0 dx n x = Some (Z.of_nat i) /\ (i + 1 < n)%nat /\ x0 + (INR i - / 2 ^ 8) * dx <= x <= x0 + (INR i + 1 + / 2 ^ 8) * dx.
Proof.
  intros Hn Hd Hbig [Hx1 Hx2]. pose proof v_val as Hv. assert (HN2 : 2 <= INR n) by (apply (le_INR 2); exact Hn).
  assert (V : v * 2 ^ 40 = / 2 ^ 12) by (unfold v; field).
  assert (HN1 : INR (n - 1) = INR n - 1) by (rewrite minus_INR by lia; reflexivity).
  assert (Pa : 0 <= Rabs x0) by apply Rabs_pos. assert (Pnd : 2 * dx <= INR n * dx) by (apply Rmult_le_compat_r; lra).
  assert (A1 : Rabs (INR (n - 1) * dx) <= 2 ^ 40 * dx). { rewrite HN1. rewrite Rabs_pos_eq by nra. lra. }
  pose proof (r64_abs M HM _ _ A1) as E1. unfold f_search, f_lim in *. rewrite HN1 in *. set (m := r64 M ((INR n - 1) * dx)) in *. clearbody m. apply Rabs_le_inv in E1.
  assert (Vd : v * (2 ^ 40 * dx) = / 2 ^ 12 * dx) by (rewrite <- Rmult_assoc, V; reflexivity). rewrite Vd in E1.
  assert (A2 : Rabs (m + x0) <= 2 ^ 41 * dx). { eapply Rle_trans; [apply Rabs_triang|]. assert (Rabs m <= INR n * dx) by (apply Rabs_le; lra). lra. }
  pose proof (r64_abs M HM _ _ A2) as E2. set (lim := r64 M (m + x0)) in *. clearbody lim. apply Rabs_le_inv in E2. assert (Vd2 : v * (2 ^ 41 * dx) = 2 * (/ 2 ^ 12 * dx)) by (rewrite <- Vd; ring). rewrite Vd2 in E2.
  assert (Hl : x - x0 <= (INR n - 1) * dx + 3 * (/ 2 ^ 12 * dx)) by lra.
  destruct (Rltb_spec lim x); [lra|]. destruct (Rltb_spec x x0); [lra|]. cbn [orb]. cbv zeta.
  pose proof (r64_rel M HM (x - x0) ltac:(lra)) as Ea0.
  assert (A3 : Rabs (x - x0) <= 2 ^ 41 * dx) by (apply Rabs_le; lra). pose proof (r64_abs M HM _ _ A3) as E3. rewrite Vd2 in E3.
  set (a := r64 M (x - x0)) in *. clearbody a. assert (Pa0 : 0 <= a) by nra. apply Rabs_le_inv in E3.
  assert (A4 : Rabs a <= 2 ^ 41 * dx) by (apply Rabs_le; lra). pose proof (quot_close a dx (2 ^ 41) Hd A4) as E4. rewrite Vd2 in E4. apply Rabs_le_inv in E4.
  assert (Paq : 0 <= a / dx) by (unfold Rdiv; apply Rmult_le_pos; [exact Pa0|left; apply Rinv_0_lt_compat; exact Hd]). pose proof (r64_rel M HM _ Paq) as E5.
  set (q := r64 M (a / dx)) in *. clearbody q. assert (Pq : 0 <= q) by nra.
  assert (Q1 : q * dx <= (INR n - 1 + / 2 ^ 9) * dx) by lra. apply Rmult_le_reg_r in Q1; [|exact Hd].
  destruct (Rtrunc_pos q Pq) as (T0 & T1 & T2). set (z := Rtrunc q) in *. clearbody z.
  assert (Hz : (z < Z.of_nat n)%Z) by (apply lt_IZR; rewrite <- INR_IZR_INZ; lra).
  assert (Hlow : forall i, INR i <= q -> x0 + (INR i - / 2 ^ 8) * dx <= x). { intros i Hi. assert (INR i * dx <= q * dx) by (apply Rmult_le_compat_r; lra). lra. }
  assert (Hup : q <= INR n -> forall i, q < INR i + 1 -> x <= x0 + (INR i + 1 + / 2 ^ 8) * dx). { intros _ i Hi. assert (q * dx <= (INR i + 1) * dx) by (apply Rmult_le_compat_r; lra). lra. }
  destruct (Z.eqb_spec z (Z.of_nat n - 1)) as [Ez|Ez].
  - exists (n - 2)%nat. split; [f_equal; lia|]. split; [lia|]. assert (HI : INR (n - 2) = INR n - 2) by (rewrite minus_INR by lia; reflexivity). rewrite HI.
    subst z. rewrite minus_IZR, <- INR_IZR_INZ in T1. split.
    + pose proof (Hlow (n - 1)%nat ltac:(lra)) as L. rewrite HN1 in L. lra.
    + assert (q * dx <= (INR n - 1 + / 2 ^ 9) * dx) by (apply Rmult_le_compat_r; lra). lra.
  - exists (Z.to_nat z). split; [f_equal; lia|]. split; [lia|]. assert (HI : INR (Z.to_nat z) = IZR z) by (rewrite INR_IZR_INZ, Z2Nat.id by lia; reflexivity). split.
    + apply Hlow. lra.
    + apply Hup; lra.
Qed.

Lemma pi_bounds : 3 < PI < 7 / 2.
Proof. pose proof PI2_3_2. pose proof (PI_ineq 1) as [_ H1]. unfold PI_tg, tg_alt in H1. simpl in H1. split; lra. Qed.

Lemma two_pi_close : Rabs (two_pi M - 2 * PI) <= 7 * v.
Proof. pose proof v_val as Hv. pose proof pi_bounds. unfold two_pi. pose proof (r64_abs M HM (2 * PI) 7 ltac:(apply Rabs_le; lra)). lra. Qed.

Lemma dphi_close n : (1 <= n)%nat -> 0 < f_dphi M n /\ Rabs (INR n * f_dphi M n - 2 * PI) <= 30 * v.
Proof.
  intros Hn. pose proof v_val as Hv. pose proof pi_bounds. pose proof two_pi_close as ET. apply Rabs_le_inv in ET. unfold f_dphi. set (T := two_pi M) in *. clearbody T.
  assert (HN : 1 <= INR n) by (apply (le_INR 1); exact Hn). assert (PN : 0 < / INR n) by (apply Rinv_0_lt_compat; lra).
  pose proof (r64_rel M HM (1 / INR n) ltac:(lra)) as E1. set (r := r64 M (1 / INR n)) in *. clearbody r. assert (Pr : 0 < r) by nra.
  assert (En : 1 - v <= INR n * r <= 1 + v).
  { assert (X : INR n * (1 / INR n) = 1) by (field; lra). destruct E1 as [F1 F2]. apply (Rmult_le_compat_l (INR n)) in F1; [|lra]. apply (Rmult_le_compat_l (INR n)) in F2; [|lra].
    rewrite <- Rmult_assoc, X in F1. rewrite <- Rmult_assoc, X in F2. lra. }
  assert (PrT : 0 <= r * T) by nra. pose proof (r64_rel M HM (r * T) PrT) as E2. set (d := r64 M (r * T)) in *. clearbody d. split; [nra|].
  assert (E3 : INR n * r * T * (1 - v) <= INR n * d <= INR n * r * T * (1 + v)).
  { destruct E2 as [F1 F2]. apply (Rmult_le_compat_l (INR n)) in F1; [|lra]. apply (Rmult_le_compat_l (INR n)) in F2; [|lra]. split; lra. }
  set (x := INR n * r) in *. set (y := INR n * d) in *. clearbody x y. apply Rabs_le.
  assert (Z1 : T * (1 - v) <= x * T <= T * (1 + v)) by (split; nra). assert (Z3 : T * v <= 8 * v) by (apply Rmult_le_compat_r; lra). assert (Z2 : x * T * v <= 8 * v) by (apply Rmult_le_compat_r; lra).
  lra.
Qed.

Definition tiny : R := / 10 ^ 12.

(** What a quotient of an angle says about the lines. *)
Lemma angle_index n a : (1 <= n)%nat -> Rabs a <= 8 -> let q := r64 M (a / f_dphi M n) in
  (0 <= a -> 0 <= q) /\ forall i, (i < n)%nat ->
    (INR i * (2 * PI / INR n) + 50 * v <= a -> INR i <= q) /\ (a <= INR i * (2 * PI / INR n) - 50 * v -> q <= INR i) /\
    (INR i <= q -> INR i * (2 * PI / INR n) <= a + 50 * v) /\ (q <= INR i -> a <= INR i * (2 * PI / INR n) + 50 * v).
Proof.
  intros Hn Ha q. pose proof v_val as Hv. pose proof pi_bounds. destruct (dphi_close n Hn) as [Pd Ed]. unfold q. clear q. set (d := f_dphi M n) in *. clearbody d. apply Rabs_le_inv in Ed.
  assert (HN : 1 <= INR n) by (apply (le_INR 1); exact Hn). split.
  - intros H0. assert (P : 0 <= a / d) by (unfold Rdiv; apply Rmult_le_pos; [exact H0|left; apply Rinv_0_lt_compat; exact Pd]). pose proof (r64_rel M HM _ P). nra.
  - intros i Hi. assert (Ha' : Rabs a <= 8 / d * d). { replace (8 / d * d) with 8 by (field; lra). exact Ha. }
    pose proof (quot_close a d (8 / d) Pd Ha') as E. replace (8 / d * d) with 8 in E by (field; lra). apply Rabs_le_inv in E. set (q := r64 M (a / d)) in *. clearbody q.
    set (w := 2 * PI / INR n). assert (Ew : INR n * w = 2 * PI) by (unfold w; field; lra). clearbody w.
    assert (Hin : INR i <= INR n) by (apply le_INR; lia). pose proof (pos_INR i) as Pi.
    assert (Ei : Rabs (INR i * d - INR i * w) <= 30 * v).
    { replace (INR i * d - INR i * w) with (INR i / INR n * (INR n * d - INR n * w)) by (field; lra). rewrite Ew, Rabs_mult.
      assert (0 <= INR i / INR n <= 1). { split; [apply Rle_mult_inv_pos; lra|]. apply (Rmult_le_reg_r (INR n)); [lra|]. unfold Rdiv. rewrite Rmult_assoc, Rinv_l by lra. lra. }
      rewrite (Rabs_pos_eq (INR i / INR n)) by lra. replace (30 * v) with (1 * (30 * v)) by ring. apply Rmult_le_compat; try apply Rabs_pos; try lra. apply Rabs_le. lra. }
    apply Rabs_le_inv in Ei. repeat split; intros H1.
    + apply (Rmult_le_reg_r d); [exact Pd|]. lra.
    + apply (Rmult_le_reg_r d); [exact Pd|]. lra.
    + apply (Rmult_le_compat_r d) in H1; lra.
    + apply (Rmult_le_compat_r d) in H1; lra.
Qed.

Lemma trunc_le_iff q i : 0 <= q -> (Z.of_nat i <= Rtrunc q)%Z <-> INR i <= q.
Proof.
  intros H. destruct (Rtrunc_pos q H) as (T0 & T1 & T2). rewrite INR_IZR_INZ. split; intros K.
  - apply IZR_le in K. lra.
  - assert (Z.of_nat i < Rtrunc q + 1)%Z; [|lia]. apply lt_IZR. rewrite plus_IZR. lra.
Qed.

Lemma phi_bounds n i : (5 <= n)%nat -> (i < n)%nat -> let w := 2 * PI / INR n in 0 < w <= 2 * PI / 5 /\ 0 <= INR i * w <= 2 * PI - w /\ INR (n - 1) * w = 2 * PI - w.
Proof.
  intros Hn Hi w. pose proof pi_bounds. assert (HN : 5 <= INR n) by (apply (le_INR 5) in Hn; simpl in Hn; lra).
  assert (Ew : INR n * w = 2 * PI) by (unfold w; field; lra). assert (Pw : 0 < w) by (unfold w; apply Rdiv_lt_0_compat; lra). clearbody w.
  assert (Hin : INR i + 1 <= INR n) by (rewrite <- S_INR; apply le_INR; lia). pose proof (pos_INR i) as Pi.
  assert (5 * w <= INR n * w) by (apply Rmult_le_compat_r; lra). assert ((INR i + 1) * w <= INR n * w) by (apply Rmult_le_compat_r; lra).
  assert (0 <= INR i * w) by (apply Rmult_le_pos; lra). rewrite minus_INR by lia. simpl (INR 1). repeat split; lra.
Qed.

Lemma lines_ok n P alpha : (5 <= n)%nat -> Rabs P <= two_pi M / 2 -> 0 <= alpha <= two_pi M / 4 ->
  ranges_ok n (f_lines M n P alpha) /\ forall i, (i < n)%nat -> (in_ranges (f_lines M n P alpha) i <= 1)%nat /\
    forall k : Z, P - alpha + tiny <= INR i * (2 * PI / INR n) + 2 * PI * IZR k <= P + alpha - tiny -> in_ranges (f_lines M n P alpha) i = 1%nat.
Proof.
  intros Hn HP Ha. pose proof v_val as Hv. pose proof pi_bounds as Hpi. pose proof two_pi_close as ET. apply Rabs_le_inv in ET, HP. unfold tiny.
  assert (Hn1 : (1 <= n)%nat) by lia. unfold f_lines, f_idx_range. cbv zeta.
  pose proof (r64_abs M HM (P + alpha) 6 ltac:(apply Rabs_le; split; lra)) as EH. pose proof (r64_abs M HM (P - alpha) 6 ltac:(apply Rabs_le; split; lra)) as EL. apply Rabs_le_inv in EH, EL.
  pose proof (r64_sign (P - alpha)) as SL. assert (SH : 0 <= P + alpha -> 0 <= r64 M (P + alpha)) by (intros K; pose proof (r64_rel M HM _ K); nra). set (hi := r64 M (P + alpha)) in *. set (lo := r64 M (P - alpha)) in *. clearbody hi lo.
  destruct (Rltb_spec (two_pi M) hi) as [B1|B1]; [lra|].
  destruct (angle_index n hi Hn1 ltac:(apply Rabs_le; split; lra)) as [Q2p Q2]. set (q2 := r64 M (hi / f_dphi M n)) in *. clearbody q2.
  assert (Top : q2 <= INR (n - 1)). { destruct (phi_bounds n (n - 1) Hn ltac:(lia)) as (W1 & W2 & W3). apply (proj1 (proj2 (Q2 (n - 1)%nat ltac:(lia)))). lra. }
  assert (Top' : (Rtrunc q2 + 1 <= Z.of_nat n)%Z).
  { destruct (Rle_dec 0 q2) as [K|K].
    - destruct (Rtrunc_pos q2 K) as (T0 & T1 & T2). assert (Rtrunc q2 <= Z.of_nat (n - 1))%Z; [|lia]. apply le_IZR. rewrite <- INR_IZR_INZ. lra.
    - pose proof (Rtrunc_nonpos q2 ltac:(lra)). lia. }
  destruct (Rltb_spec lo 0) as [B2|B2].
  - pose proof (r64_abs M HM (lo + two_pi M) 8 ltac:(apply Rabs_le; split; lra)) as EA. apply Rabs_le_inv in EA. set (a := r64 M (lo + two_pi M)) in *. clearbody a.
    destruct (angle_index n a Hn1 ltac:(apply Rabs_le; split; lra)) as [Q1p Q1]. set (q1 := r64 M (a / f_dphi M n)) in *. clearbody q1.
    assert (Pq1 : 0 <= q1) by (apply Q1p; lra). split.
    + destruct (Rtrunc_pos q1 Pq1) as (T0 & _). repeat split; lia.
    + intros i Hi. destruct (phi_bounds n i Hn Hi) as (W1 & W2 & W3). unfold in_ranges.
      assert (NB : ~ ((Rtrunc q1 <= Z.of_nat i)%Z /\ (Z.of_nat i < Rtrunc q2 + 1)%Z)).
      { intros [C1 C2]. destruct (Rtrunc_pos q1 Pq1) as (T0 & T1 & T2). apply IZR_le in C1. rewrite <- INR_IZR_INZ in C1. destruct (Rle_dec 0 q2) as [K|K].
        - assert (C3 : INR i <= q2) by (apply trunc_le_iff; [exact K|lia]). pose proof (proj1 (proj2 (proj2 (Q2 i Hi))) C3) as C4.
          destruct (le_lt_dec n (i + 1)) as [L|L].
          + assert (i = n - 1)%nat by lia. subst i. lra.
          + assert (C5 : q1 <= INR (i + 1)) by (rewrite plus_INR; simpl (INR 1); lra). pose proof (proj2 (proj2 (proj2 (Q1 (i + 1)%nat L))) C5) as C6. rewrite plus_INR in C6. simpl (INR 1) in C6. lra.
        - pose proof (Rtrunc_nonpos q2 ltac:(lra)). assert (i = 0)%nat by lia. subst i. simpl (INR 0) in C1. assert (C5 : q1 <= INR 1) by (simpl; lra).
          pose proof (proj2 (proj2 (proj2 (Q1 1%nat ltac:(lia)))) C5) as C6. simpl (INR 1) in C6. lra. }
      assert (IN : forall k : Z, P - alpha + / 10 ^ 12 <= INR i * (2 * PI / INR n) + 2 * PI * IZR k <= P + alpha - / 10 ^ 12 -> (Rtrunc q1 <= Z.of_nat i)%Z \/ (Z.of_nat i < Rtrunc q2 + 1)%Z).
      { intros k Hk. destruct (Z.eq_dec k 0) as [->|K0]; [right|].
        - assert (C : INR i <= q2) by (apply (proj1 (Q2 i Hi)); lra). assert (0 <= q2) by (pose proof (pos_INR i); lra). apply trunc_le_iff in C; [lia|assumption].
        - destruct (Z.eq_dec k (-1)) as [->|K1]; [left|].
          + assert (C : q1 <= INR i) by (apply (proj1 (proj2 (Q1 i Hi))); lra). destruct (Rtrunc_pos q1 Pq1) as (T0 & T1 & T2). apply le_IZR. rewrite <- INR_IZR_INZ. lra.
          + exfalso. destruct (Z_lt_le_dec k 0) as [L|L].
            * assert (IZR k <= -2) by (apply IZR_le; lia). assert (2 * PI * IZR k <= 2 * PI * -2) by (apply Rmult_le_compat_l; lra). lra.
            * assert (1 <= IZR k) by (apply IZR_le; lia). assert (2 * PI * 1 <= 2 * PI * IZR k) by (apply Rmult_le_compat_l; lra). lra. }
      clear Q1 Q2 W1 W2 W3. destruct (Z.leb_spec (Rtrunc q1) (Z.of_nat i)), (Z.ltb_spec (Z.of_nat i) (Z.of_nat n)), (Z.leb_spec 0 (Z.of_nat i)), (Z.ltb_spec (Z.of_nat i) (Rtrunc q2 + 1)); try lia; cbn [andb]; split; try lia; intros k Hk; specialize (IN k Hk); lia.
  - specialize (SL ltac:(lra)). assert (Pq2 : 0 <= q2) by (apply Q2p, SH; lra).
    destruct (angle_index n lo Hn1 ltac:(apply Rabs_le; split; lra)) as [Q1p Q1]. set (q1 := r64 M (lo / f_dphi M n)) in *. clearbody q1.
    assert (Pq1 : 0 <= q1) by (apply Q1p; lra). destruct (Rtrunc_pos q1 Pq1) as (T0 & T1 & T2). split; [repeat split; lia|].
    intros i Hi. destruct (phi_bounds n i Hn Hi) as (W1 & W2 & W3). unfold in_ranges.
    assert (IN : forall k : Z, P - alpha + / 10 ^ 12 <= INR i * (2 * PI / INR n) + 2 * PI * IZR k <= P + alpha - / 10 ^ 12 -> (Rtrunc q1 <= Z.of_nat i)%Z /\ (Z.of_nat i < Rtrunc q2 + 1)%Z).
    { intros k Hk. destruct (Z.eq_dec k 0) as [->|K0].
      - assert (C : INR i <= q2) by (apply (proj1 (Q2 i Hi)); lra). apply trunc_le_iff in C; [|assumption].
        assert (C' : q1 <= INR i) by (apply (proj1 (proj2 (Q1 i Hi))); lra). split; [apply le_IZR; rewrite <- INR_IZR_INZ; lra|lia].
      - exfalso. destruct (Z_lt_le_dec k 0) as [L|L].
        + assert (IZR k <= -1) by (apply IZR_le; lia). assert (2 * PI * IZR k <= 2 * PI * -1) by (apply Rmult_le_compat_l; lra). lra.
        + assert (1 <= IZR k) by (apply IZR_le; lia). assert (2 * PI * 1 <= 2 * PI * IZR k) by (apply Rmult_le_compat_l; lra). lra. }
    clear Q1 Q2 W1 W2 W3. destruct (Z.leb_spec (Rtrunc q1) (Z.of_nat i)), (Z.ltb_spec (Z.of_nat i) (Rtrunc q2 + 1)), (Z.leb_spec 0 (Z.of_nat i)), (Z.ltb_spec (Z.of_nat i) 0); try lia; cbn [andb]; split; try lia; intros k Hk; specialize (IN k Hk); lia.
Qed.
End Acc.

(** ** C203: uniform tables *)

(** Every x between the first point and the computed last point of a uniform table gets a cell of the table that contains x up to 1/256 of the spacing, if the spacing is
    not too small for double precision. *)
Theorem C203_uniform : forall M, accurate M -> forall x0 dx n x, (2 <= n)%nat -> 0 < dx -> Rabs x0 + INR n * dx <= 2 ^ 40 * dx -> x0 <= x <= f_lim M x0 dx n ->
  exists i, f_search M x0 dx n x = Some (Z.of_nat i) /\ (i + 1 < n)%nat /\ x0 + (INR i - / 2 ^ 8) * dx <= x <= x0 + (INR i + 1 + / 2 ^ 8) * dx.
Proof. exact f_search_ok. Qed.

Example C203_nonvacuous : Rabs (-3) + INR 100 * (1 / 10) <= 2 ^ 40 * (1 / 10).
Proof. rewrite Rabs_left by lra. rewrite INR_IZR_INZ. simpl. lra. Qed.

(** ** C204: lines of sight *)

(** For a circle in the direction P with the half angular width alpha: the index ranges stay inside of the ring, no line is visited twice, and every line whose angle lies
    (up to full turns) inside of the circle's by 10^-12 is visited. *)
Theorem C204_lines : forall M, accurate M -> forall n P alpha, (5 <= n)%nat -> Rabs P <= two_pi M / 2 -> 0 <= alpha <= two_pi M / 4 ->
  ranges_ok n (f_lines M n P alpha) /\ forall i, (i < n)%nat -> (in_ranges (f_lines M n P alpha) i <= 1)%nat /\
    forall k : Z, P - alpha + tiny <= INR i * (2 * PI / INR n) + 2 * PI * IZR k <= P + alpha - tiny -> in_ranges (f_lines M n P alpha) i = 1%nat.
Proof. exact lines_ok. Qed.

(** IEEE rounding is accurate; a circle in the direction of the third line of eight that is visited by it. *)
Example C204_nonvacuous : accurate ieee /\ Rabs (PI / 2) <= two_pi ieee / 2 /\ 0 <= 1 <= two_pi ieee / 4 /\
  PI / 2 - 1 + tiny <= INR 2 * (2 * PI / INR 8) + 2 * PI * IZR 0 <= PI / 2 + 1 - tiny.
Proof.
  split; [exact ieee_accurate|]. pose proof (two_pi_close ieee ieee_accurate) as E. apply Rabs_le_inv in E. pose proof v_val. pose proof pi_bounds. unfold tiny.
  rewrite Rabs_pos_eq by lra. assert (E8 : INR 2 * (2 * PI / INR 8) = PI / 2) by (rewrite !INR_IZR_INZ; simpl; field). rewrite E8. repeat split; lra.
Qed.

Print Assumptions C203_uniform.
Print Assumptions C204_lines.
