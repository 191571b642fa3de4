(** * C201: rounding errors cannot push a particle out of the profile, and move it by no more than a millionth of its radius *)
From Coq Require Import Reals Lra Lia List Bool ZArith Psatz.
From Flocq Require Import Core Relative.
From Verif Require Import RealBase InterpProofs ShellProofs RoundModel.
Import List ListNotations.
Local Open Scope R_scope.

(** ** Specification *)

(** Single precision is accurate to 2^-24, double precision to 2^-53 and math.Log to one unit in the last place (2^-52). *)
Definition accurate (M : machine) : Prop :=
  (forall x, Rabs (r32 M x - x) <= / 2 ^ 24 * Rabs x) /\
  (forall x, Rabs (r64 M x - x) <= / 2 ^ 53 * Rabs x) /\
  (forall x, 0 < x -> Rabs (flog M x - ln x) <= / 2 ^ 52 * Rabs (ln x)).

(** The k-th of n logarithmic bin edges between lo and hi. *)
Definition log_edge (lo hi : R) (n : nat) (k : R) : R := lo * Rpower (hi / lo) (k / INR n).

Definition millionth : R := / 10 ^ 6.

(** What may happen to a particle at distance r when there are n logarithmic bins from lo to hi: no panic; it is left out only at the limits or outside of them;
    it is counted in a bin that contains r up to a millionth. *)
Definition near_bin (lo hi r : R) (n : nat) (o : option (option nat)) : Prop :=
  match o with
  | None => False
  | Some None => r <= lo * (1 + millionth) \/ hi * (1 - millionth) <= r
  | Some (Some i) => (i < n)%nat /\ log_edge lo hi n (INR i) * (1 - millionth) <= r <= log_edge lo hi n (INR i + 1) * (1 + millionth)
  end.

(** The same for n equal bins from 0 to rMax. *)
Definition near_shell (rMax r : R) (n : nat) (o : option (option nat)) : Prop :=
  match o with
  | None => False
  | Some None => rMax * (1 - millionth) <= r
  | Some (Some i) => (i < n)%nat /\ INR i * (rMax / INR n) * (1 - millionth) <= r <= (INR i + 1) * (rMax / INR n) * (1 + millionth)
  end.

(** ** Proofs *)
Definition u : R := / 2 ^ 24.
Definition v : R := / 2 ^ 52.
Definition w : R := 1100 * v.

Lemma u_half : 0 <= u <= / 2. Proof. unfold u. split; [left; apply Rinv_0_lt_compat; lra|lra]. Qed.
Lemma v_half : 0 <= v <= / 2. Proof. unfold v. split; [left; apply Rinv_0_lt_compat; lra|lra]. Qed.
Lemma u_val : 0 < u < 6 / 10 ^ 8. Proof. unfold u. split; [apply Rinv_0_lt_compat; lra|]. lra. Qed.
Lemma v_val : 0 < v < 3 / 10 ^ 16. Proof. unfold v. split; [apply Rinv_0_lt_compat; lra|]. lra. Qed.

Lemma ln_le_sub x : 0 < x -> ln x <= x - 1.
Proof. intros H. pose proof (exp_ineq1_le (ln x)) as E. rewrite exp_ln in E by exact H. lra. Qed.

Lemma ln_quot x y : 0 < x -> 0 < y -> ln (x / y) = ln x - ln y.
Proof. intros Hx Hy. unfold Rdiv. rewrite ln_mult by (try assumption; now apply Rinv_0_lt_compat). rewrite ln_Rinv by assumption. lra. Qed.

(** Relative accuracy in logarithms. *)
Lemma ln_close x y k : 0 < x -> 0 <= k <= / 2 -> x * (1 - k) <= y <= x * (1 + k) -> 0 < y /\ Rabs (ln y - ln x) <= 2 * k.
Proof.
  intros Hx Hk Hy. assert (0 < y) by nra. split; [assumption|]. apply Rabs_le.
  assert (E : ln (y / x) = ln y - ln x) by (apply ln_quot; assumption).
  assert (E' : ln (x / y) = ln x - ln y) by (apply ln_quot; assumption).
  assert (H1 : y / x <= 1 + k). { apply (Rmult_le_reg_r x); [exact Hx|]. unfold Rdiv. rewrite Rmult_assoc, Rinv_l, Rmult_1_r by lra. lra. }
  assert (H2 : x / y <= 1 + 2 * k). { apply (Rmult_le_reg_r y); [assumption|]. unfold Rdiv. rewrite Rmult_assoc, Rinv_l, Rmult_1_r by lra. nra. }
  assert (0 < y / x) by (apply Rdiv_lt_0_compat; assumption). assert (0 < x / y) by (apply Rdiv_lt_0_compat; assumption).
  pose proof (ln_le_sub (y / x) ltac:(assumption)). pose proof (ln_le_sub (x / y) ltac:(assumption)). lra.
Qed.

Section Acc.
Variable M : machine.
Hypothesis HM : accurate M.

Lemma r32_rel x : 0 <= x -> x * (1 - u) <= r32 M x <= x * (1 + u).
Proof. intros H. destruct HM as (A & _ & _). specialize (A x). fold u in A. rewrite (Rabs_pos_eq x) in A by exact H. apply Rabs_le_inv in A. lra. Qed.

Lemma r64_rel x : 0 <= x -> x * (1 - v) <= r64 M x <= x * (1 + v).
Proof.
  intros H. destruct HM as (_ & A & _). specialize (A x). rewrite (Rabs_pos_eq x) in A by exact H. apply Rabs_le_inv in A. pose proof v_val.
  assert (/ 2 ^ 53 <= v) by (unfold v; lra). assert (/ 2 ^ 53 * x <= v * x) by (apply Rmult_le_compat_r; assumption). lra.
Qed.

Lemma r64_abs x B : Rabs x <= B -> Rabs (r64 M x - x) <= v * B.
Proof.
  intros H. destruct HM as (_ & A & _). specialize (A x). eapply Rle_trans; [exact A|]. apply Rmult_le_compat; [left; apply Rinv_0_lt_compat; lra|apply Rabs_pos|unfold v; lra|exact H].
Qed.

Lemma flog_abs x B : 0 < x -> Rabs (ln x) <= B -> Rabs (flog M x - ln x) <= v * B.
Proof. intros Hx H. destruct HM as (_ & _ & A). specialize (A x Hx). fold v in A. eapply Rle_trans; [exact A|]. apply Rmult_le_compat_l; [pose proof v_val; lra|exact H]. Qed.

Lemma limit2_ln Rv m : 0 < Rv -> 0 < m -> 0 < limit2 M Rv m /\ Rabs (ln (limit2 M Rv m) / 2 - ln (Rv * m)) <= 5 * u.
Proof.
  intros HR Hm. pose proof u_val as Hu. unfold limit2. cbv zeta. destruct (ln_close m (r32 M m) u Hm u_half (r32_rel m ltac:(lra))) as [P1 E1].
  assert (P2' : 0 < Rv * r32 M m) by (apply Rmult_lt_0_compat; assumption).
  destruct (ln_close _ (r32 M (Rv * r32 M m)) u P2' u_half (r32_rel _ (Rlt_le _ _ P2'))) as [P2 E2]. set (t := r32 M (Rv * r32 M m)) in *. clearbody t.
  assert (P3' : 0 < t * t) by (apply Rmult_lt_0_compat; assumption). destruct (ln_close _ (r32 M (t * t)) u P3' u_half (r32_rel _ (Rlt_le _ _ P3'))) as [P3 E3].
  split; [exact P3|]. rewrite ln_mult in E2, E3 by assumption. rewrite ln_mult by assumption. apply Rabs_le_inv in E1, E2, E3. apply Rabs_le. lra.
Qed.

Lemma dist2_rel dx dy dz : let s := dx * dx + dy * dy + dz * dz in s * (1 - 4 * u) <= dist2 M dx dy dz <= s * (1 + 4 * u).
Proof.
  intros s. pose proof u_val as Hu. unfold dist2.
  assert (Hx : 0 <= dx * dx) by nra. assert (Hy : 0 <= dy * dy) by nra. assert (Hz : 0 <= dz * dz) by nra.
  pose proof (r32_rel _ Hx) as X. pose proof (r32_rel _ Hy) as Y. pose proof (r32_rel _ Hz) as Zz.
  set (a := r32 M (dx * dx)) in *. set (b := r32 M (dy * dy)) in *. set (c := r32 M (dz * dz)) in *.
  assert (Pa : 0 <= a) by nra. assert (Pb : 0 <= b) by nra. assert (Pc : 0 <= c) by nra.
  pose proof (r32_rel (a + b) ltac:(lra)) as AB. set (d := r32 M (a + b)) in *. assert (Pd : 0 <= d) by nra. pose proof (r32_rel (d + c) ltac:(lra)) as DC. set (e := r32 M (d + c)) in *.
  clearbody a b c d e. unfold s. clear s.
  assert (K1 : (1 - u) * (1 - u) * (1 - u) >= 1 - 4 * u) by nra. assert (K2 : (1 + u) * (1 + u) * (1 + u) <= 1 + 4 * u) by nra.
  set (S3 := dx * dx + dy * dy + dz * dz) in *. assert (PS : 0 <= S3) by (unfold S3; lra).
  assert (L1 : (a + b) >= (dx * dx + dy * dy) * (1 - u)) by lra. assert (U1 : a + b <= (dx * dx + dy * dy) * (1 + u)) by lra.
  assert (L2 : d >= (dx * dx + dy * dy) * ((1 - u) * (1 - u))) by nra. assert (U2 : d <= (dx * dx + dy * dy) * ((1 + u) * (1 + u))) by nra.
  assert (L3 : c >= dz * dz * ((1 - u) * (1 - u))) by nra. assert (U3 : c <= dz * dz * ((1 + u) * (1 + u))) by nra.
  assert (L4 : d + c >= S3 * ((1 - u) * (1 - u))) by (unfold S3; lra). assert (U4 : d + c <= S3 * ((1 + u) * (1 + u))) by (unfold S3; lra).
  assert (L5 : S3 * ((1 - u) * (1 - u)) * (1 - u) <= (d + c) * (1 - u)) by (apply Rmult_le_compat_r; lra).
  assert (U5 : (d + c) * (1 + u) <= S3 * ((1 + u) * (1 + u)) * (1 + u)) by (apply Rmult_le_compat_r; lra).
  assert (L6 : S3 * (1 - 4 * u) <= S3 * ((1 - u) * (1 - u) * (1 - u))) by (apply Rmult_le_compat_l; lra).
  assert (U6 : S3 * ((1 + u) * (1 + u) * (1 + u)) <= S3 * (1 + 4 * u)) by (apply Rmult_le_compat_l; lra).
  split; lra.
Qed.

Lemma lrOf_close Rv m : 0 < Rv -> 0 < m -> Rabs (ln (Rv * m)) <= 1000 -> Rabs (lrOf M Rv m - ln (Rv * m)) <= w.
Proof.
  intros HR Hm HL. pose proof v_val as Hv. unfold lrOf. assert (P : 0 < Rv * m) by (apply Rmult_lt_0_compat; assumption).
  destruct (ln_close _ (r64 M (Rv * m)) v P v_half (r64_rel _ (Rlt_le _ _ P))) as [P1 E1].
  assert (HB : Rabs (ln (r64 M (Rv * m))) <= 1001). { apply Rabs_le_inv in E1, HL. apply Rabs_le. lra. }
  pose proof (flog_abs _ 1001 P1 HB) as E2. apply Rabs_le_inv in E1, E2. unfold w. apply Rabs_le. lra.
Qed.

Lemma w_val : 0 < w < 4 / 10 ^ 13. Proof. unfold w. pose proof v_val. lra. Qed.

Lemma dlr_close Rv a b n : 0 < Rv -> 0 < a -> 0 < b -> (1 <= n)%nat -> Rabs (ln (Rv * a)) <= 1000 -> Rabs (ln (Rv * b)) <= 1000 ->
  Rabs (INR n * dlrOf M Rv a b n - (ln (Rv * b) - ln (Rv * a))) <= 8 * w.
Proof.
  intros HR Ha Hb Hn HA HB. pose proof v_val as Hv. pose proof w_val as Hw.
  pose proof (lrOf_close Rv a HR Ha HA) as E1. pose proof (lrOf_close Rv b HR Hb HB) as E2. unfold dlrOf.
  set (la := lrOf M Rv a) in *. set (lb := lrOf M Rv b) in *. set (A := ln (Rv * a)) in *. set (B := ln (Rv * b)) in *. clearbody la lb A B.
  apply Rabs_le_inv in E1, E2, HA, HB.
  assert (E3 : Rabs (r64 M (lb - la) - (lb - la)) <= v * 2001) by (apply r64_abs; apply Rabs_le; lra). set (d1 := r64 M (lb - la)) in *. clearbody d1.
  assert (HN : 1 <= INR n) by (apply (le_INR 1); exact Hn). set (N := INR n) in *. clearbody N.
  apply Rabs_le_inv in E3. unfold w in *.
  assert (E4 : Rabs (r64 M (d1 / N) - d1 / N) <= v * (2002 / N)).
  { apply r64_abs. unfold Rdiv. rewrite Rabs_mult. rewrite (Rabs_pos_eq (/ N)) by (left; apply Rinv_0_lt_compat; lra). apply Rmult_le_compat_r; [left; apply Rinv_0_lt_compat; lra|]. apply Rabs_le. lra. }
  set (dl := r64 M (d1 / N)) in *. clearbody dl.
  assert (E5 : Rabs (N * dl - d1) <= v * 2002).
  { replace (N * dl - d1) with (N * (dl - d1 / N)) by (field; lra). rewrite Rabs_mult, (Rabs_pos_eq N) by lra.
    replace (v * 2002) with (N * (v * (2002 / N))) by (field; lra). apply Rmult_le_compat_l; lra. }
  apply Rabs_le_inv in E5. apply Rabs_le. lra.
Qed.

(** The computed quotient, for a logarithm lr close to that of a radius x between the limits. *)
Lemma quotient_close Rv a b n lr x : 0 < Rv -> 0 < a -> 0 < b -> (1 <= n)%nat -> Rabs (ln (Rv * a)) <= 1000 -> Rabs (ln (Rv * b)) <= 1000 ->
  ln (Rv * b) - ln (Rv * a) >= INR n * millionth -> Rabs (lr - x) <= 3 * w -> ln (Rv * a) - 5 * u <= x <= ln (Rv * b) + 5 * u ->
  let q := r64 M (r64 M (lr - lrOf M Rv a) / dlrOf M Rv a b n) in
  -1 < q < INR n + 1 /\ Rabs (q * (ln (Rv * b) - ln (Rv * a)) - INR n * (x - ln (Rv * a))) <= INR n * (30 * w).
Proof.
  intros HR Ha Hb Hn HA HB HD Hlr Hx q. pose proof v_val as Hv. pose proof w_val as Hw. pose proof u_val as Hu.
  pose proof (dlr_close Rv a b n HR Ha Hb Hn HA HB) as E0. pose proof (lrOf_close Rv a HR Ha HA) as E1.
  assert (HN : 1 <= INR n) by (apply (le_INR 1); exact Hn). unfold millionth in HD. unfold q. clear q.
  set (dl := dlrOf M Rv a b n) in *. set (la := lrOf M Rv a) in *. set (A := ln (Rv * a)) in *. set (B := ln (Rv * b)) in *. set (N := INR n) in *. clearbody dl la A B N.
  apply Rabs_le_inv in E0, E1, HA, HB, Hlr.
  assert (E3 : Rabs (r64 M (lr - la) - (lr - la)) <= v * 2001) by (apply r64_abs; apply Rabs_le; lra). set (d2 := r64 M (lr - la)) in *. clearbody d2. apply Rabs_le_inv in E3.
  assert (Hdl : 0 < dl) by nra.
  assert (E4 : Rabs (r64 M (d2 / dl) - d2 / dl) <= v * (2003 / dl)).
  { apply r64_abs. unfold Rdiv. rewrite Rabs_mult. rewrite (Rabs_pos_eq (/ dl)) by (left; apply Rinv_0_lt_compat; lra). apply Rmult_le_compat_r; [left; apply Rinv_0_lt_compat; lra|]. apply Rabs_le. unfold w in *. lra. }
  set (q := r64 M (d2 / dl)) in *. clearbody q.
  assert (E5 : Rabs (q * dl - d2) <= v * 2003).
  { replace (q * dl - d2) with (dl * (q - d2 / dl)) by (field; lra). rewrite Rabs_mult, (Rabs_pos_eq dl) by lra. replace (v * 2003) with (dl * (v * (2003 / dl))) by (field; lra). apply Rmult_le_compat_l; lra. }
  apply Rabs_le_inv in E5.
  assert (E6 : - (9 * w) <= q * dl - (x - A) <= 9 * w) by (unfold w in *; split; lra).
  assert (Q1 : -1 < q).
  { destruct (Rlt_le_dec (-1) q) as [|Hq]; [assumption|exfalso]. assert (q * dl <= -1 * dl) by (apply Rmult_le_compat_r; lra).
    assert (Hd7 : dl <= 4 / 10 ^ 7) by lra. assert (N * dl <= N * (4 / 10 ^ 7)) by (apply Rmult_le_compat_l; lra). lra. }
  assert (Q2 : q < N + 1).
  { destruct (Rlt_le_dec q (N + 1)) as [|Hq]; [assumption|exfalso]. assert ((N + 1) * dl <= q * dl) by (apply Rmult_le_compat_r; lra).
    assert (dl <= 4 / 10 ^ 7) by lra. assert (N * dl <= N * (4 / 10 ^ 7)) by (apply Rmult_le_compat_l; lra). lra. }
  split; [split; assumption|].
  assert (E7 : q * (B - A) - N * (x - A) = N * (q * dl - (x - A)) - q * (N * dl - (B - A))) by ring. rewrite E7.
  apply Rabs_le.
  assert (F1 : - (N * (9 * w)) <= N * (q * dl - (x - A)) <= N * (9 * w)) by (split; nra).
  assert (F2 : Rabs (q * (N * dl - (B - A))) <= (N + 1) * (8 * w)).
  { rewrite Rabs_mult. apply Rmult_le_compat; try apply Rabs_pos; apply Rabs_le; lra. }
  apply Rabs_le_inv in F2. assert ((N + 1) * (8 * w) <= N * (16 * w)) by nra. assert (0 <= N * w) by nra. lra.
Qed.

Lemma trunc_bin q n : (1 <= n)%nat -> -1 < q < INR n + 1 ->
  let ir := Rtrunc q in let i' := if (ir =? Z.of_nat n)%Z then (ir - 1)%Z else ir in
  (0 <= i' < Z.of_nat n)%Z /\ (INR (Z.to_nat i') <= q \/ i' = 0%Z) /\ (q < INR (Z.to_nat i') + 1 \/ S (Z.to_nat i') = n).
Proof.
  intros Hn Hq ir i'. rewrite INR_IZR_INZ in Hq. unfold i', ir. clear i' ir. destruct (Rle_lt_dec 0 q) as [H|H].
  - destruct (Rtrunc_pos q H) as (P0 & P1 & P2). set (k := Rtrunc q) in *. clearbody k.
    assert (k < Z.of_nat n + 1)%Z by (apply lt_IZR; rewrite plus_IZR; lra).
    destruct (Z.eqb_spec k (Z.of_nat n)) as [E|E].
    + split; [lia|]. rewrite INR_IZR_INZ, Z2Nat.id by lia. split; [left; rewrite minus_IZR; lra|right; lia].
    + split; [lia|]. rewrite INR_IZR_INZ, Z2Nat.id by lia. split; [left; lra|left; lra].
  - assert (E : Rtrunc q = 0%Z).
    { unfold Rtrunc. destruct (Rle_dec 0 q); [lra|]. destruct (base_Int_part (- q)) as [B1 B2].
      assert (-1 < Int_part (- q))%Z by (apply lt_IZR; lra). assert (Int_part (- q) < 1)%Z by (apply lt_IZR; lra). lia. }
    rewrite E. destruct (Z.eqb_spec 0 (Z.of_nat n)); [lia|]. split; [lia|]. split; [right; reflexivity|left; simpl; lra].
Qed.

(** Back from logarithms. *)
Lemma near e r : 0 < e -> 0 < r -> ln e <= ln r + 7 / 10 ^ 7 -> e * (1 - millionth) <= r /\ e <= r * (1 + millionth).
Proof.
  intros He Hr H. unfold millionth. set (d := 7 / 10 ^ 7) in *. assert (Hd : d = 7 / 10 ^ 7) by reflexivity. clearbody d.
  assert (E1 : e * exp (- d) <= r).
  { replace e with (exp (ln e)) by (apply exp_ln; exact He). replace r with (exp (ln r)) by (apply exp_ln; exact Hr). rewrite <- exp_plus.
    destruct (Req_dec (ln e + - d) (ln r)) as [->|N]; [lra|]. left. apply exp_increasing. lra. }
  pose proof (exp_ineq1_le (- d)) as E2. assert (E3 : e * (1 + - d) <= e * exp (- d)) by (apply Rmult_le_compat_l; lra). split; nra.
Qed.

Lemma lr_close (median : bool) r2 : 0 < r2 -> Rabs (ln r2 / 2) <= 1001 -> Rabs ((if median then lr_median M r2 else lr_density M r2) - ln r2 / 2) <= 3 * w.
Proof.
  intros H HB. pose proof v_val as Hv. unfold w. destruct median.
  - unfold lr_median. assert (P : 0 < sqrt r2) by (apply sqrt_lt_R0; exact H). assert (E : ln (sqrt r2) = ln r2 / 2).
    { assert (X : ln (sqrt r2 * sqrt r2) = ln r2) by (rewrite sqrt_sqrt; [reflexivity|lra]). rewrite ln_mult in X by exact P. lra. }
    destruct (ln_close _ (r64 M (sqrt r2)) v P v_half (r64_rel _ (Rlt_le _ _ P))) as [P1 E1]. rewrite E in E1. apply Rabs_le_inv in E1, HB.
    pose proof (flog_abs _ 1002 P1 ltac:(apply Rabs_le; lra)) as E2. apply Rabs_le_inv in E2. apply Rabs_le. lra.
  - unfold lr_density. apply Rabs_le_inv in HB. pose proof (flog_abs _ 2002 H ltac:(apply Rabs_le; lra)) as E2. apply Rabs_le_inv in E2.
    pose proof (r64_abs (flog M r2 / 2) 1002 ltac:(apply Rabs_le; lra)) as E3. apply Rabs_le_inv in E3. apply Rabs_le. lra.
Qed.

(** The computed square of the distance in logarithms. *)
Lemma dist2_ln dx dy dz : let s := dx * dx + dy * dy + dz * dz in 0 < dist2 M dx dy dz -> 0 < sqrt s /\ Rabs (ln (dist2 M dx dy dz) / 2 - ln (sqrt s)) <= 4 * u.
Proof.
  intros s H. pose proof (dist2_rel dx dy dz) as E. cbv zeta in E. fold s in E. pose proof u_val as Hu.
  assert (Ps : 0 < s). { assert (0 <= s) by (unfold s; nra). destruct (Req_dec s 0) as [Z0|]; [|lra]. rewrite Z0 in E. lra. }
  assert (P : 0 < sqrt s) by (apply sqrt_lt_R0; exact Ps). split; [exact P|].
  destruct (ln_close s (dist2 M dx dy dz) (4 * u) Ps ltac:(lra) E) as [_ E1].
  assert (X : ln (sqrt s * sqrt s) = ln s) by (rewrite sqrt_sqrt; [reflexivity|lra]). rewrite ln_mult in X by exact P.
  apply Rabs_le_inv in E1. apply Rabs_le. lra.
Qed.

Lemma ln_log_edge lo hi n k : 0 < lo -> 0 < hi -> 0 < log_edge lo hi n k /\ ln (log_edge lo hi n k) = ln lo + k / INR n * (ln hi - ln lo).
Proof.
  intros Hl Hh. unfold log_edge, Rpower. assert (0 < exp (k / INR n * ln (hi / lo))) by apply exp_pos. split; [apply Rmult_lt_0_compat; assumption|].
  rewrite ln_mult by assumption. rewrite ln_exp, ln_quot by assumption. reflexivity.
Qed.

Lemma prof_bin_near median Rv a b n dx dy dz : 0 < Rv -> 0 < a -> 0 < b -> (1 <= n)%nat -> Rabs (ln (Rv * a)) <= 1000 -> Rabs (ln (Rv * b)) <= 1000 ->
  ln (Rv * b) - ln (Rv * a) >= INR n * millionth ->
  near_bin (Rv * a) (Rv * b) (sqrt (dx * dx + dy * dy + dz * dz)) n (prof_bin M median Rv a b n dx dy dz).
Proof.
  intros HR Ha Hb Hn HA HB HD. pose proof u_val as Hu. pose proof w_val as Hw. unfold prof_bin. cbv zeta.
  assert (Pa : 0 < Rv * a) by (apply Rmult_lt_0_compat; assumption). assert (Pb : 0 < Rv * b) by (apply Rmult_lt_0_compat; assumption).
  destruct (limit2_ln Rv a HR Ha) as [La Ea]. destruct (limit2_ln Rv b HR Hb) as [Lb Eb]. apply Rabs_le_inv in Ea, Eb.
  pose proof (dist2_ln dx dy dz) as ED. cbv zeta in ED.
  assert (Hr0 : 0 <= sqrt (dx * dx + dy * dy + dz * dz)) by apply sqrt_pos.
  pose proof (dist2_rel dx dy dz) as EDr. cbv zeta in EDr.
  set (s := dx * dx + dy * dy + dz * dz) in *. set (r2 := dist2 M dx dy dz) in *. 
  assert (Hs0 : 0 <= s) by (unfold s; nra). clearbody r2. clearbody s.
  destruct (Rleb_spec r2 (limit2 M Rv a)) as [C1|C1]; cbn [orb].
  { cbn [near_bin]. left. destruct (Rlt_le_dec 0 r2) as [P|P].
    - destruct (ED P) as [Pr Er]. apply Rabs_le_inv in Er. apply (near (sqrt s) (Rv * a)); [exact Pr|exact Pa|].
      assert (ln r2 <= ln (limit2 M Rv a)). { destruct (Req_dec r2 (limit2 M Rv a)) as [->|]; [lra|]. left. apply ln_increasing; lra. } lra.
    - assert (s = 0) by nra. subst s. rewrite sqrt_0. unfold millionth. apply Rmult_le_pos; lra. }
  destruct (Rleb_spec (limit2 M Rv b) r2) as [C2|C2].
  { cbn [near_bin]. right. assert (P : 0 < r2) by lra. destruct (ED P) as [Pr Er]. apply Rabs_le_inv in Er. apply (near (Rv * b) (sqrt s)); [exact Pb|exact Pr|].
    assert (ln (limit2 M Rv b) <= ln r2). { destruct (Req_dec r2 (limit2 M Rv b)) as [->|]; [lra|]. left. apply ln_increasing; lra. } lra. }
  assert (P : 0 < r2) by lra. destruct (ED P) as [Pr Er]. apply Rabs_le_inv in Er.
  assert (X1 : ln (limit2 M Rv a) < ln r2) by (apply ln_increasing; lra). assert (X2 : ln r2 < ln (limit2 M Rv b)) by (apply ln_increasing; lra).
  pose proof (Rabs_le_inv _ _ HA) as HA'. pose proof (Rabs_le_inv _ _ HB) as HB'.
  pose proof (lr_close median r2 P ltac:(apply Rabs_le; lra)) as El.
  destruct (quotient_close Rv a b n _ (ln r2 / 2) HR Ha Hb Hn HA HB HD El ltac:(split; lra)) as [Q1 Q2]. unfold bin_index.
  set (q := r64 M (r64 M ((if median then lr_median M r2 else lr_density M r2) - lrOf M Rv a) / dlrOf M Rv a b n)) in *. clearbody q.
  destruct (trunc_bin q n Hn Q1) as (T1 & T2 & T3). cbv zeta.
  set (i' := if (Rtrunc q =? Z.of_nat n)%Z then (Rtrunc q - 1)%Z else Rtrunc q) in *. clearbody i'.
  destruct (Z.leb_spec 0 i'); [|lia]. destruct (Z.ltb_spec i' (Z.of_nat n)); [|lia]. cbn [andb near_bin]. set (i := Z.to_nat i') in *.
  assert (Hi : (i < n)%nat) by (unfold i; lia). split; [exact Hi|].
  assert (HN : 1 <= INR n) by (apply (le_INR 1); exact Hn).
  destruct (ln_log_edge (Rv * a) (Rv * b) n (INR i) Pa Pb) as [Pe Ee]. destruct (ln_log_edge (Rv * a) (Rv * b) n (INR i + 1) Pa Pb) as [Pf Ef].
  set (A := ln (Rv * a)) in *. set (B := ln (Rv * b)) in *. set (N := INR n) in *. set (x := ln r2 / 2) in *. set (e := log_edge (Rv * a) (Rv * b) n (INR i)) in *.
  set (f := log_edge (Rv * a) (Rv * b) n (INR i + 1)) in *. apply Rabs_le_inv in Q2.
  assert (HDp : 0 < B - A) by (unfold millionth in HD; lra). assert (Hx1 : A - 5 * u <= x) by (unfold x; lra). assert (Hx2 : x <= B + 5 * u) by (unfold x; lra).
  split.
  - apply (near e (sqrt s) Pe Pr). rewrite Ee. destruct T2 as [T2|T2].
    + assert (INR i * (B - A) <= q * (B - A)) by (apply Rmult_le_compat_r; lra).
      assert (Y : INR i / N * (B - A) <= (x - A) + 30 * w).
      { apply (Rmult_le_reg_l N); [lra|]. replace (N * (INR i / N * (B - A))) with (INR i * (B - A)) by (field; lra). lra. }
      lra.
    + assert (Z0 : INR i = 0) by (unfold i; rewrite T2; reflexivity). rewrite Z0. unfold Rdiv. rewrite Rmult_0_l, Rmult_0_l. lra.
  - apply (near (sqrt s) f Pr Pf). rewrite Ef. destruct T3 as [T3|T3].
    + assert (q * (B - A) <= (INR i + 1) * (B - A)) by (apply Rmult_le_compat_r; lra).
      assert (Y : (x - A) - 30 * w <= (INR i + 1) / N * (B - A)).
      { apply (Rmult_le_reg_l N); [lra|]. replace (N * ((INR i + 1) / N * (B - A))) with ((INR i + 1) * (B - A)) by (field; lra). lra. }
      lra.
    + assert (Z0 : INR i + 1 = N) by (rewrite <- S_INR, T3; reflexivity). rewrite Z0. replace (N / N) with 1 by (field; lra). lra.
Qed.

(** Phase-space bins. *)
Lemma sqrt_rel s t k : 0 <= s -> 0 <= k <= / 2 -> s * (1 - k) <= t <= s * (1 + k) -> sqrt s * (1 - k) <= sqrt t <= sqrt s * (1 + k).
Proof.
  intros Hs Hk Ht. assert (0 <= t) by nra. pose proof (sqrt_pos s). split.
  - replace (sqrt s * (1 - k)) with (sqrt (s * ((1 - k) * (1 - k)))) by (rewrite sqrt_mult by nra; rewrite sqrt_square by lra; reflexivity). apply sqrt_le_1_alt. nra.
  - replace (sqrt s * (1 + k)) with (sqrt (s * ((1 + k) * (1 + k)))) by (rewrite sqrt_mult by nra; rewrite sqrt_square by lra; reflexivity). apply sqrt_le_1_alt. nra.
Qed.

Lemma phase_bin_near rMax n dx dy dz : 0 < rMax -> (1 <= n)%nat -> (Z.of_nat n <= 2 ^ 40)%Z ->
  near_shell rMax (sqrt (dx * dx + dy * dy + dz * dz)) n (phase_bin M rMax n dx dy dz).
Proof.
  intros HR Hn Hbig. pose proof u_val as Hu. pose proof v_val as Hv. unfold phase_bin. cbv zeta.
  pose proof (dist2_rel dx dy dz) as ED. cbv zeta in ED.
  set (s := dx * dx + dy * dy + dz * dz) in *. set (r2 := dist2 M dx dy dz) in *. assert (Hs0 : 0 <= s) by (unfold s; nra). clearbody s. clearbody r2.
  assert (HRR : 0 <= rMax * rMax) by nra. pose proof (r64_rel _ HRR) as EM. pose proof (sqrt_rel _ _ v HRR v_half EM) as EM'. rewrite sqrt_square in EM' by lra.
  pose proof (sqrt_rel s r2 (4 * u) Hs0 ltac:(lra) ED) as ES. assert (P2 : 0 <= r2) by nra. pose proof (sqrt_pos s) as Prs. set (r := sqrt s) in *. clearbody r.
  destruct (Rleb_spec (r64 M (rMax * rMax)) r2) as [C|C].
  { cbn [near_shell]. apply sqrt_le_1_alt in C. unfold millionth. nra. }
  assert (C' : sqrt r2 <= sqrt (r64 M (rMax * rMax))) by (apply sqrt_le_1_alt; lra).
  pose proof (sqrt_pos r2) as P3. set (t := sqrt r2) in *. clearbody t. pose proof (r64_rel t P3) as ET. set (t' := r64 M t) in *. clearbody t'.
  assert (HN : 1 <= INR n) by (apply (le_INR 1); exact Hn). assert (HN' : INR n <= 2 ^ 40).
  { rewrite INR_IZR_INZ. apply IZR_le in Hbig. change (2 ^ 40)%Z with 1099511627776%Z in Hbig. lra. }
  set (N := INR n) in *. assert (Hw0 : 0 < rMax / N) by (apply Rdiv_lt_0_compat; lra). set (w0 := rMax / N) in *. assert (HW : rMax = N * w0) by (unfold w0; field; lra). clearbody w0.
  pose proof (r64_rel w0 ltac:(lra)) as EW. set (w' := r64 M w0) in *. clearbody w'.
  assert (Pw' : 0 < w') by nra. assert (Pt' : 0 <= t') by nra.
  assert (Pq0 : 0 <= t' / w') by (unfold Rdiv; apply Rmult_le_pos; [exact Pt'|left; apply Rinv_0_lt_compat; exact Pw']).
  pose proof (r64_rel _ Pq0) as EQ. set (q := r64 M (t' / w')) in *. clearbody q.
  assert (EQ1 : t' * (1 - v) <= q * w' <= t' * (1 + v)).
  { assert (X : t' = t' / w' * w') by (field; lra). rewrite X. destruct EQ as [EQ1 EQ2].
    apply (Rmult_le_compat_r w') in EQ1; [|lra]. apply (Rmult_le_compat_r w') in EQ2; [|lra]. split; nra. }
  assert (Pq : 0 <= q) by nra.
  assert (EQ2 : t * (1 - 4 * v) <= q * w0 <= t * (1 + 4 * v)).
  { assert (K0 : q * w0 * (1 - v) <= q * w' <= q * w0 * (1 + v)) by (split; nra).
    assert (K1 : t * ((1 - v) * (1 - v)) <= q * w' <= t * ((1 + v) * (1 + v))) by (split; nra).
    assert (Pqw : 0 <= q * w0) by nra. set (y := q * w0) in *. clearbody y. set (z := q * w') in *. clearbody z.
    split.
    - assert (t * ((1 - v) * (1 - v)) <= y * (1 + v)) by lra. assert (K2 : (1 - v) * (1 - v) >= (1 - 4 * v) * (1 + v)) by nra.
      apply (Rmult_le_reg_r (1 + v)); [lra|]. apply Rle_trans with (t * ((1 - v) * (1 - v))); [|lra]. rewrite Rmult_assoc. apply Rmult_le_compat_l; lra.
    - assert (y * (1 - v) <= t * ((1 + v) * (1 + v))) by lra. assert (K2 : (1 + v) * (1 + v) <= (1 + 4 * v) * (1 - v)) by nra.
      apply (Rmult_le_reg_r (1 - v)); [lra|]. apply Rle_trans with (t * ((1 + v) * (1 + v))); [lra|]. rewrite Rmult_assoc. apply Rmult_le_compat_l; lra. }
  assert (HNv : N * v <= / 2 ^ 12). { apply Rle_trans with (2 ^ 40 * v); [apply Rmult_le_compat_r; [lra|exact HN']|unfold v; lra]. }
  assert (EQ3 : q <= N * (1 + 6 * v)).
  { apply (Rmult_le_reg_r w0); [exact Hw0|]. assert (Ht : t <= N * w0 * (1 + v)) by (rewrite <- HW; lra).
    apply Rle_trans with (t * (1 + 4 * v)); [lra|]. apply Rle_trans with (N * w0 * (1 + v) * (1 + 4 * v)); [apply Rmult_le_compat_r; lra|].
    assert (K : (1 + v) * (1 + 4 * v) <= 1 + 6 * v) by nra. replace (N * (1 + 6 * v) * w0) with (N * w0 * (1 + 6 * v)) by ring. rewrite Rmult_assoc. apply Rmult_le_compat_l; [nra|exact K]. }
  assert (Q1 : -1 < q < INR n + 1) by (fold N; split; lra).
  destruct (trunc_bin q n Hn Q1) as (T1 & T2 & T3).
  set (i' := if (Rtrunc q =? Z.of_nat n)%Z then (Rtrunc q - 1)%Z else Rtrunc q) in *. clearbody i'.
  destruct (Z.leb_spec 0 i'); [|lia]. destruct (Z.ltb_spec i' (Z.of_nat n)); [|lia]. cbn [andb near_shell]. set (i := Z.to_nat i') in *. split; [unfold i; lia|].
  fold N. replace (rMax / N) with w0 by (rewrite HW; field; lra). unfold millionth.
  assert (F : r * (1 - 5 * u) <= q * w0 <= r * (1 + 5 * u)).
  { assert (v <= u / 10) by (unfold u, v; lra). split.
    - apply Rle_trans with (t * (1 - 4 * v)); [|lra]. apply Rle_trans with (r * (1 - 4 * u) * (1 - 4 * v)); [|apply Rmult_le_compat_r; lra].
      rewrite Rmult_assoc. apply Rmult_le_compat_l; [lra|nra].
    - apply Rle_trans with (t * (1 + 4 * v)); [lra|]. apply Rle_trans with (r * (1 + 4 * u) * (1 + 4 * v)); [apply Rmult_le_compat_r; lra|].
      rewrite Rmult_assoc. apply Rmult_le_compat_l; [lra|nra]. }
  pose proof (pos_INR i) as Pi. split.
  - destruct T2 as [T2|T2].
    + assert (INR i * w0 <= q * w0) by (apply Rmult_le_compat_r; lra). assert (0 <= INR i * w0) by nra. nra.
    + assert (Z0 : INR i = 0) by (unfold i; rewrite T2; reflexivity). rewrite Z0. lra.
  - assert (G : q * w0 <= (INR i + 1) * w0 * (1 + 6 * v)).
    { destruct T3 as [T3|T3].
      - assert (q * w0 <= (INR i + 1) * w0) by (apply Rmult_le_compat_r; lra). assert (0 <= (INR i + 1) * w0) by nra. nra.
      - assert (Z0 : INR i + 1 = N) by (rewrite <- S_INR, T3; reflexivity). rewrite Z0. replace (N * w0 * (1 + 6 * v)) with (N * (1 + 6 * v) * w0) by ring. apply Rmult_le_compat_r; lra. }
    assert (0 <= (INR i + 1) * w0) by nra. set (y := (INR i + 1) * w0) in *. clearbody y. nra.
Qed.
End Acc.

(** Single and double precision as the IEEE roundings to nearest of 24 and 53 digits, with a correctly rounded logarithm. *)
Definition ieee : machine := {| r32 := round radix2 (FLX_exp 24) ZnearestE; r64 := round radix2 (FLX_exp 53) ZnearestE; flog := fun x => round radix2 (FLX_exp 53) ZnearestE (ln x) |}.

Lemma ieee_accurate : accurate ieee.
Proof.
  assert (A24 : forall x, Rabs (round radix2 (FLX_exp 24) ZnearestE x - x) <= / 2 ^ 24 * Rabs x).
  { intros x. eapply Rle_trans; [apply (relative_error_N_FLX radix2 24 ltac:(lia) (fun z => negb (Z.even z)) x)|]. apply Req_le. f_equal. cbv - [Rmult Rinv IZR pow]. simpl; lra. }
  assert (A53 : forall x, Rabs (round radix2 (FLX_exp 53) ZnearestE x - x) <= / 2 ^ 53 * Rabs x).
  { intros x. eapply Rle_trans; [apply (relative_error_N_FLX radix2 53 ltac:(lia) (fun z => negb (Z.even z)) x)|]. apply Req_le. f_equal. cbv - [Rmult Rinv IZR pow]. simpl; lra. }
  split; [exact A24|]. split; [exact A53|]. intros x _. cbn [flog ieee]. eapply Rle_trans; [apply A53|]. apply Rmult_le_compat_r; [apply Rabs_pos|lra].
Qed.

(** ** C201 *)

(** prof: density profiles (median = false) and median profiles (median = true). *)
Theorem C201_prof : forall M, accurate M -> forall median Rv a b n dx dy dz, 0 < Rv -> 0 < a -> 0 < b -> (1 <= n)%nat ->
  Rabs (ln (Rv * a)) <= 1000 -> Rabs (ln (Rv * b)) <= 1000 -> ln (Rv * b) - ln (Rv * a) >= INR n * millionth ->
  near_bin (Rv * a) (Rv * b) (sqrt (dx * dx + dy * dy + dz * dz)) n (prof_bin M median Rv a b n dx dy dz).
Proof. exact prof_bin_near. Qed.

Theorem C201_phase : forall M, accurate M -> forall rMax n dx dy dz, 0 < rMax -> (1 <= n)%nat -> (Z.of_nat n <= 2 ^ 40)%Z ->
  near_shell rMax (sqrt (dx * dx + dy * dy + dz * dz)) n (phase_bin M rMax n dx dy dz).
Proof. exact phase_bin_near. Qed.

(** A particle that is farther than a millionth from both limits is counted, in one bin. *)
Theorem C201_counted : forall M, accurate M -> forall median Rv a b n dx dy dz, 0 < Rv -> 0 < a -> 0 < b -> (1 <= n)%nat ->
  Rabs (ln (Rv * a)) <= 1000 -> Rabs (ln (Rv * b)) <= 1000 -> ln (Rv * b) - ln (Rv * a) >= INR n * millionth ->
  Rv * a * (1 + millionth) < sqrt (dx * dx + dy * dy + dz * dz) < Rv * b * (1 - millionth) -> exists i, (i < n)%nat /\ prof_bin M median Rv a b n dx dy dz = Some (Some i).
Proof.
  intros M HM median Rv a b n dx dy dz HR Ha Hb Hn HA HB HD Hr. pose proof (prof_bin_near M HM median Rv a b n dx dy dz HR Ha Hb Hn HA HB HD) as H.
  destruct (prof_bin M median Rv a b n dx dy dz) as [[i|]|]; cbn [near_bin] in H; [|lra|contradiction]. exists i. split; [apply H|reflexivity].
Qed.

(** The roundings of IEEE arithmetic are accurate, and the usual configuration (0.5 to 3 radii, 150 bins) is covered. *)
Example C201_nonvacuous : accurate ieee /\ forall Rv, Rv = 2 -> Rabs (ln (Rv * (1 / 2))) <= 1000 /\ Rabs (ln (Rv * 3)) <= 1000 /\ ln (Rv * 3) - ln (Rv * (1 / 2)) >= INR 150 * millionth.
Proof.
  split; [exact ieee_accurate|]. intros Rv ->. replace (2 * (1 / 2)) with 1 by field. rewrite ln_1. replace (2 * 3) with 6 by ring.
  assert (H1 : ln 6 <= 5) by (pose proof (ln_le_sub 6 ltac:(lra)); lra).
  assert (H2 : / 2 <= ln 6). { pose proof (ln_le_sub (/ 6) ltac:(lra)) as E. rewrite ln_Rinv in E by lra. lra. }
  assert (HN : INR 150 = 150) by (rewrite INR_IZR_INZ; reflexivity). rewrite HN. unfold millionth. split; [rewrite Rabs_R0; lra|]. split; [apply Rabs_le; lra|lra].
Qed.

Print Assumptions C201_prof.
Print Assumptions C201_phase.
Print Assumptions C201_counted.
