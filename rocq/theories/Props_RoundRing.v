(** * C202: a plateau changes only its own line of sight, also with rounding *)
From Coq Require Import Reals Lra Lia List Bool ZArith Psatz.
From Flocq Require Import Core Relative.
From Verif Require Import RealBase InterpProofs ShellProofs LoopFacts RoundModel Props_Round RoundRingModel.
Import List ListNotations.
Local Open Scope R_scope.

(** ** Specification *)

(** The position of an end of a plateau in units of the bin width; ends below the lowest radius (or -Inf) count as the lowest radius. *)
Definition position (low high : R) (bins : nat) (s : option R) : R :=
  match s with None => 0 | Some s => Rmax 0 (INR bins * ((s - low) / (high - low))) end.

(** The fraction of bin j that lies beyond position t. *)
Definition beyond (t : R) (j : nat) : R := Rmin 1 (Rmax 0 (INR j + 1 - t)).

(** The profile that the stored steps of line i stand for: the sum of the first j + 1 of them. *)
Definition profile (d : list R) (bins i j : nat) : R := fold_right Rplus 0 (map (fun k => nth (i * bins + k) d 0) (seq 0 (S j))).

(** Sum of the absolute values of the steps. *)
Definition abs_profile (d : list R) (bins i j : nat) : R := fold_right Rplus 0 (map (fun k => Rabs (nth (i * bins + k) d 0)) (seq 0 (S j))).

(** Neither end lies within 2^-49 of the range below the highest radius. *)
Definition clear_of (low high : R) (s : option R) : Prop := match s with None => True | Some s => high <= s \/ s - low <= (high - low) * (1 - / 2 ^ 49) end.

Definition in_order (a b : option R) : Prop := match a, b with Some a, Some b => a <= b | None, _ => True | Some _, None => False end.

(** A ring as Init makes it, with any steps. *)
Definition ring_of (M : machine) (low high : R) (bins n : nat) (p : fring) : Prop :=
  f_bins p = bins /\ f_n p = n /\ f_lowR p = low /\ f_highR p = high /\ f_dr p = f_dr (fring_init M low high bins n) /\ length (f_derivs p) = (bins * n)%nat.

(** ** Proofs *)
Definition hat (j : nat) (t : R) : R := Rmax 0 (1 - Rabs (t - INR j)).

Lemma hat_lip j s t : Rabs (hat j s - hat j t) <= Rabs (s - t).
Proof.
  unfold hat, Rmax. destruct (Rle_dec 0 (1 - Rabs (s - INR j))), (Rle_dec 0 (1 - Rabs (t - INR j))); unfold Rabs in *;
  repeat match goal with |- context [Rcase_abs ?x] => destruct (Rcase_abs x) | H : context [Rcase_abs ?x] |- _ => destruct (Rcase_abs x) end; lra.
Qed.

Lemma hat_range j t : 0 <= hat j t <= 1.
Proof. unfold hat. split; [apply Rmax_l|]. apply Rmax_lub; [lra|]. pose proof (Rabs_pos (t - INR j)). lra. Qed.

Lemma hat_far j t : t <= INR j - 1 \/ INR j + 1 <= t -> hat j t = 0.
Proof. intros H. unfold hat. apply Rmax_left. unfold Rabs. destruct (Rcase_abs _); lra. Qed.

Lemma hat_lo j t : INR j - 1 <= t <= INR j -> hat j t = 1 + t - INR j.
Proof. intros H. unfold hat. rewrite Rabs_left1 by lra. rewrite Rmax_right by lra. ring. Qed.
Lemma hat_hi j t : INR j <= t <= INR j + 1 -> hat j t = 1 - t + INR j.
Proof. intros H. unfold hat. rewrite Rabs_pos_eq by lra. rewrite Rmax_right by lra. ring. Qed.
Lemma beyond_all t j : t <= INR j -> beyond t j = 1.
Proof. intros H. unfold beyond. rewrite Rmax_right by lra. apply Rmin_left. lra. Qed.
Lemma beyond_part t j : INR j <= t <= INR j + 1 -> beyond t j = INR j + 1 - t.
Proof. intros H. unfold beyond. rewrite Rmax_right by lra. apply Rmin_right. lra. Qed.
Lemma beyond_none t j : INR j + 1 <= t -> beyond t j = 0.
Proof. intros H. unfold beyond. rewrite Rmax_left by lra. apply Rmin_right. lra. Qed.

Lemma fold_plus l x : fold_right Rplus x l = fold_right Rplus 0 l + x.
Proof. revert x; induction l; intros; simpl; [lra|rewrite (IHl x); lra]. Qed.

Lemma sum_hat t j : 0 <= t -> fold_right Rplus 0 (map (fun k => hat k t) (seq 0 (S j))) = beyond t j.
Proof.
  intros Ht. induction j as [|j IH].
  - cbn [seq map fold_right]. rewrite Rplus_0_r. destruct (Rle_dec t 1).
    + rewrite hat_hi, beyond_part by (simpl; lra). simpl. lra.
    + rewrite hat_far, beyond_none by (simpl; lra). reflexivity.
  - rewrite seq_S, map_app, fold_right_app. cbn [map fold_right]. rewrite fold_plus, IH. cbn [plus].
    pose proof (S_INR j) as SJ. destruct (Rle_dec t (INR j)).
    { rewrite !beyond_all, hat_far by lra. lra. }
    destruct (Rle_dec t (INR j + 1)). { rewrite beyond_part, beyond_all, hat_lo by lra. lra. }
    rewrite (beyond_none t j) by lra. destruct (Rle_dec t (INR j + 2)). { rewrite hat_hi, beyond_part by lra. lra. }
    rewrite hat_far, beyond_none by lra. lra.
Qed.

Section Acc.
Variable M : machine.
Hypothesis HM : accurate M.

Lemma fadd_spec d k x : (k < length d)%nat -> exists d', fadd_at M d (Z.of_nat k) x = Some d' /\ length d' = length d /\
  forall m, nth m d' 0 = if (m =? k)%nat then r64 M (nth m d 0 + x) else nth m d 0.
Proof.
  intros Hk. unfold fadd_at. destruct (Z.ltb_spec (Z.of_nat k) 0); [lia|]. rewrite Nat2Z.id. rewrite (rd_nth _ _ 0 Hk).
  destruct (wr_some d k (r64 M (nth k d 0 + x)) 0 Hk) as (d' & E & L & N). exists d'. split; [exact E|]. split; [exact L|]. intros m. rewrite N.
  destruct (Nat.eqb_spec m k); [subst; reflexivity|reflexivity].
Qed.

Lemma step_close y x sgn rho h : Rabs x <= 2 * Rabs rho -> Rabs (x - sgn * rho * h) <= 3 * v * Rabs rho ->
  Rabs (r64 M (y + x) - (y + sgn * rho * h)) <= v * Rabs y + 5 * v * Rabs rho.
Proof.
  intros H1 H2. pose proof v_val as Hv. pose proof (r64_abs M HM (y + x) (Rabs y + 2 * Rabs rho)) as E.
  assert (Rabs (y + x) <= Rabs y + 2 * Rabs rho) by (eapply Rle_trans; [apply Rabs_triang|lra]). specialize (E H).
  replace (r64 M (y + x) - (y + sgn * rho * h)) with ((r64 M (y + x) - (y + x)) + (x - sgn * rho * h)) by ring. eapply Rle_trans; [apply Rabs_triang|]. lra.
Qed.

Lemma product_close sgn rho h : sgn = 1 \/ sgn = -1 -> 0 <= h <= 1 ->
  Rabs (sgn * r64 M (rho * h)) <= 2 * Rabs rho /\ Rabs (sgn * r64 M (rho * h) - sgn * rho * h) <= 3 * v * Rabs rho /\
  Rabs (sgn * r64 M (rho * r64 M h)) <= 2 * Rabs rho /\ Rabs (sgn * r64 M (rho * r64 M h) - sgn * rho * h) <= 3 * v * Rabs rho.
Proof.
  intros Hs Hh. pose proof v_val as Hv. pose proof (Rabs_pos rho) as Pr.
  assert (As : forall z, Rabs (sgn * z) = Rabs z) by (intros z; rewrite Rabs_mult; destruct Hs as [-> | ->]; rewrite ?Rabs_R1, ?Rabs_Ropp; [lra|]; replace (-1) with (- (1)) by lra; rewrite Rabs_Ropp, Rabs_R1; lra).
  assert (G : forall h', Rabs (h' - h) <= v -> Rabs (r64 M (rho * h') - rho * h) <= 3 * v * Rabs rho).
  { intros h' E. assert (Ph : Rabs h' <= 1 + v). { apply Rabs_le_inv in E. apply Rabs_le. lra. }
    assert (B : Rabs (rho * h') <= Rabs rho * (1 + v)) by (rewrite Rabs_mult; apply Rmult_le_compat_l; assumption).
    pose proof (r64_abs M HM _ _ B) as E2. replace (r64 M (rho * h') - rho * h) with ((r64 M (rho * h') - rho * h') + rho * (h' - h)) by ring.
    eapply Rle_trans; [apply Rabs_triang|]. assert (Rabs (rho * (h' - h)) <= Rabs rho * v) by (rewrite Rabs_mult; apply Rmult_le_compat_l; assumption).
    assert (v * (Rabs rho * (1 + v)) <= v * (Rabs rho * 2)) by (apply Rmult_le_compat_l; [lra|]; apply Rmult_le_compat_l; lra). lra. }
  assert (G' : forall h', Rabs (h' - h) <= v -> Rabs (r64 M (rho * h')) <= 2 * Rabs rho).
  { intros h' E. specialize (G h' E). replace (r64 M (rho * h')) with ((r64 M (rho * h') - rho * h) + rho * h) by ring. eapply Rle_trans; [apply Rabs_triang|].
    assert (Rabs (rho * h) <= Rabs rho * 1) by (rewrite Rabs_mult, (Rabs_pos_eq h) by lra; apply Rmult_le_compat_l; lra).
    assert (3 * v * Rabs rho <= 1 * Rabs rho) by (apply Rmult_le_compat_r; lra). lra. }
  assert (E0 : Rabs (h - h) <= v) by (rewrite Rminus_diag_eq by reflexivity; rewrite Rabs_R0; lra).
  assert (E1 : Rabs (r64 M h - h) <= v). { pose proof (r64_abs M HM h 1 ltac:(rewrite Rabs_pos_eq by lra; lra)). lra. }
  rewrite !(Rmult_assoc sgn rho h). rewrite <- !Rmult_minus_distr_l, !As. repeat split; [apply G'|apply G|apply G'|apply G]; assumption.
Qed.

Section Edge.
Variables (low high : R) (bins n : nat) (p : fring).
Hypothesis Hb : (1 <= bins)%nat.
Hypothesis Hlh : low < high.
Hypothesis Hp : ring_of M low high bins n p.

Lemma quotient s : low < s -> let q := r64 M (r64 M (s - low) / f_dr p) in let t := INR bins * ((s - low) / (high - low)) in 0 <= q /\ t * (1 - 5 * v) <= q <= t * (1 + 5 * v).
Proof.
  intros Hs q t. destruct Hp as (_ & _ & _ & _ & Hdr & _). cbn [fring_init f_dr] in Hdr. pose proof v_val as Hv. unfold q. clear q. rewrite Hdr.
  assert (HN : 1 <= INR bins) by (apply (le_INR 1); exact Hb).
  pose proof (r64_rel M HM (high - low) ltac:(lra)) as E1. set (D := r64 M (high - low)) in *. clearbody D.
  assert (PD : 0 < D) by nra. assert (PDb : 0 < D / INR bins) by (apply Rdiv_lt_0_compat; lra). pose proof (r64_rel M HM (D / INR bins) ltac:(lra)) as E2.
  set (w0 := r64 M (D / INR bins)) in *. clearbody w0. pose proof (r64_rel M HM (s - low) ltac:(lra)) as E3. set (a := r64 M (s - low)) in *. clearbody a.
  assert (Pw : 0 < w0) by nra. assert (Pa : 0 <= a) by nra. assert (Paw : 0 <= a / w0) by (unfold Rdiv; apply Rmult_le_pos; [exact Pa|left; apply Rinv_0_lt_compat; exact Pw]).
  pose proof (r64_rel M HM (a / w0) Paw) as E4. set (q := r64 M (a / w0)) in *. clearbody q. assert (Pq : 0 <= q) by nra. split; [exact Pq|].
  set (L := (high - low) / INR bins). assert (PL : 0 < L) by (apply Rdiv_lt_0_compat; lra).
  assert (ET : t * L = s - low) by (unfold t, L; field; lra). assert (Pt : 0 < t). { unfold t. apply Rmult_lt_0_compat; [lra|]. apply Rdiv_lt_0_compat; lra. } clearbody t.
  assert (EL : L * ((1 - v) * (1 - v)) <= w0 <= L * ((1 + v) * (1 + v))).
  { assert (X1 : L * (1 - v) <= D / INR bins). { unfold L, Rdiv. replace ((high - low) * / INR bins * (1 - v)) with ((high - low) * (1 - v) * / INR bins) by ring. apply Rmult_le_compat_r; [left; apply Rinv_0_lt_compat; lra|lra]. }
    assert (X2 : D / INR bins <= L * (1 + v)). { unfold L, Rdiv. replace ((high - low) * / INR bins * (1 + v)) with ((high - low) * (1 + v) * / INR bins) by ring. apply Rmult_le_compat_r; [left; apply Rinv_0_lt_compat; lra|lra]. }
    split.
    - apply Rle_trans with (D / INR bins * (1 - v)); [|lra]. rewrite <- Rmult_assoc. apply Rmult_le_compat_r; lra.
    - apply Rle_trans with (D / INR bins * (1 + v)); [lra|]. rewrite <- Rmult_assoc. apply Rmult_le_compat_r; lra. }
  assert (E5 : a * (1 - v) <= q * w0 <= a * (1 + v)).
  { assert (X : a = a / w0 * w0) by (field; lra). rewrite X. destruct E4 as [F1 F2]. apply (Rmult_le_compat_r w0) in F1; [|lra]. apply (Rmult_le_compat_r w0) in F2; [|lra]. split; nra. }
  rewrite <- ET in E3. assert (E6 : t * L * ((1 - v) * (1 - v)) <= q * w0 <= t * L * ((1 + v) * (1 + v))).
  { split.
    - apply Rle_trans with (a * (1 - v)); [|lra]. rewrite <- Rmult_assoc. apply Rmult_le_compat_r; lra.
    - apply Rle_trans with (a * (1 + v)); [lra|]. rewrite <- Rmult_assoc. apply Rmult_le_compat_r; lra. }
  assert (K1 : (1 - v) * (1 - v) >= (1 - 5 * v) * ((1 + v) * (1 + v))) by nra. assert (K2 : (1 + v) * (1 + v) <= (1 + 5 * v) * ((1 - v) * (1 - v))) by nra.
  assert (PtL : 0 < t * L) by (apply Rmult_lt_0_compat; assumption).
  split.
  - apply (Rmult_le_reg_r (L * ((1 + v) * (1 + v)))); [apply Rmult_lt_0_compat; nra|].
    apply Rle_trans with (t * L * ((1 - v) * (1 - v))); [replace (t * (1 - 5 * v) * (L * ((1 + v) * (1 + v)))) with (t * L * ((1 - 5 * v) * ((1 + v) * (1 + v)))) by ring; apply Rmult_le_compat_l; lra|].
    apply Rle_trans with (q * w0); [lra|]. apply Rmult_le_compat_l; lra.
  - apply (Rmult_le_reg_r (L * ((1 - v) * (1 - v)))); [apply Rmult_lt_0_compat; nra|].
    apply Rle_trans with (q * w0); [apply Rmult_le_compat_l; lra|]. apply Rle_trans with (t * L * ((1 + v) * (1 + v))); [lra|].
    replace (t * (1 + 5 * v) * (L * ((1 - v) * (1 - v)))) with (t * L * ((1 + 5 * v) * ((1 - v) * (1 - v)))) by ring. apply Rmult_le_compat_l; lra.
Qed.

Definition others (d d' : list R) (i : nat) : Prop := length d' = length d /\ forall k j, (j < bins)%nat -> k <> i -> nth (k * bins + j) d' 0 = nth (k * bins + j) d 0.

Lemma other_index i k j m : (m < bins)%nat -> (j < bins)%nat -> k <> i -> (k * bins + j =? i * bins + m)%nat = false.
Proof. intros Hm Hj Hk. apply Nat.eqb_neq. intros E. apply idx_inj in E; [|assumption|assumption]. destruct E. contradiction. Qed.

Lemma edge_spec s sgn rho i d : sgn = 1 \/ sgn = -1 -> (i < n)%nat -> length d = (bins * n)%nat -> low < s -> s - low <= (high - low) * (1 - / 2 ^ 49) ->
  exists d', fring_edge M p s sgn rho i d = Some d' /\ others d d' i /\
    forall j, (j < bins)%nat -> Rabs (nth (i * bins + j) d' 0 - (nth (i * bins + j) d 0 + sgn * rho * hat j (INR bins * ((s - low) / (high - low))))) <= v * Rabs (nth (i * bins + j) d 0) + 10 * v * INR bins * Rabs rho.
Proof.
  intros Hsgn Hi Hd Hs Hc. destruct Hp as (Eb & En & El & Eh & _ & _). unfold fring_edge. rewrite Eb, El. cbv zeta.
  pose proof v_val as Hv. destruct (quotient s Hs) as [Pq Eq]. set (q := r64 M (r64 M (s - low) / f_dr p)) in *. clearbody q.
  assert (HN : 1 <= INR bins) by (apply (le_INR 1); exact Hb). set (t := INR bins * ((s - low) / (high - low))) in *.
  assert (Ht : 0 < t <= INR bins * (1 - 8 * v)).
  { unfold t. split; [apply Rmult_lt_0_compat; [lra|apply Rdiv_lt_0_compat; lra]|]. apply Rmult_le_compat_l; [lra|].
    apply (Rmult_le_reg_r (high - low)); [lra|]. unfold Rdiv. rewrite Rmult_assoc, Rinv_l, Rmult_1_r by lra. assert (8 * v = / 2 ^ 49) by (unfold v; lra). rewrite H. lra. }
  clearbody t. assert (Hq : q < INR bins). { assert (X : t * (1 + 5 * v) <= INR bins * (1 - 8 * v) * (1 + 5 * v)) by (apply Rmult_le_compat_r; lra). assert ((1 - 8 * v) * (1 + 5 * v) < 1) by nra. nra. }
  assert (Hqt : Rabs (q - t) <= 5 * v * INR bins). { apply Rabs_le. assert (t * (5 * v) <= INR bins * (5 * v)) by (apply Rmult_le_compat_r; nra). lra. }
  destruct (Rtrunc_pos q Pq) as (T0 & T1 & T2). set (z := Rtrunc q) in *. clearbody z.
  assert (Hz : (z < Z.of_nat bins)%Z) by (apply lt_IZR; rewrite <- INR_IZR_INZ; lra).
  destruct (Z_of_nat_complete z T0) as [m Em]. subst z. rewrite <- INR_IZR_INZ in *. assert (Hm : (m < bins)%nat) by lia.
  rewrite <- Nat2Z.inj_add. assert (Hlen : (i * bins + m < length d)%nat) by (rewrite Hd, (Nat.mul_comm bins n); apply idx_lt; assumption).
  set (rem := q - INR m) in *. assert (Hrem : 0 <= rem < 1) by (unfold rem; lra).
  destruct (fadd_spec d (i * bins + m) (sgn * r64 M (rho * r64 M (1 - rem))) Hlen) as (d1 & E1 & L1 & N1). rewrite E1.
  destruct (product_close sgn rho (1 - rem) Hsgn ltac:(lra)) as (_ & _ & A1 & A2). destruct (product_close sgn rho rem Hsgn ltac:(lra)) as (B1 & B2 & _ & _).
  assert (Hat0 : hat m q = 1 - rem). { unfold hat. rewrite Rabs_pos_eq by (unfold rem in *; lra). unfold rem in *. apply Rmax_right. lra. }
  assert (Hat1 : hat (S m) q = rem). { unfold hat. rewrite S_INR. rewrite Rabs_left1 by (unfold rem in *; lra). unfold rem in *. rewrite Rmax_right by lra. ring. }
  assert (Hatn : forall j, j <> m -> j <> S m -> hat j q = 0).
  { intros j J1 J2. apply hat_far. destruct (lt_dec j m) as [Hl|Hl].
    - right. assert (INR (S j) <= INR m) by (apply le_INR; lia). rewrite S_INR in H. unfold rem in *. lra.
    - left. assert (INR (S (S m)) <= INR j) by (apply le_INR; lia). rewrite !S_INR in H. unfold rem in *. lra. }
  assert (Fin : forall j y y', Rabs (y' - (y + sgn * rho * hat j q)) <= v * Rabs y + 5 * v * Rabs rho ->
    Rabs (y' - (y + sgn * rho * hat j t)) <= v * Rabs y + 10 * v * INR bins * Rabs rho).
  { intros j y y' H. replace (y' - (y + sgn * rho * hat j t)) with ((y' - (y + sgn * rho * hat j q)) + sgn * (rho * (hat j q - hat j t))) by ring.
    eapply Rle_trans; [apply Rabs_triang|]. assert (As : forall x, Rabs (sgn * x) = Rabs x) by (intros x; rewrite Rabs_mult; destruct Hsgn as [-> | ->]; [rewrite Rabs_R1; lra|replace (-1) with (- (1)) by lra; rewrite Rabs_Ropp, Rabs_R1; lra]).
    rewrite As, Rabs_mult. pose proof (hat_lip j q t) as HL. pose proof (Rabs_pos rho) as Pr.
    assert (Rabs rho * Rabs (hat j q - hat j t) <= Rabs rho * (5 * v * INR bins)) by (apply Rmult_le_compat_l; lra).
    assert (5 * v * Rabs rho * 1 <= 5 * v * Rabs rho * INR bins) by (apply Rmult_le_compat_l; [|lra]; apply Rmult_le_pos; lra). lra. }
  assert (Same : forall y, 0 <= v * Rabs y + 5 * v * Rabs rho). { intros y. pose proof (Rabs_pos y). pose proof (Rabs_pos rho). assert (0 <= v * Rabs y) by (apply Rmult_le_pos; lra). assert (0 <= v * Rabs rho) by (apply Rmult_le_pos; lra). lra. }
  destruct (Z.ltb_spec (Z.of_nat m) (Z.of_nat bins - 1)) as [Hlt|Hge].
  - replace (Z.of_nat (i * bins + m) + 1)%Z with (Z.of_nat (i * bins + S m)) by lia.
    assert (Hlen1 : (i * bins + S m < length d1)%nat) by (rewrite L1, Hd, (Nat.mul_comm bins n); apply idx_lt; [exact Hi|lia]).
    destruct (fadd_spec d1 (i * bins + S m) (sgn * r64 M (rho * rem)) Hlen1) as (d2 & E2 & L2 & N2). rewrite E2. exists d2. split; [reflexivity|]. split.
    + split; [congruence|]. intros k j Hj Hk. rewrite N2, (other_index i k j (S m)) by (try assumption; lia). rewrite N1, (other_index i k j m) by assumption. reflexivity.
    + intros j Hj. apply Fin. rewrite N2. destruct (Nat.eqb_spec (i * bins + j) (i * bins + S m)) as [Ej|Ej].
      * assert (j = S m) by lia. subst j. rewrite N1. destruct (Nat.eqb_spec (i * bins + S m) (i * bins + m)); [lia|]. rewrite Hat1. apply step_close; assumption.
      * rewrite N1. destruct (Nat.eqb_spec (i * bins + j) (i * bins + m)) as [Ek|Ek].
        -- assert (j = m) by lia. subst j. rewrite Hat0. apply step_close; assumption.
        -- rewrite (Hatn j) by lia. rewrite Rmult_0_r, Rplus_0_r, Rminus_diag_eq, Rabs_R0 by reflexivity. apply Same.
  - exists d1. split; [reflexivity|]. split.
    + split; [congruence|]. intros k j Hj Hk. rewrite N1, (other_index i k j m) by assumption. reflexivity.
    + intros j Hj. apply Fin. rewrite N1. destruct (Nat.eqb_spec (i * bins + j) (i * bins + m)) as [Ek|Ek].
      * assert (j = m) by lia. subst j. rewrite Hat0. apply step_close; assumption.
      * rewrite (Hatn j) by lia. rewrite Rmult_0_r, Rplus_0_r, Rminus_diag_eq, Rabs_R0 by reflexivity. apply Same.
Qed.

Lemma first_spec rho i d : (i < n)%nat -> length d = (bins * n)%nat ->
  exists d', fadd_at M d (Z.of_nat (i * bins)) rho = Some d' /\ others d d' i /\
    forall j, (j < bins)%nat -> Rabs (nth (i * bins + j) d' 0 - (nth (i * bins + j) d 0 + 1 * rho * hat j 0)) <= v * Rabs (nth (i * bins + j) d 0) + 10 * v * INR bins * Rabs rho.
Proof.
  intros Hi Hd. pose proof v_val as Hv. assert (HN : 1 <= INR bins) by (apply (le_INR 1); exact Hb). pose proof (Rabs_pos rho) as Pr.
  assert (Hlen : (i * bins + 0 < length d)%nat) by (rewrite Hd, (Nat.mul_comm bins n); apply idx_lt; [exact Hi|lia]).
  destruct (fadd_spec d (i * bins + 0) rho Hlen) as (d1 & E1 & L1 & N1). rewrite Nat.add_0_r in E1. exists d1. split; [exact E1|]. split.
  - split; [exact L1|]. intros k j Hj Hk. rewrite N1, (other_index i k j 0) by (try assumption; lia). reflexivity.
  - assert (Big : 5 * v * Rabs rho * 1 <= 10 * v * Rabs rho * INR bins) by (apply Rmult_le_compat; [apply Rmult_le_pos; lra|lra|apply Rmult_le_compat_r; lra|lra]).
    intros j Hj. rewrite N1. destruct (Nat.eqb_spec (i * bins + j) (i * bins + 0)) as [Ej|Ej].
    + assert (j = 0)%nat by lia. subst j. rewrite hat_hi by (simpl; lra). simpl (INR 0).
      pose proof (step_close (nth (i * bins + 0) d 0) rho 1 rho (1 - 0 + 0) ltac:(lra) ltac:(replace (rho - 1 * rho * (1 - 0 + 0)) with 0 by ring; rewrite Rabs_R0; apply Rmult_le_pos; lra)). lra.
    + rewrite hat_far. { rewrite Rmult_0_r, Rplus_0_r, Rminus_diag_eq, Rabs_R0 by reflexivity. assert (0 <= v * Rabs (nth (i * bins + j) d 0)) by (apply Rmult_le_pos; [lra|apply Rabs_pos]). assert (0 <= 5 * v * Rabs rho * 1) by (rewrite Rmult_1_r; apply Rmult_le_pos; lra). lra. }
      left. assert (INR 1 <= INR j) by (apply le_INR; lia). simpl in H. lra.
Qed.

Lemma position_low s : s <= low -> position low high bins (Some s) = 0.
Proof.
  intros H. unfold position. apply Rmax_left. assert (0 <= INR bins) by apply pos_INR. assert (0 < / (high - low)) by (apply Rinv_0_lt_compat; lra).
  assert ((s - low) / (high - low) <= 0) by (unfold Rdiv; nra). nra.
Qed.
Lemma position_mid s : low <= s -> position low high bins (Some s) = INR bins * ((s - low) / (high - low)).
Proof.
  intros H. unfold position. apply Rmax_right. assert (0 <= INR bins) by apply pos_INR. assert (0 < / (high - low)) by (apply Rinv_0_lt_compat; lra).
  apply Rmult_le_pos; [assumption|]. unfold Rdiv. apply Rmult_le_pos; lra.
Qed.
Lemma position_high s j : high <= s -> (j < bins)%nat -> hat j (position low high bins (Some s)) = 0.
Proof.
  intros H Hj. rewrite position_mid by lra. apply hat_far. right. assert (INR (S j) <= INR bins) by (apply le_INR; lia). rewrite S_INR in H0.
  assert (1 <= (s - low) / (high - low)). { apply (Rmult_le_reg_r (high - low)); [lra|]. unfold Rdiv. rewrite Rmult_assoc, Rinv_l by lra. lra. }
  assert (INR bins * 1 <= INR bins * ((s - low) / (high - low))) by (apply Rmult_le_compat_l; [apply pos_INR|assumption]). lra.
Qed.
Lemma position_pos s : 0 <= position low high bins s.
Proof. destruct s; [apply Rmax_l|simpl; lra]. Qed.

Lemma insert_steps start stop rho i : INR bins <= 2 ^ 30 -> (i < n)%nat -> in_order start stop -> clear_of low high start -> clear_of low high stop ->
  exists p', fring_insert M p start stop rho i = Some p' /\ ring_of M low high bins n p' /\ others (f_derivs p) (f_derivs p') i /\
    forall j, (j < bins)%nat -> Rabs (nth (i * bins + j) (f_derivs p') 0 - (nth (i * bins + j) (f_derivs p) 0 + rho * (hat j (position low high bins start) - hat j (position low high bins stop))))
      <= / 2 ^ 47 * (Rabs (nth (i * bins + j) (f_derivs p) 0) + INR bins * Rabs rho).
Proof.
  intros Hbig Hi Ho C1 C2. pose proof Hp as (Eb & En & El & Eh & Edr & Elen). pose proof v_val as Hv. pose proof (Rabs_pos rho) as Pr.
  assert (HN : 1 <= INR bins) by (apply (le_INR 1); exact Hb). unfold fring_insert. rewrite El, Eh, Eb.
  assert (Pos : forall y, 0 <= / 2 ^ 47 * (Rabs y + INR bins * Rabs rho)).
  { intros y. pose proof (Rabs_pos y). apply Rmult_le_pos; [left; apply Rinv_0_lt_compat; lra|]. assert (0 <= INR bins * Rabs rho) by (apply Rmult_le_pos; lra). lra. }
  assert (Out : (forall j, (j < bins)%nat -> hat j (position low high bins start) = hat j (position low high bins stop)) ->
    exists p', Some p = Some p' /\ ring_of M low high bins n p' /\ others (f_derivs p) (f_derivs p') i /\
    forall j, (j < bins)%nat -> Rabs (nth (i * bins + j) (f_derivs p') 0 - (nth (i * bins + j) (f_derivs p) 0 + rho * (hat j (position low high bins start) - hat j (position low high bins stop))))
      <= / 2 ^ 47 * (Rabs (nth (i * bins + j) (f_derivs p) 0) + INR bins * Rabs rho)).
  { intros Heq. exists p. split; [reflexivity|]. split; [exact Hp|]. split; [split; reflexivity|]. intros j Hj. rewrite (Heq j Hj).
    match goal with |- Rabs ?e <= _ => replace e with 0 by ring end. rewrite Rabs_R0. apply Pos. }
  destruct stop as [e|]; [|destruct start; [contradiction|]; apply Out; reflexivity].
  destruct (Rleb_spec e low) as [He|He]; cbn [orb].
  { apply Out. intros j _. rewrite (position_low e He). destruct start as [s0|]; [|reflexivity]. cbn [in_order] in Ho. rewrite (position_low s0) by lra. reflexivity. }
  assert (Start : match start with None => False | Some s => high <= s end \/ exists d1,
    match start with Some s => if Rltb low s then fring_edge M p s 1 rho i (f_derivs p) else fadd_at M (f_derivs p) (Z.of_nat (i * bins)) rho | None => fadd_at M (f_derivs p) (Z.of_nat (i * bins)) rho end = Some d1 /\ others (f_derivs p) d1 i /\
    forall j, (j < bins)%nat -> Rabs (nth (i * bins + j) d1 0 - (nth (i * bins + j) (f_derivs p) 0 + 1 * rho * hat j (position low high bins start))) <= v * Rabs (nth (i * bins + j) (f_derivs p) 0) + 10 * v * INR bins * Rabs rho).
  { destruct start as [s0|].
    - destruct (Rle_dec high s0); [left; assumption|right]. destruct (Rltb_spec low s0) as [Hs|Hs].
      + rewrite position_mid by lra. apply edge_spec; try assumption; [left; reflexivity|]. cbn [clear_of] in C1. destruct C1; [lra|assumption].
      + rewrite position_low by lra. apply first_spec; assumption.
    - right. apply first_spec; assumption. }
  destruct Start as [Hhigh|(d1 & E1 & (L1 & O1) & B1)].
  { destruct start as [s0|]; [|contradiction]. destruct (Rleb_spec high s0); [|lra]. apply Out. cbn [in_order] in Ho. intros j Hj. rewrite !position_high by (try assumption; lra). reflexivity. }
  replace (match start with Some s => Rleb high s | None => false end) with (match start with Some s => Rleb high s | None => false end) by reflexivity.
  destruct (match start with Some s => Rleb high s | None => false end) eqn:Eo.
  { destruct start as [s0|]; [|discriminate]. destruct (Rleb_spec high s0); [|discriminate]. apply Out. cbn [in_order] in Ho. intros j Hj. rewrite !position_high by (try assumption; lra). reflexivity. }
  clear Eo. rewrite E1.
  assert (Stop : exists d2, (if Rltb e high then fring_edge M p e (-1) rho i d1 else Some d1) = Some d2 /\ others d1 d2 i /\
    forall j, (j < bins)%nat -> Rabs (nth (i * bins + j) d2 0 - (nth (i * bins + j) d1 0 + -1 * rho * hat j (position low high bins (Some e)))) <= v * Rabs (nth (i * bins + j) d1 0) + 10 * v * INR bins * Rabs rho).
  { destruct (Rltb_spec e high) as [H|H].
    - rewrite position_mid by lra. apply edge_spec; try assumption; [right; reflexivity|congruence|lra|]. cbn [clear_of] in C2. destruct C2; [lra|assumption].
    - exists d1. split; [reflexivity|]. split; [split; reflexivity|]. intros j Hj. rewrite position_high by (try assumption; lra). match goal with |- Rabs ?e <= _ => replace e with 0 by ring end. rewrite Rabs_R0.
      assert (0 <= v * Rabs (nth (i * bins + j) d1 0)) by (apply Rmult_le_pos; [lra|apply Rabs_pos]). assert (0 <= 10 * v * INR bins * Rabs rho) by (repeat apply Rmult_le_pos; lra). lra. }
  destruct Stop as (d2 & E2 & (L2 & O2) & B2). rewrite E2. eexists. split; [reflexivity|]. cbn [f_derivs].
  split; [unfold ring_of; cbn [f_bins f_n f_lowR f_highR f_dr f_derivs]; repeat split; try assumption; congruence|].
  split; [split; [congruence|intros k j Hj Hk; rewrite O2, O1 by assumption; reflexivity]|].
  intros j Hj. specialize (B1 j Hj). specialize (B2 j Hj). pose proof (hat_range j (position low high bins start)) as H1. pose proof (hat_range j (position low high bins (Some e))) as H2.
  set (h1 := hat j (position low high bins start)) in *. set (h2 := hat j (position low high bins (Some e))) in *.
  set (y := nth (i * bins + j) (f_derivs p) 0) in *. set (y1 := nth (i * bins + j) d1 0) in *. set (y2 := nth (i * bins + j) d2 0) in *. clearbody h1 h2 y y1 y2.
  pose proof (Rabs_pos y) as Py. set (B := INR bins * Rabs rho) in *. assert (HB1 : 10 * v * INR bins * Rabs rho = 10 * v * B) by (unfold B; ring). rewrite HB1 in *.
  assert (HB2 : Rabs rho <= B). { unfold B. rewrite <- (Rmult_1_l (Rabs rho)) at 1. apply Rmult_le_compat_r; lra. }
  assert (HB3 : 10 * v * B <= Rabs rho). { unfold B. rewrite <- Rmult_assoc. rewrite <- (Rmult_1_l (Rabs rho)) at 2. apply Rmult_le_compat_r; [lra|]. apply Rle_trans with (10 * v * 2 ^ 30); [apply Rmult_le_compat_l; [lra|exact Hbig]|unfold v; lra]. }
  assert (Hrh1 : Rabs (1 * rho * h1) <= Rabs rho). { rewrite Rmult_1_l, Rabs_mult, (Rabs_pos_eq h1) by lra. rewrite <- (Rmult_1_r (Rabs rho)) at 2. apply Rmult_le_compat_l; lra. }
  assert (Hy1 : Rabs y1 <= 2 * Rabs y + 2 * Rabs rho).
  { replace y1 with ((y1 - (y + 1 * rho * h1)) + (y + 1 * rho * h1)) by ring. eapply Rle_trans; [apply Rabs_triang|]. pose proof (Rabs_triang y (1 * rho * h1)).
    assert (v * Rabs y <= 1 * Rabs y) by (apply Rmult_le_compat_r; lra). lra. }
  replace (y2 - (y + rho * (h1 - h2))) with ((y2 - (y1 + -1 * rho * h2)) + (y1 - (y + 1 * rho * h1))) by ring. eapply Rle_trans; [apply Rabs_triang|].
  assert (v * Rabs y1 <= v * (2 * Rabs y + 2 * Rabs rho)) by (apply Rmult_le_compat_l; lra). assert (v * Rabs rho <= v * B) by (apply Rmult_le_compat_l; lra).
  assert (E32 : / 2 ^ 47 = 32 * v) by (unfold v; lra). rewrite E32. assert (0 <= v * Rabs y) by (apply Rmult_le_pos; lra). assert (0 <= v * B) by (apply Rmult_le_pos; lra). lra.
Qed.
End Edge.
End Acc.

Lemma sum_close (f g e : nat -> R) l : (forall k, In k l -> Rabs (f k - g k) <= e k) -> Rabs (fold_right Rplus 0 (map f l) - fold_right Rplus 0 (map g l)) <= fold_right Rplus 0 (map e l).
Proof.
  induction l as [|a l IH]; intros H; cbn [map fold_right]; [rewrite Rminus_0_r, Rabs_R0; lra|].
  replace (f a + fold_right Rplus 0 (map f l) - (g a + fold_right Rplus 0 (map g l))) with ((f a - g a) + (fold_right Rplus 0 (map f l) - fold_right Rplus 0 (map g l))) by ring.
  eapply Rle_trans; [apply Rabs_triang|]. apply Rplus_le_compat; [apply H; now left|apply IH; intros; apply H; now right].
Qed.
Lemma sum_plus (f g : nat -> R) l : fold_right Rplus 0 (map (fun k => f k + g k) l) = fold_right Rplus 0 (map f l) + fold_right Rplus 0 (map g l).
Proof. induction l; cbn [map fold_right]; [lra|rewrite IHl; lra]. Qed.
Lemma sum_scal (f : nat -> R) c l : fold_right Rplus 0 (map (fun k => c * f k) l) = c * fold_right Rplus 0 (map f l).
Proof. induction l; cbn [map fold_right]; [lra|rewrite IHl; lra]. Qed.
Lemma sum_const c l : fold_right Rplus 0 (map (fun _ : nat => c) l) = INR (length l) * c.
Proof. induction l; [simpl; lra|]. cbn [map fold_right length]. rewrite IHl, S_INR. lra. Qed.

(** ** C202 *)

(** Full property: the same without the two conditions [clear_of]. Missing: ends that lie closer than 2^-49 of the range to the highest radius (C202_leak_refuted). *)
Theorem C202_insert_partial : forall M, accurate M -> forall low high bins n p start stop rho i,
  (1 <= bins)%nat -> INR bins <= 2 ^ 30 -> low < high -> ring_of M low high bins n p -> (i < n)%nat -> in_order start stop -> clear_of low high start -> clear_of low high stop ->
  exists p', fring_insert M p start stop rho i = Some p' /\ ring_of M low high bins n p' /\
    (forall k j, (j < bins)%nat -> k <> i -> profile (f_derivs p') bins k j = profile (f_derivs p) bins k j) /\
    (forall j, (j < bins)%nat ->
      Rabs (profile (f_derivs p') bins i j - (profile (f_derivs p) bins i j + rho * (beyond (position low high bins start) j - beyond (position low high bins stop) j)))
        <= / 2 ^ 47 * (abs_profile (f_derivs p) bins i j + INR (S j) * (INR bins * Rabs rho))).
Proof.
  intros M HM low high bins n p start stop rho i Hb Hbig Hlh Hp Hi Ho C1 C2.
  destruct (insert_steps M HM low high bins n p Hb Hlh Hp start stop rho i Hbig Hi Ho C1 C2) as (p' & E & Hp' & (L & O) & B).
  exists p'. split; [exact E|]. split; [exact Hp'|]. split.
  - intros k j Hj Hk. unfold profile. f_equal. apply map_ext_in. intros m Hm. apply in_seq in Hm. apply O; [lia|exact Hk].
  - intros j Hj. rewrite <- !(sum_hat _ j) by (apply position_pos). unfold profile, abs_profile.
    set (l := seq 0 (S j)). rewrite <- (seq_length (S j) 0) at 1. fold l.
    set (ps := position low high bins start) in *. set (pe := position low high bins stop) in *.
    replace (fold_right Rplus 0 (map (fun k => nth (i * bins + k) (f_derivs p) 0) l) + rho * (fold_right Rplus 0 (map (fun k => hat k ps) l) - fold_right Rplus 0 (map (fun k => hat k pe) l)))
      with (fold_right Rplus 0 (map (fun k => nth (i * bins + k) (f_derivs p) 0 + rho * (hat k ps + -1 * hat k pe)) l)).
    2:{ rewrite sum_plus, sum_scal, sum_plus, sum_scal. ring. }
    eapply Rle_trans; [apply sum_close with (e := fun k => / 2 ^ 47 * (Rabs (nth (i * bins + k) (f_derivs p) 0) + INR bins * Rabs rho))|].
    + intros k Hk. unfold l in Hk. apply in_seq in Hk. replace (hat k ps + -1 * hat k pe) with (hat k ps - hat k pe) by ring. apply B. lia.
    + rewrite sum_scal. apply Req_le. f_equal. rewrite sum_plus, sum_const. reflexivity.
Qed.

(** With IEEE arithmetic: two lines of sight with two bins from -2 to 0; a plateau that starts at -2^-60, i.e. inside of the range, is added to the other line of sight, and in the last one it is an index out of range. *)
Lemma ieee_exact x m e : x = IZR m * bpow radix2 e -> (Z.abs m <= 2 ^ 53)%Z -> r64 ieee x = x.
Proof.
  intros -> Hm. cbn [r64 ieee]. apply round_generic; [apply valid_rnd_N|]. destruct (Z.eq_dec (Z.abs m) (2 ^ 53)) as [E|E].
  - assert (m = 2 ^ 53 \/ m = - 2 ^ 53)%Z as [-> | ->] by lia.
    + replace (IZR (2 ^ 53) * bpow radix2 e) with (bpow radix2 (53 + e)) by (rewrite bpow_plus; reflexivity). apply generic_format_bpow. unfold FLX_exp. lia.
    + replace (IZR (- 2 ^ 53) * bpow radix2 e) with (- bpow radix2 (53 + e)) by (rewrite bpow_plus; change (bpow radix2 53) with (IZR (2 ^ 53)); rewrite opp_IZR; ring). apply generic_format_opp, generic_format_bpow. unfold FLX_exp. lia.
  - apply generic_format_FLX. exists (Float radix2 m e); [reflexivity|]. cbn [Fnum]. change (radix2 ^ 53)%Z with (2 ^ 53)%Z. lia.
Qed.

Lemma ieee_below_two : r64 ieee (2 - / 2 ^ 60) = 2.
Proof.
  cbn [r64 ieee]. unfold round, scaled_mantissa, cexp, F2R. cbn [Fnum Fexp].
  assert (Em : mag radix2 (2 - / 2 ^ 60) = 1%Z :> Z). { apply mag_unique. rewrite Rabs_pos_eq by lra. cbn. lra. }
  rewrite Em. change (FLX_exp 53 1) with (-52)%Z. replace (Znearest (fun x => negb (Z.even x)) ((2 - / 2 ^ 60) * bpow radix2 (- -52))) with (2 ^ 53)%Z.
  - cbn. lra.
  - symmetry. apply Znearest_imp. change (bpow radix2 (- -52)) with (IZR (2 ^ 52)). change (2 ^ 52)%Z with 4503599627370496%Z. change (2 ^ 53)%Z with 9007199254740992%Z. rewrite Rabs_left1 by lra. lra.
Qed.

Definition ring2 : fring := fring_init ieee (-2) 0 2 2.
Lemma ring2_eq : ring2 = mkFring [0; 0; 0; 0] 2 2 (-2) 0 1.
Proof.
  unfold ring2, fring_init. cbn [repeat mult plus]. f_equal. replace (0 - -2) with 2 by ring. rewrite (ieee_exact 2 2 0) by (try (cbn; lra); cbn; lia).
  replace (2 / INR 2) with 1 by (simpl; field). apply (ieee_exact 1 1 0); [cbn; lra|cbn; lia].
Qed.

Lemma trunc2 : Rtrunc 2 = 2%Z.
Proof. destruct (Rtrunc_pos 2) as (H0 & H1 & H2); [lra|]. assert (Rtrunc 2 <= 2)%Z by (apply le_IZR; lra). assert (2 < Rtrunc 2 + 1)%Z by (apply lt_IZR; rewrite plus_IZR; lra). lia. Qed.

Theorem C202_leak_refuted : exists p', fring_insert ieee (fring_init ieee (-2) 0 2 2) (Some (- / 2 ^ 60)) (Some 1) 1 0 = Some p' /\
  profile (f_derivs p') 2 0 0 = 0 /\ profile (f_derivs p') 2 0 1 = 0 /\ profile (f_derivs p') 2 1 0 = 1 /\ profile (f_derivs p') 2 1 1 = 1 /\
  fring_insert ieee (fring_init ieee (-2) 0 2 2) (Some (- / 2 ^ 60)) (Some 1) 1 1 = None.
Proof.
  change (fring_init ieee (-2) 0 2 2) with ring2. rewrite ring2_eq.
  assert (HE : forall i d, fring_edge ieee (mkFring [0; 0; 0; 0] 2 2 (-2) 0 1) (- / 2 ^ 60) 1 1 i d = fadd_at ieee d (Z.of_nat (i * 2) + 2) 1).
  { intros i d. unfold fring_edge. cbn [f_lowR f_dr f_bins]. replace (- / 2 ^ 60 - -2) with (2 - / 2 ^ 60) by ring. rewrite ieee_below_two. unfold Rdiv. rewrite Rinv_1, Rmult_1_r.
    rewrite (ieee_exact 2 2 0) by (try (cbn; lra); cbn; lia). rewrite trunc2. replace (1 - (2 - 2)) with 1 by ring. rewrite (ieee_exact 1 1 0) by (try (cbn; lra); cbn; lia).
    replace (1 * 1) with 1 by ring. rewrite (ieee_exact 1 1 0) by (try (cbn; lra); cbn; lia). replace (1 * 1) with 1 by ring. destruct (fadd_at _ _ _ _); reflexivity. }
  assert (HI : forall i, fring_insert ieee (mkFring [0; 0; 0; 0] 2 2 (-2) 0 1) (Some (- / 2 ^ 60)) (Some 1) 1 i =
    match fadd_at ieee [0; 0; 0; 0] (Z.of_nat (i * 2) + 2) 1 with Some d => Some (mkFring d 2 2 (-2) 0 1) | None => None end).
  { intros i. unfold fring_insert. rewrite HE. cbn [f_lowR f_highR f_derivs f_bins f_n f_dr]. destruct (Rleb_spec 1 (-2)); [lra|]. destruct (Rleb_spec 0 (- / 2 ^ 60)); [lra|]. cbn [orb].
    destruct (Rltb_spec (-2) (- / 2 ^ 60)); [|lra]. destruct (fadd_at _ _ _ _); [|reflexivity]. destruct (Rltb_spec 1 0); [lra|]. reflexivity. }
  exists (mkFring [0; 0; 1; 0] 2 2 (-2) 0 1). split.
  - rewrite HI. change (fadd_at ieee [0; 0; 0; 0] (Z.of_nat (0 * 2) + 2) 1) with (Some [0; 0; r64 ieee (0 + 1); 0]). replace (0 + 1) with 1 by ring. rewrite (ieee_exact 1 1 0) by (try (cbn; lra); cbn; lia). reflexivity.
  - unfold profile. cbn [f_derivs seq map nth fold_right plus mult]. repeat split; try lra. rewrite HI. reflexivity.
Qed.

(** A ring and a plateau that meet the conditions of C202_insert_partial. *)
Example C202_nonvacuous : accurate ieee /\ ring_of ieee (-2) 0 2 2 (fring_init ieee (-2) 0 2 2) /\ in_order (Some (-1)) (Some 1) /\ clear_of (-2) 0 (Some (-1)) /\ clear_of (-2) 0 (Some 1) /\
  position (-2) 0 2 (Some (-1)) = 1 /\ beyond 1 0 = 0 /\ beyond 1 1 = 1.
Proof.
  split; [exact ieee_accurate|]. split; [unfold ring_of, fring_init; cbn; repeat split|]. split; [cbn; lra|]. split; [right; lra|]. split; [left; lra|].
  split; [unfold position; rewrite Rmax_right; simpl; lra|]. split; [apply beyond_none; simpl; lra|apply beyond_all; simpl; lra].
Qed.

Print Assumptions C202_insert_partial.
Print Assumptions C202_leak_refuted.
