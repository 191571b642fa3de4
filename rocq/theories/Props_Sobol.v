(** * C211: the points of a Sobol sequence are spread evenly over every coordinate *)
From Coq Require Import Reals Lra Lia List Bool NArith ZArith.
From Verif Require Import RealBase LoopBase LoopFacts RandModel RandSpec RandProofs RandProofs2.
Import List ListNotations.
Local Open Scope R_scope.

(** ** Specification *)

(** x lies in cell i of the 2^j equal cells of [0, 1). *)
Definition in_cell (j i : nat) (x : R) : Prop := INR i / 2 ^ j <= x < (INR i + 1) / 2 ^ j.

(** Coordinate k of the t-th point (from zero). *)
Definition coordinate (ps : list (list R)) (t k : nat) : R := nth k (nth t ps []) 0.

(** ** Proofs *)
Definition top (j : nat) (x : N) : N := N.shiftr x (N.of_nat (30 - j)).

Lemma top_bit j x J : (J < j <= 30)%nat -> N.testbit (top j x) (N.of_nat (j - 1 - J)) = N.testbit x (N.of_nat (29 - J)).
Proof. intros H. unfold top. rewrite N.shiftr_spec by lia. f_equal. lia. Qed.

Lemma top_distinct k j n m : (k < 6)%nat -> (j <= 30)%nat -> (n < m)%nat -> (forall i, (n < i <= m)%nat -> (zeroIdx (N.of_nat i) < j)%nat) -> top j (X k n) <> top j (X k m).
Proof.
  intros Hk Hj Hnm Hz E. replace m with (n + S (m - n - 1))%nat in * by lia. set (d := (m - n - 1)%nat) in *. clearbody d.
  destruct (zeroIdx_max n d) as (i0 & Hi0 & Hmax). set (J := zeroIdx (N.of_nat i0)) in *.
  assert (HJ : (J < j)%nat) by (apply Hz; lia).
  pose proof (X_bit k (N.of_nat (29 - J)) i0 n (S d)) as Hb. rewrite <- (top_bit j (X k n) J), <- (top_bit j (X k (n + S d)) J) in Hb by lia.
  rewrite <- E in Hb. rewrite (proj2 (Nat.ltb_lt n i0)), (proj2 (Nat.leb_le i0 (n + S d))) in Hb by lia. cbn [andb] in Hb.
  assert (Hx : forall x : bool, x <> xorb x true) by (intros []; discriminate). eapply Hx, Hb.
  intros i Hi. pose proof (Hmax i Hi) as Hle. pose proof (Hz i Hi) as Hzi.
  destruct (V_spec k (zeroIdx (N.of_nat i)) Hk ltac:(lia)) as (_ & Ht & Hf).
  destruct (Nat.eq_dec (zeroIdx (N.of_nat i)) J) as [EJ|NJ].
  - rewrite EJ in Ht. rewrite EJ, Ht. symmetry. apply Nat.eqb_eq.
    destruct (Nat.lt_trichotomy i i0) as [Hl|[->|Hl]]; [exfalso| reflexivity|exfalso].
    + destruct (ruler (N.of_nat i) (N.of_nat i0) J) as (c & Hc & Hgt); try assumption; try lia; try reflexivity.
      specialize (Hmax (N.to_nat c) ltac:(lia)). rewrite N2Nat.id in Hmax. lia.
    + destruct (ruler (N.of_nat i0) (N.of_nat i) J) as (c & Hc & Hgt); try assumption; try lia; try reflexivity.
      specialize (Hmax (N.to_nat c) ltac:(lia)). rewrite N2Nat.id in Hmax. lia.
  - rewrite Hf by lia. symmetry. apply Nat.eqb_neq. intros ->. now apply NJ.
Qed.

(** Within an aligned block of 2^j calls the index of the lowest zero bit is below j. *)
Lemma block_index j c i : (j <= 30)%nat -> (c * 2 ^ j < i + 1 < (c + 1) * 2 ^ j)%nat -> (zeroIdx (N.of_nat i) < j)%nat.
Proof.
  intros Hj Hi. destruct (Nat.lt_ge_cases (zeroIdx (N.of_nat i)) j) as [|Hg]; [assumption|]. exfalso.
  destruct (proj1 (zeroIdx_ge _ j Hj) Hg) as (q & Hq). assert (E : (i + 1 = N.to_nat q * 2 ^ j)%nat).
  { apply Nat2N.inj. rewrite Nat2N.inj_mul, N2Nat.id, Nat2N.inj_pow. change (N.of_nat 2) with 2%N. lia. }
  rewrite E in Hi. destruct Hi as [H1 H2]. apply Nat.mul_lt_mono_pos_r in H1; [|apply Nat.neq_0_lt_0, Nat.pow_nonzero; lia]. apply Nat.mul_lt_mono_pos_r in H2; [|apply Nat.neq_0_lt_0, Nat.pow_nonzero; lia]. lia.
Qed.

Lemma top_cell j x : (j <= 30)%nat -> (x < 2 ^ 30)%N -> (N.to_nat (top j x) < 2 ^ j)%nat /\ forall i, in_cell j i (fac_ x) <-> i = N.to_nat (top j x).
Proof.
  intros Hj Hx. unfold top. rewrite N.shiftr_div_pow2. set (e := (30 - j)%nat). assert (P2 : (2 ^ 30 = 2 ^ N.of_nat j * 2 ^ N.of_nat e)%N).
  { rewrite <- N.pow_add_r. f_equal. unfold e. lia. }
  set (E := (2 ^ N.of_nat e)%N) in *. assert (PE : (0 < E)%N) by (apply N.neq_0_lt_0, N.pow_nonzero; lia). assert (HJ : (2 ^ N.of_nat j = N.of_nat (2 ^ j))%N) by (rewrite Nat2N.inj_pow; reflexivity).
  pose proof (N.div_mod' x E) as Dm. pose proof (N.mod_lt x E ltac:(lia)) as Hm. set (q := (x / E)%N) in *. set (r := (x mod E)%N) in *. clearbody q r.
  assert (Hq : (q < N.of_nat (2 ^ j))%N) by (rewrite <- HJ; nia). split; [lia|].
  assert (Ef : fac_ x = (INR (N.to_nat q) + IZR (Z.of_N r) / IZR (Z.of_N E)) / 2 ^ j).
  { unfold fac_, maxSeqNum. rewrite P2, N2Z.inj_mul, mult_IZR, HJ. rewrite nat_N_Z, <- INR_IZR_INZ, pow_INR. change (INR 2) with 2. subst x. rewrite N2Z.inj_add, N2Z.inj_mul, plus_IZR, mult_IZR.
    rewrite INR_IZR_INZ, N_nat_Z. assert (IZR (Z.of_N E) <> 0) by (apply not_0_IZR; lia). assert (2 ^ j <> 0) by (apply pow_nonzero; lra). field. auto. }
  assert (PEr : 0 < IZR (Z.of_N E)) by (apply IZR_lt; lia). assert (Hr : 0 <= IZR (Z.of_N r) / IZR (Z.of_N E) < 1).
  { split; [apply Rmult_le_pos; [apply IZR_le; lia|left; now apply Rinv_0_lt_compat]|]. apply (Rmult_lt_reg_r (IZR (Z.of_N E))); [exact PEr|]. unfold Rdiv. rewrite Rmult_assoc, Rinv_l, Rmult_1_r, Rmult_1_l by lra. apply IZR_lt. lia. }
  set (f := IZR (Z.of_N r) / IZR (Z.of_N E)) in *. clearbody f. assert (P2j : 0 < 2 ^ j) by (apply pow_lt; lra). assert (PI2j : 0 < / 2 ^ j) by now apply Rinv_0_lt_compat.
  intros i. unfold in_cell. rewrite Ef. unfold Rdiv. split.
  - intros [H1 H2]. apply Rmult_le_reg_r in H1; [|exact PI2j]. apply Rmult_lt_reg_r in H2; [|exact PI2j]. apply Nat.le_antisymm; apply Nat.lt_succ_r, INR_lt; rewrite S_INR; lra.
  - intros ->. split; [apply Rmult_le_compat_r; lra|apply Rmult_lt_compat_r; lra].
Qed.

(** [a] and [b] values of the integer sequence in the same aligned block differ in their top bits. *)
Lemma block_distinct k j c a b : (k < 6)%nat -> (j <= 30)%nat -> (a < b)%nat -> (c * 2 ^ j <= a + 1)%nat -> (b + 1 < (c + 1) * 2 ^ j)%nat -> top j (X k a) <> top j (X k b).
Proof. intros Hk Hj Hab Ha Hb. apply top_distinct; [exact Hk|exact Hj|exact Hab|]. intros i Hi. apply (block_index j c); [exact Hj|lia]. Qed.

Lemma points_run dim n s0 : (dim <= 6)%nat -> sb_new = Some s0 -> (N.of_nat n + 2 <= 2 ^ 30)%N ->
  exists ps s, points dim n s0 = Some (ps, s) /\ length ps = n /\ forall t k, (t < n)%nat -> (k < dim)%nat -> coordinate ps t k = fac_ (X k (S t)) /\ (X k (S t) < 2 ^ 30)%N.
Proof.
  intros Hd E0 Hn. destruct sb_new_at as (s0' & E0' & Hin & H0). rewrite E0 in E0'. injection E0' as <-. change (2 ^ 30)%N with 1073741824%N in Hn.
  destruct (points_ok dim Hd n 0 s0 (H0 dim Hd)) as (ps & s & Ep & _ & L & H). { change (2 ^ 30)%N with 1073741824%N. lia. }
  exists ps, s. split; [exact Ep|]. split; [exact L|]. intros t k Ht Hk. destruct (H t Ht) as [_ Hc]. split; [apply Hc; exact Hk|]. apply X_range; [lia|]. intros i Hi. apply zeroIdx_small. change (2 ^ 30)%N with 1073741824%N. lia.
Qed.

(** ** C211 *)

(** Number the calls 1, 2, 3, ... For every level j and every c, the 2^j calls from number c 2^j - 1 on put exactly one point into each of the 2^j equal cells of
    every coordinate. *)
Theorem C211_blocks : forall dim n s0, (dim <= 6)%nat -> sb_new = Some s0 -> (N.of_nat n + 2 <= 2 ^ 30)%N ->
  exists ps s, points dim n s0 = Some (ps, s) /\ length ps = n /\
    forall k j c, (k < dim)%nat -> (2 <= c * 2 ^ j)%nat -> ((c + 1) * 2 ^ j <= n + 2)%nat ->
      forall i, (i < 2 ^ j)%nat -> exists! t, (t < 2 ^ j)%nat /\ in_cell j i (coordinate ps (c * 2 ^ j - 2 + t) k).
Proof.
  intros dim n s0 Hd E0 Hn. destruct (points_run dim n s0 Hd E0 Hn) as (ps & s & Ep & L & H). exists ps, s. split; [exact Ep|]. split; [exact L|].
  intros k j c Hk Hc2 Hcn i Hi. set (P := (2 ^ j)%nat) in *. assert (HP : (0 < P)%nat) by lia.
  assert (Hj : (j <= 30)%nat). { destruct (Nat.le_gt_cases j 30) as [|Hg]; [assumption|]. exfalso. assert (2 * P <= n + 2)%nat by (destruct c; nia).
    assert (E : (N.of_nat P = 2 ^ N.of_nat j)%N) by (unfold P; rewrite Nat2N.inj_pow; reflexivity). assert (2 ^ 30 < 2 ^ N.of_nat j)%N by (apply N.pow_lt_mono_r; lia). lia. }
  set (cell := fun t => N.to_nat (top j (X k (c * P - 1 + t)))).
  assert (Hcell : forall t, (t < P)%nat -> (cell t < P)%nat /\ forall i', in_cell j i' (coordinate ps (c * P - 2 + t) k) <-> i' = cell t).
  { intros t Ht. assert (Ht' : (c * P - 2 + t < n)%nat) by lia. destruct (H _ k Ht' Hk) as [-> Hx]. unfold cell. replace (c * P - 1 + t)%nat with (S (c * P - 2 + t)) by lia. apply top_cell; [exact Hj|exact Hx]. }
  assert (Inj : forall t t', (t < P)%nat -> (t' < P)%nat -> cell t = cell t' -> t = t').
  { assert (Lt : forall t t', (t < t')%nat -> (t' < P)%nat -> cell t <> cell t').
    { intros t t' Htt Ht' E. unfold cell in E. apply N2Nat.inj in E. revert E. apply (block_distinct k j c); [lia|exact Hj|lia|fold P; lia|fold P; lia]. }
    intros t t' Ht Ht' E. destruct (Nat.lt_trichotomy t t') as [Hl|[Hl|Hl]]; [exfalso; now apply (Lt t t')|exact Hl|exfalso; now apply (Lt t' t)]. }
  assert (ND : NoDup (map cell (seq 0 P))).
  { apply (NoDup_nth _ (cell 0%nat)). rewrite map_length, seq_length. intros a b Ha Hb E. rewrite !map_nth in E. rewrite !seq_nth in E by assumption. apply Inj; assumption. }
  assert (Hincl : incl (map cell (seq 0 P)) (seq 0 P)). { intros x Hx. apply in_map_iff in Hx. destruct Hx as (t & <- & Ht). apply in_seq in Ht. apply in_seq. split; [lia|]. apply Hcell. lia. }
  assert (Hall : incl (seq 0 P) (map cell (seq 0 P))) by (apply NoDup_length_incl; [exact ND|rewrite map_length; lia|exact Hincl]).
  assert (Hii : In i (seq 0 P)) by (apply in_seq; lia). apply Hall in Hii. apply in_map_iff in Hii. destruct Hii as (t & Et & Ht). apply in_seq in Ht.
  exists t. split.
  - split; [lia|]. apply Hcell; [lia|]. now symmetry.
  - intros t' [Ht' Hi']. apply Hcell in Hi'; [|exact Ht']. apply Inj; [lia|exact Ht'|]. congruence.
Qed.
Print Assumptions C211_blocks.

(** The first 2^j - 2 points (the block that the sequence starts in lacks two points) lie in different cells of every coordinate. *)
Theorem C211_first_block : forall dim n s0, (dim <= 6)%nat -> sb_new = Some s0 -> (N.of_nat n + 2 <= 2 ^ 30)%N ->
  exists ps s, points dim n s0 = Some (ps, s) /\ length ps = n /\
    forall k j t t' i, (k < dim)%nat -> (t < t' < n)%nat -> (t' + 2 < 2 ^ j)%nat -> in_cell j i (coordinate ps t k) -> ~ in_cell j i (coordinate ps t' k).
Proof.
  intros dim n s0 Hd E0 Hn. destruct (points_run dim n s0 Hd E0 Hn) as (ps & s & Ep & L & H). exists ps, s. split; [exact Ep|]. split; [exact L|].
  intros k j t t' i Hk Ht Htj. destruct (H t k ltac:(lia) Hk) as [-> Hx]. destruct (H t' k ltac:(lia) Hk) as [-> Hx'].
  destruct (Nat.le_gt_cases j 30) as [Hj|Hg].
  - destruct (top_cell j _ Hj Hx) as [_ C1]. destruct (top_cell j _ Hj Hx') as [_ C2]. rewrite C1, C2. intros -> E. apply N2Nat.inj in E. revert E. apply (block_distinct k j 0%nat); [lia|exact Hj|lia|lia|lia].
  - (* cells finer than the grid of the sequence: the values are distinct multiples of 2^-30 *)
    intros C1 C2. assert (D : X k (S t) <> X k (S t')). { apply X_distinct; [lia|lia|]. intros a Ha. apply zeroIdx_small. change (2 ^ 30)%N with 1073741824%N in *. lia. }
    unfold in_cell in C1, C2. assert (P : 0 < / 2 ^ j) by (apply Rinv_0_lt_compat, pow_lt; lra).
    assert (PJ : / 2 ^ j < / 2 ^ 30). { apply Rinv_lt_contravar; [apply Rmult_lt_0_compat; apply pow_lt; lra|]. apply Rlt_pow; [lra|lia]. }
    assert (G : forall a b, (a < b)%N -> fac_ a + / 2 ^ 30 <= fac_ b).
    { intros a b Hab. unfold fac_, maxSeqNum. change (IZR (Z.of_N (2 ^ 30))) with 1073741824. assert (IZR (Z.of_N a) + 1 <= IZR (Z.of_N b)) by (rewrite <- plus_IZR; apply IZR_le; lia). lra. }
    unfold Rdiv in C1, C2. rewrite Rmult_plus_distr_r, Rmult_1_l in C1. rewrite Rmult_plus_distr_r, Rmult_1_l in C2.
    destruct (N.lt_trichotomy (X k (S t)) (X k (S t'))) as [Hl|[Hl|Hl]]; [apply G in Hl; lra|contradiction|apply G in Hl; lra].
Qed.
Print Assumptions C211_first_block.

Example C211_nonvacuous : exists s0, sb_new = Some s0 /\ (2 <= 2 * 2 ^ 4)%nat /\ ((2 + 1) * 2 ^ 4 <= 100 + 2)%nat /\ (N.of_nat 100 + 2 <= 2 ^ 30)%N /\
  exists ps s, points 3 100 s0 = Some (ps, s) /\ exists! t, (t < 16)%nat /\ in_cell 4 5 (coordinate ps (30 + t) 2).
Proof.
  destruct sb_new_at as (s0 & E0 & _). exists s0. split; [exact E0|]. split; [cbn; lia|]. split; [cbn; lia|]. split; [cbn; lia|].
  destruct (C211_blocks 3 100 s0 ltac:(lia) E0 ltac:(cbn; lia)) as (ps & s & Ep & _ & H). exists ps, s. split; [exact Ep|].
  exact (H 2%nat 4%nat 2%nat ltac:(lia) ltac:(cbn; lia) ltac:(cbn; lia) 5%nat ltac:(cbn; lia)).
Qed.
