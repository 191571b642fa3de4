(** * C21: Sobol sequences. *)
From Coq Require Import NArith Lra.
From Verif Require Import GoBase GoBaseFacts RealBase LoopBase LoopFacts RandModel RandSpec RandProofs InterpProofs.
Local Open Scope N_scope.

(** ** The direction numbers *)
Definition dirs : list N := Eval vm_compute in match sb_tables with Some iv => iv | None => [] end.
Lemma sb_tables_dirs : sb_tables = Some dirs.
Proof. vm_compute. reflexivity. Qed.

Definition V (k j : nat) : N := nth (maxDim * j + k) dirs 0.

(** The lowest set bit of direction number j is bit 29 - j, in every dimension (a finite table, checked by computation). *)
Definition dirs_check : bool :=
  forallb (fun k => forallb (fun j =>
    (V k j <? 2 ^ 30) && N.testbit (V k j) (N.of_nat (29 - j)) &&
    forallb (fun J => negb (N.testbit (V k j) (N.of_nat (29 - J)))) (seq (S j) (29 - j)))
    (seq 0 30)) (seq 0 6).
Lemma dirs_checked : dirs_check = true.
Proof. vm_compute. reflexivity. Qed.

Lemma V_spec k j : (k < 6)%nat -> (j < 30)%nat ->
  V k j < 2 ^ 30 /\ N.testbit (V k j) (N.of_nat (29 - j)) = true /\ forall J, (j < J < 30)%nat -> N.testbit (V k j) (N.of_nat (29 - J)) = false.
Proof.
  intros Hk Hj. pose proof dirs_checked as H. unfold dirs_check in H. rewrite forallb_forall in H.
  specialize (H k). rewrite in_seq in H. specialize (H ltac:(lia)). rewrite forallb_forall in H.
  specialize (H j). rewrite in_seq in H. specialize (H ltac:(lia)).
  apply andb_true_iff in H. destruct H as [H H3]. apply andb_true_iff in H. destruct H as [H1 H2].
  split; [now apply N.ltb_lt|]. split; [assumption|]. intros J HJ. rewrite forallb_forall in H3. specialize (H3 J). rewrite in_seq in H3.
  specialize (H3 ltac:(lia)). now apply negb_true_iff in H3.
Qed.

Lemma dirs_length : List.length dirs = 180%nat.
Proof. reflexivity. Qed.

(** ** Lowest zero bit *)
Lemma land_bit n z : (N.land n (N.shiftl 1 z) =? 0) = negb (N.testbit n z).
Proof.
  assert (E : N.land n (N.shiftl 1 z) = if N.testbit n z then 2 ^ z else 0).
  { apply N.bits_inj. intros m. rewrite N.land_spec, N.shiftl_1_l, N.pow2_bits_eqb.
    destruct (N.eqb_spec z m) as [->|Hne].
    - destruct (N.testbit n m); [now rewrite N.pow2_bits_true|now rewrite N.bits_0].
    - rewrite andb_false_r. destruct (N.testbit n z); [now rewrite N.pow2_bits_false|now rewrite N.bits_0]. }
  rewrite E. destruct (N.testbit n z); [|reflexivity]. cbn [negb]. apply N.eqb_neq. now apply N.pow_nonzero.
Qed.

Lemma sb_zero_spec fuel : forall z n, exists r, sb_zero fuel z n = r /\ (z <= r <= z + fuel)%nat /\
  (forall i, (z <= i < r)%nat -> N.testbit n (N.of_nat i) = true) /\ ((r < z + fuel)%nat -> N.testbit n (N.of_nat r) = false).
Proof.
  induction fuel as [|fuel IH]; intros z n; cbn [sb_zero].
  - exists z. repeat split; intros; lia.
  - rewrite land_bit. destruct (N.testbit n (N.of_nat z)) eqn:E; cbn [negb].
    + destruct (IH (z + 1)%nat n) as (r & Er & Hr & H1 & H2). exists r. split; [exact Er|]. split; [lia|]. split.
      * intros i Hi. destruct (Nat.eq_dec i z) as [->|]; [assumption|]. apply H1. lia.
      * intros. apply H2. lia.
    + exists z. split; [reflexivity|]. split; [lia|]. split; [intros; lia|auto].
Qed.

Lemma zeroIdx_spec n : (zeroIdx n <= 30)%nat /\ (forall i, (i < zeroIdx n)%nat -> N.testbit n (N.of_nat i) = true) /\
  ((zeroIdx n < 30)%nat -> N.testbit n (N.of_nat (zeroIdx n)) = false).
Proof.
  unfold zeroIdx. destruct (sb_zero_spec maxBit 0 n) as (r & -> & Hr & H1 & H2). unfold maxBit in *.
  split; [lia|]. split; [intros; apply H1; lia|intros; apply H2; lia].
Qed.

(** Low bits all set <-> successor divisible. *)
Lemma low_ones n J : (forall i, i < J -> N.testbit n i = true) <-> exists q, n + 1 = q * 2 ^ J.
Proof.
  assert (Hp : 2 ^ J <> 0) by now apply N.pow_nonzero.
  split.
  - intros H. assert (E : n mod 2 ^ J = N.ones J).
    { apply N.bits_inj. intros m. destruct (N.lt_ge_cases m J).
      - rewrite N.mod_pow2_bits_low, N.ones_spec_low, H by assumption. reflexivity.
      - rewrite N.mod_pow2_bits_high, N.ones_spec_high by assumption. reflexivity. }
    rewrite N.ones_equiv in E. exists (n / 2 ^ J + 1). pose proof (N.div_mod n (2 ^ J) Hp) as D. rewrite E in D. lia.
  - intros (q & Hq) i Hi.
    assert (E : n mod 2 ^ J = N.ones J).
    { rewrite N.ones_equiv. assert (q <> 0) by (intros ->; lia).
      symmetry. apply (N.mod_unique n (2 ^ J) (q - 1)); [lia|].
      rewrite N.mul_sub_distr_l, N.mul_1_r. assert (2 ^ J <= 2 ^ J * q) by (rewrite <- (N.mul_1_r (2 ^ J)) at 1; apply N.mul_le_mono_l; lia). lia. }
    rewrite <- (N.mod_pow2_bits_low n J i Hi), E. now apply N.ones_spec_low.
Qed.

Lemma zeroIdx_ge n J : (J <= 30)%nat -> ((J <= zeroIdx n)%nat <-> exists q, n + 1 = q * 2 ^ N.of_nat J).
Proof.
  intros HJ. rewrite <- low_ones. destruct (zeroIdx_spec n) as (H0 & H1 & H2). split.
  - intros H i Hi. rewrite <- (N2Nat.id i). apply H1. lia.
  - intros H. destruct (Nat.le_gt_cases J (zeroIdx n)) as [|Hl]; [assumption|]. exfalso.
    rewrite H in H2 by lia. discriminate H2. lia.
Qed.

(** Between two numbers with the same index J there is one with a larger index. *)
Lemma ruler a b J : a < b -> zeroIdx a = J -> zeroIdx b = J -> (J < 30)%nat -> exists c, a < c < b /\ (J < zeroIdx c)%nat.
Proof.
  intros Hab Ha Hb HJ.
  destruct (proj1 (zeroIdx_ge a J ltac:(lia)) ltac:(lia)) as (qa & Ea). destruct (proj1 (zeroIdx_ge b J ltac:(lia)) ltac:(lia)) as (qb & Eb).
  set (P := 2 ^ N.of_nat J) in *. assert (HP : P <> 0) by (now apply N.pow_nonzero).
  assert (HP2 : 2 ^ N.of_nat (S J) = 2 * P) by (rewrite Nat2N.inj_succ; apply N.pow_succ_r').
  assert (Hoa : N.even qa = false).
  { destruct (N.even qa) eqn:E; [exfalso|reflexivity]. apply N.even_spec in E. destruct E as (h & ->).
    assert (S J <= zeroIdx a)%nat; [|lia]. apply zeroIdx_ge; [lia|]. exists h. rewrite HP2. lia. }
  assert (Hob : N.even qb = false).
  { destruct (N.even qb) eqn:E; [exfalso|reflexivity]. apply N.even_spec in E. destruct E as (h & ->).
    assert (S J <= zeroIdx b)%nat; [|lia]. apply zeroIdx_ge; [lia|]. exists h. rewrite HP2. lia. }
  assert (Hq : qa < qb).
  { apply (N.mul_lt_mono_pos_r P); lia. }
  rewrite <- N.negb_odd in Hoa, Hob. apply negb_false_iff in Hoa, Hob. apply N.odd_spec in Hoa, Hob.
  destruct Hoa as (ha & ->). destruct Hob as (hb & ->).
  exists ((ha + 1) * (2 * P) - 1).
  assert (H1 : (2 * ha + 2) * P <= (2 * hb + 1) * P) by (apply N.mul_le_mono_r; lia).
  split; [nia|].
  assert (S J <= zeroIdx ((ha + 1) * (2 * P) - 1))%nat; [|lia]. apply zeroIdx_ge; [lia|]. exists (ha + 1). rewrite HP2. nia.
Qed.

(** ** The integer sequence of one coordinate *)
Fixpoint X (k n : nat) : N := match n with O => 0 | S m => N.lxor (X k m) (V k (zeroIdx (N.of_nat n))) end.

Lemma zeroIdx_max (a d : nat) : exists i, (a < i <= a + S d)%nat /\ forall j, (a < j <= a + S d)%nat -> (zeroIdx (N.of_nat j) <= zeroIdx (N.of_nat i))%nat.
Proof.
  induction d as [|d (i & Hi & H)].
  - exists (a + 1)%nat. split; [lia|]. intros j Hj. replace j with (a + 1)%nat by lia. lia.
  - destruct (Nat.le_gt_cases (zeroIdx (N.of_nat (a + S (S d)))) (zeroIdx (N.of_nat i))) as [Hl|Hl].
    + exists i. split; [lia|]. intros j Hj. destruct (Nat.eq_dec j (a + S (S d))) as [->|]; [assumption|]. apply H. lia.
    + exists (a + S (S d))%nat. split; [lia|]. intros j Hj. destruct (Nat.eq_dec j (a + S (S d))) as [->|]; [lia|].
      specialize (H j ltac:(lia)). lia.
Qed.

Lemma X_bit k b i0 a : forall d, (forall i, (a < i <= a + d)%nat -> N.testbit (V k (zeroIdx (N.of_nat i))) b = (i =? i0)%nat) ->
  N.testbit (X k (a + d)) b = xorb (N.testbit (X k a) b) ((a <? i0)%nat && (i0 <=? a + d)%nat).
Proof.
  induction d as [|d IH]; intros H.
  - rewrite Nat.add_0_r. destruct (Nat.ltb_spec a i0), (Nat.leb_spec i0 a); try lia; cbn [andb]; now rewrite xorb_false_r.
  - rewrite Nat.add_succ_r. cbn [X]. rewrite N.lxor_spec, IH by (intros; apply H; lia). rewrite H by lia.
    rewrite xorb_assoc. f_equal.
    destruct (Nat.ltb_spec a i0), (Nat.leb_spec i0 (a + d)), (Nat.leb_spec i0 (S (a + d))), (Nat.eqb_spec (S (a + d)) i0); try lia; reflexivity.
Qed.

Lemma X_distinct k n m : (k < 6)%nat -> (n < m)%nat -> (forall i, (n < i <= m)%nat -> (zeroIdx (N.of_nat i) < 30)%nat) -> X k n <> X k m.
Proof.
  intros Hk Hnm Hz E. replace m with (n + S (m - n - 1))%nat in * by lia. set (d := (m - n - 1)%nat) in *.
  destruct (zeroIdx_max n d) as (i0 & Hi0 & Hmax). set (J := zeroIdx (N.of_nat i0)) in *.
  assert (HJ : (J < 30)%nat) by (apply Hz; lia).
  pose proof (X_bit k (N.of_nat (29 - J)) i0 n (S d)) as Hb.
  rewrite <- E in Hb. rewrite (proj2 (Nat.ltb_lt n i0)), (proj2 (Nat.leb_le i0 (n + S d))) in Hb by lia. cbn [andb] in Hb.
  assert (Hx : forall x : bool, x <> xorb x true) by (intros []; discriminate). eapply Hx, Hb.
  intros i Hi. pose proof (Hmax i Hi) as Hle. pose proof (Hz i Hi) as Hzi.
  destruct (V_spec k (zeroIdx (N.of_nat i)) Hk Hzi) as (_ & Ht & Hf).
  destruct (Nat.eq_dec (zeroIdx (N.of_nat i)) J) as [EJ|NJ].
  - rewrite EJ in Ht. rewrite EJ, Ht. symmetry. apply Nat.eqb_eq.
    destruct (Nat.lt_trichotomy i i0) as [Hl|[->|Hl]]; [exfalso| reflexivity|exfalso].
    + destruct (ruler (N.of_nat i) (N.of_nat i0) J) as (c & Hc & Hgt); try assumption; try lia; try reflexivity.
      specialize (Hmax (N.to_nat c) ltac:(lia)). rewrite N2Nat.id in Hmax. lia.
    + destruct (ruler (N.of_nat i0) (N.of_nat i) J) as (c & Hc & Hgt); try assumption; try lia; try reflexivity.
      specialize (Hmax (N.to_nat c) ltac:(lia)). rewrite N2Nat.id in Hmax. lia.
  - rewrite Hf by lia. symmetry. apply Nat.eqb_neq. intros ->. now apply NJ.
Qed.

Lemma X_range k n : (k < 6)%nat -> (forall i, (0 < i <= n)%nat -> (zeroIdx (N.of_nat i) < 30)%nat) -> X k n < 2 ^ 30.
Proof.
  intros Hk. induction n as [|n IH]; intros H; [reflexivity|]. cbn [X]. apply lxor_lt; [apply IH; intros; apply H; lia|].
  apply V_spec; [assumption|apply H; lia].
Qed.

(** The index stays inside the table until call number 2^30 - 1. *)
Lemma zeroIdx_small n : n + 1 < 2 ^ 30 -> (zeroIdx n < 30)%nat.
Proof.
  intros H. destruct (Nat.lt_ge_cases (zeroIdx n) 30) as [|Hg]; [assumption|]. exfalso.
  destruct (proj1 (zeroIdx_ge n 30 ltac:(lia)) Hg) as (q & Hq). change (2 ^ N.of_nat 30) with (2 ^ 30) in Hq.
  destruct (N.eq_dec q 0) as [->|]; [lia|]. assert (1 * 2 ^ 30 <= q * 2 ^ 30) by (apply N.mul_le_mono_r; lia). lia.
Qed.

(** ** One call *)
Definition fac_ (x : N) : R := (IZR (Z.of_N x) * (1 / IZR (Z.of_N maxSeqNum)))%R.

Lemma sb_next_ok dim s : (dim <= 6)%nat -> List.length (sb_ix s) = 6%nat -> List.length (sb_iv s) = 180%nat ->
  sb_seqNum s < maxSeqNum -> (zeroIdx (sb_seqNum s + 1) < 30)%nat ->
  exists target ix, sb_next dim s = Some (target, {| sb_seqNum := sb_seqNum s + 1; sb_ix := ix; sb_iv := sb_iv s; sb_isInit := sb_isInit s |}) /\
    List.length target = dim /\ List.length ix = 6%nat /\
    (forall k, (k < 6)%nat -> nth k ix 0 = if (k <? dim)%nat then N.lxor (nth k (sb_ix s) 0) (nth (maxDim * zeroIdx (sb_seqNum s + 1) + k) (sb_iv s) 0) else nth k (sb_ix s) 0) /\
    (forall k, (k < dim)%nat -> nth k target 0%R = fac_ (nth k ix 0)).
Proof.
  intros Hd L1 L2 Hn Hz. unfold sb_next.
  rewrite (proj2 (Nat.ltb_ge maxDim dim)) by (unfold maxDim; lia).
  rewrite (proj2 (N.leb_gt maxSeqNum (sb_seqNum s))) by lia.
  assert (Eu : u32 (sb_seqNum s + 1) = sb_seqNum s + 1) by (apply N.mod_small; unfold maxSeqNum in Hn; change (2 ^ 30) with 1073741824 in Hn; change (2 ^ 32) with 4294967296; lia).
  rewrite Eu. set (z := zeroIdx (sb_seqNum s + 1)) in *.
  match goal with |- context [loop dim ?B ?I] => destruct (loop_inv (fun k st => List.length (fst st) = dim /\ List.length (snd st) = 6%nat /\
    (forall i, (i < 6)%nat -> nth i (snd st) 0 = if (i <? k)%nat then N.lxor (nth i (sb_ix s) 0) (nth (maxDim * z + i) (sb_iv s) 0) else nth i (sb_ix s) 0) /\
    (forall i, (i < k)%nat -> nth i (fst st) 0%R = fac_ (nth i (snd st) 0))) dim B I) as ([t ix] & E & Lt & Li & H1 & H2) end.
  - cbn [fst snd]. split; [apply repeat_length|]. split; [assumption|]. split; intros i Hi; [|lia]. destruct (Nat.ltb_spec i 0); [lia|reflexivity].
  - intros k [t ix] Hk (Lt & Li & H1 & H2). cbn [fst snd] in *.
    rewrite (rd_nth ix k 0) by lia. rewrite (rd_nth (sb_iv s) (z * maxDim + k) 0) by (unfold maxDim; lia).
    set (x := N.lxor (nth k ix 0) (nth (z * maxDim + k) (sb_iv s) 0)).
    destruct (wr_some ix k x 0 ltac:(lia)) as (ix' & E1 & L1' & Hw1). rewrite E1.
    fold (fac_ x). destruct (wr_some t k (fac_ x) 0%R ltac:(lia)) as (t' & E2 & L2' & Hw2). rewrite E2.
    eexists. split; [reflexivity|]. cbn [fst snd]. split; [lia|]. split; [lia|]. split.
    + intros i Hi. rewrite Hw1. destruct (Nat.eqb_spec i k) as [->|Hne].
      * rewrite (proj2 (Nat.ltb_lt k (S k))) by lia. unfold x. rewrite H1, Nat.ltb_irrefl by assumption. do 2 f_equal. lia.
      * rewrite H1 by assumption. destruct (Nat.ltb_spec i k), (Nat.ltb_spec i (S k)); try lia; reflexivity.
    + intros i Hi. rewrite Hw1, Hw2. destruct (Nat.eqb_spec i k); [reflexivity|]. apply H2. lia.
  - rewrite E. exists t, ix. split; [reflexivity|]. cbn [fst snd] in *. auto.
Qed.

(** The state after n calls of one dimension. *)
Definition sb_at (dim n : nat) (s : sobol) : Prop :=
  sb_seqNum s = N.of_nat n /\ sb_iv s = dirs /\ List.length (sb_ix s) = 6%nat /\ forall k, (k < dim)%nat -> nth k (sb_ix s) 0 = X k n.

Lemma sb_new_at : exists s, sb_new = Some s /\ sb_isInit s = true /\ forall dim, (dim <= 6)%nat -> sb_at dim 0 s.
Proof.
  unfold sb_new, sb_init. cbn [sb_isInit]. rewrite sb_tables_dirs. eexists. split; [reflexivity|]. split; [reflexivity|]. intros dim Hd.
  repeat split. intros k Hk. cbn [sb_ix X]. do 6 (destruct k as [|k]; [reflexivity|]). lia.
Qed.

Lemma fac_range x : x < 2 ^ 30 -> unit_interval (fac_ x).
Proof.
  intros H. unfold fac_, unit_interval, maxSeqNum. change (2 ^ 30) with 1073741824 in *.
  change (IZR (Z.of_N 1073741824)) with 1073741824%R.
  assert (0 <= IZR (Z.of_N x))%R by (apply (IZR_le 0); lia).
  assert (IZR (Z.of_N x) < 1073741824)%R by (apply IZR_lt; lia). lra.
Qed.

Lemma fac_inj x y : fac_ x = fac_ y -> x = y.
Proof.
  intros H. unfold fac_, maxSeqNum in H. change (IZR (Z.of_N (2 ^ 30))) with 1073741824%R in H.
  assert (IZR (Z.of_N x) = IZR (Z.of_N y)) by lra. apply eq_IZR in H0. lia.
Qed.

Lemma points_ok dim : (dim <= 6)%nat -> forall r n s, sb_at dim n s -> N.of_nat (n + r) + 1 < 2 ^ 30 ->
  exists ps s', points dim r s = Some (ps, s') /\ sb_at dim (n + r) s' /\ List.length ps = r /\
    forall i, (i < r)%nat -> List.length (nth i ps []) = dim /\ forall k, (k < dim)%nat -> nth k (nth i ps []) 0%R = fac_ (X k (n + S i)).
Proof.
  intros Hd r. induction r as [|r IH]; intros n s Hs Hr.
  - exists [], s. rewrite Nat.add_0_r. repeat split; try apply Hs; lia.
  - destruct Hs as (Hn & Hiv & Lix & Hix).
    assert (Hz : (zeroIdx (sb_seqNum s + 1) < 30)%nat) by (apply zeroIdx_small; rewrite Hn; lia).
    destruct (sb_next_ok dim s) as (t & ix & E & Lt & Li & H1 & H2); try assumption.
    { rewrite Hiv. reflexivity. }
    { rewrite Hn. unfold maxSeqNum. lia. }
    cbn [points]. rewrite E.
    assert (Hix' : forall k, (k < dim)%nat -> nth k ix 0 = X k (S n)).
    { intros k Hk. rewrite H1 by lia. rewrite (proj2 (Nat.ltb_lt k dim) Hk). cbn [X]. rewrite Hix by assumption. rewrite Hiv, Hn.
      replace (N.of_nat n + 1) with (N.of_nat (S n)) by lia. reflexivity. }
    match goal with |- context [points dim r ?T] => destruct (IH (S n) T) as (ps & s' & Ep & Hs' & Lp & Hp) end.
    { repeat split; cbn [sb_seqNum sb_iv sb_ix]; try assumption. rewrite Hn. lia. }
    { replace (S n + r)%nat with (n + S r)%nat by lia. assumption. }
    rewrite Ep. exists (t :: ps), s'. split; [reflexivity|]. replace (n + S r)%nat with (S n + r)%nat by lia.
    split; [assumption|]. split; [cbn; lia|]. intros [|i] Hi; cbn [nth].
    + split; [assumption|]. intros k Hk. rewrite H2, Hix' by assumption. now replace (n + 1)%nat with (S n) by lia.
    + replace (n + S (S i))%nat with (S n + S i)%nat by lia. apply Hp. lia.
Qed.

(** The call after 2^30 - 2 calls panics (index out of range of the direction table). *)
Lemma exhausted dim n s : (1 <= dim <= 6)%nat -> sb_at dim n s -> N.of_nat n + 2 = 2 ^ 30 -> sb_next dim s = None.
Proof.
  intros Hd (Hn & Hiv & Lix & _) Hbig. unfold sb_next.
  rewrite (proj2 (Nat.ltb_ge maxDim dim)) by (unfold maxDim; lia).
  destruct (N.leb_spec maxSeqNum (sb_seqNum s)) as [Hle|Hlt]; [reflexivity|].
  assert (Eu : u32 (sb_seqNum s + 1) = N.of_nat n + 1) by (rewrite Hn; apply N.mod_small; change (2 ^ 30) with 1073741824 in *; change (2 ^ 32) with 4294967296; lia).
  rewrite Eu. assert (Hz : zeroIdx (N.of_nat n + 1) = 30%nat).
  { destruct (zeroIdx_spec (N.of_nat n + 1)) as (Hle & _). assert (30 <= zeroIdx (N.of_nat n + 1))%nat; [|lia].
    apply zeroIdx_ge; [lia|]. exists 1. change (2 ^ N.of_nat 30) with (2 ^ 30). lia. }
  rewrite Hz.
  match goal with |- context [loop dim ?B ?I] => assert (HN : loop dim B I = None); [|now rewrite HN] end.
  apply (loop_none dim 1); [lia|]. cbn [loop]. rewrite (rd_nth (sb_ix s) 0 0) by lia. rewrite Hiv. reflexivity.
Qed.

(** Any history of calls with any dimensions: coordinates stay in the unit cube. *)
Definition sb_safe (s : sobol) : Prop := sb_iv s = dirs /\ List.length (sb_ix s) = 6%nat /\ forall k, (k < 6)%nat -> nth k (sb_ix s) 0 < 2 ^ 30.

Lemma sb_next_safe dim s p s' : sb_safe s -> sb_next dim s = Some (p, s') -> sb_safe s' /\ List.length p = dim /\ Forall unit_interval p.
Proof.
  intros (Hiv & Lix & Hix) E.
  assert (Hd : (dim <= 6)%nat).
  { unfold sb_next in E. destruct (Nat.ltb_spec maxDim dim); [discriminate|]. unfold maxDim in *. lia. }
  assert (Hn : sb_seqNum s < maxSeqNum).
  { unfold sb_next in E. destruct (maxDim <? dim)%nat; [discriminate|]. destruct (N.leb_spec maxSeqNum (sb_seqNum s)); [discriminate|]. assumption. }
  destruct (Nat.eq_dec dim 0) as [->|Hd0].
  - unfold sb_next in E. cbn [Nat.ltb Nat.leb maxDim] in E. rewrite (proj2 (N.leb_gt maxSeqNum (sb_seqNum s)) Hn) in E.
    cbn [loop] in E. injection E as <- <-. split; [|split; [reflexivity|constructor]]. repeat split; assumption.
  - destruct (Nat.lt_ge_cases (zeroIdx (sb_seqNum s + 1)) 30) as [Hz|Hz].
    + destruct (sb_next_ok dim s Hd Lix) as (t & ix & E2 & Lt & Li & H1 & H2); try assumption.
      { rewrite Hiv. reflexivity. }
      rewrite E in E2. injection E2 as -> ->.
      assert (Hb : forall k, (k < 6)%nat -> nth k ix 0 < 2 ^ 30).
      { intros k Hk. rewrite H1 by assumption. destruct (k <? dim)%nat; [|now apply Hix]. apply lxor_lt; [now apply Hix|].
        rewrite Hiv. apply (V_spec k _ Hk Hz). }
      split; [repeat split; assumption|]. split; [assumption|]. apply Forall_forall. intros x Hx.
      apply (In_nth _ _ 0%R) in Hx. destruct Hx as (k & Hk & <-). rewrite H2 by lia. apply fac_range, Hb. lia.
    + exfalso. unfold sb_next in E. rewrite (proj2 (Nat.ltb_ge maxDim dim)) in E by (unfold maxDim; lia).
      rewrite (proj2 (N.leb_gt maxSeqNum (sb_seqNum s)) Hn) in E.
      assert (Eu : u32 (sb_seqNum s + 1) = sb_seqNum s + 1) by (apply N.mod_small; unfold maxSeqNum in Hn; change (2 ^ 30) with 1073741824 in Hn; change (2 ^ 32) with 4294967296; lia).
      rewrite Eu in E.
      match type of E with context [loop dim ?B ?I] => assert (HN : loop dim B I = None); [|rewrite HN in E; discriminate] end.
      apply (loop_none dim 1); [lia|]. cbn [loop]. rewrite (rd_nth (sb_ix s) 0 0) by lia.
      rewrite (rd_none (sb_iv s)); [reflexivity|]. rewrite Hiv, dirs_length. unfold maxDim. lia.
Qed.

Lemma sb_init_safe s s' : sb_safe s -> sb_isInit s = true -> sb_init s = Some s' -> sb_safe s'.
Proof.
  intros (Hiv & _) Hi E. unfold sb_init in E. rewrite Hi in E. injection E as <-. repeat split; try assumption.
  intros k Hk. cbn [sb_ix]. do 6 (destruct k as [|k]; [reflexivity|]). lia.
Qed.
