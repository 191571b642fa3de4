(** * The Savitzky-Golay kernels: which rows the factorisation interchanges, and the moments of the kernel. *)
From Coq Require Import Reals Lra Lia ZArith List Bool Psatz.
From Verif Require Import SmoothModel SmoothSpec LoopFacts MatModel MatSpec MatProofs MatProofs2 MatProofs3 MatProofs4 InterpProofs SmoothProofs DerivProofs SavgolProofs.
Import List ListNotations.
Local Open Scope R_scope.

(** ** Exact row scales and pivots *)
Definition row_big (n : nat) (V : nat -> nat -> R) (i : nat) (big : R) : Prop :=
  (forall j, (j < n)%nat -> Rabs (V i j) <= big) /\ (0 < big -> exists j, (j < n)%nat /\ Rabs (V i j) = big).

Lemma row_max_exact n l i : List.length l = (n * n)%nat -> (i < n)%nat ->
  exists big, loop n (fun j big => do a <- rd l (i * n + j)%nat; Some (if Rltb big (Rabs a) then Rabs a else big)) 0 = Some big /\ row_big n (mg n l) i big.
Proof.
  intros L Hi.
  match goal with |- context [loop n ?B ?S] => destruct (loop_inv (fun k big => (forall j, (j < k)%nat -> Rabs (mg n l i j) <= big) /\ (0 < big -> exists j, (j < k)%nat /\ Rabs (mg n l i j) = big)) n B S) as (big & E & H) end.
  - split; [intros; lia|lra].
  - intros k big Hk (H1 & H2). rewrite (rd_mg n l i k) by assumption. eexists. split; [reflexivity|]. cbv beta.
    destruct (Rltb big (Rabs (mg n l i k))) eqn:El.
    + apply Rltb_true in El. split; [|intros _; exists k; split; [lia|reflexivity]].
      intros j Hj. destruct (Nat.eq_dec j k) as [->|]; [lra|]. specialize (H1 j ltac:(lia)). lra.
    + apply Rltb_false in El. split.
      * intros j Hj. destruct (Nat.eq_dec j k) as [->|]; [lra|]. apply H1. lia.
      * intros Hb. destruct (H2 Hb) as (j & Hj & Ej). exists j. split; [lia|exact Ej].
  - exists big. auto.
Qed.

Lemma rowScales_exact n l vv : List.length l = (n * n)%nat -> rowScales n l = Some vv ->
  forall i, (i < n)%nat -> exists big, 0 < big /\ row_big n (mg n l) i big /\ nth i vv 0 = 1 / big.
Proof.
  intros L E.
  assert (Hg : forall k v0, (k <= n)%nat -> loop k (fun i vv =>
    do big <- loop n (fun j big => do a <- rd l (i * n + j)%nat; let tmp := Rabs a in Some (if Rltb big tmp then tmp else big)) 0;
    if Reqb big 0 then None else wr vv i (1 / big)) (zeros n) = Some v0 ->
    forall i, (i < k)%nat -> exists big, 0 < big /\ row_big n (mg n l) i big /\ nth i v0 0 = 1 / big).
  { induction k as [|k IH]; intros v0 Hk Ek i Hi; [lia|]. cbn [loop] in Ek.
    match type of Ek with match ?x with _ => _ end = _ => destruct x as [v1|] eqn:E1; [|discriminate] end.
    destruct (row_max_exact n l k L ltac:(lia)) as (big & Eb & Hb). cbv zeta in Ek. rewrite Eb in Ek.
    destruct (Reqb big 0) eqn:E0; [discriminate|]. apply Reqb_false in E0.
    destruct (wr_inv _ _ _ _ 0 Ek) as (_ & _ & Hn). rewrite Hn. destruct (Nat.eqb_spec i k) as [->|].
    - exists big. split; [|split; [exact Hb|reflexivity]]. destruct Hb as (Hb & _). specialize (Hb O ltac:(lia)). pose proof (Rabs_pos (mg n l k 0)). lra.
    - apply (IH v1); [lia|reflexivity|lia]. }
  apply (Hg n vv); [lia|exact E].
Qed.

Lemma pivotSearch_argmax n k l vv im0 im : List.length l = (n * n)%nat -> List.length vv = n -> (k <= im < n)%nat ->
  let s i := nth i vv 0 * Rabs (mg n l i k) in
  0 < s im -> (forall i, (k <= i < im)%nat -> s i < s im) -> (forall i, (im < i < n)%nat -> s i <= s im) ->
  pivotSearch n k l vv im0 = Some im.
Proof.
  intros L Lv Him s Hp Hlt Hle. unfold pivotSearch.
  match goal with |- context [loop_from k n ?B ?S] => destruct (loop_from_inv (fun i (st : R * nat) =>
     ((i <= im)%nat -> fst st < s im) /\ ((im < i)%nat -> fst st = s im /\ snd st = im)) k n B S) as ([big im'] & E & H1 & H2) end.
  - lia.
  - cbn [fst snd]. split; [intros _; exact Hp|lia].
  - intros i [big im'] Hi (H1 & H2). cbn [fst snd] in *. rewrite (rd_nth vv i 0) by lia. rewrite (rd_mg n l i k) by lia. eexists. split; [reflexivity|].
    fold (s i). destruct (Rltb big (s i)) eqn:El; cbn [fst snd].
    + apply Rltb_true in El. split; [intros Hm; apply Hlt; lia|]. intros Hm. destruct (Nat.eq_dec i im) as [->|]; [auto|].
      destruct H2 as (-> & ->); [lia|]. specialize (Hle i ltac:(lia)). lra.
    + apply Rltb_false in El. split; [intros Hm; apply H1; lia|]. intros Hm. destruct (Nat.eq_dec i im) as [->|]; [|apply H2; lia].
      specialize (H1 ltac:(lia)). lra.
  - rewrite E. cbn [snd]. f_equal. apply H2. lia.
Qed.

(** A step that does not interchange rows. *)
Lemma factorStep_stay n k s s' : List.length (f_vs s) = (n * n)%nat -> List.length (f_piv s) = n -> (k < n)%nat ->
  mg n (f_vs s) k k <> 0 -> pivotSearch n k (f_vs s) (f_vv s) (f_imax s) = Some k -> factorStep n k s = Some s' ->
  nth k (f_piv s') O = k /\ f_vv s' = f_vv s /\ (forall i j, (i < n)%nat -> (j < n)%nat -> mg n (f_vs s') i j = elim k (mg n (f_vs s)) i j).
Proof.
  intros L Lp Hk Hnz Ep E. unfold factorStep in E. rewrite Ep in E. rewrite Nat.eqb_refl in E. cbn [negb] in E.
  destruct (wr_some (f_piv s) k k O) as (piv1 & Epv & Lpv & Hpv); [lia|]. rewrite Epv in E.
  rewrite (rd_mg n (f_vs s) k k) in E by assumption. rewrite (proj2 (Reqb_false _ _) Hnz) in E.
  destruct (eliminate_ok n k (f_vs s)) as (vs2 & Ee & L2 & HV2); try assumption. rewrite Ee in E. injection E as <-. cbn [f_vs f_vv f_piv].
  split; [rewrite Hpv, Nat.eqb_refl; reflexivity|]. split; [reflexivity|exact HV2].
Qed.

(** Every step records its own pivot and keeps the earlier ones. *)
Lemma factorStep_pivots n k s s' : factorStep n k s = Some s' ->
  pivotSearch n k (f_vs s) (f_vv s) (f_imax s) = Some (nth k (f_piv s') O) /\ forall l, l <> k -> nth l (f_piv s') O = nth l (f_piv s) O.
Proof.
  unfold factorStep. intros E. destruct (pivotSearch n k (f_vs s) (f_vv s) (f_imax s)) as [im|] eqn:Ep; [|discriminate].
  match type of E with match ?x with _ => _ end = _ => destruct x as [[[vs vv] d]|]; [|discriminate] end.
  destruct (wr (f_piv s) k im) as [piv1|] eqn:Epv; [|discriminate]. destruct (wr_inv _ _ _ _ O Epv) as (_ & _ & Hpv).
  destruct (rd vs (k * n + k)) as [p|]; [|discriminate].
  match type of E with match ?x with _ => _ end = _ => destruct x as [vs1|]; [|discriminate] end.
  destruct (eliminate n k vs1) as [vs2|]; [|discriminate]. injection E as <-. cbn [f_piv].
  split; [rewrite Hpv, Nat.eqb_refl; reflexivity|]. intros l Hl. rewrite Hpv. destruct (Nat.eqb_spec l k); [congruence|reflexivity].
Qed.

(** ** Power sums: parity, sign and Chebyshev's inequality *)
Lemma psum_odd n q : psum n (2 * q + 1) = 0.
Proof.
  rewrite <- power_sum_ok. unfold power_sum. cbv zeta. rewrite (fold_pow (fun k => INR k ^ (2 * q + 1))), (fold_pow (fun k => (- INR k) ^ (2 * q + 1))).
  destruct (Nat.eqb_spec (2 * q + 1) 0); [lia|]. rewrite Rplus_0_l, <- sumf_plus. apply sumf_0. intros i _.
  rewrite !pow_add, !pow_mult. replace ((- INR (1 + i)) ^ 2) with (INR (1 + i) ^ 2) by ring. ring.
Qed.

Lemma pow_even_nonneg x q : 0 <= x ^ (2 * q).
Proof. rewrite pow_mult. apply pow_le. apply pow2_ge_0. Qed.

Lemma sumf_nonneg n f : (forall i, (i < n)%nat -> 0 <= f i) -> 0 <= sumf n f.
Proof. induction n as [|n IH]; intros H; cbn [sumf]; [lra|]. pose proof (H n ltac:(lia)). assert (0 <= sumf n f) by (apply IH; intros; apply H; lia). lra. Qed.

Lemma psum_even_pos n q : (1 <= n \/ q = 0)%nat -> 0 < psum n (2 * q).
Proof.
  intros H. unfold psum. destruct H as [H| ->].
  - rewrite Nat.add_1_r. cbn [sumf]. assert (0 <= sumf (2 * n) (fun t => offset n t ^ (2 * q))) by (apply sumf_nonneg; intros; apply pow_even_nonneg).
    assert (0 < offset n (2 * n) ^ (2 * q)); [|lra]. apply pow_lt. unfold offset. rewrite mult_INR. cbn [INR].
    assert (0 < INR n) by (apply lt_0_INR; lia). lra.
  - rewrite Nat.add_1_r. cbn [sumf]. assert (0 <= sumf (2 * n) (fun t => offset n t ^ (2 * 0))) by (apply sumf_nonneg; intros; apply pow_even_nonneg).
    change (2 * 0)%nat with O in *. replace (offset n (2 * n) ^ 0) with 1 by reflexivity. lra.
Qed.

Lemma cheb N (w f g : nat -> R) : (forall i, 0 <= w i) -> (forall i j, 0 <= (f i - f j) * (g i - g j)) ->
  sumf N (fun i => w i * f i) * sumf N (fun i => w i * g i) <= sumf N w * sumf N (fun i => w i * (f i * g i)).
Proof.
  intros Hw Hfg. induction N as [|N IH]; [cbn [sumf]; lra|]. cbn [sumf].
  assert (H : 0 <= sumf N (fun i => w i * (f i * g i)) + f N * g N * sumf N w - f N * sumf N (fun i => w i * g i) - g N * sumf N (fun i => w i * f i)).
  { clear IH. assert (E : sumf N (fun i => w i * ((f i - f N) * (g i - g N))) = sumf N (fun i => w i * (f i * g i)) + f N * g N * sumf N w - f N * sumf N (fun i => w i * g i) - g N * sumf N (fun i => w i * f i)).
    { clear. generalize (f N) (g N). intros a b. induction N as [|N IH]; cbn [sumf]; [ring|]. rewrite IH. ring. }
    rewrite <- E. apply sumf_nonneg. intros i _. apply Rmult_le_pos; auto. }
  pose proof (Rmult_le_pos _ _ (Hw N) H). nra.
Qed.

Lemma pow_comonotone x y a b : 0 <= (x ^ (2 * a) - y ^ (2 * a)) * (x ^ (2 * b) - y ^ (2 * b)).
Proof.
  rewrite !pow_mult. assert (Hx := pow2_ge_0 x). assert (Hy := pow2_ge_0 y). revert Hx Hy. generalize (x ^ 2) (y ^ 2). intros u v Hu Hv.
  destruct (Rle_dec u v).
  - pose proof (pow_incr u v a ltac:(lra)). pose proof (pow_incr u v b ltac:(lra)).
    replace ((u ^ a - v ^ a) * (u ^ b - v ^ b)) with ((v ^ a - u ^ a) * (v ^ b - u ^ b)) by ring. apply Rmult_le_pos; lra.
  - pose proof (pow_incr v u a ltac:(lra)). pose proof (pow_incr v u b ltac:(lra)). apply Rmult_le_pos; lra.
Qed.

Lemma psum_cheb n c a b : psum n (2 * c + 2 * a) * psum n (2 * c + 2 * b) <= psum n (2 * c) * psum n (2 * c + 2 * a + 2 * b).
Proof.
  unfold psum. pose proof (cheb (2 * n + 1) (fun t => offset n t ^ (2 * c)) (fun t => offset n t ^ (2 * a)) (fun t => offset n t ^ (2 * b))
    (fun t => pow_even_nonneg _ _) (fun s t => pow_comonotone _ _ _ _)) as H.
  rewrite (sumf_ext _ (fun t => offset n t ^ (2 * c + 2 * a)) (fun t => offset n t ^ (2 * c) * offset n t ^ (2 * a))) by (intros; apply pow_add).
  rewrite (sumf_ext _ (fun t => offset n t ^ (2 * c + 2 * b)) (fun t => offset n t ^ (2 * c) * offset n t ^ (2 * b))) by (intros; apply pow_add).
  rewrite (sumf_ext _ (fun t => offset n t ^ (2 * c + 2 * a + 2 * b)) (fun t => offset n t ^ (2 * c) * (offset n t ^ (2 * a) * offset n t ^ (2 * b)))) by (intros; rewrite !pow_add; ring).
  exact H.
Qed.

Lemma parity i : (exists q, i = 2 * q)%nat \/ (exists q, i = 2 * q + 1)%nat.
Proof. destruct (Nat.Even_or_Odd i) as [(q & H)|(q & H)]; [left|right]; exists q; lia. Qed.

Lemma scaled_le x y bx by_ : 0 < bx -> 0 < by_ -> x * by_ <= y * bx -> 1 / bx * x <= 1 / by_ * y.
Proof.
  intros H1 H2 H. apply (Rmult_le_reg_r (bx * by_)); [nra|].
  replace (1 / bx * x * (bx * by_)) with (x * by_) by (field; lra). replace (1 / by_ * y * (bx * by_)) with (y * bx) by (field; lra). exact H.
Qed.

Lemma Rabs_even n q : Rabs (psum n (2 * q)) = psum n (2 * q).
Proof. apply Rabs_right. apply Rle_ge. apply sumf_nonneg. intros. apply pow_even_nonneg. Qed.

(** ** The first two pivots stay in place *)
Lemma pivot0 n m l vv im0 : (m <= 2 * n)%nat -> List.length l = ((m + 1) * (m + 1))%nat ->
  (forall i j, (i < m + 1)%nat -> (j < m + 1)%nat -> mg (m + 1) l i j = psum n (i + j)) ->
  rowScales (m + 1) l = Some vv -> List.length vv = (m + 1)%nat -> pivotSearch (m + 1) 0 l vv im0 = Some O.
Proof.
  intros Hm L HA Ev Lv. assert (Hrow := rowScales_exact _ _ _ L Ev).
  assert (H0 : 0 < psum n 0) by (apply (psum_even_pos n 0); lia).
  apply pivotSearch_argmax; try assumption; try lia.
  - destruct (Hrow O ltac:(lia)) as (big & Hb & _ & ->). rewrite HA by lia. cbn [Nat.add]. rewrite Rabs_right by lra.
    apply Rmult_lt_0_compat; [|exact H0]. apply Rdiv_lt_0_compat; lra.
  - intros i Hi. destruct (Hrow O ltac:(lia)) as (b0 & Hb0 & (Hmax0 & Hat0) & ->). destruct (Hrow i ltac:(lia)) as (bi & Hbi & (Hmaxi & _) & ->).
    rewrite !HA by lia. rewrite Nat.add_0_r. change (0 + 0)%nat with O. apply scaled_le; try assumption.
    destruct (parity i) as [(q & ->)|(q & ->)]; [|rewrite psum_odd, Rabs_R0, (Rabs_right (psum n 0)) by lra; nra].
    destruct (Hat0 Hb0) as (j & Hj & Ej). rewrite HA in Ej by lia. cbn [Nat.add] in Ej.
    destruct (parity j) as [(r & ->)|(r & ->)]; [|rewrite psum_odd, Rabs_R0 in Ej; lra].
    specialize (Hmaxi (2 * r)%nat Hj). rewrite HA in Hmaxi by lia. rewrite Rabs_even in Ej. rewrite Rabs_even.
    replace (2 * q + 2 * r)%nat with (2 * (q + r))%nat in Hmaxi by lia. rewrite Rabs_even in Hmaxi.
    pose proof (psum_cheb n 0 q r) as Hc. cbn [Nat.mul Nat.add] in Hc.
    rewrite (Rabs_right (psum n 0)) by lra. rewrite <- Ej.
    assert (psum n 0 * psum n (2 * (q + r)) <= psum n 0 * bi) by (apply Rmult_le_compat_l; lra).
    replace (2 * (q + r))%nat with (2 * q + 2 * r)%nat in * by lia. cbn [Nat.mul] in *. lra.
Qed.

Lemma pivot1 n m l vv V im0 : (1 <= m <= 2 * n)%nat -> List.length V = ((m + 1) * (m + 1))%nat -> List.length l = ((m + 1) * (m + 1))%nat ->
  (forall i j, (i < m + 1)%nat -> (j < m + 1)%nat -> mg (m + 1) l i j = psum n (i + j)) ->
  (forall i j, (i < m + 1)%nat -> (j < m + 1)%nat -> mg (m + 1) V i j = elim 0 (mg (m + 1) l) i j) ->
  rowScales (m + 1) l = Some vv -> List.length vv = (m + 1)%nat -> pivotSearch (m + 1) 1 V vv im0 = Some 1%nat /\ mg (m + 1) V 1 1 <> 0.
Proof.
  intros Hm LV L HA HV Ev Lv. assert (Hrow := rowScales_exact _ _ _ L Ev).
  assert (H1 : psum n 1 = 0) by (apply (psum_odd n 0)).
  assert (H2 : 0 < psum n 2) by (apply (psum_even_pos n 1); lia).
  assert (HV1 : forall i, (1 <= i < m + 1)%nat -> mg (m + 1) V i 1 = psum n (i + 1)).
  { intros i Hi. rewrite HV by lia. unfold elim. destruct (Nat.ltb_spec 0 i); [|lia]. cbn [Nat.eqb]. destruct (Nat.ltb_spec 0 1); [|lia].
    rewrite !HA by lia. cbn [Nat.add]. rewrite H1. ring. }
  split; [|rewrite HV1 by lia; cbn [Nat.add]; lra].
  apply pivotSearch_argmax; try assumption; try lia.
  - destruct (Hrow 1%nat ltac:(lia)) as (big & Hb & _ & ->). rewrite HV1 by lia. cbn [Nat.add]. rewrite Rabs_right by lra.
    apply Rmult_lt_0_compat; [|exact H2]. apply Rdiv_lt_0_compat; lra.
  - intros i Hi. destruct (Hrow 1%nat ltac:(lia)) as (b0 & Hb0 & (Hmax0 & Hat0) & ->). destruct (Hrow i ltac:(lia)) as (bi & Hbi & (Hmaxi & _) & ->).
    rewrite !HV1 by lia. change (1 + 1)%nat with 2%nat. apply scaled_le; try assumption. rewrite (Rabs_right (psum n 2)) by lra.
    destruct (parity i) as [(q & ->)|(q & ->)]; [rewrite psum_odd, Rabs_R0; nra|].
    destruct (Hat0 Hb0) as (j & Hj & Ej). rewrite HA in Ej by lia.
    destruct (parity j) as [(r & ->)|(r & ->)]; [replace (1 + 2 * r)%nat with (2 * r + 1)%nat in Ej by lia; rewrite psum_odd, Rabs_R0 in Ej; lra|].
    specialize (Hmaxi (2 * r + 1)%nat Hj). rewrite HA in Hmaxi by lia.
    replace (1 + (2 * r + 1))%nat with (2 * (r + 1))%nat in Ej by lia. rewrite Rabs_even in Ej.
    replace (2 * q + 1 + (2 * r + 1))%nat with (2 * (q + r + 1))%nat in Hmaxi by lia. rewrite Rabs_even in Hmaxi.
    replace (2 * q + 1 + 1)%nat with (2 * (q + 1))%nat by lia. rewrite Rabs_even. rewrite <- Ej.
    pose proof (psum_cheb n 1 q r) as Hc. change (2 * 1)%nat with 2%nat in Hc.
    replace (2 + 2 * q + 2 * r)%nat with (2 * (q + r + 1))%nat in Hc by lia. replace (2 + 2 * q)%nat with (2 * (q + 1))%nat in Hc by lia.
    replace (2 + 2 * r)%nat with (2 * (r + 1))%nat in Hc by lia.
    assert (psum n 2 * psum n (2 * (q + r + 1)) <= psum n 2 * bi) by (apply Rmult_le_compat_l; lra). lra.
Qed.
