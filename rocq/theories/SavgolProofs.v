(** * The Savitzky-Golay least-squares kernels. *)
From Coq Require Import Reals Lra Lia ZArith List Bool.
From Verif Require Import SmoothModel SmoothSpec LoopFacts MatModel MatSpec MatProofs MatProofs2 MatProofs3 MatProofs4 InterpProofs SmoothProofs DerivProofs.
Import List ListNotations.
Local Open Scope R_scope.

(** ** Power sums *)
Definition offset (n t : nat) : R := INR t - INR n.
Definition psum (n p : nat) : R := sumf (2 * n + 1) (fun t => offset n t ^ p).

Lemma fold_pow (f : nat -> R) n a s : fold_left (fun s k => s + f k) (seq a n) s = s + sumf n (fun i => f (a + i)%nat).
Proof.
  revert a s. induction n as [|n IH]; intros a s; cbn [seq fold_left]; [cbn [sumf]; ring|].
  rewrite IH, sumf_head. rewrite Nat.add_0_r. rewrite (sumf_ext n (fun i => f (S a + i)%nat) (fun i => f (a + S i)%nat)) by (intros; f_equal; lia). ring.
Qed.

Lemma power_sum_ok n p : power_sum n p = psum n p.
Proof.
  unfold power_sum. cbv zeta. rewrite (fold_pow (fun k => INR k ^ p)), (fold_pow (fun k => (- INR k) ^ p)).
  induction n as [|n IH].
  - unfold psum, offset. cbn [Nat.mul Nat.add sumf INR]. destruct p as [|p]; cbn [Nat.eqb pow]; ring.
  - unfold psum. replace (2 * S n + 1)%nat with (S (S (2 * n + 1))) by lia. rewrite (sumf_head (S (2 * n + 1))). cbn [sumf].
    rewrite (sumf_ext (2 * n + 1) (fun i => offset (S n) (S i) ^ p) (fun i => offset n i ^ p)).
    + fold (psum n p). rewrite <- IH. unfold offset. replace (INR (S (2 * n + 1)) - INR (S n)) with (INR (S n)).
      * replace (INR (1 + n)) with (INR (S n)) by reflexivity. replace (INR 0 - INR (S n)) with (- INR (S n)) by (cbn [INR]; ring). ring.
      * rewrite !S_INR, plus_INR, mult_INR. cbn [INR]. ring.
    + intros i _. unfold offset. rewrite !S_INR. f_equal. ring.
Qed.

(** ** The matrix *)
Lemma savgol_matrix_ok n m : exists vs, savgol_matrix n m = Some vs /\ length vs = ((m + 1) * (m + 1))%nat /\
  forall i j, (i < m + 1)%nat -> (j < m + 1)%nat -> mg (m + 1) vs i j = psum n (i + j).
Proof.
  unfold savgol_matrix. set (N := (m + 1)%nat).
  match goal with |- context [loop (2 * m + 1) ?B ?S] => destruct (loop_inv (fun c vs => length vs = (N * N)%nat /\
    forall i j, (i < N)%nat -> (j < N)%nat -> (i + j < c)%nat -> mg N vs i j = psum n (i + j)) (2 * m + 1) B S) as (vs & E & L & H) end.
  - split; [unfold zeros; apply repeat_length|]. intros; lia.
  - intros c vs Hc (L & H). cbv beta zeta. rewrite power_sum_ok. set (mm := if (c <? 2 * m - c)%nat then c else (2 * m - c)%nat).
    set (lo := (c - m)%nat).
    assert (Hlo : (c = 2 * lo + mm)%nat /\ (lo + mm <= m)%nat) by (subst mm lo; destruct (Nat.ltb_spec c (2 * m - c)); lia).
    match goal with |- context [loop (mm + 1) ?B vs] => destruct (loop_inv (fun t vs' => length vs' = (N * N)%nat /\
      forall i j, (i < N)%nat -> (j < N)%nat -> (i + j < c \/ (i + j = c /\ j < lo + t))%nat -> mg N vs' i j = psum n (i + j)) (mm + 1) B vs) as (vs' & E & L' & H') end.
    + split; [exact L|]. intros i j Hi Hj [Hs|(Hs & Hl)]; [apply H; assumption|]. subst N. lia.
    + intros t vs' Ht (L' & H').
      replace ((c + 2 * t - mm) / 2)%nat with (lo + t)%nat by (replace (c + 2 * t - mm)%nat with ((lo + t) * 2)%nat by lia; rewrite Nat.div_mul; lia).
      replace ((c + mm - 2 * t) / 2)%nat with (lo + mm - t)%nat by (replace (c + mm - 2 * t)%nat with ((lo + mm - t) * 2)%nat by lia; rewrite Nat.div_mul; lia).
      destruct (wr_mg N vs' (lo + mm - t) (lo + t) (psum n c) L') as (v2 & E2 & L2 & H2); [subst N; lia|subst N; lia|].
      exists v2. split; [exact E2|]. split; [exact L2|]. intros i j Hi Hj Hs. rewrite H2 by assumption.
      destruct (Nat.eqb_spec i (lo + mm - t)), (Nat.eqb_spec j (lo + t)); cbn [andb].
      * f_equal. lia.
      * apply H'; try assumption. lia.
      * apply H'; try assumption. lia.
      * apply H'; try assumption. lia.
    + exists vs'. split; [exact E|]. split; [exact L'|]. intros i j Hi Hj Hs. apply H'; try assumption. subst N. lia.
  - exists vs. split; [exact E|]. split; [exact L|]. intros i j Hi Hj. apply H; try assumption. subst N. lia.
Qed.

(** ** Polynomials with more roots than their degree vanish *)
Fixpoint quot (p : list R) (a : R) : list R := match p with [] => [] | _ :: p' => peval p' a :: quot p' a end.

Lemma quot_ok p a x : peval p x = peval p a + (x - a) * peval (quot p a) x.
Proof.
  induction p as [|c p IH]; cbn [peval quot]; [ring|]. rewrite IH at 1. ring.
Qed.
Lemma quot_length p a : length (quot p a) = length p.
Proof. induction p as [|c p IH]; cbn [quot length]; [reflexivity|]. now rewrite IH. Qed.

(** The quotient of a list of length S n has a last coefficient 0; drop it. *)
Fixpoint quot' (p : list R) (a : R) : list R := match p with [] => [] | [_] => [] | _ :: p' => peval p' a :: quot' p' a end.
Lemma quot'_ok p a x : peval p x = peval p a + (x - a) * peval (quot' p a) x.
Proof.
  induction p as [|c p IH]; cbn [peval quot']; [ring|]. destruct p as [|d p]; [cbn [peval]; ring|].
  change (peval (peval (d :: p) a :: quot' (d :: p) a) x) with (peval (d :: p) a + x * peval (quot' (d :: p) a) x). rewrite IH at 1. ring.
Qed.
Lemma quot'_length p a : length (quot' p a) = (length p - 1)%nat.
Proof.
  induction p as [|c p IH]; [reflexivity|]. destruct p as [|d p]; [reflexivity|]. cbn [length] in *.
  change (quot' (c :: d :: p) a) with (peval (d :: p) a :: quot' (d :: p) a). cbn [length]. rewrite IH. lia.
Qed.
Lemma quot'_zero p a : peval p a = 0 -> (forall i, nth i (quot' p a) 0 = 0) -> forall i, nth i p 0 = 0.
Proof.
  revert a. induction p as [|c p IH]; intros a H0 H i; [destruct i; reflexivity|].
  destruct p as [|d p].
  - cbn [peval] in H0. destruct i as [|[|i]]; cbn [nth]; lra.
  - assert (Hd : peval (d :: p) a = 0) by (exact (H O)).
    destruct i as [|i]; [cbn [nth]; cbn [peval] in H0, Hd; rewrite Hd in H0; lra|]. cbn [nth].
    apply (IH a Hd). intros k. exact (H (S k)).
Qed.

Lemma roots_zero (x : nat -> R) N : (forall i j, (i < N)%nat -> (j < N)%nat -> x i = x j -> i = j) ->
  forall p, (length p <= N)%nat -> (forall i, (i < N)%nat -> peval p (x i) = 0) -> forall i, nth i p 0 = 0.
Proof.
  induction N as [|N IH]; intros Hx p Hl H.
  - destruct p; [|cbn in Hl; lia]. intros [|i]; reflexivity.
  - apply (quot'_zero p (x N)); [apply H; lia|]. apply IH.
    + intros i j Hi Hj. apply Hx; lia.
    + rewrite quot'_length. lia.
    + intros i Hi. pose proof (H i ltac:(lia)) as E. rewrite (quot'_ok p (x N)), (H N) in E by lia.
      assert (x i - x N <> 0) by (intros E0; assert (i = N) by (apply Hx; [lia|lia|lra]); lia).
      rewrite Rplus_0_l in E. apply Rmult_integral in E. tauto.
Qed.

Lemma peval_sum p x : peval p x = sumf (length p) (fun j => nth j p 0 * x ^ j).
Proof.
  induction p as [|c p IH]; [reflexivity|]. cbn [length]. rewrite sumf_head. cbn [peval nth pow]. rewrite IH, <- sumf_scal.
  rewrite Rmult_1_r. f_equal. apply sumf_ext. intros. ring.
Qed.

Lemma sum_squares n f : sumf n (fun i => f i * f i) = 0 -> forall i, (i < n)%nat -> f i = 0.
Proof.
  induction n as [|n IH]; intros H i Hi; [lia|]. cbn [sumf] in H.
  assert (0 <= sumf n (fun i => f i * f i)).
  { clear. induction n as [|n IH]; cbn [sumf]; [lra|]. pose proof (Rle_0_sqr (f n)). unfold Rsqr in *. lra. }
  pose proof (Rle_0_sqr (f n)) as Hs. unfold Rsqr in Hs. destruct (Nat.eq_dec i n) as [->|].
  - destruct (Req_dec (f n) 0); [assumption|]. assert (0 < f n * f n) by (apply Rlt_0_sqr; assumption). lra.
  - apply IH; [lra|lia].
Qed.

(** ** The matrix of power sums is injective *)
Definition gram (n : nat) (i j : nat) : R := psum n (i + j).

Lemma gram_form n m (z : nat -> R) i : sumf m (fun j => gram n i j * z j) = sumf (2 * n + 1) (fun t => offset n t ^ i * sumf m (fun j => z j * offset n t ^ j)).
Proof.
  unfold gram, psum. rewrite (sumf_ext m _ (fun j => sumf (2 * n + 1) (fun t => offset n t ^ i * (z j * offset n t ^ j)))).
  - rewrite sumf_exchange. apply sumf_ext. intros t _. rewrite <- sumf_scal. reflexivity.
  - intros j _. rewrite Rmult_comm, <- sumf_scal. apply sumf_ext. intros t _. rewrite pow_add. ring.
Qed.

Lemma gram_injective n m (z : nat -> R) : (m <= 2 * n + 1)%nat -> (forall i, (i < m)%nat -> sumf m (fun j => gram n i j * z j) = 0) -> forall i, (i < m)%nat -> z i = 0.
Proof.
  intros Hm H. set (q := fun t => sumf m (fun j => z j * offset n t ^ j)).
  assert (Hq : forall t, (t < 2 * n + 1)%nat -> q t = 0).
  { apply sum_squares. rewrite (sumf_ext _ _ (fun t => sumf m (fun i => z i * (offset n t ^ i * q t)))).
    - rewrite sumf_exchange. apply sumf_0. intros i Hi. rewrite sumf_scal. unfold q. rewrite <- gram_form, H by exact Hi. ring.
    - intros t _. unfold q at 1. rewrite Rmult_comm, <- sumf_scal. apply sumf_ext. intros. ring. }
  set (p := map z (seq 0 m)). assert (Lp : length p = m) by (subst p; rewrite map_length; apply seq_length).
  assert (Np : forall j, (j < m)%nat -> nth j p 0 = z j).
  { intros j Hj. subst p. rewrite (nth_indep _ 0 (z O)) by (rewrite map_length, seq_length; exact Hj). rewrite map_nth, seq_nth by exact Hj. reflexivity. }
  intros i Hi. rewrite <- Np by exact Hi. apply (roots_zero (offset n) (2 * n + 1)).
  - intros a b Ha Hb E. apply INR_eq. unfold offset in E. lra.
  - lia.
  - intros t Ht. rewrite peval_sum, Lp. transitivity (q t); [|exact (Hq t Ht)]. unfold q. apply sumf_ext. intros j Hj. rewrite Np by exact Hj. reflexivity.
Qed.

(** ** An injective matrix has a non-zero determinant *)
Lemma injective_det n : forall M, (forall z, (forall i, (i < n)%nat -> sumf n (fun j => M i j * z j) = 0) -> forall i, (i < n)%nat -> z i = 0) -> det n M <> 0.
Proof.
  induction n as [|n IH]; intros M Hinj; [cbn [det]; lra|].
  destruct (row_dec (S n) (fun i => M i O)) as [(r & Hr & Hnz)|Hz].
  2: { exfalso. assert (E : 1 = 0).
       { refine (Hinj (fun j => if (j =? 0)%nat then 1 else 0) _ O _); [|lia].
         intros i Hi. apply sumf_0. intros j Hj. destruct (Nat.eqb_spec j 0) as [->|]; [rewrite Hz by exact Hi|]; ring. }
       lra. }
  assert (Hgood : forall M', M' O O <> 0 -> (forall z, (forall i, (i < S n)%nat -> sumf (S n) (fun j => M' i j * z j) = 0) -> forall i, (i < S n)%nat -> z i = 0) -> det (S n) M' <> 0).
  { clear M Hinj r Hr Hnz. intros M Hp Hinj.
    rewrite (det_ext (S n) M (upper 0 M)) by (intros; unfold upper; destruct (Nat.ltb_spec j 0); [lia|reflexivity]).
    rewrite <- (det_elim_step (S n) 0 M) by (lia || assumption). rewrite det_first_col.
    2: { intros i Hi. unfold upper. destruct (Nat.ltb_spec 0 1), (Nat.ltb_spec 0 i); try lia. reflexivity. }
    apply Rmult_integral_contrapositive. split; [exact Hp|]. apply IH. intros z Hz.
    set (z0 := - sumf n (fun j => M O (S j) * z j) / M O O).
    intros i Hi. refine (Hinj (fun k => match k with O => z0 | S k => z k end) _ (S i) _); [|lia].
    intros k Hk. rewrite sumf_head. cbn [Nat.eqb].
    destruct k as [|k].
    - subst z0. cbv beta iota. field. exact Hp.
    - specialize (Hz k ltac:(lia)). rewrite (sumf_ext n _ (fun j => M (S k) (S j) * z j + - (M (S k) O / M O O) * (M O (S j) * z j))) in Hz.
      + rewrite sumf_plus, sumf_scal in Hz. subst z0. cbv beta iota.
        replace (M (S k) O * (- sumf n (fun j => M O (S j) * z j) / M O O)) with (- (M (S k) O / M O O) * sumf n (fun j => M O (S j) * z j)) by (field; exact Hp). lra.
      + intros j _. unfold upper, elim. destruct (Nat.ltb_spec (S j) 1), (Nat.ltb_spec 0 (S k)), (Nat.ltb_spec 0 (S j)); try lia. cbn [andb Nat.eqb]. ring. }
  destruct (Nat.eq_dec r 0) as [->|Hr0]; [apply Hgood; assumption|].
  intros E. apply (Hgood (rows (tr 0 r) M)).
  - unfold rows, tr. rewrite Nat.eqb_refl. exact Hnz.
  - intros z Hz. apply Hinj. intros i Hi. specialize (Hz (tr 0 r i) ltac:(apply tr_lt; lia)). unfold rows in Hz. rewrite tr_invol in Hz. exact Hz.
  - rewrite det_swap_rows by lia. rewrite E. ring.
Qed.
