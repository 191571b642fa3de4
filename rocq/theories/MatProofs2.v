(** * Sums and determinants (for C19). *)
From Coq Require Import Lra.
From Verif Require Import GoBase RealBase MatModel MatSpec MatProofs.
Local Open Scope R_scope.

Lemma sumf_0 n f : (forall i, (i < n)%nat -> f i = 0) -> sumf n f = 0.
Proof. intros H. induction n as [|n IH]; [reflexivity|]. cbn. rewrite IH, H by (intros; try apply H; lia). lra. Qed.

Lemma sumf_plus n f g : sumf n (fun i => f i + g i) = sumf n f + sumf n g.
Proof. induction n as [|n IH]; cbn; [lra|]. rewrite IH. lra. Qed.

Lemma sumf_scal n c f : sumf n (fun i => c * f i) = c * sumf n f.
Proof. induction n as [|n IH]; cbn; [lra|]. rewrite IH. lra. Qed.

Lemma sumf_exchange n m (f : nat -> nat -> R) : sumf n (fun i => sumf m (fun j => f i j)) = sumf m (fun j => sumf n (fun i => f i j)).
Proof.
  induction n as [|n IH]; cbn.
  - symmetry. now apply sumf_0.
  - rewrite IH. now rewrite <- sumf_plus.
Qed.

Lemma sumf_single n k f : (k < n)%nat -> (forall i, (i < n)%nat -> i <> k -> f i = 0) -> sumf n f = f k.
Proof.
  intros Hk H. induction n as [|n IH]; [lia|]. cbn. destruct (Nat.eq_dec k n) as [->|E].
  - rewrite sumf_0 by (intros i Hi; apply H; lia). lra.
  - rewrite IH, (H n) by (intros; try apply H; lia). lra.
Qed.

(** ** Row operations *)
Definition tr (a b i : nat) : nat := if (i =? a)%nat then b else if (i =? b)%nat then a else i.
Definition rows (s : nat -> nat) (M : nat -> nat -> R) : nat -> nat -> R := fun i j => M (s i) j.
Definition rowrep (a : nat) (v : nat -> R) (M : nat -> nat -> R) : nat -> nat -> R := fun i j => if (i =? a)%nat then v j else M i j.

Lemma drop_lt i r n : (r < n)%nat -> (drop i r < S n)%nat.
Proof. unfold drop. destruct (Nat.ltb_spec r i); lia. Qed.

Lemma det_ext n : forall M N, (forall i j, (i < n)%nat -> (j < n)%nat -> M i j = N i j) -> det n M = det n N.
Proof.
  induction n as [|n IH]; intros M N H; [reflexivity|]. cbn [det]. apply sumf_ext. intros i Hi.
  rewrite H by lia. f_equal. apply IH. intros r c Hr Hc. apply H; [now apply drop_lt|lia].
Qed.

Lemma sumf_tr_adj n k f : (S k < n)%nat -> sumf n (fun i => f (tr k (S k) i)) = sumf n f.
Proof.
  intros H. induction n as [|n IH]; [lia|]. cbn [sumf]. destruct (Nat.eq_dec n (S k)) as [->|E].
  - cbn [sumf]. unfold tr at 2 3. rewrite Nat.eqb_refl. destruct (Nat.eqb_spec (S k) k); [lia|]. rewrite Nat.eqb_refl.
    rewrite (sumf_ext k _ f); [lra|]. intros i Hi. unfold tr. destruct (Nat.eqb_spec i k); [lia|]. destruct (Nat.eqb_spec i (S k)); [lia|]. reflexivity.
  - rewrite IH by lia. unfold tr. destruct (Nat.eqb_spec n k); [lia|]. destruct (Nat.eqb_spec n (S k)); [lia|]. reflexivity.
Qed.

Ltac no_if a := lazymatch a with context [if _ then _ else _] => fail | _ => idtac end.
Ltac nat_cases := repeat match goal with
  | |- context [Nat.eqb ?a ?b] => no_if a; no_if b; destruct (Nat.eqb_spec a b); try lia
  | |- context [Nat.ltb ?a ?b] => no_if a; no_if b; destruct (Nat.ltb_spec a b); try lia
  | |- context [Nat.leb ?a ?b] => no_if a; no_if b; destruct (Nat.leb_spec a b); try lia
  end.

Lemma det_swap_adj n : forall k M, (S k < n)%nat -> det n (rows (tr k (S k)) M) = - det n M.
Proof.
  induction n as [|n IH]; intros k M Hk; [lia|]. cbn [det].
  rewrite <- (sumf_tr_adj (S n) k (fun i => (-1) ^ i * M i 0%nat * det n (fun r c => M (drop i r) (S c)))) by assumption.
  match goal with |- _ = - ?x => replace (- x) with ((-1) * x) by ring end. rewrite <- sumf_scal.
  apply sumf_ext. intros i Hi. unfold rows at 1.
  destruct (Nat.eq_dec i k) as [->|Hik].
  - assert (Ek : tr k (S k) k = S k) by (unfold tr; now rewrite Nat.eqb_refl). rewrite Ek.
    rewrite (det_ext n (fun r c => rows (tr k (S k)) M (drop k r) (S c)) (fun r c => M (drop (S k) r) (S c))).
    + rewrite <- tech_pow_Rmult. lra.
    + intros r c Hr Hc. unfold rows, tr, drop. f_equal. nat_cases; lia.
  - destruct (Nat.eq_dec i (S k)) as [->|HiSk].
    + assert (Ek : tr k (S k) (S k) = k) by (unfold tr; destruct (Nat.eqb_spec (S k) k); [lia|]; now rewrite Nat.eqb_refl). rewrite Ek.
      rewrite (det_ext n (fun r c => rows (tr k (S k)) M (drop (S k) r) (S c)) (fun r c => M (drop k r) (S c))).
      * rewrite <- tech_pow_Rmult. lra.
      * intros r c Hr Hc. unfold rows, tr, drop. f_equal. nat_cases; lia.
    + assert (Ek : tr k (S k) i = i) by (unfold tr; nat_cases). rewrite Ek.
      destruct (Nat.lt_ge_cases i k).
      * rewrite (det_ext n (fun r c => rows (tr k (S k)) M (drop i r) (S c)) (rows (tr (k - 1) (S (k - 1))) (fun r c => M (drop i r) (S c)))).
        -- rewrite IH by lia. lra.
        -- intros r c Hr Hc. unfold rows, tr, drop. f_equal. nat_cases; lia.
      * rewrite (det_ext n (fun r c => rows (tr k (S k)) M (drop i r) (S c)) (rows (tr k (S k)) (fun r c => M (drop i r) (S c)))).
        -- rewrite IH by lia. lra.
        -- intros r c Hr Hc. unfold rows, tr, drop. f_equal. nat_cases; lia.
Qed.

Lemma det_swap n a d : forall M, (a + S d < n)%nat -> det n (rows (tr a (a + S d)) M) = - det n M.
Proof.
  induction d as [|d IH]; intros M H.
  - replace (a + 1)%nat with (S a) by lia. apply det_swap_adj. lia.
  - set (b := (a + S d)%nat) in *. replace (a + S (S d))%nat with (S b) in * by lia.
    rewrite (det_ext n _ (rows (tr b (S b)) (rows (tr a b) (rows (tr b (S b)) M)))).
    + rewrite det_swap_adj, IH, det_swap_adj by lia. lra.
    + intros i j Hi Hj. unfold rows, tr. f_equal. nat_cases.
Qed.

Lemma det_swap_rows n a b M : (a < b)%nat -> (b < n)%nat -> det n (rows (tr a b) M) = - det n M.
Proof. intros H1 H2. replace b with (a + S (b - a - 1))%nat by lia. apply det_swap. lia. Qed.

Lemma det_row_lin n : forall a u v c M, (a < n)%nat ->
  det n (rowrep a (fun j => u j + c * v j) M) = det n (rowrep a u M) + c * det n (rowrep a v M).
Proof.
  induction n as [|n IH]; intros a u v c M Ha; [lia|]. cbn [det]. rewrite <- sumf_scal, <- sumf_plus.
  apply sumf_ext. intros i Hi. destruct (Nat.eq_dec i a) as [->|Hia].
  - assert (Hs : forall w j, rowrep a w M a j = w j) by (intros; unfold rowrep; now rewrite Nat.eqb_refl). rewrite !Hs.
    assert (Hm : forall w, det n (fun r c => rowrep a w M (drop a r) (S c)) = det n (fun r c => M (drop a r) (S c))).
    { intros w. apply det_ext. intros r k Hr Hk. unfold rowrep, drop. nat_cases; reflexivity. }
    rewrite !Hm. ring.
  - set (a' := if (a <? i)%nat then a else (a - 1)%nat).
    assert (Hm : forall w, det n (fun r c => rowrep a w M (drop i r) (S c)) = det n (rowrep a' (fun j => w (S j)) (fun r c => M (drop i r) (S c)))).
    { intros w. apply det_ext. intros r k Hr Hk. unfold rowrep, drop, a'. nat_cases; reflexivity. }
    rewrite !Hm. rewrite (IH a' (fun j => u (S j)) (fun j => v (S j)) c); [|unfold a'; nat_cases; lia].
    assert (Hs : forall w j, rowrep a w M i j = M i j) by (intros; unfold rowrep; nat_cases; reflexivity). rewrite !Hs. ring.
Qed.

Lemma det_equal_rows n M a b : (a < b)%nat -> (b < n)%nat -> (forall j, (j < n)%nat -> M a j = M b j) -> det n M = 0.
Proof.
  intros H1 H2 H. assert (E : det n (rows (tr a b) M) = det n M).
  { apply det_ext. intros i j Hi Hj. unfold rows, tr. nat_cases; subst; auto. symmetry. auto. }
  rewrite det_swap_rows in E by assumption. lra.
Qed.

Lemma det_zero_row n M a : (a < n)%nat -> (forall j, (j < n)%nat -> M a j = 0) -> det n M = 0.
Proof.
  intros Ha H. pose proof (det_row_lin n a (fun _ => 0) (fun _ => 0) 1 M Ha) as E.
  assert (E2 : det n (rowrep a (fun _ => 0) M) = det n M).
  { apply det_ext. intros i j Hi Hj. unfold rowrep. nat_cases; subst; auto. symmetry. auto. }
  assert (E3 : det n (rowrep a (fun _ => 0 + 1 * 0) M) = det n M).
  { rewrite <- E2. apply det_ext. intros i j Hi Hj. unfold rowrep. nat_cases; subst; auto. lra. }
  rewrite E2, E3 in E. lra.
Qed.

(** Adding a multiple of another row. *)
Lemma det_add_row n M a b c : (a < n)%nat -> (b < n)%nat -> a <> b ->
  det n (fun i j => if (i =? a)%nat then M a j + c * M b j else M i j) = det n M.
Proof.
  intros Ha Hb Hab.
  pose proof (det_row_lin n a (M a) (M b) c M Ha) as E.
  change (det n (fun i j => if (i =? a)%nat then M a j + c * M b j else M i j)) with (det n (rowrep a (fun j => M a j + c * M b j) M)).
  rewrite E.
  assert (E2 : det n (rowrep a (M a) M) = det n M) by (apply det_ext; intros i j _ _; unfold rowrep; nat_cases; subst; reflexivity).
  assert (E3 : det n (rowrep a (M b) M) = 0).
  { destruct (Nat.lt_ge_cases a b).
    - apply (det_equal_rows n _ a b); try assumption. intros j _. unfold rowrep. nat_cases. reflexivity.
    - apply (det_equal_rows n _ b a); try assumption; [lia|]. intros j _. unfold rowrep. nat_cases. reflexivity. }
  rewrite E2, E3. lra.
Qed.

Lemma det_first_col n M : (forall i, (0 < i < S n)%nat -> M i 0%nat = 0) -> det (S n) M = M 0%nat 0%nat * det n (fun r c => M (S r) (S c)).
Proof.
  intros H. cbn [det]. rewrite (sumf_single (S n) 0).
  - cbn [pow]. rewrite (det_ext n (fun r c => M (drop 0 r) (S c)) (fun r c => M (S r) (S c))); [ring|]. intros. reflexivity.
  - lia.
  - intros i Hi H0. rewrite H by lia. ring.
Qed.

Fixpoint prodf (n : nat) (f : nat -> R) : R := match n with O => 1 | S k => prodf k f * f k end.

Lemma prodf_ext n f g : (forall i, (i < n)%nat -> f i = g i) -> prodf n f = prodf n g.
Proof. intros H. induction n as [|n IH]; [reflexivity|]. cbn. rewrite IH, H by (intros; try apply H; lia). reflexivity. Qed.

(** First k columns already upper triangular. *)
Lemma det_partial_triangular k : forall n M, (forall i j, (i < k + n)%nat -> (j < k)%nat -> (j < i)%nat -> M i j = 0) ->
  det (k + n) M = prodf k (fun j => M j j) * det n (fun i j => M (k + i) (k + j))%nat.
Proof.
  induction k as [|k IH]; intros n M H.
  - cbn. rewrite Rmult_1_l. reflexivity.
  - replace (S k + n)%nat with (k + S n)%nat in * by lia. rewrite IH by (intros i j Hi Hj Hij; apply H; lia).
    rewrite det_first_col.
    + cbn [prodf]. rewrite Rmult_assoc. f_equal. rewrite !Nat.add_0_r. f_equal.
      apply det_ext. intros i j _ _. f_equal; lia.
    + intros i Hi. rewrite Nat.add_0_r. apply H; lia.
Qed.

Lemma det_triangular n M : (forall i j, (i < n)%nat -> (j < i)%nat -> M i j = 0) -> det n M = prodf n (fun j => M j j).
Proof.
  intros H. pose proof (det_partial_triangular n 0 M) as E. rewrite Nat.add_0_r in E. rewrite E; [cbn; lra|].
  intros i j Hi _ Hji. apply H; lia.
Qed.

(** A column that vanishes from the diagonal down makes the matrix singular. *)
Lemma det_dead_column n k M : (k < n)%nat -> (forall i j, (i < n)%nat -> (j < k)%nat -> (j < i)%nat -> M i j = 0) ->
  (forall i, (k <= i < n)%nat -> M i k = 0) -> det n M = 0.
Proof.
  intros Hk H Hc. replace n with (k + (n - k))%nat by lia. rewrite det_partial_triangular.
  - replace (n - k)%nat with (S (n - k - 1)) by lia. rewrite det_first_col.
    + rewrite !Nat.add_0_r, Hc by lia. ring.
    + intros i Hi. rewrite Nat.add_0_r. apply Hc. lia.
  - intros i j Hi. apply H. lia.
Qed.
