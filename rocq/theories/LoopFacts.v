(** * Facts about counted loops, slice reads and writes. *)
From Verif Require Import GoBase GoBaseFacts LoopBase.

Lemma loop_inv {S : Type} (P : nat -> S -> Prop) n body s :
  P 0 s ->
  (forall i t, i < n -> P i t -> exists t', body i t = Some t' /\ P (Datatypes.S i) t') ->
  exists s', loop n body s = Some s' /\ P n s'.
Proof.
  intros H0 Hs. induction n as [|n IH].
  - exists s. split; [reflexivity|assumption].
  - destruct IH as (t & Et & Pt); [intros; apply Hs; [lia|assumption]|].
    destruct (Hs n t) as (t' & Et' & Pt'); [lia|assumption|].
    exists t'. cbn. rewrite Et. auto.
Qed.

Lemma loop_from_inv {S : Type} (P : nat -> S -> Prop) a b body s :
  a <= b ->
  P a s ->
  (forall i t, a <= i < b -> P i t -> exists t', body i t = Some t' /\ P (Datatypes.S i) t') ->
  exists s', loop_from a b body s = Some s' /\ P b s'.
Proof.
  intros Hab H0 Hs. unfold loop_from.
  destruct (loop_inv (fun i t => P (a + i) t) (b - a) (fun i => body (a + i)) s) as (s' & E & H).
  - now rewrite Nat.add_0_r.
  - intros i t Hi HP. destruct (Hs (a + i) t) as (t' & E & H); [lia|assumption|].
    exists t'. rewrite Nat.add_succ_r. auto.
  - exists s'. split; [exact E|]. replace b with (a + (b - a)) by lia. exact H.
Qed.

Lemma loop_down_inv {S : Type} (P : nat -> S -> Prop) n body s :
  P n s ->
  (forall i t, i < n -> P (Datatypes.S i) t -> exists t', body i t = Some t' /\ P i t') ->
  exists s', loop_down n body s = Some s' /\ P 0 s'.
Proof.
  intros H0 Hs. unfold loop_down.
  destruct (loop_inv (fun i t => P (n - i) t) n (fun i => body (n - 1 - i)) s) as (s' & E & H).
  - now rewrite Nat.sub_0_r.
  - intros i t Hi HP. destruct (Hs (n - 1 - i) t) as (t' & E & H); [lia| |].
    + replace (Datatypes.S (n - 1 - i)) with (n - i) by lia. assumption.
    + exists t'. replace (n - Datatypes.S i) with (n - 1 - i) by lia. auto.
  - exists s'. split; [exact E|]. now rewrite Nat.sub_diag in H.
Qed.

(** A loop that fails at one pass fails. *)
Lemma loop_none {S : Type} n k body (s : S) : k <= n -> loop k body s = None -> loop n body s = None.
Proof. intros H E. induction H as [|n H IH]; [exact E|]. cbn. now rewrite IH. Qed.

Lemma loop_ext {S : Type} n body body' (s : S) : (forall i t, i < n -> body i t = body' i t) -> loop n body s = loop n body' s.
Proof.
  intros H. induction n as [|n IH]; [reflexivity|]. cbn. rewrite IH by (intros; apply H; lia).
  destruct (loop n body' s); [apply H; lia|reflexivity].
Qed.

Lemma rd_nth {A} (l : list A) i d : i < List.length l -> rd l i = Some (nth i l d).
Proof. intros H. unfold rd. now apply nth_error_nth'. Qed.

Lemma rd_none {A} (l : list A) i : List.length l <= i -> rd l i = None.
Proof. intros H. now apply nth_error_None. Qed.

Lemma wr_some {A} (l : list A) i v d : i < List.length l ->
  exists l', wr l i v = Some l' /\ List.length l' = List.length l /\
    forall j, nth j l' d = if j =? i then v else nth j l d.
Proof.
  intros H. unfold wr. destruct (upd_some l i v H) as (l' & E). exists l'. split; [exact E|].
  split; [exact (upd_length _ _ _ _ E)|].
  intros j. destruct (Nat.lt_ge_cases j (List.length l)) as [Hj|Hj].
  - assert (Hj' : j < List.length l') by (now rewrite (upd_length _ _ _ _ E)).
    pose proof (nth_error_nth' l' d Hj') as E1. rewrite (upd_nth_error _ _ _ _ j E) in E1.
    destruct (j =? i); [congruence|]. rewrite (nth_error_nth' l d Hj) in E1. congruence.
  - rewrite nth_overflow by (rewrite (upd_length _ _ _ _ E); assumption).
    destruct (Nat.eqb_spec j i); [lia|]. now rewrite nth_overflow.
Qed.

Lemma wr_none {A} (l : list A) i v : List.length l <= i -> wr l i v = None.
Proof. apply upd_none. Qed.

Lemma wr_inv {A} (l l' : list A) i v d : wr l i v = Some l' ->
  i < List.length l /\ List.length l' = List.length l /\ forall j, nth j l' d = if j =? i then v else nth j l d.
Proof.
  intros E. destruct (Nat.lt_ge_cases i (List.length l)) as [H|H].
  - destruct (wr_some l i v d H) as (l2 & E2 & H2). rewrite E in E2. injection E2 as ->. auto.
  - now rewrite (wr_none _ _ _ H) in E.
Qed.

(** Row-major indices. *)
Lemma idx_lt i j h w : i < h -> j < w -> i * w + j < h * w.
Proof. intros. assert ((i + 1) * w <= h * w) by (apply Nat.mul_le_mono_r; lia). lia. Qed.

Lemma idx_inj i j i' j' w : j < w -> j' < w -> i * w + j = i' * w + j' -> i = i' /\ j = j'.
Proof.
  intros Hj Hj' E.
  assert (i = i').
  { destruct (Nat.lt_trichotomy i i') as [H|[H|H]]; [|assumption|].
    - assert ((i + 1) * w <= i' * w) by (apply Nat.mul_le_mono_r; lia). lia.
    - assert ((i' + 1) * w <= i * w) by (apply Nat.mul_le_mono_r; lia). lia. }
  subst. split; [reflexivity|lia].
Qed.

Lemma idx_eqb i j i' j' w : j < w -> j' < w -> (i * w + j =? i' * w + j') = (i =? i') && (j =? j').
Proof.
  intros Hj Hj'. destruct (Nat.eqb_spec (i * w + j) (i' * w + j')) as [E|E].
  - destruct (idx_inj _ _ _ _ _ Hj Hj' E) as [-> ->]. now rewrite !Nat.eqb_refl.
  - destruct (Nat.eqb_spec i i'), (Nat.eqb_spec j j'); subst; auto; congruence.
Qed.

(** Every index below h * w is a row-major pair. *)
Lemma idx_split k h w : k < h * w -> exists i j, i < h /\ j < w /\ k = i * w + j.
Proof.
  intros H. assert (w <> 0) by (intros ->; lia). exists (k / w), (k mod w).
  split; [apply Nat.div_lt_upper_bound; [assumption|lia]|].
  split; [now apply Nat.mod_upper_bound|]. rewrite (Nat.div_mod k w) at 1 by assumption. lia.
Qed.
