(** * Proofs about the row tables of the subhalo finder (crossMatch). *)
From Coq Require Import Lia List Permutation Sorting.Sorted.
From Verif Require Import LoopFacts ListFacts GridModel GridProofs.
Import ListNotations.
Local Open Scope nat_scope.

(** ** Rows stored back to back *)

Definition off (rows : list (list nat)) (i : nat) : nat := length (concat (firstn i rows)).
Definition pack (rows : list (list nat)) : Finder :=
  {| sf_starts := map (off rows) (seq 0 (length rows)); sf_subs := concat rows |}.

Lemma off_S rows i : off rows (S i) = off rows i + length (nth i rows []).
Proof.
  unfold off. revert i. induction rows as [|r rows IH]; intros i; [destruct i; reflexivity|].
  destruct i as [|i]; [cbn; rewrite app_nil_r; reflexivity|].
  rewrite (firstn_cons (S i)), (firstn_cons i). cbn [concat nth]. rewrite (app_length r (concat (firstn (S i) rows))), (app_length r (concat (firstn i rows))).
  rewrite IH. lia.
Qed.

Lemma off_end rows : off rows (length rows) = length (concat rows).
Proof. unfold off. now rewrite firstn_all. Qed.

Lemma off_mono rows i j : i <= j -> off rows i <= off rows j.
Proof. induction 1; [lia|]. rewrite off_S. lia. Qed.

Lemma concat_split (rows : list (list nat)) i : concat rows = concat (firstn i rows) ++ concat (skipn i rows).
Proof. rewrite <- concat_app. now rewrite firstn_skipn. Qed.

Lemma skipn_nth_cons {A} (l : list A) i d : i < length l -> skipn i l = nth i l d :: skipn (S i) l.
Proof.
  revert i; induction l as [|a l IH]; intros i H; [cbn in H; lia|]. destruct i; [reflexivity|].
  cbn [skipn nth]. rewrite IH by (cbn in H; lia). reflexivity.
Qed.

Lemma firstn_S_snoc {A} (l : list A) i d : i < length l -> firstn (S i) l = firstn i l ++ [nth i l d].
Proof.
  revert i; induction l as [|a l IH]; intros i H; [cbn in H; lia|]. destruct i; [reflexivity|].
  rewrite (firstn_cons (S i)), IH by (cbn in H; lia). reflexivity.
Qed.

Lemma row_at rows i k d : i < length rows -> k < length (nth i rows []) ->
  nth (off rows i + k) (concat rows) d = nth k (nth i rows []) d.
Proof.
  intros Hi Hk. rewrite (concat_split rows i). unfold off. rewrite app_nth2_plus.
  rewrite (skipn_nth_cons rows i []) by assumption. cbn [concat]. now rewrite app_nth1.
Qed.

Lemma start_end_gen starts total n i (f : nat -> nat) : length starts = n -> (forall k, k < n -> nth k starts 0 = f k) ->
  f n = total -> i < n -> start_end starts total i = Some (f i, f (S i)).
Proof.
  intros L H E Hi. unfold start_end. rewrite L.
  rewrite (rd_nth starts i 0) by lia. rewrite H by lia.
  destruct (Z.eqb_spec (Z.of_nat i) (Z.of_nat n - 1)) as [Q|Q].
  - replace (S i) with n by lia. now rewrite E.
  - rewrite (rd_nth starts (i + 1) 0) by lia. rewrite H by lia. now rewrite Nat.add_1_r.
Qed.

Lemma nth_map_seq (f : nat -> nat) n k : k < n -> nth k (map f (seq 0 n)) 0 = f k.
Proof.
  intros H. rewrite (nth_indep _ 0 (f 0)) by (rewrite map_length, seq_length; lia).
  rewrite map_nth, seq_nth by lia. reflexivity.
Qed.

Lemma pack_starts_len rows : length (sf_starts (pack rows)) = length rows.
Proof. cbn. now rewrite map_length, seq_length. Qed.

Lemma start_end_pack rows i : i < length rows ->
  start_end (sf_starts (pack rows)) (length (sf_subs (pack rows))) i = Some (off rows i, off rows (S i)).
Proof.
  intros H. apply start_end_gen with (n := length rows); [apply pack_starts_len| |apply off_end|assumption].
  intros k Hk. now apply nth_map_seq.
Qed.

Lemma sub_slice_pack rows i : i < length rows ->
  sub_slice (concat rows) (off rows i) (off rows (S i)) = Some (nth i rows []).
Proof.
  intros H. unfold sub_slice. pose proof (off_S rows i) as E. pose proof (off_mono rows (S i) (length rows) ltac:(lia)) as E2.
  rewrite off_end in E2.
  destruct (Nat.leb_spec (off rows i) (off rows (S i))); [|lia].
  destruct (Nat.leb_spec (off rows (S i)) (length (concat rows))); [|lia]. cbn [andb]. f_equal.
  rewrite (concat_split rows i).
  assert (Esk : forall l, skipn (off rows i) (concat (firstn i rows) ++ l) = l).
  { intros l. unfold off. rewrite skipn_app, skipn_all, Nat.sub_diag. reflexivity. }
  rewrite Esk.
  rewrite (skipn_nth_cons rows i []) by assumption. cbn [concat].
  replace (off rows (S i) - off rows i) with (length (nth i rows [])) by lia.
  rewrite firstn_app, Nat.sub_diag, firstn_all, app_nil_r. reflexivity.
Qed.

Lemma intersects_pack rows i : i < length rows -> intersects (pack rows) i = Some (nth i rows []).
Proof.
  intros H. unfold intersects. rewrite start_end_pack by assumption. cbn [fst snd]. now apply sub_slice_pack.
Qed.

Lemma intersect_count_pack rows i : i < length rows ->
  intersect_count (pack rows) i = Some (Z.of_nat (length (nth i rows []))).
Proof.
  intros H. unfold intersect_count. rewrite start_end_pack by assumption. cbn [fst snd].
  rewrite off_S. f_equal. lia.
Qed.

(** ** Loops over all entries *)

(** Go: the body is run on every entry of a list in turn. *)
Fixpoint efold {S A} (body : A -> S -> option S) (l : list A) (s : S) : option S :=
  match l with [] => Some s | a :: l' => match body a s with Some s' => efold body l' s' | None => None end end.

Lemma efold_app {S A} (body : A -> S -> option S) l1 l2 s :
  efold body (l1 ++ l2) s = match efold body l1 s with Some s' => efold body l2 s' | None => None end.
Proof. revert s; induction l1 as [|a l1 IH]; intros s; cbn; [reflexivity|]. destruct (body a s); auto. Qed.

Lemma efold_inv {S A} (P : list A -> S -> Prop) (body : A -> S -> option S) l s :
  P [] s ->
  (forall p a t, (exists q, l = p ++ a :: q) -> P p t -> exists t', body a t = Some t' /\ P (p ++ [a]) t') ->
  exists s', efold body l s = Some s' /\ P l s'.
Proof.
  intros H0 Hs.
  assert (G : forall q p t, l = p ++ q -> P p t -> exists s', efold body q t = Some s' /\ P l s').
  { induction q as [|a q IH]; intros p t E Hp.
    - rewrite app_nil_r in E. subst p. exists t. auto.
    - cbn. destruct (Hs p a t) as (t' & Et & Pt); [eauto|assumption|]. rewrite Et.
      apply (IH (p ++ [a]) t'); [rewrite <- app_assoc; exact E|exact Pt]. }
  apply (G l [] s); auto.
Qed.

Lemma loop_efold {S A} (l : list A) (d : A) (body : A -> S -> option S) s :
  loop (length l) (fun i s => body (nth i l d) s) s = efold body l s.
Proof.
  revert s. induction l as [|a l IH] using rev_ind; intros s; [reflexivity|].
  rewrite app_length. cbn [length]. rewrite Nat.add_1_r. cbn [loop].
  rewrite efold_app, <- IH.
  rewrite (loop_ext (length l) (fun i s => body (nth i (l ++ [a]) d) s) (fun i s => body (nth i l d) s)).
  - destruct (loop (length l) _ s); [|reflexivity]. rewrite nth_middle. cbn. destruct (body a s0); reflexivity.
  - intros i t Hi. now rewrite app_nth1.
Qed.

Lemma loop_seq {S} n (body : nat -> S -> option S) s : loop n body s = efold body (seq 0 n) s.
Proof.
  rewrite <- (loop_efold (seq 0 n) 0). rewrite seq_length. apply loop_ext. intros i t Hi. now rewrite seq_nth.
Qed.

Lemma efold_ext {S A} (b1 b2 : A -> S -> option S) l s : (forall a t, In a l -> b1 a t = b2 a t) -> efold b1 l s = efold b2 l s.
Proof.
  revert s; induction l as [|a l IH]; intros s H; [reflexivity|]. cbn. rewrite H by now left.
  destruct (b2 a s); [|reflexivity]. apply IH. intros; apply H; now right.
Qed.

Lemma efold_flat_map {S A B} (f : A -> list B) (body : B -> S -> option S) l s :
  efold body (flat_map f l) s = efold (fun a s => efold body (f a) s) l s.
Proof.
  revert s; induction l as [|a l IH]; intros s; [reflexivity|]. cbn. rewrite efold_app.
  destruct (efold body (f a) s); auto.
Qed.

Lemma efold_map {S A B} (f : A -> B) (body : B -> S -> option S) l s :
  efold body (map f l) s = efold (fun a s => body (f a) s) l s.
Proof. revert s; induction l as [|a l IH]; intros s; [reflexivity|]. cbn. destruct (body (f a) s); auto. Qed.

(** The (row, entry) pairs in storage order. *)
Definition pairs (rows : list (list nat)) : list (nat * nat) :=
  flat_map (fun ih => map (pair ih) (nth ih rows [])) (seq 0 (length rows)).

Lemma row_loop {S} rows (body : nat -> nat -> S -> option S) s :
  loop (length rows) (fun ih s =>
    do se <- start_end (sf_starts (pack rows)) (length (sf_subs (pack rows))) ih;
    loop_from (fst se) (snd se) (fun ish s => do sh <- rd (sf_subs (pack rows)) ish; body ih sh s) s) s
  = efold (fun p s => body (fst p) (snd p) s) (pairs rows) s.
Proof.
  rewrite loop_seq. unfold pairs. rewrite efold_flat_map. apply efold_ext. intros ih t Hin.
  apply in_seq in Hin. rewrite start_end_pack by lia. cbn [fst snd].
  rewrite efold_map. cbn [fst snd]. rewrite <- (loop_efold _ 0). unfold loop_from. rewrite off_S.
  replace (off rows ih + length (nth ih rows []) - off rows ih) with (length (nth ih rows [])) by lia.
  apply loop_ext. intros i u Hi. cbn [pack sf_subs].
  rewrite (rd_nth _ _ 0).
  2:{ pose proof (off_mono rows (Datatypes.S ih) (length rows) ltac:(lia)). rewrite off_end, off_S in H. lia. }
  rewrite row_at by lia. reflexivity.
Qed.

Lemma pairs_length rows : length (pairs rows) = length (concat rows).
Proof.
  unfold pairs. rewrite <- (off_end rows). induction (length rows) as [|n IH]; [reflexivity|].
  rewrite seq_S, flat_map_app, app_length, IH, off_S. cbn. rewrite app_nil_r, map_length. lia.
Qed.

Lemma pairs_In rows h s : In (h, s) (pairs rows) <-> h < length rows /\ In s (nth h rows []).
Proof.
  unfold pairs. rewrite in_flat_map. split.
  - intros (x & Hx & Hin). apply in_seq in Hx. apply in_map_iff in Hin. destruct Hin as (y & E & Hy).
    injection E as -> ->. split; [lia|assumption].
  - intros (H1 & H2). exists h. split; [apply in_seq; lia|]. apply in_map_iff. eauto.
Qed.

(** ** Counting *)

(** The rows that contain [s], in order, once for each occurrence. *)
Definition inv_of (p : list (nat * nat)) (s : nat) : list nat := map fst (filter (fun q => snd q =? s) p).

Lemma inv_of_snoc p h sh s : inv_of (p ++ [(h, sh)]) s = if sh =? s then inv_of p s ++ [h] else inv_of p s.
Proof.
  unfold inv_of. rewrite filter_app, map_app. cbn. destruct (sh =? s); cbn; [reflexivity|now rewrite app_nil_r].
Qed.

Lemma inv_of_In p s h : In h (inv_of p s) <-> In (h, s) p.
Proof.
  unfold inv_of. rewrite in_map_iff. split.
  - intros ((h' & s') & E & Hin). cbn in E. subst h'. apply filter_In in Hin. destruct Hin as (Hin & E).
    cbn in E. apply Nat.eqb_eq in E. now subst s'.
  - intros H. exists (h, s). split; [reflexivity|]. apply filter_In. split; [assumption|]. cbn. apply Nat.eqb_refl.
Qed.

(** The table of the inverse rows. *)
Definition invrows (p : list (nat * nat)) (n : nat) : list (list nat) := map (inv_of p) (seq 0 n).

Lemma invrows_length p n : length (invrows p n) = n.
Proof. unfold invrows. now rewrite map_length, seq_length. Qed.

Lemma invrows_nth p n s : s < n -> nth s (invrows p n) [] = inv_of p s.
Proof.
  intros H. unfold invrows. rewrite (nth_indep _ [] (inv_of p 0)) by (rewrite map_length, seq_length; lia).
  rewrite map_nth, seq_nth by lia. reflexivity.
Qed.

Lemma invrows_total p n : (forall q, In q p -> snd q < n) -> length (concat (invrows p n)) = length p.
Proof.
  intros H. induction p as [|[h s] p IH] using rev_ind.
  - unfold invrows. induction n as [|n IHn]; [reflexivity|]. rewrite seq_S, map_app, concat_app, app_length.
    rewrite IHn by (intros q []). reflexivity.
  - assert (Hs : s < n) by (apply (H (h, s)); apply in_or_app; right; now left).
    rewrite app_length. cbn [length].
    rewrite <- IH by (intros q Hq; apply H; apply in_or_app; now left).
    clear IH H. rewrite <- !(off_end (invrows _ n)), !invrows_length.
    assert (G : forall k, k <= n -> off (invrows (p ++ [(h, s)]) n) k = off (invrows p n) k + (if s <? k then 1 else 0)).
    { induction k as [|k IHk]; intros Hk; [reflexivity|]. rewrite !off_S, IHk by lia.
      rewrite !invrows_nth by lia. rewrite inv_of_snoc.
      destruct (Nat.eqb_spec s k) as [->|Ne].
      - rewrite app_length. cbn [length]. destruct (Nat.ltb_spec k k), (Nat.ltb_spec k (S k)); lia.
      - destruct (Nat.ltb_spec s k), (Nat.ltb_spec s (S k)); lia. }
    rewrite G by lia. destruct (Nat.ltb_spec s n); lia.
Qed.

Section Cross.
Variable rows : list (list nat).
Let n := length rows.
Let P := pairs rows.
Hypothesis Hr : forall h s, h < n -> In s (nth h rows []) -> s < n.

Lemma P_lt q : In q P -> fst q < n /\ snd q < n.
Proof. destruct q as [h s]. intros H. apply pairs_In in H. cbn. split; [apply H|]. eapply Hr; apply H. Qed.

Lemma count_hosts_ok : count_hosts (pack rows) = Some (map (fun s => length (inv_of P s)) (seq 0 n)).
Proof.
  unfold count_hosts. rewrite pack_starts_len. fold n.
  rewrite (row_loop rows (fun ih sh counts => do k <- rd counts sh; wr counts sh (k + 1))). fold P.
  destruct (efold_inv (fun p (c : list nat) => length c = n /\ forall s, s < n -> nth s c 0 = length (inv_of p s))
     (fun p counts => do k <- rd counts (snd p); wr counts (snd p) (k + 1)) P (repeat 0 n)) as (c & E & L & Hc).
  - split; [apply repeat_length|]. intros s _. rewrite nth_repeat. reflexivity.
  - intros p [h sh] t (q & Eq) (L & Ht). cbn [snd].
    assert (Hsh : sh < n). { apply (P_lt (h, sh)). rewrite Eq. apply in_or_app. right. now left. }
    rewrite (rd_nth t sh 0) by lia. destruct (wr_some t sh (nth sh t 0 + 1) 0) as (t' & E & L' & N'); [lia|].
    rewrite E. exists t'. split; [reflexivity|]. split; [lia|]. intros s Hs. rewrite N', inv_of_snoc.
    rewrite (Nat.eqb_sym sh s). destruct (Nat.eqb_spec s sh) as [->|_]; [|now apply Ht].
    rewrite app_length, (Ht sh Hsh). reflexivity.
  - rewrite E. f_equal. apply (nth_ext _ _ 0 0).
    + rewrite map_length, seq_length. exact L.
    + intros s Hs. rewrite L in Hs. rewrite Hc by assumption. symmetry. now apply (nth_map_seq (fun s => length (inv_of P s))).
Qed.

Let IR := invrows P n.

Lemma prefix_starts_ok :
  prefix_starts (map (fun s => length (inv_of P s)) (seq 0 n)) = Some (map (off IR) (seq 0 n)).
Proof.
  unfold prefix_starts. rewrite map_length, seq_length.
  destruct (Nat.eq_dec n 0) as [E0|Hn]. { rewrite E0. reflexivity. }
  destruct (loop_from_inv (fun i hs => length hs = n /\ forall k, k < i -> nth k hs 0 = off IR k) 1 n
    (fun i hs => do a <- rd hs (i - 1); do b <- rd (map (fun s => length (inv_of P s)) (seq 0 n)) (i - 1); wr hs i (a + b))
    (repeat 0 n)) as (hs & E & L & Hh).
  - lia.
  - split; [apply repeat_length|]. intros k Hk. assert (k = 0) by lia. subst k. rewrite nth_repeat. reflexivity.
  - intros i t Hi (L & Ht). rewrite (rd_nth t (i - 1) 0) by lia.
    rewrite (rd_nth _ (i - 1) 0) by (rewrite map_length, seq_length; lia).
    rewrite (nth_map_seq (fun s => length (inv_of P s))) by lia.
    match goal with |- context [wr t i ?v] => destruct (wr_some t i v 0) as (t' & E & L' & N'); [lia|] end.
    rewrite E. exists t'. split; [reflexivity|]. split; [lia|]. intros k Hk. rewrite N'.
    destruct (Nat.eqb_spec k i) as [->|Ne]; [|apply Ht; lia]. rewrite Ht by lia.
    pose proof (off_S IR (i - 1)) as OS. replace (S (i - 1)) with i in OS by lia. rewrite OS.
    assert (EI : nth (i - 1) IR [] = inv_of P (i - 1)) by (unfold IR; apply invrows_nth; lia). now rewrite EI.
  - rewrite E. f_equal. apply (nth_ext _ _ 0 0).
    + rewrite map_length, seq_length. exact L.
    + intros s Hs. rewrite L in Hs. rewrite Hh by assumption. symmetry. now apply nth_map_seq.
Qed.

Lemma IR_total : length (concat IR) = length (concat rows).
Proof. unfold IR. rewrite invrows_total; [apply pairs_length|]. intros q Hq. now apply P_lt. Qed.

Lemma off_lt_row (R : list (list nat)) i k : i < length R -> k < length (nth i R []) -> off R i + k < length (concat R).
Proof.
  intros H1 H2. pose proof (off_mono R (S i) (length R) ltac:(lia)) as E. rewrite off_end, off_S in E. lia.
Qed.

Lemma off_inj (R : list (list nat)) i k i' k' : k < length (nth i R []) -> k' < length (nth i' R []) ->
  off R i + k = off R i' + k' -> i = i' /\ k = k'.
Proof.
  intros H1 H2 E. destruct (Nat.lt_trichotomy i i') as [Q|[Q|Q]].
  - pose proof (off_mono R (S i) i' ltac:(lia)) as E1. rewrite off_S in E1. lia.
  - subst i'. lia.
  - pose proof (off_mono R (S i') i ltac:(lia)) as E1. rewrite off_S in E1. lia.
Qed.

Lemma inv_of_prefix p q s : exists r, inv_of (p ++ q) s = inv_of p s ++ r.
Proof. unfold inv_of. rewrite filter_app, map_app. eauto. Qed.

Lemma row_of_index (R : list (list nat)) m : m < length (concat R) ->
  exists i k, i < length R /\ k < length (nth i R []) /\ m = off R i + k.
Proof.
  intros H. rewrite <- off_end in H.
  assert (G : forall j, j <= length R -> m < off R j -> exists i k, i < length R /\ k < length (nth i R []) /\ m = off R i + k).
  { induction j as [|j IH]; intros Hj Hm; [cbn in Hm; lia|].
    destruct (Nat.lt_ge_cases m (off R j)) as [Q|Q]; [apply IH; lia|].
    exists j, (m - off R j). rewrite off_S in Hm. split; [lia|]. split; lia. }
  apply (G (length R)); auto.
Qed.

Lemma fill_hosts_ok : exists hs, fill_hosts (pack rows) (map (off IR) (seq 0 n)) = Some (concat IR, hs) /\
  length hs = n /\ forall s, s < n -> nth s hs 0 = off IR s + length (inv_of P s).
Proof.
  unfold fill_hosts. rewrite pack_starts_len. fold n.
  pose (body := fun (p : nat * nat) (st : list nat * list nat) =>
     let '(hosts, hs) := st in do k <- rd hs (snd p); do hosts' <- wr hosts k (fst p); do hs' <- wr hs (snd p) (k + 1); Some (hosts', hs')).
  match goal with |- exists _, ?L = _ /\ _ => assert (EQ : L = efold body P (repeat 0 (length (sf_subs (pack rows))), map (off IR) (seq 0 n))) end.
  { unfold P. rewrite <- (row_loop rows (fun ih sh st => body (ih, sh) st)). apply loop_ext. intros i t Hi.
    rewrite start_end_pack by assumption. unfold loop_from. apply loop_ext. intros j [a b] Hj. reflexivity. }
  rewrite EQ. clear EQ. cbn [pack sf_subs].
  destruct (efold_inv (fun p (st : list nat * list nat) => length (fst st) = length (concat rows) /\ length (snd st) = n /\
     (forall s, s < n -> nth s (snd st) 0 = off IR s + length (inv_of p s)) /\
     (forall s k, s < n -> k < length (inv_of p s) -> nth (off IR s + k) (fst st) 0 = nth k (inv_of p s) 0))
     body P (repeat 0 (length (concat rows)), map (off IR) (seq 0 n))) as ([hosts hs] & E & L1 & L2 & H1 & H2).
  - cbn [fst snd]. split; [apply repeat_length|]. split; [now rewrite map_length, seq_length|].
    split; [|intros s k _ Hk; cbn in Hk; lia]. intros s Hs. rewrite nth_map_seq by assumption. cbn. lia.
  - intros p [h sh] [hosts hs] (q & Eq) (L1 & L2 & H1 & H2). cbn [fst snd] in *.
    assert (Hsh : sh < n). { apply (P_lt (h, sh)). rewrite Eq. apply in_or_app. right. now left. }
    unfold body. cbn [fst snd]. rewrite (rd_nth hs sh 0) by lia. rewrite H1 by assumption.
    assert (Hpre : forall s, length (inv_of p s) + (if sh =? s then 1 else 0) <= length (nth s IR []) \/ n <= s).
    { intros s. destruct (Nat.lt_ge_cases s n) as [Hs|]; [left|now right]. unfold IR. rewrite invrows_nth by assumption.
      rewrite Eq. replace (p ++ (h, sh) :: q) with ((p ++ [(h, sh)]) ++ q) by (rewrite <- app_assoc; reflexivity).
      destruct (inv_of_prefix (p ++ [(h, sh)]) q s) as (r & Er). rewrite Er, app_length, inv_of_snoc.
      destruct (sh =? s); [rewrite app_length; cbn [length]|]; lia. }
    assert (Hk : length (inv_of p sh) < length (nth sh IR [])). { destruct (Hpre sh) as [Q|Q]; [rewrite Nat.eqb_refl in Q; lia|lia]. }
    assert (Hlt : off IR sh + length (inv_of p sh) < length (concat rows)).
    { rewrite <- IR_total. apply off_lt_row; [unfold IR; rewrite invrows_length; assumption|assumption]. }
    destruct (wr_some hosts (off IR sh + length (inv_of p sh)) h 0) as (hosts' & E1 & L1' & N1); [lia|]. rewrite E1.
    destruct (wr_some hs sh (off IR sh + length (inv_of p sh) + 1) 0) as (hs' & E2 & L2' & N2); [lia|]. rewrite E2.
    eexists. split; [reflexivity|]. cbn [fst snd]. split; [lia|]. split; [lia|]. split.
    + intros s Hs. rewrite N2, inv_of_snoc. rewrite (Nat.eqb_sym sh s). destruct (Nat.eqb_spec s sh) as [->|_].
      * rewrite app_length. cbn [length]. lia.
      * now apply H1.
    + intros s k Hs. rewrite inv_of_snoc, N1.
      destruct (Nat.eqb_spec sh s) as [->|Ne].
      * rewrite app_length. cbn [length]. intros Hk'.
        destruct (Nat.eqb_spec (off IR s + k) (off IR s + length (inv_of p s))) as [Q|Q].
        -- assert (k = length (inv_of p s)) by lia. subst k. rewrite nth_middle. reflexivity.
        -- rewrite app_nth1 by lia. apply H2; lia.
      * intros Hk'. destruct (Nat.eqb_spec (off IR s + k) (off IR sh + length (inv_of p sh))) as [Q|Q].
        -- exfalso. apply Ne. symmetry. eapply (off_inj IR s k sh); [|exact Hk|exact Q].
           destruct (Hpre s) as [Q2|Q2]; lia.
        -- now apply H2.
  - exists hs. cbn [fst snd] in *. split; [|split; [exact L2|exact H1]]. rewrite E. repeat f_equal.
    apply (nth_ext _ _ 0 0); [rewrite IR_total; exact L1|].
    intros m Hm. destruct (row_of_index IR m) as (s & k & A & B & ->). { rewrite IR_total. lia. }
    assert (Hs : s < n) by (unfold IR in A; rewrite invrows_length in A; exact A).
    rewrite row_at by assumption. unfold IR at 2. rewrite invrows_nth by assumption. apply H2; [assumption|].
    unfold IR in B. rewrite invrows_nth in B by assumption. exact B.
Qed.

Lemma restore_starts_ok hs : length hs = n -> (forall s, s < n -> nth s hs 0 = off IR s + length (inv_of P s)) ->
  restore_starts (map (fun s => length (inv_of P s)) (seq 0 n)) hs = Some (map (off IR) (seq 0 n)).
Proof.
  intros L H. unfold restore_starts. rewrite map_length, seq_length.
  destruct (loop_inv (fun i h => length h = n /\ (forall k, k < n -> nth k h 0 = if k <? i then off IR k else nth k hs 0)) n
    (fun i hs => do a <- rd hs i; do b <- rd (map (fun s => length (inv_of P s)) (seq 0 n)) i; wr hs i (a - b)) hs)
    as (h & E & Lh & Hh).
  - split; [exact L|]. reflexivity.
  - intros i t Hi (Lt & Ht). rewrite (rd_nth t i 0) by lia.
    rewrite (rd_nth _ i 0) by (rewrite map_length, seq_length; lia).
    rewrite (nth_map_seq (fun s => length (inv_of P s))) by lia.
    match goal with |- context [wr t i ?v] => destruct (wr_some t i v 0) as (t' & E & L' & N'); [lia|] end.
    rewrite E. exists t'. split; [reflexivity|]. split; [lia|]. intros k Hk. rewrite N'.
    rewrite !Ht by lia. destruct (Nat.eqb_spec k i) as [->|Ne].
    + destruct (Nat.ltb_spec i i); [lia|]. destruct (Nat.ltb_spec i (S i)); [|lia]. rewrite H by assumption. lia.
    + destruct (Nat.ltb_spec k i), (Nat.ltb_spec k (S i)); lia || reflexivity.
  - rewrite E. f_equal. apply (nth_ext _ _ 0 0).
    + rewrite map_length, seq_length. exact Lh.
    + intros s Hs. rewrite Lh in Hs. rewrite Hh by assumption. rewrite nth_map_seq by assumption.
      destruct (Nat.ltb_spec s n); [reflexivity|lia].
Qed.

Lemma upd_mid {A} (l r : list A) a v : upd (l ++ a :: r) (length l) v = Some (l ++ v :: r).
Proof. induction l as [|b l IH]; [reflexivity|]. cbn [app length upd]. now rewrite IH. Qed.

Lemma copy_run_ok (R : list (list nat)) i pre rest : i < length R -> length (nth i R []) <= length rest ->
  copy_run (concat R) (off R i, off R (S i)) (length pre, pre ++ rest)
  = Some (length pre + length (nth i R []), pre ++ nth i R [] ++ skipn (length (nth i R [])) rest).
Proof.
  intros Hi Hl. unfold copy_run. cbn [fst snd]. set (r := nth i R []) in *.
  destruct (loop_from_inv (fun j (st : nat * list nat) => st = (length pre + (j - off R i),
       pre ++ firstn (j - off R i) r ++ skipn (j - off R i) rest)) (off R i) (off R (S i))
     (fun ish st => let '(j, dst) := st in do v <- rd (concat R) ish; do dst' <- wr dst j v; Some (j + 1, dst'))
     (length pre, pre ++ rest)) as (s & E & Hs).
  - rewrite off_S. lia.
  - rewrite Nat.sub_diag, Nat.add_0_r. reflexivity.
  - rewrite off_S. intros j t Hj ->.
    rewrite (rd_nth (concat R) j 0). 2:{ pose proof (off_mono R (S i) (length R) ltac:(lia)) as Q. rewrite off_end, off_S in Q. lia. }
    assert (E : nth j (concat R) 0 = nth (j - off R i) r 0).
    { replace j with (off R i + (j - off R i)) at 1 by lia. apply row_at; [assumption|]. fold r in Hj |- *. lia. }
    rewrite E. fold r in Hj. set (m := j - off R i) in *. replace (S j - off R i) with (S m) by lia.
    assert (Hm : m < length r) by lia.
    rewrite (skipn_nth_cons rest m 0) by lia.
    assert (Ew : forall v, wr (pre ++ firstn m r ++ nth m rest 0 :: skipn (S m) rest) (length pre + m) v
       = Some (pre ++ firstn m r ++ v :: skipn (S m) rest)).
    { intros v. rewrite !app_assoc. unfold wr.
      replace (length pre + m) with (length (pre ++ firstn m r)) by (rewrite app_length, firstn_length; lia).
      apply upd_mid. }
    rewrite Ew. eexists. split; [reflexivity|]. rewrite (firstn_S_snoc r m 0) by assumption.
    rewrite <- app_assoc. cbn [app]. f_equal. lia.
  - rewrite E. f_equal. rewrite Hs, off_S. fold r.
    replace (off R i + length r - off R i) with (length r) by lia. now rewrite firstn_all.
Qed.

(** The merged rows. *)
Definition merged : list (list nat) := map (fun i => inv_of P i ++ nth i rows []) (seq 0 n).

Lemma merged_length : length merged = n.
Proof. unfold merged. now rewrite map_length, seq_length. Qed.

Lemma merged_nth i : i < n -> nth i merged [] = inv_of P i ++ nth i rows [].
Proof.
  intros H. unfold merged. rewrite (nth_indep _ [] (inv_of P 0 ++ nth 0 rows [])) by (rewrite map_length, seq_length; lia).
  rewrite (map_nth (fun i => inv_of P i ++ nth i rows [])), seq_nth by lia. reflexivity.
Qed.

Lemma off_merged i : i <= n -> off merged i = off IR i + off rows i.
Proof.
  induction i as [|i IH]; intros H; [reflexivity|]. rewrite !off_S, IH by lia. rewrite merged_nth by lia.
  assert (EI : nth i IR [] = inv_of P i) by (unfold IR; apply invrows_nth; lia). rewrite EI, app_length. lia.
Qed.

Lemma firstn_concat_off (R : list (list nat)) i : i <= length R -> length (concat (firstn i R)) = off R i.
Proof. reflexivity. Qed.

Lemma concat_firstn_S (R : list (list nat)) i : i < length R -> concat (firstn (S i) R) = concat (firstn i R) ++ nth i R [].
Proof. intros H. rewrite (firstn_S_snoc R i []) by assumption. rewrite concat_app. cbn. now rewrite app_nil_r. Qed.

Lemma repeat_skipn {A} (a : A) m k : skipn k (repeat a m) = repeat a (m - k).
Proof. revert k; induction m as [|m IH]; intros k; [now rewrite skipn_nil|]. destruct k; [reflexivity|]. cbn. apply IH. Qed.

Lemma merge_rows_ok :
  merge_rows (pack rows) (concat IR) (map (off IR) (seq 0 n)) (map (fun s => length (inv_of P s)) (seq 0 n))
  = Some (pack merged).
Proof.
  unfold merge_rows. rewrite map_length, seq_length. rewrite pack_starts_len. fold n. cbn [pack sf_subs].
  set (T := length (concat IR) + length (concat rows)).
  assert (ET : T = off merged n) by (rewrite off_merged by lia; unfold T; rewrite <- !off_end; unfold IR at 2; rewrite invrows_length; reflexivity).
  match goal with |- (do r <- loop n ?body ?s0; _) = _ => 
  destruct (loop_inv (fun i (st : nat * list nat * list nat) =>
     fst st = (off merged i, concat (firstn i merged) ++ repeat 0 (T - off merged i)) /\ length (snd st) = n /\
     forall k, k < i -> nth k (snd st) 0 = off merged k) n body s0) as ([[j subs] starts] & E & H1 & H2 & H3) end.
  - cbn [fst snd]. split; [|split; [apply repeat_length|lia]]. cbn. now rewrite Nat.sub_0_r.
  - intros i [[j subs] starts] Hi (H1 & H2 & H3). cbn [fst snd] in H1, H2, H3. injection H1 as -> ->.
    destruct (wr_some starts i (off merged i) 0) as (starts' & Ew & Lw & Nw); [lia|]. rewrite Ew.
    assert (E1 : start_end (map (off IR) (seq 0 n)) (length (concat rows)) i = Some (off IR i, off IR (S i))).
    { apply start_end_gen with (n := n); [now rewrite map_length, seq_length| | |assumption].
      - intros k Hk. now apply nth_map_seq.
      - rewrite <- IR_total, <- off_end. unfold IR. now rewrite invrows_length. }
    rewrite E1.
    assert (Hm : off merged (S i) <= T) by (rewrite ET; apply off_mono; lia).
    pose proof (off_S merged i) as OS. rewrite merged_nth, app_length in OS by assumption.
    assert (EI : nth i IR [] = inv_of P i) by (unfold IR; now rewrite invrows_nth).
    assert (LI : i < length IR) by (unfold IR; now rewrite invrows_length).
    pose proof (copy_run_ok IR i (concat (firstn i merged)) (repeat 0 (T - off merged i)) LI) as C1.
    rewrite EI, repeat_length, repeat_skipn in C1. fold (off merged i) in C1. rewrite C1 by lia. clear C1.
    change (map (off rows) (seq 0 n)) with (sf_starts (pack rows)).
    change (concat rows) with (sf_subs (pack rows)) at 1. rewrite start_end_pack by assumption.
    pose proof (copy_run_ok rows i (concat (firstn i merged) ++ inv_of P i) (repeat 0 (T - off merged i - length (inv_of P i))) Hi) as C2.
    rewrite app_length, <- app_assoc, repeat_length, repeat_skipn in C2. fold (off merged i) in C2. rewrite C2 by lia. clear C2.
    eexists. split; [reflexivity|]. cbn [fst snd]. split; [|split; [lia|]].
    + rewrite OS. f_equal; [lia|]. rewrite concat_firstn_S by (rewrite merged_length; assumption).
      rewrite merged_nth by assumption. rewrite <- !app_assoc. do 3 f_equal. f_equal. lia.
    + intros k Hk. rewrite Nw. destruct (Nat.eqb_spec k i) as [->|Ne]; [reflexivity|]. apply H3. lia.
  - match goal with |- (do r <- ?L; _) = _ => replace L with (Some (j, subs, starts)) by (symmetry; exact E) end.
    cbn [fst snd] in *. injection H1 as -> ->. f_equal. unfold pack. f_equal.
    + apply (nth_ext _ _ 0 0); [rewrite map_length, seq_length, merged_length; exact H2|].
      intros k Hk. rewrite H2 in Hk. rewrite H3 by assumption. rewrite merged_length. symmetry. now apply nth_map_seq.
    + rewrite ET, Nat.sub_diag. cbn. rewrite app_nil_r. rewrite <- merged_length. now rewrite firstn_all.
Qed.
End Cross.

(** ** Sorting *)

Lemma ins_perm a l : Permutation (ins a l) (a :: l).
Proof.
  induction l as [|b l IH]; cbn; [auto|]. destruct (a <=? b); [auto|].
  etransitivity; [apply perm_skip, IH|apply perm_swap].
Qed.

Lemma isort_perm l : Permutation (isort l) l.
Proof. induction l as [|a l IH]; cbn; [auto|]. etransitivity; [apply ins_perm|now apply perm_skip]. Qed.

Lemma isort_length l : length (isort l) = length l.
Proof. apply Permutation_length, isort_perm. Qed.

Lemma ins_sorted a l : Sorted le l -> Sorted le (ins a l).
Proof.
  induction 1 as [|b l Hl IH Hd]; cbn; [repeat constructor|].
  destruct (Nat.leb_spec a b) as [H|H]; [repeat constructor; auto|].
  constructor; [exact IH|]. destruct l as [|c l]; cbn; [constructor; lia|].
  destruct (a <=? c); [constructor; lia|]. inversion Hd; subst. now constructor.
Qed.

Lemma isort_sorted l : Sorted le (isort l).
Proof. induction l as [|a l IH]; cbn; [constructor|]. now apply ins_sorted. Qed.

Lemma off_map_isort rows i : off (map isort rows) i = off rows i.
Proof.
  induction i as [|i IH]; [reflexivity|]. rewrite !off_S, IH.
  change (@nil nat) with (isort []) at 1. rewrite map_nth, isort_length. reflexivity.
Qed.

Lemma firstn_map' {A B} (f : A -> B) n l : firstn n (map f l) = map f (firstn n l).
Proof. revert l; induction n as [|n IH]; intros [|a l]; cbn; [reflexivity..|]. now rewrite IH. Qed.

Lemma sort_rows_ok rows : sort_rows (pack rows) = Some (pack (map isort rows)).
Proof.
  unfold sort_rows. rewrite pack_starts_len.
  destruct (loop_inv (fun i subs => subs = concat (map isort (firstn i rows)) ++ concat (skipn i rows)) (length rows)
    (fun i subs => do se <- start_end (sf_starts (pack rows)) (length subs) i;
      do m <- sub_slice subs (fst se) (snd se);
      Some (firstn (fst se) subs ++ isort m ++ skipn (snd se) subs)) (sf_subs (pack rows))) as (s & E & Hs).
  - reflexivity.
  - intros i t Hi ->.
    assert (L1 : length (concat (map isort (firstn i rows))) = off rows i).
    { rewrite <- off_map_isort. unfold off. now rewrite firstn_map'. }
    assert (Es : concat (skipn i rows) = nth i rows [] ++ concat (skipn (S i) rows)) by (rewrite (skipn_nth_cons rows i []) by assumption; reflexivity).
    assert (L2 : length (concat (map isort (firstn i rows)) ++ concat (skipn i rows)) = length (sf_subs (pack rows))).
    { rewrite app_length, L1. cbn [pack sf_subs]. rewrite (concat_split rows i), app_length. reflexivity. }
    rewrite L2, start_end_pack by assumption. cbn [fst snd].
    pose proof (off_S rows i) as OS.
    set (A := concat (map isort (firstn i rows))) in *. rewrite Es. set (B := nth i rows []) in *. set (C := concat (skipn (S i) rows)).
    assert (ESS : sub_slice (A ++ B ++ C) (off rows i) (off rows (S i)) = Some B).
    { unfold sub_slice. rewrite OS, <- L1. rewrite !app_length.
      destruct (Nat.leb_spec (length A) (length A + length B)); [|lia].
      destruct (Nat.leb_spec (length A + length B) (length A + (length B + length C))); [|lia]. cbn [andb]. f_equal.
      rewrite skipn_app, skipn_all, Nat.sub_diag. cbn [app skipn].
      replace (length A + length B - length A) with (length B) by lia.
      rewrite firstn_app, Nat.sub_diag, firstn_all, app_nil_r. reflexivity. }
    rewrite ESS. eexists. split; [reflexivity|].
    rewrite OS, <- L1. rewrite firstn_app, Nat.sub_diag, firstn_all, app_nil_r.
    rewrite skipn_app. rewrite skipn_all2 by lia.
    replace (length A + length B - length A) with (length B) by lia.
    rewrite skipn_app, skipn_all, Nat.sub_diag. cbn [app skipn].
    rewrite (firstn_S_snoc rows i []) by assumption. rewrite map_app, concat_app. cbn [map concat]. rewrite app_nil_r, <- app_assoc. reflexivity.
  - rewrite E, Hs. rewrite firstn_all, skipn_all. cbn. rewrite app_nil_r. unfold pack.
    rewrite map_length. do 2 f_equal. apply map_ext. intros i. now rewrite off_map_isort.
Qed.

Lemma cross_match_ok rows : (forall h s, h < length rows -> In s (nth h rows []) -> s < length rows) ->
  cross_match (pack rows) = Some (pack (map isort (merged rows))).
Proof.
  intros Hr. unfold cross_match. rewrite (count_hosts_ok rows Hr), prefix_starts_ok by assumption.
  destruct (fill_hosts_ok rows Hr) as (hs & E & L & H). rewrite E.
  rewrite (restore_starts_ok rows Hr hs L H). rewrite (merge_rows_ok rows Hr). apply sort_rows_ok.
Qed.
