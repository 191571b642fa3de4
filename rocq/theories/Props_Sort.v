(** * Properties C11-C13: math/sort. *)
From Coq Require Import Permutation Sorted.
From Verif Require Import GoBase SortModel SortProofs SortProofs2.
Local Open Scope list_scope.

(** C11. Shell and Quick return (no panic, no infinite loop) an ascending permutation of any input. *)
Theorem C11_shell_sorts : forall (A : Type) (lt : A -> A -> bool) (xs : list A), total_preorder lt ->
  exists ys, Shell A lt xs = Some ys /\ Permutation xs ys /\ StronglySorted (fun a b => lt b a = false) ys.
Proof. intros A lt xs H. exact (Shell_sorts A lt H xs). Qed.
Print Assumptions C11_shell_sorts.

Theorem C11_quick_sorts : forall (A : Type) (lt : A -> A -> bool) (xs : list A), total_preorder lt ->
  exists ys, Quick A lt xs = Some ys /\ Permutation xs ys /\ StronglySorted (fun a b => lt b a = false) ys.
Proof. intros A lt xs H. exact (Quick_sorts A lt H xs). Qed.
Print Assumptions C11_quick_sorts.

Theorem C11_reverse_reverses : forall (A : Type) (xs : list A), Reverse A xs = Some (rev xs).
Proof. exact Reverse_spec. Qed.
Print Assumptions C11_reverse_reverses.

Lemma natlt_preorder : total_preorder Nat.ltb.
Proof.
  split; intros.
  - apply Nat.ltb_lt in H. apply Nat.ltb_ge. lia.
  - apply Nat.ltb_ge in H. apply Nat.ltb_ge in H0. apply Nat.ltb_ge. lia.
Qed.
Example C11_nonvacuous : total_preorder Nat.ltb /\
  Quick nat Nat.ltb (map (fun i => (i * 17) mod 31) (seq 0 31)) = Some (seq 0 31) /\ Shell nat Nat.ltb [3; 1; 2; 1] = Some [1; 1; 2; 3].
Proof. split; [exact natlt_preorder|]. split; reflexivity. Qed.

(** C12. *)
Theorem C12_nth_largest : forall (A : Type) (lt : A -> A -> bool) (xs : list A) (n : Z) (buf : option (list A)), total_preorder lt ->
  (1 <= n <= Z.of_nat (List.length xs))%Z -> (forall b, buf = Some b -> List.length b = List.length xs) ->
  exists r scratch, NthLargest A lt xs n buf = Some (r, scratch) /\ Permutation xs scratch /\
    forall s, Permutation xs s -> StronglySorted (fun a b => lt b a = false) s ->
      exists r', nth_error s (List.length xs - Z.to_nat n) = Some r' /\ lt r r' = false /\ lt r' r = false.
Proof.
  intros A lt xs n buf H Hn Hb. destruct (NthLargest_spec A lt H xs n buf Hn Hb) as (r & ys & E & P & R).
  exists r, ys. split; [exact E|]. split; [exact P|]. intros s Ps Ss.
  destruct (ranked_sorted A lt H xs n r R) as (s' & Hs' & Hr).
  destruct (nth_error s (List.length xs - Z.to_nat n)) as [r'|] eqn:Er.
  - exists r'. split; [reflexivity|]. destruct (sort_entry_unique A lt H xs s' s _ r r' Hs' (conj Ps Ss) Hr Er) as [H1 H2]. split; assumption.
  - exfalso. apply nth_error_None in Er. rewrite <- (Permutation_length Ps) in Er. lia.
Qed.
Print Assumptions C12_nth_largest.

(** The buffer argument never changes the answer. *)
Theorem C12_buffer_is_irrelevant : forall (A : Type) (lt : A -> A -> bool) (xs b : list A) (n : Z),
  List.length b = List.length xs -> NthLargest A lt xs n (Some b) = NthLargest A lt xs n None.
Proof. intros A lt xs b n H. unfold NthLargest. rewrite H, Nat.eqb_refl. reflexivity. Qed.
Print Assumptions C12_buffer_is_irrelevant.

Example C12_nonvacuous : exists s, NthLargest nat Nat.ltb [5; 1; 4; 2; 3] 2 None = Some (4, s).
Proof. eexists. reflexivity. Qed.

(** C13. At least half of the values on either side. *)
Definition is_median {A} (lt : A -> A -> bool) (xs : list A) (r : A) : Prop :=
  List.length xs <= 2 * List.length (filter (fun a => negb (lt r a)) xs) /\
  List.length xs <= 2 * List.length (filter (fun a => negb (lt a r)) xs).

Lemma filter_perm {A} (f : A -> bool) l l' : Permutation l l' -> List.length (filter f l) = List.length (filter f l').
Proof.
  intros HP. induction HP; cbn; [reflexivity| | |congruence].
  - destruct (f x); cbn; congruence.
  - destruct (f x), (f y); cbn; congruence.
Qed.
Lemma filter_all {A} (f : A -> bool) l : Forall (fun a => f a = true) l -> filter f l = l.
Proof. induction 1 as [|a l Ha H IH]; [reflexivity|]. cbn. rewrite Ha, IH. reflexivity. Qed.

(** Median of an even number of values is a median; of 2k+1 values (k >= 1) it is the k-th largest, one too high. Missing
    from the full C13: odd lengths above one (refuted below). *)
Theorem C13_median_even_partial : forall (A : Type) (lt : A -> A -> bool) (xs : list A) (buf : option (list A)), total_preorder lt ->
  xs <> [] -> Nat.Even (List.length xs) \/ List.length xs = 1 -> (forall b, buf = Some b -> List.length b = List.length xs) ->
  exists r scratch, Median A lt xs buf = Some (r, scratch) /\ is_median lt xs r.
Proof.
  intros A lt xs buf H Hne He Hb. unfold Median. destruct xs as [|x xs']; [congruence|]. destruct He as [He|He].
  - remember (x :: xs') as xs. destruct He as (k & Hk).
    assert (Ed : Nat.div (List.length xs) 2 = k) by (rewrite Hk, Nat.mul_comm, Nat.div_mul; lia). rewrite Ed.
    assert (1 <= k) by (subst xs; cbn in Hk; lia).
    destruct (NthLargest_spec A lt H xs (Z.of_nat k) buf) as (r & ys & E & P & (lo & hi & PR & FL & FH & LH)); [lia|exact Hb|].
    exists r, ys. split; [exact E|]. assert (LX := Permutation_length PR). rewrite app_length in LX. cbn in LX.
    unfold is_median. rewrite !(filter_perm _ _ _ PR), !filter_app. cbn [filter].
    assert (Hrr : lt r r = false) by (apply (le_refl A lt H)). rewrite Hrr. cbn [negb]. rewrite !app_length. cbn [List.length].
    split.
    + rewrite (filter_all _ lo); [lia|]. eapply Forall_impl; [|exact FL]. intros a Ha. unfold le in Ha. rewrite Ha. reflexivity.
    + rewrite (filter_all _ hi); [lia|]. eapply Forall_impl; [|exact FH]. intros a Ha. unfold le in Ha. rewrite Ha. reflexivity.
  - destruct xs' as [|? ?]; [|discriminate]. cbn. exists x, [x]. destruct buf as [b|].
    + specialize (Hb b eq_refl). cbn in Hb. rewrite Hb. split; [reflexivity|]. unfold is_median. cbn. rewrite (le_refl A lt H x). cbn. lia.
    + split; [reflexivity|]. unfold is_median. cbn. rewrite (le_refl A lt H x). cbn. lia.
Qed.
Print Assumptions C13_median_even_partial.

(** What Median computes for every length >= 2. *)
Theorem C13_median_is_rank_half_partial : forall (A : Type) (lt : A -> A -> bool) (xs : list A) (buf : option (list A)), total_preorder lt ->
  2 <= List.length xs -> (forall b, buf = Some b -> List.length b = List.length xs) ->
  exists r scratch, Median A lt xs buf = Some (r, scratch) /\ ranked A lt xs (Z.of_nat (Nat.div (List.length xs) 2)) r.
Proof.
  intros A lt xs buf H Hl Hb. unfold Median. destruct xs as [|x xs']; [cbn in Hl; lia|]. remember (x :: xs') as xs.
  assert (Hdm := Nat.div_mod_eq (List.length xs) 2). assert (Hmb := Nat.mod_upper_bound (List.length xs) 2 ltac:(lia)).
  destruct (NthLargest_spec A lt H xs (Z.of_nat (Nat.div (List.length xs) 2)) buf) as (r & ys & E & P & R); [lia|exact Hb|].
  exists r, ys. split; assumption.
Qed.
Print Assumptions C13_median_is_rank_half_partial.

(** The median of three values is reported as their maximum. *)
Theorem C13_median_of_three_is_max_refuted :
  exists r s, Median nat Nat.ltb [1; 2; 3] None = Some (r, s) /\ r = 3 /\ ~ is_median Nat.ltb [1; 2; 3] r.
Proof. exists 3, [1; 2; 3]. split; [reflexivity|]. split; [reflexivity|]. unfold is_median. cbn. lia. Qed.
Print Assumptions C13_median_of_three_is_max_refuted.

(** For every odd length above one and pairwise different values Median is not a median. *)
Theorem C13_median_odd_refuted : forall (A : Type) (lt : A -> A -> bool) (xs : list A), total_preorder lt ->
  Nat.Odd (List.length xs) -> 3 <= List.length xs ->
  (forall p q a b, p <> q -> nth_error xs p = Some a -> nth_error xs q = Some b -> lt a b = true \/ lt b a = true) ->
  exists r s, Median A lt xs None = Some (r, s) /\ ~ is_median lt xs r.
Proof.
  intros A lt xs H (k & Hk) Hl HD.
  destruct (C13_median_is_rank_half_partial A lt xs None H ltac:(lia)) as (r & s & E & (lo & hi & PR & FL & FH & LH)); [discriminate|].
  exists r, s. split; [exact E|]. intros [_ M2].
  assert (Ed : Nat.div (List.length xs) 2 = k) by (rewrite Hk, Nat.mul_comm, Nat.add_comm, Nat.div_add by lia; reflexivity).
  rewrite Ed in LH. rewrite (filter_perm _ _ _ PR), filter_app in M2. cbn [filter] in M2.
  assert (Hrr : lt r r = false) by (apply (le_refl A lt H)). rewrite Hrr in M2. cbn [negb] in M2. rewrite app_length in M2. cbn [List.length] in M2.
  assert (D : forall a, In a lo -> lt a r = true).
  { intros a Ha. apply Permutation_nth_error in PR. destruct PR as (Hlen & f & Hf & Hn).
    apply In_nth_error in Ha. destruct Ha as (p & Hp). assert (Hplt : p < List.length lo) by (apply nth_error_Some; congruence).
    assert (N1 : nth_error (lo ++ r :: hi) p = Some a) by (rewrite nth_error_app1 by assumption; exact Hp).
    assert (N2 : nth_error (lo ++ r :: hi) (List.length lo) = Some r) by (rewrite nth_error_app2, Nat.sub_diag by lia; reflexivity).
    rewrite Hn in N1, N2. assert (Hne : f p <> f (List.length lo)) by (intros X; apply Hf in X; lia).
    destruct (HD _ _ _ _ Hne N1 N2) as [G|G]; [exact G|]. rewrite Forall_forall in FL.
    assert (G2 : lt r a = false) by (apply FL; eapply nth_error_In; exact Hp). congruence. }
  assert (Z0 : filter (fun a => negb (lt a r)) lo = []).
  { clear - D. induction lo as [|a lo IH]; [reflexivity|]. cbn. rewrite D by (left; reflexivity). cbn. apply IH. intros; apply D; right; assumption. }
  rewrite Z0 in M2. cbn in M2.
  assert (HL : List.length (filter (fun a => negb (lt a r)) hi) <= List.length hi).
  { clear. induction hi as [|x l IH]; cbn; [lia|]. destruct (negb (lt x r)); cbn; lia. }
  lia.
Qed.
Print Assumptions C13_median_odd_refuted.

(** Percentile runs backwards: p = 1 gives the minimum, and a larger p never gives a larger value. *)
Theorem C13_percentile_reversed_refuted :
  (exists s, Percentile nat Nat.ltb [10; 20; 30; 40] 1 1 None = Some (10, s)) /\
  (exists s, Percentile nat Nat.ltb [10; 20; 30; 40] 0 1 None = Some (40, s)).
Proof. split; eexists; reflexivity. Qed.
Print Assumptions C13_percentile_reversed_refuted.

Theorem C110_percentile_rank : forall (A : Type) (lt : A -> A -> bool) (xs : list A) (num den : Z) (buf : option (list A)), total_preorder lt ->
  xs <> [] -> (0 <= num <= den)%Z -> (0 < den)%Z -> (forall b, buf = Some b -> List.length b = List.length xs) ->
  exists r scratch, Percentile A lt xs num den buf = Some (r, scratch) /\
    ranked A lt xs (Z.max 1 (num * Z.of_nat (List.length xs) / den)) r.
Proof.
  intros A lt xs num den buf H Hne Hp Hd Hb. unfold Percentile. destruct xs as [|x xs']; [congruence|]. remember (x :: xs') as xs.
  destruct (Z.ltb_spec den num); [lia|]. destruct (Z.ltb_spec num 0); [lia|]. cbn [orb].
  assert (Hlen : (1 <= Z.of_nat (List.length xs))%Z) by (subst xs; cbn [List.length]; lia).
  assert (Hle : (0 <= num * Z.of_nat (List.length xs) / den <= Z.of_nat (List.length xs))%Z).
  { split; [apply Z.div_pos; lia|]. apply Z.div_le_upper_bound; [lia|]. nia. }
  rewrite Z.quot_div_nonneg by lia.
  remember (num * Z.of_nat (List.length xs) / den)%Z as n.
  assert (Em : (if (n =? 0)%Z then 1%Z else n) = Z.max 1 n) by (destruct (Z.eqb_spec n 0); lia). rewrite Em.
  destruct (NthLargest_spec A lt H xs (Z.max 1 n) buf) as (r & ys & E & P & R); [lia|exact Hb|]. exists r, ys. split; assumption.
Qed.
Print Assumptions C110_percentile_rank.

Example C13_nonvacuous : Nat.Even (List.length [4; 1; 3; 2]) /\ (exists s, Median nat Nat.ltb [4; 1; 3; 2] None = Some (3, s)).
Proof. split; [exists 2; reflexivity|eexists; reflexivity]. Qed.
