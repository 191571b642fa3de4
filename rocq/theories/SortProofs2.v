(** * partition, Quick, NthLargest. *)
From Coq Require Import Permutation Sorted.
From Verif Require Import GoBase GoBaseFacts ListFacts SortModel SortProofs.
Local Open Scope list_scope.

Section SP.
Variable A : Type.
Variable lt : A -> A -> bool.
Hypothesis HO : total_preorder lt.
Notation le := (le lt).

Lemma sort3_spec x y z : let '(max, mid, min) := sort3 A lt x y z in
  Permutation [x; y; z] [min; mid; max] /\ le min mid /\ le mid max.
Proof.
  unfold sort3. unfold SortProofs.le.
  assert (P1 : Permutation [x; y; z] [z; y; x]) by (apply Permutation_rev).
  destruct (lt y x) eqn:E1.
  - destruct (lt z x) eqn:E2.
    + destruct (lt z y) eqn:E3.
      * split; [exact P1|]. split; apply HO; assumption.
      * split; [|split; [assumption|apply HO; assumption]].
        eapply Permutation_trans; [apply perm_swap|]. apply perm_skip. apply perm_swap.
    + split; [apply perm_swap|]. split; [apply HO; assumption|assumption].
  - destruct (lt z y) eqn:E2.
    + destruct (lt z x) eqn:E3.
      * split; [|split; [apply HO; assumption|assumption]].
        eapply Permutation_trans; [apply perm_skip; apply perm_swap|]. apply perm_swap.
      * split; [apply perm_skip; apply perm_swap|]. split; [assumption|apply HO; assumption].
    + split; [apply Permutation_refl|]. split; assumption.
Qed.

Lemma scanUp_spec (mid : A) (xs : list A) : forall fuel lo hi,
  lo <= hi -> hi < List.length xs -> hi - lo < fuel ->
  (forall a, nth_error xs hi = Some a -> le mid a) ->
  exists lo1, scanUp A lt fuel xs mid lo = Some lo1 /\ lo <= lo1 <= hi /\
    (forall p a, lo <= p < lo1 -> nth_error xs p = Some a -> le a mid) /\
    (forall a, nth_error xs lo1 = Some a -> le mid a).
Proof.
  induction fuel as [|f IH]; intros lo hi H1 H2 H3 H4; [lia|]. cbn [scanUp].
  destruct (nth_error xs lo) as [a|] eqn:Ea; [|apply nth_error_None in Ea; lia]. unfold bindo.
  destruct (lt a mid) eqn:E.
  - destruct (Nat.eq_dec lo hi) as [->|Hne].
    { specialize (H4 a Ea). unfold SortProofs.le in H4. congruence. }
    destruct (IH (S lo) hi) as (lo1 & E1 & E2 & E3 & E4); try lia; [assumption|].
    exists lo1. split; [exact E1|]. split; [lia|]. split; [|exact E4].
    intros p b Hp Hb. destruct (Nat.eq_dec p lo) as [->|]; [|apply (E3 p); [lia|assumption]].
    assert (b = a) by congruence. subst. apply HO. exact E.
  - exists lo. split; [reflexivity|]. split; [lia|]. split; [intros; lia|].
    intros b Hb. assert (b = a) by congruence. subst. exact E.
Qed.

Lemma scanDown_spec (mid : A) (xs : list A) : forall hi lo,
  lo <= hi -> hi < List.length xs ->
  (forall a, nth_error xs lo = Some a -> le a mid) ->
  exists hi1, scanDown A lt xs mid hi = Some hi1 /\ lo <= hi1 <= hi /\
    (forall p a, hi1 < p <= hi -> nth_error xs p = Some a -> le mid a) /\
    (forall a, nth_error xs hi1 = Some a -> le a mid).
Proof.
  induction hi as [|h IH]; intros lo H1 H2 H4; cbn [scanDown];
    match goal with |- context [bindo (nth_error xs ?i)] => destruct (nth_error xs i) as [a|] eqn:Ea; [|apply nth_error_None in Ea; lia] end;
    unfold bindo; destruct (lt mid a) eqn:E.
  - assert (lo = 0) by lia. subst lo. specialize (H4 a Ea). unfold SortProofs.le in H4. congruence.
  - exists 0. split; [reflexivity|]. split; [lia|]. split; [intros; lia|].
    intros b Hb. assert (b = a) by congruence. subst. exact E.
  - destruct (Nat.eq_dec lo (S h)) as [->|Hne].
    { specialize (H4 a Ea). unfold SortProofs.le in H4. congruence. }
    destruct (IH lo) as (hi1 & E1 & E2 & E3 & E4); try lia; [assumption|].
    exists hi1. split; [exact E1|]. split; [lia|]. split; [|exact E4].
    intros p b Hp Hb. destruct (Nat.eq_dec p (S h)) as [->|]; [|apply (E3 p); [lia|assumption]].
    assert (b = a) by congruence. subst. apply HO. exact E.
  - exists (S h). split; [reflexivity|]. split; [lia|]. split; [intros; lia|].
    intros b Hb. assert (b = a) by congruence. subst. exact E.
Qed.

Lemma partLoop_spec (mid : A) : forall fuel (xs : list A) lo hi, let n := List.length xs in
  hi < fuel -> 1 <= lo <= hi -> 2 <= hi <= n - 1 -> lo <= n - 2 -> 3 <= n ->
  (forall p a, 1 <= p <= lo -> nth_error xs p = Some a -> le a mid) ->
  (forall p a, hi <= p -> nth_error xs p = Some a -> le mid a) ->
  exists ys piv, partLoop A lt fuel xs mid lo hi = Some (ys, piv) /\ Permutation xs ys /\ 1 <= piv <= n - 2 /\
    nth_error ys 0 = nth_error xs 0 /\ nth_error ys 1 = nth_error xs 1 /\
    (forall p a, 1 <= p <= piv -> nth_error ys p = Some a -> le a mid) /\
    (forall p a, piv < p -> nth_error ys p = Some a -> le mid a).
Proof.
  induction fuel as [|f IH]; intros xs lo hi n Hf H1 H2 H3 H3n H4 H5; [lia|]. cbn [partLoop].
  destruct (scanUp_spec mid xs (S n) (S lo) (Nat.max (S lo) hi)) as (lo1 & E1 & L1 & L2 & L3); try (fold n; lia).
  { intros a Ha. apply (H5 (Nat.max (S lo) hi)); [lia|exact Ha]. }
  fold n. rewrite E1. unfold bindo at 1. destruct hi as [|h]; [lia|].
  destruct (scanDown_spec mid xs h (Nat.min lo h)) as (hi1 & E2 & K1 & K2 & K3); try (fold n; lia).
  { intros a Ha. apply (H4 (Nat.min lo h)); [lia|exact Ha]. }
  rewrite E2. unfold bindo at 1.
  assert (LOW : forall p a, 1 <= p < lo1 -> nth_error xs p = Some a -> le a mid).
  { intros p a Hp Ha. destruct (Nat.le_gt_cases p lo); [apply (H4 p); [lia|exact Ha]|apply (L2 p); [lia|exact Ha]]. }
  assert (HIGH : forall p a, hi1 < p -> nth_error xs p = Some a -> le mid a).
  { intros p a Hp Ha. destruct (Nat.le_gt_cases (S h) p); [apply (H5 p); [lia|exact Ha]|apply (K2 p); [lia|exact Ha]]. }
  destruct (Nat.ltb_spec hi1 lo1) as [Hlt|Hge].
  - exists xs, hi1. split; [reflexivity|]. split; [apply Permutation_refl|]. split; [lia|].
    split; [reflexivity|]. split; [reflexivity|]. split; [|exact HIGH].
    intros p a Hp. apply LOW. lia.
  - destruct (swap_some A xs lo1 hi1) as (xs1 & Es); try (fold n; lia). rewrite Es. unfold bindo at 1.
    apply swap_spec in Es. destruct Es as (P1 & LL & _ & _ & Hn). fold n in LL.
    destruct (IH xs1 lo1 hi1) as (ys & piv & E & P & Q1 & Q2 & Q3 & Q4 & Q5); try (rewrite ?LL; lia).
    + intros p a Hp. rewrite Hn. destruct (Nat.eqb_spec p hi1) as [->|].
      * assert (hi1 = lo1) by lia. subst. intros Ha. apply K3. exact Ha.
      * destruct (Nat.eqb_spec p lo1) as [->|]; [intros Ha; apply K3; exact Ha|]. apply LOW. lia.
    + intros p a Hp. rewrite Hn. destruct (Nat.eqb_spec p hi1) as [->|].
      * intros Ha. apply L3. exact Ha.
      * destruct (Nat.eqb_spec p lo1) as [->|]; [lia|]. apply HIGH. lia.
    + exists ys, piv. split; [exact E|]. split; [eapply Permutation_trans; eassumption|]. split; [lia|].
      rewrite Q2, Q3, !Hn.
      split; [destruct (Nat.eqb_spec 0 hi1); [lia|]; destruct (Nat.eqb_spec 0 lo1); [lia|reflexivity]|].
      split; [destruct (Nat.eqb_spec 1 hi1); [lia|]; destruct (Nat.eqb_spec 1 lo1); [lia|reflexivity]|].
      split; [exact Q4|exact Q5].
Qed.

(** Three writes at distinct positions permute when the values written are a permutation of the values read. *)
Lemma upd_middle (l l' : list A) i v : upd l i v = Some l' -> l' = firstn i l ++ v :: skipn (S i) l.
Proof. intros H. apply upd_inv in H. tauto. Qed.

Lemma perm_upd (l l1 l2 : list A) i v w : upd l i v = Some l1 -> upd l i w = Some l2 ->
  Permutation (v :: l2) (w :: l1).
Proof.
  intros H1 H2. apply upd_middle in H1. apply upd_middle in H2. subst.
  eapply Permutation_trans; [apply perm_skip; symmetry; apply Permutation_middle|].
  eapply Permutation_trans; [apply perm_swap|]. apply perm_skip. apply Permutation_middle.
Qed.

Lemma upd3_perm (l l1 l2 l3 : list A) i j k x y z a b c : i <> j -> i <> k -> j <> k ->
  nth_error l i = Some x -> nth_error l j = Some y -> nth_error l k = Some z ->
  upd l i a = Some l1 -> upd l1 j b = Some l2 -> upd l2 k c = Some l3 ->
  Permutation [x; y; z] [a; b; c] -> Permutation l l3.
Proof.
  intros Hij Hik Hjk Hx Hy Hz U1 U2 U3 P.
  assert (Ex : upd l i x = Some l) by (apply upd_same; exact Hx).
  assert (Hy1 : nth_error l1 j = Some y).
  { rewrite (upd_nth_error _ _ _ _ j U1). destruct (Nat.eqb_spec j i); [congruence|exact Hy]. }
  assert (Hz2 : nth_error l2 k = Some z).
  { rewrite (upd_nth_error _ _ _ _ k U2). destruct (Nat.eqb_spec k j); [congruence|].
    rewrite (upd_nth_error _ _ _ _ k U1). destruct (Nat.eqb_spec k i); [congruence|exact Hz]. }
  assert (Ey : upd l1 j y = Some l1) by (apply upd_same; exact Hy1).
  assert (Ez : upd l2 k z = Some l2) by (apply upd_same; exact Hz2).
  assert (Q1 := perm_upd _ _ _ _ _ _ U1 Ex). (* a :: l ~ x :: l1 *)
  assert (Q2 := perm_upd _ _ _ _ _ _ U2 Ey).
  assert (Q3 := perm_upd _ _ _ _ _ _ U3 Ez).
  apply (Permutation_app_inv_l [a; b; c]).
  assert (R : Permutation ([a; b; c] ++ l) ([x; y; z] ++ l3)).
  { cbn [app].
    assert (S1 : Permutation (a :: b :: c :: l) (b :: c :: a :: l)).
    { exact (Permutation_middle [b; c] l a). }
    rewrite S1, Q1.
    assert (S2 : Permutation (b :: c :: x :: l1) (c :: x :: b :: l1)).
    { exact (Permutation_middle [c; x] l1 b). }
    rewrite S2, Q2.
    assert (S3 : Permutation (c :: x :: y :: l2) (x :: y :: c :: l2)).
    { exact (Permutation_middle [x; y] l2 c). }
    rewrite S3, Q3. reflexivity. }
  rewrite R. apply Permutation_app_tail. exact P.
Qed.

Theorem partition_spec (xs : list A) : let n := List.length xs in 4 <= n ->
  exists ys piv mid, partition A lt xs = Some (ys, piv) /\ Permutation xs ys /\ 1 <= piv <= n - 2 /\
    nth_error ys piv = Some mid /\
    (forall p a, p < piv -> nth_error ys p = Some a -> le a mid) /\
    (forall p a, piv <= p -> nth_error ys p = Some a -> le mid a).
Proof.
  intros n Hn. unfold partition. fold n.
  assert (Hdm := Nat.div_mod_eq n 2). assert (Hmb := Nat.mod_upper_bound n 2 ltac:(lia)).
  remember (Nat.div n 2) as n2.
  destruct (nth_error xs 0) as [x0|] eqn:E0; [|apply nth_error_None in E0; fold n in E0; lia].
  destruct (nth_error xs n2) as [x2|] eqn:E2; [|apply nth_error_None in E2; fold n in E2; lia].
  destruct (nth_error xs (n - 1)) as [xn|] eqn:En; [|apply nth_error_None in En; fold n in En; lia].
  unfold bindo at 1 2 3. assert (S3 := sort3_spec x0 x2 xn). destruct (sort3 A lt x0 x2 xn) as [[mx md] mn].
  destruct S3 as (P3 & O1 & O2).
  destruct (upd_some xs 0 mn) as (a1 & U1); [fold n; lia|]. assert (La1 := upd_length _ _ _ _ U1).
  destruct (upd_some a1 n2 md) as (a2 & U2); [rewrite La1; fold n; lia|]. assert (La2 := upd_length _ _ _ _ U2).
  destruct (upd_some a2 (n - 1) mx) as (a3 & U3); [rewrite La2, La1; fold n; lia|]. assert (La3 := upd_length _ _ _ _ U3).
  rewrite U1. unfold bindo at 1. rewrite U2. unfold bindo at 1. rewrite U3. unfold bindo at 1.
  assert (Pa : Permutation xs a3).
  { apply (upd3_perm xs a1 a2 a3 0 n2 (n - 1) x0 x2 xn mn md mx); try assumption; lia. }
  assert (Ln : List.length a3 = n) by (fold n in La1; lia).
  destruct (swap_some A a3 1 n2) as (a4 & U4); try lia. rewrite U4. unfold bindo at 1.
  apply swap_spec in U4. destruct U4 as (P4 & L4 & _ & _ & N4).
  assert (V3 : forall p, nth_error a3 p = if Nat.eqb p (n-1) then Some mx else if Nat.eqb p n2 then Some md else if Nat.eqb p 0 then Some mn else nth_error xs p).
  { intros p. rewrite (upd_nth_error _ _ _ _ p U3), (upd_nth_error _ _ _ _ p U2), (upd_nth_error _ _ _ _ p U1). reflexivity. }
  assert (A41 : nth_error a4 1 = Some md).
  { rewrite N4. destruct (Nat.eqb_spec 1 n2) as [E|E].
    - rewrite V3. destruct (Nat.eqb_spec 1 (n-1)); [lia|]. destruct (Nat.eqb_spec 1 n2); [reflexivity|lia].
    - rewrite Nat.eqb_refl. rewrite V3. destruct (Nat.eqb_spec n2 (n-1)); [lia|]. rewrite Nat.eqb_refl. reflexivity. }
  assert (A40 : nth_error a4 0 = Some mn).
  { rewrite N4. destruct (Nat.eqb_spec 0 n2); [lia|]. destruct (Nat.eqb_spec 0 1); [lia|]. rewrite V3.
    destruct (Nat.eqb_spec 0 (n-1)); [lia|]. destruct (Nat.eqb_spec 0 n2); [lia|]. reflexivity. }
  assert (A4n : nth_error a4 (n-1) = Some mx).
  { rewrite N4. destruct (Nat.eqb_spec (n-1) n2); [lia|]. destruct (Nat.eqb_spec (n-1) 1); [lia|]. rewrite V3.
    rewrite Nat.eqb_refl. reflexivity. }
  destruct (partLoop_spec md (S n) a4 1 (n - 1)) as (ys & piv & E & P & Q1 & Q2 & Q3 & Q4 & Q5); try (rewrite ?L4, ?Ln; lia).
  { intros p a Hp Ha. assert (p = 1) by lia. subst. assert (a = md) by congruence. subst. apply (le_refl A lt HO). }
  { intros p a Hp Ha. assert (p < n). { rewrite <- Ln, <- L4. apply nth_error_Some. congruence. }
    assert (p = n - 1) by lia. subst. assert (a = mx) by congruence. subst. exact O2. }
  rewrite E. unfold bindo at 1. cbn [fst snd].
  assert (Ly : List.length ys = n) by (rewrite <- (Permutation_length P); lia).
  destruct (swap_some A ys 1 piv) as (zs & U5); try lia. rewrite U5. unfold bindo.
  apply swap_spec in U5. destruct U5 as (P5 & L5 & _ & _ & N5).
  exists zs, piv, md. split; [reflexivity|].
  split; [rewrite Pa, P4, P; exact P5|]. split; [rewrite L4, Ln in Q1; lia|].
  assert (Ezp : nth_error zs piv = Some md).
  { rewrite N5, Nat.eqb_refl. rewrite Q3. exact A41. }
  split; [exact Ezp|].
  assert (Epiv : forall a, nth_error ys piv = Some a -> le a md) by (intros a; apply Q4; lia).
  split.
  - intros p a Hp. rewrite N5. destruct (Nat.eqb_spec p piv); [lia|]. destruct (Nat.eqb_spec p 1) as [->|]; [apply Epiv|].
    destruct (Nat.eq_dec p 0) as [->|]; [|apply Q4; lia].
    rewrite Q2, A40. intros [= <-]. exact O1.
  - intros p a Hp Ha. destruct (Nat.eq_dec p piv) as [->|].
    + assert (a = md) by congruence. subst. apply (le_refl A lt HO).
    + rewrite N5 in Ha. destruct (Nat.eqb_spec p piv); [lia|]. destruct (Nat.eqb_spec p 1) as [->|]; [lia|].
      apply (Q5 p); [lia|exact Ha].
Qed.

(** The partition as two lists. *)
Lemma nth_error_skipn (l : list A) k p : nth_error (skipn k l) p = nth_error l (k + p).
Proof. revert l; induction k; intros [|a l]; cbn; [reflexivity|reflexivity|destruct p; reflexivity|apply IHk]. Qed.
Lemma nth_error_firstn_lt (l : list A) k p : p < k -> nth_error (firstn k l) p = nth_error l p.
Proof. revert l p; induction k; intros [|a l] [|p] H; cbn; try lia; try reflexivity. apply IHk. lia. Qed.

Corollary partition_lists (xs : list A) : 4 <= List.length xs ->
  exists lo mid hi, partition A lt xs = Some (lo ++ mid :: hi, List.length lo) /\
    Permutation xs (lo ++ mid :: hi) /\ 1 <= List.length lo /\ 1 <= List.length hi /\
    Forall (fun a => le a mid) lo /\ Forall (le mid) hi.
Proof.
  intros H. destruct (partition_spec xs H) as (ys & piv & mid & E & P & Q1 & Q2 & Q3 & Q4).
  assert (Ly := Permutation_length P).
  apply nth_error_split in Q2. destruct Q2 as (lo & hi & -> & Hp).
  exists lo, mid, hi. subst piv. split; [exact E|]. split; [exact P|]. split; [lia|].
  rewrite app_length in Ly. cbn [List.length] in Ly. split; [lia|]. split.
  - apply Forall_forall. intros a Ha. apply In_nth_error in Ha. destruct Ha as (p & Ha).
    assert (p < List.length lo) by (apply nth_error_Some; congruence).
    apply (Q3 p); [assumption|]. rewrite nth_error_app1 by assumption. exact Ha.
  - apply Forall_forall. intros a Ha. apply In_nth_error in Ha. destruct Ha as (p & Ha).
    apply (Q4 (List.length lo + S p)); [lia|]. rewrite nth_error_app2 by lia.
    replace (List.length lo + S p - List.length lo) with (S p) by lia. exact Ha.
Qed.

Lemma SS_app (l h : list A) mid : StronglySorted le l -> StronglySorted le h ->
  Forall (fun a => le a mid) l -> Forall (le mid) h -> StronglySorted le (l ++ h).
Proof.
  intros Hl Hh Fl Fh. induction Hl as [|a l Hl IH Ha]; [exact Hh|]. inversion Fl; subst. cbn. constructor; [apply IH; assumption|].
  apply Forall_app. split; [exact Ha|]. eapply Forall_impl; [|exact Fh]. intros b Hb. apply (le_trans A lt HO a mid b); assumption.
Qed.

Lemma firstn_len (l h : list A) : firstn (List.length l) (l ++ h) = l.
Proof. rewrite firstn_app, firstn_all, Nat.sub_diag. cbn. apply app_nil_r. Qed.
Lemma skipn_len (l h : list A) : skipn (List.length l) (l ++ h) = h.
Proof. rewrite skipn_app, skipn_all, Nat.sub_diag. reflexivity. Qed.

Lemma quick_sorts : forall fuel (xs : list A), List.length xs < fuel -> exists ys, quick A lt fuel xs = Some ys /\ is_sort lt xs ys.
Proof.
  induction fuel as [|f IH]; intros xs Hf; [lia|]. cbn [quick].
  destruct (Nat.ltb_spec (List.length xs) manualLen) as [Hs|Hb]; [apply Shell_sorts; exact HO|].
  unfold manualLen in Hb.
  destruct (partition_lists xs ltac:(lia)) as (lo & mid & hi & E & P & L1 & L2 & F1 & F2).
  rewrite E. unfold bindo at 1. cbn [fst snd]. rewrite firstn_len, skipn_len.
  assert (Lx := Permutation_length P). rewrite app_length in Lx. cbn [List.length] in Lx.
  destruct (IH lo ltac:(lia)) as (l' & El & Pl & Sl). destruct (IH (mid :: hi)) as (h' & Eh & Ph & Sh); [cbn; lia|].
  rewrite El. unfold bindo at 1. rewrite Eh. unfold bindo. exists (l' ++ h'). split; [reflexivity|]. split.
  - rewrite P. apply Permutation_app; assumption.
  - apply (SS_app l' h' mid); try assumption.
    + eapply Permutation_Forall; [exact Pl|exact F1].
    + eapply Permutation_Forall; [exact Ph|]. constructor; [apply (le_refl A lt HO)|exact F2].
Qed.

Theorem Quick_sorts (xs : list A) : exists ys, Quick A lt xs = Some ys /\ is_sort lt xs ys.
Proof. apply quick_sorts. lia. Qed.

(** ** Selection *)
(** r is the n-th largest of xs (n counted from 1): xs splits into r, n-1 values not below it and the rest not above it. *)
Definition ranked (xs : list A) (n : Z) (r : A) : Prop :=
  exists lo hi, Permutation xs (lo ++ r :: hi) /\ Forall (fun a => le a r) lo /\ Forall (le r) hi /\ Z.of_nat (List.length hi) = (n - 1)%Z.

Lemma nthLargest_spec : forall fuel (xs : list A) n, List.length xs < fuel -> (1 <= n <= Z.of_nat (List.length xs))%Z ->
  exists r ys, nthLargest A lt fuel xs n = Some (r, ys) /\ Permutation xs ys /\ ranked xs n r.
Proof.
  induction fuel as [|f IH]; intros xs n Hf Hn; [lia|].
  assert (Hbig : 4 <= List.length xs -> exists r ys,
    bindo (partition A lt xs) (fun r =>
          let '(ys, pivIdx) := r in
          let nPiv := (Z.of_nat (List.length ys) - Z.of_nat pivIdx)%Z in
          if (n <? nPiv)%Z then
            bindo (nthLargest A lt f (skipn pivIdx ys) n) (fun q => Some (fst q, firstn pivIdx ys ++ snd q))
          else if (nPiv <? n)%Z then
            bindo (nthLargest A lt f (firstn pivIdx ys) (n - nPiv)) (fun q => Some (fst q, snd q ++ skipn pivIdx ys))
          else bindo (nth_error ys pivIdx) (fun v => Some (v, ys))) = Some (r, ys)
    /\ Permutation xs ys /\ ranked xs n r).
  { intros H4. destruct (partition_lists xs H4) as (lo & mid & hi & E & P & L1 & L2 & F1 & F2).
    rewrite E. unfold bindo at 1. cbv beta iota zeta. rewrite firstn_len, skipn_len.
    assert (Lx := Permutation_length P). rewrite app_length in Lx. rewrite app_length. cbn [List.length] in *.
    destruct (Z.ltb_spec n (Z.of_nat (List.length lo + S (List.length hi)) - Z.of_nat (List.length lo))) as [Hlt|Hge].
    - destruct (IH (mid :: hi) n) as (r & ys & Er & Pr & (rl & rh & PR & FL & FH & LH)); [cbn; lia|cbn [List.length]; lia|].
      rewrite Er. unfold bindo. cbn [fst snd]. exists r, (lo ++ ys). split; [reflexivity|].
      split; [rewrite P; apply Permutation_app_head; exact Pr|].
      exists (lo ++ rl), rh. split; [rewrite P, PR, app_assoc; reflexivity|].
      split; [|split; [exact FH|exact LH]]. apply Forall_app. split; [|exact FL].
      assert (Hr : le mid r).
      { assert (In r (mid :: hi)). { eapply Permutation_in; [symmetry; exact PR|]. apply in_app_iff. right. left. reflexivity. }
        destruct H as [->|H]; [apply (le_refl A lt HO)|]. rewrite Forall_forall in F2. apply F2. exact H. }
      eapply Forall_impl; [|exact F1]. intros a Ha. apply (le_trans A lt HO a mid r); assumption.
    - destruct (Z.ltb_spec (Z.of_nat (List.length lo + S (List.length hi)) - Z.of_nat (List.length lo)) n) as [Hgt|Hle].
      + remember (Z.of_nat (List.length lo + S (List.length hi)) - Z.of_nat (List.length lo))%Z as nP.
        destruct (IH lo (n - nP)%Z) as (r & ys & Er & Pr & (rl & rh & PR & FL & FH & LH)); [lia|lia|].
        rewrite Er. unfold bindo. cbn [fst snd]. exists r, (ys ++ mid :: hi). split; [reflexivity|].
        split; [rewrite P; apply Permutation_app_tail; exact Pr|].
        exists rl, (rh ++ mid :: hi). split; [rewrite P, PR, <- app_assoc; reflexivity|].
        split; [exact FL|]. rewrite app_length. cbn [List.length]. split; [|lia].
        assert (Hr : le r mid).
        { rewrite Forall_forall in F1. apply F1. eapply Permutation_in; [symmetry; exact PR|]. apply in_app_iff. right. left. reflexivity. }
        apply Forall_app. split; [exact FH|]. constructor; [exact Hr|].
        eapply Forall_impl; [|exact F2]. intros a Ha. apply (le_trans A lt HO r mid a); assumption.
      + rewrite nth_error_app2 by lia. rewrite Nat.sub_diag. cbn [nth_error]. unfold bindo.
        exists mid, (lo ++ mid :: hi). split; [reflexivity|]. split; [exact P|].
        exists lo, hi. split; [exact P|]. split; [exact F1|]. split; [exact F2|]. lia. }
  destruct xs as [|x [|y [|z [|w xs]]]]; cbn [nthLargest]; cbn [List.length] in *.
  - lia.
  - exists x, [x]. split; [reflexivity|]. split; [reflexivity|]. exists [], []. cbn. split; [reflexivity|]. repeat split; try constructor. lia.
  - assert (Hxy : exists a b, (if lt y x then [y; x] else [x; y]) = [a; b] /\ Permutation [x; y] [a; b] /\ le a b).
    { destruct (lt y x) eqn:E; [exists y, x|exists x, y]; (split; [reflexivity|]); split; try reflexivity; try apply perm_swap; try exact E. apply HO. exact E. }
    destruct Hxy as (a & b & Eab & Pab & Oab). rewrite Eab.
    destruct (Z.leb_spec n 2); [|lia]. destruct (Z.ltb_spec (2 - n) 0); [lia|].
    assert (Hn12 : n = 1%Z \/ n = 2%Z) by lia. destruct Hn12 as [-> | ->]; cbn.
    + exists b, [a; b]. split; [reflexivity|]. split; [exact Pab|]. exists [a], []. repeat split; try constructor; try assumption; constructor.
    + exists a, [a; b]. split; [reflexivity|]. split; [exact Pab|]. exists [], [b]. repeat split; try constructor; try assumption; constructor.
  - assert (S3 := sort3_spec x y z). destruct (sort3 A lt x y z) as [[mx md] mn]. destruct S3 as (P3 & O1 & O2).
    assert (O3 : le mn mx) by (apply (le_trans A lt HO mn md mx); assumption).
    assert (Hn3 : n = 1%Z \/ n = 2%Z \/ n = 3%Z) by lia. destruct Hn3 as [-> | [-> | ->]]; cbn.
    + exists mx, [x; y; z]. split; [reflexivity|]. split; [reflexivity|]. exists [mn; md], []. split; [exact P3|]. repeat split; repeat (constructor; try assumption).
    + exists md, [x; y; z]. split; [reflexivity|]. split; [reflexivity|]. exists [mn], [mx]. split; [exact P3|]. repeat split; repeat (constructor; try assumption).
    + exists mn, [x; y; z]. split; [reflexivity|]. split; [reflexivity|]. exists [], [md; mx]. split; [exact P3|]. repeat split; repeat (constructor; try assumption).
  - apply Hbig. lia.
Qed.

(** Ranked = the entry len - n of an ascending rearrangement. *)
Lemma ranked_sorted (xs : list A) n r : ranked xs n r ->
  exists s, is_sort lt xs s /\ nth_error s (List.length xs - Z.to_nat n) = Some r.
Proof.
  intros (lo & hi & P & FL & FH & LH).
  destruct (Shell_sorts A lt HO lo) as (lo' & _ & Pl & Sl). destruct (Shell_sorts A lt HO hi) as (hi' & _ & Ph & Sh).
  exists (lo' ++ r :: hi'). split; [split|].
  - rewrite P. rewrite Pl, Ph. reflexivity.
  - apply (SS_app lo' (r :: hi') r); try assumption.
    + constructor; [exact Sh|]. eapply Permutation_Forall; eassumption.
    + eapply Permutation_Forall; eassumption.
    + constructor; [apply (le_refl A lt HO)|]. eapply Permutation_Forall; eassumption.
  - assert (Lx := Permutation_length P). rewrite app_length in Lx. cbn [List.length] in Lx.
    rewrite nth_error_app2; rewrite <- (Permutation_length Pl); [|lia].
    replace (_ - _ - _) with 0 by lia. reflexivity.
Qed.

(** In a sorted list the entry at position p is determined up to ties: every sort has an equal entry there. *)
Lemma sort_entry_unique (xs s1 s2 : list A) p a b : is_sort lt xs s1 -> is_sort lt xs s2 ->
  nth_error s1 p = Some a -> nth_error s2 p = Some b -> le a b /\ le b a.
Proof.
  assert (G : forall (xs s1 s2 : list A) p a b, is_sort lt xs s1 -> is_sort lt xs s2 ->
    nth_error s1 p = Some a -> nth_error s2 p = Some b -> le a b).
  { clear xs s1 s2 p a b. intros xs s1 s2 p a b [P1 S1] [P2 S2] H1 H2.
    (* if b < a then the p+1 first entries of s2 are all < a, but s1 has at most p entries < a *)
    destruct (lt b a) eqn:E; [|exact E]. exfalso.
    assert (C1 : List.length (filter (fun x => lt x a) s1) <= p).
    { apply nth_error_split in H1. destruct H1 as (l1 & l2 & -> & <-).
      rewrite filter_app. cbn [filter]. rewrite app_length.
      assert (Ha : lt a a = false) by (apply (le_refl A lt HO)). rewrite Ha.
      assert (Hf : filter (fun x => lt x a) l2 = []).
      { assert (F : Forall (le a) l2).
        { clear - S1. induction l1 as [|c l1 IH]; cbn in S1; inversion S1; subst; [assumption|apply IH; assumption]. }
        clear - F. induction F as [|x l2 Hx F IH]; [reflexivity|]. cbn. unfold SortProofs.le in Hx. rewrite Hx. exact IH. }
      rewrite Hf. cbn. assert (HL : forall (f : A -> bool) l, List.length (filter f l) <= List.length l).
      { intros f l. induction l as [|x l IH]; cbn; [lia|]. destruct (f x); cbn; lia. }
      specialize (HL (fun x => lt x a) l1). lia. }
    assert (C2 : S p <= List.length (filter (fun x => lt x a) s2)).
    { apply nth_error_split in H2. destruct H2 as (l1 & l2 & -> & <-).
      rewrite filter_app. cbn [filter]. rewrite E, app_length. cbn [List.length].
      assert (Hf : filter (fun x => lt x a) l1 = l1).
      { assert (F : Forall (fun x => le x b) l1).
        { clear - S2. induction l1 as [|c l1 IH]; [constructor|]. cbn in S2. inversion S2 as [|? ? S3 F3]; subst.
          constructor; [|apply IH; assumption]. apply Forall_app in F3. destruct F3 as [_ F3]. inversion F3; subst. assumption. }
        clear - F E HO. induction F as [|x l1 Hx F IH]; [reflexivity|]. cbn.
        destruct (lt x a) eqn:Ex; [f_equal; exact IH|]. exfalso.
        assert (le a b) by (apply (le_trans A lt HO a x b); [exact Ex|exact Hx]). unfold SortProofs.le in H. congruence. }
      rewrite Hf. lia. }
    assert (P : Permutation s1 s2) by (rewrite <- P1; exact P2).
    assert (HF : forall (f : A -> bool) l l', Permutation l l' -> List.length (filter f l) = List.length (filter f l')).
    { intros f l l' HP. induction HP; cbn; [reflexivity| | |congruence].
      - destruct (f x); cbn; congruence.
      - destruct (f x), (f y); cbn; congruence. }
    specialize (HF (fun x => lt x a) _ _ P). lia. }
  intros H1 H2 H3 H4. split; [exact (G xs s1 s2 p a b H1 H2 H3 H4)|exact (G xs s2 s1 p b a H2 H1 H4 H3)].
Qed.

Lemma NthLargest_spec (xs : list A) n buf : (1 <= n <= Z.of_nat (List.length xs))%Z ->
  (forall b, buf = Some b -> List.length b = List.length xs) ->
  exists r ys, NthLargest A lt xs n buf = Some (r, ys) /\ Permutation xs ys /\ ranked xs n r.
Proof.
  intros Hn Hb. unfold NthLargest. destruct xs as [|x xs']; [cbn in Hn; lia|]. remember (x :: xs') as xs.
  destruct buf as [b|].
  - rewrite (Hb b eq_refl), Nat.eqb_refl. apply nthLargest_spec; [lia|exact Hn].
  - apply nthLargest_spec; [lia|exact Hn].
Qed.
End SP.
