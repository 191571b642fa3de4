(** * Proofs about math/sort: Shell sort, partition. *)
From Coq Require Import Permutation Sorted.
From Verif Require Import GoBase GoBaseFacts ListFacts SortModel.
Local Open Scope list_scope.

(** [lt] is a strict weak order: the comparison of floats without NaN (where -0 and +0 tie). *)
Definition total_preorder {A} (lt : A -> A -> bool) : Prop :=
  (forall a b, lt a b = true -> lt b a = false) /\
  (forall a b c, lt b a = false -> lt c b = false -> lt c a = false).

(** a <= b *)
Definition le {A} (lt : A -> A -> bool) (a b : A) : Prop := lt b a = false.

(** [out] is an ascending rearrangement of [xs]. *)
Definition is_sort {A} (lt : A -> A -> bool) (xs out : list A) : Prop :=
  Permutation xs out /\ StronglySorted (le lt) out.

Section SP.
Variable A : Type.
Variable lt : A -> A -> bool.
Hypothesis HO : total_preorder lt.
Notation le := (le lt).

Lemma lt_le a b : lt a b = true -> le a b.
Proof. apply HO. Qed.
Lemma le_trans a b c : le a b -> le b c -> le a c.
Proof. unfold SortProofs.le. intros H1 H2. destruct HO as [_ H]. exact (H a b c H1 H2). Qed.
Lemma le_refl a : le a a.
Proof. unfold SortProofs.le. destruct (lt a a) eqn:E; [|reflexivity]. assert (H := proj1 HO _ _ E). congruence. Qed.
Lemma le_total a b : le a b \/ le b a.
Proof. unfold SortProofs.le. destruct (lt b a) eqn:E; [right; apply HO; exact E|left; reflexivity]. Qed.
Lemma nlt_le a b : lt a b = false -> le b a.
Proof. auto. Qed.

(** ** Swapping permutes *)
Lemma upd2_perm (l l1 l2 : list A) i j a b :
  nth_error l i = Some a -> nth_error l j = Some b -> upd l i b = Some l1 -> upd l1 j a = Some l2 -> Permutation l l2.
Proof.
  intros Ha Hb H1 H2. apply Permutation_nth_error. split.
  - rewrite (upd_length _ _ _ _ H2), (upd_length _ _ _ _ H1). reflexivity.
  - exists (fun n => if Nat.eqb n j then i else if Nat.eqb n i then j else n). split.
    + intros x y. repeat match goal with |- context [Nat.eqb ?p ?q] => destruct (Nat.eqb_spec p q); subst end; intros; subst; try congruence; auto.
    + intros n. rewrite (upd_nth_error _ _ _ _ n H2). rewrite (upd_nth_error _ _ _ _ n H1).
      destruct (Nat.eqb_spec n j) as [->|]; [congruence|]. destruct (Nat.eqb_spec n i) as [->|]; [congruence|reflexivity].
Qed.

Lemma swap_spec (l l' : list A) i j : swap A l i j = Some l' ->
  Permutation l l' /\ List.length l' = List.length l /\ i < List.length l /\ j < List.length l /\
  forall k, nth_error l' k = if Nat.eqb k j then nth_error l i else if Nat.eqb k i then nth_error l j else nth_error l k.
Proof.
  unfold swap, bindo. destruct (nth_error l i) as [a|] eqn:Ea; [|discriminate].
  destruct (nth_error l j) as [b|] eqn:Eb; [|discriminate].
  destruct (upd l i b) as [l1|] eqn:E1; [|discriminate]. intros E2.
  split; [exact (upd2_perm _ _ _ _ _ _ _ Ea Eb E1 E2)|].
  split; [rewrite (upd_length _ _ _ _ E2), (upd_length _ _ _ _ E1); reflexivity|].
  split; [apply nth_error_Some; congruence|]. split; [apply nth_error_Some; congruence|].
  intros k. rewrite (upd_nth_error _ _ _ _ k E2), (upd_nth_error _ _ _ _ k E1).
  destruct (Nat.eqb k j); [reflexivity|]. destruct (Nat.eqb k i); reflexivity.
Qed.

Lemma swap_some (l : list A) i j : i < List.length l -> j < List.length l -> exists l', swap A l i j = Some l'.
Proof.
  intros Hi Hj. unfold swap, bindo.
  destruct (nth_error l i) as [a|] eqn:Ea; [|apply nth_error_None in Ea; lia].
  destruct (nth_error l j) as [b|] eqn:Eb; [|apply nth_error_None in Eb; lia].
  destruct (upd_some l i b Hi) as (l1 & E1). rewrite E1.
  apply upd_some. rewrite (upd_length _ _ _ _ E1). exact Hj.
Qed.

(** ** Sortedness by index *)
Definition sorted_below (l : list A) (k : nat) : Prop :=
  forall p q a b, p < q -> q < k -> nth_error l p = Some a -> nth_error l q = Some b -> le a b.

Lemma sorted_below_SS l : sorted_below l (List.length l) -> StronglySorted le l.
Proof.
  induction l as [|x l IH]; intros H; constructor.
  - apply IH. intros p q a b Hpq Hq Ha Hb. apply (H (S p) (S q)); cbn; try lia; assumption.
  - apply Forall_forall. intros y Hy. apply In_nth_error in Hy. destruct Hy as (q & Hq).
    apply (H 0 (S q)); cbn; try lia; auto. assert (q < List.length l) by (apply nth_error_Some; congruence). lia.
Qed.

(** ** Shell sort *)
Lemma shift_spec inc : forall fuel j (xs : list A) v i,
  inc <= j -> 0 < inc -> j <= i -> i < List.length xs -> j < fuel ->
  exists ys j', shift A lt fuel xs v inc j = Some (ys, j') /\ j' <= j /\ List.length ys = List.length xs /\
    (forall z1 z2, upd xs j v = Some z1 -> upd ys j' v = Some z2 -> Permutation z1 z2) /\
    (inc = 1 ->
       (forall p q a b, p < q -> q <= i -> p <> j -> q <> j -> nth_error xs p = Some a -> nth_error xs q = Some b -> le a b) ->
       (forall q b, j < q -> q <= i -> nth_error xs q = Some b -> le v b) ->
       (forall p q a b, p < q -> q <= i -> p <> j' -> q <> j' -> nth_error ys p = Some a -> nth_error ys q = Some b -> le a b) /\
       (forall q b, j' < q -> q <= i -> nth_error ys q = Some b -> le v b) /\
       (forall p a, p < j' -> nth_error ys p = Some a -> le a v)).
Proof.
  induction fuel as [|fuel IH]; intros j xs v i Hj Hinc Hi Hlen Hf; [lia|]. cbn [shift].
  destruct (nth_error xs (j - inc)) as [a|] eqn:Ea.
  2:{ apply nth_error_None in Ea. lia. }
  unfold bindo at 1. destruct (lt v a) eqn:Eva.
  - destruct (upd_some xs j a ltac:(lia)) as (xs1 & E1). rewrite E1. unfold bindo at 1.
    assert (L1 := upd_length _ _ _ _ E1).
    assert (Hstep : forall z1 z2, upd xs j v = Some z1 -> upd xs1 (j - inc) v = Some z2 -> Permutation z1 z2).
    { intros z1 z2 U1 U2.
      assert (L2 := upd_length _ _ _ _ U1).
      destruct (upd_some z1 j a ltac:(lia)) as (w' & Uw').
      destruct (upd_some w' (j - inc) v) as (w2 & Uw2).
      { rewrite (upd_length _ _ _ _ Uw'). lia. }
      assert (Ew : w2 = z2).
      { apply nth_error_ext. intros k. rewrite (upd_nth_error _ _ _ _ k Uw2), (upd_nth_error _ _ _ _ k U2).
        rewrite (upd_nth_error _ _ _ _ k Uw'), (upd_nth_error _ _ _ _ k E1), (upd_nth_error _ _ _ _ k U1).
        destruct (Nat.eqb k (j - inc)), (Nat.eqb k j); reflexivity. }
      subst w2. apply (upd2_perm z1 w' z2 j (j - inc) v a); try assumption.
      - rewrite (upd_nth_error _ _ _ _ j U1), Nat.eqb_refl. reflexivity.
      - rewrite (upd_nth_error _ _ _ _ _ U1). destruct (Nat.eqb_spec (j - inc) j); [lia|exact Ea]. }
    assert (Hinv : inc = 1 ->
       (forall p q a b, p < q -> q <= i -> p <> j -> q <> j -> nth_error xs p = Some a -> nth_error xs q = Some b -> le a b) ->
       (forall q b, j < q -> q <= i -> nth_error xs q = Some b -> le v b) ->
       (forall p q a b, p < q -> q <= i -> p <> j - inc -> q <> j - inc -> nth_error xs1 p = Some a -> nth_error xs1 q = Some b -> le a b) /\
       (forall q b, j - inc < q -> q <= i -> nth_error xs1 q = Some b -> le v b)).
    { intros -> S1 S2. split.
      - intros p q x y Hpq Hq Hp1 Hq1 Hx Hy.
        rewrite (upd_nth_error _ _ _ _ p E1) in Hx. rewrite (upd_nth_error _ _ _ _ q E1) in Hy.
        destruct (Nat.eqb_spec p j) as [->|Hpj].
        + inversion Hx; subst x. destruct (Nat.eqb_spec q j); [lia|]. apply (S1 (j - 1) q); try lia; assumption.
        + destruct (Nat.eqb_spec q j) as [->|Hqj].
          * inversion Hy; subst y. apply (S1 p (j - 1)); try lia; assumption.
          * apply (S1 p q); assumption.
      - intros q y Hq1 Hq2 Hy. rewrite (upd_nth_error _ _ _ _ q E1) in Hy.
        destruct (Nat.eqb_spec q j) as [->|Hqj]; [inversion Hy; subst; apply lt_le; exact Eva|].
        apply (S2 q); try lia; assumption. }
    destruct (Nat.ltb_spec (j - inc) inc) as [Hb|Hb].
    + exists xs1, (j - inc). split; [reflexivity|]. split; [lia|]. split; [exact L1|]. split; [exact Hstep|].
      intros Hi1 S1 S2. destruct (Hinv Hi1 S1 S2) as [I1 I2]. split; [exact I1|]. split; [exact I2|].
      intros p x Hp. lia.
    + destruct (IH (j - inc) xs1 v i) as (ys & j' & E & Hj' & Ly & HP & HS); try lia.
      exists ys, j'. split; [exact E|]. split; [lia|]. split; [congruence|]. split.
      * intros z1 z2 U1 U2. destruct (upd_some xs1 (j - inc) v ltac:(lia)) as (z & Uz).
        eapply Permutation_trans; [exact (Hstep _ _ U1 Uz)|exact (HP _ _ Uz U2)].
      * intros Hi1 S1 S2. destruct (Hinv Hi1 S1 S2) as [I1 I2]. exact (HS Hi1 I1 I2).
  - exists xs, j. split; [reflexivity|]. split; [lia|]. split; [reflexivity|]. split.
    + intros z1 z2 U1 U2. assert (z1 = z2) by congruence. subst. apply Permutation_refl.
    + intros -> S1 S2. split; [exact S1|]. split; [exact S2|].
      intros p x Hp Hx. apply nlt_le in Eva. destruct (Nat.eq_dec p (j - 1)) as [->|Hne].
      * assert (x = a) by congruence. subst. exact Eva.
      * apply (le_trans x a v); [|exact Eva]. apply (S1 p (j - 1)); try lia; assumption.
Qed.

Lemma upd_same (l : list A) i v : nth_error l i = Some v -> upd l i v = Some l.
Proof.
  intros H. destruct (upd_some l i v) as (l' & E); [apply nth_error_Some; congruence|]. rewrite E. f_equal.
  apply nth_error_ext. intros k. rewrite (upd_nth_error _ _ _ _ k E). destruct (Nat.eqb_spec k i); congruence.
Qed.

Lemma shellPass_spec inc : 0 < inc -> forall k i (xs : list A), inc <= i -> i + k = List.length xs ->
  exists ys, shellPass A lt k xs inc i = Some ys /\ Permutation xs ys /\ (inc = 1 -> sorted_below xs i -> sorted_below ys (List.length ys)).
Proof.
  intros Hinc. induction k as [|k IH]; intros i xs Hi Hk; cbn [shellPass].
  - exists xs. split; [reflexivity|]. split; [apply Permutation_refl|]. intros _ H. rewrite <- Hk, Nat.add_0_r. exact H.
  - destruct (nth_error xs i) as [v|] eqn:Ev; [|apply nth_error_None in Ev; lia]. unfold bindo at 1.
    destruct (shift_spec inc (S i) i xs v i) as (ys & j' & E & Hj' & Ly & HP & HS); try lia.
    rewrite E. unfold bindo at 1. cbn [fst snd].
    destruct (upd_some ys j' v ltac:(lia)) as (zs & Ez). rewrite Ez. unfold bindo at 1.
    assert (Lz := upd_length _ _ _ _ Ez).
    assert (P1 : Permutation xs zs) by (apply HP; [apply upd_same; exact Ev|exact Ez]).
    destruct (IH (S i) zs) as (out & Eo & Po & So); try lia.
    exists out. split; [exact Eo|]. split; [eapply Permutation_trans; eassumption|].
    intros Hi1 Sx. apply So; [exact Hi1|].
    destruct (HS Hi1) as (T1 & T2 & T3).
    { intros p q a b Hpq Hq Hp Hqi Ha Hb. apply (Sx p q); try lia; assumption. }
    { intros q b Hq1 Hq2. lia. }
    intros p q a b Hpq Hq Ha Hb. rewrite (upd_nth_error _ _ _ _ p Ez) in Ha. rewrite (upd_nth_error _ _ _ _ q Ez) in Hb.
    destruct (Nat.eqb_spec p j') as [->|Hpj].
    + inversion Ha; subst a. destruct (Nat.eqb_spec q j'); [lia|]. apply (T2 q); try lia; assumption.
    + destruct (Nat.eqb_spec q j') as [->|Hqj].
      * inversion Hb; subst b. apply (T3 p); try lia; assumption.
      * apply (T1 p q); try lia; assumption.
Qed.

(** The increments are 1, 4, 13, ...: (3^k - 1)/2. *)
Inductive shell_inc : nat -> Prop :=
| si_one : shell_inc 1
| si_next h : shell_inc h -> shell_inc (h * 3 + 1).

Lemma shell_inc_pos h : shell_inc h -> 1 <= h.
Proof. induction 1; lia. Qed.

Lemma shell_inc_div h : shell_inc h -> 1 < h -> shell_inc (Nat.div h 3) /\ Nat.div h 3 < h.
Proof.
  intros H Hgt. inversion H as [|h' H']; subst; [lia|].
  assert (E : Nat.div (h' * 3 + 1) 3 = h').
  { rewrite Nat.add_comm, Nat.div_add by lia. reflexivity. }
  rewrite E. split; [exact H'|lia].
Qed.

Lemma firstInc_spec : forall fuel inc n, shell_inc inc -> shell_inc (firstInc fuel inc n).
Proof. induction fuel as [|f IH]; intros inc n H; cbn; [exact H|]. destruct (inc <=? n); [apply IH; constructor; exact H|exact H]. Qed.

Lemma firstInc_gt : forall fuel inc n, n < inc + fuel -> n < firstInc fuel inc n \/ fuel = 0.
Proof.
  induction fuel as [|f IH]; intros inc n H; [right; reflexivity|]. left. cbn [firstInc].
  destruct (Nat.leb_spec inc n); [|lia]. destruct (IH (inc * 3 + 1) n ltac:(lia)) as [G| ->]; [exact G|]. cbn. lia.
Qed.

Lemma shellLoop_spec : forall fuel inc (xs : list A), inc < fuel -> shell_inc inc ->
  exists ys, shellLoop A lt fuel xs inc = Some ys /\ Permutation xs ys /\ (1 < inc \/ List.length xs <= 1 -> sorted_below ys (List.length ys)).
Proof.
  induction fuel as [|f IH]; intros inc xs Hf Hinc; [lia|]. cbn [shellLoop].
  destruct (Nat.ltb_spec 1 inc) as [Hgt|Hle].
  - destruct (shell_inc_div inc Hinc Hgt) as [D1 D2]. remember (Nat.div inc 3) as inc'.
    assert (Hpos := shell_inc_pos _ D1).
    destruct (Nat.le_gt_cases inc' (List.length xs)) as [Hle|Hgt'].
    + destruct (shellPass_spec inc' ltac:(lia) (List.length xs - inc') inc' xs) as (ys & E & P & S1); try lia.
      rewrite E. unfold bindo. destruct (IH inc' ys ltac:(lia) D1) as (zs & Ez & Pz & Sz).
      exists zs. split; [exact Ez|]. split; [eapply Permutation_trans; eassumption|].
      intros _. destruct (Nat.eq_dec inc' 1) as [E1|E1].
      * rewrite E1 in *. destruct f; [lia|]. cbn in Ez. inversion Ez; subst zs. apply S1; [reflexivity|].
        intros p q. lia.
      * apply Sz. left. lia.
    + replace (List.length xs - inc') with 0 by lia. cbn [shellPass]. unfold bindo.
      destruct (IH inc' xs ltac:(lia) D1) as (zs & Ez & Pz & Sz).
      exists zs. split; [exact Ez|]. split; [exact Pz|]. intros _. apply Sz. lia.
  - exists xs. split; [reflexivity|]. split; [apply Permutation_refl|]. intros [H|H]; [lia|].
    intros p q. lia.
Qed.

Theorem Shell_sorts (xs : list A) : exists ys, Shell A lt xs = Some ys /\ is_sort lt xs ys.
Proof.
  unfold Shell. destruct (Nat.eqb_spec (List.length xs) 1) as [E|E].
  - exists xs. split; [reflexivity|]. split; [apply Permutation_refl|]. apply sorted_below_SS. intros p q. lia.
  - remember (firstInc (S (List.length xs)) 1 (List.length xs)) as inc.
    destruct (shellLoop_spec (S inc) inc xs ltac:(lia)) as (ys & Ey & P & S1).
    { subst inc. apply firstInc_spec. constructor. }
    exists ys. split; [exact Ey|]. split; [exact P|]. apply sorted_below_SS. apply S1.
    destruct (firstInc_gt (S (List.length xs)) 1 (List.length xs) ltac:(lia)) as [H|H]; [|discriminate].
    rewrite <- Heqinc in H. destruct xs as [|? [|? ?]]; cbn [List.length] in *; lia.
Qed.

(** ** Reverse *)
Lemma reverseLoop_spec : forall k i (xs orig : list A), List.length xs = List.length orig ->
  i + k = Nat.div (List.length orig) 2 ->
  (forall p, p < List.length orig -> nth_error xs p =
     if (p <? i) || (List.length orig - 1 - i <? p) then nth_error orig (List.length orig - 1 - p) else nth_error orig p) ->
  reverseLoop A k i xs = Some (rev orig).
Proof.
  induction k as [|k IH]; intros i xs orig HL Hk HI; cbn [reverseLoop].
  - f_equal. apply nth_error_ext. intros p. destruct (Nat.lt_ge_cases p (List.length orig)) as [Hp|Hp].
    + rewrite HI by exact Hp.
      assert (Er : nth_error (rev orig) p = nth_error orig (List.length orig - 1 - p)).
      { destruct orig as [|d l]; [cbn in Hp; lia|].
        rewrite (nth_error_nth' (rev (d :: l)) d) by (rewrite rev_length; exact Hp).
        rewrite (nth_error_nth' (d :: l) d) by lia. rewrite rev_nth by exact Hp. do 2 f_equal. lia. }
      rewrite Er. assert (Hdm := Nat.div_mod_eq (List.length orig) 2). assert (Hmb := Nat.mod_upper_bound (List.length orig) 2 ltac:(lia)).
      destruct (Nat.ltb_spec p i); [reflexivity|]. destruct (Nat.ltb_spec (List.length orig - 1 - i) p); [reflexivity|].
      cbn [orb]. f_equal. lia.
    + rewrite (proj2 (nth_error_None xs p)) by lia. symmetry. apply nth_error_None. rewrite rev_length. lia.
  - assert (Hdm := Nat.div_mod_eq (List.length orig) 2). assert (Hmb := Nat.mod_upper_bound (List.length orig) 2 ltac:(lia)).
    destruct (swap_some xs i (List.length xs - 1 - i)) as (ys & Es); try lia. rewrite Es. unfold bindo.
    apply swap_spec in Es. destruct Es as (_ & Ly & _ & _ & Hn). rewrite HL in *.
    apply IH; [lia|lia|]. intros p Hp. rewrite Hn.
    destruct (Nat.eqb_spec p (List.length orig - 1 - i)) as [->|H1].
    + rewrite HI by lia. destruct (Nat.ltb_spec i i); [lia|]. destruct (Nat.ltb_spec (List.length orig - 1 - i) i); [lia|]. cbn [orb].
      destruct (Nat.ltb_spec (List.length orig - 1 - i) (S i)); cbn [orb].
      * f_equal. lia.
      * destruct (Nat.ltb_spec (List.length orig - 1 - S i) (List.length orig - 1 - i)); [f_equal; lia|lia].
    + destruct (Nat.eqb_spec p i) as [->|H2].
      * rewrite HI by lia. destruct (Nat.ltb_spec (List.length orig - 1 - i) i); [lia|].
        destruct (Nat.ltb_spec (List.length orig - 1 - i) (List.length orig - 1 - i)); [lia|]. cbn [orb].
        destruct (Nat.ltb_spec i (S i)); [reflexivity|lia].
      * rewrite HI by lia.
        destruct (Nat.ltb_spec p i), (Nat.ltb_spec p (S i)), (Nat.ltb_spec (List.length orig - 1 - i) p), (Nat.ltb_spec (List.length orig - 1 - S i) p); cbn [orb]; try reflexivity; lia.
Qed.

Theorem Reverse_spec (xs : list A) : Reverse A xs = Some (rev xs).
Proof.
  apply reverseLoop_spec; [reflexivity|reflexivity|]. intros p Hp.
  destruct (Nat.ltb_spec p 0); [lia|]. destruct (Nat.ltb_spec (List.length xs - 1 - 0) p); [lia|reflexivity].
Qed.
End SP.
