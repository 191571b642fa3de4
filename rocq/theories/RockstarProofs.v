(** * Proofs about halo catalogue columns. *)
From Coq Require Import Lia ZArith List Permutation Sorting.Sorted.
From Verif Require Import GoBase GoBaseFacts LoopBase LoopFacts ListFacts BytesModel BytesFacts RockstarModel RockstarSpec.
Import List ListNotations.
Local Open Scope nat_scope.

(** ** mapo *)
Lemma mapo_map {A B} (f : A -> option B) (g : A -> B) l : (forall a, In a l -> f a = Some (g a)) -> mapo f l = Some (map g l).
Proof.
  induction l as [|a l IH]; intros H; [reflexivity|]. cbn [mapo map]. rewrite H by now left. rewrite IH; [reflexivity|].
  intros; apply H; now right.
Qed.

Lemma mapo_spec {A B} (f : A -> option B) l bs : mapo f l = Some bs <-> Forall2 (fun a b => f a = Some b) l bs.
Proof.
  revert bs. induction l as [|a l IH]; intros bs; cbn [mapo].
  - split; [intros [= <-]; constructor|]. intros H; inversion H; reflexivity.
  - split.
    + destruct (f a) eqn:E; [|discriminate]. destruct (mapo f l) eqn:El; [|discriminate]. intros [= <-]. constructor; [exact E|]. now apply IH.
    + intros H. inversion H; subst. rewrite H2. rewrite (proj2 (IH l')) by assumption. reflexivity.
Qed.

Lemma mapo_none {A B} (f : A -> option B) l a : In a l -> f a = None -> mapo f l = None.
Proof.
  induction l as [|x l IH]; intros Hin E; [destruct Hin|]. destruct Hin as [->|Hin]; cbn [mapo]; [now rewrite E|]. destruct (f x); [|reflexivity]. now rewrite IH.
Qed.

(** ** Last occurrences *)
Lemma last_index_spec l name i : last_index beq name l = Some i <-> is_last l name i.
Proof.
  revert i. induction l as [|x l IH]; intros i; cbn [last_index].
  - split; [discriminate|]. intros [H _]. destruct i; discriminate.
  - destruct (last_index beq name l) as [k|] eqn:E.
    + assert (K : is_last l name k) by (now apply IH). split.
      * intros [= <-]. destruct K as [K1 K2]. split; [exact K1|]. intros [|j] Hj; [lia|]. apply K2. lia.
      * intros [H1 H2]. destruct i as [|i]; [exfalso; apply (H2 (S k)); [lia|apply K]|].
        f_equal. f_equal. assert (H3 : is_last l name i) by (split; [exact H1|]; intros j Hj; apply (H2 (S j)); lia).
        apply IH in H3. congruence.
    + split.
      * destruct (beq x name) eqn:Eb; [|discriminate]. apply beq_true in Eb. intros [= <-]. split; [now subst|].
        intros [|j] Hj Q; [lia|]. cbn [nth_error] in Q.
        assert (In name l) by (now apply nth_error_In in Q). clear - H E. induction l as [|y l IHl]; [contradiction|].
        cbn [last_index] in E. destruct (last_index beq name l); [discriminate|]. destruct H as [->|H]; [now rewrite beq_refl in E|]. auto.
      * intros [H1 H2]. destruct i as [|i].
        { injection H1 as ->. now rewrite beq_refl. }
        exfalso. assert (H3 : is_last l name i) by (split; [exact H1|]; intros j Hj; apply (H2 (S j)); lia).
        apply IH in H3. congruence.
Qed.

Lemma last_index_none l name : last_index beq name l = None <-> ~ In name l.
Proof.
  induction l as [|x l IH]; cbn [last_index]; [now split|].
  destruct (last_index beq name l) as [k|].
  - split; [discriminate|]. intros H. exfalso. apply H. right. destruct (in_dec (list_eq_dec ascii_dec) name l) as [Q|Q]; [exact Q|]. apply IH in Q. discriminate.
  - destruct (beq x name) eqn:E.
    + apply beq_true in E. split; [discriminate|]. intros H. exfalso. apply H. now left.
    + apply beq_false in E. split; [|reflexivity]. intros _ [Q|Q]; [contradiction|]. now apply IH in Q.
Qed.

Lemma is_last_fun {A} (l : list A) x i j : is_last l x i -> is_last l x j -> i = j.
Proof.
  intros [H1 H2] [H3 H4]. destruct (Nat.lt_trichotomy i j) as [Q|[Q|Q]]; [|exact Q|]; exfalso; [now apply (H2 j)|now apply (H4 i)].
Qed.

Lemma is_last_app_l {A} (l l2 : list A) x i : is_last l x i -> ~ In x l2 -> is_last (l ++ l2) x i.
Proof.
  intros [H1 H2] N. assert (Hi : i < length l) by (apply nth_error_Some; congruence). split.
  - now rewrite nth_error_app1.
  - intros j Hj Q. destruct (Nat.lt_ge_cases j (length l)) as [Hl|Hl].
    + rewrite nth_error_app1 in Q by exact Hl. now apply (H2 j).
    + rewrite nth_error_app2 in Q by exact Hl. apply nth_error_In in Q. contradiction.
Qed.

Lemma is_last_In {A} (l : list A) x i : is_last l x i -> In x l.
Proof. intros [H _]. now apply nth_error_In in H. Qed.

Lemma is_last_lt {A} (l : list A) x i : is_last l x i -> i < length l.
Proof. intros [H _]. apply nth_error_Some. congruence. Qed.

(** ** NewVarColumns *)

Definition extended (names : list bytes) (columns : list Z) (done : list (bytes * bytes)) (vc : VarColumns) : Prop :=
  exists E, v_names vc = names ++ map snd E /\ v_columns vc = columns ++ repeat (-1)%Z (length E) /\
    v_generator vc = repeat [] (length names) ++ map fst E /\ v_nbinary vc = length names /\
    NoDup (map snd E) /\
    (forall m r, In (m, r) E <-> In (m, r) done /\ In m names /\ ~ In r names).

Lemma extended_step names columns done m r vc :
  NoDup (map snd (done ++ [(m, r)])) ->
  ~ In m (map snd done) ->
  extended names columns done vc -> extended names columns (done ++ [(m, r)]) (add_generated (m, r) vc).
Proof.
  intros ND Nm (E & H1 & H2 & H3 & H4 & H5 & H6).
  assert (Nr : ~ In r (map snd E)).
  { intros Q. apply in_map_iff in Q. destruct Q as ((m', r') & Q1 & Q2). cbn in Q1. subst r'. apply H6 in Q2. destruct Q2 as (Q2 & _).
    rewrite map_app in ND. apply NoDup_remove_2 in ND. rewrite app_nil_r in ND. apply ND. apply in_map_iff. exists (m', r). auto. }
  assert (NmE : ~ In m (map snd E)).
  { intros Q. apply Nm. apply in_map_iff in Q. destruct Q as ((m', r') & Q1 & Q2). apply H6 in Q2. apply in_map_iff. exists (m', r'). tauto. }
  unfold add_generated, column_lookup. cbn [fst snd]. rewrite H1.
  destruct (last_index beq m (names ++ map snd E)) as [k|] eqn:Em; [destruct (last_index beq r (names ++ map snd E)) as [k'|] eqn:Er|].
  - exists E. repeat (split; [assumption|]). intros m' r'. rewrite H6. split.
    + intros (Q1 & Q2 & Q3). split; [apply in_or_app; now left|auto].
    + intros (Q1 & Q2 & Q3). apply in_app_or in Q1. destruct Q1 as [Q1|[[= <- <-]|[]]]; [auto|]. exfalso.
      apply last_index_spec, is_last_In, in_app_or in Er. tauto.
  - exists (E ++ [(m, r)]). cbn [v_names v_columns v_generator v_nbinary]. rewrite H2, H3, !map_app, app_length.
    cbn [length map]. split; [now rewrite app_assoc|]. split; [rewrite repeat_app, app_assoc; reflexivity|].
    split; [now rewrite app_assoc|]. split; [exact H4|]. cbn [fst snd]. split.
    + apply NoDup_app'; [exact H5|constructor; [easy|constructor]|]. intros a Ha [<-|[]]. contradiction.
    + apply last_index_none in Er. intros m' r'. rewrite !in_app_iff, H6. split.
      * intros [(Q1 & Q2 & Q3)|[[= <- <-]|[]]]; [auto|]. split; [now right; left|]. split.
        { apply last_index_spec, is_last_In, in_app_or in Em. destruct Em as [Em|Em]; [exact Em|contradiction]. }
        intros Q. apply Er. apply in_or_app. now left.
      * intros ([Q1|[Q1|[]]] & Q2 & Q3); [left; auto|right; now left].
  - exists E. repeat (split; [assumption|]). intros m' r'. rewrite H6. apply last_index_none in Em. split.
    + intros (Q1 & Q2 & Q3). split; [apply in_or_app; now left|auto].
    + intros (Q1 & Q2 & Q3). apply in_app_or in Q1. destruct Q1 as [Q1|[[= <- <-]|[]]]; [auto|]. exfalso. apply Em, in_or_app. now left.
Qed.

Ltac notin := cbn [map snd app In firstn radius_pairs]; let Q := fresh "Q" in intros Q; repeat (destruct Q as [Q|Q]; [discriminate Q|]); exact Q.
Ltac nodup := cbn [map snd app firstn radius_pairs]; repeat (apply NoDup_cons; [notin|]); apply NoDup_nil.

Lemma new_var_columns_ok names columns vc : new_var_columns names columns = Some vc ->
  length names <= length columns /\ extended names (firstn (length names) columns) radius_pairs vc.
Proof.
  unfold new_var_columns. destruct (Nat.ltb_spec (length columns) (length names)) as [|Hl]; [discriminate|]. intros [= <-]. split; [exact Hl|].
  assert (H0 : extended names (firstn (length names) columns) [] {| v_names := names; v_columns := firstn (length names) columns;
      v_generator := repeat [] (length names); v_nbinary := length names |}).
  { exists []. cbn [map length repeat v_names v_columns v_generator v_nbinary]. rewrite !app_nil_r. repeat (split; [reflexivity|]).
    split; [constructor|]. intros m r. split; [intros []|intros [[] _]]. }
  change (combine _ _) with radius_pairs. unfold radius_pairs. cbn [fold_left].
  pose proof (extended_step _ _ [] (lit "M200m") (lit "R200m") _ ltac:(nodup)
      ltac:(notin) H0) as H1. cbn [app firstn radius_pairs] in H1.
  pose proof (extended_step _ _ (firstn 1 radius_pairs) (lit "M200c") (lit "R200c") _ ltac:(nodup)
      ltac:(notin) H1) as H2. cbn [app firstn radius_pairs] in H2.
  pose proof (extended_step _ _ (firstn 2 radius_pairs) (lit "M500c") (lit "R500c") _ ltac:(nodup)
      ltac:(notin) H2) as H3. cbn [app firstn radius_pairs] in H3.
  pose proof (extended_step _ _ (firstn 3 radius_pairs) (lit "M2500c") (lit "R2500c") _ ltac:(nodup)
      ltac:(notin) H3) as H4. cbn [app firstn radius_pairs] in H4.
  exact H4.
Qed.

Lemma pair_not_radius m r : In (m, r) radius_pairs -> m <> [] /\ forall m' r', In (m', r') radius_pairs -> m <> r'.
Proof.
  intros H. unfold radius_pairs in H. cbn [In] in H.
  destruct H as [[= <- <-]|[[= <- <-]|[[= <- <-]|[[= <- <-]|[]]]]]; (split; [discriminate|]); intros m' r' H;
    unfold radius_pairs in H; cbn [In] in H; destruct H as [[= <- <-]|[[= <- <-]|[[= <- <-]|[[= <- <-]|[]]]]]; discriminate.
Qed.

Section Cols.
Context {V : Type} (radius_of : bytes -> V -> V).
Variable names : list bytes.
Variable columns : list Z.
Variable vc : VarColumns.
Hypothesis Hvc : new_var_columns names columns = Some vc.

Lemma vc_nbinary : v_nbinary vc = length names.
Proof. apply new_var_columns_ok in Hvc. destruct Hvc as (_ & E & H). tauto. Qed.

Lemma nth_error_repeat' {A} (x : A) n i : i < n -> nth_error (repeat x n) i = Some x.
Proof. revert i; induction n as [|n IH]; intros [|i] H; try lia; cbn; [reflexivity|]. apply IH. lia. Qed.

(** A plain column. *)
Lemma lookup_raw name i : is_last names name i -> lookup0 vc name = i /\ nth_error (v_generator vc) i = Some [].
Proof.
  intros H. pose proof (new_var_columns_ok _ _ _ Hvc) as (_ & E & H1 & _ & H3 & _ & _ & H6).
  assert (Hi := is_last_lt _ _ _ H). split.
  - unfold lookup0, column_lookup. rewrite H1.
    rewrite (proj2 (last_index_spec _ name i)); [reflexivity|]. apply is_last_app_l; [exact H|].
    intros Q. apply in_map_iff in Q. destruct Q as ((m, r) & Q1 & Q2). cbn in Q1. subst r. apply H6 in Q2. destruct Q2 as (_ & _ & Q2).
    apply Q2. now apply is_last_In in H.
  - rewrite H3, nth_error_app1 by (now rewrite repeat_length). now apply nth_error_repeat'.
Qed.

Lemma get_column_raw cols name i c : is_last names name i -> nth_error cols i = Some c ->
  get_column V radius_of vc cols name = Some c.
Proof.
  intros H Hc. destruct (lookup_raw name i H) as [E1 E2]. unfold get_column, rd. rewrite E1, E2. cbn [length Nat.eqb]. exact Hc.
Qed.

Lemma get_column_radius cols m name i c : In (m, name) radius_pairs -> ~ In name names -> is_last names m i -> nth_error cols i = Some c ->
  get_column V radius_of vc cols name = Some (map (radius_of name) c).
Proof.
  intros Hp Hn Hm Hc. pose proof (new_var_columns_ok _ _ _ Hvc) as (_ & E & H1 & _ & H3 & _ & H5 & H6).
  assert (HE : In (m, name) E) by (apply H6; split; [exact Hp|]; split; [now apply is_last_In in Hm|exact Hn]).
  apply In_nth_error in HE. destruct HE as (k & Hk).
  assert (Hlast : is_last (names ++ map snd E) name (length names + k)).
  { split.
    - rewrite nth_error_app2 by lia. replace (length names + k - length names) with k by lia. now rewrite nth_error_map, Hk.
    - intros j Hj Q. rewrite nth_error_app2 in Q by lia.
      assert (j - length names = k); [|lia].
      apply (proj1 (NoDup_nth_error (map snd E)) H5); [apply nth_error_Some; congruence|]. rewrite Q. now rewrite nth_error_map, Hk. }
  unfold get_column, rd, lookup0 at 1, column_lookup. rewrite H1, (proj2 (last_index_spec _ _ _) Hlast).
  rewrite H3, nth_error_app2 by (rewrite repeat_length; lia). rewrite repeat_length. replace (length names + k - length names) with k by lia.
  rewrite nth_error_map, Hk. cbn [option_map fst].
  destruct (pair_not_radius _ _ Hp) as [Hne _]. destruct m as [|a m]; [congruence|]. cbn [length Nat.eqb].
  rewrite (proj1 (lookup_raw _ _ Hm)), Hc. reflexivity.
Qed.

(** Every known name has a column, and its entries are the named values. *)
Lemma In_is_last (name : bytes) l : In name l -> exists i, is_last l name i.
Proof.
  intros H. destruct (last_index beq name l) as [i|] eqn:E; [exists i; now apply last_index_spec|].
  apply last_index_none in E. contradiction.
Qed.

Lemma get_column_known cols n name : catalogue_ok V names cols n -> known names name ->
  exists c, get_column V radius_of vc cols name = Some c /\ length c = n /\
    forall r v, nth_error c r = Some v <-> halo_value V radius_of names cols r name v.
Proof.
  intros [HL HF] Hk.
  assert (Get : forall i x, is_last names x i -> exists c, nth_error cols i = Some c /\ length c = n).
  { intros i x Hx. assert (Hi := is_last_lt _ _ _ Hx). destruct (nth_error cols i) as [c|] eqn:E.
    - exists c. split; [reflexivity|]. apply nth_error_In in E. now apply (proj1 (Forall_forall _ _) HF).
    - apply nth_error_None in E. lia. }
  assert (D : In name names \/ ~ In name names) by (destruct (in_dec (list_eq_dec ascii_dec) name names); auto).
  destruct D as [Hin|Hout].
  - destruct (In_is_last name names Hin) as (i & Hi). destruct (Get i name Hi) as (c & Hc & Hl). exists c.
    split; [now apply (get_column_raw cols name i)|]. split; [exact Hl|]. intros r v. split.
    + intros Q. eapply hv_column; eauto.
    + intros Q. inversion Q as [nm i' c' v' Q1 Q2 Q3|m nm i' c' v' Q1 Q2 Q3 Q4 Q5]; subst; [|contradiction].
      pose proof (is_last_fun _ _ _ _ Hi Q1). subst i'. congruence.
  - destruct Hk as [Hk|(m & Hp & Hm)]; [contradiction|]. destruct (In_is_last m names Hm) as (i & Hi). destruct (Get i m Hi) as (c & Hc & Hl).
    exists (map (radius_of name) c). split; [eapply get_column_radius; eauto|]. rewrite map_length. split; [exact Hl|].
    intros r v. rewrite nth_error_map. split.
    + destruct (nth_error c r) eqn:E; [|discriminate]. intros [= <-]. eapply hv_radius; eauto.
    + intros Q. inversion Q as [nm i' c' v' Q1 Q2 Q3|m' nm i' c' v' Q1 Q2 Q3 Q4 Q5]; subst; [now apply is_last_In in Q1|].
      assert (m' = m).
      { clear - Q1 Hp. unfold radius_pairs in *. cbn [In] in *.
        destruct Hp as [[= <- <-]|[[= <- <-]|[[= <- <-]|[[= <- <-]|[]]]]]; destruct Q1 as [[= E]|[[= E]|[[= E]|[[= E]|[]]]]]; congruence. }
      subst m'. pose proof (is_last_fun _ _ _ _ Hi Q3). subst i'. rewrite Hc in Q4. injection Q4 as <-. now rewrite Q5.
Qed.

(** Any other name gives the first column. *)
Lemma get_column_unknown cols name c n0 names0 : names = n0 :: names0 -> ~ known names name -> nth_error cols 0 = Some c ->
  get_column V radius_of vc cols name = Some c.
Proof.
  intros En Hk Hc. pose proof (new_var_columns_ok _ _ _ Hvc) as (_ & E & H1 & _ & H3 & _ & H5 & H6).
  unfold get_column, rd, lookup0 at 1, column_lookup. rewrite H1.
  rewrite (proj2 (last_index_none _ name)).
  2:{ intros Q. apply in_app_or in Q. destruct Q as [Q|Q]; [apply Hk; now left|].
      apply in_map_iff in Q. destruct Q as ((m, r) & Q1 & Q2). cbn in Q1. subst r. apply H6 in Q2. apply Hk. right. exists m. tauto. }
  rewrite H3, En. cbn [repeat length nth_error app Nat.eqb].
  assert (Q : lookup0 vc name = 0). { unfold lookup0, column_lookup. rewrite H1. rewrite (proj2 (last_index_none _ name)); [reflexivity|].
    intros Q. apply in_app_or in Q. destruct Q as [Q|Q]; [apply Hk; now left|].
      apply in_map_iff in Q. destruct Q as ((m, r) & Q1 & Q2). cbn in Q1. subst r. apply H6 in Q2. apply Hk. right. exists m. tauto. }
  rewrite Q. exact Hc.
Qed.
End Cols.
