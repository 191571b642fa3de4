From Verif Require Import GoBase GoBaseFacts ConfigModel ConfigSpec ConfigProofs.
Local Open Scope list_scope.

Lemma Forall2_nth_error {A B} (P : A -> B -> Prop) xs ys i y :
  Forall2 P xs ys -> nth_error ys i = Some y -> exists x, nth_error xs i = Some x /\ P x y.
Proof.
  intros H; revert i; induction H as [|a b xs ys Hab H IH]; intros [|i]; simpl; try discriminate.
  - intros [= <-]. eauto.
  - apply IH.
Qed.

Lemma nth_error_map_inv {A B} (f : A -> B) l i y :
  nth_error (map f l) i = Some y -> exists x, nth_error l i = Some x /\ f x = y.
Proof.
  revert i; induction l as [|a l IH]; intros [|i]; simpl; try discriminate; [intros [= <-]; eauto|apply IH].
Qed.

Lemma nth_error_nth_map {A B} (f : A -> B) l i x d :
  nth_error l i = Some x -> nth i (map f l) d = f x.
Proof. intros H. apply nth_error_nth. apply map_nth_error. exact H. Qed.

(** line [k] (counted from one) of [ls] *)
Definition line (ls : list bytes) (k : nat) (l : bytes) : Prop := k > 0 /\ nth_error ls (k - 1) = Some l.

Lemma al_trimmed body al :
  Forall (fun s => trimmed s /\ s <> []) body ->
  Forall2 (fun l p => parse_assign l = Some p) body al -> trimmed_vals al.
Proof.
  intros HT H. induction H as [|l [n v] body al Hp H IH]; [constructor|].
  inversion HT as [|? ? [HT1 _] HT2]; subst. constructor; [|apply IH; assumption].
  simpl. apply (parse_assign_some l n v HT1) in Hp.
  destruct Hp as (b & c & _ & _ & _ & _ & Hv). exact Hv.
Qed.

Lemma kept_line ls i s n :
  nth_error (removeComments 0 ls) i = Some (s, n) ->
  exists raw, line ls (S n) raw /\ code_line raw s /\ s <> [].
Proof.
  intros H. apply removeComments_kept in H. destruct H as (_ & raw & H1 & H2 & H3).
  exists raw. split; [|auto]. split; [lia|]. simpl. exact H1.
Qed.

Lemma code_line_assign raw s n v : code_line raw s -> (parse_assign s = Some (n, v) <-> assign_line raw n v).
Proof. intros H. apply code_line_iff in H. subst s. symmetry. apply assign_line_iff. Qed.

Lemma first_header_eff name pre l post :
  Forall blank_line pre -> header_line name l ->
  exists body, eff (pre ++ l :: post) = (lit "[" ++ name ++ lit "]") :: body.
Proof.
  intros Hp Hl. induction Hp as [|b pre Hb Hp IH].
  - simpl. rewrite eff_cons. apply code_line_iff in Hl. rewrite Hl. eexists; reflexivity.
  - simpl. rewrite eff_cons. apply code_line_iff in Hb. rewrite Hb. exact IH.
Qed.

Lemma kept_increasing i ls p q s n t m :
  nth_error (removeComments i ls) p = Some (s, n) -> nth_error (removeComments i ls) q = Some (t, m) ->
  p < q -> n < m.
Proof.
  revert i p q; induction ls as [|l ls IH]; intros i p q; simpl.
  - destruct p; discriminate.
  - destruct (trim sp (cutComment l)) as [|c u] eqn:E; [apply IH|].
    destruct p as [|p]; simpl.
    + intros [= <- <-] H Hlt. destruct q as [|q]; [lia|]. simpl in H.
      apply removeComments_kept in H. lia.
    + intros H1 H2 Hlt. destruct q as [|q]; [lia|]. simpl in H2. eapply IH; eauto. lia.
Qed.

Section Top.
Variable F : Type.
Variable parseFloat : bytes -> option F.
Variable toLower : bytes -> bytes.
Notation ReadConfig := (ReadConfig F parseFloat toLower).
Notation ReadFlags := (ReadFlags F parseFloat toLower).
Notation same_name := (same_name toLower).
Notation denotes := (denotes F parseFloat).
Notation all_registered := (all_registered toLower).
Notation no_duplicates := (no_duplicates toLower).
Notation distinct_vars := (distinct_vars toLower).
Notation all_convert := (all_convert F parseFloat toLower).
Notation assigned := (assigned F parseFloat toLower).

Lemma no_dup_names al : no_duplicates al <-> NoDup (map toLower (map fst al)).
Proof. unfold ConfigSpec.no_duplicates. rewrite map_map. reflexivity. Qed.

Lemma all_reg_names vars al :
  all_registered vars al <->
  forall n, In n (map fst al) -> exists rv, In rv vars /\ same_name n (rv_name rv).
Proof.
  split.
  - intros H n HI. apply in_map_iff in HI. destruct HI as ([m v] & <- & HI). apply (H m v HI).
  - intros H n v HI. apply H. apply in_map_iff. exists (n, v). auto.
Qed.

(** What each outcome of ReadConfig means. *)
Definition diagnosis (ls : list bytes) (cv : ConfigVars) (st : list (value F))
  (o : outcome) (st' : list (value F)) : Prop :=
  match o with
  | Nil => exists al, config_lines (cv_name cv) ls al /\ all_registered (cv_vars cv) al
                      /\ no_duplicates al /\ assigned (cv_vars cv) al st st'
  | Fail EHeader =>
      st' = st /\ forall pre l post, ls = pre ++ l :: post -> Forall blank_line pre ->
                  ~ header_line (cv_name cv) l
  | Fail (EAssign k) =>
      st' = st /\ exists l, line ls k l /\ ~ blank_line l /\ forall n v, ~ assign_line l n v
  | Fail (EUnknown k n) =>
      st' = st /\ exists l v, line ls k l /\ assign_line l n v
                 /\ forall rv, In rv (cv_vars cv) -> ~ same_name n (rv_name rv)
  | Fail (EDuplicate k1 k2 n) =>
      st' = st /\ exists l1 l2 v1 n2 v2, k1 <> k2 /\ line ls k1 l1 /\ line ls k2 l2 /\ assign_line l1 n v1
                 /\ assign_line l2 n2 v2 /\ same_name n n2
  | Fail (EConvert k var ty shown) =>
      exists l n v rv, line ls k l /\ assign_line l n v /\ In rv (cv_vars cv) /\ same_name n (rv_name rv)
                 /\ var = rv_name rv /\ ty = rv_type rv /\ forall x, ~ denotes ty v x
  | Panics =>
      exists al l n v rv j, config_lines (cv_name cv) ls al /\ In l ls /\ assign_line l n v /\ In (n, v) al
                 /\ nth_error (cv_vars cv) j = Some rv /\ same_name n (rv_name rv)
                 /\ (forall x, ~ denotes (rv_type rv) v x) /\ List.length al <= j
  | _ => False
  end.

Theorem ReadConfig_diagnosis text ls cv st :
  lines_of text ls -> List.length st = List.length (cv_vars cv) -> distinct_vars (cv_vars cv) ->
  let (o, st') := ReadConfig text cv st in diagnosis ls cv st o st'.
Proof.
  intros HLs HL HV. apply lines_of_split in HLs. unfold ConfigModel.ReadConfig. rewrite <- HLs.
  destruct (removeComments 0 ls) as [|[l0 k0] body] eqn:EK.
  { split; [reflexivity|]. intros pre l post E Hp Hh.
    destruct (first_header_eff _ _ _ post Hp Hh) as (b & Hb). rewrite <- E in Hb. unfold eff in Hb. rewrite EK in Hb. discriminate. }
  destruct (beq l0 (lit "[" ++ cv_name cv ++ lit "]")) eqn:EH; cbn [negb].
  2:{ split; [reflexivity|]. intros pre l post E Hp Hh.
      destruct (first_header_eff _ _ _ post Hp Hh) as (b & Hb). rewrite <- E in Hb. unfold eff in Hb. rewrite EK in Hb.
      cbn [map fst] in Hb. injection Hb as Hb _. apply beq_false in EH. apply EH. exact Hb. }
  apply beq_true in EH.
  set (lineNum := fun i => match nth_error ((l0, k0) :: body) i with Some (_, k) => S k | None => 0 end).
  assert (HEff : eff ls = (lit "[" ++ cv_name cv ++ lit "]") :: map fst body).
  { unfold eff. rewrite EK. cbn [map fst]. rewrite EH. reflexivity. }
  assert (HTb : Forall (fun s => trimmed s /\ s <> []) (map fst body)).
  { pose proof (eff_trimmed ls) as X. rewrite HEff in X. inversion X; assumption. }
  assert (HLine : forall i s, nth_error (map fst body) i = Some s ->
            exists raw, line ls (lineNum (S i)) raw /\ code_line raw s /\ s <> []).
  { intros i s Hi. apply nth_error_map_inv in Hi. destruct Hi as ([s' n] & Hi & Es). simpl in Es. subst s'.
    unfold lineNum. cbn [nth_error]. rewrite Hi. apply (kept_line ls (S i)). rewrite EK. exact Hi. }
  assert (HLineNe : forall i j s t, i < j -> nth_error (map fst body) i = Some s ->
            nth_error (map fst body) j = Some t -> lineNum (S i) <> lineNum (S j)).
  { intros i j s t Hij Hi Hj. apply nth_error_map_inv in Hi, Hj.
    destruct Hi as ([s' n] & Hi & _), Hj as ([t' m] & Hj & _).
    unfold lineNum. cbn [nth_error]. rewrite Hi, Hj.
    assert (n < m).
    { eapply (kept_increasing 0 ls (S i) (S j)); rewrite ?EK; cbn [nth_error]; eauto. lia. }
    lia. }
  destruct (associationList 0 (map fst body)) as [al|i] eqn:EA.
  2:{ split; [reflexivity|]. apply associationList_inr in EA. destruct EA as (_ & s & H1 & H2).
      rewrite Nat.sub_0_r in H1. destruct (HLine _ _ H1) as (raw & R1 & R2 & R3).
      exists raw. split; [exact R1|]. split.
      - intros Hb. apply code_line_iff in R2, Hb. congruence.
      - intros n v Ha. apply (code_line_assign _ _ n v R2) in Ha. congruence. }
  apply associationList_inl in EA.
  assert (HC : config_lines (cv_name cv) ls al).
  { apply config_lines_iff. exists (map fst body). auto. }
  assert (HTv : trimmed_vals al) by (eapply al_trimmed; eauto).
  assert (HAl : forall i n v, nth_error al i = Some (n, v) ->
            exists raw, line ls (lineNum (S i)) raw /\ assign_line raw n v).
  { intros i n v Hi. destruct (Forall2_nth_error _ _ _ _ _ EA Hi) as (s & Hs & Hp).
    destruct (HLine _ _ Hs) as (raw & R1 & R2 & _). exists raw. split; [exact R1|].
    apply (code_line_assign _ _ _ _ R2). exact Hp. }
  destruct (checkValidNames toLower 0 (map fst al) (cv_vars cv)) as [i|] eqn:EV.
  { split; [reflexivity|]. apply checkValidNames_some in EV. destruct EV as (_ & n & H1 & H2).
    rewrite Nat.sub_0_r in H1.
    apply nth_error_map_inv in H1. destruct H1 as ([n' v] & H1 & En). simpl in En. subst n'.
    assert (EN : nth i (map fst al) [] = n) by (exact (nth_error_nth_map fst _ _ _ [] H1)). rewrite EN.
    destruct (HAl _ _ _ H1) as (raw & R1 & R2). exists raw, v. auto. }
  rewrite checkValidNames_none in EV.
  assert (HReg : all_registered (cv_vars cv) al) by (apply all_reg_names; exact EV).
  destruct (checkDuplicateNames toLower 0 (map fst al)) as [[i j]|] eqn:ED.
  { split; [reflexivity|]. apply checkDuplicateNames_some in ED.
    destruct ED as (_ & Hlt & n & m & H1 & H2 & H3). rewrite Nat.sub_0_r in H1, H2.
    apply nth_error_map_inv in H1, H2. destruct H1 as ([n' v] & H1 & En), H2 as ([m' w] & H2 & Em).
    simpl in En, Em. subst n' m'.
    assert (EN : nth i (map fst al) [] = n) by (exact (nth_error_nth_map fst _ _ _ [] H1)). rewrite EN.
    destruct (HAl _ _ _ H1) as (l1 & R1 & R2). destruct (HAl _ _ _ H2) as (l2 & R3 & R4).
    destruct (Forall2_nth_error _ _ _ _ _ EA H1) as (s1 & Hs1 & _).
    destruct (Forall2_nth_error _ _ _ _ _ EA H2) as (s2 & Hs2 & _).
    exists l1, l2, v, m, w. split; [eapply HLineNe; eauto|]. repeat split; auto; try apply R1; apply R3. }
  rewrite checkDuplicateNames_none in ED.
  assert (HDup : no_duplicates al) by (apply no_dup_names; exact ED).
  destruct (convertAssoc F parseFloat toLower 0 al (cv_vars cv) st) as [[|i|] st'] eqn:EC.
  - exists al. split; [exact HC|]. split; [exact HReg|]. split; [exact HDup|].
    eapply convertAssoc_done; eauto.
  - apply convertAssoc_fail in EC; [|exact HL|exact HTv].
    destruct EC as (_ & n & s & j & rv & H1 & H2 & H3 & H4). rewrite Nat.sub_0_r in H1.
    assert (EN : nth i (map fst al) [] = n) by (exact (nth_error_nth_map fst _ _ _ [] H1)). rewrite EN. rewrite H2, H3.
    apply findVar_some in H2. destruct H2 as (rv' & H5 & H6 & _).
    assert (rv' = rv) by congruence. subst rv'.
    destruct (HAl _ _ _ H1) as (raw & R1 & R2).
    destruct (nth_error (map snd al) j) as [shown|] eqn:ES.
    + exists raw, n, s, rv. apply nth_error_In in H3. repeat split; auto; apply R1.
    + apply nth_error_None in ES. rewrite map_length in ES.
      exists al, raw, n, s, rv, j. split; [exact HC|]. split; [destruct R1 as [_ R1]; eapply nth_error_In; exact R1|].
      split; [exact R2|]. split; [eapply nth_error_In; eauto|]. auto.
  - exfalso. eapply convertAssoc_nopanic; eauto.
Qed.

(** Success is exactly the meaning of the text. *)
Theorem ReadConfig_nil_iff text ls cv st st' :
  lines_of text ls -> List.length st = List.length (cv_vars cv) -> distinct_vars (cv_vars cv) ->
  (ReadConfig text cv st = (Nil, st') <->
   exists al, config_lines (cv_name cv) ls al /\ all_registered (cv_vars cv) al
              /\ no_duplicates al /\ assigned (cv_vars cv) al st st').
Proof.
  intros HLs HL HV. split.
  - intros H. pose proof (ReadConfig_diagnosis text ls cv st HLs HL HV) as X. rewrite H in X. exact X.
  - intros (al & HC & HR & HD & HA). apply lines_of_split in HLs.
    unfold ConfigModel.ReadConfig. rewrite <- HLs.
    apply config_lines_iff in HC. destruct HC as (body & HE & HF).
    assert (HTb : Forall (fun s => trimmed s /\ s <> []) body).
    { pose proof (eff_trimmed ls) as X. rewrite HE in X. inversion X; assumption. }
    assert (HTv : trimmed_vals al) by (eapply al_trimmed; eauto).
    unfold eff in HE. destruct (removeComments 0 ls) as [|[l0 k0] kb] eqn:EK; [discriminate|].
    cbn [map fst] in HE. injection HE as E1 E2. rewrite E1. rewrite beq_refl. cbn [negb]. rewrite E2.
    apply (associationList_inl 0) in HF. rewrite HF.
    assert (EV : checkValidNames toLower 0 (map fst al) (cv_vars cv) = None)
      by (apply checkValidNames_none; apply all_reg_names; exact HR).
    rewrite EV.
    assert (ED : checkDuplicateNames toLower 0 (map fst al) = None)
      by (apply checkDuplicateNames_none; apply no_dup_names; exact HD).
    rewrite ED.
    destruct (convertAssoc_total F parseFloat toLower 0 al (cv_vars cv) st HL HTv HR) as (st2 & E).
    { eapply assigned_all_convert; eauto. }
    rewrite E. f_equal. eapply assigned_fun; eauto. eapply convertAssoc_done; eauto.
Qed.

End Top.
