From Verif Require Import GoBase GoBaseFacts ConfigModel ConfigSpec ConfigProofs ConfigProofs2.
From Coq Require Import Relations.
Local Open Scope list_scope.

(** What a caller can observe apart from the wording of the message. *)
Inductive kind := KNil | KHeader | KAssign | KUnknown | KDuplicate | KConvert | KFlag | KPanic.

Definition kind_of (o : outcome) : kind :=
  match o with
  | Nil => KNil
  | Panics => KPanic
  | Fail EHeader => KHeader
  | Fail (EAssign _) => KAssign
  | Fail (EUnknown _ _) | Fail (EFlagUnknown _) => KUnknown
  | Fail (EDuplicate _ _ _) | Fail (EFlagDuplicate _) => KDuplicate
  | Fail (EConvert _ _ _ _) | Fail (EFlagConvert _ _ _) => KConvert
  | Fail (EFlagEquals _) | Fail (EFlagMissing _) | Fail (EFlagNoValue _) => KFlag
  end.

Section Edit.
Variable toLower : bytes -> bytes.

(** Edits of a config file that should not matter. *)
Inductive edit : list bytes -> list bytes -> Prop :=
| ed_blank pre b post :                     (* insert a blank or comment-only line *)
    blank_line b -> edit (pre ++ post) (pre ++ b :: post)
| ed_layout pre l l' s post :               (* change indentation, trailing space, trailing comment *)
    code_line l s -> code_line l' s -> edit (pre ++ l :: post) (pre ++ l' :: post)
| ed_assign pre l l' n n' v post :          (* after the header: spacing around '=' and case of the name *)
    assign_line l n v -> assign_line l' n' v -> same_name toLower n n' ->
    ~ Forall blank_line pre -> edit (pre ++ l :: post) (pre ++ l' :: post).

Definition same_config : list bytes -> list bytes -> Prop := clos_refl_sym_trans _ edit.

Lemma eff_app x y : eff (x ++ y) = eff x ++ eff y.
Proof.
  induction x as [|l x IH]; [reflexivity|]. cbn [app]. rewrite !eff_cons.
  destruct (trim sp (cutComment l)); [exact IH|]. cbn [app]. f_equal. exact IH.
Qed.

Lemma eff_nil_blank pre : eff pre = [] <-> Forall blank_line pre.
Proof.
  induction pre as [|l pre IH].
  - split; [constructor|reflexivity].
  - rewrite eff_cons. destruct (trim sp (cutComment l)) as [|c t] eqn:E.
    + rewrite IH. split; [intros H; constructor; [apply code_line_iff; exact E|exact H]|inversion 1; assumption].
    + split; [discriminate|]. inversion 1 as [|? ? H1 H2]; subst. apply code_line_iff in H1. congruence.
Qed.

(** effective lines up to the edits *)
Definition sim_line (s s' : bytes) : Prop :=
  s = s' \/ exists n n' v, parse_assign s = Some (n, v) /\ parse_assign s' = Some (n', v) /\ same_name toLower n n'.

Definition sim (e e' : list bytes) : Prop :=
  match e, e' with
  | [], [] => True
  | h :: b, h' :: b' => h = h' /\ Forall2 sim_line b b'
  | _, _ => False
  end.

Lemma sim_line_refl s : sim_line s s. Proof. left; reflexivity. Qed.
Lemma sim_line_sym s t : sim_line s t -> sim_line t s.
Proof.
  intros [->|(n & n' & v & H1 & H2 & H3)]; [left; reflexivity|].
  right. exists n', n, v. repeat split; auto. unfold same_name in *. congruence.
Qed.
Lemma sim_line_trans s t u : sim_line s t -> sim_line t u -> sim_line s u.
Proof.
  intros [->|(n & n' & v & H1 & H2 & H3)]; [auto|].
  intros [<-|(m & m' & w & G1 & G2 & G3)].
  - right. exists n, n', v. auto.
  - right. rewrite H2 in G1. injection G1 as <- <-. exists n, m', v. repeat split; auto.
    unfold same_name in *. congruence.
Qed.

Lemma Forall2_refl_sim b : Forall2 sim_line b b.
Proof. induction b; constructor; auto using sim_line_refl. Qed.

Lemma sim_refl e : sim e e.
Proof. destruct e; simpl; auto using Forall2_refl_sim. Qed.
Lemma sim_sym e f : sim e f -> sim f e.
Proof.
  destruct e, f; simpl; auto. intros [-> H]. split; [reflexivity|].
  induction H; constructor; auto using sim_line_sym.
Qed.
Lemma sim_trans e f g : sim e f -> sim f g -> sim e g.
Proof.
  destruct e as [|a e], f as [|b f], g as [|c g]; simpl; try tauto.
  intros [-> H] [-> G]. split; [reflexivity|]. revert g G.
  induction H as [|x y xs ys Hxy H IH]; intros g G; inversion G; subst; constructor.
  - eapply sim_line_trans; eauto.
  - auto.
Qed.

Lemma sim_app_tail pre b b' :
  pre <> [] -> Forall2 sim_line b b' -> sim (pre ++ b) (pre ++ b').
Proof.
  destruct pre as [|h pre]; [congruence|]. intros _ H. simpl. split; [reflexivity|].
  induction pre as [|x pre IH]; simpl; [exact H|]. constructor; auto using sim_line_refl.
Qed.

Lemma edit_sim l1 l2 : edit l1 l2 -> sim (eff l1) (eff l2).
Proof.
  destruct 1 as [pre b post Hb|pre l l' s post H1 H2|pre l l' n n' v post H1 H2 H3 H4].
  - rewrite !eff_app, eff_cons. apply code_line_iff in Hb. rewrite Hb. apply sim_refl.
  - rewrite !eff_app, !eff_cons. apply code_line_iff in H1, H2. rewrite H1, H2. apply sim_refl.
  - rewrite !eff_app, !eff_cons. apply assign_line_iff in H1, H2.
    destruct (trim sp (cutComment l)) as [|c t] eqn:E1; [discriminate|].
    destruct (trim sp (cutComment l')) as [|c' t'] eqn:E2; [discriminate|].
    apply sim_app_tail.
    + intros X. apply H4. apply eff_nil_blank. exact X.
    + constructor; [|apply Forall2_refl_sim]. right. exists n, n', v. auto.
Qed.

Lemma same_config_sim l1 l2 : same_config l1 l2 -> sim (eff l1) (eff l2).
Proof.
  induction 1 as [x y H|x|x y H IH|x y z H1 IH1 H2 IH2].
  - apply edit_sim. exact H.
  - apply sim_refl.
  - apply sim_sym. exact IH.
  - eapply sim_trans; eauto.
Qed.

(** The association lists of similar bodies. *)
Definition sim_al : list (bytes * bytes) -> list (bytes * bytes) -> Prop :=
  Forall2 (fun p q => same_name toLower (fst p) (fst q) /\ snd p = snd q).

Lemma associationList_sim i b b' :
  Forall2 sim_line b b' ->
  match associationList i b, associationList i b' with
  | inl al, inl al' => sim_al al al'
  | inr j, inr j' => j = j'
  | _, _ => False
  end.
Proof.
  intros H. revert i. induction H as [|s s' b b' Hs H IH]; intros i.
  - simpl. constructor.
  - rewrite !associationList_cons. specialize (IH (S i)).
    assert (HP : match parse_assign s, parse_assign s' with
                 | Some p, Some q => same_name toLower (fst p) (fst q) /\ snd p = snd q
                 | None, None => True | _, _ => False end).
    { destruct Hs as [->|(n & n' & v & E1 & E2 & E3)].
      - destruct (parse_assign s') as [[n v]|]; [split; reflexivity|exact I].
      - rewrite E1, E2. split; [exact E3|reflexivity]. }
    destruct (parse_assign s) as [p|], (parse_assign s') as [q|]; try contradiction; [|reflexivity].
    destruct (associationList (S i) b) as [al|j], (associationList (S i) b') as [al'|j']; try contradiction.
    + constructor; assumption.
    + exact IH.
Qed.

Lemma findVar_sim vars n n' : same_name toLower n n' -> findVar toLower vars n = findVar toLower vars n'.
Proof.
  intros H. induction vars as [|v vs IH]; simpl; [reflexivity|].
  unfold same_name in H. rewrite H, IH. reflexivity.
Qed.

Lemma checkValidNames_sim i vars al al' :
  sim_al al al' -> checkValidNames toLower i (map fst al) vars = checkValidNames toLower i (map fst al') vars.
Proof.
  intros H. revert i. induction H as [|p q al al' [H1 H2] H IH]; intros i; simpl; [reflexivity|].
  rewrite (findVar_sim vars _ _ H1). destruct (findVar toLower vars (fst q)); [apply IH|reflexivity].
Qed.

Lemma findSame_sim j n n' al al' :
  same_name toLower n n' -> sim_al al al' ->
  findSame toLower j n (map fst al) = findSame toLower j n' (map fst al').
Proof.
  intros Hn H. revert j. induction H as [|p q al al' [H1 H2] H IH]; intros j; simpl; [reflexivity|].
  unfold same_name in *. rewrite Hn, H1. destruct (beq (toLower n') (toLower (fst q))); [reflexivity|apply IH].
Qed.

Lemma checkDuplicateNames_sim i al al' :
  sim_al al al' -> checkDuplicateNames toLower i (map fst al) = checkDuplicateNames toLower i (map fst al').
Proof.
  intros H. revert i. induction H as [|p q al al' [H1 H2] H IH]; intros i; simpl; [reflexivity|].
  rewrite (findSame_sim _ _ _ _ _ H1 H). destruct (findSame toLower (S i) (fst q) (map fst al')); [reflexivity|apply IH].
Qed.

Lemma convertAssoc_sim F pf i al al' vars (st : list (value F)) :
  sim_al al al' -> convertAssoc F pf toLower i al vars st = convertAssoc F pf toLower i al' vars st.
Proof.
  intros H. revert i st. induction H as [|[n s] [n' s'] al al' [H1 H2] H IH]; intros i st; simpl; [reflexivity|].
  simpl in H1, H2. subst s'. rewrite (findVar_sim vars _ _ H1).
  destruct (findVar toLower vars n') as [j|]; [|reflexivity].
  destruct (nth_error vars j); [|reflexivity]. destruct (nth_error st j) as [old|]; [|reflexivity].
  destruct (convert F pf (rv_type r) old s) as [ok new].
  destruct (upd st j new); [|reflexivity]. destruct ok; [apply IH|reflexivity].
Qed.

Lemma sim_al_nth i al al' :
  sim_al al al' -> same_name toLower (nth i (map fst al) []) (nth i (map fst al') []).
Proof.
  intros H. revert i. induction H as [|p q al al' [H1 H2] H IH]; intros [|i]; simpl; try reflexivity; auto.
Qed.

Lemma sim_al_snd al al' : sim_al al al' -> map snd al = map snd al'.
Proof. induction 1 as [|p q al al' [H1 H2] H IH]; simpl; [reflexivity|]. congruence. Qed.
End Edit.

Section Flags.
Variable F : Type.
Variable parseFloat : bytes -> option F.
Variable toLower : bytes -> bytes.
Notation ReadConfig := (ReadConfig F parseFloat toLower).
Notation ReadFlags := (ReadFlags F parseFloat toLower).
Notation all_registered := (all_registered toLower).
Notation no_duplicates := (no_duplicates toLower).
Notation distinct_vars := (distinct_vars toLower).
Notation assigned := (assigned F parseFloat toLower).

(** Everything after the association list has been built, common to the two readers. *)
Definition tail (al : list (bytes * bytes)) (cv : ConfigVars) (st : list (value F)) : kind * list (value F) :=
  match checkValidNames toLower 0 (map fst al) (cv_vars cv) with
  | Some i => (KUnknown, st)
  | None =>
      match checkDuplicateNames toLower 0 (map fst al) with
      | Some (i, j) => (KDuplicate, st)
      | None =>
          match convertAssoc F parseFloat toLower 0 al (cv_vars cv) st with
          | (CDone, st') => (KNil, st')
          | (CPanic, st') => (KPanic, st')
          | (CFail i, st') =>
              match findVar toLower (cv_vars cv) (nth i (map fst al) []) with
              | None => (KPanic, st')
              | Some j =>
                  match nth_error (cv_vars cv) j, nth_error (map snd al) j with
                  | Some v, Some shown => (KConvert, st')
                  | _, _ => (KPanic, st')
                  end
              end
          end
      end
  end.

Lemma tail_sim al al' cv st : sim_al toLower al al' -> tail al cv st = tail al' cv st.
Proof.
  intros H. unfold tail.
  rewrite (checkValidNames_sim _ _ _ _ _ H), (checkDuplicateNames_sim _ _ _ _ H),
    (convertAssoc_sim _ F parseFloat _ _ _ _ _ H).
  destruct (checkValidNames toLower 0 (map fst al') (cv_vars cv)); [reflexivity|].
  destruct (checkDuplicateNames toLower 0 (map fst al')) as [[i j]|]; [reflexivity|].
  destruct (convertAssoc F parseFloat toLower 0 al' (cv_vars cv) st) as [[|i|] st']; try reflexivity.
  rewrite (findVar_sim _ _ _ _ (sim_al_nth _ i _ _ H)), (sim_al_snd _ _ _ H). reflexivity.
Qed.

Lemma ReadConfig_kind text cv st :
  let (o, st') := ReadConfig text cv st in
  (kind_of o, st') =
  match eff (split_byte nl text) with
  | [] => (KHeader, st)
  | l0 :: body =>
      if beq l0 (lit "[" ++ cv_name cv ++ lit "]") then
        match associationList 0 body with
        | inr _ => (KAssign, st)
        | inl al => tail al cv st
        end
      else (KHeader, st)
  end.
Proof.
  unfold ConfigModel.ReadConfig, eff, tail.
  destruct (removeComments 0 (split_byte nl text)) as [|[l0 k0] body]; [reflexivity|].
  cbn [map fst].
  destruct (beq l0 (lit "[" ++ cv_name cv ++ lit "]")); cbn [negb]; [|reflexivity].
  destruct (associationList 0 (map fst body)) as [al|i]; [|reflexivity].
  destruct (checkValidNames toLower 0 (map fst al) (cv_vars cv)); [reflexivity|].
  destruct (checkDuplicateNames toLower 0 (map fst al)) as [[i j]|]; [reflexivity|].
  destruct (convertAssoc F parseFloat toLower 0 al (cv_vars cv) st) as [[|i|] st']; try reflexivity.
  destruct (findVar toLower (cv_vars cv) (nth i (map fst al) [])) as [j|]; [|reflexivity].
  destruct (nth_error (cv_vars cv) j); [|reflexivity].
  destruct (nth_error (map snd al) j); reflexivity.
Qed.

Theorem ReadConfig_edit t1 t2 ls1 ls2 cv st :
  lines_of t1 ls1 -> lines_of t2 ls2 -> same_config toLower ls1 ls2 ->
  kind_of (fst (ReadConfig t1 cv st)) = kind_of (fst (ReadConfig t2 cv st))
  /\ snd (ReadConfig t1 cv st) = snd (ReadConfig t2 cv st).
Proof.
  intros H1 H2 HS. apply lines_of_split in H1, H2. subst ls1 ls2.
  pose proof (ReadConfig_kind t1 cv st) as K1. pose proof (ReadConfig_kind t2 cv st) as K2.
  apply same_config_sim in HS.
  destruct (ReadConfig t1 cv st) as [o1 s1], (ReadConfig t2 cv st) as [o2 s2]. cbn [fst snd].
  assert (E : (kind_of o1, s1) = (kind_of o2, s2)).
  { rewrite K1, K2. clear K1 K2.
    destruct (eff (split_byte nl t1)) as [|h b], (eff (split_byte nl t2)) as [|h' b']; simpl in HS; try contradiction;
      [reflexivity|].
    destruct HS as [<- HS]. destruct (beq h (lit "[" ++ cv_name cv ++ lit "]")); [|reflexivity].
    apply (associationList_sim toLower 0) in HS.
    destruct (associationList 0 b) as [al|j], (associationList 0 b') as [al'|j']; try contradiction; [|reflexivity].
    apply tail_sim. exact HS. }
  injection E as E1 E2. auto.
Qed.

(** *** Flags *)
(** A flag group: name and values. *)
Definition args_of (groups : list (bytes * list bytes)) : list bytes :=
  flat_map (fun g => (lit "--" ++ fst g) :: snd g) groups.

Definition clean (s : bytes) : Prop := ~ In "="%char s /\ ~ In "#"%char s /\ ~ In nl s.

Definition good_group (g : bytes * list bytes) : Prop :=
  clean (fst g) /\ Forall clean (snd g)
  /\ hd_error (fst g) <> Some "-"%char
  /\ (exists c, In c (fst g) /\ c <> sp)
  /\ Forall (fun v => isFlag v = false) (snd g)
  /\ join (lit ",") (snd g) <> [].

(** The config file equivalent to a list of flag groups. *)
Definition flag_file (name : bytes) (groups : list (bytes * list bytes)) : bytes :=
  join [nl] ((lit "[" ++ name ++ lit "]") :: map (fun g => fst g ++ lit " = " ++ join (lit ",") (snd g)) groups).

Definition groups_al (groups : list (bytes * list bytes)) : list (bytes * bytes) :=
  map (fun g => (trim sp (fst g), trim sp (join (lit ",") (snd g)))) groups.

Lemma groupFlags_app name curr vs rest :
  Forall (fun v => isFlag v = false) vs ->
  groupFlags name curr (vs ++ rest) = groupFlags name (curr ++ vs) rest.
Proof.
  revert curr; induction vs as [|v vs IH]; intros curr H; simpl; [rewrite app_nil_r; reflexivity|].
  inversion H as [|? ? H1 H2]; subst. rewrite H1, IH by assumption. rewrite <- app_assoc. reflexivity.
Qed.

Lemma flagVarName_dd n : hd_error n <> Some "-"%char -> flagVarName (lit "--" ++ n) = n.
Proof. intros H. unfold flagVarName. cbn. apply trim_left_id. exact H. Qed.

Lemma groupFlags_groups g groups curr :
  Forall good_group groups ->
  groupFlags g curr (args_of groups) =
  (g, join (lit ",") curr) :: map (fun g => (fst g, join (lit ",") (snd g))) groups.
Proof.
  revert g curr; induction groups as [|[n vs] groups IH]; intros g curr H; [reflexivity|].
  inversion H as [|? ? H1 H2]; subst. unfold args_of. cbn [flat_map fst snd].
  cbn [lit list_ascii_of_string app]. cbn [groupFlags].
  change ("-"%char :: "-"%char :: n) with (lit "--" ++ n).
  assert (EF : isFlag (lit "--" ++ n) = true) by reflexivity. rewrite EF.
  destruct H1 as (_ & _ & Hd & _ & HF & _). simpl in Hd, HF.
  rewrite flagVarName_dd by exact Hd. cbn [map fst snd]. f_equal.
  rewrite groupFlags_app by exact HF. cbn [app]. apply (IH n vs H2).
Qed.

Lemma hasEquals_false s : ~ In "="%char s -> hasEquals s = false.
Proof.
  unfold hasEquals. intros H. destruct (existsb (Ascii.eqb "="%char) s) eqn:E; [|reflexivity].
  apply existsb_exists in E. destruct E as (x & HI & Hx). apply Ascii.eqb_eq in Hx. subst x. contradiction.
Qed.

Lemma find_none_intro {A} (f : A -> bool) l : (forall x, In x l -> f x = false) -> find f l = None.
Proof.
  induction l as [|a l IH]; intros H; simpl; [reflexivity|].
  rewrite (H a) by (left; reflexivity). apply IH. intros x Hx. apply H. right. exact Hx.
Qed.

Lemma args_no_eq groups : Forall good_group groups -> find hasEquals (args_of groups) = None.
Proof.
  intros H. apply find_none_intro. intros x Hx. apply in_flat_map in Hx. destruct Hx as (g & Hg & Hx).
  rewrite Forall_forall in H. destruct (H g Hg) as ((C1 & _) & C2 & _).
  apply hasEquals_false. destruct Hx as [<-|Hx].
  - cbn. intros [X|[X|X]]; try discriminate. auto.
  - rewrite Forall_forall in C2. apply (C2 x Hx).
Qed.

Lemma trim_ne s c : In c s -> c <> sp -> trim sp s <> [].
Proof.
  intros HI Hc E. apply trim_nil in E. rewrite E in HI. apply repeat_spec in HI. contradiction.
Qed.

Lemma parse_assign_eq a b n v :
  (* a name and a value, joined by "=" possibly with spaces *)
  ~ In "="%char n -> trim sp n <> [] ->
  parse_assign (n ++ repeat sp a ++ "="%char :: repeat sp b ++ v) = Some (trim sp n, trim sp v).
Proof.
  intros Hn Ht. unfold parse_assign.
  rewrite app_assoc. rewrite index_byte_app.
  2:{ intros HI. apply in_app_or in HI. destruct HI as [HI|HI]; [auto|]. revert HI. apply not_In_repeat. discriminate. }
  rewrite val_eq by (rewrite (app_length (n ++ repeat sp a)); cbn [List.length]; lia).
  rewrite firstn_app, firstn_all, Nat.sub_diag. cbn [firstn]. rewrite app_nil_r.
  rewrite skipn_S_app.
  replace (trim sp (n ++ repeat sp a)) with (trim sp n).
  2:{ symmetry. apply (trim_pad sp n 0 a). }
  replace (trim sp (repeat sp b ++ v)) with (trim sp v).
  2:{ symmetry. rewrite <- (app_nil_r v) at 1. apply (trim_pad sp v b 0). }
  destruct (trim sp n); [congruence|reflexivity].
Qed.

Lemma associationList_groups i groups :
  Forall good_group groups ->
  associationList i (map (fun g => fst g ++ lit "=" ++ snd g)
                         (map (fun g => (fst g, join (lit ",") (snd g))) groups)) = inl (groups_al groups).
Proof.
  intros H. apply associationList_inl. induction H as [|[n vs] groups Hg H IH]; [constructor|].
  cbn [map fst snd groups_al]. constructor; [|exact IH].
  destruct Hg as ((C1 & _) & _ & _ & (c & Hc1 & Hc2) & _). simpl in *.
  apply (parse_assign_eq 0 0 n); [exact C1|]. eapply trim_ne; eauto.
Qed.

Lemma ReadFlags_groups groups cv st :
  groups <> [] -> Forall good_group groups ->
  let (o, st') := ReadFlags (args_of groups) cv st in
  (kind_of o, st') = tail (groups_al groups) cv st.
Proof.
  intros HN HG. unfold ConfigModel.ReadFlags.
  destruct groups as [|[n vs] groups]; [congruence|].
  pose proof (args_no_eq _ HG) as EQ.
  assert (HGF : groupFlags (flagVarName (lit "--" ++ n)) [] (vs ++ args_of groups) =
                map (fun g => (fst g, join (lit ",") (snd g))) ((n, vs) :: groups)).
  { inversion HG as [|? ? H1 H2]; subst. destruct H1 as (_ & _ & Hd & _ & HF & _). simpl in Hd, HF.
    rewrite flagVarName_dd by exact Hd. rewrite groupFlags_app by exact HF. cbn [app].
    rewrite groupFlags_groups by exact H2. reflexivity. }
  change (args_of ((n, vs) :: groups)) with ((lit "--" ++ n) :: (vs ++ args_of groups)) in *.
  rewrite EQ. assert (EF : isFlag (lit "--" ++ n) = true) by reflexivity. rewrite EF. cbn [negb].
  rewrite HGF.
  rewrite find_none_intro.
  2:{ intros x Hx. apply in_map_iff in Hx. destruct Hx as (g & <- & Hg). cbn [snd].
      rewrite Forall_forall in HG. destruct (HG g Hg) as (_ & _ & _ & _ & _ & HJ). apply beq_false. exact HJ. }
  rewrite associationList_groups by exact HG.
  unfold tail. set (al := groups_al ((n, vs) :: groups)).
  destruct (checkValidNames toLower 0 (map fst al) (cv_vars cv)); [reflexivity|].
  destruct (checkDuplicateNames toLower 0 (map fst al)) as [[i j]|]; [reflexivity|].
  destruct (convertAssoc F parseFloat toLower 0 al (cv_vars cv) st) as [[|i|] st']; try reflexivity.
  destruct (findVar toLower (cv_vars cv) (nth i (map fst al) [])) as [j|]; [|reflexivity].
  destruct (nth_error (cv_vars cv) j); [|reflexivity].
  destruct (nth_error (map snd al) j); reflexivity.
Qed.

Lemma join_In_char c sep ss : In c (join sep ss) -> In c sep \/ exists s, In s ss /\ In c s.
Proof.
  induction ss as [|s ss IH]; [intros []|].
  destruct ss as [|s' ss].
  - simpl. intros H. right. exists s. auto.
  - rewrite join_cons by discriminate. intros H. apply in_app_or in H. destruct H as [H|H].
    + right. exists s. split; [left; reflexivity|exact H].
    + apply in_app_or in H. destruct H as [H|H]; [auto|].
      destruct (IH H) as [X|(x & X1 & X2)]; [auto|]. right. exists x. split; [right; exact X1|exact X2].
Qed.

Lemma file_line_eff n vs :
  good_group (n, vs) ->
  exists s, trim sp (cutComment (n ++ lit " = " ++ join (lit ",") vs)) = s /\ s <> []
            /\ parse_assign s = Some (trim sp n, trim sp (join (lit ",") vs)).
Proof.
  intros ((C1 & C1' & _) & C2 & _ & (c & Hc1 & Hc2) & _ & HJ). simpl fst in *; simpl snd in *.
  set (v := join (lit ",") vs) in *.
  assert (HV : ~ In "#"%char v).
  { intros HI. apply join_In_char in HI. destruct HI as [[X|[]]|(x & X1 & X2)]; [discriminate|].
    rewrite Forall_forall in C2. destruct (C2 x X1) as (_ & C3 & _). contradiction. }
  assert (HT : trim sp n <> []) by (eapply trim_ne; eauto).
  rewrite <- (app_nil_r (n ++ lit " = " ++ v)).
  rewrite cutComment_app; [|intros HI|left; reflexivity].
  2:{ apply in_app_or in HI. destruct HI as [HI|HI]; [auto|]. cbn in HI.
      destruct HI as [X|[X|[X|HI]]]; try discriminate. auto. }
  eexists. split; [reflexivity|].
  (* write out the trimmed line *)
  destruct (trim_spec sp n) as (a & b & En & T1 & T2).
  destruct (trim_spec sp v) as (c' & d & Ev & U1 & U2).
  set (n' := trim sp n) in *. set (v' := trim sp v) in *.
  assert (EL : n ++ lit " = " ++ v =
               repeat sp a ++ (n' ++ repeat sp (S b) ++ "="%char :: repeat sp (S c') ++ v') ++ repeat sp d).
  { rewrite En at 1. rewrite Ev at 1. cbn [lit list_ascii_of_string app].
    change (repeat sp (S b)) with (sp :: repeat sp b). rewrite (repeat_cons b sp).
    change (repeat sp (S c')) with (sp :: repeat sp c').
    repeat (rewrite <- ?app_assoc; cbn [app]). reflexivity. }
  rewrite EL, trim_pad.
  destruct v' as [|w0 w] eqn:EVV.
  - (* empty value: spaces after '=' are trimmed *)
    rewrite app_nil_r.
    assert (E2 : trim sp (n' ++ repeat sp (S b) ++ "="%char :: repeat sp (S c')) = n' ++ repeat sp (S b) ++ ["="%char]).
    { change (n' ++ repeat sp (S b) ++ "="%char :: repeat sp (S c'))
        with (n' ++ repeat sp (S b) ++ ["="%char] ++ repeat sp (S c')).
      replace (n' ++ repeat sp (S b) ++ ["="%char] ++ repeat sp (S c'))
        with (repeat sp 0 ++ (n' ++ repeat sp (S b) ++ ["="%char]) ++ repeat sp (S c'))
        by (repeat (rewrite <- ?app_assoc; cbn [repeat app]); reflexivity).
      rewrite trim_pad. apply trim_id.
      - destruct n'; [congruence|exact T1].
      - rewrite !rev_app_distr. cbn. discriminate. }
    rewrite E2. split; [destruct n'; [congruence|discriminate]|].
    assert (X := parse_assign_eq (S b) 0 n' []). cbn [repeat app] in X.
    cbn [repeat app]. rewrite X.
    + f_equal. f_equal. unfold n'. apply trim_idem.
    + intros HI. apply C1. apply trim_In in HI. exact HI.
    + unfold n'. rewrite trim_idem. exact HT.
  - assert (E2 : trim sp (n' ++ repeat sp (S b) ++ "="%char :: repeat sp (S c') ++ w0 :: w)
                 = n' ++ repeat sp (S b) ++ "="%char :: repeat sp (S c') ++ w0 :: w).
    { apply trim_id.
      - destruct n'; [congruence|exact T1].
      - rewrite rev_app_distr, rev_app_distr. 
        change ("="%char :: repeat sp (S c') ++ w0 :: w) with (("="%char :: repeat sp (S c')) ++ w0 :: w).
        rewrite rev_app_distr. destruct (rev (w0 :: w)) eqn:ER.
        + apply (f_equal (@List.length _)) in ER. rewrite rev_length in ER. discriminate.
        + exact U2. }
    rewrite E2. split; [destruct n'; [congruence|discriminate]|].
    rewrite parse_assign_eq.
    + f_equal. f_equal.
      * unfold n'. apply trim_idem.
      * rewrite <- EVV. unfold v'. apply trim_idem.
    + intros HI. apply C1. apply trim_In in HI. exact HI.
    + unfold n'. rewrite trim_idem. exact HT.
Qed.

Theorem ReadFlags_as_config groups cv st :
  groups <> [] -> Forall good_group groups -> ~ In nl (cv_name cv) -> ~ In "#"%char (cv_name cv) ->
  kind_of (fst (ReadFlags (args_of groups) cv st)) = kind_of (fst (ReadConfig (flag_file (cv_name cv) groups) cv st))
  /\ snd (ReadFlags (args_of groups) cv st) = snd (ReadConfig (flag_file (cv_name cv) groups) cv st).
Proof.
  intros HN HG Hnl Hh.
  pose proof (ReadFlags_groups groups cv st HN HG) as K1.
  pose proof (ReadConfig_kind (flag_file (cv_name cv) groups) cv st) as K2.
  destruct (ReadFlags (args_of groups) cv st) as [o1 s1].
  destruct (ReadConfig (flag_file (cv_name cv) groups) cv st) as [o2 s2]. cbn [fst snd].
  assert (E : (kind_of o1, s1) = (kind_of o2, s2)); [|injection E as E1 E2; auto].
  rewrite K1, K2. clear K1 K2.
  unfold flag_file. rewrite split_join; [|discriminate|].
  2:{ constructor.
      - cbn. intros [X|X]; [discriminate|]. apply in_app_or in X. destruct X as [X|[X|[]]]; [auto|discriminate].
      - apply Forall_forall. intros l Hl. apply in_map_iff in Hl. destruct Hl as ([n vs] & <- & Hg).
        rewrite Forall_forall in HG. destruct (HG _ Hg) as ((_ & _ & C1) & C2 & _). simpl in C1, C2 |- *.
        intros X. apply in_app_or in X. destruct X as [X|X]; [auto|]. cbn in X.
        destruct X as [X|[X|[X|X]]]; try discriminate.
        apply join_In_char in X. destruct X as [[X|[]]|(x & X1 & X2)]; [discriminate|].
        rewrite Forall_forall in C2. destruct (C2 x X1) as (_ & _ & C3). contradiction. }
  rewrite eff_cons.
  assert (EH : trim sp (cutComment (lit "[" ++ cv_name cv ++ lit "]")) = lit "[" ++ cv_name cv ++ lit "]").
  { apply code_line_iff. exists 0, 0, []. rewrite !app_nil_r. split; [reflexivity|]. split; [left; reflexivity|].
    split.
    - cbn. intros [X|X]; [discriminate|]. apply in_app_or in X. destruct X as [X|[X|[]]]; [auto|discriminate].
    - split; cbn; [discriminate|]. rewrite rev_app_distr. cbn. discriminate. }
  rewrite EH. cbn [lit list_ascii_of_string app]. rewrite beq_refl.
  assert (EA : associationList 0 (eff (map (fun g => fst g ++ lit " = " ++ join (lit ",") (snd g)) groups))
               = inl (groups_al groups)).
  { apply associationList_inl. clear HN. induction HG as [|[n vs] groups Hg HG IH]; [constructor|].
    cbn [map fst snd groups_al]. rewrite eff_cons.
    destruct (file_line_eff n vs Hg) as (s & E1 & E2 & E3). rewrite E1.
    destruct s as [|c s]; [congruence|]. constructor; [exact E3|exact IH]. }
  cbn [lit list_ascii_of_string app] in EA. rewrite EA. reflexivity.
Qed.

Lemma groups_al_trimmed groups : trimmed_vals (groups_al groups).
Proof.
  induction groups as [|g groups IH]; [constructor|]. cbn [groups_al map].
  constructor; [apply trimmed_trim|exact IH].
Qed.

Theorem ReadFlags_nil_iff groups cv st st' :
  groups <> [] -> Forall good_group groups ->
  List.length st = List.length (cv_vars cv) -> distinct_vars (cv_vars cv) ->
  (ReadFlags (args_of groups) cv st = (Nil, st') <->
   all_registered (cv_vars cv) (groups_al groups) /\ no_duplicates (groups_al groups)
   /\ assigned (cv_vars cv) (groups_al groups) st st').
Proof.
  intros HN HG HL HV. pose proof (ReadFlags_groups groups cv st HN HG) as K.
  assert (HK : ReadFlags (args_of groups) cv st = (Nil, st') <-> tail (groups_al groups) cv st = (KNil, st')).
  { destruct (ReadFlags (args_of groups) cv st) as [o s]. rewrite <- K. split.
    - intros [= -> ->]. reflexivity.
    - intros [= X ->]. f_equal. destruct o as [|[]|]; try discriminate; reflexivity. }
  rewrite HK. unfold tail. set (al := groups_al groups).
  assert (HT : trimmed_vals al) by apply groups_al_trimmed.
  destruct (checkValidNames toLower 0 (map fst al) (cv_vars cv)) as [i|] eqn:EV.
  { split; [discriminate|]. intros (HR & _). assert (HR' := proj1 (all_reg_names toLower _ _) HR).
    apply (checkValidNames_none toLower 0) in HR'. congruence. }
  rewrite checkValidNames_none in EV. assert (EV' := proj2 (all_reg_names toLower _ _) EV). clear EV. rename EV' into EV.
  destruct (checkDuplicateNames toLower 0 (map fst al)) as [[i j]|] eqn:ED.
  { split; [discriminate|]. intros (_ & HD & _). rewrite no_dup_names in HD.
    apply (checkDuplicateNames_none toLower 0) in HD. congruence. }
  rewrite checkDuplicateNames_none in ED. rewrite <- no_dup_names in ED.
  destruct (convertAssoc F parseFloat toLower 0 al (cv_vars cv) st) as [[|i|] s] eqn:EC.
  - pose proof (convertAssoc_done _ _ _ _ _ _ _ _ HL HT ED HV EC) as HA. split.
    + intros [= ->]. auto.
    + intros (_ & _ & HA'). f_equal. eapply assigned_fun; eauto.
  - split.
    + destruct (findVar toLower (cv_vars cv) (nth i (map fst al) [])) as [j|]; [|discriminate].
      destruct (nth_error (cv_vars cv) j); [|discriminate].
      destruct (nth_error (map snd al) j); discriminate.
    + intros (_ & _ & HA). apply assigned_all_convert in HA.
      destruct (convertAssoc_total F parseFloat toLower 0 al (cv_vars cv) st HL HT EV HA) as (s2 & E2). congruence.
  - exfalso. eapply convertAssoc_nopanic; eauto.
Qed.

(** Defaults, then the file, then the flags. *)
Theorem readMode_override text ls groups cv st st' :
  lines_of text ls -> groups <> [] -> Forall good_group groups ->
  List.length st = List.length (cv_vars cv) -> distinct_vars (cv_vars cv) ->
  readMode F parseFloat toLower (Some text) (args_of groups) cv st = (Nil, st') ->
  exists al, config_lines (cv_name cv) ls al /\
  forall j rv, nth_error (cv_vars cv) j = Some rv ->
    let flagged n v := In (n, v) (groups_al groups) /\ same_name toLower n (rv_name rv) in
    let filed n v := In (n, v) al /\ same_name toLower n (rv_name rv) in
    (forall n v, flagged n v -> exists x, denotes F parseFloat (rv_type rv) v x /\ nth_error st' j = Some x) /\
    ((forall n v, ~ flagged n v) -> forall n v, filed n v ->
        exists x, denotes F parseFloat (rv_type rv) v x /\ nth_error st' j = Some x) /\
    ((forall n v, ~ flagged n v) -> (forall n v, ~ filed n v) -> nth_error st' j = nth_error st j).
Proof.
  intros HLs HN HG HL HV. unfold readMode.
  destruct (ReadConfig text cv st) as [o1 s1] eqn:E1.
  destruct o1; try discriminate.
  apply (ReadConfig_nil_iff F parseFloat toLower text ls cv st s1 HLs HL HV) in E1.
  destruct E1 as (al & HC & _ & _ & HA1). intros E2.
  assert (HL1 : List.length s1 = List.length (cv_vars cv)) by (destruct HA1 as [X _]; congruence).
  apply (ReadFlags_nil_iff groups cv s1 st' HN HG HL1 HV) in E2. destruct E2 as (_ & _ & HA2).
  exists al. split; [exact HC|]. intros j rv Hj. cbv zeta.
  destruct HA1 as [_ HA1], HA2 as [_ HA2].
  destruct (HA1 j rv Hj) as (A1 & B1), (HA2 j rv Hj) as (A2 & B2).
  split; [intros n v [X Y]; eauto|]. split.
  - intros HNo n v [X Y]. destruct (A1 n v X Y) as (x & Hx & E). exists x. split; [exact Hx|].
    rewrite B2; [exact E|]. intros n' v' HI HS. apply (HNo n' v'). split; assumption.
  - intros HNo HNf. rewrite B2; [apply B1|]; intros n v HI HS; [apply (HNf n v)|apply (HNo n v)]; split; assumption.
Qed.

(** When can ReadFlags panic? *)
Theorem ReadFlags_panic_only args cv st st' :
  List.length st = List.length (cv_vars cv) ->
  ReadFlags args cv st = (Panics, st') ->
  (exists a, In a args /\ isFlag a = true /\ trim sp (flagVarName a) = [])
  \/ (exists n v rv j, nth_error (cv_vars cv) j = Some rv /\ same_name toLower n (rv_name rv)
        /\ (forall x, ~ denotes F parseFloat (rv_type rv) v x)
        /\ List.length (filter isFlag args) <= j).
Proof.
  intros HL. unfold ConfigModel.ReadFlags. destruct args as [|a0 rest]; [discriminate|].
  destruct (find hasEquals (a0 :: rest)) as [a|] eqn:EQ; [discriminate|].
  destruct (isFlag a0) eqn:EF; cbn [negb]; [|discriminate].
  set (groups := groupFlags (flagVarName a0) [] rest).
  assert (HGrp : forall nm curr, List.length (groupFlags nm curr rest) = S (List.length (filter isFlag rest))
            /\ Forall (fun g => fst g = nm \/ exists a, In a rest /\ isFlag a = true /\ fst g = flagVarName a)
                      (groupFlags nm curr rest)).
  { clear. induction rest as [|a rest IH]; intros nm curr; cbn [groupFlags filter].
    - split; [reflexivity|]. constructor; [left; reflexivity|constructor].
    - destruct (isFlag a) eqn:E.
      + destruct (IH (flagVarName a) []) as (H1 & H2). split; [cbn [List.length]; rewrite H1; reflexivity|].
        constructor; [left; reflexivity|]. eapply Forall_impl; [|exact H2].
        intros g [Hg|(b & Hb1 & Hb2 & Hb3)]; right.
        * exists a. split; [left; reflexivity|auto].
        * exists b. split; [right; exact Hb1|auto].
      + destruct (IH nm (curr ++ [a])) as (H1 & H2). split; [exact H1|].
        eapply Forall_impl; [|exact H2]. intros g [Hg|(b & Hb1 & Hb2 & Hb3)]; [left; exact Hg|right].
        exists b. split; [right; exact Hb1|auto]. }
  destruct (HGrp (flagVarName a0) []) as (HGL & HGN). fold groups in HGL, HGN.
  assert (HNames : Forall (fun g => exists a, In a (a0 :: rest) /\ isFlag a = true /\ fst g = flagVarName a) groups).
  { eapply Forall_impl; [|exact HGN]. intros g [Hg|(b & Hb1 & Hb2 & Hb3)].
    - exists a0. split; [left; reflexivity|auto].
    - exists b. split; [right; exact Hb1|auto]. }
  destruct (find (fun g => beq (snd g) []) groups) as [g|] eqn:EN; [discriminate|].
  destruct (associationList 0 (map (fun g => fst g ++ lit "=" ++ snd g) groups)) as [al|i] eqn:EA.
  2:{ intros _. left. apply associationList_inr in EA. destruct EA as (_ & l & H1 & H2).
      rewrite Nat.sub_0_r in H1. apply nth_error_map_inv in H1. destruct H1 as (g & Hg & <-).
      apply nth_error_In in Hg. rewrite Forall_forall in HNames. destruct (HNames g Hg) as (a & A1 & A2 & A3).
      exists a. split; [exact A1|]. split; [exact A2|]. rewrite <- A3.
      destruct (trim sp (fst g)) as [|c t] eqn:ET; [reflexivity|]. exfalso.
      destruct (in_dec ascii_dec "="%char (fst g)) as [HI|HI].
      - (* name with '=': impossible, arguments have none *)
        assert (HI' : In "="%char (flagVarName a)) by (rewrite <- A3; exact HI). clear HI. rename HI' into HI. unfold flagVarName in HI.
        destruct (trim_left_spec "-"%char a) as (k & Ek & _).
        assert (X : hasEquals a = false) by (apply (find_none _ _ EQ); exact A1).
        assert (Y : hasEquals a = true).
        { unfold hasEquals. apply existsb_exists. exists "="%char. split; [|apply Ascii.eqb_refl].
          rewrite Ek. apply in_or_app. right. exact HI. }
        congruence.
      - pose proof (parse_assign_eq 0 0 (fst g) (snd g) HI) as X. cbn [repeat app] in X.
        cbn [lit list_ascii_of_string app] in H2. rewrite X in H2; [discriminate|]. rewrite ET. discriminate. }
  apply associationList_inl in EA.
  assert (HAL : List.length al = List.length (filter isFlag (a0 :: rest))).
  { assert (HLen : List.length (map (fun g => fst g ++ lit "=" ++ snd g) groups) = List.length al).
    { clear -EA. induction EA as [|x y xs ys Hxy H IH]; [reflexivity|]. cbn [List.length]. f_equal. exact IH. }
    rewrite map_length in HLen. cbn [filter]. rewrite EF. cbn [List.length]. rewrite <- HLen. exact HGL. }
  assert (HT : trimmed_vals al).
  { clear -EA. induction EA as [|l [n v] ls al Hp EA IH]; [constructor|]. constructor; [|exact IH].
    unfold parse_assign in Hp. destruct (index_byte "="%char l); [|discriminate].
    destruct (trim sp (firstn n0 l)); [discriminate|]. injection Hp as _ <-. apply trimmed_trim. }
  destruct (checkValidNames toLower 0 (map fst al) (cv_vars cv)) as [i|] eqn:EV; [discriminate|].
  rewrite checkValidNames_none in EV. assert (EV' := proj2 (all_reg_names toLower _ _) EV). clear EV. rename EV' into EV.
  destruct (checkDuplicateNames toLower 0 (map fst al)) as [[i j]|] eqn:ED; [discriminate|].
  destruct (convertAssoc F parseFloat toLower 0 al (cv_vars cv) st) as [[|i|] s] eqn:EC; [discriminate| |].
  - apply convertAssoc_fail in EC; [|exact HL|exact HT].
    destruct EC as (_ & n & v & j & rv & H1 & H2 & H3 & H4). rewrite Nat.sub_0_r in H1.
    assert (EN2 : nth i (map fst al) [] = n) by (exact (nth_error_nth_map fst _ _ _ [] H1)).
    rewrite EN2, H2, H3. apply findVar_some in H2. destruct H2 as (rv' & H5 & H6 & _).
    assert (rv' = rv) by congruence. subst rv'.
    destruct (nth_error (map snd al) j) as [shown|] eqn:ES; [discriminate|].
    intros _. right. exists n, v, rv, j. apply nth_error_None in ES. rewrite map_length in ES.
    rewrite <- HAL. auto.
  - exfalso. eapply convertAssoc_nopanic; eauto.
Qed.
End Flags.
