From Verif Require Import GoBase GoBaseFacts ConfigModel ConfigSpec.
Local Open Scope list_scope.

(** ** Lines *)
Lemma lines_of_split text ls : lines_of text ls <-> ls = split_byte nl text.
Proof.
  split.
  - intros (H1 & H2 & ->). symmetry. apply split_join; assumption.
  - intros ->. split; [apply split_byte_nonnil|]. split; [apply split_byte_no|].
    symmetry. apply join_split.
Qed.

Lemma trimmed_trim s : trimmed (trim sp s).
Proof. destruct (trim_spec sp s) as (n & m & _ & H1 & H2). split; assumption. Qed.

Lemma trim_trimmed s : trimmed s -> trim sp s = s.
Proof. intros [H1 H2]. apply trim_id; assumption. Qed.

Lemma cutComment_no l : ~ In "#"%char (cutComment l).
Proof.
  unfold cutComment. destruct (index_byte "#"%char l) as [i|] eqn:E.
  - apply index_byte_some in E. tauto.
  - apply index_byte_none in E. exact E.
Qed.

Lemma cutComment_spec l : exists cm, l = cutComment l ++ cm /\ comment cm.
Proof.
  unfold cutComment. destruct (index_byte "#"%char l) as [i|] eqn:E.
  - apply index_byte_some in E. destruct E as (E & _ & _).
    exists ("#"%char :: skipn (S i) l). split; [exact E|]. right. eexists; reflexivity.
  - exists []. rewrite app_nil_r. split; [reflexivity|left; reflexivity].
Qed.

Lemma cutComment_app x cm : ~ In "#"%char x -> comment cm -> cutComment (x ++ cm) = x.
Proof.
  intros Hx [->|(r & ->)]; unfold cutComment.
  - rewrite app_nil_r. destruct (index_byte "#"%char x) as [i|] eqn:E; [|reflexivity].
    apply index_byte_some in E. destruct E as (E & _). exfalso. apply Hx. rewrite E.
    apply in_or_app. right. left. reflexivity.
  - rewrite index_byte_app by assumption.
    rewrite firstn_app, firstn_all, Nat.sub_diag. simpl. apply app_nil_r.
Qed.

Lemma not_In_repeat (c d : ascii) n : c <> d -> ~ In c (repeat d n).
Proof. intros H HI. apply repeat_spec in HI. congruence. Qed.

Lemma code_line_iff l s : code_line l s <-> trim sp (cutComment l) = s.
Proof.
  split.
  - intros (a & b & cm & -> & Hc & Hs & Ht).
    rewrite !app_assoc. rewrite cutComment_app; [| |assumption].
    + rewrite <- app_assoc, trim_pad. apply trim_trimmed. exact Ht.
    + intros HI. apply in_app_or in HI. destruct HI as [HI|HI].
      * apply in_app_or in HI. destruct HI as [HI|HI]; [|auto]. revert HI. apply not_In_repeat. discriminate.
      * revert HI. apply not_In_repeat. discriminate.
  - intros <-. destruct (cutComment_spec l) as (cm & E & Hc).
    destruct (trim_spec sp (cutComment l)) as (n & m & E2 & H1 & H2).
    exists n, m, cm. split; [|split; [exact Hc|split]].
    + rewrite E at 1. rewrite E2 at 1. rewrite <- !app_assoc. reflexivity.
    + intros HI. apply trim_In in HI. revert HI. apply cutComment_no.
    + split; assumption.
Qed.

(** ** removeComments *)
Definition kept_spec (i : nat) (ls : list bytes) (k : list (bytes * nat)) : Prop :=
  forall p s n, nth_error k p = Some (s, n) ->
    i <= n /\ exists raw, nth_error ls (n - i) = Some raw /\ code_line raw s /\ s <> [].

Lemma removeComments_kept i ls : kept_spec i ls (removeComments i ls).
Proof.
  revert i; induction ls as [|l ls IH]; intros i p s n; simpl.
  - destruct p; discriminate.
  - destruct (trim sp (cutComment l)) as [|c t] eqn:E.
    + intros H. destruct (IH (S i) p s n H) as (H1 & raw & H2 & H3).
      split; [lia|]. exists raw. split; [|exact H3].
      replace (n - i) with (S (n - S i)) by lia. exact H2.
    + destruct p as [|p]; simpl.
      * intros [= <- <-]. split; [lia|]. exists l. rewrite Nat.sub_diag. split; [reflexivity|].
        split; [apply code_line_iff; exact E|discriminate].
      * intros H. destruct (IH (S i) p s n H) as (H1 & raw & H2 & H3).
        split; [lia|]. exists raw. split; [|exact H3].
        replace (n - i) with (S (n - S i)) by lia. exact H2.
Qed.

(** effective lines *)
Definition eff (ls : list bytes) : list bytes := map fst (removeComments 0 ls).

Lemma removeComments_fst i j ls : map fst (removeComments i ls) = map fst (removeComments j ls).
Proof.
  revert i j; induction ls as [|l ls IH]; intros i j; simpl; [reflexivity|].
  destruct (trim sp (cutComment l)); [apply IH|]. simpl. f_equal. apply IH.
Qed.

Lemma eff_cons l ls :
  eff (l :: ls) = match trim sp (cutComment l) with [] => eff ls | s => s :: eff ls end.
Proof.
  unfold eff. simpl. destruct (trim sp (cutComment l)) as [|c t].
  - apply removeComments_fst.
  - simpl. f_equal. apply removeComments_fst.
Qed.

(** ** associationList *)
Definition code_assign (s n v : bytes) : Prop :=
  exists b c, s = n ++ repeat sp b ++ lit "=" ++ repeat sp c ++ v
              /\ n <> [] /\ ~ In "="%char n /\ trimmed n /\ trimmed v.

Definition parse_assign (l : bytes) : option (bytes * bytes) :=
  match index_byte "="%char l with
  | None => None
  | Some eq =>
      let name := trim sp (firstn eq l) in
      let val := if eq <? List.length l - 1 then skipn (eq + 1) l else [] in
      match name with [] => None | _ => Some (name, trim sp val) end
  end.

Lemma associationList_cons i l ls :
  associationList i (l :: ls) =
  match parse_assign l with
  | None => inr i
  | Some p => match associationList (S i) ls with inr j => inr j | inl al => inl (p :: al) end
  end.
Proof.
  unfold parse_assign. cbn [associationList].
  destruct (index_byte "="%char l) as [eq|]; [|reflexivity].
  destruct (trim sp (firstn eq l)); [reflexivity|].
  destruct (associationList (S i) ls); reflexivity.
Qed.

Lemma val_eq (l : bytes) eq : eq < List.length l ->
  (if eq <? List.length l - 1 then skipn (eq + 1) l else []) = skipn (S eq) l.
Proof.
  intros H. destruct (Nat.ltb_spec eq (List.length l - 1)) as [Hlt|Hge].
  - f_equal. lia.
  - symmetry. apply skipn_all2. lia.
Qed.

Lemma skipn_S_app {A} (x : list A) a y : skipn (S (List.length x)) (x ++ a :: y) = y.
Proof. induction x as [|b x IH]; [reflexivity|]. exact IH. Qed.

(** for a trimmed line *)
Lemma parse_assign_some l n v : trimmed l -> (parse_assign l = Some (n, v) <-> code_assign l n v).
Proof.
  intros Ht. unfold parse_assign. split.
  - destruct (index_byte "="%char l) as [eq|] eqn:E; [|discriminate].
    apply index_byte_some in E. destruct E as (E1 & E2 & E3).
    rewrite (val_eq l eq E3).
    remember (firstn eq l) as pre. remember (skipn (S eq) l) as post. clear Heqpre Heqpost E3.
    destruct (trim sp pre) as [|c t] eqn:E4; [discriminate|].
    intros [= <- <-]. unfold code_assign.
    destruct (trim_spec sp pre) as (a & b & F1 & F2 & F3).
    destruct (trim_spec sp post) as (c1 & d & G1 & G2 & G3).
    rewrite E4 in F1, F2, F3.
    exists b, c1.
    assert (a = 0).
    { destruct a as [|a]; [reflexivity|]. exfalso. destruct Ht as [Ht _]. apply Ht.
      rewrite E1, F1. reflexivity. }
    subst a. cbn [repeat app] in F1.
    assert (d = 0).
    { destruct d as [|d]; [reflexivity|]. exfalso. destruct Ht as [_ Ht]. apply Ht.
      rewrite E1, G1. rewrite rev_app_distr. cbn [rev]. rewrite !rev_app_distr, rev_repeat. reflexivity. }
    subst d. cbn [repeat] in G1. rewrite app_nil_r in G1.
    split; [|split; [discriminate|split; [|split; split; assumption]]].
    + rewrite E1. rewrite F1. rewrite G1 at 1.
      cbn [app]. rewrite <- app_assoc. reflexivity.
    + intros HI. apply E2. rewrite F1. cbn [In app] in *. destruct HI as [HI|HI]; [left; exact HI|].
      right. apply in_or_app. left. exact HI.
  - intros (b & c & -> & H1 & H2 & H3 & H4).
    set (pre := n ++ repeat sp b).
    assert (Hpre : ~ In "="%char pre).
    { intros HI. apply in_app_or in HI. destruct HI as [HI|HI]; [auto|].
      revert HI. apply not_In_repeat. discriminate. }
    replace (n ++ repeat sp b ++ lit "=" ++ repeat sp c ++ v)
      with (pre ++ "="%char :: (repeat sp c ++ v))
      by (unfold pre; rewrite <- app_assoc; reflexivity).
    rewrite index_byte_app by assumption.
    rewrite val_eq by (rewrite app_length; simpl; lia).
    rewrite firstn_app, firstn_all, Nat.sub_diag. cbn [firstn]. rewrite app_nil_r.
    replace (skipn (S (List.length pre)) (pre ++ "="%char :: repeat sp c ++ v)) with (repeat sp c ++ v).
    2:{ symmetry. apply skipn_S_app. }
    unfold pre.
    replace (trim sp (n ++ repeat sp b)) with n.
    2:{ symmetry. rewrite <- (app_nil_l (n ++ _)). change (@nil ascii) with (repeat sp 0) at 1.
        rewrite trim_pad. apply trim_trimmed. exact H3. }
    replace (trim sp (repeat sp c ++ v)) with v.
    2:{ symmetry. rewrite <- (app_nil_r v) at 1. change (@nil ascii) with (repeat sp 0) at 1.
        rewrite trim_pad. apply trim_trimmed. exact H4. }
    destruct n; [congruence|reflexivity].
Qed.

Lemma associationList_inl i ls al :
  associationList i ls = inl al <-> Forall2 (fun l p => parse_assign l = Some p) ls al.
Proof.
  revert i al; induction ls as [|l ls IH]; intros i al.
  - simpl. split; [intros [= <-]; constructor|]. inversion 1; reflexivity.
  - rewrite associationList_cons. destruct (parse_assign l) as [p|] eqn:E.
    + destruct (associationList (S i) ls) as [al'|j] eqn:E2.
      * split.
        -- intros [= <-]. constructor; [exact E|]. apply (IH (S i)). exact E2.
        -- inversion 1 as [|? ? ? al2 H1 H2]; subst. apply (IH (S i)) in H2. congruence.
      * split; [discriminate|]. inversion 1 as [|? ? ? al2 H1 H2]; subst.
        apply (IH (S i)) in H2. congruence.
    + split; [discriminate|]. inversion 1; subst. congruence.
Qed.

Lemma associationList_inr i ls j :
  associationList i ls = inr j ->
  i <= j /\ exists l, nth_error ls (j - i) = Some l /\ parse_assign l = None.
Proof.
  revert i j; induction ls as [|l ls IH]; intros i j; [discriminate|].
  rewrite associationList_cons. destruct (parse_assign l) as [p|] eqn:E.
  - destruct (associationList (S i) ls) as [al'|j'] eqn:E2; [discriminate|].
    intros [= <-]. destruct (IH _ _ E2) as (H1 & l' & H2 & H3).
    split; [lia|]. exists l'. split; [|exact H3].
    replace (j' - i) with (S (j' - S i)) by lia. exact H2.
  - intros [= <-]. split; [lia|]. exists l. rewrite Nat.sub_diag. auto.
Qed.

(** ** Grammar *)
Lemma eff_trimmed ls : Forall (fun s => trimmed s /\ s <> []) (eff ls).
Proof.
  induction ls as [|l ls IH]; [constructor|]. rewrite eff_cons.
  destruct (trim sp (cutComment l)) as [|c t] eqn:E; [exact IH|].
  constructor; [|exact IH]. rewrite <- E. split; [apply trimmed_trim|rewrite E; discriminate].
Qed.

Lemma assign_line_iff l n v :
  assign_line l n v <-> parse_assign (trim sp (cutComment l)) = Some (n, v).
Proof.
  rewrite (parse_assign_some _ n v) by apply trimmed_trim.
  unfold assign_line, code_assign. split.
  - intros (b & c & H1 & H2). exists b, c. apply code_line_iff in H1. split; [exact H1|exact H2].
  - intros (b & c & H1 & H2). exists b, c. split; [apply code_line_iff; exact H1|exact H2].
Qed.

Lemma body_lines_iff ls al :
  body_lines ls al <-> Forall2 (fun l p => parse_assign l = Some p) (eff ls) al.
Proof.
  split.
  - induction 1 as [|l ls al Hb Hbody IH|l n v ls al Ha Hbody IH].
    + constructor.
    + rewrite eff_cons. apply code_line_iff in Hb. rewrite Hb. exact IH.
    + rewrite eff_cons. apply assign_line_iff in Ha.
      destruct (trim sp (cutComment l)) as [|c t] eqn:E; [discriminate|].
      constructor; [exact Ha|exact IH].
  - revert al; induction ls as [|l ls IH]; intros al H.
    + unfold eff in H. simpl in H. inversion H. constructor.
    + rewrite eff_cons in H.
      destruct (trim sp (cutComment l)) as [|c t] eqn:E.
      * apply body_blank; [apply code_line_iff; exact E|]. apply IH. exact H.
      * inversion H as [|? [n v] ? al' H1 H2]; subst. apply body_assign.
        -- apply assign_line_iff. rewrite E. exact H1.
        -- apply IH. exact H2.
Qed.

Lemma config_lines_iff name ls al :
  config_lines name ls al <->
  exists body, eff ls = (lit "[" ++ name ++ lit "]") :: body
               /\ Forall2 (fun l p => parse_assign l = Some p) body al.
Proof.
  split.
  - induction 1 as [l ls al Hb _ IH|l ls al Hh Hbody].
    + rewrite eff_cons. apply code_line_iff in Hb. rewrite Hb. exact IH.
    + rewrite eff_cons. apply code_line_iff in Hh. rewrite Hh. cbn [lit list_ascii_of_string app].
      exists (eff ls). split; [reflexivity|]. apply body_lines_iff. exact Hbody.
  - induction ls as [|l ls IH]; intros (body & E & H).
    + discriminate.
    + rewrite eff_cons in E. destruct (trim sp (cutComment l)) as [|c t] eqn:E2.
      * apply conf_blank; [apply code_line_iff; exact E2|]. apply IH. exists body. auto.
      * injection E as E3 E4 E5. apply conf_header.
        -- apply code_line_iff. rewrite E2, E3, E4. reflexivity.
        -- apply body_lines_iff. rewrite E5. exact H.
Qed.

Lemma nth_error_ext_len {A} (l1 l2 : list A) :
  List.length l1 = List.length l2 ->
  (forall j, j < List.length l1 -> nth_error l1 j = nth_error l2 j) -> l1 = l2.
Proof.
  revert l2; induction l1 as [|a l1 IH]; intros [|b l2]; simpl; try discriminate; [reflexivity|].
  intros HL H. f_equal.
  - specialize (H 0). simpl in H. assert (Some a = Some b) by (apply H; lia). congruence.
  - apply IH; [congruence|]. intros j Hj. apply (H (S j)). lia.
Qed.

Section Names.
Variable toLower : bytes -> bytes.
Notation same_name := (same_name toLower).

(** ** findVar *)
Lemma findVar_some vars n j :
  findVar toLower vars n = Some j ->
  exists rv, nth_error vars j = Some rv /\ same_name n (rv_name rv)
             /\ forall k rv', k < j -> nth_error vars k = Some rv' -> ~ same_name n (rv_name rv').
Proof.
  revert j; induction vars as [|v vs IH]; intros j; simpl; [discriminate|].
  destruct (beq (toLower (rv_name v)) (toLower n)) eqn:E.
  - intros [= <-]. exists v. apply beq_true in E. split; [reflexivity|]. split; [symmetry; exact E|]. lia.
  - destruct (findVar toLower vs n) as [j'|]; simpl; [|discriminate].
    intros [= <-]. destruct (IH j' eq_refl) as (rv & H1 & H2 & H3).
    exists rv. split; [exact H1|]. split; [exact H2|].
    intros [|k] rv' Hk; simpl.
    + intros [= <-]. apply beq_false in E. unfold ConfigSpec.same_name. congruence.
    + apply H3. lia.
Qed.

Lemma findVar_none vars n :
  findVar toLower vars n = None <-> forall rv, In rv vars -> ~ same_name n (rv_name rv).
Proof.
  unfold ConfigSpec.same_name.
  induction vars as [|v vs IH]; simpl.
  - split; [intros _ rv []|reflexivity].
  - destruct (beq (toLower (rv_name v)) (toLower n)) eqn:E.
    + apply beq_true in E. split; [discriminate|]. intros H. exfalso. apply (H v); auto.
    + apply beq_false in E. destruct (findVar toLower vs n) as [j|]; simpl.
      * split; [discriminate|]. intros H.
        assert (X : Some j = None) by (apply IH; intros; apply H; auto). discriminate.
      * split; [|reflexivity]. intros _ rv [<-|HI]; [congruence|]. apply IH; auto.
Qed.

Lemma checkValidNames_none i names vars :
  checkValidNames toLower i names vars = None <->
  forall n, In n names -> exists rv, In rv vars /\ same_name n (rv_name rv).
Proof.
  revert i; induction names as [|n ns IH]; intros i; simpl.
  - split; [intros _ n []|reflexivity].
  - destruct (findVar toLower vars n) as [j|] eqn:E.
    + rewrite IH. apply findVar_some in E. destruct E as (rv & H1 & H2 & _).
      apply nth_error_In in H1. split.
      * intros H m [<-|HI]; [exists rv; auto|apply H; auto].
      * intros H m HI. apply H; auto.
    + split; [discriminate|]. intros H. destruct (H n) as (rv & H1 & H2); [auto|].
      exfalso. eapply findVar_none; eauto.
Qed.

Lemma checkValidNames_some i names vars k :
  checkValidNames toLower i names vars = Some k ->
  i <= k /\ exists n, nth_error names (k - i) = Some n /\ forall rv, In rv vars -> ~ same_name n (rv_name rv).
Proof.
  revert i; induction names as [|n ns IH]; intros i; simpl; [discriminate|].
  destruct (findVar toLower vars n) as [j|] eqn:E.
  - intros H. destruct (IH _ H) as (H1 & m & H2 & H3). split; [lia|]. exists m.
    split; [|exact H3]. replace (k - i) with (S (k - S i)) by lia. exact H2.
  - intros [= <-]. split; [lia|]. exists n. rewrite Nat.sub_diag. split; [reflexivity|].
    apply findVar_none. exact E.
Qed.

Lemma findSame_none j n names :
  findSame toLower j n names = None <-> ~ In (toLower n) (map toLower names).
Proof.
  revert j; induction names as [|m ms IH]; intros j; simpl.
  - tauto.
  - destruct (beq (toLower n) (toLower m)) eqn:E.
    + apply beq_true in E. split; [discriminate|]. intros H. exfalso. apply H. left. congruence.
    + apply beq_false in E. rewrite IH. split; [intros H [X|X]; [congruence|auto]|tauto].
Qed.

Lemma findSame_some j n names k :
  findSame toLower j n names = Some k ->
  j <= k /\ exists m, nth_error names (k - j) = Some m /\ same_name n m.
Proof.
  revert j; induction names as [|m ms IH]; intros j; simpl; [discriminate|].
  destruct (beq (toLower n) (toLower m)) eqn:E.
  - intros [= <-]. split; [lia|]. exists m. rewrite Nat.sub_diag. split; [reflexivity|].
    apply beq_true in E. exact E.
  - intros H. destruct (IH _ H) as (H1 & x & H2 & H3). split; [lia|]. exists x. split; [|exact H3].
    replace (k - j) with (S (k - S j)) by lia. exact H2.
Qed.

Lemma checkDuplicateNames_none i names :
  checkDuplicateNames toLower i names = None <-> NoDup (map toLower names).
Proof.
  revert i; induction names as [|n ns IH]; intros i; simpl.
  - split; [constructor|reflexivity].
  - destruct (findSame toLower (S i) n ns) as [k|] eqn:E.
    + split; [discriminate|]. inversion 1 as [|? ? H1 H2]; subst.
      apply (findSame_none (S i)) in H1. congruence.
    + apply findSame_none in E. rewrite IH. split; [intros H; constructor; assumption|inversion 1; assumption].
Qed.

Lemma checkDuplicateNames_some i names k1 k2 :
  checkDuplicateNames toLower i names = Some (k1, k2) ->
  i <= k1 /\ k1 < k2 /\ exists n m, nth_error names (k1 - i) = Some n /\ nth_error names (k2 - i) = Some m
     /\ same_name n m.
Proof.
  revert i; induction names as [|n ns IH]; intros i; simpl; [discriminate|].
  destruct (findSame toLower (S i) n ns) as [k|] eqn:E.
  - intros [= <- <-]. apply findSame_some in E. destruct E as (H1 & m & H2 & H3).
    split; [lia|]. split; [lia|]. exists n, m. rewrite Nat.sub_diag. split; [reflexivity|].
    split; [|exact H3]. replace (k - i) with (S (k - S i)) by lia. exact H2.
  - intros H. destruct (IH _ H) as (H1 & H2 & a & b & H3 & H4 & H5).
    split; [lia|]. split; [lia|]. exists a, b.
    replace (k1 - i) with (S (k1 - S i)) by lia. replace (k2 - i) with (S (k2 - S i)) by lia. auto.
Qed.

End Names.

Section Sem.
Variable F : Type.
Variable parseFloat : bytes -> option F.
Variable toLower : bytes -> bytes.
Notation value := (value F).
Notation convert := (convert F parseFloat).
Notation denotes := (denotes F parseFloat).
Notation same_name := (same_name toLower).

(** ** Conversions *)
Lemma convList_true {A} (conv : bytes -> option A) toks l :
  convList conv toks = (true, l) <-> Forall2 (fun t a => conv t = Some a) toks l.
Proof.
  revert l; induction toks as [|t ts IH]; intros l; simpl.
  - split; [intros [= <-]; constructor|inversion 1; reflexivity].
  - destruct (conv t) as [a|] eqn:E.
    + destruct (convList conv ts) as [ok l'] eqn:E2. split.
      * intros [= -> <-]. constructor; [exact E|]. apply IH. reflexivity.
      * inversion 1 as [|? ? ? l2 H1 H2]; subst. apply IH in H2. congruence.
    + split; [discriminate|]. inversion 1; subst. congruence.
Qed.

Lemma Forall2_impl {A B} (P Q : A -> B -> Prop) xs ys :
  (forall x y, P x y -> Q x y) -> Forall2 P xs ys -> Forall2 Q xs ys.
Proof. intros H. induction 1; constructor; auto. Qed.

Lemma Forall2_map_l {A B C} (f : A -> B) (P : B -> C -> Prop) xs ys :
  Forall2 P (map f xs) ys <-> Forall2 (fun x y => P (f x) y) xs ys.
Proof.
  revert ys; induction xs as [|x xs IH]; intros ys; simpl.
  - split; inversion 1; constructor.
  - split; inversion 1; subst; constructor; auto; apply IH; auto.
Qed.

Lemma strToList_iff {A} (P : bytes -> A -> Prop) s l :
  Forall2 P (strToList s) l <-> item_list P s l.
Proof.
  unfold strToList, item_list. rewrite Forall2_map_l. split.
  - intros H. exists (split_byte ","%char s). split; [apply split_byte_nonnil|].
    split; [apply split_byte_no|]. split; [symmetry; apply (join_split ","%char)|].
    eapply Forall2_impl; [|exact H]. intros t a Ha. cbv beta in Ha.
    destruct (trim_spec sp t) as (n & m & E & H1 & H2). exists n, m, (trim sp t).
    repeat split; auto.
  - intros (items & H1 & H2 & -> & H3). unfold lit. cbn [list_ascii_of_string].
    rewrite split_join by assumption.
    eapply Forall2_impl; [|exact H3]. intros i a (x & y & t & -> & Ht & HP).
    cbv beta. rewrite trim_pad, trim_trimmed by exact Ht. exact HP.
Qed.

Lemma convert_true t old s v :
  trimmed s -> (convert t old s = (true, v) <-> denotes t s v).
Proof.
  intros Ht. destruct t; simpl.
  - destruct (atoi s) as [z|] eqn:E; split.
    + intros [= <-]. constructor. apply atoi_spec. exact E.
    + inversion 1; subst. match goal with H : go_int _ _ |- _ => apply atoi_spec in H end. congruence.
    + discriminate.
    + inversion 1; subst. match goal with H : go_int _ _ |- _ => apply atoi_spec in H end. congruence.
  - destruct (convList atoi (strToList s)) as [ok l] eqn:E. split.
    + intros [= -> <-]. constructor. apply (strToList_iff go_int).
      apply convList_true in E. eapply Forall2_impl; [|exact E]. intros ? ?; apply atoi_spec.
    + inversion 1 as [| | | |s' l' H1| | | ]; subst. apply strToList_iff in H1.
      assert (X : convList atoi (strToList s) = (true, l')).
      { apply convList_true. eapply Forall2_impl; [|exact H1]. intros ? ?; apply atoi_spec. }
      congruence.
  - destruct (parseFloat s) as [z|] eqn:E; split.
    + intros [= <-]. constructor. exact E.
    + inversion 1; subst. congruence.
    + discriminate.
    + inversion 1; subst. congruence.
  - destruct (convList parseFloat (strToList s)) as [ok l] eqn:E. split.
    + intros [= -> <-]. constructor. apply strToList_iff. apply convList_true in E. exact E.
    + inversion 1 as [| | | | |s' l' H1| | ]; subst. apply strToList_iff in H1.
      apply convList_true in H1. congruence.
  - rewrite trim_trimmed by exact Ht. split; [intros [= <-]; constructor|inversion 1; reflexivity].
  - split.
    + intros [= <-]. constructor. apply (strToList_iff (fun t u => u = t)).
      induction (strToList s); constructor; auto.
    + inversion 1 as [| | | | | |s' l' H1| ]; subst. apply strToList_iff in H1.
      assert (X : strToList s = l').
      { clear -H1. induction H1; [reflexivity|]. subst; f_equal; assumption. }
      congruence.
  - destruct (parse_bool s) as [z|] eqn:E; split.
    + intros [= <-]. constructor. exact E.
    + inversion 1; subst. congruence.
    + discriminate.
    + inversion 1; subst. congruence.
  - destruct (convList parse_bool (strToList s)) as [ok l] eqn:E. split.
    + intros [= -> <-]. constructor. apply strToList_iff. apply convList_true in E. exact E.
    + inversion 1 as [| | | | | | |s' l' H1]; subst. apply strToList_iff in H1.
      apply convList_true in H1. congruence.
Qed.

Lemma convert_false t old s w :
  trimmed s -> convert t old s = (false, w) -> forall v, ~ denotes t s v.
Proof. intros Ht H v Hv. apply (convert_true t old s v Ht) in Hv. congruence. Qed.

Lemma denotes_fun t s v w : trimmed s -> denotes t s v -> denotes t s w -> v = w.
Proof.
  intros Ht H1 H2. apply (convert_true t v s v Ht) in H1. apply (convert_true t v s w Ht) in H2. congruence.
Qed.

(** ** convertAssoc *)
Definition trimmed_vals (al : list (bytes * bytes)) : Prop := Forall (fun p => trimmed (snd p)) al.

(** Successful conversion of all entries. *)
Lemma convertAssoc_done i al vars st st' :
  List.length st = List.length vars ->
  trimmed_vals al -> no_duplicates toLower al -> distinct_vars toLower vars ->
  convertAssoc F parseFloat toLower i al vars st = (CDone, st') ->
  assigned F parseFloat toLower vars al st st'.
Proof.
  revert i st; induction al as [|[n s] al IH]; intros i st HL HT HD HV; simpl.
  - intros [= <-]. split; [reflexivity|]. intros j rv Hj. split; [intros n v []|reflexivity].
  - inversion HT as [|? ? HT1 HT2]; subst. inversion HD as [|? ? HD1 HD2]; subst. simpl in *.
    destruct (findVar toLower vars n) as [j|] eqn:E; [|discriminate].
    apply findVar_some in E. destruct E as (rv & E1 & E2 & _). rewrite E1.
    destruct (nth_error st j) as [old|] eqn:E3; [|discriminate].
    destruct (convert (rv_type rv) old s) as [ok new] eqn:E4.
    destruct (upd st j new) as [st1|] eqn:E5; [|discriminate].
    destruct ok; [|discriminate].
    intros H. assert (HL1 : List.length st1 = List.length vars) by (rewrite (upd_length _ _ _ _ E5); exact HL).
    destruct (IH (S i) st1 HL1 HT2 HD2 HV H) as (HLen & HA).
    split; [rewrite HLen; apply (upd_length _ _ _ _ E5)|].
    intros k rv' Hk. destruct (HA k rv' Hk) as (HA1 & HA2).
    assert (Hjk : same_name n (rv_name rv') -> k = j).
    { intros Hs. unfold distinct_vars in HV.
      assert (M1 : nth_error (map (fun v => toLower (rv_name v)) vars) k = Some (toLower (rv_name rv')))
        by (apply map_nth_error with (f := fun v => toLower (rv_name v)); exact Hk).
      assert (M2 : nth_error (map (fun v => toLower (rv_name v)) vars) j = Some (toLower (rv_name rv)))
        by (apply map_nth_error with (f := fun v => toLower (rv_name v)); exact E1).
      rewrite NoDup_nth_error in HV. apply HV.
      - apply nth_error_Some. rewrite M1. discriminate.
      - rewrite M1, M2. unfold ConfigSpec.same_name in *. congruence. }
    split.
    + intros m v [[= <- <-]|HI] Hm.
      * specialize (Hjk Hm). subst k. rewrite E1 in Hk. injection Hk as <-.
        exists new. split; [apply (convert_true _ old _ _ HT1); exact E4|].
        rewrite HA2.
        -- rewrite (upd_nth_error _ _ _ _ _ E5), Nat.eqb_refl. reflexivity.
        -- intros m' v' HI' Hm'. apply HD1. apply in_map_iff. exists (m', v').
           split; [|exact HI']. simpl. unfold ConfigSpec.same_name in *. congruence.
      * apply (HA1 m v HI Hm).
    + intros Hno. rewrite HA2 by (intros m v HI; apply (Hno m v); right; exact HI).
      rewrite (upd_nth_error _ _ _ _ _ E5).
      destruct (Nat.eqb_spec k j) as [->|Hne]; [|reflexivity].
      exfalso. rewrite E1 in Hk. injection Hk as <-. apply (Hno n s); [left; reflexivity|exact E2].
Qed.

(** Failure: position, offending variable, and memory after. *)
Lemma convertAssoc_fail i al vars st k st' :
  List.length st = List.length vars -> trimmed_vals al ->
  convertAssoc F parseFloat toLower i al vars st = (CFail k, st') ->
  i <= k /\ exists n s j rv, nth_error al (k - i) = Some (n, s) /\ findVar toLower vars n = Some j
     /\ nth_error vars j = Some rv /\ forall v, ~ denotes (rv_type rv) s v.
Proof.
  revert i st; induction al as [|[n s] al IH]; intros i st HL HT; simpl; [discriminate|].
  inversion HT as [|? ? HT1 HT2]; subst. simpl in *.
  destruct (findVar toLower vars n) as [j|] eqn:E; [|discriminate].
  destruct (nth_error vars j) as [rv|] eqn:E1; [|discriminate].
  destruct (nth_error st j) as [old|] eqn:E3; [|discriminate].
  destruct (convert (rv_type rv) old s) as [ok new] eqn:E4.
  destruct (upd st j new) as [st1|] eqn:E5; [|discriminate].
  destruct ok.
  - intros H. assert (HL1 : List.length st1 = List.length vars) by (rewrite (upd_length _ _ _ _ E5); exact HL).
    destruct (IH (S i) st1 HL1 HT2 H) as (H1 & n' & s' & j' & rv' & H2 & H3).
    split; [lia|]. exists n', s', j', rv'. replace (k - i) with (S (k - S i)) by lia. auto.
  - intros [= <- <-]. split; [lia|]. exists n, s, j, rv. rewrite Nat.sub_diag.
    split; [reflexivity|]. split; [exact E|]. split; [exact E1|].
    apply (convert_false _ old _ new HT1 E4).
Qed.

Lemma convertAssoc_nopanic i al vars st st' :
  List.length st = List.length vars ->
  all_registered toLower vars al ->
  convertAssoc F parseFloat toLower i al vars st <> (CPanic, st').
Proof.
  revert i st; induction al as [|[n s] al IH]; intros i st HL HR; simpl; [discriminate|].
  destruct (findVar toLower vars n) as [j|] eqn:E.
  2:{ exfalso. destruct (HR n s) as (rv & H1 & H2); [left; reflexivity|].
      rewrite findVar_none in E. eapply E; eauto. }
  apply findVar_some in E. destruct E as (rv & E1 & _). rewrite E1.
  assert (Hj : j < List.length st) by (rewrite HL; apply nth_error_Some; congruence).
  destruct (nth_error st j) as [old|] eqn:E3; [|apply nth_error_None in E3; lia].
  destruct (convert (rv_type rv) old s) as [ok new] eqn:E4.
  destruct (upd_some st j new Hj) as (st1 & E5). rewrite E5.
  destruct ok; [|discriminate].
  apply IH; [rewrite (upd_length _ _ _ _ E5); exact HL|].
  intros m v HI. apply (HR m v). right. exact HI.
Qed.

(** All values convert -> no failure. *)
Definition all_convert (vars : list regvar) (al : list (bytes * bytes)) : Prop :=
  forall n s rv, In (n, s) al -> In rv vars -> same_name n (rv_name rv) -> exists v, denotes (rv_type rv) s v.

Lemma assigned_all_convert vars al st st' :
  assigned F parseFloat toLower vars al st st' -> all_convert vars al.
Proof.
  intros (_ & H) n s rv HI HR HS. apply In_nth_error in HR. destruct HR as (j & Hj).
  destruct (H j rv Hj) as (H1 & _). destruct (H1 n s HI HS) as (x & Hx & _). eauto.
Qed.

Lemma convertAssoc_total i al vars st :
  List.length st = List.length vars -> trimmed_vals al -> all_registered toLower vars al ->
  all_convert vars al -> exists st', convertAssoc F parseFloat toLower i al vars st = (CDone, st').
Proof.
  intros HL HT HR HC.
  destruct (convertAssoc F parseFloat toLower i al vars st) as [[|k|] st'] eqn:E.
  - eauto.
  - exfalso. apply convertAssoc_fail in E; [|assumption|assumption].
    destruct E as (_ & n & s & j & rv & H1 & H2 & H3 & H4).
    apply findVar_some in H2. destruct H2 as (rv' & H5 & H6 & _). assert (rv' = rv) by congruence. subst rv'.
    apply nth_error_In in H1, H3. destruct (HC n s rv H1 H3 H6) as (v & Hv). eapply H4; eauto.
  - exfalso. eapply convertAssoc_nopanic; eauto.
Qed.

Lemma assigned_fun vars al st st1 st2 :
  List.length st = List.length vars -> trimmed_vals al ->
  assigned F parseFloat toLower vars al st st1 -> assigned F parseFloat toLower vars al st st2 -> st1 = st2.
Proof.
  intros HL HT (L1 & H1) (L2 & H2). apply nth_error_ext_len; [congruence|].
  intros j Hj. rewrite L1 in Hj. destruct (nth_error vars j) as [rv|] eqn:E.
  2:{ apply nth_error_None in E. lia. }
  destruct (H1 j rv E) as (A1 & B1), (H2 j rv E) as (A2 & B2).
  destruct (Exists_dec (fun p => toLower (fst p) = toLower (rv_name rv)) al) as [HE|HN].
  - intros p. apply list_eq_dec. apply ascii_dec.
  - apply Exists_exists in HE. destruct HE as ([n v] & HI & HS). simpl in HS.
    destruct (A1 n v HI HS) as (x & Hx & E1). destruct (A2 n v HI HS) as (y & Hy & E2).
    rewrite E1, E2. f_equal. eapply denotes_fun; [|exact Hx|exact Hy].
    unfold trimmed_vals in HT. rewrite Forall_forall in HT. apply (HT (n, v) HI).
  - assert (X : forall n v, In (n, v) al -> ~ same_name n (rv_name rv)).
    { intros n v HI HS. apply HN. apply Exists_exists. exists (n, v). split; [exact HI|exact HS]. }
    rewrite B1, B2 by exact X. reflexivity.
Qed.
End Sem.
