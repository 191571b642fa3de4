(** * Proofs about the catalog parser: Parse in terms of the rows of the text. *)
From Verif Require Import GoBase GoBaseFacts ConfigModel ConfigSpec ConfigProofs ConfigProofs2 ConfigProofs3 CatalogModel CatalogSpec ListFacts.
Local Open Scope list_scope.

Definition nonempty (w : bytes) : bool := match w with [] => false | _ => true end.
Definition wordsf (s : bytes) : list bytes := filter nonempty (split_byte sp s).

Lemma wordsf_nil : wordsf [] = [].
Proof. reflexivity. Qed.

Lemma wordsf_sp r : wordsf (sp :: r) = wordsf r.
Proof. reflexivity. Qed.

Lemma wordsf_word w : w <> [] -> ~ In sp w -> wordsf w = [w].
Proof.
  intros H1 H2. unfold wordsf. rewrite split_byte_nosep by assumption.
  destruct w; [congruence|reflexivity].
Qed.

Lemma wordsf_cons w r : w <> [] -> ~ In sp w -> wordsf (w ++ sp :: r) = w :: wordsf r.
Proof.
  intros H1 H2. unfold wordsf. rewrite split_byte_app by assumption.
  destruct w; [congruence|reflexivity].
Qed.

Lemma wordsf_reps n r : wordsf (repeat sp n ++ r) = wordsf r.
Proof. induction n; [reflexivity|]. cbn [repeat app]. rewrite wordsf_sp. exact IHn. Qed.

Lemma words_of_iff l ws : words_of l ws <-> wordsf l = ws.
Proof.
  split.
  - induction 1.
    + rewrite <- (app_nil_r (repeat sp n)). rewrite wordsf_reps. reflexivity.
    + rewrite wordsf_reps. apply wordsf_word; assumption.
    + rewrite wordsf_reps. rewrite wordsf_cons by assumption. congruence.
  - revert ws. remember (List.length l) as k eqn:Hk. revert l Hk.
    induction k as [k IH] using lt_wf_ind. intros l Hk ws E.
    destruct (trim_left_spec sp l) as (n & E1 & H1).
    remember (trim_left sp l) as t. rewrite E1 in E |- *. rewrite wordsf_reps in E.
    destruct t as [|c t'].
    { rewrite app_nil_r. cbn in E. subst ws. constructor. }
    remember (c :: t') as t. 
    destruct (index_byte sp t) as [i|] eqn:Ei.
    + apply index_byte_some in Ei. destruct Ei as (Et & Hn & Hi).
      remember (firstn i t) as w. remember (skipn (S i) t) as r.
      assert (Hw : w <> []).
      { intros ->. rewrite Et in H1. cbn in H1. congruence. }
      rewrite Et in E. rewrite wordsf_cons in E by assumption. subst ws.
      rewrite Et. constructor; [assumption|assumption|].
      eapply IH; [|reflexivity|reflexivity].
      rewrite Hk, E1, app_length, Et, app_length. cbn. lia.
    + apply index_byte_none in Ei. assert (Hw : t <> []) by (subst; discriminate).
      rewrite wordsf_word in E by assumption. subst ws. constructor; assumption.
Qed.

(** ** The tokenizer *)
Lemma countFields_wordsf data :
  countFields sp false data = List.length (wordsf data) /\
  (forall cur, cur <> [] -> ~ In sp cur -> S (countFields sp true data) = List.length (wordsf (cur ++ data))).
Proof.
  induction data as [|c data [IH1 IH2]].
  - split; [reflexivity|]. intros cur H1 H2. rewrite app_nil_r, wordsf_word by assumption. reflexivity.
  - cbn [countFields]. rewrite Ascii.eqb_sym. destruct (Ascii.eqb_spec c sp) as [->|Hne]; cbn [negb andb].
    + split; [rewrite wordsf_sp; exact IH1|].
      intros cur H1 H2. rewrite wordsf_cons by assumption. cbn. rewrite IH1. reflexivity.
    + assert (Hc : ~ In sp [c]) by (intros [H|[]]; congruence).
      split.
      * change (c :: data) with ([c] ++ data). rewrite <- IH2; [reflexivity|discriminate|exact Hc].
      * intros cur H1 H2. change (c :: data) with ([c] ++ data). rewrite app_assoc.
        rewrite <- IH2; [reflexivity| |].
        { destruct cur; discriminate. }
        { rewrite in_app_iff. tauto. }
Qed.

Fixpoint store (buf : list bytes) (na : nat) (ws : list bytes) : option (list bytes) :=
  match ws with
  | [] => Some buf
  | w :: ws' => match upd buf na w with None => None | Some b => store b (S na) ws' end
  end.

Lemma skipn_app_le {A} s (x y : list A) : s <= List.length x -> skipn s (x ++ y) = skipn s x ++ y.
Proof. intros H. rewrite skipn_app. replace (s - List.length x) with 0 by lia. reflexivity. Qed.

Lemma fieldsLoop_store data n : forall rest pre na start buf,
  data = pre ++ rest ->
  match start with
  | None => n = na + List.length (wordsf rest) ->
            fieldsLoop data sp n (List.length pre) na None buf rest
            = option_map (fun b => (b, na + List.length (wordsf rest))) (store buf na (wordsf rest))
  | Some s => s < List.length pre -> ~ In sp (skipn s pre) ->
              n = na + List.length (wordsf (skipn s pre ++ rest)) ->
              fieldsLoop data sp n (List.length pre) na (Some s) buf rest
              = option_map (fun b => (b, na + List.length (wordsf (skipn s pre ++ rest))))
                           (store buf na (wordsf (skipn s pre ++ rest)))
  end.
Proof.
  induction rest as [|c rest IH]; intros pre na start buf Hd.
  - destruct start as [s|].
    + intros Hs Hn _. rewrite app_nil_r in *. subst data.
      assert (Hw : skipn s pre <> []).
      { intros E. apply (f_equal (@List.length ascii)) in E. rewrite skipn_length in E. cbn in E. lia. }
      rewrite wordsf_word by assumption. cbn.
      destruct (upd buf na (skipn s pre)); cbn; [|reflexivity].
      do 2 f_equal. lia.
    + intros _. cbn. do 2 f_equal. lia.
  - assert (Hd' : data = (pre ++ [c]) ++ rest) by (rewrite <- app_assoc; exact Hd).
    assert (Hl : List.length (pre ++ [c]) = S (List.length pre)) by (rewrite app_length; cbn; lia).
    destruct start as [s|].
    + intros Hs Hni Hn. cbn [fieldsLoop].
      assert (Hw : skipn s pre <> []).
      { intros E. apply (f_equal (@List.length ascii)) in E. rewrite skipn_length in E. cbn in E. lia. }
      destruct (Ascii.eqb_spec c sp) as [->|Hne].
      * rewrite wordsf_cons in * by assumption. cbn [List.length] in Hn.
        replace (na <? n) with true by (symmetry; apply Nat.ltb_lt; lia).
        assert (Ef : firstn (List.length pre) data = pre).
        { rewrite Hd, firstn_app, firstn_all. replace (_ - _) with 0 by lia. cbn. apply app_nil_r. }
        rewrite Ef. cbn [store]. destruct (upd buf na (skipn s pre)) as [b|]; [|reflexivity].
        rewrite <- Hl. specialize (IH (pre ++ [sp]) (S na) None b Hd'). cbn iota in IH. rewrite IH by lia.
        cbn [List.length]. f_equal. f_equal.
        replace (na + S (List.length (wordsf rest))) with (S na + List.length (wordsf rest)) by lia. reflexivity.
      * assert (Es : skipn s pre ++ c :: rest = skipn s (pre ++ [c]) ++ rest).
        { rewrite skipn_app_le by lia. rewrite <- app_assoc. reflexivity. }
        rewrite Es in *.
        assert (Hni' : ~ In sp (skipn s (pre ++ [c]))).
        { rewrite skipn_app_le by lia. rewrite in_app_iff. intros [H|[H|[]]]; [tauto|congruence]. }
        assert (Hpos : 0 < List.length (wordsf (skipn s (pre ++ [c]) ++ rest))).
        { destruct (countFields_wordsf rest) as [_ H2]. rewrite <- H2; [lia| |exact Hni'].
          rewrite skipn_app_le by lia. destruct (skipn s pre); discriminate. }
        replace (na <? n) with true by (symmetry; apply Nat.ltb_lt; lia).
        rewrite <- Hl. specialize (IH (pre ++ [c]) na (Some s) buf Hd'). cbn iota in IH.
        apply IH; [rewrite Hl; lia|assumption|assumption].
    + intros Hn. cbn [fieldsLoop].
      destruct (Ascii.eqb_spec c sp) as [->|Hne]; cbn [negb].
      * rewrite wordsf_sp in *. specialize (IH (pre ++ [sp]) na None buf Hd'). cbn iota in IH.
        rewrite Hl in IH. destruct (Nat.ltb_spec na n) as [Hlt|Hge].
        -- apply IH. exact Hn.
        -- assert (E0 : wordsf rest = []) by (destruct (wordsf rest); [reflexivity|cbn in Hn; lia]).
           rewrite E0. cbn. do 2 f_equal. lia.
      * assert (Hpos : 0 < List.length (wordsf ([c] ++ rest))).
        { destruct (countFields_wordsf rest) as [_ H2]. rewrite <- H2; [lia|discriminate|].
          intros [H|[]]; congruence. }
        assert (Es : skipn (List.length pre) (pre ++ [c]) = [c]).
        { rewrite skipn_app, skipn_all. replace (_ - _) with 0 by lia. reflexivity. }
        change (c :: rest) with ([c] ++ rest) in Hn |- *.
        replace (na <? n) with true by (symmetry; apply Nat.ltb_lt; lia).
        rewrite <- Hl. specialize (IH (pre ++ [c]) na (Some (List.length pre)) buf Hd'). cbn iota in IH.
        rewrite Es in IH. apply IH; [rewrite Hl; lia| |assumption].
        intros [H|[]]; congruence.
Qed.

Lemma store_ok : forall ws buf na, na + List.length ws <= List.length buf ->
  store buf na ws = Some (firstn na buf ++ ws ++ skipn (na + List.length ws) buf).
Proof.
  induction ws as [|w ws IH]; intros buf na H; cbn [store List.length] in *.
  - rewrite Nat.add_0_r. cbn. rewrite firstn_skipn. reflexivity.
  - destruct (upd_some buf na w) as (b & Eb); [lia|]. rewrite Eb.
    assert (Hl := upd_length _ _ _ _ Eb). apply upd_inv in Eb. destruct Eb as (Hlt & Eb).
    rewrite IH by lia. f_equal.
    assert (Hf : List.length (firstn na buf) = na) by (apply firstn_length_le; lia).
    rewrite Eb. rewrite firstn_app, Hf. replace (S na - na) with 1 by lia.
    rewrite firstn_firstn. replace (Nat.min (S na) na) with na by lia. cbn [firstn].
    rewrite skipn_app, Hf. replace (S na + List.length ws - na) with (S (List.length ws)) by lia.
    cbn [skipn]. rewrite skipn_all2 by (rewrite Hf; lia). cbn [app].
    rewrite <- app_assoc. cbn [app]. do 3 f_equal. change (match buf with [] => [] | _ :: l => skipn na l end) with (skipn (S na) buf). rewrite skipn_skipn. f_equal. lia.
Qed.

Lemma store_fail : forall ws buf na, na <= List.length buf -> List.length buf < na + List.length ws -> store buf na ws = None.
Proof.
  induction ws as [|w ws IH]; intros buf na H1 H2; cbn [store List.length] in *; [lia|].
  destruct (Nat.lt_ge_cases na (List.length buf)) as [Hlt|Hge].
  - destruct (upd_some buf na w) as (b & Eb); [lia|]. rewrite Eb.
    assert (Hl := upd_length _ _ _ _ Eb). apply IH; lia.
  - rewrite upd_none by lia. reflexivity.
Qed.

Lemma fields_spec data buf :
  (List.length (wordsf data) <= List.length buf ->
   fields data sp buf = Some (wordsf data, wordsf data ++ skipn (List.length (wordsf data)) buf)) /\
  (List.length buf < List.length (wordsf data) -> fields data sp buf = None).
Proof.
  unfold fields. destruct (countFields_wordsf data) as [Hc _]. rewrite Hc.
  assert (H := fieldsLoop_store data (List.length (wordsf data)) data [] 0 None buf eq_refl). cbn iota in H.
  cbn [List.length] in H. rewrite H by lia. cbn [Nat.add]. split; intros Hle.
  - rewrite store_ok by lia. cbn [option_map firstn app Nat.add].
    rewrite firstn_app, firstn_all, Nat.sub_diag. cbn [firstn]. rewrite app_nil_r. reflexivity.
  - rewrite store_fail by (cbn; lia). reflexivity.
Qed.

(** ** split, uncomment, trim *)
Lemma count_byte_app c x y : count_byte c (x ++ y) = count_byte c x + count_byte c y.
Proof. unfold count_byte. rewrite filter_app, app_length. reflexivity. Qed.

Lemma count_byte_cons c a s : count_byte c (a :: s) = (if Ascii.eqb a c then 1 else 0) + count_byte c s.
Proof. unfold count_byte. cbn. destruct (Ascii.eqb a c); reflexivity. Qed.

Lemma count_byte_zero c s : count_byte c s = 0 <-> ~ In c s.
Proof.
  induction s as [|a s IH]; [cbn; tauto|]. rewrite count_byte_cons. cbn [In].
  destruct (Ascii.eqb_spec a c) as [->|Hne]; [split; [lia|tauto]|]. cbn. rewrite IH. split; [intros H [H'|H']; [congruence|tauto]|tauto].
Qed.

Lemma splitLoop_split sep : forall n idx data, n = count_byte sep (skipn idx data) ->
  splitLoop n idx data sep = split_byte sep (skipn idx data).
Proof.
  induction n as [|n IH]; intros idx data Hn; cbn [splitLoop].
  - rewrite split_byte_nosep; [reflexivity|]. apply count_byte_zero. lia.
  - remember (skipn idx data) as d. destruct (index_byte sep d) as [i|] eqn:Ei.
    + apply index_byte_some in Ei. destruct Ei as (Ed & Hni & Hi).
      rewrite IH.
      * rewrite Ed at 3. rewrite split_byte_app by assumption. reflexivity.
      * rewrite Ed in Hn. rewrite count_byte_app, count_byte_cons, Ascii.eqb_refl in Hn.
        assert (H0 := proj2 (count_byte_zero sep (firstn i d)) Hni). lia.
    + apply index_byte_none in Ei. apply count_byte_zero in Ei. lia.
Qed.

Lemma split_spec data sep comm : split data sep comm = (split_byte sep data, count_byte comm data).
Proof. unfold split. rewrite splitLoop_split by reflexivity. reflexivity. Qed.

Lemma cutComment_none l : ~ In "#"%char l -> cutComment l = l.
Proof. intros H. rewrite <- (app_nil_r l) at 1. apply cutComment_app; [assumption|left; reflexivity]. Qed.

Definition total (c : ascii) (ls : list bytes) : nat := list_sum (map (count_byte c) ls).

Lemma total_cons c l ls : total c (l :: ls) = count_byte c l + total c ls.
Proof. reflexivity. Qed.

Lemma total_split sep c data : c <> sep -> total c (split_byte sep data) = count_byte c data.
Proof.
  intros Hne. induction data as [|a s IH]; [reflexivity|].
  cbn [split_byte]. rewrite count_byte_cons. destruct (Ascii.eqb_spec a sep) as [->|Ha].
  - destruct (Ascii.eqb_spec sep c) as [->|]; [congruence|]. rewrite <- IH. reflexivity.
  - destruct (split_byte sep s) as [|w ws] eqn:E; [exfalso; eapply split_byte_nonnil; eauto|].
    rewrite total_cons in *. rewrite count_byte_cons. lia.
Qed.

Lemma total_zero_map ls : total "#" ls = 0 -> map cutComment ls = ls.
Proof.
  induction ls as [|l ls IH]; [reflexivity|]. rewrite total_cons.
  intros H. cbn [map]. rewrite IH by lia. rewrite cutComment_none; [reflexivity|].
  apply count_byte_zero. lia.
Qed.

Lemma cutComment_def l : cutComment l = match index_byte "#" l with None => l | Some i => firstn i l end.
Proof. reflexivity. Qed.

Lemma uncommentLoop_spec : forall ls n, n = total "#" ls -> uncommentLoop ls "#" (Z.of_nat n) = map cutComment ls.
Proof.
  induction ls as [|l ls IH]; intros n Hn; [reflexivity|].
  cbn [uncommentLoop map]. rewrite cutComment_def. rewrite total_cons in Hn.
  destruct (index_byte "#" l) as [i|] eqn:Ei.
  - apply index_byte_some in Ei. destruct Ei as (El & Hni & Hi).
    rewrite El in Hn at 1. rewrite count_byte_app, count_byte_cons, Ascii.eqb_refl in Hn.
    rewrite (proj2 (count_byte_zero _ _) Hni) in Hn.
    replace (i + 1) with (S i) by lia.
    remember (count_byte "#" (skipn (S i) l)) as k.
    destruct (Z.eqb_spec (Z.of_nat n - (1 + Z.of_nat k)) 0) as [Hz|Hz].
    + f_equal. symmetry. apply total_zero_map. lia.
    + f_equal. rewrite <- (IH (total "#" ls) eq_refl). f_equal. lia.
  - apply index_byte_none in Ei. apply count_byte_zero in Ei. f_equal. apply IH. lia.
Qed.

Lemma uncomment_spec data : uncomment (split_byte nl data) "#" (count_byte "#" data) = map cutComment (split_byte nl data).
Proof.
  unfold uncomment. rewrite <- (total_split nl "#"%char data) by discriminate.
  destruct (Nat.eqb_spec (total "#" (split_byte nl data)) 0) as [H|H].
  - symmetry. apply total_zero_map. exact H.
  - apply uncommentLoop_spec. reflexivity.
Qed.

Lemma existsb_words l : existsb (fun c => negb (Ascii.eqb c sp)) l = negb (match wordsf l with [] => true | _ => false end).
Proof.
  destruct (countFields_wordsf l) as [H _].
  induction l as [|c l IH]; [reflexivity|]. cbn [existsb].
  destruct (Ascii.eqb_spec c sp) as [->|Hne].
  - rewrite wordsf_sp. cbn [negb orb]. apply IH. destruct (countFields_wordsf l); assumption.
  - cbn [negb orb]. destruct (countFields_wordsf l) as [_ H2]. specialize (H2 [c]). cbn [app] in H2.
    assert (H3 : S (countFields sp true l) = List.length (wordsf (c :: l))).
    { apply H2; [discriminate|]. intros [E|[]]; congruence. }
    destruct (wordsf (c :: l)); [cbn in H3; lia|reflexivity].
Qed.

(** The rows of the text. *)
Definition has_words (ws : list bytes) : bool := match ws with [] => false | _ => true end.
Definition rowsf (ls : list bytes) : list (list bytes) := filter has_words (map (fun l => wordsf (cutComment l)) ls).

Lemma line_words_iff l ws : line_words l ws <-> wordsf (cutComment l) = ws.
Proof.
  split.
  - intros (code & cm & -> & Hc & Hn & Hw). rewrite cutComment_app by assumption. apply words_of_iff; assumption.
  - intros H. destruct (cutComment_spec l) as (cm & E & Hc). exists (cutComment l), cm.
    split; [exact E|]. split; [exact Hc|]. split; [apply cutComment_no|]. apply words_of_iff; exact H.
Qed.

Lemma data_rows_iff ls rows : data_rows ls rows <-> rowsf ls = rows.
Proof.
  split.
  - induction 1 as [|l ls rows H1 H2 IH|l ls ws rows H1 H2 H3 IH]; [reflexivity| |];
    apply line_words_iff in H1; unfold rowsf in *; cbn [map filter]; rewrite H1.
    + exact IH.
    + destruct ws; [congruence|]. cbn. rewrite IH. reflexivity.
  - revert rows. induction ls as [|l ls IH]; intros rows H.
    + cbn in H. subst. constructor.
    + unfold rowsf in H. cbn [map filter] in H. destruct (wordsf (cutComment l)) as [|w ws] eqn:E.
      * cbn in H. apply dr_blank; [apply line_words_iff; exact E|]. apply IH. exact H.
      * cbn in H. subst rows. apply dr_row; [apply line_words_iff; exact E|discriminate|]. apply IH. reflexivity.
Qed.

(** Lines kept by Parse, and their words. *)
Lemma trimLines_rows ls : map wordsf (trimLines (map cutComment ls) sp) = rowsf ls.
Proof.
  induction ls as [|l ls IH]; [reflexivity|].
  unfold trimLines, rowsf in *. cbn [map filter]. rewrite existsb_words.
  destruct (wordsf (cutComment l)) as [|w ws] eqn:E; cbn [negb has_words]; [exact IH|].
  cbn [map]. rewrite E, IH. reflexivity.
Qed.

(** bytes.Fields of a line *)
Lemma nFieldsFrom_sp b r : nFieldsFrom b (sp :: r) = nFieldsFrom false r.
Proof. reflexivity. Qed.
Lemma nFieldsFrom_app_sp w : forall b r, nFieldsFrom b (w ++ sp :: r) = nFieldsFrom b w + nFieldsFrom false r.
Proof.
  induction w as [|a w IH]; intros b r; [reflexivity|]. cbn [app nFieldsFrom].
  destruct (is_space a); rewrite IH; lia.
Qed.
Lemma nFields_wordsf l : nFields l = list_sum (map nFields (wordsf l)).
Proof.
  assert (H : words_of l (wordsf l)) by (apply words_of_iff; reflexivity).
  remember (wordsf l) as ws. clear Heqws. unfold nFields.
  induction H as [n|n w H1 H2|n w r ws H1 H2 H3 IH].
  - induction n; [reflexivity|exact IHn].
  - induction n; [cbn; lia|exact IHn].
  - induction n; [|exact IHn]. cbn [repeat app]. rewrite nFieldsFrom_app_sp. cbn [map list_sum fold_right].
    rewrite IH. reflexivity.
Qed.
Lemma plain_nFields w : w <> [] -> ~ In sp w -> plain w -> nFields w = 1.
Proof.
  intros H1 H2 H3. unfold nFields.
  assert (Hs : forall c, In c w -> is_space c = false).
  { intros c Hc. unfold is_space. unfold plain in H3. rewrite Forall_forall in H3. specialize (H3 c Hc).
    destruct (Nat.eqb_spec (nat_of_ascii c) 32) as [E|E].
    - exfalso. assert (c = sp); [|subst; tauto]. rewrite <- (ascii_nat_embedding c), E. reflexivity.
    - cbn [orb]. destruct (Nat.leb_spec 9 (nat_of_ascii c)); [|reflexivity].
      destruct (Nat.leb_spec (nat_of_ascii c) 13); [lia|reflexivity]. }
  assert (G : forall w', (forall c, In c w' -> is_space c = false) -> nFieldsFrom true w' = 0).
  { induction w' as [|a w' IH]; intros Hw; [reflexivity|]. cbn. rewrite Hw by (left; reflexivity).
    apply IH. intros; apply Hw; right; assumption. }
  destruct w as [|a w]; [congruence|]. cbn. rewrite Hs by (left; reflexivity).
  rewrite G; [lia|]. intros; apply Hs; right; assumption.
Qed.
Lemma wordsf_words l : Forall (fun w => w <> [] /\ ~ In sp w) (wordsf l).
Proof.
  unfold wordsf. assert (H := split_byte_no sp l). induction H as [|w ws Hw H IH]; [constructor|].
  cbn [filter]. destruct w; cbn [nonempty]; [exact IH|]. constructor; [|exact IH]. split; [discriminate|exact Hw].
Qed.
Lemma plain_nFields_row l : Forall plain (wordsf l) -> nFields l = List.length (wordsf l).
Proof.
  intros Hp. rewrite nFields_wordsf. assert (H := wordsf_words l). induction H as [|w ws [H1 H2] H IH]; [reflexivity|].
  inversion Hp; subst. cbn [map list_sum fold_right List.length]. unfold list_sum in IH. rewrite IH by assumption.
  rewrite plain_nFields by assumption. reflexivity.
Qed.
