(** * Output of FormatCols read back by Parse (C09). *)
From Verif Require Import GoBase GoBaseFacts ConfigModel ConfigSpec ConfigProofs ConfigProofs2 ConfigProofs3 CatalogModel CatalogSpec CatalogProofs CatalogProofs2 ListFacts.
Local Open Scope list_scope.

(** A printed word: what a formatter may produce so that it can be read back. *)
Definition word (s : bytes) : Prop := s <> [] /\ ~ In sp s /\ ~ In nl s /\ ~ In "#"%char s /\ plain s.

Lemma itoa_word z : word (itoa z).
Proof.
  destruct (itoa_chars z) as [H1 H2]. rewrite Forall_forall in H2.
  assert (G : forall a, In a (itoa z) -> a <> sp /\ a <> nl /\ a <> "#"%char /\ ~ (9 <= nat_of_ascii a <= 13)).
  { intros a Ha. specialize (H2 a Ha). unfold is_digit in H2.
    repeat split; try (intros ->; destruct H2 as [H2|H2]; [cbn in H2; lia|discriminate]).
    destruct H2 as [H2| ->]; [lia|cbn; lia]. }
  repeat split; [exact H1| | | |]; try (intros H; apply G in H; tauto).
  apply Forall_forall. intros a Ha. apply G in Ha. tauto.
Qed.

Lemma wordsf_app_sp x y : wordsf (x ++ sp :: y) = wordsf x ++ wordsf y.
Proof. unfold wordsf. rewrite split_byte_app_gen, filter_app. reflexivity. Qed.

Lemma wordsf_join ts : wordsf (join (lit " ") ts) = flat_map wordsf ts.
Proof.
  induction ts as [|t ts IH]; [reflexivity|].
  destruct ts as [|t' ts]; [cbn; rewrite app_nil_r; reflexivity|].
  rewrite join_cons by discriminate. cbn [flat_map]. 
  change (lit " " ++ join (lit " ") (t' :: ts)) with (sp :: join (lit " ") (t' :: ts)).
  rewrite wordsf_app_sp, IH. reflexivity.
Qed.

Definition padded (s p : bytes) : Prop := exists n, p = repeat sp n ++ s.

Lemma padded_words s p : word s -> padded s p -> wordsf p = [s].
Proof. intros (H1 & H2 & _) (n & ->). rewrite wordsf_reps. apply wordsf_word; assumption. Qed.

Lemma formatCol_spec {A} (fmt : A -> bytes) col : col <> [] ->
  exists fc, formatCol fmt col = Some fc /\ Forall2 padded (map fmt col) fc.
Proof.
  destruct col as [|a col]; [congruence|]. intros _. unfold formatCol.
  eexists. split; [reflexivity|]. remember (fold_left _ _ _) as w. clear Heqw.
  assert (G : forall l, Forall2 padded (map fmt l) (map (fun x => padLeft w (fmt x)) l)).
  { induction l as [|x l IH]; cbn; constructor; [|exact IH]. eexists. reflexivity. }
  apply (G (a :: col)).
Qed.

Lemma formatCols1_spec {A} (fmt : A -> bytes) h : 0 < h -> forall cols hp,
  Forall (fun c => List.length c = h) cols -> hp = None \/ hp = Some h ->
  exists fcs, formatCols1 fmt hp cols = Some (fcs, match cols with [] => hp | _ => Some h end)
              /\ Forall2 (Forall2 padded) (map (map fmt) cols) fcs.
Proof.
  intros Hh. induction cols as [|c cols IH]; intros hp Hc Hhp; cbn [formatCols1 map].
  - exists []. split; [reflexivity|constructor].
  - inversion Hc as [|? ? Hc1 Hc2]; subst.
    destruct (formatCol_spec fmt c) as (fc & E1 & E2); [destruct c; [cbn in Hh; lia|discriminate]|].
    rewrite E1. destruct (IH (Some (List.length c)) Hc2) as (fcs & E3 & E4); [right; reflexivity|].
    assert (Es : match cols with [] => Some (List.length c) | _ => Some (List.length c) end = Some (List.length c)) by (destruct cols; reflexivity).
    rewrite Es in E3.
    exists (fc :: fcs). split; [|constructor; assumption].
    destruct Hhp as [->| ->].
    + rewrite E3. reflexivity.
    + rewrite Nat.eqb_refl, E3. reflexivity.
Qed.

Lemma orderCols_spec (cols fcs : list (list bytes)) : Forall2 (Forall2 padded) cols fcs -> forall order,
  Forall (fun k => (0 <= k < Z.of_nat (List.length cols))%Z) order ->
  exists oc, orderCols fcs order = Some oc /\
    Forall2 (Forall2 padded) (map (fun k => nth (Z.to_nat k) cols []) order) oc.
Proof.
  intros HF. induction order as [|k order IH]; intros Ho; cbn [orderCols map].
  - exists []. split; [reflexivity|constructor].
  - inversion Ho as [|? ? Hk Ho']; subst. destruct (IH Ho') as (oc & E1 & E2). rewrite E1.
    apply Forall2_nth in HF. destruct HF as [HL HR].
    assert (Hlt : Z.to_nat k < List.length cols) by lia.
    unfold nthZ. destruct (Z.ltb_spec k 0); [lia|].
    destruct (nth_error fcs (Z.to_nat k)) as [fc|] eqn:Ef.
    2:{ apply nth_error_None in Ef. lia. }
    exists (fc :: oc). split; [reflexivity|]. constructor; [|exact E2].
    eapply HR; [|exact Ef]. apply nth_error_nth'. exact Hlt.
Qed.

Lemma fillTokens_store i : forall oc tokens j, Forall (fun c => i < List.length c) oc ->
  fillTokens tokens oc i j = store tokens j (map (fun c => nth i c []) oc).
Proof.
  induction oc as [|c oc IH]; intros tokens j H; cbn [fillTokens store map]; [reflexivity|].
  inversion H; subst. rewrite (nth_error_nth' c []) by assumption.
  destruct (upd tokens j (nth i c [])); [apply IH; assumption|reflexivity].
Qed.

Lemma formatRows_spec (oc : list (list bytes)) h r : Forall (fun c => List.length c = h) oc -> forall k i tokens,
  i + k <= h -> List.length tokens = List.length oc + r -> skipn (List.length oc) tokens = repeat [] r ->
  formatRows tokens oc i k =
  Some (map (fun i' => join (lit " ") (map (fun c => nth i' c []) oc ++ repeat [] r)) (seq i k)).
Proof.
  intros Hoc. induction k as [|k IH]; intros i tokens Hi HL HS; cbn [formatRows seq map]; [reflexivity|].
  rewrite fillTokens_store.
  2:{ eapply Forall_impl; [|exact Hoc]. intros c Hc. cbn in Hc. lia. }
  rewrite store_ok by (rewrite map_length; cbn; lia). cbn [firstn app Nat.add]. rewrite map_length, HS.
  rewrite IH; [reflexivity|lia| |].
  - rewrite app_length, map_length, repeat_length. reflexivity.
  - rewrite skipn_app, map_length, Nat.sub_diag. rewrite skipn_all2 by (rewrite map_length; lia). reflexivity.
Qed.

Lemma flat_map_words ss ps : Forall word ss -> Forall2 padded ss ps -> flat_map wordsf ps = ss.
Proof.
  intros Hs H. induction H as [|s p ss ps Hp H IH]; [reflexivity|]. inversion Hs; subst. cbn.
  rewrite (padded_words s p) by assumption. cbn. f_equal. apply IH. assumption.
Qed.

Lemma flat_map_repeat_nil r : flat_map wordsf (repeat [] r) = [].
Proof. induction r; [reflexivity|exact IHr]. Qed.

Lemma padded_no c s p : c <> sp -> ~ In c s -> padded s p -> ~ In c p.
Proof.
  intros Hc Hs (n & ->) H. apply in_app_iff in H. destruct H as [H|H]; [|tauto].
  apply repeat_spec in H. congruence.
Qed.

Lemma join_no c ts : c <> sp -> Forall (fun t => ~ In c t) ts -> ~ In c (join (lit " ") ts).
Proof.
  intros Hc H. induction H as [|t ts Ht H IH]; [cbn; tauto|]. destruct ts as [|t' ts]; [exact Ht|].
  rewrite join_cons by discriminate. change (lit " ") with [sp]. rewrite !in_app_iff. cbn [In].
  intros [H1|[[H1|[]]|H1]]; [tauto|congruence|tauto].
Qed.

Lemma nth_padded i (cs oc : list (list bytes)) h : i < h ->
  Forall (fun c => List.length c = h) cs ->
  Forall2 (Forall2 padded) cs oc -> Forall2 padded (map (fun c => nth i c []) cs) (map (fun c => nth i c []) oc).
Proof.
  intros Hi Hc H. induction H as [|c d cs oc Hcd H IH]; cbn; constructor.
  - inversion Hc; subst. apply Forall2_nth in Hcd. destruct Hcd as [HL HR].
    apply (HR i); apply nth_error_nth'; lia.
  - inversion Hc; subst. apply IH. assumption.
Qed.

Lemma lines_of_print ls : Forall (fun l => ~ In nl l) ls -> lines_of (printLines ls) (ls ++ [[]]).
Proof.
  intros H. split; [destruct ls; discriminate|]. split.
  - apply Forall_app. split; [exact H|]. repeat constructor. intros [].
  - unfold printLines. clear H. induction ls as [|l ls IH]; [reflexivity|]. cbn [flat_map app].
    rewrite join_cons by (destruct ls; discriminate). rewrite IH, <- app_assoc. reflexivity.
Qed.

Lemma data_rows_app a b ra rb : data_rows a ra -> data_rows b rb -> data_rows (a ++ b) (ra ++ rb).
Proof. intros Ha Hb. induction Ha; cbn; [exact Hb|constructor; assumption|constructor; assumption]. Qed.

Lemma data_rows_blank hs : Forall (fun l => line_words l []) hs -> data_rows hs [].
Proof. induction 1; constructor; assumption. Qed.

Section RT.
Variable F : Type.
Variable parseFloat : bytes -> option F.
Variable fmtFloat : F -> bytes.
Variable reread : F -> F.

Definition cells (intCols : list (list Z)) (floatCols : list (list F)) : list (list bytes) :=
  map (map itoa) intCols ++ map (map fmtFloat) floatCols.

Definition out_row (cs : list (list bytes)) (order : list Z) (i : nat) : list bytes :=
  map (fun c => nth i c []) (map (fun k => nth (Z.to_nat k) cs []) order).

Lemma FormatCols_lines intCols floatCols order h :
  Forall (fun c => List.length c = h) intCols -> Forall (fun c => List.length c = h) floatCols ->
  Forall (Forall (fun x => word (fmtFloat x))) floatCols ->
  List.length order <= List.length intCols + List.length floatCols -> order <> [] ->
  Forall (fun k => (0 <= k < Z.of_nat (List.length intCols + List.length floatCols))%Z) order ->
  exists lines, FormatCols F fmtFloat intCols floatCols order = Some lines /\
    Forall (fun l => ~ In nl l) lines /\
    data_rows lines (map (out_row (cells intCols floatCols) order) (seq 0 h)) /\
    Forall (Forall word) (map (out_row (cells intCols floatCols) order) (seq 0 h)).
Proof.
  intros HI HF HW HO HO0 HR. unfold FormatCols.
  destruct (Nat.eq_dec h 0) as [->|Hh].
  { assert (Hcond : (Nat.eqb (List.length intCols) 0 && Nat.eqb (List.length floatCols) 0) || hd_empty intCols || hd_empty floatCols = true).
    { destruct intCols as [|c ?].
      - destruct floatCols as [|c ?]; [reflexivity|]. inversion HF; subst. destruct c; [reflexivity|discriminate].
      - inversion HI; subst. destruct c; [reflexivity|discriminate]. }
    rewrite Hcond. exists []. split; [reflexivity|]. split; [constructor|]. split; constructor. }
  assert (Hcond : (Nat.eqb (List.length intCols) 0 && Nat.eqb (List.length floatCols) 0) || hd_empty intCols || hd_empty floatCols = false).
  { destruct order as [|k order]; [congruence|]. inversion HR as [|? ? Hk _]; subst.
    destruct intCols as [|[|? ?] ?].
    - destruct floatCols as [|[|? ?] ?]; [cbn in Hk; lia| |reflexivity]. inversion HF; subst. cbn in Hh. lia.
    - inversion HI; subst. cbn in Hh. lia.
    - destruct floatCols as [|[|? ?] ?]; [reflexivity| |reflexivity]. inversion HF; subst. cbn in Hh. lia. }
  rewrite Hcond.
  destruct (formatCols1_spec itoa h ltac:(lia) intCols None HI) as (fi & E1 & E2); [left; reflexivity|]. rewrite E1.
  destruct (formatCols1_spec fmtFloat h ltac:(lia) floatCols (match intCols with [] => None | _ => Some h end) HF) as (ff & E3 & E4).
  { destruct intCols; [left|right]; reflexivity. }
  rewrite E3.
  assert (EC : Forall2 (Forall2 padded) (cells intCols floatCols) (fi ++ ff)) by (apply Forall2_app; assumption).
  assert (LC : List.length (cells intCols floatCols) = List.length intCols + List.length floatCols).
  { unfold cells. rewrite app_length, !map_length. reflexivity. }
  destruct (orderCols_spec _ _ EC order) as (oc & E5 & E6).
  { rewrite LC. exact HR. }
  rewrite E5.
  assert (EH : match match floatCols with [] => match intCols with [] => None | _ => Some h end | _ => Some h end with Some k => k | None => 0 end = h).
  { destruct floatCols; [|reflexivity]. destruct intCols; [|reflexivity]. cbn in HO.
    destruct order; [congruence|cbn in HO; lia]. }
  rewrite EH.
  assert (Hcell : Forall (fun c => List.length c = h /\ Forall word c) (cells intCols floatCols)).
  { apply Forall_app. split; apply Forall_map.
    - eapply Forall_impl; [|exact HI]. intros c Hc. rewrite map_length. split; [exact Hc|].
      apply Forall_map. apply Forall_forall. intros z _. apply itoa_word.
    - rewrite Forall_forall in *. intros c Hc. rewrite map_length. split; [apply HF; exact Hc|].
      apply Forall_map. apply HW. exact Hc. }
  assert (Hsel : Forall (fun c => List.length c = h /\ Forall word c) (map (fun k => nth (Z.to_nat k) (cells intCols floatCols) []) order)).
  { apply Forall_map. eapply Forall_impl; [|exact HR]. intros k Hk. cbn in Hk.
    rewrite Forall_forall in Hcell. apply Hcell. apply nth_In. lia. }
  assert (Lsel : List.length (map (fun k => nth (Z.to_nat k) (cells intCols floatCols) []) order) = List.length oc).
  { apply Forall2_length in E6. exact E6. }
  rewrite map_length in Lsel.
  assert (Hoc : Forall (fun c => List.length c = h) oc).
  { clear - E6 Hsel. induction E6 as [|c d cs oc Hcd E6 IH]; [constructor|]. inversion Hsel as [|? ? [H1 H2] H3]; subst.
    constructor; [|apply IH; assumption]. apply Forall2_length in Hcd. congruence. }
  remember (List.length intCols + List.length floatCols - List.length oc) as r.
  rewrite (formatRows_spec oc h r Hoc).
  2: lia.
  2:{ rewrite repeat_length. lia. }
  2:{ replace (List.length intCols + List.length floatCols) with (List.length oc + r) by lia.
      rewrite repeat_app, skipn_app, repeat_length, Nat.sub_diag. rewrite skipn_all2 by (rewrite repeat_length; lia). reflexivity. }
  eexists. split; [reflexivity|].
  assert (Hrow : forall i, i < h ->
     let ts := map (fun c => nth i c []) oc ++ repeat [] r in
     ~ In nl (join (lit " ") ts) /\ line_words (join (lit " ") ts) (out_row (cells intCols floatCols) order i)
     /\ Forall word (out_row (cells intCols floatCols) order i)).
  { intros i Hi ts.
    assert (Hp : Forall2 padded (out_row (cells intCols floatCols) order i) (map (fun c => nth i c []) oc)).
    { apply (nth_padded i _ _ h Hi); [|exact E6]. eapply Forall_impl; [|exact Hsel]. cbn; tauto. }
    assert (Hww : Forall word (out_row (cells intCols floatCols) order i)).
    { unfold out_row. apply Forall_map. eapply Forall_impl; [|exact Hsel]. intros c [Hc1 Hc2]. cbn.
      rewrite Forall_forall in Hc2. apply Hc2. apply nth_In. lia. }
    assert (Hno : forall c, c <> sp -> (forall s, word s -> ~ In c s) -> ~ In c (join (lit " ") ts)).
    { intros c Hc Hwc. apply join_no; [exact Hc|]. apply Forall_app. split.
      - clear - Hp Hww Hc Hwc. induction Hp as [|s p ss ps Hsp Hp IH]; constructor.
        + inversion Hww; subst. eapply padded_no; [exact Hc| |exact Hsp]. apply Hwc. assumption.
        + inversion Hww; subst. apply IH. assumption.
      - apply Forall_forall. intros x Hx. apply repeat_spec in Hx. subst. intros []. }
    split; [|split; [|exact Hww]].
    - apply Hno; [discriminate|]. unfold word. tauto.
    - apply line_words_iff. rewrite cutComment_none.
      2:{ apply Hno; [discriminate|]. unfold word. tauto. }
      rewrite wordsf_join. unfold ts. rewrite flat_map_app, flat_map_repeat_nil, app_nil_r.
      apply flat_map_words; assumption. }
  assert (Hne : forall i, out_row (cells intCols floatCols) order i <> []).
  { intros i. unfold out_row. destruct order; [congruence|discriminate]. }
  assert (Hseq : Forall (fun i => i < h) (seq 0 h)) by (apply Forall_forall; intros i Hin; apply in_seq in Hin; lia).
  split; [|split].
  - apply Forall_map. eapply Forall_impl; [|exact Hseq]. intros i Hi. apply (Hrow i Hi).
  - clear - Hrow Hne Hseq. induction Hseq as [|i l Hi Hl IH]; cbn; constructor; [apply (Hrow i Hi)|apply Hne|exact IH].
  - apply Forall_map. eapply Forall_impl; [|exact Hseq]. intros i Hi. apply (Hrow i Hi).
Qed.

(** Position [p] of the output holds column [k]. *)
Definition holds {A} (order : list Z) (shift : nat) (cols : list (list A)) (p : nat) (c : list A) : Prop :=
  exists k, nth_error order p = Some (Z.of_nat (shift + k)) /\ nth_error cols k = Some c.

Lemma out_row_nth cs order i p k c :
  nth_error order p = Some (Z.of_nat k) -> nth_error cs k = Some c ->
  nth_error (out_row cs order i) p = Some (nth i c []).
Proof.
  intros H1 H2. unfold out_row. rewrite map_map, nth_error_map, H1. cbn. rewrite Nat2Z.id.
  rewrite (nth_error_nth _ _ _ H2). reflexivity.
Qed.

Lemma column_roundtrip {A B} (conv : bytes -> B -> Prop) (fmt : A -> bytes) (f : A -> B) cs order h p k (c : list A) :
  nth_error order p = Some (Z.of_nat k) -> nth_error cs k = Some (map fmt c) -> List.length c = h ->
  Forall (fun a => conv (fmt a) (f a)) c ->
  column_is conv (map (out_row cs order) (seq 0 h)) (Z.of_nat p) (map f c).
Proof.
  intros H1 H2 H3 H4. unfold column_is. apply Forall2_nth. rewrite !map_length, seq_length. split; [congruence|].
  intros i row v Hr Hv. rewrite nth_error_map in Hr, Hv.
  destruct (nth_error c i) as [a|] eqn:Ea; [|discriminate]. cbn in Hv. inversion Hv; subst v.
  assert (Hi : i < List.length c) by (apply nth_error_Some; congruence).
  rewrite nth_error_seq in Hr by lia. cbn in Hr. inversion Hr; subst row.
  exists (fmt a). split; [lia|]. split.
  - rewrite Nat2Z.id. rewrite (out_row_nth _ _ _ _ _ _ H1 H2). f_equal.
    apply nth_error_nth. rewrite nth_error_map, Ea. reflexivity.
  - rewrite Forall_forall in H4. apply H4. eapply nth_error_In; eassumption.
Qed.

Theorem FormatCols_roundtrip hs intCols floatCols order h :
  Forall (fun c => List.length c = h /\ Forall (fun z => (int64_min <= z <= int64_max)%Z) c) intCols ->
  Forall (fun c => List.length c = h /\ Forall (fun x => word (fmtFloat x) /\ parseFloat (fmtFloat x) = Some (reread x)) c) floatCols ->
  List.length order <= List.length intCols + List.length floatCols -> order <> [] ->
  Forall (fun k => (0 <= k < Z.of_nat (List.length intCols + List.length floatCols))%Z) order ->
  Forall (fun l => ~ In nl l /\ line_words l []) hs ->
  exists lines, FormatCols F fmtFloat intCols floatCols order = Some lines /\
  forall ps qs ics fcs,
    Forall2 (holds order 0 intCols) ps ics -> Forall2 (holds order (List.length intCols) floatCols) qs fcs ->
    CatalogModel.Parse F parseFloat (printLines (hs ++ lines)) (map Z.of_nat ps) (map Z.of_nat qs)
    = Ok (ics, map (map reread) fcs).
Proof.
  intros HI HF HO HO0 HR HH.
  destruct (FormatCols_lines intCols floatCols order h) as (lines & E & Hnl & Hd & Hwd); try assumption.
  { eapply Forall_impl; [|exact HI]. cbn; tauto. }
  { eapply Forall_impl; [|exact HF]. cbn; tauto. }
  { eapply Forall_impl; [|exact HF]. cbn. intros c [_ Hc]. eapply Forall_impl; [|exact Hc]. cbn; tauto. }
  exists lines. split; [exact E|]. intros ps qs ics fcs HP HQ.
  remember (map (out_row (cells intCols floatCols) order) (seq 0 h)) as rows.
  apply (Parse_complete F parseFloat) with (ls := (hs ++ lines) ++ [[]]) (rows := rows).
  - apply lines_of_print. apply Forall_app. split; [|exact Hnl]. eapply Forall_impl; [|exact HH]. cbn; tauto.
  - rewrite <- (app_nil_r rows). apply data_rows_app.
    + change rows with ([] ++ rows). apply data_rows_app; [|exact Hd]. apply data_rows_blank.
      eapply Forall_impl; [|exact HH]. cbn; tauto.
    + apply data_rows_blank. repeat constructor. apply line_words_iff. reflexivity.
  - unfold plain_first. destruct rows as [|r0 rows']; [exact I|]. inversion Hwd; subst.
    eapply Forall_impl; [|eassumption]. unfold word. cbn; tauto.
  - split; [|split].
    + exists (List.length order). subst rows. apply Forall_map. apply Forall_forall. intros i _. unfold out_row. rewrite !map_length. reflexivity.
    + subst rows. clear - HP HI. induction HP as [|p c ps ics (k & H1 & H2) HP IH]; cbn; constructor; [|exact IH].
      rewrite Forall_forall in HI. destruct (HI c (nth_error_In _ _ H2)) as [HL Hz].
      rewrite <- (map_id c). apply column_roundtrip with (fmt := itoa) (k := k) ; [exact H1| |exact HL|].
      * unfold cells. rewrite nth_error_app1.
        { rewrite nth_error_map, H2. cbn. reflexivity. }
        { rewrite map_length. apply nth_error_Some. congruence. }
      * eapply Forall_impl; [|exact Hz]. cbn. intros z Hz'. apply atoi_spec. apply atoi_itoa. exact Hz'.
    + subst rows. clear - HQ HF. induction HQ as [|p c ps fcs (k & H1 & H2) HQ IH]; cbn; constructor; [|exact IH].
      rewrite Forall_forall in HF. destruct (HF c (nth_error_In _ _ H2)) as [HL Hz].
      apply column_roundtrip with (fmt := fmtFloat) (k := List.length intCols + k); [exact H1| |exact HL|].
      * unfold cells. rewrite nth_error_app2 by (rewrite map_length; lia). rewrite map_length.
        replace (_ + k - _) with k by lia. rewrite nth_error_map, H2. reflexivity.
      * eapply Forall_impl; [|exact Hz]. cbn; tauto.
Qed.
End RT.

(** The header line is a comment, whatever the names (without newlines). *)
Lemma labelCols_no_nl : forall cols n, Forall (fun c => ~ In nl (fst c)) cols -> Forall (fun l => ~ In nl l) (labelCols n cols).
Proof.
  assert (HI : forall z, ~ In nl (itoa z)) by (intros z; apply (itoa_word z)).
  induction cols as [|[nm sz] cols IH]; intros n H; cbn [labelCols]; constructor.
  - inversion H; subst. cbn in H2. destruct (sz =? 1)%Z; rewrite !in_app_iff; intros G.
    + destruct G as [G|[[G|[]]|[G|[G|[]]]]]; try discriminate; [tauto|eapply HI; exact G].
    + destruct G as [G|[[G|[]]|[G|[[G|[]]|[G|[G|[]]]]]]]; try discriminate; [tauto|eapply HI; exact G|eapply HI; exact G].
  - inversion H; subst. apply IH. assumption.
Qed.

Lemma orderNames_In names sizes : forall order cols, orderNames names sizes order = Some cols ->
  Forall (fun c => In (fst c) names) cols.
Proof.
  induction order as [|k order IH]; intros cols; cbn [orderNames]; [intros [= <-]; constructor|].
  destruct (k >=? _)%Z; [discriminate|]. destruct (nthZ names k) as [nm|] eqn:En; [|discriminate].
  destruct (nthZ sizes k) as [sz|]; [|discriminate].
  destruct (orderNames names sizes order) as [c|]; cbn; [|discriminate]. intros [= <-].
  constructor; [|apply IH; reflexivity]. cbn. apply nthZ_spec in En. eapply nth_error_In. apply En.
Qed.

Theorem CommentString_is_comment intNames floatNames order sizes s :
  Forall (fun n => ~ In nl n) (intNames ++ floatNames) ->
  CommentString intNames floatNames order sizes = Some s -> ~ In nl s /\ line_words s [].
Proof.
  intros Hn. unfold CommentString. destruct (orderNames _ sizes order) as [cols|] eqn:E; cbn [option_map]; [|discriminate].
  intros Hs. assert (Es : s = join (lit " ") (lit "# Column contents:" :: labelCols 0 cols)) by congruence. clear Hs. subst s. split.
  - apply (join_no nl); [discriminate|]. constructor.
    + cbn. intros H. repeat (destruct H as [H|H]; [discriminate|]). exact H.
    + apply labelCols_no_nl. apply orderNames_In in E. rewrite Forall_forall in *. intros c Hc. apply Hn. apply E. exact Hc.
  - exists [], (join (lit " ") (lit "# Column contents:" :: labelCols 0 cols)). split; [reflexivity|].
    split; [|split; [intros []|apply (wo_blank 0)]].
    right. destruct (labelCols 0 cols); eexists; reflexivity.
Qed.
