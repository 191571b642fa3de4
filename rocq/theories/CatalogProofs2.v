(** * Parse on rows of words; exactness (C08) and error behaviour (C10). *)
From Verif Require Import GoBase GoBaseFacts ConfigModel ConfigSpec ConfigProofs ConfigProofs2 ConfigProofs3 CatalogModel CatalogSpec CatalogProofs ListFacts.
Local Open Scope list_scope.

Section P2.
Variable F : Type.
Variable parseFloat : bytes -> option F.
Notation Parse := (CatalogModel.Parse F parseFloat).
Notation parseRows := (CatalogModel.parseRows F parseFloat).

Fixpoint rparse (rows : list (list bytes)) (w : nat) (ic fc : list Z) : res (list (list Z * list F)) :=
  match rows with
  | [] => Ok []
  | r :: rs =>
      if w <? List.length r then Panic
      else if negb (Nat.eqb (List.length r) w) then Err
      else bindr (convWords atoi r ic) (fun is_ =>
           bindr (convWords parseFloat r fc) (fun fs =>
           bindr (rparse rs w ic fc) (fun out => Ok ((is_, fs) :: out))))
  end.

Lemma bindr_ext {A B} (r : res A) (f g : A -> res B) : (forall a, f a = g a) -> bindr r f = bindr r g.
Proof. intros H. destruct r; cbn; auto. Qed.

Lemma parseRows_rparse : forall lines buf ic fc,
  parseRows lines sp buf ic fc = rparse (map wordsf lines) (List.length buf) ic fc.
Proof.
  induction lines as [|l lines IH]; intros buf ic fc; [reflexivity|].
  cbn [CatalogModel.parseRows map rparse]. destruct (fields_spec l buf) as [H1 H2].
  destruct (Nat.ltb_spec (List.length buf) (List.length (wordsf l))) as [Hlt|Hge].
  - rewrite H2 by exact Hlt. reflexivity.
  - rewrite H1 by lia. destruct (Nat.eqb_spec (List.length (wordsf l)) (List.length buf)) as [E|E]; [|reflexivity].
    cbn [negb]. apply bindr_ext. intros is_. apply bindr_ext. intros fs. rewrite IH.
    replace (List.length (wordsf l ++ skipn (List.length (wordsf l)) buf)) with (List.length buf); [reflexivity|].
    rewrite app_length, skipn_length. lia.
Qed.

Definition mkcols (ic fc : list Z) (rows : list (list Z * list F)) : list (list Z) * list (list F) :=
  (map (fun j => column j (map fst rows)) (seq 0 (List.length ic)),
   map (fun j => column j (map snd rows)) (seq 0 (List.length fc))).

Definition rtable (rows : list (list bytes)) (ic fc : list Z) : res (list (list Z) * list (list F)) :=
  match rows with
  | [] => Ok (repeat [] (List.length ic), repeat [] (List.length fc))
  | r0 :: _ =>
      let w := list_sum (map nFields r0) in
      if (maxCol (ic ++ fc) >=? Z.of_nat w)%Z then Err
      else bindr (rparse rows w ic fc) (fun out => Ok (mkcols ic fc out))
  end.

Lemma Parse_rtable text ic fc : Parse text ic fc = rtable (rowsf (split_byte nl text)) ic fc.
Proof.
  unfold Parse. rewrite split_spec. rewrite uncomment_spec. rewrite <- trimLines_rows.
  unfold parse, rtable. destruct (trimLines (map cutComment (split_byte nl text)) sp) as [|l0 ls] eqn:E; [reflexivity|].
  cbn [map]. rewrite <- nFields_wordsf. rewrite repeat_length.
  destruct (maxCol (ic ++ fc) >=? Z.of_nat (nFields l0))%Z; [reflexivity|].
  rewrite parseRows_rparse. cbn [map]. rewrite repeat_length. reflexivity.
Qed.

(** Two texts with the same data rows parse alike, whatever their comments, blank lines and spacing. *)
Theorem Parse_layout t1 t2 ls1 ls2 rows ic fc :
  lines_of t1 ls1 -> lines_of t2 ls2 -> data_rows ls1 rows -> data_rows ls2 rows ->
  Parse t1 ic fc = Parse t2 ic fc.
Proof.
  intros L1 L2 D1 D2. apply lines_of_split in L1. apply lines_of_split in L2.
  apply data_rows_iff in D1. apply data_rows_iff in D2. rewrite !Parse_rtable. congruence.
Qed.

(** ** Conversion of one row *)
Lemma nthZ_spec {A} (l : list A) i a : nthZ l i = Some a <-> (0 <= i)%Z /\ nth_error l (Z.to_nat i) = Some a.
Proof.
  unfold nthZ. destruct (Z.ltb_spec i 0); [split; [discriminate|lia]|]. split; [intros; split; [lia|assumption]|tauto].
Qed.

Definition picks {A} (conv : bytes -> option A) (row : list bytes) (i : Z) (v : A) : Prop :=
  exists w, (0 <= i)%Z /\ nth_error row (Z.to_nat i) = Some w /\ conv w = Some v.

Lemma convWords_ok {A} (conv : bytes -> option A) row : forall idxs vs,
  convWords conv row idxs = Ok vs <-> Forall2 (picks conv row) idxs vs.
Proof.
  induction idxs as [|i idxs IH]; intros vs; cbn [convWords].
  - split; [intros [= <-]; constructor|inversion 1; reflexivity].
  - split.
    + destruct (nthZ row i) as [w|] eqn:Ew; [|discriminate]. destruct (conv w) as [a|] eqn:Ea; [|discriminate].
      destruct (convWords conv row idxs) as [l| |] eqn:El; cbn; try discriminate. intros [= <-].
      constructor; [|apply IH; reflexivity]. exists w. apply nthZ_spec in Ew. tauto.
    + inversion 1 as [|? ? ? vs' (w & H1 & H2 & H3) Hr]; subst.
      assert (Ew : nthZ row i = Some w) by (apply nthZ_spec; tauto). rewrite Ew, H3.
      apply IH in Hr. rewrite Hr. reflexivity.
Qed.

Lemma convWords_panic {A} (conv : bytes -> option A) row : forall idxs,
  convWords conv row idxs = Panic -> exists i, In i idxs /\ nthZ row i = None.
Proof.
  induction idxs as [|i idxs IH]; cbn [convWords]; [discriminate|].
  destruct (nthZ row i) as [w|] eqn:Ew; [|intros _; exists i; split; [left; reflexivity|exact Ew]].
  destruct (conv w); [|discriminate]. destruct (convWords conv row idxs) as [l| |]; cbn; try discriminate.
  intros _. destruct IH as (k & H1 & H2); [reflexivity|]. exists k. split; [right; exact H1|exact H2].
Qed.

Lemma rparse_ok : forall rows w ic fc out,
  rparse rows w ic fc = Ok out <->
  Forall (fun r => List.length r = w) rows /\
  Forall2 (fun r io => Forall2 (picks atoi r) ic (fst io) /\ Forall2 (picks parseFloat r) fc (snd io)) rows out.
Proof.
  induction rows as [|r rows IH]; intros w ic fc out; cbn [rparse].
  - split; [intros [= <-]; split; constructor|intros [_ H]; inversion H; reflexivity].
  - destruct (Nat.ltb_spec w (List.length r)).
    { split; [discriminate|]. intros [H1 _]. inversion H1; subst. lia. }
    destruct (Nat.eqb_spec (List.length r) w) as [Ew|Ew]; cbn [negb].
    2:{ split; [discriminate|]. intros [H1 _]. inversion H1; subst. congruence. }
    split.
    + destruct (convWords atoi r ic) as [is_| |] eqn:E1; cbn [bindr]; try discriminate.
      destruct (convWords parseFloat r fc) as [fs| |] eqn:E2; cbn [bindr]; try discriminate.
      destruct (rparse rows w ic fc) as [o| |] eqn:E3; cbn [bindr]; try discriminate.
      intros [= <-]. apply IH in E3. destruct E3 as [E3 E4]. split; [constructor; assumption|].
      constructor; [|assumption]. cbn. split; apply convWords_ok; assumption.
    + intros [H1 H2]. inversion H1; subst. inversion H2 as [|? [is_ fs] ? o [Ha Hb] Ho]; subst. cbn in Ha, Hb.
      apply convWords_ok in Ha. apply convWords_ok in Hb. rewrite Ha, Hb. cbn [bindr].
      rewrite (proj2 (IH _ ic fc o)); [reflexivity|]. split; assumption.
Qed.

Lemma Forall2_nth {A B} (R : A -> B -> Prop) l1 l2 :
  Forall2 R l1 l2 <-> List.length l1 = List.length l2 /\
    forall i a b, nth_error l1 i = Some a -> nth_error l2 i = Some b -> R a b.
Proof.
  split.
  - induction 1 as [|x y l1 l2 H H0 [IH1 IH2]]; [split; [reflexivity|intros [|i]; discriminate]|].
    split; [cbn; lia|]. intros [|i] a b; cbn; [intros [= <-] [= <-]; exact H|apply IH2].
  - revert l2. induction l1 as [|x l1 IH]; intros [|y l2] [H1 H2]; cbn in *; try discriminate; constructor.
    + apply (H2 0); reflexivity.
    + apply IH. split; [lia|]. intros i. apply (H2 (S i)).
Qed.

Lemma column_nth {A} j (outs : list (list A)) :
  Forall (fun o => j < List.length o) outs ->
  List.length (column j outs) = List.length outs /\
  forall i o, nth_error outs i = Some o -> nth_error (column j outs) i = nth_error o j.
Proof.
  induction 1 as [|o outs Ho H [IH1 IH2]]; [split; [reflexivity|intros [|i]; discriminate]|].
  unfold column in *. cbn [flat_map]. destruct (nth_error o j) as [a|] eqn:E.
  2:{ apply nth_error_None in E. lia. }
  split; [cbn; lia|]. intros [|i] o' H'; cbn in *; [inversion H'; subst; congruence|apply IH2; exact H'].
Qed.

Lemma nth_error_seq j n : j < n -> nth_error (seq 0 n) j = Some j.
Proof.
  intros H. rewrite (nth_error_nth' _ 0) by (rewrite seq_length; exact H). rewrite seq_nth by exact H. reflexivity.
Qed.

(** From row-wise to column-wise: the collected columns are the columns of the rows. *)
Lemma columns_of_rows {A} (P : list bytes -> Z -> A -> Prop) rows outs idxs :
  Forall2 (fun r o => Forall2 (P r) idxs o) rows outs ->
  Forall2 (fun i col => Forall2 (fun r v => P r i v) rows col) idxs
          (map (fun j => column j outs) (seq 0 (List.length idxs))).
Proof.
  intros H. apply Forall2_nth in H. destruct H as [HL HR].
  apply Forall2_nth. split; [rewrite map_length, seq_length; reflexivity|].
  intros j i col Hi Hc.
  assert (Hj : j < List.length idxs) by (apply nth_error_Some; congruence).
  rewrite nth_error_map, nth_error_seq in Hc by exact Hj. cbn in Hc. inversion Hc; subst col.
  assert (Hall : Forall (fun o => j < List.length o) outs).
  { apply Forall_forall. intros o Ho. apply In_nth_error in Ho. destruct Ho as (k & Hk).
    destruct (nth_error rows k) as [r|] eqn:Er.
    - assert (G := HR _ _ _ Er Hk). apply Forall2_nth in G. lia.
    - assert (k < List.length outs) by (apply nth_error_Some; congruence). apply nth_error_None in Er. lia. }
  destruct (column_nth j outs Hall) as [C1 C2].
  apply Forall2_nth. split; [congruence|]. intros k r v Hr Hv.
  destruct (nth_error outs k) as [o|] eqn:Eo.
  - rewrite (C2 _ _ Eo) in Hv. assert (G := HR _ _ _ Hr Eo). apply Forall2_nth in G. destruct G as [_ G].
    eapply G; eassumption.
  - apply nth_error_None in Eo. assert (k < List.length rows) by (apply nth_error_Some; congruence). lia.
Qed.

(** From column-wise to row-wise. *)
Lemma rows_of_columns {A} (P : list bytes -> Z -> A -> Prop) : forall idxs rows cols,
  Forall2 (fun i col => Forall2 (fun r v => P r i v) rows col) idxs cols ->
  exists outs, Forall2 (fun r o => Forall2 (P r) idxs o) rows outs.
Proof.
  induction idxs as [|i idxs IH]; intros rows cols H; inversion H as [|? col ? cols' H1 H2]; subst.
  - exists (map (fun _ => []) rows). clear. induction rows; constructor; [constructor|assumption].
  - destruct (IH _ _ H2) as (outs & Ho). exists (map (fun p => fst p :: snd p) (combine col outs)).
    clear - H1 Ho. revert outs Ho. induction H1 as [|r v rows col Hv H1 IH]; intros outs Ho; inversion Ho; subst; cbn; constructor.
    + constructor; assumption.
    + apply IH. assumption.
Qed.

Lemma cols_unique {A} (P : list bytes -> Z -> A -> Prop) rows :
  (forall r i a b, P r i a -> P r i b -> a = b) -> forall idxs c1 c2,
  Forall2 (fun i col => Forall2 (fun r v => P r i v) rows col) idxs c1 ->
  Forall2 (fun i col => Forall2 (fun r v => P r i v) rows col) idxs c2 -> c1 = c2.
Proof.
  intros U idxs c1 c2 H1. revert c2. induction H1 as [|i col idxs c1 Hc H1 IH]; intros c2 H2; inversion H2; subst; [reflexivity|].
  f_equal; [|apply IH; assumption].
  clear - U Hc H3. revert Hc y H3. generalize col. induction rows as [|r rows IH]; intros col' H y H'; inversion H; inversion H'; subst; [reflexivity|].
  f_equal; [eapply U; eassumption|apply IH; assumption].
Qed.

Lemma maxCol_lt idxs (w : Z) : (0 <= w)%Z -> (maxCol idxs < w)%Z <-> Forall (fun i => (i < w)%Z) idxs.
Proof.
  intros Hw. unfold maxCol.
  assert (G : forall l m, (fold_left Z.max l m < w)%Z <-> (m < w)%Z /\ Forall (fun i => (i < w)%Z) l).
  { induction l as [|i l IH]; intros m; cbn [fold_left]; [split; [intros; split; [assumption|constructor]|tauto]|].
    rewrite IH. split.
    - intros [H1 H2]. split; [lia|]. constructor; [lia|assumption].
    - intros [H1 H2]. inversion H2; subst. split; [lia|assumption]. }
  rewrite G. split; [tauto|]. intros; split; [lia|assumption].
Qed.

Definition conv_is {A} (conv : bytes -> option A) := fun r i v => picks conv r i v.

Lemma column_is_atoi rows i col : column_is go_int rows i col <-> Forall2 (fun r v => picks atoi r i v) rows col.
Proof.
  unfold column_is. split; apply Forall2_impl; intros r v (w & H1 & H2 & H3); exists w; repeat split; try assumption; apply atoi_spec; assumption.
Qed.

Lemma picks_unique {A} (conv : bytes -> option A) r i a b : picks conv r i a -> picks conv r i b -> a = b.
Proof. intros (w & _ & H2 & H3) (w' & _ & H2' & H3'). congruence. Qed.

Lemma picks_width {A} (conv : bytes -> option A) r i v : picks conv r i v -> (i < Z.of_nat (List.length r))%Z.
Proof.
  intros (w & H1 & H2 & _). assert (Z.to_nat i < List.length r) by (apply nth_error_Some; congruence). lia.
Qed.

Lemma picks_widths {A} (conv : bytes -> option A) r idxs vs :
  Forall2 (picks conv r) idxs vs -> Forall (fun i => (i < Z.of_nat (List.length r))%Z) idxs.
Proof. induction 1 as [|i v idxs vs H H0 IH]; constructor; [eapply picks_width; eassumption|exact IH]. Qed.

Lemma mkcols_nil ic fc : mkcols ic fc [] = (repeat [] (List.length ic), repeat [] (List.length fc)).
Proof.
  unfold mkcols. cbn. f_equal.
  - generalize 0. induction (List.length ic); intros k; [reflexivity|]. cbn. f_equal. apply IHn.
  - generalize 0. induction (List.length fc); intros k; [reflexivity|]. cbn. f_equal. apply IHn.
Qed.

Lemma mkcols_table rows w ic fc out :
  Forall (fun r => List.length r = w) rows ->
  Forall2 (fun r io => Forall2 (picks atoi r) ic (fst io) /\ Forall2 (picks parseFloat r) fc (snd io)) rows out ->
  table_is parseFloat rows ic fc (fst (mkcols ic fc out)) (snd (mkcols ic fc out)).
Proof.
  intros Hw H. split; [exists w; exact Hw|].
  assert (HI : Forall2 (fun r o => Forall2 (picks atoi r) ic o) rows (map fst out)).
  { induction H as [|r o rows out [Ha Hb] H IH]; constructor; [exact Ha|]. inversion Hw; subst. apply IH. assumption. }
  assert (HF : Forall2 (fun r o => Forall2 (picks parseFloat r) fc o) rows (map snd out)).
  { clear HI. induction H as [|r o rows out [Ha Hb] H IH]; constructor; [exact Hb|]. inversion Hw; subst. apply IH. assumption. }
  apply (columns_of_rows (picks atoi)) in HI. apply (columns_of_rows (picks parseFloat)) in HF.
  unfold mkcols. cbn [fst snd]. split.
  - eapply Forall2_impl; [|exact HI]. intros i col Hc. apply column_is_atoi. exact Hc.
  - exact HF.
Qed.

Lemma table_unique rows ic fc ics fcs ics' fcs' :
  table_is parseFloat rows ic fc ics fcs -> table_is parseFloat rows ic fc ics' fcs' -> ics = ics' /\ fcs = fcs'.
Proof.
  intros (_ & H1 & H2) (_ & H1' & H2'). split.
  - apply (cols_unique (picks atoi) rows (fun r i a b => picks_unique atoi r i a b) ic).
    + eapply Forall2_impl; [|exact H1]. intros i col Hc. apply column_is_atoi. exact Hc.
    + eapply Forall2_impl; [|exact H1']. intros i col Hc. apply column_is_atoi. exact Hc.
  - exact (cols_unique (picks parseFloat) rows (fun r i a b => picks_unique parseFloat r i a b) fc _ _ H2 H2').
Qed.

Lemma table_rows rows ic fc ics fcs :
  table_is parseFloat rows ic fc ics fcs ->
  exists out, Forall2 (fun r io => Forall2 (picks atoi r) ic (fst io) /\ Forall2 (picks parseFloat r) fc (snd io)) rows out.
Proof.
  intros (_ & H1 & H2).
  destruct (rows_of_columns (picks atoi) ic rows ics) as (oi & Hoi).
  { eapply Forall2_impl; [|exact H1]. intros i col Hc. apply column_is_atoi. exact Hc. }
  destruct (rows_of_columns (picks parseFloat) fc rows fcs H2) as (of_ & Hof).
  exists (combine oi of_). clear H1 H2. revert of_ Hof. induction Hoi; intros of_ Hof; inversion Hof; subst; cbn; constructor; [split; assumption|].
  apply IHHoi. assumption.
Qed.

Lemma plain_first_width (r0 : list bytes) (rows : list (list bytes)) : Forall (fun w : bytes => w <> [] /\ ~ In sp w) r0 -> plain_first (r0 :: rows) ->
  list_sum (map nFields r0) = List.length r0.
Proof.
  cbn. intros Hr Hp. induction Hr as [|w ws [H1 H2] Hr IH]; [reflexivity|]. inversion Hp; subst.
  cbn. unfold list_sum in IH. rewrite IH by assumption. rewrite plain_nFields by assumption. reflexivity.
Qed.

Lemma rowsf_good ls : Forall (fun r => r <> [] /\ Forall (fun w => w <> [] /\ ~ In sp w) r) (rowsf ls).
Proof.
  unfold rowsf. induction ls as [|l ls IH]; [constructor|]. cbn [map filter].
  destruct (wordsf (cutComment l)) as [|w ws] eqn:E; cbn [has_words]; [exact IH|].
  constructor; [|exact IH]. split; [discriminate|]. rewrite <- E. apply wordsf_words.
Qed.

(** Soundness needs no hypothesis at all. *)
Theorem Parse_sound text ls rows ic fc ics fcs :
  lines_of text ls -> data_rows ls rows -> Parse text ic fc = Ok (ics, fcs) -> table_is parseFloat rows ic fc ics fcs.
Proof.
  intros L D. apply lines_of_split in L. apply data_rows_iff in D. rewrite Parse_rtable, <- L, D.
  unfold rtable. destruct rows as [|r0 rows].
  - intros [= <- <-].
    assert (E := mkcols_nil ic fc). assert (G := mkcols_table [] 0 ic fc []).
    rewrite E in G. cbn [fst snd] in G. apply G; constructor.
  - destruct (maxCol (ic ++ fc) >=? _)%Z; [discriminate|].
    destruct (rparse (r0 :: rows) _ ic fc) as [out| |] eqn:E; cbn [bindr]; try discriminate.
    intros [= <- <-]. apply rparse_ok in E. destruct E as [E1 E2].
    exact (mkcols_table _ _ _ _ _ E1 E2).
Qed.

Theorem Parse_complete text ls rows ic fc ics fcs :
  lines_of text ls -> data_rows ls rows -> plain_first rows ->
  table_is parseFloat rows ic fc ics fcs -> Parse text ic fc = Ok (ics, fcs).
Proof.
  intros L D Hp T. apply lines_of_split in L. apply data_rows_iff in D. rewrite Parse_rtable, <- L, D.
  assert (G := rowsf_good ls). rewrite D in G.
  destruct (table_rows _ _ _ _ _ T) as (out & Ho). destruct T as ((w & Hw) & T1 & T2).
  assert (Tm := mkcols_table rows w ic fc out Hw Ho).
  destruct (table_unique rows ic fc ics fcs _ _ (conj (ex_intro _ w Hw) (conj T1 T2)) Tm) as [E1 E2].
  destruct rows as [|r0 rows].
  - cbn [rtable]. inversion Ho; subst. rewrite mkcols_nil in *. reflexivity.
  - inversion G as [|? ? [_ Gw] G']; subst.
    assert (Er : rtable (r0 :: rows) ic fc = bindr (rparse (r0 :: rows) (List.length r0) ic fc) (fun out => Ok (mkcols ic fc out))).
    { unfold rtable. rewrite (plain_first_width r0 rows Gw Hp).
      assert (Hlt : (maxCol (ic ++ fc) < Z.of_nat (List.length r0))%Z).
      { apply maxCol_lt; [lia|]. inversion Ho as [|? io ? ? [Ha Hb] _]; subst. apply Forall_app. split.
        - eapply picks_widths; eassumption.
        - eapply picks_widths; eassumption. }
      match goal with |- context [if ?b then _ else _] => replace b with false; [reflexivity|symmetry; rewrite Z.geb_leb; apply Z.leb_gt; exact Hlt] end. }
    assert (Hw0 : List.length r0 = w) by (inversion Hw; assumption).
    rewrite Er. rewrite (proj2 (rparse_ok (r0 :: rows) (List.length r0) ic fc out)).
    + cbn [bindr]. rewrite (surjective_pairing (mkcols ic fc out)). reflexivity.
    + split; [|exact Ho]. rewrite Hw0. exact Hw.
Qed.

(** ** Errors and panics *)
Lemma rparse_not_panic : forall rows w ic fc,
  Forall (fun r => List.length r <= w) rows ->
  Forall (fun i => (0 <= i < Z.of_nat w)%Z) (ic ++ fc) ->
  rparse rows w ic fc <> Panic.
Proof.
  induction rows as [|r rows IH]; intros w ic fc Hr Hi; cbn [rparse]; [discriminate|].
  inversion Hr as [|? ? Hr1 Hr2]; subst.
  destruct (Nat.ltb_spec w (List.length r)); [lia|].
  destruct (Nat.eqb_spec (List.length r) w) as [E|E]; cbn [negb]; [|discriminate].
  assert (Hn : forall i, In i (ic ++ fc) -> nthZ r i <> None).
  { intros i Hin. rewrite Forall_forall in Hi. specialize (Hi i Hin). unfold nthZ.
    destruct (Z.ltb_spec i 0); [lia|]. intros Hx. apply nth_error_None in Hx. lia. }
  destruct (convWords atoi r ic) as [is_| |] eqn:E1; cbn [bindr]; try discriminate.
  - destruct (convWords parseFloat r fc) as [fs| |] eqn:E2; cbn [bindr]; try discriminate.
    + specialize (IH w ic fc Hr2 Hi). destruct (rparse rows w ic fc); cbn [bindr]; try discriminate. congruence.
    + apply convWords_panic in E2. destruct E2 as (i & H1 & H2). exfalso. apply (Hn i); [apply in_app_iff; auto|exact H2].
  - apply convWords_panic in E1. destruct E1 as (i & H1 & H2). exfalso. apply (Hn i); [apply in_app_iff; auto|exact H2].
Qed.

Theorem Parse_errors text ls rows ic fc :
  lines_of text ls -> data_rows ls rows -> plain_first rows ->
  Forall (fun i => (0 <= i)%Z) (ic ++ fc) ->
  (forall r0 r rest, rows = r0 :: rest -> In r rows -> List.length r <= List.length r0) ->
  Parse text ic fc <> Panic /\
  (Parse text ic fc = Err <-> ~ exists ics fcs, table_is parseFloat rows ic fc ics fcs).
Proof.
  intros L D Hp Hi Hlong.
  assert (NP : Parse text ic fc <> Panic).
  { assert (L' := proj1 (lines_of_split _ _) L). assert (D' := proj1 (data_rows_iff _ _) D).
    rewrite Parse_rtable, <- L', D'. assert (G := rowsf_good ls). rewrite D' in G.
    unfold rtable. destruct rows as [|r0 rows]; [discriminate|].
    inversion G as [|? ? [_ Gw] G']; subst. rewrite (plain_first_width r0 rows Gw Hp).
    match goal with |- context [if ?b then _ else _] => destruct b eqn:Hlt; [discriminate|] end.
    rewrite Z.geb_leb in Hlt. apply Z.leb_gt in Hlt.
    assert (N := rparse_not_panic (r0 :: rows) (List.length r0) ic fc).
    destruct (rparse (r0 :: rows) (List.length r0) ic fc) as [o| |]; cbn [bindr]; try discriminate.
    exfalso. apply N; [| |reflexivity].
    - apply Forall_forall. intros r Hr. eapply Hlong; [reflexivity|exact Hr].
    - assert (Hlt' : (maxCol (ic ++ fc) < Z.of_nat (List.length r0))%Z) by lia.
      apply maxCol_lt in Hlt'; [|lia]. rewrite Forall_forall in *. intros i Hin. specialize (Hi i Hin). specialize (Hlt' i Hin). lia. }
  split; [exact NP|]. split.
  - intros E (ics & fcs & T). rewrite (Parse_complete _ _ _ _ _ _ _ L D Hp T) in E. discriminate.
  - intros N. destruct (Parse text ic fc) as [[ics fcs]| |] eqn:E; [|reflexivity|congruence].
    exfalso. apply N. exists ics, fcs. eapply Parse_sound; eassumption.
Qed.

(** Exactly when the row that is too long comes first, Parse panics. *)
Theorem Parse_panics_on_long_row text ls r0 good r rest ic fc ics fcs :
  lines_of text ls -> data_rows ls (r0 :: good ++ r :: rest) -> Forall plain r0 ->
  table_is parseFloat (r0 :: good) ic fc ics fcs -> List.length r0 < List.length r ->
  Parse text ic fc = Panic.
Proof.
  intros L D Hp T Hr. apply lines_of_split in L. apply data_rows_iff in D. rewrite Parse_rtable, <- L, D.
  assert (G := rowsf_good ls). rewrite D in G. inversion G as [|? ? [_ Gw] G']; subst.
  destruct (table_rows _ _ _ _ _ T) as (out & Ho). destruct T as ((w & Hw) & T1 & T2).
  assert (Hw0 : List.length r0 = w) by (inversion Hw; assumption).
  unfold rtable. rewrite (plain_first_width r0 [] Gw) by exact Hp.
  assert (Hlt : (maxCol (ic ++ fc) < Z.of_nat (List.length r0))%Z).
  { apply maxCol_lt; [lia|]. inversion Ho as [|? io ? ? [Ha Hb] _]; subst. apply Forall_app. split.
    - eapply picks_widths; eassumption.
    - eapply picks_widths; eassumption. }
  match goal with |- context [if ?b then _ else _] => replace b with false; [|symmetry; rewrite Z.geb_leb; apply Z.leb_gt; exact Hlt] end.
  assert (P : forall rs out', Forall (fun r => List.length r = w) rs ->
    Forall2 (fun r io => Forall2 (picks atoi r) ic (fst io) /\ Forall2 (picks parseFloat r) fc (snd io)) rs out' ->
    rparse (rs ++ r :: rest) (List.length r0) ic fc = Panic).
  { induction rs as [|a rs IH]; intros out' Hl Hf; cbn [app rparse].
    - destruct (Nat.ltb_spec (List.length r0) (List.length r)); [reflexivity|lia].
    - inversion Hl as [|? ? Hl1 Hl2]. inversion Hf as [|? io ? o' [Ha Hb] Hf']; subst.
      rewrite Hl1. rewrite Nat.ltb_irrefl, Nat.eqb_refl. cbn [negb]. apply convWords_ok in Ha. apply convWords_ok in Hb.
      rewrite Ha, Hb. cbn [bindr]. rewrite (IH _ Hl2 Hf'). reflexivity. }
  change (r0 :: good ++ r :: rest) with ((r0 :: good) ++ r :: rest). rewrite (P _ _ Hw Ho). reflexivity.
Qed.
End P2.
