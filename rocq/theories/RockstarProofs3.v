(** * Proofs about the halo catalogue cache. *)
From Coq Require Import Lia ZArith List Permutation Sorting.Sorted.
From Verif Require Import GoBase GoBaseFacts LoopBase LoopFacts ListFacts BytesModel BytesFacts RockstarModel RockstarSpec RockstarProofs RockstarProofs2 EnvProofs2.
Import List ListNotations.
Local Open Scope nat_scope.

Lemma before_neg1_nonneg l n : Forall (fun c => 0 <= c)%Z l -> before_neg1 (l ++ repeat (-1)%Z n) = l.
Proof.
  induction 1 as [|x l Hx F IH].
  - destruct n; reflexivity.
  - cbn [app before_neg1]. destruct (Z.eqb_spec x (-1)); [lia|]. now rewrite IH.
Qed.

Lemma last_id_In id l i : last_id id l = Some i -> nth_error l i = Some id.
Proof.
  revert i. induction l as [|x l IH]; intros i; cbn [last_id]; [discriminate|]. destruct (last_id id l) as [k|].
  - intros [= <-]. cbn. auto.
  - destruct (Z.eqb_spec x id); [|discriminate]. intros [= <-]. now subst.
Qed.

Lemma last_id_none id l : last_id id l = None <-> ~ In id l.
Proof.
  induction l as [|x l IH]; cbn [last_id]; [now split|]. destruct (last_id id l) as [k|].
  - split; [discriminate|]. intros H. exfalso. apply H. right. destruct (in_dec Z.eq_dec id l) as [Q|Q]; [exact Q|]. apply IH in Q. discriminate.
  - destruct (Z.eqb_spec x id) as [->|E].
    + split; [discriminate|]. intros H. exfalso. apply H. now left.
    + split; [|reflexivity]. intros _ [Q|Q]; [contradiction|]. now apply IH in Q.
Qed.

Lemma rd_map {A B} (f : A -> B) l i : rd (map f l) i = option_map f (rd l i).
Proof. apply nth_error_map. Qed.

Lemma nth_error_firstn_lt {A} (l : list A) k p : p < k -> nth_error (firstn k l) p = nth_error l p.
Proof. revert k p. induction l as [|a l IH]; intros [|k] [|p] H; try lia; try reflexivity. cbn. apply IH. lia. Qed.

Section Cache.
Context {V : Type} (enc : V -> list Z) (dec : list Z -> V) (ltb : V -> V -> bool) (to_int : V -> Z) (radius_of : bytes -> V -> V).
Variable go_sort : (V -> V -> bool) -> list V -> list nat.
Variable read_table : list Z -> res (list (list V)).
Variables (names : list bytes) (columns : list Z) (vc : VarColumns).
Variables (cols : list (list V)) (N : nat).
Hypothesis Hvc : new_var_columns names columns = Some vc.
Hypothesis Hcolumns : Forall (fun c => 0 <= c)%Z columns.
Hypothesis Htable : read_table (firstn (length names) columns) = Ok cols.
Hypothesis Hcat : catalogue_ok V names cols N.
Hypothesis HN : (Z.of_nat N < 2 ^ 63)%Z.
Hypothesis enc_length : forall v, length (enc v) = 8.
Hypothesis dec_enc : forall v, dec (enc v) = v.
Hypothesis Hsort : forall lt, weak_order V lt -> sorts V go_sort lt.
Hypothesis Hltb : weak_order V ltb.
Hypothesis HID : In (lit "ID") names.
Hypothesis HM : known names (lit "M200m").

Notation get_column := (get_column V radius_of vc).
Notation get_ids := (get_ids V to_int vc).
Notation convert := (convert V enc ltb radius_of go_sort read_table vc).
Notation load := (load V enc dec ltb to_int radius_of go_sort read_table vc).
Notation ensure := (ensure V enc ltb radius_of go_sort read_table vc).

Lemma names_pos : 0 < length names.
Proof. destruct names; [destruct HID|cbn; lia]. Qed.

Lemma columns_read : before_neg1 (v_columns vc) = firstn (length names) columns.
Proof.
  pose proof (new_var_columns_ok _ _ _ Hvc) as (_ & E & _ & H2 & _). rewrite H2. apply before_neg1_nonneg.
  rewrite Forall_forall in *. intros x Hx. apply Hcolumns. rewrite <- (firstn_skipn (length names) columns). apply in_or_app. now left.
Qed.

(** The rows of a cache file. *)
Definition mass_col : list V := match get_column cols (lit "M200m") with Some c => c | None => [] end.
Definition id_col : list V := match get_column cols (lit "ID") with Some c => c | None => [] end.
Definition ascending : list nat := go_sort ltb mass_col.
Definition rows (w : which) : list nat :=
  match w with Full => seq 0 N | Short => skipn (N - Nat.min shortMemoNum N) ascending end.
Definition complete (w : which) : list Z := table_bytes V enc (length (rows w)) (map (sel (rows w)) cols).

Lemma mass_col_ok : get_column cols (lit "M200m") = Some mass_col /\ length mass_col = N /\
  forall r v, nth_error mass_col r = Some v <-> halo_value V radius_of names cols r (lit "M200m") v.
Proof.
  destruct (get_column_known radius_of names columns vc Hvc cols N (lit "M200m") Hcat HM) as (c & E & L & H).
  unfold mass_col. rewrite E. auto.
Qed.

Lemma id_col_ok : get_column cols (lit "ID") = Some id_col /\ length id_col = N /\
  forall r v, nth_error id_col r = Some v <-> halo_value V radius_of names cols r (lit "ID") v.
Proof.
  destruct (get_column_known radius_of names columns vc Hvc cols N (lit "ID") Hcat (or_introl HID)) as (c & E & L & H).
  unfold id_col. rewrite E. auto.
Qed.

Lemma weak_order_flip : weak_order V (fun a b => ltb b a).
Proof. destruct Hltb as [H1 H2]. split; [intros a b; apply H1|]. intros a b c Q1 Q2. eapply H2; eauto. Qed.

Lemma ascending_perm : Permutation ascending (seq 0 N).
Proof. unfold ascending. destruct (Hsort ltb Hltb mass_col) as [P _]. now rewrite (proj1 (proj2 mass_col_ok)) in P. Qed.

Lemma ascending_length : length ascending = N.
Proof. rewrite (Permutation_length ascending_perm). apply seq_length. Qed.

Lemma rows_lt w i : In i (rows w) -> i < N.
Proof.
  destruct w; cbn [rows]; intros H.
  - assert (In i ascending) by (rewrite <- (firstn_skipn (N - Nat.min shortMemoNum N) ascending); apply in_or_app; now right).
    apply (Permutation_in _ ascending_perm) in H0. apply in_seq in H0. lia.
  - apply in_seq in H. lia.
Qed.

Lemma rows_length w : length (rows w) = match w with Full => N | Short => Nat.min shortMemoNum N end.
Proof. destruct w; cbn [rows]; [|apply seq_length]. rewrite skipn_length, ascending_length. lia. Qed.

Lemma rows_le w : length (rows w) <= N.
Proof. rewrite rows_length. destruct w; lia. Qed.

Lemma sel_cols_ok w : length (map (sel (rows w)) cols) = length names /\
  Forall (fun c => length c = length (rows w)) (map (sel (rows w)) cols).
Proof.
  destruct Hcat as [HL HF]. split; [now rewrite map_length|]. apply Forall_forall. intros c Hc. apply in_map_iff in Hc.
  destruct Hc as (c0 & <- & Hc0). apply sel_length. intros i Hi. rewrite (proj1 (Forall_forall _ _) HF c0 Hc0). now apply rows_lt in Hi.
Qed.

Lemma cols_head : exists c, rd cols 0 = Some c /\ length c = N.
Proof.
  destruct Hcat as [HL HF]. pose proof names_pos. destruct cols as [|c cs]; [cbn in HL; lia|]. exists c. split; [reflexivity|]. now inversion HF.
Qed.

Lemma sel_all_cols : map (sel (seq 0 N)) cols = cols.
Proof.
  destruct Hcat as [_ HF]. rewrite <- (map_id cols) at 2. apply map_ext_in. intros c Hc.
  rewrite <- (proj1 (Forall_forall _ _) HF c Hc). apply sel_all.
Qed.

Lemma convert_complete w : convert w = Ok (complete w).
Proof.
  destruct cols_head as (c0 & E0 & L0). destruct w; cbn [RockstarModel.convert].
  - unfold rockstar_convert_top. rewrite columns_read, Htable, E0. rewrite L0, (proj1 mass_col_ok). fold ascending.
    rewrite ascending_length. destruct (Nat.ltb_spec N (N - Nat.min shortMemoNum N)); [lia|].
    fold (rows Short). rewrite (mapo_map _ (sel (rows Short))).
    + unfold complete. rewrite (rows_length Short). reflexivity.
    + intros c Hc. apply sel_mapo. intros i Hi. destruct Hcat as [_ HF]. rewrite (proj1 (Forall_forall _ _) HF c Hc). now apply (rows_lt Short).
  - unfold rockstar_convert. rewrite columns_read, Htable, E0, L0. unfold complete. rewrite (rows_length Full). cbn [rows]. now rewrite sel_all_cols.
Qed.

Lemma read_complete w : read_binary V dec vc (complete w) = Ok (map (sel (rows w)) cols).
Proof.
  destruct (sel_cols_ok w) as [L F]. apply read_table_bytes; [exact enc_length|exact dec_enc| | |exact F].
  - pose proof (rows_le w). lia.
  - rewrite L. symmetry. eapply vc_nbinary; eauto.
Qed.

Lemma read_torn_file w k : k < length (complete w) -> read_binary V dec vc (firstn k (complete w)) = Err.
Proof.
  destruct (sel_cols_ok w) as [L F]. intros Hk. apply read_torn; [exact enc_length| | | |exact F|exact Hk].
  - pose proof (rows_le w). lia.
  - rewrite L. symmetry. eapply vc_nbinary; eauto.
  - rewrite L. apply names_pos.
Qed.

Lemma get_column_sel I name : get_column (map (sel I) cols) name = option_map (sel I) (get_column cols name).
Proof.
  unfold RockstarModel.get_column. destruct (rd (v_generator vc) (lookup0 vc name)) as [g|]; [|reflexivity].
  destruct (length g =? 0); rewrite rd_map; [reflexivity|]. destruct (rd cols (lookup0 vc g)); cbn; [|reflexivity]. now rewrite sel_map.
Qed.

Lemma id_lookup : rd cols (lookup0 vc (lit "ID")) = Some id_col.
Proof.
  destruct (In_is_last _ _ HID) as (i & Hi). destruct (lookup_raw _ _ _ Hvc _ _ Hi) as [E _]. rewrite E. unfold rd.
  destruct (nth_error cols i) as [c|] eqn:Ec.
  - pose proof (proj1 id_col_ok) as Q. rewrite (get_column_raw radius_of _ _ _ Hvc _ _ _ _ Hi Ec) in Q. exact Q.
  - apply nth_error_None in Ec. destruct Hcat as [HL _]. pose proof (is_last_lt _ _ _ Hi). lia.
Qed.

Lemma get_ids_sel I : get_ids (map (sel I) cols) = Some (sel I (map to_int id_col)).
Proof. unfold RockstarModel.get_ids. rewrite rd_map, id_lookup. cbn. now rewrite sel_map. Qed.

(** ** States of the cache *)
Definition whole (w : which) (c : cache) : Prop := file_of w c = None \/ file_of w c = Some (complete w).
Definition torn (w : which) (c : cache) : Prop := exists k, k < length (complete w) /\ file_of w c = Some (firstn k (complete w)).

Lemma ensure_whole w c : whole w c -> ensure w c = Ok (match file_of w c with None => set_cache w c (complete w) | Some _ => c end).
Proof. intros [H|H]; unfold RockstarModel.ensure; rewrite H; [now rewrite convert_complete|reflexivity]. Qed.

Lemma file_set w w' c bs : file_of w (set_cache w' c bs) = if match w, w' with Short, Short | Full, Full => true | _, _ => false end then Some bs else file_of w c.
Proof. destruct w, w'; reflexivity. Qed.

Lemma load_whole w valNames c vals : whole w c -> mapo (get_column cols) valNames = Some vals ->
  exists c', load w valNames c = Ok (c', sel (rows w) (map to_int id_col), map (sel (rows w)) vals) /\ ensure w c = Ok c' /\ file_of w c' = Some (complete w).
Proof.
  intros Hw Hv. unfold RockstarModel.load. rewrite ensure_whole by exact Hw.
  set (c' := match file_of w c with None => _ | Some _ => c end).
  assert (E : file_of w c' = Some (complete w)).
  { unfold c'. destruct Hw as [H|H]; rewrite H; [|exact H]. rewrite file_set. now destruct w. }
  exists c'. rewrite E, read_complete, get_ids_sel.
  assert (Ev : mapo (get_column (map (sel (rows w)) cols)) valNames = Some (map (sel (rows w)) vals)).
  { apply mapo_spec. apply mapo_spec in Hv. clear -Hv. induction Hv; [constructor|]. cbn [map]. constructor; [|assumption].
    now rewrite get_column_sel, H. }
  rewrite Ev. auto.
Qed.

Lemma load_torn w valNames c : torn w c -> load w valNames c = Err.
Proof. intros (k & Hk & E). unfold RockstarModel.load, RockstarModel.ensure. rewrite !E, read_torn_file by exact Hk. reflexivity. Qed.

Lemma ensure_torn w c : torn w c -> ensure w c = Ok c.
Proof. intros (k & Hk & E). unfold RockstarModel.ensure. now rewrite E. Qed.

(** ** Looking up halos *)
Notation all_ids := (map to_int id_col).

(** [answer id row vals]: [row] holds the values of a halo of that ID. *)
Definition answer (vals : list (list V)) (id : Z) (row : list V) : Prop :=
  exists r, nth_error all_ids r = Some id /\ Forall2 (fun col v => nth_error col r = Some v) vals row.

Lemma row_of I (vals : list (list V)) line r : Forall (fun c => length c = N) vals -> (forall i, In i I -> i < N) -> nth_error I line = Some r ->
  exists row, mapo (fun col => rd col line) (map (sel I) vals) = Some row /\ Forall2 (fun col v => nth_error col r = Some v) vals row.
Proof.
  intros F HI Hl. assert (Hr : r < N) by (apply HI; now apply nth_error_In in Hl).
  induction F as [|c vals Hc F IH]; [exists []; split; [reflexivity|constructor]|].
  destruct IH as (row & E & H2). destruct (nth_error c r) as [v|] eqn:Ev; [|apply nth_error_None in Ev; lia].
  exists (v :: row). cbn [map mapo]. unfold rd at 1. rewrite sel_nth by (intros i Hi; rewrite Hc; auto).
  rewrite Hl, Ev, E. split; [reflexivity|]. now constructor.
Qed.

Lemma select_ok w vals ids : Forall (fun c => length c = N) vals ->
  Forall (fun id => In id (sel (rows w) all_ids)) ids ->
  exists out, select_rows V (sel (rows w) all_ids) (map (sel (rows w)) vals) ids = Some (Some out) /\ Forall2 (answer vals) ids out.
Proof.
  intros F. induction 1 as [|id ids Hid _ IH]; [exists []; split; [reflexivity|constructor]|].
  destruct IH as (out & E & H2). cbn [select_rows]. destruct (last_id id (sel (rows w) all_ids)) as [line|] eqn:El; [|apply last_id_none in El; contradiction].
  apply last_id_In in El. rewrite sel_nth in El.
  2:{ intros i Hi. rewrite map_length, (proj1 (proj2 id_col_ok)). now apply (rows_lt w). }
  destruct (nth_error (rows w) line) as [r|] eqn:Er; [|discriminate].
  destruct (row_of (rows w) vals line r F (rows_lt w) Er) as (row & E1 & E2). rewrite E1, E.
  exists (row :: out). split; [reflexivity|]. constructor; [|exact H2]. exists r. auto.
Qed.

Lemma select_missing w vals ids : Forall (fun c => length c = N) vals ->
  ~ Forall (fun id => In id (sel (rows w) all_ids)) ids ->
  select_rows V (sel (rows w) all_ids) (map (sel (rows w)) vals) ids = Some None.
Proof.
  intros F. induction ids as [|id ids IH]; intros H; [exfalso; apply H; constructor|]. cbn [select_rows].
  destruct (last_id id (sel (rows w) all_ids)) as [line|] eqn:El; [|reflexivity].
  assert (Hin : In id (sel (rows w) all_ids)) by (apply last_id_In in El; now apply nth_error_In in El).
  apply last_id_In in El. rewrite sel_nth in El.
  2:{ intros i Hi. rewrite map_length, (proj1 (proj2 id_col_ok)). now apply (rows_lt w). }
  destruct (nth_error (rows w) line) as [r|] eqn:Er; [|discriminate].
  destruct (row_of (rows w) vals line r F (rows_lt w) Er) as (row & E1 & E2). rewrite E1, IH; [reflexivity|].
  intros Q. apply H. constructor; assumption.
Qed.

Notation read1 := (read_rockstar1 V enc dec ltb to_int radius_of go_sort read_table vc).
Notation read_rockstar := (read_rockstar V enc dec ltb to_int radius_of go_sort read_table vc).
Notation read_sorted_ids := (read_sorted_ids V enc dec ltb to_int radius_of go_sort read_table vc).
Notation cache_after := (cache_after V enc ltb radius_of go_sort read_table vc).

Definition values_ok (valNames : list bytes) (vals : list (list V)) : Prop :=
  mapo (get_column cols) valNames = Some vals /\ Forall (fun c => length c = N) vals /\
  forall r row, Forall2 (fun col v => nth_error col r = Some v) vals row <-> Forall2 (halo_value V radius_of names cols r) valNames row.

Lemma values_known valNames : Forall (known names) valNames -> exists vals, values_ok valNames vals.
Proof.
  induction 1 as [|name l Hk _ IH].
  - exists []. split; [reflexivity|]. split; [constructor|]. intros r row. split; intros H; inversion H; constructor.
  - destruct IH as (vals & E & F & H).
    destruct (get_column_known radius_of names columns vc Hvc cols N name Hcat Hk) as (c & Ec & Lc & Hc).
    exists (c :: vals). split; [cbn [mapo]; now rewrite Ec, E|]. split; [now constructor|].
    intros r row. split; intros Q; inversion Q; subst; constructor; try (now apply Hc); now apply H.
Qed.

Lemma read1_whole w valNames vals ids c : whole w c -> values_ok valNames vals ->
  exists c', ensure w c = Ok c' /\ file_of w c' = Some (complete w) /\
    ((Forall (fun id => In id (sel (rows w) all_ids)) ids /\ exists out, read1 w valNames ids c = Ok (c', out) /\ Forall2 (answer vals) ids out) \/
     (~ Forall (fun id => In id (sel (rows w) all_ids)) ids /\ read1 w valNames ids c = Err)).
Proof.
  intros Hw (E & F & _). destruct (load_whole w valNames c vals Hw E) as (c' & El & Ee & Ef). exists c'. split; [exact Ee|]. split; [exact Ef|].
  unfold read_rockstar1. rewrite El. destruct (Forall_dec (fun id => In id (sel (rows w) all_ids)) (fun id => in_dec Z.eq_dec id _) ids) as [Q|Q].
  - left. split; [exact Q|]. destruct (select_ok w vals ids F Q) as (out & Eo & Ho). exists out. rewrite Eo. auto.
  - right. split; [exact Q|]. now rewrite select_missing.
Qed.

Lemma read1_torn w valNames ids c : torn w c -> read1 w valNames ids c = Err.
Proof. intros H. unfold read_rockstar1. now rewrite load_torn. Qed.

(** ** The states that calls and crashes can leave *)
Definition state_ok (c : cache) : Prop := forall w, whole w c \/ torn w c.

Lemma ensure_state w c c' : state_ok c -> ensure w c = Ok c' -> state_ok c' /\ (forall w', torn w' c' -> torn w' c) /\ (whole w c -> file_of w c' = Some (complete w)).
Proof.
  intros H E. destruct (H w) as [Hw|Ht].
  - rewrite ensure_whole in E by exact Hw. destruct (file_of w c) as [bs|] eqn:Ef; injection E as <-.
    + split; [exact H|]. split; [auto|]. intros [Q|Q]; congruence.
    + split; [|split].
      * intros w'. destruct (H w') as [Q|Q]; unfold whole, torn in *; rewrite file_set; destruct w, w'; auto.
      * intros w' (k & Hk & Q). rewrite file_set in Q. destruct w, w'; cbv iota in Q; try (exists k; split; [exact Hk|exact Q]; fail);
          injection Q as Q; apply (f_equal (@length Z)) in Q; rewrite firstn_length in Q; lia.
      * intros _. rewrite file_set. now destruct w.
  - rewrite ensure_torn in E by exact Ht. injection E as <-. split; [exact H|]. split; [auto|]. intros [Q|Q]; destruct Ht as (k & Hk & Q'); [congruence|].
    exact Q.
Qed.

Lemma rows_full_ids : sel (rows Full) all_ids = all_ids.
Proof. cbn [rows]. rewrite <- (proj1 (proj2 id_col_ok)) at 1. rewrite <- (map_length to_int). apply sel_all. Qed.

Lemma sel_In {A} I (l : list A) x : In x (sel I l) -> In x l.
Proof. unfold sel. rewrite in_flat_map. intros (i & _ & H). destruct (nth_error l i) eqn:E; [|destruct H]. destruct H as [<-|[]]. now apply nth_error_In in E. Qed.

(** What ReadRockstar returns in each state. *)
Lemma read_rockstar_cases valNames vals ids c : state_ok c -> values_ok valNames vals ->
  (Forall (fun id => In id all_ids) ids /\ exists c' out, read_rockstar valNames ids c = Ok (c', out) /\ Forall2 (answer vals) ids out /\ state_ok c' /\
     (forall w', torn w' c' -> torn w' c)) \/
  (read_rockstar valNames ids c = Err /\ (~ Forall (fun id => In id all_ids) ids \/ torn Full c)).
Proof.
  intros H Hv. unfold RockstarModel.read_rockstar.
  assert (Full_case : forall c1, state_ok c1 -> (forall w', torn w' c1 -> torn w' c) ->
    (Forall (fun id => In id all_ids) ids /\ exists c' out, read1 Full valNames ids c1 = Ok (c', out) /\ Forall2 (answer vals) ids out /\ state_ok c' /\
     (forall w', torn w' c' -> torn w' c)) \/
    (read1 Full valNames ids c1 = Err /\ (~ Forall (fun id => In id all_ids) ids \/ torn Full c))).
  { intros c1 H1 T1. destruct (H1 Full) as [Hw|Ht]; [|right; split; [now apply read1_torn|right; auto]].
    destruct (read1_whole Full valNames vals ids c1 Hw Hv) as (c' & Ee & Ef & [(Q & out & Eo & Ho)|(Q & Eo)]).
    - rewrite rows_full_ids in Q. left. split; [exact Q|]. exists c', out. destruct (ensure_state _ _ _ H1 Ee) as (S1 & S2 & _).
      repeat (split; [assumption|]). auto.
    - rewrite rows_full_ids in Q. right. auto. }
  destruct (H Short) as [Hw|Ht].
  - destruct (read1_whole Short valNames vals ids c Hw Hv) as (c' & Ee & Ef & [(Q & out & Eo & Ho)|(Q & Eo)]); rewrite Eo.
    + left. split.
      * eapply Forall_impl; [|exact Q]. intros a Ha. cbv beta in *. exact (sel_In _ _ _ Ha).
      * exists c', out. destruct (ensure_state _ _ _ H Ee) as (S1 & S2 & _). auto.
    + unfold RockstarModel.cache_after. rewrite Ee. destruct (ensure_state _ _ _ H Ee) as (S1 & S2 & _). now apply Full_case.
  - rewrite read1_torn by exact Ht. unfold RockstarModel.cache_after. rewrite (ensure_torn _ _ Ht). apply Full_case; auto.
Qed.

(** ** Halos in order of mass *)
Lemma SS_rev' {A} (R : A -> A -> Prop) l : StronglySorted R l -> StronglySorted (fun x y => R y x) (rev l).
Proof.
  induction 1 as [|a l H IH F]; [constructor|]. cbn [rev]. apply SS_app; [exact IH|constructor; [constructor|constructor]|].
  intros x y Hx [<-|[]]. apply in_rev in Hx. now apply (proj1 (Forall_forall _ _) F).
Qed.

Lemma SS_app_inv {A} (R : A -> A -> Prop) l1 l2 : StronglySorted R (l1 ++ l2) ->
  StronglySorted R l1 /\ StronglySorted R l2 /\ forall x y, In x l1 -> In y l2 -> R x y.
Proof.
  induction l1 as [|a l1 IH]; intros H; cbn [app] in H.
  - split; [constructor|]. split; [exact H|]. intros x y [].
  - inversion H as [|? ? H1 H2]; subst. destruct (IH H1) as (Q1 & Q2 & Q3). rewrite Forall_app in H2. destruct H2 as [F1 F2]. split; [now constructor|]. split; [exact Q2|].
    intros x y [<-|Hx] Hy; [now apply (proj1 (Forall_forall _ _) F2)|auto].
Qed.

Lemma sel_SS (R R' : nat -> nat -> Prop) (ks I : list nat) : (forall k, In k ks -> k < length I) ->
  (forall k k' i i', nth_error I k = Some i -> nth_error I k' = Some i' -> R' k k' -> R i i') ->
  StronglySorted R' ks -> StronglySorted R (sel ks I).
Proof.
  intros Hk HR. induction 1 as [|k ks Hs IH F]; [constructor|].
  cbn [sel flat_map]. destruct (nth_error I k) as [i|] eqn:E; [|apply nth_error_None in E; specialize (Hk k (or_introl eq_refl)); lia].
  cbn [app]. constructor; [apply IH; intros; apply Hk; now right|]. apply Forall_forall. intros i' Hi'.
  apply in_flat_map in Hi'. destruct Hi' as (k' & Hk' & Hi'). destruct (nth_error I k') as [i2|] eqn:E'; [|destruct Hi']. destruct Hi' as [<-|[]].
  eapply HR; eauto. now apply (proj1 (Forall_forall _ _) F).
Qed.

Lemma sel_sel {A} ks I (l : list A) : (forall i, In i I -> i < length l) -> sel ks (sel I l) = sel (sel ks I) l.
Proof.
  intros HI. induction ks as [|k ks IH]; [reflexivity|]. cbn [sel flat_map]. fold (sel ks (sel I l)) (sel ks I). rewrite IH, sel_nth by exact HI.
  destruct (nth_error I k) as [i|]; [|reflexivity]. cbn [app sel flat_map]. reflexivity.
Qed.

Lemma sel_perm {A} ks (I : list A) : Permutation ks (seq 0 (length I)) -> Permutation (sel ks I) I.
Proof. intros P. rewrite <- (sel_all I) at 2. unfold sel. now apply Permutation_flat_map. Qed.

Definition rest (w : which) : list nat := match w with Full => [] | Short => rev (firstn (N - Nat.min shortMemoNum N) ascending) end.

Lemma rows_rest w : Permutation (rows w ++ rest w) (seq 0 N).
Proof.
  destruct w; cbn [rows rest]; [|rewrite app_nil_r; apply Permutation_refl].
  eapply perm_trans; [|exact ascending_perm]. rewrite <- (firstn_skipn (N - Nat.min shortMemoNum N) ascending) at 3.
  eapply perm_trans; [apply Permutation_app_comm|]. apply Permutation_app_tail. apply Permutation_sym, Permutation_rev.
Qed.

Definition order2 (w : which) : list nat := go_sort (fun a b => ltb b a) (sel (rows w) mass_col).
Definition order (w : which) : list nat := sel (order2 w) (rows w) ++ rest w.

Lemma order2_perm w : Permutation (order2 w) (seq 0 (length (rows w))).
Proof.
  unfold order2. destruct (Hsort _ weak_order_flip (sel (rows w) mass_col)) as [P _].
  rewrite sel_length in P; [exact P|]. intros i Hi. rewrite (proj1 (proj2 mass_col_ok)). now apply (rows_lt w).
Qed.

Lemma order2_lt w k : In k (order2 w) -> k < length (rows w).
Proof. intros H. apply (Permutation_in _ (order2_perm w)) in H. apply in_seq in H. lia. Qed.

Lemma order_perm w : Permutation (order w) (seq 0 N).
Proof. eapply perm_trans; [|apply (rows_rest w)]. unfold order. apply Permutation_app_tail. apply sel_perm, order2_perm. Qed.

Lemma order_by_mass w : by_mass V ltb (fun r v => halo_value V radius_of names cols r (lit "M200m") v) (order w).
Proof.
  unfold by_mass, order. destruct mass_col_ok as (_ & LM & HMass).
  assert (S1 : StronglySorted (fun i j => forall a b, nth_error mass_col i = Some a -> nth_error mass_col j = Some b -> ltb a b = false)
                 (sel (order2 w) (rows w))).
  { destruct (Hsort _ weak_order_flip (sel (rows w) mass_col)) as [_ S]. fold (order2 w) in S.
    eapply sel_SS; [apply order2_lt| |exact S]. intros k k' i i' Ek Ek' H a b Ha Hb. cbv beta in H. apply H; rewrite sel_nth;
      try (intros ? ?; rewrite LM; now apply (rows_lt w)); [now rewrite Ek|now rewrite Ek']. }
  assert (S2 : StronglySorted (fun i j => forall a b, nth_error mass_col i = Some a -> nth_error mass_col j = Some b -> ltb a b = false) (rest w) /\
     forall i j, In i (rows w) -> In j (rest w) -> forall a b, nth_error mass_col i = Some a -> nth_error mass_col j = Some b -> ltb a b = false).
  { destruct w; cbn [rows rest]; [|split; [constructor|intros i j _ []]].
    destruct (Hsort ltb Hltb mass_col) as [_ S]. fold ascending in S. rewrite <- (firstn_skipn (N - Nat.min shortMemoNum N) ascending) in S.
    apply SS_app_inv in S. destruct S as (Q1 & Q2 & Q3). split.
    - apply SS_rev' in Q1. eapply StronglySorted_ind with (P := StronglySorted _); [constructor| |exact Q1].
      intros a l _ IH F. constructor; [exact IH|]. eapply Forall_impl; [|exact F]. cbv beta. intros j H x y Hx Hy. eapply H; eauto.
    - intros i j Hi Hj a b Ha Hb. apply in_rev in Hj. eapply (Q3 j i); eauto. }
  assert (S3 : StronglySorted (fun i j => forall a b, nth_error mass_col i = Some a -> nth_error mass_col j = Some b -> ltb a b = false)
                 (sel (order2 w) (rows w) ++ rest w)).
  { apply SS_app; [exact S1|apply S2|]. intros i j Hi Hj. apply S2; [|exact Hj]. eapply sel_In; eauto. }
  eapply StronglySorted_ind with (P := StronglySorted _); [constructor| |exact S3].
  intros a l _ IH F. constructor; [exact IH|]. eapply Forall_impl; [|exact F]. cbv beta. intros j H x y Hx Hy. apply H; now apply HMass.
Qed.

Definition file_for (maxID : Z) : which := if ((Z.of_nat shortMemoNum <=? maxID) || (maxID =? -1))%Z then Full else Short.

Lemma sorted_cases maxID c : (-1 <= maxID)%Z -> state_ok c ->
  (torn (file_for maxID) c /\ read_sorted_ids maxID (lit "M200m") c = Err) \/
  (~ torn (file_for maxID) c /\
    ((Z.of_nat N < maxID)%Z /\ read_sorted_ids maxID (lit "M200m") c = Err \/
     maxID = Z.of_nat N /\ read_sorted_ids maxID (lit "M200m") c = Panic \/
     (maxID < Z.of_nat N)%Z /\ exists c', state_ok c' /\ (forall w, torn w c' -> torn w c) /\
       read_sorted_ids maxID (lit "M200m") c =
         Ok (c', sel (firstn (if (maxID =? -1)%Z then N else Z.to_nat (maxID + 1)) (order (file_for maxID))) all_ids))).
Proof.
  intros Hm H. set (w := file_for maxID). destruct (H w) as [Hw|Ht].
  2:{ left. split; [exact Ht|]. unfold RockstarModel.read_sorted_ids. fold (file_for maxID). fold w. now rewrite load_torn. }
  right. split.
  { intros (k & Hk & Q). destruct Hw as [E|E]; [congruence|]. assert (E2 : complete w = firstn k (complete w)) by congruence.
    apply (f_equal (@length Z)) in E2. rewrite firstn_length in E2. lia. }
  assert (Hv : mapo (get_column cols) [lit "M200m"] = Some [mass_col]) by (cbn [mapo]; now rewrite (proj1 mass_col_ok)).
  destruct (load_whole w _ c _ Hw Hv) as (c' & El & Ee & Ef).
  unfold RockstarModel.read_sorted_ids. fold (file_for maxID). fold w. rewrite El. cbn [map rd nth_error]. fold (order2 w).
  assert (Hlt : forall i, In i (rows w) -> i < length all_ids).
  { intros i Hi. rewrite map_length, (proj1 (proj2 id_col_ok)). now apply (rows_lt w). }
  rewrite sel_length by exact Hlt. rewrite sel_mapo by (intros i Hi; rewrite sel_length by exact Hlt; now apply order2_lt).
  rewrite sel_sel by exact Hlt.
  assert (HS : shortMemoNum = Z.to_nat 10000) by reflexivity.
  assert (Hlen : (maxID < 10000 /\ maxID <> -1)%Z /\ length (rows w) = Nat.min shortMemoNum N \/
                 ((10000 <= maxID \/ maxID = -1)%Z /\ w = Full)).
  { unfold w, file_for. rewrite HS. rewrite Z2Nat.id by lia. destruct (Z.leb_spec 10000 maxID); [right; split; [now left|reflexivity]|]. cbn [orb].
    destruct (Z.eqb_spec maxID (-1)); [right; split; [now right|reflexivity]|]. left. split; [lia|]. apply (rows_length Short). }
  assert (Hlen' : (Z.of_nat (length (rows w)) < maxID)%Z <-> (Z.of_nat N < maxID)%Z).
  { destruct Hlen as [[A E]|[A E]]; [rewrite E; lia|]. rewrite E, (rows_length Full). reflexivity. }
  assert (Hlen2 : (Z.of_nat (length (rows w)) < maxID + 1)%Z <-> (Z.of_nat N < maxID + 1)%Z).
  { destruct Hlen as [[A E]|[A E]]; [rewrite E; lia|]. rewrite E, (rows_length Full). reflexivity. }
  destruct (Z.ltb_spec (Z.of_nat (length (rows w))) maxID) as [Q|Q]; [left; split; [now apply Hlen'|reflexivity]|].
  right. destruct (ensure_state _ _ _ H Ee) as (S1 & S2 & _).
  assert (Lo : length (sel (order2 w) (rows w)) = length (rows w)).
  { rewrite sel_length by apply order2_lt. rewrite (Permutation_length (order2_perm w)). apply seq_length. }
  assert (Hol : forall i, In i (sel (order2 w) (rows w)) -> i < length all_ids).
  { intros i Hi. apply Hlt. eapply sel_In; eauto. }
  destruct (Z.eqb_spec maxID (-1)) as [E1|E1].
  - right. split; [lia|]. exists c'. split; [exact S1|]. split; [exact S2|]. do 2 f_equal. destruct Hlen as [[A E]|[A E]]; [lia|].
    rewrite E in *. unfold order. cbn [rest]. rewrite app_nil_r. rewrite (rows_length Full) in Lo. rewrite firstn_all2 by lia. reflexivity.
  - destruct (Z.ltb_spec (maxID + 1) 0); [lia|]. cbn [orb].
    destruct (Z.ltb_spec (Z.of_nat (length (rows w))) (maxID + 1)) as [Q2|Q2].
    + left. split; [|reflexivity]. apply Hlen2 in Q2. assert (~ (Z.of_nat N < maxID)%Z) by (rewrite <- Hlen'; lia). lia.
    + right. assert (~ (Z.of_nat N < maxID + 1)%Z) by (rewrite <- Hlen2; lia). split; [lia|]. exists c'. split; [exact S1|]. split; [exact S2|].
      do 2 f_equal. unfold order. rewrite firstn_app, Lo. replace (Z.to_nat (maxID + 1) - length (rows w)) with 0 by lia.
      rewrite firstn_O, app_nil_r. apply nth_error_ext. intros k.
      assert (Hol' : forall i, In i (firstn (Z.to_nat (maxID + 1)) (sel (order2 w) (rows w))) -> i < length all_ids).
      { intros i Hi. apply Hol. rewrite <- (firstn_skipn (Z.to_nat (maxID + 1)) (sel (order2 w) (rows w))). apply in_or_app. now left. }
      destruct (Nat.lt_ge_cases k (Z.to_nat (maxID + 1))) as [Hk|Hk].
      * rewrite nth_error_firstn_lt by exact Hk. rewrite (sel_nth _ _ _ Hol'), nth_error_firstn_lt by exact Hk. now rewrite (sel_nth _ _ _ Hol).
      * rewrite !(proj2 (nth_error_None _ _)); [reflexivity| |]; [rewrite sel_length by exact Hol'|]; rewrite firstn_length; lia.
Qed.
End Cache.
