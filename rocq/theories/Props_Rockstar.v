(** * C33, C46-C48: halo catalogues, their named columns and their cache files. *)
From Coq Require Import Lia ZArith List Permutation Sorting.Sorted Ascii NArith.
From Verif Require Import GoBase GoBaseFacts LoopBase ListFacts BytesModel BytesFacts RockstarModel RockstarSpec RockstarProofs RockstarProofs2 RockstarProofs3.
Import List ListNotations.
Local Open Scope nat_scope.

Section Rockstar.
Context {V : Type} (enc : V -> list Z) (dec : list Z -> V) (ltb : V -> V -> bool) (to_int : V -> Z) (radius_of : bytes -> V -> V)
        (go_sort : (V -> V -> bool) -> list V -> list nat) (read_table : list Z -> res (list (list V))).

Notation read_rockstar := (read_rockstar V enc dec ltb to_int radius_of go_sort read_table).
Notation read_sorted_ids := (read_sorted_ids V enc dec ltb to_int radius_of go_sort read_table).
Notation convert := (convert V enc ltb radius_of go_sort read_table).
Notation ensure := (ensure V enc ltb radius_of go_sort read_table).

(** A usable configuration: the user names the columns [columns] of the text catalogue [names], the catalogue has
    [N] rows and can be read, 8-byte floats survive writing and reading, sort.Sort sorts, < orders the values (no
    NaN), and the columns "ID" and "M200m" have a meaning. *)
Record setting (names : list bytes) (columns : list Z) (vc : VarColumns) (cols : list (list V)) (N : nat) : Prop := {
  s_vc : new_var_columns names columns = Some vc;
  s_columns : Forall (fun c => 0 <= c)%Z columns;
  s_table : read_table (firstn (length names) columns) = Ok cols;
  s_cat : catalogue_ok V names cols N;
  s_N : (Z.of_nat N < 2 ^ 63)%Z;
  s_len : forall v, length (enc v) = 8;
  s_enc : forall v, dec (enc v) = v;
  s_sort : forall lt, weak_order V lt -> sorts V go_sort lt;
  s_ltb : weak_order V ltb;
  s_id : In (lit "ID") names;
  s_m : known names (lit "M200m") }.

(** The states of the cache directory: after any sequence of calls, finished or failed, and of processes killed
    while they write one of the cache files allowed by [tearable]. *)
Inductive reachable (vc : VarColumns) (tearable : which -> Prop) : cache -> Prop :=
| r_empty : reachable vc tearable {| shortFile := None; fullFile := None |}
| r_read valNames ids c c' out : reachable vc tearable c -> read_rockstar vc valNames ids c = Ok (c', out) -> reachable vc tearable c'
| r_sorted maxID valName c c' out : reachable vc tearable c -> read_sorted_ids vc maxID valName c = Ok (c', out) -> reachable vc tearable c'
| r_failed w c c' : reachable vc tearable c -> ensure vc w c = Ok c' -> reachable vc tearable c'
| r_killed w k bs c : reachable vc tearable c -> tearable w -> file_of w c = None -> convert vc w = Ok bs ->
    reachable vc tearable (set_cache w c (firstn k bs)).

(** The halo in row [r] has this ID. *)
Definition has_id (names : list bytes) (cols : list (list V)) (r : nat) (id : Z) : Prop :=
  exists v, halo_value V radius_of names cols r (lit "ID") v /\ to_int v = id.

Definition in_catalogue names cols (id : Z) : Prop := exists r, has_id names cols r id.
Definition unique_ids names cols : Prop := forall r r' id, has_id names cols r id -> has_id names cols r' id -> r = r'.

(** [out] lists, for every requested ID, the requested values of a halo that has this ID. *)
Definition values_of names cols (valNames : list bytes) (ids : list Z) (out : list (list V)) : Prop :=
  Forall2 (fun id row => exists r, has_id names cols r id /\ Forall2 (halo_value V radius_of names cols r) valNames row) ids out.

Section Given.
Variables (names : list bytes) (columns : list Z) (vc : VarColumns) (cols : list (list V)) (N : nat).
Hypothesis S : setting names columns vc cols N.

Notation complete := (complete enc ltb radius_of go_sort vc cols N).
Notation torn := (torn enc ltb radius_of go_sort vc cols N).
Notation state_ok := (state_ok enc ltb radius_of go_sort vc cols N).
Notation ids_col := (id_col radius_of vc cols).

Lemma has_id_nth r id : has_id names cols r id <-> nth_error (map to_int ids_col) r = Some id.
Proof.
  destruct S as [A1 A2 A3 A4 A5 A6 A7 A8 A9 A10 A11].
  pose proof (id_col_ok radius_of names columns vc cols N A1 A4 A10) as (_ & _ & H). rewrite nth_error_map. split.
  - intros (v & Hv & <-). apply H in Hv. now rewrite Hv.
  - destruct (nth_error ids_col r) as [v|] eqn:E; [|discriminate]. intros [= <-]. exists v. split; [now apply H|reflexivity].
Qed.

Lemma in_cat_In id : in_catalogue names cols id <-> In id (map to_int ids_col).
Proof.
  split.
  - intros (r & H). apply has_id_nth in H. now apply nth_error_In in H.
  - intros H. apply In_nth_error in H. destruct H as (r & H). exists r. now apply has_id_nth.
Qed.

Lemma load_ensure w valNames c c' rids rvals :
  load V enc dec ltb to_int radius_of go_sort read_table vc w valNames c = Ok (c', rids, rvals) -> ensure vc w c = Ok c'.
Proof.
  unfold load. destruct (ensure vc w c) as [c1| |]; [|discriminate|discriminate]. destruct (file_of w c1) as [file|]; [|discriminate].
  destruct (read_binary V dec vc file) as [raw| |]; [|discriminate|discriminate].
  destruct (get_ids V to_int vc raw); [|discriminate]. destruct (mapo _ _); [|discriminate]. now intros [= <- _ _].
Qed.

Lemma read1_ensure w valNames ids c c' out :
  read_rockstar1 V enc dec ltb to_int radius_of go_sort read_table vc w valNames ids c = Ok (c', out) -> ensure vc w c = Ok c'.
Proof.
  unfold read_rockstar1. destruct (load _ _ _ _ _ _ _ _ _ _ _ _) as [[[c1 rids] rvals]| |] eqn:E; [|discriminate|discriminate].
  apply load_ensure in E. destruct (select_rows V rids rvals ids) as [[?|]|]; [|discriminate|discriminate]. now intros [= <- _].
Qed.

Lemma reach_state T c : reachable vc T c -> state_ok c /\ forall w, torn w c -> T w.
Proof.
  destruct S as [A1 A2 A3 A4 A5 A6 A7 A8 A9 A10 A11].
  assert (Ens : forall w c c', state_ok c /\ (forall w, torn w c -> T w) -> ensure vc w c = Ok c' -> state_ok c' /\ forall w, torn w c' -> T w).
  { clear c. intros w c c' [H1 H2] E. destruct (ensure_state enc ltb radius_of go_sort read_table names columns vc cols N A1 A2 A3 A4 A8 A9 A10 A11 w c c' H1 E) as (Q1 & Q2 & _). eauto. }
  induction 1 as [|valNames ids c c' out _ IH E|maxID valName c c' out _ IH E|w c c' _ IH E|w k bs c _ IH Hw Hn E].
  - split.
    + intros w. left. left. now destruct w.
    + intros w (k & _ & Q). destruct w; discriminate.
  - unfold RockstarModel.read_rockstar in E. destruct (read_rockstar1 _ _ _ _ _ _ _ _ _ Short _ _ _) as [[c1 o1]| |] eqn:E1; [| |discriminate].
    + injection E as <- <-. apply read1_ensure in E1. eapply Ens; eauto.
    + apply read1_ensure in E. unfold cache_after in E. destruct (ensure vc Short c) as [c2| |] eqn:E2; try (eapply Ens; eauto; fail).
      apply (Ens Full c2 c'); [|exact E]. now apply (Ens Short c c2).
  - unfold RockstarModel.read_sorted_ids in E. fold (file_for maxID) in E. set (w := file_for maxID) in E.
    destruct (load _ _ _ _ _ _ _ _ _ w _ _) as [[[c1 rids] rvals]| |] eqn:E1; [|discriminate|discriminate].
    apply load_ensure in E1. assert (c1 = c'); [|subst c1; eapply Ens; eauto].
    destruct (rd rvals 0); [|discriminate]. destruct (_ <? maxID)%Z; [discriminate|]. destruct (mapo _ _); [|discriminate].
    destruct (maxID =? -1)%Z; [now injection E|]. destruct (_ || _)%bool; [discriminate|]. now injection E.
  - eapply Ens; eauto.
  - destruct IH as [I1 I2]. rewrite (convert_complete enc ltb radius_of go_sort read_table names columns vc cols N) in E by assumption.
    injection E as <-. destruct (Nat.lt_ge_cases k (length (complete w))) as [Hk|Hk].
    + split.
      * intros w'. assert (D : w' = w \/ file_of w' (set_cache w c (firstn k (complete w))) = file_of w' c) by (destruct w, w'; auto).
        destruct D as [->|D].
        { right. exists k. split; [exact Hk|]. now destruct w. }
        destruct (I1 w') as [Q|(k' & Hk' & Q)]; [left; unfold whole in *; now rewrite D|right; exists k'; now rewrite D].
      * intros w' (k' & Hk' & Q). assert (D : w' = w \/ file_of w' (set_cache w c (firstn k (complete w))) = file_of w' c) by (destruct w, w'; auto).
        destruct D as [->|D]; [exact Hw|]. apply I2. exists k'. rewrite <- D. auto.
    + rewrite firstn_all2 by exact Hk. apply (Ens w c); [auto|]. unfold RockstarModel.ensure. rewrite Hn.
      now rewrite (convert_complete enc ltb radius_of go_sort read_table names columns vc cols N).
Qed.

Lemma cases T valNames ids c : Forall (known names) valNames -> reachable vc T c ->
  (Forall (in_catalogue names cols) ids /\ exists c' out, read_rockstar vc valNames ids c = Ok (c', out) /\ values_of names cols valNames ids out) \/
  (read_rockstar vc valNames ids c = Err /\ (~ Forall (in_catalogue names cols) ids \/ T Full)).
Proof.
  intros Hk Hr. destruct (reach_state T c Hr) as [H1 H2]. pose proof S as [A1 A2 A3 A4 A5 A6 A7 A8 A9 A10 A11].
  destruct (values_known radius_of names columns vc cols N A1 A4 A5 valNames Hk) as (vals & Hv).
  assert (Fin : Forall (fun id => In id (map to_int ids_col)) ids <-> Forall (in_catalogue names cols) ids).
  { split; intros F; (eapply Forall_impl; [|exact F]); intros a Ha; now apply in_cat_In. }
  destruct (read_rockstar_cases enc dec ltb to_int radius_of go_sort read_table names columns vc cols N A1 A2 A3 A4 A5 A6 A7 A8 A9 A10 A11
     valNames vals ids c H1 Hv) as [(F & c' & out & E & Ha & _)|(E & Q)].
  - left. split; [now apply Fin|]. exists c', out. split; [exact E|]. unfold values_of.
    destruct Hv as (_ & _ & Hv). clear - Ha Hv S. induction Ha as [|id row ids out (r & Hr & Hrow) _ IH]; [constructor|]. constructor; [|exact IH].
    exists r. split; [now apply has_id_nth|now apply Hv].
  - right. split; [exact E|]. destruct Q as [Q|Q]; [left; now rewrite <- Fin|right; auto].
Qed.

Lemma sorted_out T maxID c : (-1 <= maxID < Z.of_nat N)%Z -> reachable vc T c ->
  (exists c' order ids, read_sorted_ids vc maxID (lit "M200m") c = Ok (c', ids) /\
     Permutation order (seq 0 N) /\ by_mass V ltb (fun r v => halo_value V radius_of names cols r (lit "M200m") v) order /\
     Forall2 (has_id names cols) (if (maxID =? -1)%Z then order else firstn (Z.to_nat (maxID + 1)) order) ids) \/
  (read_sorted_ids vc maxID (lit "M200m") c = Err /\ exists w, T w).
Proof.
  intros Hm Hr. destruct (reach_state T c Hr) as [H1 H2]. pose proof S as [A1 A2 A3 A4 A5 A6 A7 A8 A9 A10 A11].
  destruct (sorted_cases enc dec ltb to_int radius_of go_sort read_table names columns vc cols N A1 A2 A3 A4 A5 A6 A7 A8 A9 A10 A11 maxID c (proj1 Hm) H1)
    as [[Ht E]|[_ [[Q E]|[[Q E]|(Q & c' & S1 & _ & E)]]]]; [|lia|lia|].
  - right. split; [exact E|]. eexists. eapply H2; eauto.
  - left. set (o := order ltb radius_of go_sort vc cols N (file_for maxID)) in *.
    assert (P : Permutation o (seq 0 N)) by now apply (order_perm ltb radius_of go_sort names columns).
    exists c', o. eexists. split; [exact E|]. split; [exact P|]. split; [now apply order_by_mass with (columns := columns)|].
    set (f := firstn (if (maxID =? -1)%Z then N else Z.to_nat (maxID + 1)) o). assert (Ef : (if (maxID =? -1)%Z then o else firstn (Z.to_nat (maxID + 1)) o) = f).
    { unfold f. destruct (maxID =? -1)%Z; [|reflexivity]. apply eq_sym, firstn_all2. rewrite (Permutation_length P), seq_length. reflexivity. }
    rewrite Ef.
    assert (Hlt : forall i, In i f -> i < N).
    { intros i Hi. assert (In i o). { unfold f in Hi. rewrite <- (firstn_skipn (if (maxID =? -1)%Z then N else Z.to_nat (maxID + 1)) o). apply in_or_app. now left. }
      apply (Permutation_in _ P) in H. apply in_seq in H. lia. }
    assert (L : length (map to_int ids_col) = N) by (rewrite map_length; apply (id_col_ok radius_of names columns vc cols N A1 A4 A10)).
    clear - Hlt L S. induction f as [|i f IH]; [constructor|]. cbn [sel flat_map].
    destruct (nth_error (map to_int ids_col) i) as [id|] eqn:Ei; [|apply nth_error_None in Ei; specialize (Hlt i (or_introl eq_refl)); lia].
    cbn [app]. constructor; [now apply has_id_nth|]. apply IH. intros; apply Hlt; now right.
Qed.

Lemma sorted_too_large T maxID c : (Z.of_nat N < maxID)%Z -> reachable vc T c -> read_sorted_ids vc maxID (lit "M200m") c = Err.
Proof.
  intros Hm Hr. destruct (reach_state T c Hr) as [H1 H2]. pose proof S as [A1 A2 A3 A4 A5 A6 A7 A8 A9 A10 A11].
  destruct (sorted_cases enc dec ltb to_int radius_of go_sort read_table names columns vc cols N A1 A2 A3 A4 A5 A6 A7 A8 A9 A10 A11 maxID c ltac:(lia) H1)
    as [[Ht E]|[_ [[Q E]|[[Q E]|(Q & c' & S1 & _ & E)]]]]; [exact E|exact E|lia|lia].
Qed.

Lemma sorted_boundary maxID c : maxID = Z.of_nat N -> reachable vc (fun _ => False) c -> read_sorted_ids vc maxID (lit "M200m") c = Panic.
Proof.
  intros Hm Hr. destruct (reach_state _ c Hr) as [H1 H2]. pose proof S as [A1 A2 A3 A4 A5 A6 A7 A8 A9 A10 A11].
  destruct (sorted_cases enc dec ltb to_int radius_of go_sort read_table names columns vc cols N A1 A2 A3 A4 A5 A6 A7 A8 A9 A10 A11 maxID c ltac:(lia) H1)
    as [[Ht E]|[_ [[Q E]|[[Q E]|(Q & c' & S1 & _ & E)]]]]; [|lia|exact E|lia].
  exfalso. eapply H2. exact Ht.
Qed.
End Given.

Lemma Forall2_fun {A B} (R : A -> B -> Prop) l m m' : (forall a b b', R a b -> R a b' -> b = b') -> Forall2 R l m -> Forall2 R l m' -> m = m'.
Proof. intros HR H. revert m'. induction H; intros m' H'; inversion H'; subst; [reflexivity|]. f_equal; eauto. Qed.

Lemma halo_value_fun names cols r name v v' : halo_value V radius_of names cols r name v -> halo_value V radius_of names cols r name v' -> v = v'.
Proof.
  intros H H'. inversion H as [n1 i1 c1 v1 Q1 Q2 Q3|m1 n1 i1 c1 v1 P1 P2 P3 P4 P5]; subst;
    inversion H' as [n2 i2 c2 v2 R1 R2 R3|m2 n2 i2 c2 v2 T1 T2 T3 T4 T5]; subst.
  - pose proof (is_last_fun _ _ _ _ Q1 R1). subst. congruence.
  - apply is_last_In in Q1. contradiction.
  - apply is_last_In in R1. contradiction.
  - assert (m1 = m2).
    { clear - P1 T1. unfold radius_pairs in *. cbn [In] in *.
      destruct P1 as [[= <- <-]|[[= <- <-]|[[= <- <-]|[[= <- <-]|[]]]]]; destruct T1 as [[= E]|[[= E]|[[= E]|[[= E]|[]]]]]; congruence. }
    subst. pose proof (is_last_fun _ _ _ _ P3 T3). subst. congruence.
Qed.

(** ** C33 *)

(** Whatever calls were made before, every list of IDs that are in the catalogue is answered, with the values of
    halos of these IDs. *)
Theorem C33_lookup : forall names columns vc cols N valNames ids c,
  setting names columns vc cols N -> Forall (known names) valNames ->
  reachable vc (fun _ => False) c -> Forall (in_catalogue names cols) ids ->
  exists c' out, read_rockstar vc valNames ids c = Ok (c', out) /\ values_of names cols valNames ids out.
Proof.
  intros names columns vc cols N valNames ids c S Hk Hr Hin.
  destruct (cases names columns vc cols N S _ valNames ids c Hk Hr) as [(_ & H)|(_ & [H|[]])]; [exact H|contradiction].
Qed.

(** The answer does not depend on the state of the cache when no two halos share an ID. *)
Theorem C33_transparent : forall names columns vc cols N valNames ids T1 c1 c1' out1 T2 c2 c2' out2,
  setting names columns vc cols N -> Forall (known names) valNames -> unique_ids names cols ->
  reachable vc T1 c1 -> reachable vc T2 c2 ->
  read_rockstar vc valNames ids c1 = Ok (c1', out1) -> read_rockstar vc valNames ids c2 = Ok (c2', out2) -> out1 = out2.
Proof.
  intros names columns vc cols N valNames ids T1 c1 c1' out1 T2 c2 c2' out2 S Hk U R1 R2 E1 E2.
  destruct (cases names columns vc cols N S _ valNames ids c1 Hk R1) as [(_ & d1 & o1 & Q1 & V1)|(Q1 & _)]; [|congruence].
  destruct (cases names columns vc cols N S _ valNames ids c2 Hk R2) as [(_ & d2 & o2 & Q2 & V2)|(Q2 & _)]; [|congruence].
  assert (out1 = o1) by congruence. assert (out2 = o2) by congruence. subst. unfold values_of in *.
  eapply Forall2_fun; [|exact V1|exact V2]. intros id row row' (r & H1 & H2) (r' & H1' & H2'). assert (r = r') by eauto. subst r'.
  eapply Forall2_fun; [|exact H2|exact H2']. intros. eapply halo_value_fun; eauto.
Qed.

(** An ID that is not in the catalogue is an error, in every state. *)
Theorem C33_missing : forall names columns vc cols N valNames ids T c,
  setting names columns vc cols N -> Forall (known names) valNames -> reachable vc T c ->
  ~ Forall (in_catalogue names cols) ids -> read_rockstar vc valNames ids c = Err.
Proof.
  intros names columns vc cols N valNames ids T c S Hk Hr Hin.
  destruct (cases names columns vc cols N S _ valNames ids c Hk Hr) as [(Q & _)|(E & _)]; [contradiction|exact E].
Qed.

(** For -1 <= maxID < N there is an arrangement of all the rows of the catalogue by decreasing M200m of which the
    result lists the IDs of the first maxID+1 (all of them for -1), whichever cache file is used. *)
Theorem C33_sorted : forall names columns vc cols N maxID c,
  setting names columns vc cols N -> reachable vc (fun _ => False) c -> (-1 <= maxID < Z.of_nat N)%Z ->
  exists c' order ids, read_sorted_ids vc maxID (lit "M200m") c = Ok (c', ids) /\
    Permutation order (seq 0 N) /\
    by_mass V ltb (fun r v => halo_value V radius_of names cols r (lit "M200m") v) order /\
    Forall2 (has_id names cols) (if (maxID =? -1)%Z then order else firstn (Z.to_nat (maxID + 1)) order) ids.
Proof.
  intros names columns vc cols N maxID c S Hr Hm. destruct (sorted_out names columns vc cols N S _ maxID c Hm Hr) as [H|(_ & w & [])]. exact H.
Qed.

(** ** C47: requests that cannot be satisfied *)
Theorem C47_too_large_partial : forall names columns vc cols N maxID T c,
  setting names columns vc cols N -> reachable vc T c -> (Z.of_nat N < maxID)%Z ->
  read_sorted_ids vc maxID (lit "M200m") c = Err.
Proof. intros names columns vc cols N maxID T c S Hr Hm. eapply sorted_too_large; eauto. Qed.

(** Asking for one halo more than there are (maxID = N) crashes instead: ids[:maxID+1] is out of range. *)
Theorem C47_boundary_refuted : forall names columns vc cols N c,
  setting names columns vc cols N -> reachable vc (fun _ => False) c ->
  read_sorted_ids vc (Z.of_nat N) (lit "M200m") c = Panic.
Proof. intros names columns vc cols N c S Hr. eapply sorted_boundary; eauto. Qed.

(** ** C48: processes killed while they write cache files *)

(** An answer is right whatever was torn. *)
Theorem C48_never_wrong : forall names columns vc cols N valNames ids T c c' out,
  setting names columns vc cols N -> Forall (known names) valNames -> reachable vc T c ->
  read_rockstar vc valNames ids c = Ok (c', out) -> values_of names cols valNames ids out.
Proof.
  intros names columns vc cols N valNames ids T c c' out S Hk Hr E.
  destruct (cases names columns vc cols N S _ valNames ids c Hk Hr) as [(_ & d & o & Q & HV)|(Q & _)]; [|congruence].
  assert (out = o) by congruence. now subst.
Qed.

(** A torn short file does no harm to look-ups. *)
Theorem C48_short_harmless : forall names columns vc cols N valNames ids c,
  setting names columns vc cols N -> Forall (known names) valNames ->
  reachable vc (fun w => w = Short) c -> Forall (in_catalogue names cols) ids ->
  exists c' out, read_rockstar vc valNames ids c = Ok (c', out) /\ values_of names cols valNames ids out.
Proof.
  intros names columns vc cols N valNames ids c S Hk Hr Hin.
  destruct (cases names columns vc cols N S _ valNames ids c Hk Hr) as [(_ & H)|(_ & [H|H])]; [exact H|contradiction|discriminate].
Qed.

(** Sorted IDs after a crash are right or an error. *)
Theorem C48_sorted_never_wrong : forall names columns vc cols N maxID T c c' ids,
  setting names columns vc cols N -> reachable vc T c -> (-1 <= maxID < Z.of_nat N)%Z ->
  read_sorted_ids vc maxID (lit "M200m") c = Ok (c', ids) ->
  exists order, Permutation order (seq 0 N) /\
    by_mass V ltb (fun r v => halo_value V radius_of names cols r (lit "M200m") v) order /\
    Forall2 (has_id names cols) (if (maxID =? -1)%Z then order else firstn (Z.to_nat (maxID + 1)) order) ids.
Proof.
  intros names columns vc cols N maxID T c c' ids S Hr Hm E. destruct (sorted_out names columns vc cols N S _ maxID c Hm Hr) as [(d & o & ids' & Q & H)|(Q & _)]; [|congruence].
  assert (ids = ids') by congruence. subst. now exists o.
Qed.

(** ** C46: named values *)

(** GetColumn gives, for every name that has a meaning, the values of that name. *)
Theorem C46_named_values : forall names columns vc cols N name,
  new_var_columns names columns = Some vc -> catalogue_ok V names cols N -> known names name ->
  exists c, get_column V radius_of vc cols name = Some c /\ length c = N /\
    forall r v, nth_error c r = Some v <-> halo_value V radius_of names cols r name v.
Proof. intros. eapply get_column_known; eauto. Qed.

(** A name that has no meaning silently gives the values of the first column. *)
Theorem C99_unknown_refuted : forall names columns vc cols name c,
  new_var_columns names columns = Some vc -> names <> [] -> ~ known names name -> nth_error cols 0 = Some c ->
  get_column V radius_of vc cols name = Some c.
Proof. intros names columns vc cols name c Hvc Hn Hk Hc. destruct names as [|n0 ns]; [congruence|]. eapply get_column_unknown; eauto. Qed.
End Rockstar.

(** ** A concrete catalogue *)

(** Values are bytes, sorting is by insertion. *)
Definition benc (v : ascii) : list Z := Z.of_N (N_of_ascii v) :: repeat 0%Z 7.
Definition bdec (bs : list Z) : ascii := ascii_of_N (Z.to_N (hd 0%Z bs)).
Definition bltb (a b : ascii) : bool := N.ltb (N_of_ascii a) (N_of_ascii b).

Section Insertion.
Context {V : Type}.
Fixpoint ins (lt : V -> V -> bool) (i : nat) (v : V) (l : list (nat * V)) : list (nat * V) :=
  match l with [] => [(i, v)] | (j, w) :: l' => if lt w v then (j, w) :: ins lt i v l' else (i, v) :: l end.
Fixpoint isort (lt : V -> V -> bool) (s : nat) (xs : list V) : list (nat * V) :=
  match xs with [] => [] | x :: xs' => ins lt s x (isort lt (S s) xs') end.
Definition insertion_sort (lt : V -> V -> bool) (xs : list V) : list nat := map fst (isort lt 0 xs).

Lemma ins_perm lt i v l : Permutation (ins lt i v l) ((i, v) :: l).
Proof.
  induction l as [|(j, w) l IH]; [apply Permutation_refl|]. cbn [ins]. destruct (lt w v); [|apply Permutation_refl].
  eapply perm_trans; [apply perm_skip, IH|apply perm_swap].
Qed.

Lemma ins_sorted lt i v l : weak_order V lt -> StronglySorted (fun p q => lt (snd q) (snd p) = false) l ->
  StronglySorted (fun p q => lt (snd q) (snd p) = false) (ins lt i v l).
Proof.
  intros [W1 W2]. induction 1 as [|(j, w) l Hs IH F]; [constructor; constructor|]. cbn [ins]. destruct (lt w v) eqn:E.
  - constructor; [exact IH|]. apply Forall_forall. intros q Hq. apply (Permutation_in _ (ins_perm lt i v l)) in Hq. destruct Hq as [<-|Hq].
    + cbn [snd]. now apply W1.
    + now apply (proj1 (Forall_forall _ _) F).
  - constructor; [constructor; assumption|]. constructor; [exact E|]. eapply Forall_impl; [|exact F]. cbn [snd]. intros q Hq. eapply W2; eauto.
Qed.

Lemma isort_perm lt s xs : Permutation (isort lt s xs) (combine (seq s (length xs)) xs).
Proof.
  revert s. induction xs as [|x xs IH]; intros s; [apply Permutation_refl|]. cbn [isort length seq combine].
  eapply perm_trans; [apply ins_perm|]. now apply perm_skip.
Qed.

Lemma isort_sorted lt s xs : weak_order V lt -> StronglySorted (fun p q => lt (snd q) (snd p) = false) (isort lt s xs).
Proof. intros W. revert s. induction xs as [|x xs IH]; intros s; [constructor|]. cbn [isort]. now apply ins_sorted. Qed.

Lemma map_fst_combine {A B} (l : list A) (m : list B) : length l = length m -> map fst (combine l m) = l.
Proof. revert m. induction l as [|a l IH]; intros [|b m] H; try discriminate; [reflexivity|]. cbn. f_equal. apply IH. now injection H. Qed.

Lemma combine_seq_nth (s : nat) (xs : list V) i v : In (i, v) (combine (seq s (length xs)) xs) -> exists k, i = s + k /\ nth_error xs k = Some v.
Proof.
  revert s. induction xs as [|x xs IH]; intros s H; [destruct H|]. cbn [length seq combine] in H. destruct H as [[= <- <-]|H].
  - exists 0. split; [lia|reflexivity].
  - destruct (IH _ H) as (k & -> & Hk). exists (S k). split; [lia|exact Hk].
Qed.

Lemma SS_map_in {A} (R : A -> A -> Prop) (R' : nat -> nat -> Prop) (f : A -> nat) l :
  (forall a b, In a l -> In b l -> R a b -> R' (f a) (f b)) -> StronglySorted R l -> StronglySorted R' (map f l).
Proof.
  intros H. induction 1 as [|a l Hs IH F]; [constructor|]. cbn [map]. constructor.
  - apply IH. intros x y Hx Hy. apply H; now right.
  - apply Forall_forall. intros n Hn. apply in_map_iff in Hn. destruct Hn as (b & <- & Hb). apply H; [now left|now right|].
    now apply (proj1 (Forall_forall _ _) F).
Qed.

Lemma insertion_sorts lt : weak_order V lt -> sorts V insertion_sort lt.
Proof.
  intros W xs. unfold insertion_sort. split.
  - rewrite <- (map_fst_combine (seq 0 (length xs)) xs) by apply seq_length. apply Permutation_map, isort_perm.
  - eapply SS_map_in; [|apply isort_sorted, W]. intros [i v] [j w] Hi Hj. cbn [fst snd]. intros H a b Ha Hb.
    apply (Permutation_in _ (isort_perm lt 0 xs)) in Hi. apply (Permutation_in _ (isort_perm lt 0 xs)) in Hj.
    apply combine_seq_nth in Hi. apply combine_seq_nth in Hj. destruct Hi as (k & -> & Hk). destruct Hj as (k' & -> & Hk'). cbn [Nat.add] in *.
    congruence.
Qed.
End Insertion.

Definition ex_names : list bytes := [lit "ID"; lit "M200m"].
Definition ex_columns : list Z := [0; 3]%Z.
Definition ex_cols : list (list ascii) := [["a"; "b"; "c"]; ["5"; "9"; "7"]]%char.
Definition ex_vc : VarColumns := match new_var_columns ex_names ex_columns with Some vc => vc | None => Build_VarColumns [] [] [] 0 end.
Definition ex_id (v : ascii) : Z := Z.of_N (N_of_ascii v).
Definition ex_radius (_ : bytes) (v : ascii) : ascii := v.
Definition ex_read (_ : list Z) : res (list (list ascii)) := Ok ex_cols.

Lemma ex_setting : setting benc bdec bltb insertion_sort ex_read ex_names ex_columns ex_vc ex_cols 3.
Proof.
  constructor.
  - reflexivity.
  - repeat constructor; lia.
  - reflexivity.
  - split; [reflexivity|]. repeat constructor.
  - now vm_compute.
  - reflexivity.
  - intros v. unfold benc, bdec. cbn [hd]. rewrite N2Z.id. apply ascii_N_embedding.
  - intros lt. apply insertion_sorts.
  - split; unfold bltb; intros; rewrite ?N.ltb_lt, ?N.ltb_ge in *; lia.
  - now left.
  - left. right. now left.
Qed.

Definition ex_empty : cache := {| shortFile := None; fullFile := None |}.
Definition ex_lookup := read_rockstar ascii benc bdec bltb ex_id ex_radius insertion_sort ex_read ex_vc.
Definition ex_sorted := read_sorted_ids ascii benc bdec bltb ex_id ex_radius insertion_sort ex_read ex_vc.

Definition answer_of {A B} (r : res (A * B)) : res B := match r with Ok (_, b) => Ok b | Err => Err | Panic => Panic end.

Example C33_nonvacuous :
  reachable benc bdec bltb ex_id ex_radius insertion_sort ex_read ex_vc (fun _ => False) ex_empty /\
  Forall (known ex_names) [lit "R200m"; lit "M200m"] /\
  Forall (in_catalogue ex_id ex_radius ex_names ex_cols) [ex_id "b"%char; ex_id "a"%char] /\
  answer_of (ex_lookup [lit "R200m"; lit "M200m"] [ex_id "b"%char; ex_id "a"%char] ex_empty) = Ok [["9"; "9"]; ["5"; "5"]]%char /\
  answer_of (ex_sorted 1 (lit "M200m") ex_empty) = Ok [ex_id "b"%char; ex_id "c"%char].
Proof.
  split; [constructor|]. split.
  { constructor; [|constructor; [|constructor]].
    - right. exists (lit "M200m"). split; [now left|]. right. now left.
    - left. right. now left. }
  split.
  { constructor; [|constructor; [|constructor]].
    - exists 1, "b"%char. split; [|reflexivity]. eapply hv_column with (i := 0); try reflexivity. split; [reflexivity|].
      intros [|[|[|j]]] Hj; try lia; discriminate.
    - exists 0, "a"%char. split; [|reflexivity]. eapply hv_column with (i := 0); try reflexivity. split; [reflexivity|].
      intros [|[|[|j]]] Hj; try lia; discriminate. }
  split; vm_compute; reflexivity.
Qed.

(** Killing a process while it writes the full file makes halos of the catalogue unavailable, for ever. *)
Theorem C100_torn_full_refuted : exists c,
  reachable benc bdec bltb ex_id ex_radius insertion_sort ex_read ex_vc (fun _ => True) c /\
  in_catalogue ex_id ex_radius ex_names ex_cols (ex_id "b"%char) /\
  ex_lookup [lit "M200m"] [ex_id "b"%char] c = Err /\ ex_sorted (-1) (lit "M200m") c = Err /\
  cache_after ascii benc bltb ex_radius insertion_sort ex_read ex_vc Full c = c.
Proof.
  exists {| shortFile := Some []; fullFile := Some [] |}. split.
  { eapply (r_killed benc bdec bltb ex_id ex_radius insertion_sort ex_read ex_vc (fun _ => True) Full 0 _ {| shortFile := Some []; fullFile := None |});
      [|exact I|reflexivity|vm_compute; reflexivity].
    eapply (r_killed benc bdec bltb ex_id ex_radius insertion_sort ex_read ex_vc (fun _ => True) Short 0 _ ex_empty);
      [constructor|exact I|reflexivity|vm_compute; reflexivity]. }
  split. { pose proof (proj1 (proj2 (proj2 C33_nonvacuous))) as H. now inversion H. }
  split; [vm_compute; reflexivity|]. split; [vm_compute; reflexivity|]. reflexivity.
Qed.

Example C46_nonvacuous : new_var_columns ex_names ex_columns = Some ex_vc /\ catalogue_ok ascii ex_names ex_cols 3 /\
  known ex_names (lit "R200m") /\ get_column ascii ex_radius ex_vc ex_cols (lit "R200m") = Some ["5"; "9"; "7"]%char /\
  ~ known ex_names (lit "R200c") /\ get_column ascii ex_radius ex_vc ex_cols (lit "R200c") = Some ["a"; "b"; "c"]%char.
Proof.
  split; [reflexivity|]. split; [split; [reflexivity|]; repeat constructor|]. split.
  { right. exists (lit "M200m"). split; [now left|]. right. now left. }
  split; [reflexivity|]. split; [|reflexivity].
  intros [[H|[H|[]]]|(m & H1 & H2)]; [discriminate|discriminate|]. unfold radius_pairs in H1. cbn [In] in H1.
  destruct H1 as [H1|[[= <-]|[H1|[H1|[]]]]]; try discriminate. destruct H2 as [H2|[H2|[]]]; discriminate.
Qed.

Example C47_nonvacuous : ex_sorted 4 (lit "M200m") ex_empty = Err /\ ex_sorted 3 (lit "M200m") ex_empty = Panic.
Proof. split; vm_compute; reflexivity. Qed.

Print Assumptions C33_lookup.
Print Assumptions C33_transparent.
Print Assumptions C33_missing.
Print Assumptions C33_sorted.
Print Assumptions C46_named_values.
Print Assumptions C99_unknown_refuted.
Print Assumptions C47_too_large_partial.
Print Assumptions C47_boundary_refuted.
Print Assumptions C48_never_wrong.
Print Assumptions C48_short_harmless.
Print Assumptions C48_sorted_never_wrong.
Print Assumptions C100_torn_full_refuted.
