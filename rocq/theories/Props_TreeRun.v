(** * C141-C143: tree mode *)
From Verif Require Import GoBase GoBaseFacts ConfigSpec CatalogModel CatalogSpec CatalogProofs CatalogProofs2 CatalogProofs3 TreeModel TreeProofs TreeRunModel Props_Tree.
From Coq Require Import ZArith List Lia Bool.
Import List ListNotations.

(** ** Specification *)

(** The row of a halo. *)
Definition printed (p : Z * Z) : list bytes := [itoa (fst p); itoa (snd p)].

(** The history of halo id: the main line through it in the first file that has it, with its snapshots. *)
Definition history_of (files : list HTree) (offset : Z) (id : Z) (r : list (Z * Z)) : Prop :=
  exists before t after root hs, files = before ++ t :: after /\ Forall (fun f => ~ in_tree f id) before /\ root_of t id root /\ main_line t root hs /\
    r = map (fun h => (th_id h, (Z.of_nat (length t) - th_index h + offset)%Z)) hs.

(** The snapshots asked for. *)
Definition wanted (snapMin snapMax : Z) (select : list Z) (p : Z * Z) : bool :=
  ((snapMin <=? snd p) && (snd p <=? snapMax))%Z && (match select with [] => true | _ => false end || existsb (Z.eqb (snd p)) select).

(** How often a row is printed. *)
Definition copies (snapMin snapMax : Z) (select : list Z) (p : Z * Z) : nat :=
  if ((snapMin <=? snd p) && (snd p <=? snapMax))%Z then match select with [] => 1 | _ => count_occ Z.eq_dec select (snd p) end else 0.

(** ** Proofs *)
Lemma keep_line_copies snapMin snapMax select line p : keep_line snapMin snapMax select line (snd p) = repeat line (copies snapMin snapMax select p).
Proof.
  unfold keep_line, copies. destruct (_ && _); [|reflexivity]. destruct select as [|s select]; [reflexivity|]. generalize (s :: select). clear. intros l.
  induction l as [|s l IH]; cbn [flat_map count_occ]; [reflexivity|]. destruct (Z.eqb_spec s (snd p)) as [E|E]; destruct (Z.eq_dec s (snd p)); try contradiction; cbn [app repeat]; [now rewrite IH|exact IH].
Qed.


Lemma join_histories_flat (f : Z * Z -> nat) sets : f (-1, -1)%Z = 0%nat ->
  flat_map (fun p => repeat (printed p) (f p)) (join_histories sets) = flat_map (fun p => repeat (printed p) (f p)) (concat sets).
Proof.
  intros Hf. induction sets as [|s sets IH]; [reflexivity|]. destruct sets as [|s' sets]; [cbn [join_histories concat]; now rewrite app_nil_r|].
  change (join_histories (s :: s' :: sets)) with (s ++ (-1, -1)%Z :: join_histories (s' :: sets)). change (concat (s :: s' :: sets)) with (s ++ concat (s' :: sets)).
  rewrite !flat_map_app. cbn [flat_map]. rewrite Hf. cbn [repeat app]. now rewrite IH.
Qed.

Lemma data_rows_repeat l ws n ls rows : line_words l ws -> ws <> [] -> data_rows ls rows -> data_rows (repeat l n ++ ls) (repeat ws n ++ rows).
Proof. intros H1 H2 H3. induction n; cbn [repeat app]; [exact H3|]. now constructor. Qed.

Lemma data_rows_flat (g : Z * Z -> nat) : forall (ps : list (Z * Z)) lines, data_rows lines (map printed ps) -> length lines = length ps ->
  data_rows (flat_map (fun q => repeat (fst q) (g (snd q))) (combine lines ps)) (flat_map (fun p => repeat (printed p) (g p)) ps).
Proof.
  induction ps as [|p ps IH]; intros lines H HL; destruct lines as [|l lines]; try discriminate; [constructor|]. cbn [map combine flat_map fst snd] in *.
  assert (Hlen : forall ls rows, data_rows ls rows -> (length rows <= length ls)%nat) by (clear; intros ls rows H; induction H; cbn [length]; lia).
  inversion H as [|? ? ? Hb Hd E1 E2|? ? ? ? Hw Hne Hd E1 E2]; subst.
  - apply Hlen in Hd. cbn [length] in Hd. rewrite map_length in Hd. injection HL as HL. lia.
  - apply data_rows_repeat; [exact Hw|discriminate|]. apply IH; [exact Hd|now injection HL].
Qed.

Lemma formatRows_length cols : forall k i tokens ls, formatRows tokens cols i k = Some ls -> length ls = k.
Proof.
  induction k as [|k IH]; intros i tokens ls; cbn [formatRows]; [now intros [= <-]|]. destruct (fillTokens tokens cols i 0) as [t|]; [|discriminate].
  destruct (formatRows t cols (S i) k) as [l|] eqn:E; cbn [option_map]; [|discriminate]. intros [= <-]. cbn [length]. now rewrite (IH _ _ _ E).
Qed.

(** FormatCols gives as many lines as rows. *)
Lemma tree_lines {F} (fmtFloat : F -> bytes) (rows : list (Z * Z)) : exists lines, FormatCols F fmtFloat [map fst rows; map snd rows] [] [0; 1]%Z = Some lines /\
  length lines = length rows /\ Forall (fun l => ~ In nl l) lines /\ data_rows lines (map printed rows).
Proof.
  destruct (FormatCols_lines F (fun _ => None) fmtFloat [map fst rows; map snd rows] [] [0; 1]%Z (length rows)) as (lines & E & Hnl & Hd & _).
  - repeat constructor; apply map_length. - constructor. - constructor. - cbn; lia. - discriminate. - repeat constructor; cbn; lia.
  - exists lines. split; [exact E|].
    assert (Hrows : map (out_row (cells F fmtFloat [map fst rows; map snd rows] []) [0; 1]%Z) (seq 0 (length rows)) = map printed rows).
    { apply (nth_ext _ _ [] []); [now rewrite !map_length, seq_length|]. intros i Hi. rewrite map_length, seq_length in Hi.
      rewrite (nth_indep _ _ (out_row (cells F fmtFloat [map fst rows; map snd rows] []) [0; 1]%Z 0)) by (rewrite map_length, seq_length; lia). rewrite map_nth, seq_nth by lia.
      rewrite (nth_indep (map printed rows) _ (printed (0, 0)%Z)) by (rewrite map_length; lia). rewrite map_nth. cbn [out_row cells app map plus]. change (Z.to_nat 0) with 0%nat. change (Z.to_nat 1) with 1%nat. cbn [nth]. unfold printed.
      rewrite !map_map. rewrite (nth_indep (map (fun x => itoa (fst x)) rows) [] (itoa (fst (0, 0)%Z))) by (rewrite map_length; lia). rewrite (nth_indep (map (fun x => itoa (snd x)) rows) [] (itoa (snd (0, 0)%Z))) by (rewrite map_length; lia).
      rewrite (map_nth (fun x => itoa (fst x))), (map_nth (fun x => itoa (snd x))). reflexivity. }
    rewrite Hrows in Hd. split; [|split; [exact Hnl|exact Hd]].
    clear Hd Hnl Hrows. revert E. unfold FormatCols. destruct rows as [|r rows]; [intros [= <-]; reflexivity|].
    change ((Nat.eqb (List.length [map fst (r :: rows); map snd (r :: rows)]) 0 && Nat.eqb (List.length (@nil (list F))) 0) || hd_empty [map fst (r :: rows); map snd (r :: rows)] || hd_empty (@nil (list F))) with false. cbv iota.
    destruct (formatCols1_spec itoa (length (r :: rows)) (Nat.lt_0_succ _) [map fst (r :: rows); map snd (r :: rows)] None) as (fi & E1 & _); [repeat constructor; apply map_length|now left|].
    rewrite E1. cbn [formatCols1]. destruct (orderCols _ _) as [oc|]; [|discriminate]. intros E. now apply formatRows_length in E.
Qed.

Lemma header_ok : exists c, CommentString [lit "ID"; lit "Snapshot"] [] [0; 1]%Z [1; 1]%Z = Some c /\ ~ In nl c /\ line_words c [].
Proof.
  destruct (CommentString [lit "ID"; lit "Snapshot"] [] [0; 1]%Z [1; 1]%Z) as [c|] eqn:E; [|discriminate]. exists c. split; [reflexivity|].
  apply (CommentString_is_comment [lit "ID"; lit "Snapshot"] [] [0; 1]%Z [1; 1]%Z); [|exact E]. repeat constructor; vm_compute; intuition discriminate.
Qed.

(** The run in general: every row of the joined histories is printed as often as it is selected. *)
Lemma tree_run_rows {F} (parseFloat : bytes -> option F) fmtFloat fuel files offset snapMin snapMax select stdin ls rows ids snaps :
  lines_of stdin ls -> data_rows ls rows -> plain_first rows -> table_is parseFloat rows [0; 1]%Z [] [ids; snaps] [] ->
  Forall tree_ok files -> Forall (fun t => (length t <= fuel)%nat) files -> Forall (fun id => exists t, In t files /\ in_tree t id) ids ->
  exists sets out, Forall2 (history_of files offset) ids sets /\ tree_run parseFloat fmtFloat fuel files offset snapMin snapMax select stdin = Some (Ok out) /\
    Forall (fun l => ~ In nl l) out /\ data_rows out (flat_map (fun p => repeat (printed p) (copies snapMin snapMax select p)) (join_histories sets)).
Proof.
  intros Hl Hd Hp Ht Hok Hfuel Hin. unfold tree_run. rewrite (Parse_complete F parseFloat stdin ls rows [0; 1]%Z [] [ids; snaps] [] Hl Hd Hp Ht).
  destruct (C27_histories files ids offset fuel Hok Hfuel Hin) as (sets & E & HF). rewrite E. cbv zeta. exists sets.
  destruct (tree_lines fmtFloat (join_histories sets)) as (lines & EL & HL & Hnl & HD). rewrite EL. destruct header_ok as (c & EC & Hcn & Hcw). rewrite EC. eexists.
  split; [clear - HF; induction HF as [|id r ids sets (b & t & a & root & hs & H1 & H2 & H3 & H4 & H5 & _) _ IH]; constructor; [exists b, t, a, root, hs; auto|exact IH]|].
  split; [reflexivity|].
  assert (EM : flat_map (fun p => keep_line snapMin snapMax select (fst p) (snd p)) (combine lines (map snd (join_histories sets))) =
               flat_map (fun q => repeat (fst q) (copies snapMin snapMax select (snd q))) (combine lines (join_histories sets))).
  { clear. generalize (join_histories sets). revert lines. induction lines as [|l lines IH]; intros [|p ps]; cbn [combine map flat_map fst snd]; try reflexivity. rewrite keep_line_copies, IH. reflexivity. }
  rewrite EM. split.
  - constructor; [exact Hcn|]. rewrite Forall_forall in *. intros l Hin'. apply in_flat_map in Hin'. destruct Hin' as ((l', p) & Hq & Hr). apply repeat_spec in Hr. cbn in Hr. subst l. apply in_combine_l in Hq. auto.
  - apply dr_blank; [exact Hcw|]. now apply data_rows_flat.
Qed.

(** ** C141: the output of tree mode *)

(** For every input catalogue, every set of tree files that has all its halos, and every list of distinct selected snapshots: the output has exactly the (ID, snapshot) pairs of the
    main branches of the input halos, halo by halo in input order and in the order of the branch, that are between SnapMin and SnapMax and selected. *)
Theorem C141_tree_output_partial : forall {F} (parseFloat : bytes -> option F) fmtFloat fuel files offset snapMin snapMax select stdin ls rows ids snaps,
  lines_of stdin ls -> data_rows ls rows -> plain_first rows -> table_is parseFloat rows [0; 1]%Z [] [ids; snaps] [] ->
  Forall tree_ok files -> Forall (fun t => (length t <= fuel)%nat) files -> Forall (fun id => exists t, In t files /\ in_tree t id) ids ->
  (0 <= snapMin)%Z -> NoDup select ->
  exists sets out, Forall2 (history_of files offset) ids sets /\ tree_run parseFloat fmtFloat fuel files offset snapMin snapMax select stdin = Some (Ok out) /\
    Forall (fun l => ~ In nl l) out /\ data_rows out (map printed (filter (wanted snapMin snapMax select) (concat sets))).
Proof.
  intros F pf fmt fuel files offset snapMin snapMax select stdin ls rows ids snaps Hl Hd Hp Ht Hok Hfuel Hin Hmin Hnd.
  destruct (tree_run_rows pf fmt fuel files offset snapMin snapMax select stdin ls rows ids snaps Hl Hd Hp Ht Hok Hfuel Hin) as (sets & out & HF & E & Hnl & HD).
  exists sets, out. split; [exact HF|]. split; [exact E|]. split; [exact Hnl|]. rewrite join_histories_flat in HD.
  2: { unfold copies. cbn [snd]. destruct (Z.leb_spec snapMin (-1)); [lia|reflexivity]. }
  replace (map printed (filter (wanted snapMin snapMax select) (concat sets))) with (flat_map (fun p => repeat (printed p) (copies snapMin snapMax select p)) (concat sets)); [exact HD|].
  assert (HC : forall p, copies snapMin snapMax select p = if wanted snapMin snapMax select p then 1%nat else 0%nat).
  { intros p. unfold copies, wanted. destruct (_ && _)%Z; [|reflexivity]. destruct select as [|s sel]; [reflexivity|]. cbn [orb andb]. generalize (snd p). intros z.
    destruct (existsb (Z.eqb z) (s :: sel)) eqn:Ex.
    - apply existsb_exists in Ex. destruct Ex as (x & Hx & Ez). apply Z.eqb_eq in Ez. subst x. now apply NoDup_count_occ'.
    - apply count_occ_not_In. intros Hx. assert (existsb (Z.eqb z) (s :: sel) = true) by (apply existsb_exists; exists z; split; [exact Hx|apply Z.eqb_refl]). congruence. }
  clear - HC. induction (concat sets) as [|p ps IH]; cbn [flat_map filter map]; [reflexivity|]. rewrite HC. destruct (wanted snapMin snapMax select p); cbn [repeat app map]; now rewrite IH.
Qed.
Print Assumptions C141_tree_output_partial.

(** A snapshot that is listed k times in SelectSnaps is printed k times: two equal lists of requests, different outputs. *)
Theorem C141_repeated_selection_refuted : forall {F} (parseFloat : bytes -> option F) fmtFloat fuel files offset snapMin snapMax s k stdin ls rows id snap,
  lines_of stdin ls -> data_rows ls rows -> plain_first rows -> table_is parseFloat rows [0; 1]%Z [] [[id]; [snap]] [] ->
  Forall tree_ok files -> Forall (fun t => (length t <= fuel)%nat) files -> (exists t, In t files /\ in_tree t id) -> (snapMin <= s <= snapMax)%Z ->
  exists set out, history_of files offset id set /\ tree_run parseFloat fmtFloat fuel files offset snapMin snapMax (repeat s (S k)) stdin = Some (Ok out) /\
    data_rows out (flat_map (fun p => repeat (printed p) (S k)) (filter (fun p => (snd p =? s)%Z) set)).
Proof.
  intros F pf fmt fuel files offset snapMin snapMax s k stdin ls rows id snap Hl Hd Hp Ht Hok Hfuel Hin Hs.
  destruct (tree_run_rows pf fmt fuel files offset snapMin snapMax (repeat s (S k)) stdin ls rows [id] [snap] Hl Hd Hp Ht Hok Hfuel) as (sets & out & HF & E & _ & HD); [constructor; [exact Hin|constructor]|].
  inversion HF as [|? set ? sets' H1 H2]; subst. inversion H2; subst. exists set, out. split; [exact H1|]. split; [exact E|]. cbn [join_histories] in HD.
  replace (flat_map (fun p => repeat (printed p) (S k)) (filter (fun p => (snd p =? s)%Z) set)) with (flat_map (fun p => repeat (printed p) (copies snapMin snapMax (repeat s (S k)) p)) set); [exact HD|].
  clear - Hs. induction set as [|p ps IH]; [reflexivity|]. cbn [flat_map filter].
  assert (EC : copies snapMin snapMax (repeat s (S k)) p = if (snd p =? s)%Z then S k else 0%nat).
  { unfold copies. destruct (Z.eqb_spec (snd p) s) as [->|Hne].
    - replace ((snapMin <=? s) && (s <=? snapMax))%Z with true by (symmetry; apply andb_true_intro; split; lia). cbn [repeat]. change (s :: repeat s k) with (repeat s (S k)). clear.
      induction (S k) as [|n IHn]; [reflexivity|]. cbn [repeat count_occ]. destruct (Z.eq_dec s s); [now rewrite IHn|congruence].
    - destruct (_ && _)%Z; [|reflexivity]. cbn [repeat]. change (s :: repeat s k) with (repeat s (S k)). apply count_occ_not_In. intros Hx. apply repeat_spec in Hx. congruence. }
  rewrite EC, IH. destruct (snd p =? s)%Z; reflexivity.
Qed.
Print Assumptions C141_repeated_selection_refuted.

(** A tree file with three snapshots, halo 7 with progenitor 8 and descendant 6, and halo 9. *)
Definition small_tree : HTree := [[mkTH 6 0 None (Some (1, 0)%nat)]; [mkTH 7 1 (Some (0, 0)%nat) (Some (2, 0)%nat); mkTH 9 1 None None]; [mkTH 8 2 (Some (1, 0)%nat) None]].
Example C141_nonvacuous :
  tree_run (F := nat) (fun _ => None) (fun _ => []) 3 [small_tree] 0 0 100 [] (lit "7 2" ++ [nl] ++ lit "9 2") =
    Some (Ok [lit "# Column contents: ID(0) Snapshot(1)"; lit " 8  1"; lit " 7  2"; lit " 6  3"; lit " 9  2"]) /\
  tree_run (F := nat) (fun _ => None) (fun _ => []) 3 [small_tree] 0 0 100 [3; 2; 3]%Z (lit "7 2" ++ [nl] ++ lit "9 2") =
    Some (Ok [lit "# Column contents: ID(0) Snapshot(1)"; lit " 7  2"; lit " 6  3"; lit " 6  3"; lit " 9  2"]) /\ tree_ok small_tree /\ in_tree small_tree 7.
Proof.
  split; [vm_compute; reflexivity|]. split; [vm_compute; reflexivity|]. split.
  - intros i h (l & Hl & Hin). unfold small_tree in Hl. destruct i as [|[|[|i]]]; cbn in Hl; [| | |destruct i; discriminate]; injection Hl as <-; cbn in Hin; repeat (destruct Hin as [<-|Hin]; [cbn; repeat split; intros ? ? E; try discriminate; injection E as <- <-; lia|]); destruct Hin.
  - exists 1%nat. eexists. split; [eexists; split; [reflexivity|left; reflexivity]|reflexivity].
Qed.

(** A halo that is in no tree file makes the run fail, whatever else is asked for. *)
Theorem C141_missing_halo : forall {F} (parseFloat : bytes -> option F) fmtFloat fuel files offset snapMin snapMax select stdin ls rows before id after snaps,
  lines_of stdin ls -> data_rows ls rows -> plain_first rows -> table_is parseFloat rows [0; 1]%Z [] [before ++ id :: after; snaps] [] ->
  Forall tree_ok files -> Forall (fun t => (length t <= fuel)%nat) files -> Forall (fun r => exists t, In t files /\ in_tree t r) before -> (forall t, In t files -> ~ in_tree t id) ->
  tree_run parseFloat fmtFloat fuel files offset snapMin snapMax select stdin = Some Err.
Proof.
  intros F pf fmt fuel files offset snapMin snapMax select stdin ls rows before id after snaps Hl Hd Hp Ht Hok Hfuel Hb Hn. unfold tree_run.
  rewrite (Parse_complete F pf stdin ls rows [0; 1]%Z [] _ [] Hl Hd Hp Ht). rewrite (C27_missing files before id after offset fuel Hok Hfuel Hb Hn). reflexivity.
Qed.
Print Assumptions C141_missing_halo.

(** ** C142: histories are separated *)

(** The separators that the code puts between histories never reach the output if SnapMin is not negative: the output for two halos is the two outputs joined, with no row of
    snapshot -1. *)
Theorem C142_separators_refuted : forall {F} (parseFloat : bytes -> option F) fmtFloat fuel files offset snapMin snapMax select stdin ls rows ids snaps,
  lines_of stdin ls -> data_rows ls rows -> plain_first rows -> table_is parseFloat rows [0; 1]%Z [] [ids; snaps] [] ->
  Forall tree_ok files -> Forall (fun t => (length t <= fuel)%nat) files -> Forall (fun id => exists t, In t files /\ in_tree t id) ids -> (0 <= snapMin)%Z ->
  exists out rows', tree_run parseFloat fmtFloat fuel files offset snapMin snapMax select stdin = Some (Ok out) /\ data_rows out (map printed rows') /\
    Forall (fun p => (0 <= snd p)%Z) rows'.
Proof.
  intros F pf fmt fuel files offset snapMin snapMax select stdin ls rows ids snaps Hl Hd Hp Ht Hok Hfuel Hin Hmin.
  destruct (tree_run_rows pf fmt fuel files offset snapMin snapMax select stdin ls rows ids snaps Hl Hd Hp Ht Hok Hfuel Hin) as (sets & out & _ & E & _ & HD).
  exists out, (flat_map (fun p => repeat p (copies snapMin snapMax select p)) (join_histories sets)). split; [exact E|]. split.
  - replace (map printed (flat_map (fun p => repeat p (copies snapMin snapMax select p)) (join_histories sets))) with (flat_map (fun p => repeat (printed p) (copies snapMin snapMax select p)) (join_histories sets)); [exact HD|].
    clear. induction (join_histories sets) as [|p ps IH]; cbn [flat_map map]; [reflexivity|]. rewrite map_app, IH. f_equal. clear. induction (copies snapMin snapMax select p); cbn [repeat map]; congruence.
  - apply Forall_forall. intros p Hp'. apply in_flat_map in Hp'. destruct Hp' as (q & _ & Hr). pose proof (repeat_spec _ _ _ Hr) as ->. unfold copies in Hr. destruct (Z.leb_spec snapMin (snd q)); [lia|]. destruct Hr.
Qed.
Print Assumptions C142_separators_refuted.

(** Two halos, four rows, no separator (the run of C141_nonvacuous). *)
Example C142_nonvacuous : exists ls rows, lines_of (lit "7 2" ++ [nl] ++ lit "9 2") ls /\ data_rows ls rows /\ plain_first rows /\ table_is (F := nat) (fun _ => None) rows [0; 1]%Z [] [[7; 9]; [2; 2]]%Z [].
Proof.
  exists [lit "7 2"; lit "9 2"], [[lit "7"; lit "2"]; [lit "9"; lit "2"]]. split; [|split; [|split]].
  - split; [discriminate|]. split; [|reflexivity]. repeat constructor; vm_compute; intuition discriminate.
  - apply data_rows_iff. reflexivity.
  - repeat constructor; vm_compute; lia.
  - split; [exists 2%nat; repeat constructor|]. split; [|constructor].
    repeat constructor; (eexists; split; [lia|split; [reflexivity|]]); now apply GoBaseFacts.atoi_spec.
Qed.

(** ** C143: the tree files *)
Lemma skipn_twice {A} a b (l : list A) : skipn a (skipn b l) = skipn (b + a) l.
Proof. revert l. induction b as [|b IH]; intros l; [reflexivity|]. destruct l as [|x l]; cbn [plus skipn]; [now rewrite skipn_nil|apply IH]. Qed.


(** A file of the tree directory is used exactly if its name is tree_ - anything - .dat; the order is that of the listing, each once. *)
Theorem C143_tree_files : forall names, (forall n, In n (tree_files names) <-> In n names /\ exists middle, n = lit "tree_" ++ middle ++ lit ".dat") /\
  exists drop, tree_files names = filter drop names /\ (NoDup names -> NoDup (tree_files names)).
Proof.
  intros names.
  assert (HS : forall n, tree_file_name n = true <-> exists middle, n = lit "tree_" ++ middle ++ lit ".dat").
  { intros n. unfold tree_file_name. rewrite !andb_true_iff, Nat.ltb_lt. split.
    - intros ((Hl & H1) & H2). apply beq_true in H1. apply beq_true in H2.
      assert (Hlen : (9 <= List.length n)%nat).
      { destruct n as [|c0 [|c1 [|c2 [|c3 [|c4 [|c5 [|c6 [|c7 [|c8 n]]]]]]]]]; cbn [List.length] in *; try lia; exfalso; cbn in H1, H2; congruence. }
      exists (firstn (List.length n - 9) (skipn 5 n)). rewrite <- H1, <- H2.
      rewrite <- (firstn_skipn 5 n) at 1. f_equal. rewrite <- (firstn_skipn (List.length n - 9) (skipn 5 n)) at 1. f_equal. rewrite skipn_twice. f_equal. lia.
    - intros (m & ->). assert (HL : List.length (lit "tree_" ++ m ++ lit ".dat") = (5 + List.length m + 4)%nat) by (rewrite !app_length; cbn; lia). rewrite HL. split; [split; [lia|]|].
      + change (firstn 5 (lit "tree_" ++ m ++ lit ".dat")) with (lit "tree_"). apply beq_refl.
      + replace (5 + List.length m + 4 - 4)%nat with (List.length (lit "tree_" ++ m) + 0)%nat by (rewrite app_length; cbn; lia). rewrite app_assoc, skipn_app.
        rewrite skipn_all2 by lia. replace (List.length (lit "tree_" ++ m) + 0 - List.length (lit "tree_" ++ m))%nat with 0%nat by lia. apply beq_refl. }
  split.
  - intros n. unfold tree_files. rewrite filter_In, HS. reflexivity.
  - exists tree_file_name. split; [reflexivity|]. intros Hn. now apply NoDup_filter.
Qed.
Print Assumptions C143_tree_files.

Example C143_nonvacuous : tree_files [lit "forests.list"; lit "tree_0_0_0.dat"; lit "tree_0_0_1.dat.gz"; lit "tree_.dat"; lit "tree.dat"] = [lit "tree_0_0_0.dat"; lit "tree_.dat"].
Proof. reflexivity. Qed.
