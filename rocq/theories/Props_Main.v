(** * C118-C122: the main program and pipes of shellfish commands. *)
From Coq Require Import Lia ZArith.
From Verif Require Import GoBase GoBaseFacts VersionModel ConfigModel ConfigSpec GlobalModel GlobalSpec GlobalProofs MainModel Props_Global.
Import List ListNotations.
Local Open Scope list_scope.

(** The marker by which a stage of a pipe tells the next one that it failed. *)
Definition marked (out : bytes) : Prop := exists l r, out = lit "Shellfish" ++ l ++ [nl] ++ r /\ ~ In nl l.

Lemma index_nl l r : ~ In nl l -> index_byte nl (l ++ nl :: r) = Some (length l).
Proof.
  induction l as [|a l IH]; intros H; cbn [app index_byte length]; [now rewrite Ascii.eqb_refl|].
  rewrite (proj2 (Ascii.eqb_neq a nl)) by (intros ->; apply H; now left). rewrite IH by (intros K; apply H; now right). reflexivity.
Qed.

Lemma upstream_marked out : marked out -> exists l, upstream_failed out = Some (lit "Shellfish" ++ l) /\ ~ In nl l.
Proof.
  intros (l & r & -> & N). exists l. split; [|exact N]. unfold upstream_failed.
  assert (E : lit "Shellfish" ++ l ++ [nl] ++ r = (lit "Shellfish" ++ l) ++ nl :: r) by (rewrite <- app_assoc; reflexivity).
  rewrite E, index_nl.
  2:{ intros H. apply in_app_or in H. destruct H as [H|H]; [|contradiction]. cbn in H. repeat (destruct H as [H|H]; [discriminate|]). exact H. }
  replace (9 <=? length (lit "Shellfish" ++ l)) with true by (symmetry; apply Nat.leb_le; rewrite app_length; cbn; lia).
  rewrite <- app_assoc. change (firstn 9 (lit "Shellfish" ++ l ++ nl :: r)) with (lit "Shellfish"). rewrite beq_refl. cbn [andb].
  rewrite app_assoc, firstn_app, firstn_all, Nat.sub_diag, firstn_O, app_nil_r. reflexivity.
Qed.

Lemma terminating_marked : marked terminating.
Proof.
  exists (lit " terminating."), []. split; [reflexivity|]. cbn. intros H. repeat (destruct H as [H|H]; [discriminate|]). exact H.
Qed.

(** ** C121: config file and flags on the command line *)

(** The word after the mode is the config file unless it is missing, empty or starts with '-'; every other word is a flag
    word, in order. *)
Theorem C121_arguments : forall args,
  (getConfig args = None /\ getFlags args = args /\
     (args = [] \/ exists a rest, args = a :: rest /\ (a = [] \/ exists s, a = "-"%char :: s))) \/
  (exists c rest, args = c :: rest /\ c <> [] /\ (forall s, c <> "-"%char :: s) /\
     getConfig args = Some c /\ getFlags args = rest).
Proof.
  intros [|[|c s] rest]; cbn [getConfig getFlags].
  - left. auto.
  - left. repeat split; auto. right. exists [], rest. auto.
  - destruct (Ascii.eqb_spec c "-"%char) as [->|N].
    + left. repeat split; auto. right. eexists _, rest. split; [reflexivity|]. right. eauto.
    + right. exists (c :: s), rest. repeat split; try easy. intros s' [= -> _]. contradiction.
Qed.
Print Assumptions C121_arguments.

Example C121_nonvacuous : getConfig [lit "a.config"; lit "--IDs"; lit "3"] = Some (lit "a.config") /\
  getFlags [lit "a.config"; lit "--IDs"; lit "3"] = [lit "--IDs"; lit "3"] /\ getFlags [lit "--IDs"; lit "3"] = [lit "--IDs"; lit "3"].
Proof. repeat split. Qed.

Section P.
Variable F : Type.
Variable parseFloat : bytes -> option F.
Variable toLower : bytes -> bytes.
Variable isMinus1 : F -> bool.
Variables fminus1 f1 : F.
Variable dirOK : bytes -> bool.

Notation read := (read_global F parseFloat toLower isMinus1 fminus1 f1 dirOK).
Notation prints := (read_prints F parseFloat toLower isMinus1 fminus1 f1 dirOK).
Notation main_ := (main F parseFloat toLower isMinus1 fminus1 f1 dirOK).
Notation main_mode_ := (main_mode F parseFloat toLower isMinus1 fminus1 f1 dirOK).
Notation pipe_ := (pipe F parseFloat toLower isMinus1 fminus1 f1 dirOK).

(** Some line of the file selects nil snapshots. *)
Definition mentions_nil (text : bytes) : Prop := exists st,
  ReadConfig F parseFloat toLower text (global_vars F fminus1 f1) (global_defaults F fminus1 f1) = (Nil, st) /\
  g_snapshotType (fields F fminus1 st) = lit "nil".

(** Reading a config file prints nothing unless it selects nil snapshots. *)
Lemma quiet_unless_nil text : ~ mentions_nil text -> prints text = [].
Proof.
  intros N. unfold read_prints. destruct (ReadConfig F parseFloat toLower text _ _) as [[| |] st] eqn:E; try reflexivity.
  unfold validate_prints. destruct (validateVersion _ _); [|reflexivity]. destruct (one_of _ _); [|reflexivity].
  destruct (one_of (g_haloType _) _); [|reflexivity]. cbn [andb]. destruct (units F (fields F fminus1 st)) as [g|] eqn:U; [|reflexivity].
  destruct (one_of _ _ && _); [|reflexivity]. cbn [andb]. unfold prints_line.
  destruct (beq (g_snapshotType g) (lit "nil")) eqn:B; [|reflexivity]. exfalso. apply N. exists st. split; [exact E|].
  apply beq_true in B. apply units_spec in U. destruct U as ((p & r & m & ->) & _). exact B.
Qed.

(** A process that names a mode, whose Logging variable is a legal one, and whose config files do not ask for nil snapshots. *)
Definition ordinary (p : process F) : Prop :=
  p_args p <> [] /\
  (forall t, p_global p = Some t \/ p_memo p = Some t -> ~ mentions_nil t) /\
  (forall t g, p_global p = Some t -> read t = Ok g -> among (g_logging g) ["nil"; "performance"; "debug"]%string).

Definition reads_stdin (p : process F) : Prop := exists m rest, p_args p = m :: rest /\ among m stdin_modes.

Lemma main_mode_marked p mode rest stdin out : ordinary p -> main_mode_ p mode rest stdin = (out, 1) -> marked out.
Proof.
  intros (_ & Q & L). unfold main_mode. destruct (p_global p) as [text|] eqn:G; [|intros [= <-]; exact terminating_marked].
  assert (P : prints text = []) by (apply quiet_unless_nil, Q; now left). rewrite P. cbv zeta.
  destruct (read text) as [g| |] eqn:R; [|intros [= <-]; exact terminating_marked|discriminate].
  destruct (p_config p _ _) as [[]| |]; [|intros [= <-]; exact terminating_marked|discriminate].
  assert (M : memo_prints F parseFloat toLower isMinus1 fminus1 f1 dirOK (p_memo p) text = []).
  { unfold memo_prints. destruct (p_memo p) as [m|] eqn:Em; [|reflexivity]. rewrite P, R.
    rewrite (quiet_unless_nil m) by (apply Q; now right). reflexivity. }
  rewrite M. cbn [app].
  destruct (fst (checkMemoDir _ _ _ _ _ _ _ _ _ _)) as [[]| |]; [|intros [= <-]; exact terminating_marked|discriminate].
  destruct (one_of mode particle_modes && _).
  { intros [= <-]. exists (lit " terminating"), []. split; [reflexivity|]. cbn. intros H. repeat (destruct H as [H|H]; [discriminate|]). exact H. }
  destruct (p_catalogs p g) as [[]| |]; [|intros [= <-]; exact terminating_marked|discriminate].
  destruct (initHalos mode g _) as [[]| |]; [|intros [= <-]; exact terminating_marked|discriminate].
  rewrite (proj2 (one_of_spec _ _) (L text g eq_refl R)). cbn [negb].
  destruct (p_run p g stdin) as [ls| |]; [discriminate|intros [= <-]; exact terminating_marked|discriminate].
Qed.

Lemma main_marked p stdin out : ordinary p -> main_ p stdin = (out, 1) -> marked out.
Proof.
  intros O. unfold main. destruct (p_args p) as [|mode rest] eqn:A; [now destruct O|].
  destruct (one_of mode ["help"; "version"; "hello"]%string); [discriminate|].
  destruct (one_of mode mode_names); cbn [negb]; [|intros [= <-]; exact terminating_marked].
  destruct (one_of mode stdin_modes); [|now apply main_mode_marked].
  destruct stdin as [|c s]; [discriminate|]. destruct (upstream_failed (c :: s)) as [l|] eqn:U; [|now apply main_mode_marked].
  unfold upstream_failed in U. set (n := match index_byte nl (c :: s) with Some i => i | None => length (c :: s) end) in *.
  destruct ((9 <=? n) && beq (firstn 9 (c :: s)) (lit "Shellfish")) eqn:E; [|discriminate]. injection U as <-. intros [= <-].
  apply andb_true_iff in E. destruct E as [E1 E2]. apply Nat.leb_le in E1. apply beq_true in E2.
  exists (skipn 9 (firstn n (c :: s))), []. split.
  - rewrite app_assoc. f_equal. rewrite <- E2. rewrite <- (firstn_skipn 9 (firstn n (c :: s))) at 1. f_equal.
    rewrite firstn_firstn. now rewrite Nat.min_l by lia.
  - intros H. assert (K : In nl (firstn n (c :: s))).
    { rewrite <- (firstn_skipn 9 (firstn n (c :: s))). apply in_or_app. now right. }
    assert (NI : forall (t : bytes) k, match index_byte nl t with Some i => i | None => length t end = k -> ~ In nl (firstn k t)).
    { induction t as [|a t IH]; intros k <-; [cbn; auto|]. cbn [index_byte]. destruct (Ascii.eqb_spec a nl) as [->|Na]; [cbn; auto|].
      destruct (index_byte nl t) as [i|] eqn:Ei; cbn [option_map firstn length]; intros [X|X]; try congruence; eapply IH in X; eauto. }
    exact (NI (c :: s) n eq_refl K).
Qed.

Lemma main_of_marked p out : reads_stdin p -> marked out ->
  exists out', main_ p out = (out', 1) /\ marked out'.
Proof.
  intros (m & rest & A & S) M. pose proof M as (l0 & r0 & E0 & _). destruct (upstream_marked out M) as (l & U & N). unfold main. rewrite A.
  assert (In1 : one_of m ["help"; "version"; "hello"]%string = false).
  { destruct S as (t & Ht & ->). cbn in Ht. repeat (destruct Ht as [<-|Ht]; [reflexivity|]). destruct Ht. }
  assert (In2 : one_of m mode_names = true).
  { destruct S as (t & Ht & ->). cbn in Ht. repeat (destruct Ht as [<-|Ht]; [reflexivity|]). destruct Ht. }
  rewrite In1, In2, (proj2 (one_of_spec _ _) S). cbn [negb]. rewrite U. rewrite E0. cbn [lit list_ascii_of_string app].
  eexists. split; [reflexivity|]. exists l, []. split; [reflexivity|exact N].
Qed.

Lemma all_later : forall ps out, Forall reads_stdin ps -> marked out ->
  Forall (fun r => snd r = 1 /\ marked (fst r)) (pipe_ ps out).
Proof.
  induction ps as [|p ps IH]; intros out H M; [constructor|]. inversion H; subst. cbn [pipe].
  destruct (main_of_marked p out) as (out' & E & M'); [assumption..|]. rewrite E. cbn [fst]. constructor; [auto|]. now apply IH.
Qed.

(** ** C118: the failure of a stage reaches the end of the pipe *)

(** If an ordinary stage of a pipe ends with status 1, then so do all later stages (the modes that read a catalogue), each
    passing the marker on; the status of the pipe is 1. *)
Theorem C118_failure_reaches_end : forall ps1 p ps2 stdin out,
  ordinary p -> Forall reads_stdin ps2 ->
  nth_error (pipe_ (ps1 ++ p :: ps2) stdin) (length ps1) = Some (out, 1) ->
  forall j r, length ps1 < j -> nth_error (pipe_ (ps1 ++ p :: ps2) stdin) j = Some r -> snd r = 1 /\ marked (fst r).
Proof.
  induction ps1 as [|q ps1 IH]; intros p ps2 stdin out O R H j r Hj Hr; cbn [app pipe length nth_error] in *.
  - injection H as H. rewrite H in Hr. destruct j as [|j]; [lia|]. cbn [nth_error fst] in Hr.
    pose proof (all_later ps2 out R (main_marked _ _ _ O H)) as A. rewrite Forall_forall in A. apply A. eapply nth_error_In; exact Hr.
  - destruct j as [|j]; [lia|]. cbn [nth_error] in Hr. apply (IH p ps2 _ out O R H j r); [lia|exact Hr].
Qed.

(** A catalogue is not mistaken for the marker: a stage whose input starts with anything but "Shellfish" runs on that input. *)
Theorem C118_no_false_alarm : forall p m rest stdin, p_args p = m :: rest -> among m stdin_modes -> stdin <> [] ->
  firstn 9 stdin <> lit "Shellfish" -> main_ p stdin = main_mode_ p m rest stdin.
Proof.
  intros p m rest stdin A S N H. unfold main. rewrite A.
  assert (In1 : one_of m ["help"; "version"; "hello"]%string = false).
  { destruct S as (t & Ht & ->). cbn in Ht. repeat (destruct Ht as [<-|Ht]; [reflexivity|]). destruct Ht. }
  assert (In2 : one_of m mode_names = true).
  { destruct S as (t & Ht & ->). cbn in Ht. repeat (destruct Ht as [<-|Ht]; [reflexivity|]). destruct Ht. }
  rewrite In1, In2, (proj2 (one_of_spec _ _) S). cbn [negb]. destruct stdin as [|c s]; [contradiction|].
  unfold upstream_failed. rewrite (proj2 (beq_false _ _) H), andb_false_r. reflexivity.
Qed.

(** ** C119: crashes are silent *)

(** A stage that writes nothing makes every later stage end normally, without output: so does every stage that crashes
    before printing, and the status of the pipe is 0. *)
Theorem C119_silence_spreads : forall ps, Forall reads_stdin ps -> Forall (fun r => r = ([], 0)) (pipe_ ps []).
Proof.
  induction ps as [|p ps IH]; intros H; [constructor|]. inversion H as [|? ? (m & rest & A & S) H']; subst. cbn [pipe].
  assert (E : main_ p [] = ([], 0)).
  { unfold main. rewrite A. destruct S as (t & Ht & ->). cbn in Ht. repeat (destruct Ht as [<-|Ht]; [reflexivity|]). destruct Ht. }
  rewrite E. constructor; [reflexivity|]. now apply IH.
Qed.

(** If Run panics in an ordinary stage that got that far, the stage's status is 2 and nothing is printed: the rest of the pipe
    reports success. *)
Theorem C119_panic_refuted : forall p m rest stdin g text ps,
  ordinary p -> p_args p = m :: rest -> among m stdin_modes -> stdin <> [] -> firstn 9 stdin <> lit "Shellfish" ->
  p_global p = Some text -> read text = Ok g -> p_config p (getConfig rest) (getFlags rest) = Ok tt ->
  p_memo p = None -> g_snapshotType g <> lit "nil" -> p_catalogs p g = Ok tt -> initHalos m g (p_textHalo p g) = Ok tt ->
  p_run p g stdin = Panic -> Forall reads_stdin ps ->
  exists rs, pipe_ (p :: ps) stdin = ([], 2) :: rs /\ Forall (fun r => r = ([], 0)) rs.
Proof.
  intros p m rest stdin g text ps (O1 & O2 & O3) A S N H G R C M T PC IH Run RS. cbn [pipe].
  assert (E : main_ p stdin = ([], 2)).
  { rewrite (C118_no_false_alarm p m rest stdin A S N H). unfold main_mode. rewrite G, R, C, M.
    rewrite (quiet_unless_nil text) by (apply O2; now left). cbv zeta. cbn [memo_prints app]. unfold checkMemoDir.
    rewrite Nat.ltb_irrefl. cbn [fst]. rewrite (proj2 (beq_false _ _) T), andb_false_r, PC, IH.
    rewrite (proj2 (one_of_spec _ _) (O3 text g G R)). cbn [negb]. rewrite Run. reflexivity. }
  rewrite E. cbn [fst]. eexists. split; [reflexivity|]. now apply C119_silence_spreads.
Qed.

(** ** C122: nil types *)

(** Without particles the modes that need them are refused; without halo catalogues id, tree and coord are. *)
Theorem C122_nil_refused : forall p m rest stdin text g,
  p_args p = m :: rest -> p_global p = Some text -> read text = Ok g -> (among m stdin_modes -> stdin <> []) ->
  (among m ["shell"; "stats"; "prof"; "check"; "phase"; "potential"]%string /\ g_snapshotType g = lit "nil" \/
   among m ["id"; "tree"; "coord"]%string /\ g_haloType g = lit "nil") ->
  snd (main_ p stdin) <> 0.
Proof.
  intros p m rest stdin text g A G R St H. unfold main. rewrite A.
  assert (K : one_of m ["help"; "version"; "hello"]%string = false /\ one_of m mode_names = true).
  { destruct H as [[(t & Ht & ->) _]|[(t & Ht & ->) _]]; cbn in Ht; repeat (destruct Ht as [<-|Ht]; [split; reflexivity|]); destruct Ht. }
  destruct K as [-> ->]. cbn [negb].
  assert (M : forall s, snd (main_mode_ p m rest s) <> 0).
  { intros s. unfold main_mode. rewrite G. cbv zeta. rewrite R.
    destruct (p_config p _ _) as [[]| |]; [|cbn; lia..]. destruct (fst (checkMemoDir _ _ _ _ _ _ _ _ _ _)) as [[]| |]; [|cbn; lia..].
    destruct H as [[Hm Hn]|[Hm Hn]].
    - rewrite Hn, beq_refl, andb_true_r. unfold particle_modes. rewrite (proj2 (one_of_spec _ _) Hm). cbn. lia.
    - assert (X : one_of m particle_modes = false).
      { destruct Hm as (t & Ht & ->). cbn in Ht. repeat (destruct Ht as [<-|Ht]; [reflexivity|]). destruct Ht. }
      rewrite X. cbn [andb]. destruct (p_catalogs p g) as [[]| |]; [|cbn; lia..].
      unfold initHalos. rewrite X, Hn, beq_refl. cbn. lia. }
  destruct (one_of m stdin_modes) eqn:Sm; [|apply M]. apply one_of_spec in Sm. specialize (St Sm). destruct stdin as [|c s]; [contradiction|].
  destruct (upstream_failed (c :: s)); [cbn; lia|apply M].
Qed.

End P.
Print Assumptions C118_failure_reaches_end.
Print Assumptions C118_no_false_alarm.
Print Assumptions C119_silence_spreads.
Print Assumptions C119_panic_refuted.
Print Assumptions C122_nil_refused.

(** ** Concrete processes *)
Definition zmain := main Z atoi lower (Z.eqb (-1)) (-1)%Z 1%Z (fun _ => true).
Definition zpipe := pipe Z atoi lower (Z.eqb (-1)) (-1)%Z 1%Z (fun _ => true).

Definition proc_of (args : list string) (config : bytes) (run : bytes -> res (list bytes)) : process Z :=
  {| p_args := map lit args; p_global := Some config; p_memo := None; p_help := []; p_config := fun _ _ => Ok tt;
     p_catalogs := fun _ => Ok tt; p_textHalo := fun _ => Ok tt; p_run := fun _ => run |}.

Definition tree_conf : bytes := halo_text ["SnapMax = 9"]%string.
Definition echo (s : bytes) : res (list bytes) := Ok [lit "# header"; lit "1 2 3"].

(** id runs, coord fails: shell and stats report the failure. *)
Example C118_nonvacuous :
  let ps1 := [proc_of ["id"; "x.config"]%string tree_conf echo] in
  let p := proc_of ["coord"]%string tree_conf (fun _ => Err) in
  let ps2 := [proc_of ["shell"]%string tree_conf echo; proc_of ["stats"]%string tree_conf echo] in
  ordinary Z atoi lower (Z.eqb (-1)) (-1)%Z 1%Z (fun _ => true) p /\ Forall (reads_stdin Z) ps2 /\
  zpipe (ps1 ++ p :: ps2) [] =
    [(print_lines [lit "# header"; lit "1 2 3"], 0); (terminating, 1); (terminating, 1); (terminating, 1)] /\
  map snd (zpipe (ps1 ++ proc_of ["coord"]%string tree_conf echo :: ps2) []) = [0; 0; 0; 0].
Proof.
  cbv zeta. split; [|split; [|split]].
  - split; [discriminate|]. cbn [proc_of p_global p_memo]. split.
    + intros t [[= <-]|H]; [|discriminate]. intros (st & E & T). vm_compute in E. injection E as <-. vm_compute in T. discriminate.
    + intros t g [= <-] E. vm_compute in E. injection E as <-. exists "nil"%string. split; [now left|reflexivity].
  - constructor; [|constructor; [|constructor]]; eexists _, _; (split; [reflexivity|]).
    + exists "shell"%string. cbn. auto 6.
    + exists "stats"%string. cbn. auto 8.
  - vm_compute. reflexivity.
  - vm_compute. reflexivity.
Qed.

(** An unknown Logging value that validation lets through (C45) ends the first stage with status 1 but without the marker: the
    rest of the pipe ends normally. *)
Theorem C119_logging_refuted : exists conf g,
  zread conf = Ok g /\ g_logging g = lit "loud" /\
  zpipe [proc_of ["id"]%string conf echo; proc_of ["coord"]%string conf echo; proc_of ["shell"]%string conf echo] [] =
    [([], 1); ([], 0); ([], 0)].
Proof.
  exists (text_of (filter (fun l => negb (String.eqb l "SnapshotFormatMeanings = Snapshot, Block"%string)) halo_lines ++
           ["SnapMax = 9"; "SnapshotFormatMeanings = Snapshot, Block0"; "Logging = loud"]%string)).
  eexists. split; [vm_compute; reflexivity|]. split; [reflexivity|]. vm_compute. reflexivity.
Qed.
Print Assumptions C119_logging_refuted.

(** The empty line that validation prints for nil snapshots without NilSnapOmegaL hides the marker: the next stage runs on the
    failed stage's output. *)
Theorem C119_blank_line_refuted : exists conf out,
  zmain (proc_of ["id"]%string conf echo) [] = (out, 1) /\ out <> [] /\
  upstream_failed out = None /\ In (lit "Shellfish terminating.") (split_byte nl out).
Proof.
  exists (text_of ["[config]"; "SnapshotType = nil"; "MemoDir = memo"; "SnapMin = 0"; "SnapMax = 2"; "NilSnapOmegaM = 27"]%string).
  eexists. split; [vm_compute; reflexivity|]. split; [discriminate|]. split; [reflexivity|]. vm_compute. auto.
Qed.
Print Assumptions C119_blank_line_refuted.

(** C120: the documented requirement "if TreeType is nil you can't use tree" is not enforced. *)
Theorem C120_tree_refuted : exists conf g, zread conf = Ok g /\ g_treeType g = lit "nil" /\
  forall run stdin, (exists c s, stdin = c :: s /\ c <> "S"%char) ->
    zmain (proc_of ["tree"]%string conf run) stdin =
      match run stdin with Ok ls => (print_lines ls, 0) | Err => (terminating, 1) | Panic => ([], 2) end.
Proof.
  pose (conf := text_of (filter (fun l => negb (String.eqb l "TreeType = consistent-trees"%string)) halo_lines ++ ["SnapMax = 9"]%string)).
  exists conf. assert (R : exists g, zread conf = Ok g /\ g_treeType g = lit "nil" /\ g_snapshotType g = lit "LGadget-2" /\
    g_haloType g = lit "Text" /\ g_logging g = lit "nil").
  { eexists. split; [vm_compute; reflexivity|]. repeat split. }
  destruct R as (g & R & T & S & H & L). exists g. split; [exact R|]. split; [exact T|]. intros run stdin (c & s & -> & Nc).
  unfold zmain. rewrite (C118_no_false_alarm _ _ _ _ _ _ _ _ (lit "tree") []); [|reflexivity| |discriminate|].
  2:{ exists "tree"%string. cbn. auto. }
  2:{ cbn. intros [= K]. contradiction. }
  unfold main_mode. cbn [proc_of p_global p_memo p_config p_catalogs p_textHalo p_run].
  assert (P : read_prints Z atoi lower (Z.eqb (-1)) (-1)%Z 1%Z (fun _ => true) conf = []) by (vm_compute; reflexivity).
  rewrite P. cbv zeta. unfold zread in R. rewrite R. cbn [memo_prints app]. unfold checkMemoDir. rewrite Nat.ltb_irrefl. cbn [fst].
  change (one_of (lit "tree") particle_modes) with false. cbn [andb]. unfold initHalos.
  change (one_of (lit "tree") particle_modes) with false. rewrite H, L.
  change (beq (lit "Text") (lit "nil")) with false. change (beq (lit "Text") (lit "Text")) with true.
  change (one_of (lit "nil") ["nil"; "performance"; "debug"]%string) with true. cbn [negb].
  destruct (run (c :: s)); reflexivity.
Qed.
Print Assumptions C120_tree_refuted.

(** C119's general theorem has instances: prof crashing in the middle of a pipe. *)
Example C119_nonvacuous :
  map snd (zpipe [proc_of ["id"]%string tree_conf echo; proc_of ["coord"]%string tree_conf (fun _ => Panic);
                  proc_of ["shell"]%string tree_conf echo] []) = [0; 2; 0].
Proof. vm_compute. reflexivity. Qed.

Example C122_nonvacuous : exists g, zread nil1 = Ok g /\ g_haloType g = lit "nil" /\ g_snapshotType g = lit "nil" /\
  zmain (proc_of ["coord"]%string nil1 echo) (lit "1 2") = (terminating, 1) /\
  zmain (proc_of ["check"]%string nil1 echo) [] = (lit "Shellfish terminating" ++ [nl], 1).
Proof. eexists. split; [vm_compute; reflexivity|]. repeat split. Qed.
