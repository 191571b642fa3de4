(** * C111-C116: the global config file and the memo directory. *)
From Coq Require Import Lia ZArith.
From Verif Require Import GoBase GoBaseFacts BytesModel ConfigModel ConfigSpec ConfigProofs2 GlobalModel GlobalSpec GlobalProofs HeaderMemoModel
  Props_HeaderMemo.
Import List ListNotations.
Local Open Scope list_scope.

Section P.
Variable F : Type.
Variable parseFloat : bytes -> option F.
Variable toLower : bytes -> bytes.
Variable isMinus1 : F -> bool.
Variables fminus1 f1 : F.
Variable dirOK : bytes -> bool.

Notation read := (read_global F parseFloat toLower isMinus1 fminus1 f1 dirOK).
Notation start_ := (start F parseFloat toLower isMinus1 fminus1 f1 dirOK).
Notation passes_ := (passes F parseFloat toLower isMinus1 fminus1 f1 dirOK).
Notation check := (checkMemoDir F parseFloat toLower isMinus1 fminus1 f1 dirOK).

(** ** C111: the memo directory *)

(** A run against a directory with a memo.config gets past the check iff both files are readable and valid and agree in
    every variable that matters; memo.config is never changed. *)
Lemma check_iff m text n g : start_ (Some m) text n = (Ok g, Some m) <->
  read text = Ok g /\ exists mc, read m = Ok mc /\ same_relevant mc g.
Proof.
  unfold start. destruct (read text) as [c| |] eqn:E; [|split; [discriminate|intros (H & _); discriminate]..].
  unfold checkMemoDir. rewrite E. destruct (read m) as [mc| |] eqn:Em.
  - destruct (configEqual F c mc) eqn:Q.
    + apply configEqual_spec in Q. split.
      * intros [= <-]. split; [reflexivity|]. exists mc. split; [reflexivity|now apply same_relevant_sym].
      * intros ([= <-] & _). reflexivity.
    + split; [discriminate|]. intros ([= <-] & mc' & [= <-] & H). apply same_relevant_sym, configEqual_spec in H. congruence.
  - split; [discriminate|]. intros (_ & mc & H & _). discriminate.
  - split; [discriminate|]. intros (_ & mc & H & _). discriminate.
Qed.

Lemma start_keeps m text n : snd (start_ (Some m) text n) = Some m.
Proof.
  unfold start. destruct (read text) as [c| |] eqn:E; [|reflexivity..]. unfold checkMemoDir. rewrite E.
  destruct (read m) as [mc| |]; [destruct (configEqual F c mc)|..]; reflexivity.
Qed.

Lemma passes_some m es j g : nth_error (passes_ (Some m) es) j = Some (Some g) ->
  (forall k, k < j -> nth_error (passes_ (Some m) es) k <> Some None) ->
  exists mc, read m = Ok mc /\ same_relevant mc g.
Proof.
  revert j. induction es as [|e es IH]; intros j; [destruct j; discriminate|].
  destruct e as [text|text disk|]; cbn [passes].
  - pose proof (start_keeps m text (length text)) as K. pose proof (check_iff m text (length text)) as C.
    destruct (start_ (Some m) text (length text)) as [[g'| |] memo'] eqn:E; cbn [snd] in K; subst memo'.
    + destruct (proj1 (C g') eq_refl) as (R & mc & Rm & S).
      destruct j as [|j]; cbn [nth_error]; [intros [= <-] _; eauto|]. intros H N. apply (IH j H). intros k Hk. apply (N (Datatypes.S k)). lia.
    + apply IH.
    + apply IH.
  - rewrite start_keeps. apply IH.
  - destruct j as [|j]; cbn [nth_error]; [discriminate|]. intros _ N. exfalso. apply (N 0); [lia|reflexivity].
Qed.

Lemma start_none text disk : snd (start_ None text disk) = None \/ exists m, snd (start_ None text disk) = Some m.
Proof. destruct (snd (start_ None text disk)); eauto. Qed.

Lemma start_full text : start_ None text (length text) =
  match read text with Ok g => (Ok g, Some text) | Err => (Err, None) | Panic => (Panic, None) end.
Proof.
  unfold start. destruct (read text); [|reflexivity..]. unfold checkMemoDir. rewrite Nat.ltb_irrefl, firstn_all. reflexivity.
Qed.

(** In every history of runs, interrupted runs and clearings, two runs that got past the check, with no clearing in between,
    agree in every variable that matters. *)
Theorem C111_runs_agree : forall es i j g1 g2, i < j ->
  nth_error (passes_ None es) i = Some (Some g1) -> nth_error (passes_ None es) j = Some (Some g2) ->
  (forall k, i < k < j -> nth_error (passes_ None es) k <> Some None) ->
  same_relevant g1 g2.
Proof.
  (* generalised to any contents of memo.config *)
  assert (G : forall es memo i j g1 g2, i < j ->
    nth_error (passes_ memo es) i = Some (Some g1) -> nth_error (passes_ memo es) j = Some (Some g2) ->
    (forall k, i < k < j -> nth_error (passes_ memo es) k <> Some None) -> same_relevant g1 g2).
  2:{ intros es i j g1 g2. apply G. }
  induction es as [|e es IH]; intros memo i j g1 g2 Hij H1 H2 N; [destruct i; discriminate|].
  destruct e as [text|text disk|]; cbn [passes] in *.
  - destruct (start_ memo text (length text)) as [[g'| |] memo'] eqn:E; [|eapply IH; eassumption|eapply IH; eassumption].
    destruct j as [|j]; [lia|]. destruct i as [|i]; cbn [nth_error] in H1, H2.
    2:{ apply (IH memo' i j); [lia|assumption..|]. intros k Hk. apply (N (Datatypes.S k)). lia. }
    injection H1 as <-.
    assert (P : exists m mc, memo' = Some m /\ read m = Ok mc /\ same_relevant g' mc).
    { destruct memo as [m|].
      - pose proof (start_keeps m text (length text)) as K. rewrite E in K. cbn [snd] in K. subst memo'.
        apply check_iff in E. destruct E as (_ & mc & R & S). exists m, mc. split; [reflexivity|]. split; [exact R|now apply same_relevant_sym].
      - rewrite start_full in E. destruct (read text) as [c| |] eqn:R; try discriminate. injection E as <- <-.
        exists text, c. split; [reflexivity|]. split; [exact R|apply same_relevant_refl]. }
    destruct P as (m & mc & -> & R & S). destruct (passes_some m es j g2 H2) as (mc' & R' & S').
    { intros k Hk. apply (N (Datatypes.S k)). lia. }
    rewrite R in R'. injection R' as <-. eapply same_relevant_trans; eassumption.
  - eapply IH; eassumption.
  - destruct j as [|j]; [lia|]. destruct i as [|i]; cbn [nth_error] in H1, H2; [discriminate|].
    apply (IH None i j); [lia|assumption..|]. intros k Hk. apply (N (Datatypes.S k)). lia.
Qed.

(** The first run in a clean directory gets past the check and leaves a copy of its config file; after it, a run gets
    past the check exactly if its config file is valid and agrees with that copy in the variables that matter. *)
Theorem C111_check : forall text1 g1, read text1 = Ok g1 ->
  start_ None text1 (length text1) = (Ok g1, Some text1) /\
  forall text2 g2, start_ (Some text1) text2 (length text2) = (Ok g2, Some text1) <->
    read text2 = Ok g2 /\ same_relevant g1 g2.
Proof.
  intros text1 g1 R. split; [now rewrite start_full, R|]. intros text2 g2. rewrite check_iff, R. split.
  - intros (R2 & mc & [= <-] & S). auto.
  - intros (R2 & S). eauto.
Qed.

(** ** C112: a run killed while it copies its config file *)

(** Whatever part of the copy reached the disk: if that part is not a valid config file, every later run is refused until
    the directory is cleared, even with the very same config file. *)
Theorem C112_killed_blocks : forall text g disk later, read text = Ok g ->
  (forall g', read (firstn disk text) <> Ok g') -> ~ In (Clear) later ->
  passes_ None (Killed text disk :: later) = [].
Proof.
  intros text g disk later R N NC. cbn [passes]. unfold start. rewrite R. unfold checkMemoDir.
  assert (E : forall d : nat, snd (match (if d <? length text then @Err unit else Ok tt, Some (firstn disk text)) with
     | (Ok _, memo') => (Ok g, memo') | (Err, memo') => (Err, memo') | (Panic, memo') => (Panic, memo') end) = Some (firstn disk text))
    by (intros d; destruct (d <? length text); reflexivity).
  rewrite E. clear E. induction later as [|e later IH]; [reflexivity|].
  assert (IH' : passes_ (Some (firstn disk text)) later = []) by (apply IH; intros H; apply NC; now right).
  destruct e as [t|t d|]; cbn [passes].
  - destruct (start_ (Some (firstn disk text)) t (length t)) as [[g'| |] memo'] eqn:Es;
      pose proof (start_keeps (firstn disk text) t (length t)) as K; rewrite Es in K; cbn [snd] in K; subst memo'; try exact IH'.
    apply check_iff in Es. destruct Es as (_ & mc & Rm & _). now apply N in Rm.
  - rewrite start_keeps. exact IH'.
  - exfalso. apply NC. now left.
Qed.

(** ** C113: cached headers and the configuration *)
Variable src : gconfig F -> Z -> res (list header).
Variable nb : gconfig F -> nat.
Notation hruns := (header_runs F parseFloat toLower isMinus1 fminus1 f1 dirOK src nb).

Definition relevant_only : Prop := forall g1 g2, same_relevant g1 g2 -> src g1 = src g2 /\ nb g1 = nb g2.

Fixpoint ask (g : gconfig F) (d : memo_dir) (snaps : list Z) : list (gconfig F * Z * res (list header)) * memo_dir :=
  match snaps with
  | [] => ([], d)
  | s :: ss =>
      let '(r, d') := read_headers (src g) (nb g) d s (72 * nb g) in
      let '(rs, d'') := ask g d' ss in ((g, s, r) :: rs, d'')
  end.

Lemma header_run_eq memo d text snaps :
  header_run F parseFloat toLower isMinus1 fminus1 f1 dirOK src nb memo d text snaps =
  match start_ memo text (length text) with
  | (Ok g, memo') => let '(rs, d') := ask g d snaps in (rs, (memo', d'))
  | (_, memo') => ([], (memo', d))
  end.
Proof.
  unfold header_run. destruct (start_ memo text (length text)) as [[g| |] memo']; try reflexivity.
  assert (E : forall snaps d, (fix go (d : memo_dir) (snaps : list Z) {struct snaps} :=
        match snaps with
        | [] => ([], d)
        | s :: ss => let '(r, d') := read_headers (src g) (nb g) d s (72 * nb g) in
            let '(rs, d'') := go d' ss in ((g, s, r) :: rs, d'')
        end) d snaps = ask g d snaps).
  { induction snaps0 as [|s ss IH]; intros d0; [reflexivity|]. cbn [ask].
    destruct (read_headers (src g) (nb g) d0 s (72 * nb g)) as [r d']. now rewrite IH. }
  now rewrite E.
Qed.

Lemma ask_honest g snaps : good_source (src g) (nb g) -> forall d, honest (src g) d ->
  Forall (fun a => fst (fst a) = g /\ snd a = src g (snd (fst a))) (fst (ask g d snaps)) /\ honest (src g) (snd (ask g d snaps)).
Proof.
  intros G. induction snaps as [|s ss IH]; intros d H; [split; [constructor|exact H]|]. cbn [ask].
  destruct (step_honest (src g) (nb g) d s (72 * nb g) G H (le_n _)) as [S1 S2].
  destruct (read_headers (src g) (nb g) d s (72 * nb g)) as [r d'] eqn:E. cbn [fst snd] in S1, S2.
  destruct (IH d' S2) as [I1 I2]. destruct (ask g d' ss) as [rs d''] eqn:Ea. cbn [fst snd] in *. split; [|exact I2].
  constructor; [cbn; auto|exact I1].
Qed.

Lemma honest_empty f : honest f (fun _ => None).
Proof. intros s file H. discriminate. Qed.

(** In every history of runs (also interrupted ones) and clearings: if the headers depend only on the variables that are
    compared, then every answer is that of the run's own configuration. *)
Theorem C113_headers_current : forall es, relevant_only -> (forall g, good_source (src g) (nb g)) ->
  Forall (fun a => let '(g, s, r) := a in r = src g s) (hruns None (fun _ => None) es).
Proof.
  intros es RO GS.
  assert (G : forall es memo d,
    (memo = None -> d = (fun _ => None)) ->
    (forall m, memo = Some m -> forall mc, read m = Ok mc -> honest (src mc) d) ->
    Forall (fun a => let '(g, s, r) := a in r = src g s) (hruns memo d es)).
  2:{ apply G; [reflexivity|discriminate]. }
  induction es0 as [|e es0 IH]; intros memo d HN HS; [constructor|].
  destruct e as [text snaps|text disk|]; cbn [header_runs].
  - rewrite header_run_eq. destruct (start_ memo text (length text)) as [[g| |] memo'] eqn:E.
    + assert (P : exists m mc, memo' = Some m /\ read m = Ok mc /\ same_relevant mc g /\ honest (src g) d).
      { destruct memo as [m|].
        - pose proof (start_keeps m text (length text)) as K. rewrite E in K. cbn [snd] in K. subst memo'.
          apply check_iff in E. destruct E as (_ & mc & R & S). exists m, mc. split; [reflexivity|]. split; [exact R|]. split; [exact S|].
          destruct (RO _ _ S) as [<- _]. now apply (HS m).
        - rewrite start_full in E. destruct (read text) as [c| |] eqn:R; try discriminate. injection E as <- <-.
          exists text, c. split; [reflexivity|]. split; [exact R|]. split; [apply same_relevant_refl|].
          rewrite (HN eq_refl). apply honest_empty. }
      destruct P as (m & mc & -> & R & S & Hd). destruct (ask_honest g snaps (GS g) d Hd) as [A1 A2].
      destruct (ask g d snaps) as [rs d'] eqn:Ea. cbn [fst snd] in A1, A2. apply Forall_app. split.
      * eapply Forall_impl; [|exact A1]. intros [[g' s] r]. cbn. intros [-> ->]. reflexivity.
      * apply IH; [discriminate|]. intros m' [= <-] mc' Rm'. rewrite R in Rm'. injection Rm' as <-.
        destruct (RO _ _ S) as [-> _]. exact A2.
    + cbn [app]. apply IH.
      * intros ->. apply HN. destruct memo as [m|]; [|reflexivity].
        pose proof (start_keeps m text (length text)) as K. rewrite E in K. discriminate.
      * intros m ->. destruct memo as [m'|].
        { pose proof (start_keeps m' text (length text)) as K. rewrite E in K. cbn in K. injection K as <-. now apply HS. }
        rewrite start_full in E. destruct (read text); discriminate.
    + cbn [app]. apply IH.
      * intros ->. apply HN. destruct memo as [m|]; [|reflexivity].
        pose proof (start_keeps m text (length text)) as K. rewrite E in K. discriminate.
      * intros m ->. destruct memo as [m'|].
        { pose proof (start_keeps m' text (length text)) as K. rewrite E in K. cbn in K. injection K as <-. now apply HS. }
        rewrite start_full in E. destruct (read text); discriminate.
  - destruct memo as [m|].
    + rewrite start_keeps. apply IH; [discriminate|]. intros m' [= <-]. now apply HS.
    + rewrite (HN eq_refl). apply IH; [reflexivity|]. intros m _ mc _. apply honest_empty.
  - apply IH; [reflexivity|discriminate].
Qed.

(** A variable that is not compared: the second run is answered with the first run's headers. *)
Theorem C114_stale_refuted : forall t1 t2 g1 g2 s hds,
  read t1 = Ok g1 -> read t2 = Ok g2 -> same_relevant g1 g2 -> nb g1 = nb g2 ->
  good_source (src g1) (nb g1) -> src g1 s = Ok hds ->
  hruns None (fun _ => None) [HRun t1 [s]; HRun t2 [s]] = [(g1, s, Ok hds); (g2, s, Ok hds)].
Proof.
  intros t1 t2 g1 g2 s hds R1 R2 S N G E. cbn [header_runs]. rewrite header_run_eq.
  destruct (C111_check t1 g1 R1) as [-> C]. cbn [ask].
  unfold read_headers at 1. rewrite E. rewrite header_run_eq. rewrite (proj2 (C t2 g2) (conj R2 S)). cbn [ask].
  unfold read_headers. unfold set_file. rewrite Z.eqb_refl. destruct (G s hds E) as [L Fh].
  rewrite <- N, <- L, (firstn_all2 (memo_bytes hds)) by (rewrite memo_bytes_length by exact Fh; lia).
  rewrite memo_round_trip by exact Fh. reflexivity.
Qed.

(** ** C115: two runs at the same time *)
Theorem C115_race_refuted : forall t1 t2,
  schedule F parseFloat toLower isMinus1 fminus1 f1 dirOK None (AtStat t1) (AtStat t2) [true; false; true; false] =
    (Some t2, Passed t1, Passed t2).
Proof. reflexivity. Qed.

(** ** C116: which global config files are accepted *)

(** The variables a global config file can set: name, type, the field of the configuration, default value. *)
Definition variables : list (string * varType * (gconfig F -> value F) * value F) := [
  ("Version", stringVar, fun g => VString F (g_version g), VString F (lit "1.0.4"));
  ("SnapshotFormat", stringVar, fun g => VString F (g_snapshotFormat g), VString F []);
  ("SnapshotType", stringVar, fun g => VString F (g_snapshotType g), VString F []);
  ("HaloDir", stringVar, fun g => VString F (g_haloDir g), VString F []);
  ("HaloType", stringVar, fun g => VString F (g_haloType g), VString F (lit "nil"));
  ("TreeDir", stringVar, fun g => VString F (g_treeDir g), VString F []);
  ("TreeType", stringVar, fun g => VString F (g_treeType g), VString F (lit "nil"));
  ("MemoDir", stringVar, fun g => VString F (g_memoDir g), VString F []);
  ("HaloValueNames", stringsVar, fun g => VStrings F (g_valueNames g), VStrings F []);
  ("HaloValueColumns", intsVar, fun g => VInts F (g_valueColumns g), VInts F []);
  ("HaloValueComments", stringsVar, fun g => VStrings F (g_valueComments g), VStrings F []);
  ("HaloPositionUnits", stringVar, fun g => VString F (g_positionUnits g), VString F []);
  ("HaloRadiusUnits", stringVar, fun g => VString F (g_radiusUnits g), VString F []);
  ("HaloMassUnits", stringVar, fun g => VString F (g_massUnits g), VString F []);
  ("SnapshotFormatMeanings", stringsVar, fun g => VStrings F (g_meanings g), VStrings F []);
  ("ScaleFactorFile", stringVar, fun g => VString F (g_scaleFactorFile g), VString F []);
  ("BlockMins", intsVar, fun g => VInts F (g_blockMins g), VInts F []);
  ("BlockMaxes", intsVar, fun g => VInts F (g_blockMaxes g), VInts F []);
  ("SnapMin", intVar, fun g => VInt F (g_snapMin g), VInt F (-1));
  ("SnapMax", intVar, fun g => VInt F (g_snapMax g), VInt F (-1));
  ("Endianness", stringVar, fun g => VString F (g_endianness g), VString F (lit "SystemOrder"));
  ("ValidateFormats", boolVar, fun g => VBool F (g_validateFormats g), VBool F false);
  ("Threads", intVar, fun g => VInt F (g_threads g), VInt F (-1));
  ("Logging", stringVar, fun g => VString F (g_logging g), VString F (lit "nil"));
  ("GadgetDMTypeIndices", intsVar, fun g => VInts F (g_dmTypes g), VInts F [1%Z]);
  ("GadgetSingleMassIndices", intsVar, fun g => VInts F (g_singleMass g), VInts F [1%Z]);
  ("GadgetPositionUnits", floatVar, fun g => VFloat F (g_gadgetPosition g), VFloat F f1);
  ("GadgetMassUnits", floatVar, fun g => VFloat F (g_gadgetMass g), VFloat F f1);
  ("LGadgetNpartNum", intVar, fun g => VInt F (g_npartNum g), VInt F 2);
  ("NilSnapOmegaM", floatVar, fun g => VFloat F (g_nilOmegaM g), VFloat F fminus1);
  ("NilSnapOmegaL", floatVar, fun g => VFloat F (g_nilOmegaL g), VFloat F fminus1);
  ("NilSnapH100", floatVar, fun g => VFloat F (g_nilH100 g), VFloat F fminus1);
  ("NilSnapScaleFactors", floatsVar, fun g => VFloats F (g_nilScaleFactors g), VFloats F []);
  ("NilSnapTotalWidth", floatVar, fun g => VFloat F (g_nilTotalWidth g), VFloat F fminus1)]%string.

(** [g] is what the assignments [al] say: each variable has the value assigned to it, or its default. *)
Definition says (al : list (bytes * bytes)) (g : gconfig F) : Prop :=
  (forall n v, In (n, v) al -> exists x, In x variables /\ same_name toLower n (lit (fst (fst (fst x))))) /\
  Forall (fun '(name, ty, field, default) =>
    (forall n v, In (n, v) al -> same_name toLower n (lit name) -> denotes F parseFloat ty v (field g)) /\
    ((forall n v, In (n, v) al -> ~ same_name toLower n (lit name)) -> field g = default)) variables.

Definition distinct_names : Prop := NoDup (map (fun x => toLower (lit (fst (fst (fst x))))) variables).

(** The values have the types of the registered variables. *)
Definition typed (t : varType) (v : value F) : Prop :=
  match t, v with
  | intVar, VInt _ _ | intsVar, VInts _ _ | floatVar, VFloat _ _ | floatsVar, VFloats _ _ | stringVar, VString _ _
  | stringsVar, VStrings _ _ | boolVar, VBool _ _ | boolsVar, VBools _ _ => True
  | _, _ => False
  end.

Lemma denotes_typed t s v : denotes F parseFloat t s v -> typed t v.
Proof. destruct 1; exact I. Qed.

Lemma var_names : map (fun x => (fst (fst (fst x)), snd (fst (fst x)), snd x)) variables = registered F fminus1 f1.
Proof. reflexivity. Qed.

(** The struct determined by a well-typed memory, field by field. *)
Lemma fields_spec st : length st = length variables ->
  (forall j rv, nth_error (cv_vars (global_vars F fminus1 f1)) j = Some rv -> exists v, nth_error st j = Some v /\ typed (rv_type rv) v) ->
  forall j x, nth_error variables j = Some x -> nth_error st j = Some (snd (fst x) (fields F fminus1 st)).
Proof.
  intros L T j x Hx.
  assert (Hj : j < length variables) by (apply nth_error_Some; congruence).
  assert (Hr : nth_error (cv_vars (global_vars F fminus1 f1)) j = Some {| rv_name := lit (fst (fst (fst x))); rv_type := snd (fst (fst x)) |}).
  { unfold global_vars. cbn [cv_vars]. rewrite <- var_names, map_map, nth_error_map, Hx. reflexivity. }
  destruct (T j _ Hr) as (v & Hv & Ty). rewrite Hv. cbn [rv_type] in Ty.
  do 34 (destruct j as [|j];
    [cbn [nth_error variables] in Hx; injection Hx as <-; cbn [fst snd] in Ty |- *; destruct v; try (destruct Ty; fail);
     cbn [g_version g_snapshotFormat g_snapshotType g_haloDir g_haloType g_treeDir g_treeType g_memoDir g_valueNames g_valueColumns
          g_valueComments g_positionUnits g_radiusUnits g_massUnits g_meanings g_scaleFactorFile g_blockMins g_blockMaxes g_snapMin g_snapMax
          g_endianness g_validateFormats g_threads g_logging g_dmTypes g_singleMass g_gadgetPosition g_gadgetMass g_npartNum
          g_nilOmegaM g_nilOmegaL g_nilH100 g_nilScaleFactors g_nilTotalWidth fields];
     unfold get_string, get_strings, GlobalModel.get_int, get_ints, get_bool, get_float, get_floats; rewrite Hv; reflexivity|]).
  cbn [length variables] in Hj. lia.
Qed.

Lemma defaults_typed j rv : nth_error (cv_vars (global_vars F fminus1 f1)) j = Some rv ->
  exists v, nth_error (global_defaults F fminus1 f1) j = Some v /\ typed (rv_type rv) v.
Proof.
  unfold global_vars, global_defaults. cbn [cv_vars]. rewrite !nth_error_map.
  destruct (nth_error (registered F fminus1 f1) j) as [r|] eqn:E; [|discriminate]. cbn [option_map]. intros [= <-]. cbn [rv_type].
  eexists. split; [reflexivity|].
  assert (A : Forall (fun r => typed (snd (fst r)) (snd r)) (registered F fminus1 f1)) by (repeat constructor).
  rewrite Forall_forall in A. apply A. eapply nth_error_In; exact E.
Qed.

(** Reading a global config file succeeds with configuration g iff the file is a config file whose assignments say g0, where
    g is g0 with its unit names normalised, and g is valid. *)
Theorem C116_accepts : forall text ls g, lines_of text ls -> distinct_names ->
  (read text = Ok g <->
   exists al g0, config_lines (lit "config") ls al /\ no_duplicates toLower al /\ says al g0 /\ units_normalised g0 g /\
     valid_config (fun x => isMinus1 x = true) (fun d => dirOK d = true) g).
Proof.
  intros text ls g Hl D.
  assert (D' : distinct_vars toLower (cv_vars (global_vars F fminus1 f1))).
  { unfold distinct_vars, global_vars. cbn [cv_vars]. rewrite <- var_names, !map_map. exact D. }
  assert (Ld : length (global_defaults F fminus1 f1) = length (cv_vars (global_vars F fminus1 f1))) by reflexivity.
  assert (RN := fun st' => ReadConfig_nil_iff F parseFloat toLower text ls (global_vars F fminus1 f1) (global_defaults F fminus1 f1) st' Hl Ld D').
  assert (VR : forall j x, nth_error variables j = Some x ->
    nth_error (cv_vars (global_vars F fminus1 f1)) j = Some {| rv_name := lit (fst (fst (fst x))); rv_type := snd (fst (fst x)) |}).
  { intros j x Hx. unfold global_vars. cbn [cv_vars]. rewrite <- var_names, map_map, nth_error_map, Hx. reflexivity. }
  assert (VD : forall j x, nth_error variables j = Some x -> nth_error (global_defaults F fminus1 f1) j = Some (snd x)).
  { intros j x Hx. unfold global_defaults. rewrite <- var_names, map_map, nth_error_map, Hx. reflexivity. }
  assert (AR : forall al, all_registered toLower (cv_vars (global_vars F fminus1 f1)) al <->
    (forall n v, In (n, v) al -> exists x, In x variables /\ same_name toLower n (lit (fst (fst (fst x)))))).
  { intros al. split; intros H n v Hn; destruct (H n v Hn) as (x & Hx & Hs).
    - apply In_nth_error in Hx. destruct Hx as (j & Hj). destruct (nth_error variables j) as [y|] eqn:Ey.
      + rewrite (VR j y Ey) in Hj. injection Hj as <-. exists y. split; [eapply nth_error_In; exact Ey|exact Hs].
      + apply nth_error_None in Ey. assert (K : j < length (cv_vars (global_vars F fminus1 f1))) by (apply nth_error_Some; congruence).
        change (length (cv_vars (global_vars F fminus1 f1))) with (length variables) in K. lia.
    - apply In_nth_error in Hx. destruct Hx as (j & Hj). apply VR in Hj. eexists. split; [eapply nth_error_In; exact Hj|exact Hs]. }
  assert (AS : forall al st', assigned F parseFloat toLower (cv_vars (global_vars F fminus1 f1)) al (global_defaults F fminus1 f1) st' ->
     all_registered toLower (cv_vars (global_vars F fminus1 f1)) al -> says al (fields F fminus1 st')).
  { intros al st' [La A] R. split; [now apply AR|]. apply Forall_forall. intros [[[name ty] field] default] Hx.
    apply In_nth_error in Hx. destruct Hx as (j & Hj).
    assert (T : forall j rv, nth_error (cv_vars (global_vars F fminus1 f1)) j = Some rv -> exists v, nth_error st' j = Some v /\ typed (rv_type rv) v).
    { intros k rv Hk. destruct (A k rv Hk) as [A1 A2].
      destruct (existsb (fun p => beq (toLower (fst p)) (toLower (rv_name rv))) al) eqn:Ex.
      - apply existsb_exists in Ex. destruct Ex as ([n v] & Hn & E). apply beq_true in E. destruct (A1 n v Hn E) as (x & Hx & Hv).
        exists x. split; [exact Hv|]. eapply denotes_typed; exact Hx.
      - destruct (defaults_typed k rv Hk) as (v & Hv & Ht). exists v. split; [|exact Ht]. rewrite A2; [exact Hv|].
        intros n w Hn E. assert (existsb (fun p => beq (toLower (fst p)) (toLower (rv_name rv))) al = true); [|congruence].
        apply existsb_exists. exists (n, w). split; [exact Hn|]. cbn [fst]. unfold same_name in E. rewrite E. apply beq_refl. }
    assert (Lv : length st' = length variables) by (rewrite La; reflexivity).
    pose proof (fields_spec st' Lv T j _ Hj) as Fj. cbn [fst snd] in Fj.
    destruct (A j _ (VR j _ Hj)) as [A1 A2]. cbn [fst snd rv_name rv_type] in A1, A2. split.
    - intros n v Hn E. destruct (A1 n v Hn E) as (x & Hx & Hv). rewrite Fj in Hv. injection Hv as <-. exact Hx.
    - intros Hn. specialize (A2 Hn). rewrite Fj, (VD j _ Hj) in A2. cbn [snd] in A2. now injection A2. }
  assert (SN : forall al g0, config_lines (lit "config") ls al -> no_duplicates toLower al -> says al g0 ->
    ReadConfig F parseFloat toLower text (global_vars F fminus1 f1) (global_defaults F fminus1 f1) =
      (Nil, map (fun x => snd (fst x) g0) variables)).
  { intros al g0 C' N' [S1 S2]. apply RN. exists al. split; [exact C'|]. split; [now apply AR|]. split; [exact N'|].
    split; [reflexivity|]. intros j rv Hj. destruct (nth_error variables j) as [y|] eqn:Ey.
    2:{ apply nth_error_None in Ey. assert (K : j < length (cv_vars (global_vars F fminus1 f1))) by (apply nth_error_Some; congruence).
        change (length (cv_vars (global_vars F fminus1 f1))) with (length variables) in K. lia. }
    rewrite (VR j y Ey) in Hj. injection Hj as <-. cbn [rv_name rv_type].
    rewrite Forall_forall in S2. specialize (S2 y (nth_error_In _ _ Ey)). destruct y as [[[name ty] field] default].
    destruct S2 as [P1 P2]. cbn [fst snd] in *. rewrite nth_error_map, Ey, (VD j _ Ey). cbn [option_map fst snd]. split.
    - intros n v Hn E. exists (field g0). split; [now apply (P1 n)|reflexivity].
    - intros H. now rewrite P2. }
  unfold read_global.
  destruct (ReadConfig F parseFloat toLower text (global_vars F fminus1 f1) (global_defaults F fminus1 f1)) as [o st'].
  assert (B : forall al g0, config_lines (lit "config") ls al /\ no_duplicates toLower al /\ says al g0 -> o = Nil /\ g0 = fields F fminus1 st').
  { intros al g0 (C' & N' & S'). specialize (SN al g0 C' N' S'). injection SN as -> ->. split; [reflexivity|]. destruct g0. reflexivity. }
  destruct o.
  - rewrite validate_spec. destruct (proj1 (RN st') eq_refl) as (al & C & R & N & A). split.
    + intros [U V]. exists al, (fields F fminus1 st'). split; [exact C|]. split; [exact N|]. split; [now apply AS|]. auto.
    + intros (al' & g0 & C' & N' & S' & U & V). destruct (B al' g0) as [_ ->]; auto.
  - split; [discriminate|]. intros (al & g0 & C' & N' & S' & U & V). destruct (B al g0) as [B1 _]; [auto|discriminate].
  - split; [discriminate|]. intros (al & g0 & C' & N' & S' & U & V). destruct (B al g0) as [B1 _]; [auto|discriminate].
Qed.
End P.
Print Assumptions C111_runs_agree.
Print Assumptions C111_check.
Print Assumptions C112_killed_blocks.
Print Assumptions C113_headers_current.
Print Assumptions C114_stale_refuted.
Print Assumptions C115_race_refuted.
Print Assumptions C116_accepts.

(** ** Concrete files. Floats are integers here, -1 is -1, and every directory exists. *)
Definition lower (s : bytes) : bytes :=
  map (fun c => let n := nat_of_ascii c in if (65 <=? n) && (n <=? 90) then ascii_of_nat (n + 32) else c) s.
Definition zread : bytes -> res (gconfig Z) := read_global Z atoi lower (Z.eqb (-1)) (-1)%Z 1%Z (fun _ => true).
Definition zpasses := passes Z atoi lower (Z.eqb (-1)) (-1)%Z 1%Z (fun _ => true).
Definition text_of (ls : list string) : bytes := join [nl] (map lit ls).

Definition nil_lines : list string :=
  ["[config]"; "SnapshotType = nil"; "MemoDir = memo"; "SnapMin = 0"; "SnapMax = 2"; "NilSnapOmegaL = 73"; "NilSnapH100 = 70";
   "NilSnapTotalWidth = 250"; "NilSnapScaleFactors = 33, 50, 100"]%string.
Definition nil_text (omegaM : string) : bytes := text_of (nil_lines ++ [omegaM]).
Definition nil1 := nil_text "NilSnapOmegaM = 27".
Definition nil2 := nil_text "NilSnapOmegaM = 30".

Definition halo_lines : list string :=
  ["# a comment"; "[config]"; "SnapshotType = LGadget-2"; "HaloType = Text"; "TreeType = consistent-trees";
   "HaloValueNames = ID, X, Y, Z, M200m"; "HaloValueColumns = 0, 2, 3, 4, 20"; "HaloValueComments = a, b, c, d, e";
   "HaloPositionUnits = cMpc / h"; "HaloRadiusUnits = ckpc/h"; "HaloMassUnits = Msun/h"; "HaloDir = halos"; "TreeDir = trees";
   "MemoDir = memo"; "SnapshotFormat = s_%d/s.%d"; "SnapshotFormatMeanings = Snapshot, Block"; "BlockMins = 0"; "BlockMaxes = 7";
   "SnapMin = 0"]%string.
Definition halo_text (more : list string) : bytes := text_of (halo_lines ++ more).

(** Three runs: the second changes only what does not matter, the third changes SnapMax and is refused; after a clearing it
    gets through. *)
Example C111_nonvacuous : exists g1 g2 g3,
  zpasses None [Run (halo_text ["SnapMax = 9"]%string); Run (halo_text ["Threads = 3"; "SnapMax = 9"]%string);
                Run (halo_text ["SnapMax = 8"]%string); Clear; Run (halo_text ["SnapMax = 8"]%string)] =
    [Some g1; Some g2; None; Some g3] /\ g_snapMax g1 = 9%Z /\ g_threads g2 = 3%Z /\ g_snapMax g3 = 8%Z /\
    g_positionUnits g1 = lit "cMpc/h" /\ ~ same_relevant g1 g3.
Proof.
  do 3 eexists. split; [vm_compute; reflexivity|]. split; [reflexivity|]. split; [reflexivity|]. split; [reflexivity|].
  split; [reflexivity|]. intros (_ & (_ & _ & _ & _ & _ & _ & H) & _). discriminate H.
Qed.

(** A crash while the config file is copied locks the directory for the very same configuration. *)
Theorem C112_killed_refuted : exists text g disk, zread text = Ok g /\
  zpasses None [Killed text disk; Run text; Run text] = [] /\ zpasses None [Run text; Run text] = [Some g; Some g].
Proof. exists nil1. eexists. exists 30. split; [vm_compute; reflexivity|]. split; vm_compute; reflexivity. Qed.
Print Assumptions C112_killed_refuted.

(** ... also if what reached the disk is a valid file: here the last digit of SnapMax is missing. *)
Theorem C112_cut_number_refuted : exists text g disk g', zread text = Ok g /\ zread (firstn disk text) = Ok g' /\
  zpasses None [Killed text disk; Run text] = [].
Proof.
  exists (halo_text ["SnapMax = 10"]%string). eexists. exists (length (halo_text ["SnapMax = 10"]%string) - 1)%nat. eexists.
  split; [vm_compute; reflexivity|]. split; [vm_compute; reflexivity|]. vm_compute. reflexivity.
Qed.
Print Assumptions C112_cut_number_refuted.

(** Nil snapshots take their cosmology from the config file: after NilSnapOmegaM is corrected, the old value is still used. *)
Theorem C114_nil_cosmology_refuted : exists g1 g2 h1 h2,
  let inv1 := fun a => (100 - a)%Z in let to32 := fun x => x in
  zread nil1 = Ok g1 /\ zread nil2 = Ok g2 /\ g_nilOmegaM g1 = 27%Z /\ g_nilOmegaM g2 = 30%Z /\
  nil_source inv1 to32 g2 1 = Ok [h2] /\ h1 <> h2 /\
  header_runs Z atoi lower (Z.eqb (-1)) (-1)%Z 1%Z (fun _ => true) (nil_source inv1 to32) (fun _ => 1) None (fun _ => None)
    [HRun nil1 [1%Z]; HRun nil2 [1%Z]] = [(g1, 1%Z, Ok [h1]); (g2, 1%Z, Ok [h1])].
Proof.
  do 4 eexists. cbv zeta. split; [vm_compute; reflexivity|]. split; [vm_compute; reflexivity|]. split; [reflexivity|]. split; [reflexivity|].
  split; [vm_compute; reflexivity|]. split; [|vm_compute; reflexivity]. discriminate.
Qed.
Print Assumptions C114_nil_cosmology_refuted.

(** The variables that can be changed without the check noticing. *)
Theorem C114_uncompared_refuted : Forall (fun line => exists g1 g2,
    zpasses None [Run (halo_text ["SnapMax = 9"]%string); Run (halo_text ["SnapMax = 9"; line]%string)] = [Some g1; Some g2] /\ g1 <> g2)
  ["GadgetPositionUnits = 1000"; "GadgetMassUnits = 2"; "GadgetDMTypeIndices = 0, 1"; "GadgetSingleMassIndices = 0"; "LGadgetNpartNum = 1";
   "ScaleFactorFile = other"; "NilSnapOmegaM = 30"; "Threads = 4"; "Logging = debug"; "ValidateFormats = true"]%string.
Proof. repeat (constructor; [do 2 eexists; split; [vm_compute; reflexivity|discriminate]|]). constructor. Qed.
Print Assumptions C114_uncompared_refuted.

(** Two valid configurations that conflict get past the check together. *)
Theorem C115_conflict_refuted : exists t1 t2 g1 g2 sch, zread t1 = Ok g1 /\ zread t2 = Ok g2 /\ ~ same_relevant g1 g2 /\
  exists memo, schedule Z atoi lower (Z.eqb (-1)) (-1)%Z 1%Z (fun _ => true) None (AtStat t1) (AtStat t2) sch = (memo, Passed t1, Passed t2).
Proof.
  exists (halo_text ["SnapMax = 9"]%string), (halo_text ["SnapMax = 8"]%string). do 2 eexists. exists [true; false; true; false].
  split; [vm_compute; reflexivity|]. split; [vm_compute; reflexivity|]. split; [intros (_ & (_ & _ & _ & _ & _ & _ & H) & _); discriminate H|].
  eexists. apply C115_race_refuted.
Qed.
Print Assumptions C115_conflict_refuted.

Example C116_nonvacuous : distinct_names Z lower (-1)%Z 1%Z /\ (exists ls, lines_of nil1 ls) /\
  (exists g, zread nil1 = Ok g /\ g_nilScaleFactors g = [33; 50; 100]%Z /\ g_endianness g = lit "SystemOrder") /\
  zread (halo_text []) = Err /\ zread (halo_text ["SnapMax = 9"; "Endianness = middle"]%string) = Err.
Proof.
  split; [|split; [|split; [|split]]].
  - unfold distinct_names. vm_compute. repeat (constructor; [intros H; cbn in H; repeat (destruct H as [H|H]; [discriminate|]); exact H|]).
    constructor.
  - exists (map lit (nil_lines ++ ["NilSnapOmegaM = 27"]%string)). split; [discriminate|]. split; [|reflexivity].
    repeat constructor; cbn; intros H; repeat (destruct H as [H|H]; [discriminate|]); exact H.
  - eexists. split; [vm_compute; reflexivity|]. split; reflexivity.
  - vm_compute. reflexivity.
  - vm_compute. reflexivity.
Qed.

(** C113's hypothesis holds of sources that read nothing but the compared variables, e.g. the number of snapshots. *)
Definition snap_source (g : gconfig Z) (snap : Z) : res (list header) :=
  if (snap <=? g_snapMax g)%Z then Ok [example_header (g_snapMin g mod 2 ^ 64)] else Err.
Example C113_nonvacuous : relevant_only Z snap_source (fun _ => 1) /\ (forall g, good_source (snap_source g) 1) /\
  exists g1 g2 h, header_runs Z atoi lower (Z.eqb (-1)) (-1)%Z 1%Z (fun _ => true) snap_source (fun _ => 1) None (fun _ => None)
    [HKilled nil2 0; HClear; HRun nil1 [1%Z]; HRun nil2 [1%Z; 9%Z]] = [(g1, 1%Z, Ok h); (g2, 1%Z, Ok h); (g2, 9%Z, Err)].
Proof.
  split; [|split].
  - intros g1 g2 (_ & (_ & _ & _ & _ & _ & H1 & H2) & _). split; [|reflexivity]. unfold snap_source. now rewrite H1, H2.
  - intros g snap hds. unfold snap_source. destruct (snap <=? g_snapMax g)%Z; [|discriminate]. intros [= <-]. split; [reflexivity|].
    constructor; [|constructor]. unfold good_header, example_header. cbn [hd64 hd32 length].
    pose proof (Z.mod_pos_bound (g_snapMin g) (2 ^ 64) eq_refl).
    repeat split; repeat constructor; lia.
  - do 3 eexists. vm_compute. reflexivity.
Qed.

(** ** C117: the cosmology of nil snapshots *)

(** If NilSnapOmegaL is set, an accepted config with SnapshotType = nil sets all five variables. Missing: files that do not
    set NilSnapOmegaL, for which the claim is false (below). *)
Theorem C117_all_set_partial : forall F pf lower isM1 fm1 f1 dirOK text (g : gconfig F),
  read_global F pf lower isM1 fm1 f1 dirOK text = Ok g -> g_snapshotType g = lit "nil" -> isM1 (g_nilOmegaL g) = false ->
  isM1 (g_nilOmegaM g) = false /\ isM1 (g_nilH100 g) = false /\ isM1 (g_nilTotalWidth g) = false /\ g_nilScaleFactors g <> [].
Proof.
  intros F pf lw isM1 fm1 f1 dirOK text g R T O. unfold read_global in R.
  destruct (ReadConfig F pf lw text (global_vars F fm1 f1) (global_defaults F fm1 f1)) as [[| |] st]; try discriminate.
  apply validate_spec in R. destruct R as [_ V]. destruct (v_nil _ _ _ V T) as [A [B|(B & C & D)]]; [congruence|].
  repeat split; try assumption; now apply not_true_iff_false.
Qed.
Print Assumptions C117_all_set_partial.

(** Without NilSnapOmegaL nothing else is needed: no Hubble constant, no box width, no scale factors; the first look at a
    snapshot's header then crashes. *)
Theorem C117_missing_refuted : exists text g, zread text = Ok g /\ g_snapshotType g = lit "nil" /\
  g_nilOmegaL g = (-1)%Z /\ g_nilH100 g = (-1)%Z /\ g_nilTotalWidth g = (-1)%Z /\ g_nilScaleFactors g = [] /\
  forall inv1 to32 snap, nil_source inv1 to32 g snap = Panic.
Proof.
  exists (text_of ["[config]"; "SnapshotType = nil"; "MemoDir = memo"; "SnapMin = 0"; "SnapMax = 2"; "NilSnapOmegaM = 27"]%string).
  eexists. split; [vm_compute; reflexivity|]. repeat (split; [reflexivity|]). intros inv1 to32 snap. unfold nil_source, nil_header.
  destruct (nil_catalog _ snap) as [f|]; [|reflexivity]. cbn [g_nilScaleFactors]. destruct (match atoi f with Some i => i | None => 0%Z end <? 0)%Z; [reflexivity|].
  now destruct (Z.to_nat _).
Qed.
Print Assumptions C117_missing_refuted.

Example C117_nonvacuous : exists g, zread nil1 = Ok g /\ g_snapshotType g = lit "nil" /\ Z.eqb (-1) (g_nilOmegaL g) = false.
Proof. eexists. split; [vm_compute; reflexivity|]. split; reflexivity. Qed.
