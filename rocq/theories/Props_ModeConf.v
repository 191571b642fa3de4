(** * C137-C138: the configuration files of the modes *)
From Verif Require Import GoBase GoBaseFacts RealBase InterpProofs ConfigModel ConfigSpec ConfigProofs ConfigProofs2 ConfigProofs3 ModeConfModel ModeConfSpec ModeConfProofs.
From Coq Require Import ZArith Reals List Lia Lra.
Import List ListNotations.

(** ** C137: documented config files are accepted *)

(** The header of the example config file of each mode: id.go:35, tree.go:23, stats.go:39, prof.go:46, phase.go:36, potential.go:31, shell.go:40, coord.go:24, check.go:27. *)
Definition doc_header (m : mode) : bytes :=
  lit (match m with
  | MId => "id.config" | MTree => "tree.config" | MStats => "stats.config" | MProf => "prof.config" | MPhase => "phase.config"
  | MPotential => "potential.config" | MShell => "shell.config" | MCoord => "config.coord" | MCheck => "check.config" end)%string.

(** The variables in the example config files (also the commented ones), with the type that the example value has. *)
Definition doc_vars (m : mode) : list (bytes * varType) :=
  map (fun p => (lit (fst p), snd p)) (match m with
  | MId => [("Snap", intVar); ("IDs", intsVar); ("IDType", stringVar); ("IDStart", intVar); ("IDEnd", intVar); ("M200mMin", floatVar); ("M200mMax", floatVar);
      ("ExclusionStrategy", stringVar); ("ExclusionRadiusMult", floatVar); ("Mult", intVar)]
  | MTree => [("SelectSnaps", intsVar)]
  | MStats => [("MonteCarloSamples", intVar); ("ExclusionStrategy", stringVar); ("Order", intVar); ("SkipMass", boolVar); ("ShellParticleFile", stringVar); ("ShellWidth", floatVar)]
  | MProf => [("ProfileType", stringVar); ("Order", intVar); ("Samples", intVar); ("MedianPixelLevel", intVar); ("Percentile", floatVar); ("Bins", intVar);
      ("RMaxMult", floatVar); ("RMinMult", floatVar)]
  | MPhase => [("ProfileType", stringVar); ("RBins", intVar); ("VBins", intVar); ("RMaxMult", floatVar); ("VMaxMult", floatVar); ("SubtractHubble", boolVar)]
  | MPotential => [("NCells", intVar); ("GridRMult", floatVar); ("RMinMult", floatVar); ("RMaxMult", floatVar); ("ParticleFraction", floatVar)]
  | MShell => [("SubsampleFactor", intVar); ("RadialBins", intVar); ("Spokes", intVar); ("Rings", intVar); ("RMaxMult", floatVar); ("RMinMult", floatVar);
      ("RKernelMult", floatVar); ("Eta", floatVar); ("Order", intVar); ("Levels", intVar); ("SmoothingWindow", intVar); ("LOSSlopeCutoff", floatVar); ("BackgroundRhoMult", floatVar)]
  | MCoord => [("Values", stringsVar)]
  | MCheck => [("H0", floatVar); ("OmegaM", floatVar); ("OmegaL", floatVar); ("BoxWidth", floatVar); ("ParticleCount", intVar); ("ParticleMasses", floatsVar); ("ExampleHalo", floatsVar)]
  end)%string.

(** Every assignment is to a documented variable, and its text is a value of the variable's type. *)
Definition documented parseFloat (toLower : bytes -> bytes) (m : mode) (al : list (bytes * bytes)) : Prop :=
  forall n v, In (n, v) al -> exists x ty y, In (x, ty) (doc_vars m) /\ toLower n = toLower x /\ denotes R parseFloat ty v y.

(** The assignments are to documented variables of the mode other than NCells of potential mode. *)
Definition documented_but parseFloat (toLower : bytes -> bytes) (m : mode) (al : list (bytes * bytes)) : Prop :=
  forall n v, In (n, v) al -> exists x ty y, In (x, ty) (doc_vars m) /\ x <> lit "NCells" /\ toLower n = toLower x /\ denotes R parseFloat ty v y.

(** The header that each mode really wants. *)
Definition wanted_header (m : mode) : bytes :=
  lit (match m with
  | MId => "id.config" | MTree => "tree.config" | MStats => "stats.config" | MProf | MPhase | MPotential => "prof.config"
  | MShell => "shell.config" | MCoord => "coord.config" | MCheck => "check.config" end)%string.

(** In all nine modes: a config file with the header that the mode wants, that assigns documented variables (but NCells), each at most once, to values of
    their types, is read without error, and every variable has the assigned value, or is at its default if nothing is assigned. *)
Theorem C137_wanted_header_accepted : forall parseFloat toLower m text ls al, lowers_ascii toLower ->
  lines_of text ls -> config_lines (wanted_header m) ls al -> documented_but parseFloat toLower m al -> no_duplicates toLower al ->
  exists st, read_mode parseFloat toLower m (Some text) [] = (Nil, st) /\
    Forall2 (fun r x => setting parseFloat toLower al (fst (fst r)) (snd (fst r)) (snd r) x) (regs m) st.
Proof.
  intros pf tl m text ls al Hl Hls Hc Hd Hnd.
  assert (Hh : wanted_header m = reg_name m) by (destruct m; reflexivity).
  assert (Hsub : forall x ty, In (x, ty) (doc_vars m) -> x <> lit "NCells" -> exists r, In r (regs m) /\ fst r = (x, ty)).
  { assert (E : forallb (fun p => beq (fst p) (lit "NCells") || existsb (fun r => beq (fst (fst r)) (fst p) && match snd (fst r), snd p with
       | intVar, intVar | intsVar, intsVar | floatVar, floatVar | floatsVar, floatsVar | stringVar, stringVar | stringsVar, stringsVar | boolVar, boolVar | boolsVar, boolsVar => true
       | _, _ => false end) (map (fun r => (fst r, tt)) (regs m))) (doc_vars m) = true).
    { destruct m; vm_compute; reflexivity. }
    rewrite forallb_forall in E. intros x ty Hx Hne. specialize (E _ Hx). apply orb_prop in E. destruct E as [E|E]; [apply beq_true in E; contradiction|]. apply existsb_exists in E. destruct E as ((p, u) & Hr & E). apply in_map_iff in Hr. destruct Hr as (r & Er & Hr).
    injection Er as <- <-. exists r. split; [exact Hr|]. apply andb_prop in E. destruct E as (E1 & E2). apply beq_true in E1. cbn [fst snd] in *. destruct r as ((a, t), d). cbn [fst snd] in *.
    subst a. f_equal. destruct t, ty; try discriminate; reflexivity. }
  set (names := map (fun r => fst (fst r)) (regs m)).
  pose proof (fun st => read_mode_iff pf tl Hl m (wanted_header m) (Some text) [] al names st Hh eq_refl (or_introl (ex_intro _ text (ex_intro _ ls (conj eq_refl (conj eq_refl (conj Hls Hc))))))) as HR.
  (* every variable has a value *)
  assert (Hvals : forall l : list reg, (forall r, In r l -> In r (regs m)) -> exists st, Forall2 (fun r x => setting pf tl al (fst (fst r)) (snd (fst r)) (snd r) x) l st).
  { induction l as [|r l IH]; intros Hin; [exists []; constructor|]. destruct IH as (st & Hst); [intros; apply Hin; now right|].
    assert (Hr : exists x, setting pf tl al (fst (fst r)) (snd (fst r)) (snd r) x).
    { destruct (assigned_dec tl al (fst (fst r))) as [(n & v & Hi & Hs)|Hn]; [|exists (snd r); right; auto].
      destruct (Hd n v Hi) as (x & ty & y & Hx & Hne & Hnx & Hy). destruct (Hsub x ty Hx Hne) as (r' & Hr' & Er').
      assert (Er : r' = r).
      { pose proof (distinct_regs tl Hl m) as HD. unfold distinct_vars, mode_vars in HD. cbn [cv_vars] in HD. rewrite map_map in HD. cbn [rv_name] in HD.
        assert (Hsame : tl (fst (fst r')) = tl (fst (fst r))) by (rewrite Er'; cbn [fst]; congruence).
        specialize (Hin r (or_introl eq_refl)). clear - HD Hr' Hin Hsame. induction (regs m) as [|a rs IH]; [destruct Hin|]. cbn [map] in HD. inversion HD as [|? ? N1 N2]; subst.
        destruct Hr' as [<-|Hr'], Hin as [<-|Hin]; auto.
        - exfalso. apply N1. rewrite Hsame. apply (in_map (fun r => tl (fst (fst r)))), Hin.
        - exfalso. apply N1. rewrite <- Hsame. apply (in_map (fun r => tl (fst (fst r)))), Hr'. }
      subst r'. exists y. left. exists n, v. rewrite Er'. auto. }
    destruct Hr as (x & Hx). exists (x :: st). now constructor. }
  destruct (Hvals (regs m) ltac:(auto)) as (st & Hst). exists st. split; [|exact Hst]. apply HR. split; [|split; assumption].
  intros n v Hi. destruct (Hd n v Hi) as (x & ty & y & Hx & Hne & Hnx & _). destruct (Hsub x ty Hx Hne) as (r & Hr & Er). exists x. split; [|exact Hnx].
  unfold names. replace x with (fst (fst r)) by now rewrite Er. apply (in_map (fun r => fst (fst r))), Hr.
Qed.
Print Assumptions C137_wanted_header_accepted.

(** In the six modes id, tree, stats, prof, shell and check, every config file with the documented header that assigns documented variables, each at most once,
    to values of their types is read without error, and every variable has the assigned value, or is at its default if nothing is assigned. *)
Theorem C137_documented_accepted_partial : forall parseFloat toLower m text ls al, lowers_ascii toLower -> In m [MId; MTree; MStats; MProf; MShell; MCheck] ->
  lines_of text ls -> config_lines (doc_header m) ls al -> documented parseFloat toLower m al -> no_duplicates toLower al ->
  exists st, read_mode parseFloat toLower m (Some text) [] = (Nil, st) /\
    Forall2 (fun r x => setting parseFloat toLower al (fst (fst r)) (snd (fst r)) (snd r) x) (regs m) st.
Proof.
  intros pf tl m text ls al Hl Hm Hls Hc Hd Hnd. apply (C137_wanted_header_accepted pf tl m text ls al Hl Hls); [|  |exact Hnd].
  - replace (wanted_header m) with (doc_header m); [exact Hc|]. destruct Hm as [<-|[<-|[<-|[<-|[<-|[<-|[]]]]]]]; reflexivity.
  - intros n v Hi. destruct (Hd n v Hi) as (x & ty & y & Hx & Hnx & Hy). exists x, ty, y. repeat split; auto. intros ->.
    assert (E : existsb (fun p => beq (fst p) (lit "NCells")) (doc_vars m) = false) by (destruct Hm as [<-|[<-|[<-|[<-|[<-|[<-|[]]]]]]]; reflexivity).
    assert (existsb (fun p => beq (fst p) (lit "NCells")) (doc_vars m) = true) as E2; [|congruence].
    apply existsb_exists. exists (lit "NCells", ty). split; [exact Hx|]. apply beq_refl.
Qed.
Print Assumptions C137_documented_accepted_partial.

(** In the modes phase, potential and coord, every config file with the documented header is rejected, whatever else is in it and whatever flags are given. *)
Theorem C137_documented_header_refuted : forall parseFloat toLower m text ls al flags st, lowers_ascii toLower -> In m [MPhase; MPotential; MCoord] ->
  lines_of text ls -> config_lines (doc_header m) ls al -> read_mode parseFloat toLower m (Some text) flags <> (Nil, st).
Proof.
  intros pf tl m text ls al flags st Hl Hm Hls Hc. apply (read_mode_header pf tl Hl m (doc_header m) text ls al flags st); [|exact Hls|exact Hc].
  destruct Hm as [<-|[<-|[<-|[]]]]; vm_compute; discriminate.
Qed.
Print Assumptions C137_documented_header_refuted.

(** The documented variable NCells of potential mode is rejected even under the header that the code wants, and as a flag. *)
Theorem C137_ncells_refuted : forall parseFloat toLower file flags al st v, lowers_ascii toLower -> given_by (lit "prof.config") file flags al ->
  In (lit "NCells", v) al -> read_mode parseFloat toLower MPotential file flags <> (Nil, st).
Proof.
  intros pf tl file flags al st v Hl Hg Hi E. apply (read_mode_iff pf tl Hl MPotential _ file flags al _ st eq_refl eq_refl Hg) in E. destruct E as (Hk & _).
  destruct (Hk _ _ Hi) as (x & Hx & E). cbn in Hx.
  assert (HL : forall s, forallb (fun c => nat_of_ascii c <? 128)%nat (lit s) = true -> tl (lit s) = lower_ascii (lit s)) by (apply lower_lit; exact Hl).
  rewrite HL in E by reflexivity. destruct Hx as [<-|[<-|[<-|[<-|[<-|[]]]]]].
  - change (tl (lit "RBins")) with (tl (lit "RBins")) in E. specialize (HL "RBins"%string eq_refl). cbn in HL, E. rewrite HL in E. vm_compute in E. discriminate.
  - specialize (HL "GridRMult"%string eq_refl). cbn in HL, E. rewrite HL in E. vm_compute in E. discriminate.
  - specialize (HL "RMaxMult"%string eq_refl). cbn in HL, E. rewrite HL in E. vm_compute in E. discriminate.
  - specialize (HL "RMinMult"%string eq_refl). cbn in HL, E. rewrite HL in E. vm_compute in E. discriminate.
  - specialize (HL "ParticleFraction"%string eq_refl). cbn in HL, E. rewrite HL in E. vm_compute in E. discriminate.
Qed.
Print Assumptions C137_ncells_refuted.

(** A tree.config file and a coord file as documented. *)
Example C137_nonvacuous : forall parseFloat, lowers_ascii lower_ascii /\
  (exists ls al, lines_of (lit "[tree.config]" ++ nl :: lit "SelectSnaps = 36, 47") ls /\ config_lines (doc_header MTree) ls al /\ al = [(lit "SelectSnaps", lit "36, 47")] /\
     documented parseFloat lower_ascii MTree al /\ no_duplicates lower_ascii al) /\
  (exists ls al, lines_of (lit "[config.coord]" ++ nl :: lit "Values = X, Y, Z, R200m") ls /\ config_lines (doc_header MCoord) ls al) /\
  given_by (lit "prof.config") None [lit "--NCells"; lit "64"] [(lit "NCells", lit "64")].
Proof.
  intros pf. split; [intros s _; reflexivity|]. split; [|split].
  - exists [lit "[tree.config]"; lit "SelectSnaps = 36, 47"], [(lit "SelectSnaps", lit "36, 47")]. split; [|split; [|split; [reflexivity|split]]].
    + split; [discriminate|]. split; [|reflexivity]. repeat constructor; vm_compute; intuition discriminate.
    + apply config_lines_iff. exists [lit "SelectSnaps = 36, 47"]. split; [vm_compute; reflexivity|]. repeat constructor.
    + intros n v [[= <- <-]|[]]. exists (lit "SelectSnaps"), intsVar, (VInts R [36; 47]%Z). split; [now left|]. split; [reflexivity|]. constructor. exists [lit "36"; lit " 47"]. split; [discriminate|].
      split; [repeat constructor; vm_compute; intuition discriminate|]. split; [reflexivity|].
      constructor; [exists 0%nat, 0%nat, (lit "36"); split; [reflexivity|]; split; [split; vm_compute; discriminate|]; now apply GoBaseFacts.atoi_spec|].
      constructor; [|constructor]. exists 1%nat, 0%nat, (lit "47"). split; [reflexivity|]. split; [split; vm_compute; discriminate|]. now apply GoBaseFacts.atoi_spec.
    + repeat constructor. intros [].
  - exists [lit "[config.coord]"; lit "Values = X, Y, Z, R200m"], [(lit "Values", lit "X, Y, Z, R200m")]. split.
    + split; [discriminate|]. split; [|reflexivity]. repeat constructor; vm_compute; intuition discriminate.
    + apply config_lines_iff. exists [lit "Values = X, Y, Z, R200m"]. split; [vm_compute; reflexivity|]. repeat constructor.
  - right. split; [reflexivity|]. exists [(lit "NCells", [lit "64"])]. split; [discriminate|]. split; [|split; reflexivity]. constructor; [|constructor].
    unfold good_group, clean. cbn [fst snd]. repeat split; try (vm_compute; intuition discriminate).
    + repeat constructor; vm_compute; intuition discriminate.
    + exists "N"%char. split; [left; reflexivity|discriminate].
    + repeat constructor.
Qed.

(** ** C138: which configurations are accepted, and with which values *)

Section Accepted.
Variables (parseFloat : bytes -> option R) (toLower : bytes -> bytes) (al : list (bytes * bytes)).
Definition has_string (name : string) (default x : bytes) : Prop := setting parseFloat toLower al (lit name) stringVar (VString R default) (VString R x).
Definition has_strings (name : string) (default x : list bytes) : Prop := setting parseFloat toLower al (lit name) stringsVar (VStrings R default) (VStrings R x).
Definition has_int (name : string) (default x : Z) : Prop := setting parseFloat toLower al (lit name) intVar (VInt R default) (VInt R x).
Definition has_ints (name : string) (default x : list Z) : Prop := setting parseFloat toLower al (lit name) intsVar (VInts R default) (VInts R x).
Definition has_float (name : string) (default x : R) : Prop := setting parseFloat toLower al (lit name) floatVar (VFloat R default) (VFloat R x).
Definition has_bool (name : string) (default x : bool) : Prop := setting parseFloat toLower al (lit name) boolVar (VBool R default) (VBool R x).
(** Only these names are assigned, each at most once. *)
Definition assigns (names : list string) : Prop := known toLower (map lit names) al /\ no_duplicates toLower al.
End Accepted.

Lemma one_name_spec s l : one_name s l = true <-> exists t, In t l /\ s = lit t.
Proof.
  unfold one_name. rewrite existsb_exists. split; intros (t & Ht & E); exists t; (split; [exact Ht|]); [now apply beq_true|subst; apply beq_refl].
Qed.

(** id: accepted exactly if the type and the strategy are known ones, the radius multiplier is positive if it is needed, a snapshot is set, Mult is positive
    and M200mMax is not negative. *)
Theorem C138_id : forall parseFloat toLower file flags al c, lowers_ascii toLower -> given_by (lit "id.config") file flags al ->
  (read_id parseFloat toLower file flags = Some c <->
   assigns toLower al ["IDType"; "IDs"; "IDStart"; "IDEnd"; "Mult"; "Snap"; "ExclusionStrategy"; "ExclusionRadiusMult"; "M200mMax"; "M200mMin"] /\
   has_string parseFloat toLower al "IDType" (lit "m200m") (ic_idType c) /\ has_ints parseFloat toLower al "IDs" [] (ic_ids c) /\
   has_int parseFloat toLower al "IDStart" (-1) (ic_start c) /\ has_int parseFloat toLower al "IDEnd" (-1) (ic_end c) /\
   has_int parseFloat toLower al "Mult" 1 (ic_mult c) /\ has_int parseFloat toLower al "Snap" (-1) (ic_snap c) /\
   has_string parseFloat toLower al "ExclusionStrategy" (lit "overlap") (ic_excl c) /\ has_float parseFloat toLower al "ExclusionRadiusMult" 1 (ic_exclMult c) /\
   has_float parseFloat toLower al "M200mMax" 0 (ic_mMax c) /\ has_float parseFloat toLower al "M200mMin" 0 (ic_mMin c) /\
   (ic_idType c = lit "halo-id" \/ ic_idType c = lit "m200m") /\
   (ic_excl c = lit "none" \/ ic_excl c = lit "subhalo" \/ ic_excl c = lit "neighbor" \/ (ic_excl c = lit "overlap" /\ (0 < ic_exclMult c)%R)) /\
   (0 <= ic_snap c)%Z /\ (0 < ic_mult c)%Z /\ (0 <= ic_mMax c)%R)%string.
Proof.
  intros pf tl file flags al c Hl Hg. pose proof (fun st => read_mode_iff pf tl Hl MId _ file flags al _ st eq_refl eq_refl Hg) as HR.
  assert (HG : given file flags = true) by (destruct Hg as [(t & ls & -> & _)|(-> & gs & Hne & _ & -> & _)]; [reflexivity|]; destruct gs as [|(g, vs) gs]; [congruence|reflexivity]).
  assert (HV : id_validate c = true <->
   (ic_idType c = lit "halo-id" \/ ic_idType c = lit "m200m") /\
   (ic_excl c = lit "none" \/ ic_excl c = lit "subhalo" \/ ic_excl c = lit "neighbor" \/ (ic_excl c = lit "overlap" /\ (0 < ic_exclMult c)%R)) /\
   (0 <= ic_snap c)%Z /\ (0 < ic_mult c)%Z /\ (0 <= ic_mMax c)%R).
  { unfold id_validate. pose proof (one_name_spec (ic_idType c) ["halo-id"; "m200m"]%string) as T1. pose proof (one_name_spec (ic_excl c) ["none"; "subhalo"; "neighbor"]%string) as T2.
    pose proof (one_name_spec (ic_excl c) ["overlap"]%string) as T3.
    assert (T1' : one_name (ic_idType c) ["halo-id"; "m200m"]%string = true <-> ic_idType c = lit "halo-id" \/ ic_idType c = lit "m200m").
    { rewrite T1. split; [intros (t & [<-|[<-|[]]] & E); auto|intros [E|E]; eexists; (split; [|exact E]); cbn; auto]. }
    assert (T2' : one_name (ic_excl c) ["none"; "subhalo"; "neighbor"]%string = true <-> ic_excl c = lit "none" \/ ic_excl c = lit "subhalo" \/ ic_excl c = lit "neighbor").
    { rewrite T2. split; [intros (t & [<-|[<-|[<-|[]]]] & E); auto|intros [E|[E|E]]; eexists; (split; [|exact E]); cbn; auto]. }
    assert (T3' : one_name (ic_excl c) ["overlap"]%string = true <-> ic_excl c = lit "overlap") by (rewrite T3; split; [intros (t & [<-|[]] & E); auto|intros E; eexists; (split; [|exact E]); cbn; auto]).
    clear T1 T2 T3 HR. destruct (one_name (ic_idType c) _); [|split; [discriminate|]; intros (H & _); apply T1' in H; discriminate].
    destruct (one_name (ic_excl c) ["none"; "subhalo"; "neighbor"]%string).
    - destruct (Z.eqb_spec (ic_snap c) (-1)); [split; [discriminate|lia]|]. destruct (Z.ltb_spec (ic_snap c) 0); [split; [discriminate|lia]|].
      destruct (Z.leb_spec (ic_mult c) 0); [split; [discriminate|lia]|]. destruct (Rltb (ic_mMax c) 0) eqn:Em; [apply Rltb_true in Em; split; [discriminate|lra]|apply Rltb_false in Em].
      split; [intros _|destruct (Rltb _ _); reflexivity]. repeat split; try lia; try lra; [now apply T1'|]. destruct (proj1 T2' eq_refl) as [?|[?|?]]; auto.
    - destruct (one_name (ic_excl c) ["overlap"]%string).
      + destruct (Rleb (ic_exclMult c) 0) eqn:Er; cbn [negb]; [apply Rleb_true in Er|apply Rleb_false in Er].
        * split; [discriminate|]. intros (_ & [E|[E|[E|(_ & E)]]] & _); try (assert (false = true) by (apply T2'; auto); discriminate). lra.
        * destruct (Z.eqb_spec (ic_snap c) (-1)); [split; [discriminate|lia]|]. destruct (Z.ltb_spec (ic_snap c) 0); [split; [discriminate|lia]|].
          destruct (Z.leb_spec (ic_mult c) 0); [split; [discriminate|lia]|]. destruct (Rltb (ic_mMax c) 0) eqn:Em; [apply Rltb_true in Em; split; [discriminate|lra]|apply Rltb_false in Em].
          split; [intros _|destruct (Rltb _ _); reflexivity]. repeat split; try lia; try lra; [now apply T1'|]. right. right. right. split; [now apply T3'|lra].
      + split; [discriminate|]. intros (_ & [E|[E|[E|(E & _)]]] & _); try (assert (false = true) by (apply T2'; auto); discriminate). assert (false = true) by (apply T3'; auto). discriminate. }
  rewrite <- HV. clear HV. unfold read_id. rewrite HG. split.
  - destruct (read_mode pf tl MId file flags) as ([| |], st) eqn:E; try discriminate. destruct (proj1 (HR st) eq_refl) as (Hk & Hd & HF). cbn [regs] in HF.
    repeat match goal with H : Forall2 _ (_ :: _) _ |- _ => inversion H; clear H; subst | H : Forall2 _ [] _ |- _ => inversion H; clear H; subst end.
    repeat match goal with |- context [match ?v with VInt _ _ => _ | _ => _ end] => destruct v; try discriminate end.
    match goal with |- (if ?b then _ else _) = _ -> _ => destruct b eqn:Ev; [|discriminate] end. intros [= <-]. cbn [ic_idType ic_ids ic_start ic_end ic_mult ic_snap ic_excl ic_exclMult ic_mMax ic_mMin].
    split; [split; [exact Hk|exact Hd]|]. repeat (split; [assumption|]). exact Ev.
  - intros ((Hk & Hd) & H1 & H2 & H3 & H4 & H5 & H6 & H7 & H8 & H9 & H10 & Ev). destruct c as [t ids s e m sn ex em mx mn]. cbn [ic_idType ic_ids ic_start ic_end ic_mult ic_snap ic_excl ic_exclMult ic_mMax ic_mMin] in *.
    destruct (HR [VString R t; VInts R ids; VInt R s; VInt R e; VInt R m; VInt R sn; VString R ex; VFloat R em; VFloat R mx; VFloat R mn]) as (_ & HB).
    rewrite HB; [rewrite Ev; reflexivity|]. split; [exact Hk|]. split; [exact Hd|]. cbn [regs]. repeat (constructor; [assumption|]). constructor.
Qed.
Print Assumptions C138_id.

(** stats: accepted exactly if Values holds known names, the strategy is a known one and the number of samples is positive. Shell particles are written exactly if
    ShellWidth is not zero and ShellParticleFile is not empty. *)
Theorem C138_stats : forall parseFloat toLower file flags al c, lowers_ascii toLower -> given_by (lit "stats.config") file flags al ->
  (read_stats parseFloat toLower file flags = Some c <->
   assigns toLower al ["Values"; "MonteCarloSamples"; "ExclusionStrategy"; "Order"; "ShellParticleFile"; "ShellWidth"; "SkipMass"] /\
   has_strings parseFloat toLower al "Values" [] (sc_values c) /\ has_int parseFloat toLower al "MonteCarloSamples" 50000 (sc_samples c) /\
   has_string parseFloat toLower al "ExclusionStrategy" (lit "none") (sc_excl c) /\ has_int parseFloat toLower al "Order" 3 (sc_order c) /\
   has_string parseFloat toLower al "ShellParticleFile" [] (sc_file c) /\ has_float parseFloat toLower al "ShellWidth" 0 (sc_width c) /\
   has_bool parseFloat toLower al "SkipMass" false (sc_skip c) /\
   (sc_filter c = true <-> sc_width c <> 0%R /\ sc_file c <> []) /\
   (forall v, In v (sc_values c) -> In v (map lit ["snap"; "id"; "m_sp"; "r_sp"; "a_sp"; "b_sp"; "c_sp"; "SA_sp/V_sp"])) /\
   (sc_excl c = lit "none" \/ sc_excl c = lit "contain" \/ sc_excl c = lit "overlap") /\ (0 < sc_samples c)%Z)%string.
Proof.
  intros pf tl file flags al c Hl Hg. pose proof (fun st => read_mode_iff pf tl Hl MStats _ file flags al _ st eq_refl eq_refl Hg) as HR.
  assert (HG : given file flags = true) by (destruct Hg as [(t & ls & -> & _)|(-> & gs & Hne & _ & -> & _)]; [reflexivity|]; destruct gs as [|(g, vs) gs]; [congruence|reflexivity]).
  assert (HV : forall c, stats_validate c = true <->
   ((forall v, In v (sc_values c) -> In v (map lit ["snap"; "id"; "m_sp"; "r_sp"; "a_sp"; "b_sp"; "c_sp"; "SA_sp/V_sp"])) /\
   (sc_excl c = lit "none" \/ sc_excl c = lit "contain" \/ sc_excl c = lit "overlap") /\ (0 < sc_samples c)%Z)%string).
  { clear. intros c. unfold stats_validate.
    assert (T1 : forall l, forallb (fun v => one_name v l) (sc_values c) = true <-> (forall v, In v (sc_values c) -> In v (map lit l))).
    { intros l. rewrite forallb_forall. split; intros H v Hv; specialize (H v Hv).
      - apply one_name_spec in H. destruct H as (t & Ht & ->). now apply in_map.
      - apply one_name_spec. apply in_map_iff in H. destruct H as (t & <- & Ht). eauto. }
    assert (T2 : one_name (sc_excl c) ["none"; "contain"; "overlap"]%string = true <-> sc_excl c = lit "none" \/ sc_excl c = lit "contain" \/ sc_excl c = lit "overlap").
    { rewrite one_name_spec. split; [intros (t & [<-|[<-|[<-|[]]]] & E); auto|intros [E|[E|E]]; eexists; (split; [|exact E]); cbn; auto]. }
    rewrite <- T1, <- T2. destruct (forallb _ _); [|split; [discriminate|intros (? & _); discriminate]]. destruct (one_name _ _); [|split; [discriminate|intros (_ & ? & _); discriminate]].
    destruct (Z.leb_spec (sc_samples c) 0); cbn [negb]; split; try discriminate; try reflexivity; [lia|auto]. }
  rewrite <- HV. unfold read_stats. rewrite HG.
  assert (HB : forall w (f : bytes), ((if Req_EM_T w 0 then false else true) && negb (beq f []) = true <-> w <> 0%R /\ f <> [])%bool).
  { intros w f. rewrite Bool.andb_true_iff. destruct (Req_EM_T w 0) as [E|E]; (split; [intros (H1 & H2)|intros (H1 & H2)]); try discriminate; try contradiction.
    - split; [exact E|]. intros ->. rewrite beq_refl in H2. discriminate.
    - split; [reflexivity|]. destruct (beq f []) eqn:Eb; [|reflexivity]. apply beq_true in Eb. contradiction. }
  split.
  - destruct (read_mode pf tl MStats file flags) as ([| |], st) eqn:E; try discriminate. destruct (proj1 (HR st) eq_refl) as (Hk & Hd & HF). cbn [regs] in HF.
    repeat match goal with H : Forall2 _ (_ :: _) _ |- _ => inversion H; clear H; subst | H : Forall2 _ [] _ |- _ => inversion H; clear H; subst end.
    repeat match goal with |- context [match ?v with VInt _ _ => _ | _ => _ end] => destruct v; try discriminate end.
    cbv zeta. match goal with |- (if ?b then _ else _) = _ -> _ => destruct b eqn:Ev; [|discriminate] end. intros [= <-]. cbn [sc_values sc_samples sc_excl sc_order sc_file sc_width sc_skip sc_filter].
    split; [split; [exact Hk|exact Hd]|]. repeat (split; [first [assumption|apply HB]|]). exact Ev.
  - intros ((Hk & Hd) & H1 & H2 & H3 & H4 & H5 & H6 & H7 & H8 & Ev). destruct c as [vs n ex o f w sk fl]. cbn [sc_values sc_samples sc_excl sc_order sc_file sc_width sc_skip sc_filter] in *.
    destruct (HR [VStrings R vs; VInt R n; VString R ex; VInt R o; VString R f; VFloat R w; VBool R sk]) as (_ & HX).
    assert (Efl : fl = ((if Req_EM_T w 0 then false else true) && negb (beq f []))%bool).
    { destruct (((if Req_EM_T w 0 then false else true) && negb (beq f []))%bool) eqn:Eb; [apply H8; apply HB, Eb|]. destruct fl; [|reflexivity]. assert (false = true) by (rewrite <- Eb; apply HB; now apply H8). discriminate. }
    rewrite HX; [cbv zeta; rewrite <- Efl, Ev; reflexivity|]. split; [exact Hk|]. split; [exact Hd|]. cbn [regs]. repeat (constructor; [assumption|]). constructor.
Qed.
Print Assumptions C138_stats.

(** phase: accepted exactly if ProfileType is radial or total and no bin count or multiplier is negative. *)
Theorem C138_phase : forall parseFloat toLower file flags al c, lowers_ascii toLower -> given_by (lit "prof.config") file flags al ->
  (read_phase parseFloat toLower file flags = Some c <->
   assigns toLower al ["RBins"; "VBins"; "RMaxMult"; "VMaxMult"; "SubtractHubble"; "ProfileType"] /\
   has_int parseFloat toLower al "RBins" 100 (ac_rbins c) /\ has_int parseFloat toLower al "VBins" 100 (ac_vbins c) /\
   has_float parseFloat toLower al "RMaxMult" 3 (ac_rMax c) /\ has_float parseFloat toLower al "VMaxMult" 3 (ac_vMax c) /\
   has_bool parseFloat toLower al "SubtractHubble" false (ac_sub c) /\
   has_string parseFloat toLower al "ProfileType" [] (lit (if ac_radial c then "radial" else "total")) /\
   (0 <= ac_rbins c)%Z /\ (0 <= ac_vbins c)%Z /\ (0 <= ac_rMax c)%R /\ (0 <= ac_vMax c)%R)%string.
Proof.
  intros pf tl file flags al c Hl Hg. pose proof (fun st => read_mode_iff pf tl Hl MPhase _ file flags al _ st eq_refl eq_refl Hg) as HR.
  assert (HG : given file flags = true) by (destruct Hg as [(t & ls & -> & _)|(-> & gs & Hne & _ & -> & _)]; [reflexivity|]; destruct gs as [|(g, vs) gs]; [congruence|reflexivity]).
  assert (HV : forall c, phase_validate c = true <-> (0 <= ac_rbins c)%Z /\ (0 <= ac_vbins c)%Z /\ (0 <= ac_rMax c)%R /\ (0 <= ac_vMax c)%R).
  { clear. intros c. unfold phase_validate. destruct (Z.ltb_spec (ac_rbins c) 0); [split; [discriminate|lia]|]. destruct (Z.ltb_spec (ac_vbins c) 0); [split; [discriminate|lia]|].
    destruct (Rltb (ac_rMax c) 0) eqn:E1; [apply Rltb_true in E1; split; [discriminate|lra]|apply Rltb_false in E1]. destruct (Rltb (ac_vMax c) 0) eqn:E2; [apply Rltb_true in E2; split; [discriminate|lra]|apply Rltb_false in E2].
    split; [|reflexivity]. intros _. repeat split; lia || lra. }
  rewrite <- HV. unfold read_phase. rewrite HG. split.
  - destruct (read_mode pf tl MPhase file flags) as ([| |], st) eqn:E; try discriminate. destruct (proj1 (HR st) eq_refl) as (Hk & Hd & HF). cbn [regs] in HF.
    repeat match goal with H : Forall2 _ (_ :: _) _ |- _ => inversion H; clear H; subst | H : Forall2 _ [] _ |- _ => inversion H; clear H; subst end.
    repeat match goal with |- context [match ?v with VInt _ _ => _ | _ => _ end] => destruct v; try discriminate end.
    match goal with |- context [beq ?b []] => rename b into ty end.
    destruct (beq ty []) eqn:E0; [discriminate|]. destruct (beq ty (lit "radial")) eqn:E1; [apply beq_true in E1; subst ty|destruct (beq ty (lit "total")) eqn:E2; [apply beq_true in E2; subst ty|discriminate]];
    cbv zeta; match goal with |- (if ?b then _ else _) = _ -> _ => destruct b eqn:Ev; [|discriminate] end; intros [= <-]; cbn [ac_rbins ac_vbins ac_rMax ac_vMax ac_sub ac_radial];
    (split; [split; [exact Hk|exact Hd]|]); repeat (split; [assumption|]); exact Ev.
  - intros ((Hk & Hd) & H1 & H2 & H3 & H4 & H5 & H6 & Ev). destruct c as [rb vb rm vm sub rad]. cbn [ac_rbins ac_vbins ac_rMax ac_vMax ac_sub ac_radial] in *.
    destruct (HR [VInt R rb; VInt R vb; VFloat R rm; VFloat R vm; VBool R sub; VString R (lit (if rad then "radial" else "total")%string)]) as (_ & HX).
    rewrite HX; [destruct rad; cbv zeta; [change (beq (lit "radial") []) with false; change (beq (lit "radial") (lit "radial")) with true|change (beq (lit "total") []) with false; change (beq (lit "total") (lit "radial")) with false; change (beq (lit "total") (lit "total")) with true]; cbv iota; rewrite Ev; reflexivity|].
    split; [exact Hk|]. split; [exact Hd|]. cbn [regs]. repeat (constructor; [assumption|]). constructor.
Qed.
Print Assumptions C138_phase.

(** potential: accepted exactly if no value is negative (ParticleFraction is not checked). *)
Theorem C138_potential : forall parseFloat toLower file flags al c, lowers_ascii toLower -> given_by (lit "prof.config") file flags al ->
  (read_potential parseFloat toLower file flags = Some c <->
   assigns toLower al ["RBins"; "GridRMult"; "RMaxMult"; "RMinMult"; "ParticleFraction"] /\
   has_int parseFloat toLower al "RBins" 64 (oc_cells c) /\ has_float parseFloat toLower al "GridRMult" 8 (oc_grid c) /\
   has_float parseFloat toLower al "RMaxMult" 1 (oc_rMax c) /\ has_float parseFloat toLower al "RMinMult" 1 (oc_rMin c) /\ has_float parseFloat toLower al "ParticleFraction" 1 (oc_frac c) /\
   (0 <= oc_cells c)%Z /\ (0 <= oc_grid c)%R /\ (0 <= oc_rMax c)%R /\ (0 <= oc_rMin c)%R)%string.
Proof.
  intros pf tl file flags al c Hl Hg. pose proof (fun st => read_mode_iff pf tl Hl MPotential _ file flags al _ st eq_refl eq_refl Hg) as HR.
  assert (HG : given file flags = true) by (destruct Hg as [(t & ls & -> & _)|(-> & gs & Hne & _ & -> & _)]; [reflexivity|]; destruct gs as [|(g, vs) gs]; [congruence|reflexivity]).
  assert (HV : forall c, pot_validate c = true <-> (0 <= oc_cells c)%Z /\ (0 <= oc_grid c)%R /\ (0 <= oc_rMax c)%R /\ (0 <= oc_rMin c)%R).
  { clear. intros c. unfold pot_validate. destruct (Z.ltb_spec (oc_cells c) 0); [split; [discriminate|lia]|]. destruct (Rltb (oc_grid c) 0) eqn:E0; [apply Rltb_true in E0; split; [discriminate|lra]|apply Rltb_false in E0].
    destruct (Rltb (oc_rMax c) 0) eqn:E1; [apply Rltb_true in E1; split; [discriminate|lra]|apply Rltb_false in E1]. destruct (Rltb (oc_rMin c) 0) eqn:E2; [apply Rltb_true in E2; split; [discriminate|lra]|apply Rltb_false in E2].
    split; [|reflexivity]. intros _. repeat split; lia || lra. }
  rewrite <- HV. unfold read_potential. rewrite HG. split.
  - destruct (read_mode pf tl MPotential file flags) as ([| |], st) eqn:E; try discriminate. destruct (proj1 (HR st) eq_refl) as (Hk & Hd & HF). cbn [regs] in HF.
    repeat match goal with H : Forall2 _ (_ :: _) _ |- _ => inversion H; clear H; subst | H : Forall2 _ [] _ |- _ => inversion H; clear H; subst end.
    repeat match goal with |- context [match ?v with VInt _ _ => _ | _ => _ end] => destruct v; try discriminate end.
    match goal with |- (if ?b then _ else _) = _ -> _ => destruct b eqn:Ev; [|discriminate] end. intros [= <-]. cbn [oc_cells oc_grid oc_rMax oc_rMin oc_frac].
    split; [split; [exact Hk|exact Hd]|]. repeat (split; [assumption|]). exact Ev.
  - intros ((Hk & Hd) & H1 & H2 & H3 & H4 & H5 & Ev). destruct c as [n g rx rn fr]. cbn [oc_cells oc_grid oc_rMax oc_rMin oc_frac] in *.
    destruct (HR [VInt R n; VFloat R g; VFloat R rx; VFloat R rn; VFloat R fr]) as (_ & HX).
    rewrite HX; [rewrite Ev; reflexivity|]. split; [exact Hk|]. split; [exact Hd|]. cbn [regs]. repeat (constructor; [assumption|]). constructor.
Qed.
Print Assumptions C138_potential.

(** Without file and flags nothing is checked and the defaults hold: snapshot -1 (which Run rejects, C25), profile type radial. *)
Theorem C138_nothing_given : forall parseFloat toLower,
  read_id parseFloat toLower None [] = Some (mkIDConf (lit "m200m") [] (-1) (-1) 1 (-1) (lit "overlap") 1 0 0) /\
  read_stats parseFloat toLower None [] = Some (mkStatsConf [] 50000 (lit "none") 3 [] 0 false false) /\
  read_phase parseFloat toLower None [] = Some (mkPhaseConf 100 100 3 3 false true) /\
  read_potential parseFloat toLower None [] = Some (mkPotConf 64 8 1 1 1).
Proof. intros. repeat split; reflexivity. Qed.
Print Assumptions C138_nothing_given.

(** ** C139: an empty mass range *)

(** M200mMin larger than M200mMax is accepted (the error of id.go:171 is built, not returned), for all such pairs of numbers. *)
Theorem C139_empty_range_refuted : forall parseFloat toLower sa sb a b, lowers_ascii toLower -> good_group (lit "M200mMax", [sa]) -> good_group (lit "M200mMin", [sb]) -> trimmed sa -> trimmed sb ->
  parseFloat sa = Some a -> parseFloat sb = Some b -> (0 <= a < b)%R ->
  exists c, read_id parseFloat toLower None [lit "--Snap"; lit "3"; lit "--M200mMax"; sa; lit "--M200mMin"; sb] = Some c /\ ic_mMax c = a /\ ic_mMin c = b.
Proof.
  intros pf tl sa sb a b Hl Ga Gb Ta Tb Ea Eb Hab. exists (mkIDConf (lit "m200m") [] (-1) (-1) 1 3 (lit "overlap") 1 a b). split; [|split; reflexivity].
  assert (HL : forall s, forallb (fun c => nat_of_ascii c <? 128)%nat (lit s) = true -> tl (lit s) = lower_ascii (lit s)) by (apply lower_lit; exact Hl).
  apply (C138_id pf tl None _ [(lit "Snap", lit "3"); (lit "M200mMax", sa); (lit "M200mMin", sb)] _ Hl).
  - right. split; [reflexivity|]. exists [(lit "Snap", [lit "3"]); (lit "M200mMax", [sa]); (lit "M200mMin", [sb])]. split; [discriminate|]. split; [|split; [reflexivity|]].
    2: { unfold groups_al. cbn [map fst snd join]. rewrite (trim_trimmed sa Ta), (trim_trimmed sb Tb). reflexivity. }
    constructor; [|constructor; [exact Ga|constructor; [exact Gb|constructor]]]. unfold good_group, clean. cbn [fst snd]. repeat split; try (vm_compute; intuition discriminate).
    + repeat constructor; vm_compute; intuition discriminate.
    + exists "S"%char. split; [left; reflexivity|discriminate].
    + repeat constructor.
  - cbn [ic_idType ic_ids ic_start ic_end ic_mult ic_snap ic_excl ic_exclMult ic_mMax ic_mMin].
    assert (HN : forall (x : string) (ty : varType) d, forallb (fun c => nat_of_ascii c <? 128)%nat (lit x) = true -> ~ In (lower_ascii (lit x)) (map lower_ascii [lit "Snap"; lit "M200mMax"; lit "M200mMin"]) ->
      setting pf tl [(lit "Snap", lit "3"); (lit "M200mMax", sa); (lit "M200mMin", sb)] (lit x) ty d d).
    { intros x ty d Hx Hn. right. split; [|reflexivity]. intros n v Hi E. apply Hn. rewrite <- HL, <- E by exact Hx. destruct Hi as [[= <- <-]|[[= <- <-]|[[= <- <-]|[]]]]; cbn [map In]; [left; symmetry; apply (HL "Snap"%string eq_refl)|right; left; symmetry; apply (HL "M200mMax"%string eq_refl)|right; right; left; symmetry; apply (HL "M200mMin"%string eq_refl)]. }
    assert (HS : forall (x : string) v ty y, In (lit x, v) [(lit "Snap", lit "3"); (lit "M200mMax", sa); (lit "M200mMin", sb)] -> denotes R pf ty v y ->
      forall d, setting pf tl [(lit "Snap", lit "3"); (lit "M200mMax", sa); (lit "M200mMin", sb)] (lit x) ty d y) by (intros x v ty y Hi Hy d; left; exists (lit x), v; auto).
    split; [split|].
    + intros n v [[= <- <-]|[[= <- <-]|[[= <- <-]|[]]]]; eexists; (split; [|reflexivity]); cbn; auto 12.
    + unfold no_duplicates. cbn [map fst]. rewrite !HL by reflexivity. vm_compute. repeat constructor; cbn; intuition discriminate.
    + split; [apply HN; [reflexivity|vm_compute; intuition discriminate]|]. split; [apply HN; [reflexivity|vm_compute; intuition discriminate]|]. split; [apply HN; [reflexivity|vm_compute; intuition discriminate]|].
      split; [apply HN; [reflexivity|vm_compute; intuition discriminate]|]. split; [apply HN; [reflexivity|vm_compute; intuition discriminate]|].
      split; [apply (HS "Snap"%string (lit "3")); [cbn; auto|constructor; now apply GoBaseFacts.atoi_spec]|].
      split; [apply HN; [reflexivity|vm_compute; intuition discriminate]|]. split; [apply HN; [reflexivity|vm_compute; intuition discriminate]|].
      split; [apply (HS "M200mMax"%string sa); [cbn; auto|now constructor]|]. split; [apply (HS "M200mMin"%string sb); [cbn; auto|now constructor]|].
      split; [now right|]. split; [right; right; right; split; [reflexivity|lra]|]. split; [lia|]. split; [lia|lra].
Qed.
Print Assumptions C139_empty_range_refuted.

Example C139_nonvacuous : exists parseFloat sa sb a b, lowers_ascii lower_ascii /\ good_group (lit "M200mMax", [sa]) /\ good_group (lit "M200mMin", [sb]) /\ trimmed sa /\ trimmed sb /\
  parseFloat sa = Some a /\ parseFloat sb = Some b /\ (0 <= a < b)%R.
Proof.
  exists (fun s => if beq s (lit "1e12") then Some 1%R else Some 2%R), (lit "1e12"), (lit "1e13"), 1%R, 2%R. split; [intros s _; reflexivity|].
  assert (G : forall x v c, In c (lit x) -> c <> "-"%char -> good_group (lit x, [lit v]) -> good_group (lit x, [lit v])) by auto.
  split; [|split; [|split; [split; vm_compute; discriminate|split; [split; vm_compute; discriminate|split; [reflexivity|split; [reflexivity|lra]]]]]].
  - unfold good_group, clean. cbn [fst snd]. repeat split; try (vm_compute; intuition discriminate); [repeat constructor; vm_compute; intuition discriminate|exists "M"%char; split; [left; reflexivity|discriminate]|repeat constructor].
  - unfold good_group, clean. cbn [fst snd]. repeat split; try (vm_compute; intuition discriminate); [repeat constructor; vm_compute; intuition discriminate|exists "M"%char; split; [left; reflexivity|discriminate]|repeat constructor].
Qed.

(** ** C140: documented defaults *)

(** The defaults that the example files state ("defaults to ... if not set", "the value the field is set to is the default value"). *)
Definition doc_defaults : list (mode * string * value R) :=
  [(MId, "IDType", VString R (lit "m200m")); (MId, "ExclusionStrategy", VString R (lit "overlap")); (MId, "ExclusionRadiusMult", VFloat R (8 / 10)%R); (MId, "Mult", VInt R 1%Z);
   (MStats, "ExclusionStrategy", VString R (lit "none")); (MStats, "Order", VInt R 3%Z);
   (MShell, "SubsampleFactor", VInt R 1%Z); (MShell, "RadialBins", VInt R 256%Z); (MShell, "Spokes", VInt R 256%Z); (MShell, "Rings", VInt R 100%Z); (MShell, "RMaxMult", VFloat R 3%R);
   (MShell, "RMinMult", VFloat R (3 / 10)%R); (MShell, "RKernelMult", VFloat R (2 / 10)%R); (MShell, "Eta", VFloat R 10%R); (MShell, "Order", VInt R 3%Z); (MShell, "Levels", VInt R 3%Z);
   (MShell, "SmoothingWindow", VInt R 121%Z); (MShell, "LOSSlopeCutoff", VFloat R 0%R); (MShell, "BackgroundRhoMult", VFloat R (5 / 10)%R);
   (MCoord, "Values", VStrings R [lit "X"; lit "Y"; lit "Z"; lit "R200m"])]%string.

(** The variable [name] of mode m has value x after reading. *)
Definition variable_is (m : mode) (st : list (value R)) (name : string) (x : value R) : Prop :=
  exists j ty d, nth_error (regs m) j = Some (lit name, ty, d) /\ nth_error st j = Some x.

(** Every documented default except that of ExclusionRadiusMult holds after every successful reading that does not assign the variable, and without file and flags. *)
Theorem C140_documented_defaults_partial : forall parseFloat toLower m name d, lowers_ascii toLower -> In (m, name, d) doc_defaults -> name <> "ExclusionRadiusMult"%string ->
  (forall file flags al st, given_by (reg_name m) file flags al -> (forall n v, In (n, v) al -> toLower n <> toLower (lit name)) ->
     read_mode parseFloat toLower m file flags = (Nil, st) -> variable_is m st name d) /\
  exists st, read_mode parseFloat toLower m None [] = (Nil, st) /\ variable_is m st name d.
Proof.
  intros pf tl m name d Hl Hd Hne.
  assert (Hj : exists j ty, nth_error (regs m) j = Some (lit name, ty, d)).
  { cbn [doc_defaults In] in Hd. repeat (destruct Hd as [[= <- <- <-]|Hd]; [try congruence; first [exists 0%nat; eexists; reflexivity|exists 1%nat; eexists; reflexivity|exists 2%nat; eexists; reflexivity|exists 3%nat; eexists; reflexivity
      |exists 4%nat; eexists; reflexivity|exists 5%nat; eexists; reflexivity|exists 6%nat; eexists; reflexivity|exists 7%nat; eexists; reflexivity|exists 8%nat; eexists; reflexivity|exists 9%nat; eexists; reflexivity
      |exists 10%nat; eexists; reflexivity|exists 11%nat; eexists; reflexivity|exists 12%nat; eexists; reflexivity]|]). destruct Hd. }
  destruct Hj as (j & ty & Hj). split.
  - intros file flags al st Hg Hn E. apply (read_mode_iff pf tl Hl m _ file flags al _ st eq_refl eq_refl Hg) in E. destruct E as (_ & _ & HF). exists j, ty, d. split; [exact Hj|].
    assert (G : exists x, nth_error st j = Some x /\ setting pf tl al (lit name) ty d x).
    { clear - Hj HF. revert j Hj. induction HF as [|r x l st Hx _ IH]; intros [|j] Hj; try discriminate; [injection Hj as ->; exists x; auto|apply IH, Hj]. }
    destruct G as (x & Ex & [(n & v & Hi & Hs & _)|(_ & ->)]); [exfalso; exact (Hn n v Hi Hs)|exact Ex].
  - exists (mode_defaults m). split; [reflexivity|]. exists j, ty, d. split; [exact Hj|]. unfold mode_defaults. rewrite nth_error_map. unfold reg in *. rewrite Hj. reflexivity.
Qed.
Print Assumptions C140_documented_defaults_partial.

(** ExclusionRadiusMult is documented to default to 0.8; it is 1 in every id configuration that does not set it. *)
Theorem C140_exclusion_mult_refuted : forall parseFloat toLower file flags al c, lowers_ascii toLower -> given_by (lit "id.config") file flags al ->
  (forall n v, In (n, v) al -> toLower n <> toLower (lit "ExclusionRadiusMult")) -> read_id parseFloat toLower file flags = Some c ->
  In (MId, "ExclusionRadiusMult"%string, VFloat R (8 / 10)%R) doc_defaults /\ ic_exclMult c = 1%R.
Proof.
  intros pf tl file flags al c Hl Hg Hn E. split; [cbn; auto|]. apply (C138_id pf tl file flags al c Hl Hg) in E. destruct E as (_ & _ & _ & _ & _ & _ & _ & _ & E & _).
  destruct E as [(n & v & Hi & Hs & _)|(_ & E)]; [exfalso; exact (Hn n v Hi Hs)|]. now injection E.
Qed.
Print Assumptions C140_exclusion_mult_refuted.

(** Accepted and rejected ones, by flags and by file. *)
Example C138_nonvacuous : forall parseFloat,
  read_phase parseFloat lower_ascii None [lit "--profiletype"; lit "total"; lit "--RBins"; lit "7"] = Some (mkPhaseConf 7 100 3 3 false false) /\
  read_phase parseFloat lower_ascii None [lit "--RBins"; lit "7"] = None /\
  read_phase parseFloat lower_ascii None [lit "--profiletype"; lit "total"; lit "--RBins"; lit "-7"] = None /\
  read_id parseFloat lower_ascii (Some (lit "[id.config]" ++ nl :: lit "Snap = 100" ++ nl :: lit "IDs = 10, 11")) [] = Some (mkIDConf (lit "m200m") [10; 11]%Z (-1) (-1) 1 100 (lit "overlap") 1 0 0) /\
  read_stats parseFloat lower_ascii None [lit "--ExclusionStrategy"; lit "all"] = None.
Proof.
  intros pf. split; [|split; [|split; [|split]]].
  - unfold read_phase, read_mode. lazy -[Rltb IZR]. destruct (Rltb 3 0) eqn:E; [apply Rltb_true in E; lra|reflexivity].
  - reflexivity.
  - reflexivity.
  - unfold read_id, read_mode. lazy -[Rltb Rleb IZR]. destruct (Rleb 1 0) eqn:E; [apply Rleb_true in E; lra|]. destruct (Rltb 0 0) eqn:E'; reflexivity || (apply Rltb_true in E'; lra).
  - reflexivity.
Qed.

(** The defaults of the example above: Spokes and Mult are not assigned. *)
Example C140_nonvacuous : forall parseFloat, exists al st, given_by (lit "id.config") None [lit "--Snap"; lit "3"] al /\ (forall n v, In (n, v) al -> lower_ascii n <> lower_ascii (lit "Mult")) /\
  read_mode parseFloat lower_ascii MId None [lit "--Snap"; lit "3"] = (Nil, st) /\ variable_is MId st "Mult" (VInt R 1).
Proof.
  intros pf. exists [(lit "Snap", lit "3")]. eexists. split; [|split; [|split; [reflexivity|]]].
  - right. split; [reflexivity|]. exists [(lit "Snap", [lit "3"])]. split; [discriminate|]. split; [|split; reflexivity]. constructor; [|constructor].
    unfold good_group, clean. cbn [fst snd]. repeat split; try (vm_compute; intuition discriminate); [repeat constructor; vm_compute; intuition discriminate|exists "S"%char; split; [left; reflexivity|discriminate]|repeat constructor].
  - intros n v [[= <- <-]|[]]. vm_compute. discriminate.
  - exists 4%nat, intVar, (VInt R 1). split; reflexivity.
Qed.
