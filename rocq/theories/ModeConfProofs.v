(** * Reading the config variables of the modes: proofs *)
From Verif Require Import GoBase GoBaseFacts RealBase ConfigModel ConfigSpec ConfigProofs ConfigProofs2 ConfigProofs3 ModeConfModel ModeConfSpec.
From Coq Require Import ZArith Reals List Lia Lra.
Import List ListNotations.

Section P.
Variable parseFloat : bytes -> option R.
Variable toLower : bytes -> bytes.
Hypothesis lower : lowers_ascii toLower.

Lemma lower_lit s : forallb (fun c => nat_of_ascii c <? 128)%nat (lit s) = true -> toLower (lit s) = lower_ascii (lit s).
Proof. intros H. apply lower, Forall_forall. intros c Hc. rewrite forallb_forall in H. now apply Nat.ltb_lt, H. Qed.

Lemma config_lines_fun n1 n2 ls a1 a2 : config_lines n1 ls a1 -> config_lines n2 ls a2 -> n1 = n2 /\ a1 = a2.
Proof.
  intros H1 H2. apply config_lines_iff in H1, H2. destruct H1 as (b1 & E1 & F1), H2 as (b2 & E2 & F2). rewrite E1 in E2. injection E2 as E2 <-.
  split; [now apply app_inv_tail in E2|]. revert a2 F2. clear E1. induction F1 as [|l p b a H _ IH]; intros a2 F2; inversion F2; subst; [reflexivity|]. f_equal; [congruence|auto].
Qed.

Lemma distinct_regs m : distinct_vars toLower (cv_vars (mode_vars m)).
Proof.
  unfold distinct_vars, mode_vars. cbn [cv_vars]. rewrite map_map. cbn [rv_name].
  assert (E : map (fun r => toLower (fst (fst r))) (regs m) = map (fun r => lower_ascii (fst (fst r))) (regs m)).
  { destruct m; cbn [regs map rint rints rfloat rfloats rstring rstrings rbool fst]; repeat rewrite lower_lit by reflexivity; reflexivity. }
  rewrite E. destruct m; vm_compute; repeat constructor; cbn; intuition discriminate.
Qed.

Lemma same_dec (n m : bytes) : {toLower n = toLower m} + {toLower n <> toLower m}.
Proof. destruct (beq (toLower n) (toLower m)) eqn:E; [left; now apply beq_true|right; intros H; rewrite H, beq_refl in E; discriminate]. Qed.

Lemma assigned_dec (al : list (bytes * bytes)) x : (exists n v, In (n, v) al /\ toLower n = toLower x) \/ (forall n v, In (n, v) al -> toLower n <> toLower x).
Proof.
  induction al as [|(n, v) al IH]; [right; intros ? ? []|]. destruct (same_dec n x) as [E|E]; [left; exists n, v; cbn; auto|].
  destruct IH as [(n' & v' & H & H')|IH]; [left; exists n', v'; cbn; auto|]. right. intros n' v' [[= <- <-]|H]; [exact E|eauto].
Qed.

Lemma settings_iff m al st : no_duplicates toLower al ->
  (assigned R parseFloat toLower (cv_vars (mode_vars m)) al (mode_defaults m) st <->
   Forall2 (fun r x => setting parseFloat toLower al (fst (fst r)) (snd (fst r)) (snd r) x) (regs m) st).
Proof.
  intros HD. unfold mode_vars, mode_defaults, assigned. cbn [cv_vars]. generalize (regs m). unfold reg. intros l. split.
  - intros (HL & H). rewrite map_length in HL.
    assert (G : forall j r, nth_error l j = Some r -> exists x, nth_error st j = Some x /\ setting parseFloat toLower al (fst (fst r)) (snd (fst r)) (snd r) x).
    { intros j r Hj. destruct (H j {| rv_name := fst (fst r); rv_type := snd (fst r) |}) as (H1 & H2); [rewrite nth_error_map, Hj; reflexivity|]. cbn [rv_name rv_type] in *.
      destruct (assigned_dec al (fst (fst r))) as [(n & v & Hi & Hs)|Hn].
      - destruct (H1 n v Hi Hs) as (x & Hx & Ex). exists x. split; [exact Ex|]. left. exists n, v. auto.
      - exists (snd r). split; [rewrite (H2 Hn), nth_error_map, Hj; reflexivity|]. right. split; [exact Hn|reflexivity]. }
    clear H. revert st HL G. induction l as [|r l IH]; intros [|x st] HL G; try discriminate; [constructor|]. constructor.
    + destruct (G 0%nat r eq_refl) as (x' & [= <-] & Hx). exact Hx.
    + apply IH; [now injection HL|]. intros j r' Hj. exact (G (S j) r' Hj).
  - intros H. split; [symmetry; rewrite map_length; clear HD; induction H; cbn; congruence|].
    intros j rv Hj. rewrite nth_error_map in Hj. destruct (nth_error l j) as [r|] eqn:Er; [|discriminate]. injection Hj as <-. cbn [rv_name rv_type].
    assert (G : exists x, nth_error st j = Some x /\ setting parseFloat toLower al (fst (fst r)) (snd (fst r)) (snd r) x).
    { clear HD. revert j Er. induction H as [|r' x l st Hx _ IH]; intros [|j] Er; try discriminate; [injection Er as <-; exists x; auto|apply IH, Er]. }
    destruct G as (x & Ex & Hx). split.
    + intros n v Hi Hs. destruct Hx as [(n' & v' & Hi' & Hs' & Hd)|(Hn & _)]; [|exfalso; exact (Hn n v Hi Hs)].
      assert (v' = v).
      { unfold no_duplicates in HD. clear - HD Hi Hs Hi' Hs'. unfold same_name in Hs. induction al as [|(a, b) al IH]; [destruct Hi|]. cbn [map fst] in HD. inversion HD as [|? ? N1 N2]; subst.
        destruct Hi as [[= -> ->]|Hi], Hi' as [[= -> ->]|Hi']; auto.
        - exfalso. apply N1. rewrite Hs, <- Hs'. apply (in_map (fun p => toLower (fst p)) al _ Hi').
        - exfalso. apply N1. rewrite Hs', <- Hs. apply (in_map (fun p => toLower (fst p)) al _ Hi). }
      subst v'. exists x. auto.
    + intros Hn. destruct Hx as [(n' & v' & Hi' & Hs' & _)|(_ & ->)]; [exfalso; exact (Hn n' v' Hi' Hs')|]. rewrite Ex, nth_error_map, Er. reflexivity.
Qed.

Lemma known_iff m al names : map (fun r => fst (fst r)) (regs m) = names ->
  (all_registered toLower (cv_vars (mode_vars m)) al <-> known toLower names al).
Proof.
  intros <-. unfold all_registered, known, mode_vars, same_name. cbn [cv_vars]. split; intros H n v Hi; specialize (H n v Hi).
  - destruct H as (rv & Hr & E). apply in_map_iff in Hr. destruct Hr as (r & <- & Hr). exists (fst (fst r)). split; [apply (in_map (fun r => fst (fst r))), Hr|exact E].
  - destruct H as (x & Hx & E). apply in_map_iff in Hx. destruct Hx as (r & <- & Hr). exists {| rv_name := fst (fst r); rv_type := snd (fst r) |}. split; [|exact E].
    apply in_map_iff. exists r. auto.
Qed.

(** Reading the variables of a mode. *)
Lemma read_mode_iff m header file flags al names st : header = reg_name m -> map (fun r => fst (fst r)) (regs m) = names -> given_by header file flags al ->
  (read_mode parseFloat toLower m file flags = (Nil, st) <->
   known toLower names al /\ no_duplicates toLower al /\ Forall2 (fun r x => setting parseFloat toLower al (fst (fst r)) (snd (fst r)) (snd r) x) (regs m) st).
Proof.
  intros -> Hn Hg. rewrite <- (known_iff m al names Hn). assert (HL : List.length (mode_defaults m) = List.length (cv_vars (mode_vars m))) by (unfold mode_defaults, mode_vars; cbn [cv_vars]; now rewrite !map_length).
  pose proof (distinct_regs m) as HV.
  assert (E : read_mode parseFloat toLower m file flags = (Nil, st) <->
    all_registered toLower (cv_vars (mode_vars m)) al /\ no_duplicates toLower al /\ assigned R parseFloat toLower (cv_vars (mode_vars m)) al (mode_defaults m) st).
  { destruct Hg as [(text & ls & -> & -> & Hls & Hc)|(-> & groups & Hne & Hgg & -> & ->)]; unfold read_mode, readMode.
    - transitivity (ReadConfig R parseFloat toLower text (mode_vars m) (mode_defaults m) = (Nil, st)).
      { destruct (ReadConfig R parseFloat toLower text (mode_vars m) (mode_defaults m)) as ([| |], st'); cbn [ReadFlags]; tauto. }
      rewrite (ReadConfig_nil_iff R parseFloat toLower text ls _ _ _ Hls HL HV). split.
      + intros (al' & Hc' & H). destruct (config_lines_fun _ _ _ _ _ Hc Hc') as (_ & <-). exact H.
      + intros H. exists al. split; [exact Hc|exact H].
    - rewrite <- (ReadFlags_nil_iff R parseFloat toLower groups (mode_vars m) (mode_defaults m) st Hne Hgg HL HV).
      destruct (args_of groups) eqn:Ea; [|tauto]. exfalso. destruct groups as [|(g, vs) groups]; [congruence|]. cbn in Ea. discriminate. }
  rewrite E. split; intros (H1 & H2 & H3); (split; [exact H1|split; [exact H2|]]); now apply (settings_iff m al st H2).
Qed.

(** Headers that differ are rejected. *)
Lemma read_mode_header m header text ls al flags st : header <> reg_name m -> lines_of text ls -> config_lines header ls al ->
  read_mode parseFloat toLower m (Some text) flags <> (Nil, st).
Proof.
  intros Hh Hls Hc. unfold read_mode, readMode. assert (HL : List.length (mode_defaults m) = List.length (cv_vars (mode_vars m))) by (unfold mode_defaults, mode_vars; cbn [cv_vars]; now rewrite !map_length).
  destruct (ReadConfig R parseFloat toLower text (mode_vars m) (mode_defaults m)) as ([| |], st') eqn:E; try discriminate.
  apply (ReadConfig_nil_iff R parseFloat toLower text ls _ _ _ Hls HL (distinct_regs m)) in E. destruct E as (al' & Hc' & _). exfalso. apply Hh. exact (proj1 (config_lines_fun _ _ _ _ _ Hc Hc')).
Qed.
End P.
