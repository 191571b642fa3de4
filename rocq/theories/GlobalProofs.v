(** * Proofs about the global config file and the memo directory. *)
From Coq Require Import Lia ZArith.
From Verif Require Import GoBase GoBaseFacts VersionModel VersionProofs ConfigModel EnvModel GlobalModel GlobalSpec.
Import List ListNotations.
Local Open Scope list_scope.

Lemma same_list_spec {A} (eqb : A -> A -> bool) : (forall x y, eqb x y = true <-> x = y) ->
  forall xs ys, same_list eqb xs ys = true <-> xs = ys.
Proof.
  intros H. induction xs as [|x xs IH]; intros [|y ys]; cbn [same_list]; split; try easy.
  - intros E. apply andb_true_iff in E. destruct E as [E1 E2]. apply H in E1. apply IH in E2. now subst.
  - intros [= -> ->]. apply andb_true_iff. split; [now apply H|now apply IH].
Qed.

Lemma int64sEqual_spec xs ys : int64sEqual xs ys = true <-> xs = ys.
Proof. apply same_list_spec. apply Z.eqb_eq. Qed.
Lemma stringsEqual_spec xs ys : stringsEqual xs ys = true <-> xs = ys.
Proof. apply same_list_spec. apply beq_true. Qed.

Lemma configEqual_spec F (g1 g2 : gconfig F) : configEqual F g1 g2 = true <-> same_relevant g1 g2.
Proof.
  unfold configEqual, same_relevant. rewrite !andb_true_iff, !beq_true, !int64sEqual_spec, !stringsEqual_spec, !Z.eqb_eq.
  intuition congruence.
Qed.

Lemma same_relevant_refl F (g : gconfig F) : same_relevant g g.
Proof. unfold same_relevant. tauto. Qed.
Lemma same_relevant_sym F (g1 g2 : gconfig F) : same_relevant g1 g2 -> same_relevant g2 g1.
Proof. unfold same_relevant. intuition congruence. Qed.
Lemma same_relevant_trans F (g1 g2 g3 : gconfig F) : same_relevant g1 g2 -> same_relevant g2 g3 -> same_relevant g1 g3.
Proof. unfold same_relevant. intuition congruence. Qed.

Lemma one_of_spec s l : one_of s l = true <-> among s l.
Proof.
  unfold one_of, among. rewrite existsb_exists. split.
  - intros (t & Ht & E). apply in_map_iff in Ht. destruct Ht as (u & <- & Hu). apply beq_true in E. eauto.
  - intros (t & Ht & ->). exists (lit t). split; [now apply in_map|apply beq_refl].
Qed.

Lemma one_of_false s l : one_of s l = false <-> ~ among s l.
Proof. rewrite <- one_of_spec. destruct (one_of s l); split; congruence. Qed.

Lemma inStringSlice_spec x xs : inStringSlice x xs = true <-> In x xs.
Proof.
  unfold inStringSlice. rewrite existsb_exists. split.
  - intros (y & Hy & E). apply beq_true in E. now subst.
  - intros H. exists x. split; [exact H|apply beq_refl].
Qed.

Lemma strip_spaces_spec s t : despaced s t <-> t = strip_spaces s.
Proof.
  split.
  - induction 1 as [|s t H IH|c s t Hc H IH]; [reflexivity| |]; unfold strip_spaces in *; cbn [filter].
    + now rewrite Ascii.eqb_refl.
    + rewrite (proj2 (Ascii.eqb_neq c sp) Hc). cbn [negb]. now rewrite IH.
  - intros ->. induction s as [|c s IH]; [constructor|]. unfold strip_spaces in *. cbn [filter].
    destruct (Ascii.eqb_spec c sp) as [->|N]; cbn [negb]; constructor; assumption.
Qed.

(** ** The format clause *)

Lemma check_meanings_spec nb ms b : check_meanings nb ms = Ok b <-> meanings_ok nb ms b.
Proof.
  split.
  - revert b. induction ms as [|m ms IH]; intros b H; cbn [check_meanings] in H; [injection H as <-; constructor|].
    destruct (beq m (lit "ScaleFactor")) eqn:E1; [apply beq_true in E1; apply mo_plain; [exists "ScaleFactor"%string; cbn; auto|auto]|].
    destruct (beq m (lit "Snapshot")) eqn:E2; [apply beq_true in E2; apply mo_plain; [exists "Snapshot"%string; cbn; auto|auto]|].
    destruct (beq m (lit "Block")) eqn:E3; [apply beq_true in E3; apply mo_plain; [exists "Block"%string; cbn; auto|auto]|].
    destruct ((5 <? length m) && beq (firstn 5 m) (lit "Block")) eqn:E; [|discriminate].
    apply andb_true_iff in E. destruct E as [El Eb]. apply Nat.ltb_lt in El. apply beq_true in Eb.
    destruct (atoi (skipn 5 m)) as [n|] eqn:En; [|discriminate].
    destruct ((n <? 0)%Z || (Z.of_nat nb <=? n)%Z) eqn:Er; [discriminate|]. injection H as <-.
    apply orb_false_iff in Er. destruct Er as [R1 R2]. apply Z.ltb_ge in R1. apply Z.leb_gt in R2.
    apply mo_block. exists (skipn 5 m), n. split; [|split; [|split; [exact En|lia]]].
    + intros Q. apply (f_equal (@length ascii)) in Q. rewrite skipn_length in Q. cbn in Q. lia.
    + now rewrite <- Eb, firstn_skipn.
  - induction 1 as [|m ms b (t & Ht & ->) H IH|m ms (s & n & Hs & -> & En & R)]; cbn [check_meanings]; [reflexivity| |].
    + cbn in Ht. destruct Ht as [<-|[<-|[<-|[]]]]; exact IH.
    + assert (X : forall u, length u <= 5 \/ firstn 5 u <> lit "Block" -> beq (lit "Block" ++ s) u = false).
      { intros u Hu. apply beq_false. intros <-. destruct Hu as [Hu|Hu]; [|now apply Hu].
        rewrite app_length in Hu. cbn in Hu. destruct s; [easy|cbn in Hu; lia]. }
      rewrite !X by (first [left; vm_compute; lia|right; discriminate]).
      replace (5 <? length (lit "Block" ++ s)) with true
        by (symmetry; apply Nat.ltb_lt; rewrite app_length; destruct s; [easy|cbn; lia]).
      change (firstn 5 (lit "Block" ++ s)) with (lit "Block"). rewrite beq_refl. cbn [andb].
      change (skipn 5 (lit "Block" ++ s)) with s. rewrite En.
      destruct (Z.ltb_spec n 0), (Z.leb_spec (Z.of_nat nb) n); try lia. reflexivity.
Qed.

Lemma check_meanings_no_panic nb ms : check_meanings nb ms <> Panic.
Proof.
  induction ms as [|m ms IH]; cbn [check_meanings]; [discriminate|].
  destruct (beq _ _); [exact IH|]. destruct (beq _ _); [exact IH|]. destruct (beq _ _); [exact IH|].
  destruct (_ && _); [|discriminate]. destruct (atoi _); [|discriminate]. destruct (_ || _); discriminate.
Qed.

Lemma some_above_spec mins maxes : some_above mins maxes = false <->
  forall i lo hi, nth_error mins i = Some lo -> nth_error maxes i = Some hi -> (lo <= hi)%Z.
Proof.
  revert maxes. induction mins as [|a mins IH]; intros [|b maxes]; cbn [some_above]; split; try easy;
    try (intros _ [|i] lo hi H1 H2; cbn in *; discriminate).
  - rewrite orb_false_iff. intros [Ha Hb] [|i] lo hi H1 H2; cbn [nth_error] in *.
    + injection H1 as <-. injection H2 as <-. now apply Z.ltb_ge.
    + eapply IH; eassumption.
  - intros H. apply orb_false_iff. split; [apply Z.ltb_ge; exact (H 0 _ _ eq_refl eq_refl)|].
    apply IH. intros i lo hi. exact (H (S i) lo hi).
Qed.

Lemma count_byte_spec c s : count_byte c s = occurrences c s.
Proof.
  unfold count_byte, occurrences. induction s as [|a s IH]; [reflexivity|]. cbn [filter count_occ].
  destruct (ascii_dec a c) as [->|N].
  - rewrite Ascii.eqb_refl. cbn [length]. now rewrite IH.
  - rewrite (proj2 (Ascii.eqb_neq c a)) by congruence. exact IH.
Qed.

Ltac ifn H := match type of H with (if ?b then _ else _) = _ => let E := fresh "E" in destruct b eqn:E; [first [discriminate H|idtac]|first [discriminate H|idtac]] end.

Definition format_ok {F} (g : gconfig F) : Prop :=
  (length (g_blockMins g) = length (g_blockMaxes g) /\
    forall i lo hi, nth_error (g_blockMins g) i = Some lo -> nth_error (g_blockMaxes g) i = Some hi -> (lo <= hi)%Z) /\
  (g_snapMin g <> -1 /\ g_snapMax g <> -1 /\ g_snapMin g <= g_snapMax g)%Z /\
  (occurrences "%"%char (g_snapshotFormat g) = length (g_meanings g) /\
    exists b, meanings_ok (length (g_blockMaxes g)) (g_meanings g) b /\
              (b = false -> among (g_logging g) ["nil"; "performance"; "debug"]%string)).

Lemma validate_format_spec F (g : gconfig F) :
  (validate_format (format_info F g) = Ok tt <-> format_ok g) /\ validate_format (format_info F g) <> Panic.
Proof.
  unfold format_ok, validate_format. cbn [format_info snapshotFormat meanings blockMins blockMaxes snapMin snapMax logging].
  rewrite count_byte_spec.
  destruct (Nat.eqb_spec (length (g_blockMins g)) (length (g_blockMaxes g))) as [L|L]; cbn [negb]; [|split; [split; [discriminate|tauto]|discriminate]].
  destruct (Z.eqb_spec (g_snapMin g) (-1)); [split; [split; [discriminate|tauto]|discriminate]|].
  destruct (Z.eqb_spec (g_snapMax g) (-1)); [split; [split; [discriminate|tauto]|discriminate]|].
  destruct (Z.ltb_spec (g_snapMax g) (g_snapMin g)); [split; [split; [discriminate|lia]|discriminate]|].
  destruct (some_above (g_blockMins g) (g_blockMaxes g)) eqn:SA.
  { split; [split; [discriminate|]|discriminate]. intros ((_ & K) & _). apply some_above_spec in K. congruence. }
  rewrite some_above_spec in SA.
  destruct ((length (g_meanings g) =? 0) && negb (occurrences "%"%char (g_snapshotFormat g) =? 0)) eqn:E0.
  { split; [split; [discriminate|]|discriminate]. intros (_ & _ & K & _). apply andb_true_iff in E0. destruct E0 as [E1 E2].
    apply Nat.eqb_eq in E1. apply negb_true_iff in E2. apply Nat.eqb_neq in E2. lia. }
  destruct (Nat.eqb_spec (occurrences "%"%char (g_snapshotFormat g)) (length (g_meanings g))) as [C|C]; cbn [negb];
    [|split; [split; [discriminate|tauto]|discriminate]].
  pose proof (check_meanings_spec (length (g_blockMaxes g)) (g_meanings g)) as CM.
  pose proof (check_meanings_no_panic (length (g_blockMaxes g)) (g_meanings g)) as CP.
  destruct (check_meanings (length (g_blockMaxes g)) (g_meanings g)) as [[|]| |] eqn:E; [| | |congruence].
  - split; [|discriminate]. split; [|reflexivity]. intros _. repeat split; try assumption. exists true.
    split; [now apply CM|discriminate].
  - fold (one_of (g_logging g) ["nil"; "performance"; "debug"]%string).
    destruct (one_of (g_logging g) _) eqn:O; (split; [|discriminate]).
    + apply one_of_spec in O. split; [|reflexivity]. intros _. repeat split; try assumption. exists false. split; [now apply CM|auto].
    + apply one_of_false in O. split; [discriminate|]. intros (_ & _ & _ & b & Hb & Hl). apply CM in Hb. injection Hb as <-. tauto.
  - split; [|discriminate]. split; [discriminate|]. intros (_ & _ & _ & b & Hb & Hl). apply CM in Hb. discriminate.
Qed.

(** ** validate *)
Section Validate.
Variable F : Type.
Variable isMinus1 : F -> bool.
Variable dirOK : bytes -> bool.

Lemma nilt {A} (l : list A) : (length l =? 0) = true <-> l = [].
Proof. rewrite Nat.eqb_eq. now rewrite length_zero_iff_nil. Qed.

Lemma halo_check_spec g : halo_check F dirOK g = true <->
  (g_memoDir g <> [] /\ dirOK (g_memoDir g) = true) /\
  (g_haloType g <> lit "nil" ->
    (g_haloDir g <> [] /\ dirOK (g_haloDir g) = true) /\ (g_treeDir g <> [] /\ dirOK (g_treeDir g) = true) /\
    length (g_valueNames g) = length (g_valueColumns g) /\
    (forall c, In c ["ID"; "X"; "Y"; "Z"; "M200m"]%string -> In (lit c) (g_valueNames g))).
Proof.
  unfold halo_check.
  assert (D : forall n, (beq n [] || negb (dirOK n) = false) <-> n <> [] /\ dirOK n = true).
  { intros n. rewrite orb_false_iff, beq_false, negb_false_iff. reflexivity. }
  destruct (beq (g_haloType g) (lit "nil")) eqn:EH; cbn [negb andb].
  - apply beq_true in EH. pose proof (D (g_memoDir g)) as Dm. destruct (beq (g_memoDir g) [] || _).
    + split; [discriminate|]. intros [H _]. apply Dm in H. discriminate.
    + split; [|reflexivity]. intros _. split; [now apply Dm|congruence].
  - apply beq_false in EH. pose proof (D (g_haloDir g)) as Dh. destruct (beq (g_haloDir g) [] || _).
    { split; [discriminate|]. intros [_ H]. destruct (H EH) as (H1 & _). apply Dh in H1. discriminate. }
    pose proof (D (g_treeDir g)) as Dt. destruct (beq (g_treeDir g) [] || _).
    { split; [discriminate|]. intros [_ H]. destruct (H EH) as (_ & H1 & _). apply Dt in H1. discriminate. }
    pose proof (D (g_memoDir g)) as Dm. destruct (beq (g_memoDir g) [] || _).
    { split; [discriminate|]. intros [H _]. apply Dm in H. discriminate. }
    assert (NE : forall c, In c ["ID"; "X"; "Y"; "Z"; "M200m"]%string -> inStringSlice (lit c) (g_valueNames g) = false ->
      ~ (forall c, In c ["ID"; "X"; "Y"; "Z"; "M200m"]%string -> In (lit c) (g_valueNames g))).
    { intros c Hc E H. apply H, inStringSlice_spec in Hc. congruence. }
    destruct (length (g_valueNames g) =? 0) eqn:E1.
    { split; [discriminate|]. intros [_ H]. destruct (H EH) as (_ & _ & _ & H1). apply nilt in E1.
      specialize (H1 "ID"%string (or_introl eq_refl)). rewrite E1 in H1. destruct H1. }
    destruct (length (g_valueColumns g) =? 0) eqn:E2.
    { split; [discriminate|]. intros [_ H]. destruct (H EH) as (_ & _ & H1 & _). apply Nat.eqb_eq in E2. apply Nat.eqb_neq in E1. lia. }
    destruct (Nat.eqb_spec (length (g_valueNames g)) (length (g_valueColumns g))) as [E3|E3]; cbn [negb].
    2:{ split; [discriminate|]. intros [_ H]. destruct (H EH) as (_ & _ & H1 & _). congruence. }
    destruct (inStringSlice (lit "ID") (g_valueNames g)) eqn:I1; cbn [negb];
      [|split; [discriminate|]; intros [_ H]; destruct (H EH) as (_ & _ & _ & H1); now apply NE in I1; [|cbn; auto]].
    destruct (inStringSlice (lit "X") (g_valueNames g)) eqn:I2; cbn [negb];
      [|split; [discriminate|]; intros [_ H]; destruct (H EH) as (_ & _ & _ & H1); now apply NE in I2; [|cbn; auto]].
    destruct (inStringSlice (lit "Y") (g_valueNames g)) eqn:I3; cbn [negb];
      [|split; [discriminate|]; intros [_ H]; destruct (H EH) as (_ & _ & _ & H1); now apply NE in I3; [|cbn; auto]].
    destruct (inStringSlice (lit "Z") (g_valueNames g)) eqn:I4; cbn [negb];
      [|split; [discriminate|]; intros [_ H]; destruct (H EH) as (_ & _ & _ & H1); now apply NE in I4; [|cbn; auto]].
    destruct (inStringSlice (lit "M200m") (g_valueNames g)) eqn:I5;
      [|split; [discriminate|]; intros [_ H]; destruct (H EH) as (_ & _ & _ & H1); now apply NE in I5; [|cbn; auto 6]].
    split; [|reflexivity]. intros _. split; [now apply Dm|]. intros _. split; [now apply Dh|split; [now apply Dt|split; [exact E3|]]].
    apply inStringSlice_spec in I1, I2, I3, I4, I5. intros c [<-|[<-|[<-|[<-|[<-|[]]]]]]; assumption.
Qed.

Lemma nil_check_spec g : nil_check F isMinus1 g = true <->
  (g_snapshotType g = lit "nil" -> isMinus1 (g_nilOmegaM g) <> true /\
    (isMinus1 (g_nilOmegaL g) = true \/
     (isMinus1 (g_nilH100 g) <> true /\ isMinus1 (g_nilTotalWidth g) <> true /\ g_nilScaleFactors g <> []))).
Proof.
  unfold nil_check. destruct (beq (g_snapshotType g) (lit "nil")) eqn:E.
  - apply beq_true in E.
    assert (N : negb (length (g_nilScaleFactors g) =? 0) = true <-> g_nilScaleFactors g <> []).
    { rewrite negb_true_iff, <- not_true_iff_false, nilt. reflexivity. }
    destruct (isMinus1 (g_nilOmegaM g)), (isMinus1 (g_nilOmegaL g)), (isMinus1 (g_nilH100 g)), (isMinus1 (g_nilTotalWidth g)); rewrite ?N;
    intuition congruence.
  - apply beq_false in E. split; [intros _ H; congruence|reflexivity].
Qed.

Lemma with_units_other (g : gconfig F) p r m : g_haloType (with_units F g p r m) = g_haloType g.
Proof. reflexivity. Qed.

Lemma units_spec g0 g : units F g0 = Some g <-> units_normalised g0 g.
Proof.
  unfold units, units_normalised, length_unit. destruct (beq (g_haloType g0) (lit "nil")) eqn:E.
  - apply beq_true in E. split.
    + intros [= <-]. cbn [with_units g_positionUnits g_radiusUnits g_massUnits]. split; [eauto|]. split; [auto|]. split; [congruence|].
      assert (A : among (lit "cMpc/h") ["cMpc/h"; "ckpc/h"; "pMpc/h"; "pkpc/h"; "cMpc"; "ckpc"; "pMpc"; "pkpc"]%string)
        by (exists "cMpc/h"%string; split; [now left|reflexivity]).
      split; [exact A|]. split; [exact A|reflexivity].
    + intros ((p & r & m & ->) & H & _). destruct (H E) as (H1 & H2 & H3). cbn [with_units g_positionUnits g_radiusUnits g_massUnits] in *.
      now subst.
  - apply beq_false in E. cbv zeta. split.
    + destruct (one_of (strip_spaces (g_positionUnits g0)) length_units) eqn:O1; cbn [negb]; [|discriminate].
      destruct (one_of (strip_spaces (g_radiusUnits g0)) length_units) eqn:O2; cbn [negb]; [|discriminate].
      destruct (one_of (strip_spaces (g_massUnits g0)) ["Msun/h"%string]) eqn:O3; cbn [negb]; [|discriminate].
      apply one_of_spec in O1, O2, O3. intros [= <-]. cbn [with_units g_positionUnits g_radiusUnits g_massUnits].
      split; [eauto|]. split; [congruence|]. split.
      * intros _. rewrite !strip_spaces_spec. auto.
      * split; [exact O1|]. split; [exact O2|]. destruct O3 as (t & [<-|[]] & ->). reflexivity.
    + intros ((p & r & m & ->) & _ & H & U1 & U2 & U3). destruct (H E) as (H1 & H2 & H3).
      cbn [with_units g_positionUnits g_radiusUnits g_massUnits] in *. apply strip_spaces_spec in H1, H2, H3. rewrite <- H1, <- H2, <- H3.
      apply one_of_spec in U1, U2. unfold length_units. rewrite U1, U2, U3. reflexivity.
Qed.

Lemma version_current cfg : validateVersion SourceVersion cfg = true <->
  exists M m p, version_string cfg (M, m, p) /\ (M <> 0)%Z /\ (M = 1 -> m <= 0 /\ p <= 4)%Z.
Proof.
  assert (S : version_string SourceVersion (1, 0, 4)%Z) by (apply Parse_spec; vm_compute; reflexivity).
  rewrite (validateVersion_char _ _ _ _ _ S). split; intros (M & m & p & V & H1 & H2); exists M, m, p; (split; [exact V|]).
  - split; [intros ->; specialize (H1 (or_intror eq_refl)); injection H1; intros; lia|intros ->; apply H2; reflexivity].
  - split; [intros [X|X]; [discriminate|contradiction]|intros _ ->; now apply H2].
Qed.

Theorem validate_spec g0 g : validate F isMinus1 dirOK g0 = Ok g <->
  units_normalised g0 g /\ valid_config (fun x => isMinus1 x = true) (fun d => dirOK d = true) g.
Proof.
  unfold validate.
  destruct (validateVersion SourceVersion (g_version g0)) eqn:V; cbn [negb].
  2:{ split; [discriminate|]. intros (((p & r & m & ->) & _) & [H _ _ _ _ _ _ _ _ _ _ _ _]). apply version_current in H.
      cbn [with_units g_version] in H. congruence. }
  destruct (one_of (g_snapshotType g0) _) eqn:ST; cbn [negb].
  2:{ split; [discriminate|]. intros (((p & r & m & ->) & _) & [_ H _ _ _ _ _ _ _ _ _ _ _]). apply one_of_spec in H.
      cbn [with_units g_snapshotType] in H. congruence. }
  destruct (one_of (g_haloType g0) _) eqn:HT; cbn [negb].
  2:{ split; [discriminate|]. intros (((p & r & m & ->) & _) & [_ _ H _ _ _ _ _ _ _ _ _ _]). apply one_of_spec in H.
      cbn [with_units g_haloType] in H. congruence. }
  destruct (units F g0) as [g1|] eqn:U.
  2:{ split; [discriminate|]. intros (H & _). apply units_spec in H. congruence. }
  pose proof (proj1 (units_spec _ _) U) as UN.
  assert (EqU : forall g', units_normalised g0 g' -> g' = g1) by (intros g' H; apply units_spec in H; congruence).
  assert (V1 : exists M m p, version_string (g_version g1) (M, m, p) /\ (M <> 0)%Z /\ (M = 1 -> m <= 0 /\ p <= 4)%Z).
  { apply version_current. destruct UN as ((p & r & m & ->) & _). exact V. }
  assert (S1 : among (g_snapshotType g1) ["gotetra"; "LGadget-2"; "Gadget-2"; "ARTIO"; "Bolshoi"; "BolshoiP"; "nil"]%string).
  { apply one_of_spec. destruct UN as ((p & r & m & ->) & _). exact ST. }
  assert (H1 : among (g_haloType g1) ["Text"; "nil"]%string).
  { apply one_of_spec. destruct UN as ((p & r & m & ->) & _). exact HT. }
  clear V ST HT U.
  destruct (one_of (g_treeType g1) _) eqn:TT; cbn [negb].
  2:{ split; [discriminate|]. intros (H & [_ _ _ K _ _ _ _ _ _ _ _ _]). apply EqU in H. subst g. apply one_of_spec in K. congruence. }
  destruct (halo_check F dirOK g1) eqn:HC; cbn [negb].
  2:{ split; [discriminate|]. intros (H & K). apply EqU in H. subst g. rewrite <- not_true_iff_false, halo_check_spec in HC.
      exfalso. apply HC. split; [apply K|]. intros N. destruct (v_halos _ _ _ K N) as (A & B & C). destruct (v_columns _ _ _ K).
      repeat split; auto; try tauto. }
  destruct (nil_check F isMinus1 g1) eqn:NC; cbn [negb].
  2:{ split; [discriminate|]. intros (H & K). apply EqU in H. subst g. rewrite <- not_true_iff_false, nil_check_spec in NC.
      exfalso. apply NC. apply K. }
  destruct (one_of (g_endianness g1) _) eqn:EN; cbn [negb].
  2:{ split; [discriminate|]. intros (H & K). apply EqU in H. subst g. pose proof (v_endianness _ _ _ K) as X. apply one_of_spec in X. congruence. }
  destruct (Nat.eqb_spec (length (g_valueNames g1)) (length (g_valueColumns g1))) as [LC|LC]; cbn [negb].
  2:{ split; [discriminate|]. intros (H & K). apply EqU in H. subst g. pose proof (v_columns _ _ _ K) as X. lia. }
  destruct (Nat.eqb_spec (length (g_valueNames g1)) (length (g_valueComments g1))) as [LM|LM]; cbn [negb].
  2:{ split; [discriminate|]. intros (H & K). apply EqU in H. subst g. pose proof (v_columns _ _ _ K) as X. lia. }
  destruct ((2 <? g_npartNum g1)%Z || (g_npartNum g1 <=? 0)%Z) eqn:NP.
  { split; [discriminate|]. intros (H & K). apply EqU in H. subst g. pose proof (v_npart _ _ _ K) as X.
    destruct (Z.ltb_spec 2 (g_npartNum g1)), (Z.leb_spec (g_npartNum g1) 0); try lia; discriminate. }
  destruct (validate_format_spec F g1) as [VF NPn].
  destruct (validate_format (format_info F g1)) as [[]| |] eqn:E; [| |congruence].
  - split.
    + intros [= <-]. split; [exact UN|]. apply one_of_spec in TT, EN. apply halo_check_spec in HC. rewrite nil_check_spec in NC.
      destruct (proj1 VF eq_refl) as (B1 & B2 & B3). constructor; try assumption; try (split; congruence).
      * apply HC.
      * intros N. destruct HC as [_ HC]. destruct (HC N) as (A1 & A2 & A3 & A4). tauto.
      * apply orb_false_iff in NP. destruct NP as [N1 N2]. apply Z.ltb_ge in N1. apply Z.leb_gt in N2. lia.
    + intros (H & _). apply EqU in H. now subst.
  - split; [discriminate|]. intros (H & K). apply EqU in H. subst g. exfalso. assert (X : Err = @Ok unit tt); [|discriminate].
    apply VF. split; [apply K|]. split; [apply K|apply K].
Qed.

Theorem validate_no_panic g0 : validate F isMinus1 dirOK g0 <> Panic.
Proof.
  unfold validate. repeat match goal with |- (if ?b then _ else _) <> _ => destruct b; [discriminate|] end.
  destruct (units F g0) as [g|]; [|discriminate].
  repeat match goal with |- (if ?b then _ else _) <> _ => destruct b; [discriminate|] end.
  destruct (validate_format_spec F g) as [_ N]. destruct (validate_format _); congruence.
Qed.
End Validate.
