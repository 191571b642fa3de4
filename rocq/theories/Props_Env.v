(** * C25, C43, C44, C45: snapshot and halo catalogue file names. *)
From Coq Require Import Lia List Sorting.Sorted.
From Verif Require Import GoBase GoBaseFacts LoopBase LoopFacts ListFacts EnvModel EnvSpec EnvProofs EnvProofs2.
Import List ListNotations.
Local Open Scope nat_scope.

(** ** C25 *)

(** For every snapshot type read from files: if the environment is built then ParticleCatalog(snap, block)
    runs, for each covered snapshot, through the names of all combinations of argument values, each once,
    in increasing order with the first argument fastest; Blocks() is their number; other snapshots panic. *)
Theorem C25_particle_catalog : forall sprintf t info cat snap,
  t <> NilSnap -> init_catalogs sprintf t info false = Ok cat ->
  (covered info snap -> exists rows,
     (forall row, In row rows <-> Forall2 (value_ok info snap) (meanings info) row) /\
     NoDup rows /\ in_order rows /\ blocks cat = Some (length rows) /\
     forall block, (0 <= block)%Z ->
       particle_catalog cat snap block = option_map (sprintf (snapshotFormat info)) (nth_error rows (Z.to_nat block))) /\
  (~ covered info snap -> forall block, particle_catalog cat snap block = None).
Proof.
  intros sprintf t info cat snap Ht H.
  assert (H' : init_columns sprintf info false = Ok cat).
  { destruct t; try exact H; [|contradiction]. cbn [init_catalogs] in H. unfold init_gotetra in H.
    destruct (negb (length (blockMins info) =? 3)); [discriminate|exact H]. }
  now apply names_ok.
Qed.
Print Assumptions C25_particle_catalog.

(** The environment is built exactly when every meaning can be interpreted. *)
Theorem C25_built_iff_legal : forall sprintf t info,
  t <> NilSnap ->
  (exists cat, init_catalogs sprintf t info false = Ok cat) <->
  Forall (legal_meaning info) (meanings info) /\ (t = Gotetra -> length (blockMins info) = 3).
Proof.
  intros sprintf t info Ht. destruct t; cbn [init_catalogs]; try contradiction;
    try (rewrite init_columns_legal; split; [intros H; split; [exact H|discriminate]|tauto]).
  unfold init_gotetra. destruct (Nat.eqb_spec (length (blockMins info)) 3) as [E|E]; cbn [negb].
  - rewrite init_columns_legal. tauto.
  - split; [intros (cat & H); discriminate|]. intros [_ H]. exfalso. now apply E, H.
Qed.
Print Assumptions C25_built_iff_legal.

(** The interleaving itself, for arbitrary columns: it fails only if the aligned columns have different
    heights; otherwise there is one list of rows per snapshot. Each list holds exactly the combinations, as
    many as the product of the unaligned heights, without repetition if the columns have none, and the
    first unaligned column varies fastest. *)
Theorem C25_interleave : forall cols aligned, length aligned = length cols ->
  forall out, interleave cols aligned = Some out <->
  (exists n, (forall j c, nth_error cols j = Some c -> nth_error aligned j = Some true -> length c = n) /\
             ((forall j, nth_error aligned j <> Some true) -> n = 1) /\
             out = map (combos cols aligned) (seq 0 n)).
Proof.
  intros cols aligned H out. rewrite (interleave_spec cols aligned out H). unfold nsnaps. split.
  - intros (n & (H1 & H2) & ->). exists n. split; [|split; [|reflexivity]].
    + intros j c Hc Ha. assert (Hj : j < length cols) by (apply nth_error_Some; congruence).
      rewrite <- (nth_error_nth _ _ [] Hc). apply H1; [exact Hj|]. now apply nth_error_nth.
    + intros Q. apply H2. intros j Hj. specialize (Q j). rewrite (nth_error_nth' aligned true) in Q by lia. destruct (nth j aligned true); congruence.
  - intros (n & H1 & H2 & ->). exists n. split; [|reflexivity]. split.
    + intros j Hj Ha. apply (H1 j); [now apply nth_error_nth'|]. rewrite (nth_error_nth' aligned true) by lia. congruence.
    + intros Q. apply H2. intros j Q2. assert (Hj : j < length cols) by (rewrite <- H; apply nth_error_Some; congruence).
      apply nth_error_nth with (d := true) in Q2. rewrite Q in Q2 by exact Hj. discriminate.
Qed.
Print Assumptions C25_interleave.

Theorem C25_rows : forall cols aligned s, length aligned = length cols ->
  (forall j c, nth_error cols j = Some c -> nth_error aligned j = Some true -> s < length c) ->
  length (combos cols aligned s) = combinations cols aligned /\
  (forall row, In row (combos cols aligned s) <-> is_row cols aligned s row) /\
  ((forall c, In c cols -> NoDup c) -> NoDup (combos cols aligned s)).
Proof.
  intros cols aligned s H Hs. split; [now apply combos_length|]. split.
  - intros row. apply combos_In; [exact H|]. intros j Hj Ha. apply (Hs j); [now apply nth_error_nth'|].
    rewrite (nth_error_nth' aligned true) by lia. congruence.
  - intros N. apply combos_NoDup; [exact H|]. intros j Hj _. apply N. now apply nth_In.
Qed.
Print Assumptions C25_rows.

(** Two snapshots, three x two blocks: "%d" arguments [Snapshot; Block1; Block0]. *)
Definition example_info : pinfo :=
  {| snapshotFormat := lit "snap_%d.%d.%d"; meanings := map lit ["Snapshot"; "Block1"; "Block"]%string;
     scaleFactorFile := None; blockMins := [0; 5]%Z; blockMaxes := [1; 7]%Z; snapMin := 10; snapMax := 11;
     logging := lit "nil" |}.
Definition show_args (f : bytes) (l : list arg) : bytes :=
  f ++ flat_map (fun a => match a with AInt z => itoa z ++ [sp] | _ => [] end) l.

Example C25_nonvacuous : exists cat,
  init_catalogs show_args LGadget2 example_info false = Ok cat /\ blocks cat = Some 6 /\
  particle_catalog cat 11 4 = Some (show_args (lit "snap_%d.%d.%d") [AInt 11; AInt 6; AInt 1]).
Proof. eexists. split; [vm_compute; reflexivity|]. vm_compute. auto. Qed.

Example C25_covered_nonvacuous : covered example_info 11.
Proof. left. split; [|cbn; lia]. exists (lit "Snapshot"). split; [now left|now left]. Qed.

(** ** C43: halo catalogues *)

(** With at least SnapMax-SnapMin+1 files in HaloDir (sorted by name), HaloCatalog(snap) is, for snap in
    [SnapMin, SnapMax], the file SnapMax-snap places before the last one; too few files is an error. *)
Theorem C43_halo_catalog : forall names hmin hmax h snap,
  init_text_halo (Some names) hmin hmax = Ok h ->
  ((hmin <= snap <= hmax)%Z ->
     exists f before after, halo_catalog h snap = Some f /\ names = before ++ f :: after /\
       Z.of_nat (length after) = (hmax - snap)%Z /\ Z.of_nat (length before) = (snap - 1 - h_snapOffset h)%Z) /\
  (~ (hmin <= snap <= hmax)%Z -> halo_catalog h snap = None).
Proof.
  intros names hmin hmax h snap H. unfold init_text_halo in H.
  destruct (Z.ltb_spec (Z.of_nat (length names)) (hmax - hmin + 1)) as [|H1]; [discriminate|].
  destruct (Z.ltb_spec (Z.of_nat (length names)) (Z.of_nat (length names) - (hmax - hmin + 1))) as [|H2]; [discriminate|].
  injection H as <-. unfold halo_catalog. cbn [h_snapMin h_names h_snapOffset]. set (lo := Z.to_nat (Z.of_nat (length names) - (hmax - hmin + 1))).
  split.
  - intros Hs. destruct (Z.ltb_spec (snap - hmin) 0); [lia|].
    assert (E : lo + Z.to_nat (snap - hmin) < length names) by (subst lo; lia).
    destruct (nth_error names (lo + Z.to_nat (snap - hmin))) as [f|] eqn:En; [|apply nth_error_None in En; lia].
    destruct (nth_error_split _ _ En) as (before & after & En' & Lb). exists f, before, after.
    assert (Lt : length names = length before + S (length after)) by (rewrite En', app_length; reflexivity).
    split; [|split; [exact En'|]].
    + rewrite <- En. rewrite <- (firstn_skipn lo names) at 2.
      rewrite nth_error_app2 by (rewrite firstn_length; lia). f_equal. rewrite firstn_length. lia.
    + subst lo. lia.
  - intros Hs. destruct (Z.ltb_spec (snap - hmin) 0); [reflexivity|]. apply nth_error_None. rewrite skipn_length. subst lo. lia.
Qed.
Print Assumptions C43_halo_catalog.

Theorem C43_too_few_files : forall names hmin hmax,
  (hmin <= hmax)%Z ->
  init_text_halo (Some names) hmin hmax = Err <-> (Z.of_nat (length names) < hmax - hmin + 1)%Z.
Proof.
  intros names hmin hmax Hm. unfold init_text_halo.
  destruct (Z.ltb_spec (Z.of_nat (length names)) (hmax - hmin + 1)) as [H|H]; [tauto|].
  destruct (Z.ltb_spec (Z.of_nat (length names)) (Z.of_nat (length names) - (hmax - hmin + 1))); split; intros; try discriminate; lia.
Qed.
Print Assumptions C43_too_few_files.

Example C43_nonvacuous : exists h,
  init_text_halo (Some (map lit ["a"; "b"; "c"; "d"]%string)) 8 10 = Ok h /\
  halo_catalog h 9 = Some (lit "c") /\ halo_catalog h 7 = None.
Proof. eexists. split; [vm_compute; reflexivity|]. vm_compute. auto. Qed.

(** ** C44: nil snapshots *)

(** What the code does: the first argument of ParticleCatalog is used as an offset from zero, whatever SnapMin is. *)
Theorem C44_nil_partial : forall sprintf info cat snap,
  init_catalogs sprintf NilSnap info false = Ok cat ->
  particle_catalog cat snap 0 =
  if ((0 <=? snap) && (snap <=? snapMax info - snapMin info))%Z then Some (itoa snap) else None.
Proof.
  intros sprintf info cat snap H. cbn [init_catalogs] in H. unfold init_nil in H.
  destruct (Z.ltb_spec (snapMax info - snapMin info + 1) 0); [discriminate|]. injection H as <-.
  unfold particle_catalog. cbn [c_snapMin c_names]. rewrite Z.sub_0_r.
  destruct (Z.ltb_spec snap 0), (Z.leb_spec 0 snap), (Z.leb_spec snap (snapMax info - snapMin info)); try lia; cbn [andb]; try reflexivity.
  - rewrite nth_error_map, (nth_error_nth' _ 0) by (rewrite seq_length; lia). rewrite seq_nth by lia. cbn [option_map].
    change (0 <? 0)%Z with false. cbn. f_equal. f_equal. lia.
  - rewrite nth_error_map, (proj2 (nth_error_None _ _)) by (rewrite seq_length; lia). reflexivity.
Qed.
Print Assumptions C44_nil_partial.

(** Hence every snapshot in range has a catalogue if SnapMin = 0 ... *)
Theorem C44_nil_from_zero : forall sprintf info cat snap,
  snapMin info = 0%Z -> init_catalogs sprintf NilSnap info false = Ok cat -> (0 <= snap <= snapMax info)%Z ->
  particle_catalog cat snap 0 = Some (itoa snap).
Proof.
  intros sprintf info cat snap H0 H Hs. rewrite (C44_nil_partial _ _ _ _ H), H0.
  destruct (Z.leb_spec 0 snap), (Z.leb_spec snap (snapMax info - 0)); try lia. reflexivity.
Qed.
Print Assumptions C44_nil_from_zero.

(** ... and asking for the last snapshot crashes whenever SnapMin > 0. *)
Theorem C44_nil_refuted : forall sprintf info cat,
  (0 < snapMin info <= snapMax info)%Z -> init_catalogs sprintf NilSnap info false = Ok cat ->
  particle_catalog cat (snapMax info) 0 = None.
Proof.
  intros sprintf info cat H0 H. rewrite (C44_nil_partial _ _ _ _ H).
  destruct (Z.leb_spec 0 (snapMax info)), (Z.leb_spec (snapMax info) (snapMax info - snapMin info)); try lia; reflexivity.
Qed.
Print Assumptions C44_nil_refuted.

Example C44_nonvacuous : exists cat, init_catalogs show_args NilSnap example_info false = Ok cat /\ particle_catalog cat 11 0 = None.
Proof. eexists. split; [vm_compute; reflexivity|]. reflexivity. Qed.

(** ** C45: format validation *)

Definition numbered_block (m : bytes) : Prop := exists s, s <> [] /\ m = lit "Block" ++ s.

Lemma check_meanings_false nb ms : check_meanings nb ms = Ok false ->
  Forall (fun m => m = lit "ScaleFactor" \/ m = lit "Snapshot" \/ m = lit "Block") ms.
Proof.
  induction ms as [|m ms IH]; intros H; [constructor|]. cbn [check_meanings] in H.
  destruct (beq m (lit "ScaleFactor")) eqn:E1; [apply beq_true in E1; auto|].
  destruct (beq m (lit "Snapshot")) eqn:E2; [apply beq_true in E2; auto|].
  destruct (beq m (lit "Block")) eqn:E3; [apply beq_true in E3; auto|].
  destruct (_ && _); [|discriminate]. destruct (atoi _); [|discriminate]. destruct (_ || _); discriminate.
Qed.

Lemma check_meanings_true nb ms : check_meanings nb ms = Ok true -> exists m, In m ms /\ numbered_block m.
Proof.
  induction ms as [|m ms IH]; intros H; [discriminate|]. cbn [check_meanings] in H.
  assert (R : (exists m', In m' ms /\ numbered_block m') -> exists m', In m' (m :: ms) /\ numbered_block m').
  { intros (m' & ? & ?). exists m'. split; [now right|assumption]. }
  destruct (beq m (lit "ScaleFactor")) eqn:E1; [now apply R, IH|].
  destruct (beq m (lit "Snapshot")) eqn:E2; [now apply R, IH|].
  destruct (beq m (lit "Block")) eqn:E3; [now apply R, IH|].
  destruct ((5 <? length m) && beq (firstn 5 m) (lit "Block")) eqn:E; [|discriminate].
  apply andb_true_iff in E. destruct E as [El Eb]. apply Nat.ltb_lt in El. apply beq_true in Eb.
  exists m. split; [now left|]. exists (skipn 5 m). split.
  - intros Q. apply (f_equal (@length ascii)) in Q. rewrite skipn_length in Q. cbn in Q. lia.
  - now apply firstn5; [lia|].
Qed.

Lemma some_above_false mins maxes k lo hi : some_above mins maxes = false ->
  nth_error mins k = Some lo -> nth_error maxes k = Some hi -> (lo <= hi)%Z.
Proof.
  revert maxes k. induction mins as [|a mins IH]; intros [|b maxes] [|k] H H1 H2; try discriminate; cbn in H;
    apply orb_false_iff in H; destruct H as [Ha Hb].
  - injection H1 as <-. injection H2 as <-. apply Z.ltb_ge in Ha. exact Ha.
  - cbn in H1, H2. eapply IH; eassumption.
Qed.

(** A validated configuration without numbered blocks does start, provided "Block" is used only with a block
    range and ScaleFactorFile has one line per snapshot. *)
Theorem C45_validated_starts_partial : forall sprintf t info,
  validate_format info = Ok tt ->
  (forall m, In m (meanings info) -> ~ numbered_block m) ->
  (In (lit "Block") (meanings info) -> blockMins info <> []) ->
  (In (lit "ScaleFactor") (meanings info) -> legal_meaning info (lit "ScaleFactor")) ->
  (t = Gotetra -> length (blockMins info) = 3) -> t <> NilSnap ->
  exists cat, init_catalogs sprintf t info false = Ok cat.
Proof.
  intros sprintf t info H Hn Hb Hs Ht Ht'. apply C25_built_iff_legal; [exact Ht'|]. split; [|exact Ht].
  unfold validate_format in H.
  destruct (Nat.eqb_spec (length (blockMins info)) (length (blockMaxes info))) as [El|]; cbn [negb] in H; [|discriminate].
  destruct (snapMin info =? -1)%Z; [discriminate|]. destruct (snapMax info =? -1)%Z; [discriminate|].
  destruct (Z.ltb_spec (snapMax info) (snapMin info)) as [|Hm]; [discriminate|].
  destruct (some_above (blockMins info) (blockMaxes info)) eqn:Ea; [discriminate|].
  destruct (_ && _); [discriminate|]. destruct (negb _); [discriminate|].
  destruct (check_meanings (length (blockMaxes info)) (meanings info)) as [[|]| |] eqn:Ec; try discriminate.
  - exfalso. apply check_meanings_true in Ec. destruct Ec as (m & Hm1 & Hm2). exact (Hn m Hm1 Hm2).
  - apply check_meanings_false in Ec. rewrite Forall_forall in *. intros m Im. destruct (Ec m Im) as [->|[->| ->]].
    + auto.
    + left. split; [reflexivity|lia].
    + right. right. specialize (Hb Im). destruct (blockMins info) as [|lo mins] eqn:E1; [congruence|].
      destruct (blockMaxes info) as [|hi maxes] eqn:E2; [discriminate|]. exists 0, lo, hi.
      cbn [some_above] in Ea. apply orb_false_iff in Ea. destruct Ea as [Ea _]. apply Z.ltb_ge in Ea.
      repeat split; [constructor|lia].
Qed.
Print Assumptions C45_validated_starts_partial.

(** A numbered block stops the validation: the meanings after it, whatever they are, and the Logging variable
    are not looked at, and the program crashes when the environment is built. *)
Theorem C45_after_block_refuted : exists info, validate_format info = Ok tt /\
  forall sprintf, init_catalogs sprintf LGadget2 info false = Panic.
Proof.
  exists {| snapshotFormat := lit "%d.%d"; meanings := map lit ["Block0"; "Snapshots"]%string; scaleFactorFile := None;
            blockMins := [0]%Z; blockMaxes := [1]%Z; snapMin := 0; snapMax := 1; logging := lit "loud" |}.
  split; [reflexivity|]. intros. reflexivity.
Qed.
Print Assumptions C45_after_block_refuted.

Theorem C45_block_without_range_refuted : exists info, validate_format info = Ok tt /\
  forall sprintf, init_catalogs sprintf LGadget2 info false = Panic.
Proof.
  exists {| snapshotFormat := lit "%d"; meanings := [lit "Block"]; scaleFactorFile := None;
            blockMins := []; blockMaxes := []; snapMin := 0; snapMax := 1; logging := lit "nil" |}.
  split; [reflexivity|]. intros. reflexivity.
Qed.
Print Assumptions C45_block_without_range_refuted.

(** ValidateFormats = true never succeeds. *)
Theorem C45_validate_formats_refuted : forall sprintf t info cat, init_catalogs sprintf t info true <> Ok cat.
Proof.
  intros sprintf t info cat. assert (H : init_columns sprintf info true <> Ok cat).
  { unfold init_columns. destruct (get_columns info (meanings info)) as [ca| |]; cbn; try discriminate.
    destruct (interleave (fst ca) (snd ca)); discriminate. }
  destruct t; try exact H; cbn [init_catalogs].
  - unfold init_gotetra. destruct (negb _); [discriminate|exact H].
  - unfold init_nil. destruct (_ <? 0)%Z; discriminate.
Qed.
Print Assumptions C45_validate_formats_refuted.

Example C45_nonvacuous : exists cat info, validate_format info = Ok tt /\ init_catalogs show_args ARTIO info false = Ok cat /\
  particle_catalog cat 3 1 = Some (show_args (lit "s%s.%d") [AStr (lit "0.5"); AInt 1]).
Proof.
  eexists. exists {| snapshotFormat := lit "s%s.%d"; meanings := map lit ["ScaleFactor"; "Block"]%string;
     scaleFactorFile := Some (lit " 0.25" ++ [nl; nl] ++ lit "0.5 " ++ [nl]); blockMins := [0]%Z; blockMaxes := [1]%Z;
     snapMin := 2; snapMax := 3; logging := lit "debug" |}.
  split; [reflexivity|]. split; [vm_compute; reflexivity|]. vm_compute. reflexivity.
Qed.
