(** * Properties C81-C83: shell mode's configuration check, lines it cannot use, and percentile profiles. Floats are reals (RealBase.v). *)
From Coq Require Import Reals Lra Lia ZArith List Bool Permutation String.
From Verif Require Import ShellConfModel SmoothSpec LoopFacts MatModel InterpProofs SplashProofs RingProofs LosSpec LosProofs LosProofs6 LosProofs7 LosProofs11 RockstarProofs KdeProofs4 CmdProofs
  ShellConfProofs Props_ShellRun.
From Verif Require SortModel SortProofs SortProofs2 Props_Sort.
Import List ListNotations.
Local Open Scope R_scope.

(** ** C81 *)
(** The check accepts exactly the configurations with positive values (LOSSlopeCutoff and BackgroundRhoMult may be anything) and RMinMult < RMaxMult. *)
Theorem C81_accepts : forall v, shell_validate v = None <->
  ((0 < v_subsampleFactor v)%Z /\ (0 < v_radialBins v)%Z /\ (0 < v_spokes v)%Z /\ (0 < v_rings v)%Z /\ (0 < v_order v)%Z /\ (0 < v_levels v)%Z /\ (0 < v_smoothingWindow v)%Z /\
   0 < v_rKernelMult v /\ 0 < v_eta v /\ 0 < v_rMinMult v < v_rMaxMult v).
Proof.
  intros v. unfold shell_validate.
  repeat match goal with
  | |- context [(?a <=? 0)%Z] => destruct (Z.leb_spec a 0); [split; [discriminate|intros H'; exfalso; decompose [and] H'; lia]|]
  | |- context [Rltb ?a ?b] => let E := fresh in destruct (Rltb a b) eqn:E; [apply Rltb_true in E|apply Rltb_false in E]; cbn [negb]; [|split; [discriminate|intros H'; exfalso; decompose [and] H'; lra]]
  end.
  split; [|reflexivity]. intros _. repeat (split; [assumption|]). lra.
Qed.
Print Assumptions C81_accepts.

(** The error names a variable whose value is at fault. *)
Theorem C81_names : forall v name, shell_validate v = Some name ->
  (name = "SubsampleFactor" /\ v_subsampleFactor v <= 0)%Z%string \/ (name = "RadialBins" /\ v_radialBins v <= 0)%Z%string \/
  (name = "Spokes" /\ v_spokes v <= 0)%Z%string \/ (name = "Rings" /\ v_rings v <= 0)%Z%string \/
  (name = "Order" /\ v_order v <= 0)%Z%string \/ (name = "Levels" /\ v_levels v <= 0)%Z%string \/ (name = "SmoothingWindow" /\ v_smoothingWindow v <= 0)%Z%string \/
  (name = "RMaxMult"%string /\ v_rMaxMult v <= 0) \/ (name = "RMinMult"%string /\ (v_rMinMult v <= 0 \/ v_rMaxMult v <= v_rMinMult v)) \/
  (name = "RKernelMult"%string /\ v_rKernelMult v <= 0) \/ (name = "Eta"%string /\ v_eta v <= 0).
Proof.
  intros v name. unfold shell_validate.
  repeat match goal with
  | |- context [(?a <=? 0)%Z] => destruct (Z.leb_spec a 0); [intros H'; injection H' as <-; tauto|]
  | |- context [Rltb ?a ?b] => let E := fresh in destruct (Rltb a b) eqn:E; [apply Rltb_true in E|apply Rltb_false in E]; cbn [negb]; [|intros H'; injection H' as <-; tauto]
  end. discriminate.
Qed.
Print Assumptions C81_names.

(** A configuration that passes the check and has an odd window above 4 and below RadialBins meets all that C80 asks of a configuration. *)
Theorem C81_usable : forall v norms minMass, shell_validate v = None -> Z.odd (v_smoothingWindow v) = true -> (4 < v_smoothingWindow v < v_radialBins v)%Z ->
  Forall (fun u : vec3 => let '(x, y, z) := u in x * x + y * y + z * z = 1) norms -> usable_config (run_conf v norms minMass).
Proof.
  intros v norms minMass Hv Hodd Hw Hn. apply C81_accepts in Hv. destruct Hv as (H1 & H2 & H3 & H4 & _ & _ & H7 & H8 & _ & H10).
  unfold usable_config, run_conf. cbn [sc_norms sc_window sc_bins sc_spokes sc_rMinMult sc_load c_rMaxMult c_rKernelMult c_sf3].
  split; [exact Hn|]. split.
  { rewrite Zodd_mod in Hodd. apply Zeq_bool_eq in Hodd. apply Nat2Z.inj. rewrite Nat2Z.inj_mod, Z2Nat.id by lia. exact Hodd. }
  split; [lia|]. split; [lia|]. split; [exact H10|]. split; [lra|].
  assert (0 < v_subsampleFactor v * v_subsampleFactor v * v_subsampleFactor v)%Z by (repeat apply Z.mul_pos_pos; lia). lia.
Qed.
Print Assumptions C81_usable.

(** With any other window the check passes as well, but then no run returns rows, whatever the particles and the catalogue: the first halo
    of the first snapshot panics, after its particles are read. *)
Theorem C81_window_fatal : forall v norms minMass B inverse workers enum read ids snaps coords, shell_validate v = None ->
  (Z.even (v_smoothingWindow v) = true \/ v_smoothingWindow v <= 4 \/ v_radialBins v <= v_smoothingWindow v)%Z ->
  Z.of_nat (length norms) = v_rings v -> (forall l, Permutation (enum l) l) -> length ids = length snaps -> (exists s, In s snaps /\ s <> (-1)%Z) ->
  shell_rows B inverse (run_conf v norms minMass) workers enum read ids snaps coords = None.
Proof.
  intros v norms minMass B inverse workers enum read ids snaps coords Hv Hbad Ln Hen Li Hs. apply C81_accepts in Hv. destruct Hv as (H1 & H2 & H3 & H4 & _ & _ & H7 & _).
  apply rows_fatal; auto; unfold run_conf; cbn [sc_norms sc_spokes sc_window sc_bins]; [lia|lia| |lia].
  destruct Hbad as [He|[He|He]]; unfold bad_window.
  - left. rewrite Zeven_mod in He. apply Zeq_bool_eq in He. apply Nat2Z.inj. rewrite Nat2Z.inj_mod, Z2Nat.id by lia. exact He.
  - right. left. lia.
  - right. right. lia.
Qed.
Print Assumptions C81_window_fatal.

(** So the check does not do what the documentation of SmoothingWindow (must be odd) leads one to expect. *)
Theorem C81_check_refuted : exists v, shell_validate v = None /\ forall norms minMass B inverse workers read id snap xr, length norms = 100%nat -> snap <> (-1)%Z ->
  shell_rows B inverse (run_conf v norms minMass) workers (fun l => l) read [id] [snap] [xr] = None.
Proof.
  set (v := mkShellVars 1 256 256 100 3 (3 / 10) (2 / 10) 10 3 3 120 0 (1 / 2)). exists v.
  assert (Hv : shell_validate v = None) by (apply C81_accepts; subst v; cbn; repeat (split; [lia||lra|]); lra). split; [exact Hv|].
  intros norms minMass B inverse workers read id snap xr Ln Hs. apply C81_window_fatal; auto.
  - subst v. cbn. rewrite Ln. reflexivity.
  - exists snap. split; [now left|exact Hs].
Qed.
Print Assumptions C81_check_refuted.

(** The defaults pass. *)
Example C81_nonvacuous : shell_validate shell_defaults = None /\ Z.odd (v_smoothingWindow shell_defaults) = true /\ (4 < v_smoothingWindow shell_defaults < v_radialBins shell_defaults)%Z /\
  shell_validate (mkShellVars 1 256 256 100 3 3 (2 / 10) 10 3 3 121 0 (1 / 2)) = Some "RMinMult"%string.
Proof.
  split; [|split; [reflexivity|split; [cbn; lia|]]].
  - apply C81_accepts. cbn. repeat (split; [lia||lra|]). lra.
  - destruct (shell_validate _) as [name|] eqn:E.
    + unfold shell_validate in E. cbn in E. repeat match type of E with context [Rltb ?a ?b] => let E' := fresh in destruct (Rltb a b) eqn:E'; [apply Rltb_true in E'|apply Rltb_false in E']; cbn [negb] in E; try (exfalso; lra) end. now injection E as <-.
    + apply C81_accepts in E. cbn in E. exfalso. decompose [and] E. lra.
Qed.

(** ** C82 *)
(** Lines with snapshot -1, which tree and coord mode write for halos they did not find, are skipped by the loop over snapshots, but before it
    the headers of the smallest snapshot are read: if there is no snapshot -1 (its index into the list of files is negative), the run fails. *)
Theorem C82_snapshot_refuted : forall B inverse c workers enum read ids snaps coords, (forall l, Permutation (enum l) l) -> length ids = length snaps ->
  In (-1)%Z snaps -> (forall s, In s snaps -> (-1 <= s)%Z) -> read (-1)%Z = None ->
  shell_rows B inverse c workers enum read ids snaps coords = None.
Proof. intros. apply rows_no_snapshot; auto; lia. Qed.
Print Assumptions C82_snapshot_refuted.

(** A line whose radius is not positive makes the whole run fail, whatever the other lines, the configuration and the particles. *)
Theorem C82_radius_refuted : forall B inverse c workers enum read ids snaps coords i, (forall l, Permutation (enum l) l) -> length ids = length snaps -> length coords = length snaps ->
  (i < length snaps)%nat -> nth i snaps 0%Z <> (-1)%Z -> snd (nth i coords ((0, 0, 0), 0)) <= 0 ->
  shell_rows B inverse c workers enum read ids snaps coords = None.
Proof. intros. eapply rows_no_radius; eauto; lia. Qed.
Print Assumptions C82_radius_refuted.

Example C82_nonvacuous : (forall s, In s [100; -1]%Z -> (-1 <= s)%Z) /\ In (-1)%Z [100; -1]%Z /\ snd (nth 1 [((50, 50, 50), 2); ((20, 20, 20), 0)] ((0, 0, 0), 0)) <= 0.
Proof. split; [intros s [<-|[<-|[]]]; lia|]. split; [cbn; auto|cbn; lra]. Qed.

(** ** C83 *)
Lemma Rltb_preorder : SortProofs.total_preorder Rltb.
Proof.
  split; intros a b.
  - intros H. apply Rltb_true in H. apply Rltb_false. lra.
  - intros c H1 H2. apply Rltb_false in H1. apply Rltb_false in H2. apply Rltb_false. lra.
Qed.

(** The densities of all lines of sight at one radius. *)
Definition densities (rho : nat -> nat -> list R) (rings spokes j : nat) : list R :=
  flat_map (fun r => map (fun s => nth j (rho r s) 0) (seq 0 spokes)) (seq 0 rings).

Lemma densities_alt rho rings spokes j : (0 < spokes)%nat ->
  densities rho rings spokes j = map (fun i => nth j (rho (i / spokes)%nat (i mod spokes)%nat) 0) (seq 0 (rings * spokes)).
Proof.
  intros Hs. unfold densities. induction rings as [|rings IH]; [reflexivity|]. rewrite seq_S, flat_map_app, IH. cbn [flat_map]. rewrite app_nil_r, Nat.add_0_l.
  replace (S rings * spokes)%nat with (rings * spokes + spokes)%nat by lia. rewrite seq_app, map_app. f_equal. rewrite Nat.add_0_l.
  replace (seq (rings * spokes) spokes) with (map (fun s => rings * spokes + s)%nat (seq 0 spokes)).
  - rewrite map_map. apply map_ext_in. intros s Hin. apply in_seq in Hin.
    replace ((rings * spokes + s) / spokes)%nat with rings by (symmetry; rewrite Nat.div_add_l by lia; rewrite Nat.div_small by lia; lia).
    replace ((rings * spokes + s) mod spokes)%nat with s; [reflexivity|]. rewrite Nat.add_comm, Nat.mod_add by lia. symmetry. apply Nat.mod_small. lia.
  - generalize (rings * spokes)%nat as a. clear. induction spokes as [|n IH]; intros a; [reflexivity|]. rewrite !seq_S, map_app, IH. reflexivity.
Qed.

(** The row is the radii followed by, for each radius, the value of rank max(1, floor(p N)) from the top among the densities of all N lines. *)
Lemma percentile_ok h bins spokes rings num den rho : (0 < spokes)%nat -> (0 < rings)%nat -> h_bins h = bins -> (0 <= num <= den)%Z -> (0 < den)%Z ->
  (forall r s, (r < rings)%nat -> (s < spokes)%nat -> get_rhos h r s (repeat 0 bins) = Some (rho r s) /\ length (rho r s) = bins) ->
  exists rs rhos, calc_percentile h bins spokes rings num den = Some (rs ++ rhos) /\ get_rs h (repeat 0 bins) = Some rs /\ length rs = bins /\ length rhos = bins /\
    forall j, (j < bins)%nat -> SortProofs2.ranked R Rltb (densities rho rings spokes j) (Z.max 1 (num * Z.of_nat (rings * spokes) / den)) (nth j rhos 0).
Proof.
  intros Hs Hr Hb Hp Hd Hrho. unfold calc_percentile.
  destruct (get_rs h (repeat 0 bins)) as [rs|] eqn:Ers.
  2: { exfalso. unfold get_rs in Ers. rewrite repeat_length, Hb, Nat.eqb_refl in Ers. discriminate. }
  assert (Lrs : length rs = bins) by (apply get_rs_length in Ers; rewrite Ers; apply repeat_length).
  rewrite (mapo_map _ (fun i => rho (i / spokes)%nat (i mod spokes)%nat)).
  2: { intros i Hi. apply in_seq in Hi. apply Hrho; [apply Nat.div_lt_upper_bound; lia|apply Nat.mod_upper_bound; lia]. }
  set (buf := map _ (seq 0 (rings * spokes))).
  assert (Hcol : forall j, (j < bins)%nat -> mapo (fun p => rd p j) buf = Some (densities rho rings spokes j)).
  { intros j Hj. rewrite (mapo_map _ (fun p => nth j p 0)).
    - f_equal. unfold buf. rewrite map_map, densities_alt by exact Hs. reflexivity.
    - intros p Hin. apply rd_nth. unfold buf in Hin. apply in_map_iff in Hin. destruct Hin as (i & <- & Hi). apply in_seq in Hi.
      destruct (Hrho (i / spokes)%nat (i mod spokes)%nat) as (_ & L); [apply Nat.div_lt_upper_bound; lia|apply Nat.mod_upper_bound; lia|]. change (j < length (rho (i / spokes) (i mod spokes)))%nat. lia. }
  assert (Ld : forall j, length (densities rho rings spokes j) = (rings * spokes)%nat) by (intros j; rewrite densities_alt, map_length, seq_length by exact Hs; reflexivity).
  match goal with |- context [mapo ?f (seq 0 bins)] => set (F := f) end.
  assert (HF : forall j, (j < bins)%nat -> exists v, F j = Some v /\ SortProofs2.ranked R Rltb (densities rho rings spokes j) (Z.max 1 (num * Z.of_nat (rings * spokes) / den)) v).
  { intros j Hj. unfold F. rewrite Hcol by exact Hj.
    destruct (Props_Sort.C110_percentile_rank R Rltb (densities rho rings spokes j) num den (Some (repeat 0 (spokes * rings))) Rltb_preorder) as (v & sc & -> & Hv); auto.
    - intros Hnil. specialize (Ld j). rewrite Hnil in Ld. cbn in Ld. destruct rings, spokes; lia.
    - intros b Eb. injection Eb as <-. rewrite repeat_length, Ld. lia.
    - exists v. split; [reflexivity|]. change (List.length (densities rho rings spokes j)) with (length (densities rho rings spokes j)) in Hv. rewrite Ld in Hv. exact Hv. }
  destruct (mapo_exists F (seq 0 bins)) as (rhos & Erhos).
  { intros j Hj. apply in_seq in Hj. destruct (HF j ltac:(lia)) as (v & Ev & _). eauto. }
  rewrite Erhos. exists rs, rhos. split; [reflexivity|]. split; [reflexivity|]. split; [exact Lrs|].
  assert (Lrhos : length rhos = bins) by (apply mapo_length in Erhos; rewrite Erhos; apply seq_length). split; [exact Lrhos|].
  intros j Hj. destruct (nth_error rhos j) as [v|] eqn:Ev. 2: { apply nth_error_None in Ev. lia. }
  destruct (mapo_nth F _ _ j v Erhos Ev) as (a & Ea & EF). rewrite (nth_error_nth _ _ 0 Ev).
  assert (a = j). { apply (nth_error_nth _ _ 0%nat) in Ea. rewrite seq_nth in Ea by exact Hj. lia. } subst a.
  destruct (HF j Hj) as (v' & Ev' & Hv'). rewrite EF in Ev'. injection Ev' as <-. exact Hv'.
Qed.

(** For every halo that was initialised and loaded with any particles, and Percentile = 100 num/den in [0, 100]. *)
Theorem C83_percentile : forall norms o rMin rMax bins n rho0 h0 balls h num den,
  Forall (fun v : vec3 => let '(x, y, z) := v in x * x + y * y + z * z = 1) norms -> norms <> [] -> (0 < n)%nat -> (0 < bins)%nat -> 0 < rMin < rMax ->
  halo_init norms o rMin rMax bins n rho0 = Some h0 -> halo_inserts h0 balls = Some h -> (0 <= num <= den)%Z -> (0 < den)%Z ->
  exists row rho, calc_percentile h bins n (length norms) num den = Some row /\ length row = (2 * bins)%nat /\
    (forall r s, (r < length norms)%nat -> (s < n)%nat -> get_rhos h r s (repeat 0 bins) = Some (rho r s) /\ length (rho r s) = bins) /\
    (forall j, (j < bins)%nat -> nth j row 0 = rMin * exp ((INR j + 1 / 2) * (ln (rMax / rMin) / INR bins))) /\
    forall j, (j < bins)%nat -> exists below above, Permutation (densities rho (length norms) n j) (below ++ nth (bins + j) row 0 :: above) /\
      Forall (fun d => d <= nth (bins + j) row 0) below /\ Forall (fun d => nth (bins + j) row 0 <= d) above /\
      Z.of_nat (length above) = (Z.max 1 (num * Z.of_nat (length norms * n) / den) - 1)%Z.
Proof.
  intros norms o rMin rMax bins n rho0 h0 balls h num den Hu Hne Hn Hb Hr E0 E1 Hp Hd.
  assert (Hu' : Forall (fun v : vec3 => dot3 v v = 1) norms) by (revert Hu; apply Forall_impl; intros ((x & y) & z) Hv; exact Hv).
  destruct (halo_init_good norms o rMin rMax bins n rho0 Hb Hn Hr Hu') as (h' & E0' & (G & Girot) & F1 & F2 & F3 & F4 & F5 & F6 & F7 & F8 & F9).
  assert (h' = h0) by congruence. subst h'.
  destruct (halo_inserts_spec balls h0 G) as (profs' & E1' & L1 & G1 & _). assert (Hh : h = with_profs h0 profs') by congruence. clear E1'.
  assert (Hfields : h_n h = n /\ h_bins h = bins /\ h_rMin h = rMin /\ h_rMax h = rMax) by (subst h; cbn [with_profs h_n h_bins h_rMin h_rMax]; tauto).
  destruct Hfields as (En & Eb & Emin & Emax).
  set (rho := fun r s => match get_rhos h r s (repeat 0 bins) with Some l => l | None => [] end).
  assert (Hrho : forall r s, (r < length norms)%nat -> (s < n)%nat -> get_rhos h r s (repeat 0 bins) = Some (rho r s) /\ length (rho r s) = bins).
  { intros r s Hri Hsi. unfold rho. destruct (nth_error (h_profs h) r) as [p|] eqn:Ep.
    2: { apply nth_error_None in Ep. subst h. cbn [with_profs h_profs] in Ep. rewrite L1, (gh_profs _ G), <- (gh_norms _ G), F1 in Ep. lia. }
    assert (Gp : good p /\ p_n p = n /\ p_bins p = bins).
    { rewrite <- Hh in G1. destruct (gh_prof _ G1 r p Ep) as (A & Bq & C & _). rewrite En in Bq. rewrite Eb in C. auto. }
    destruct Gp as (Gp & Epn & Epb). unfold get_rhos, rd. rewrite Ep.
    destruct (ring_retrieve_spec p s (repeat 0 bins) Gp ltac:(lia)) as (out & -> & Lo & _); [rewrite repeat_length; lia|]. split; [reflexivity|]. rewrite map_length, Lo. apply repeat_length. }
  destruct (percentile_ok h bins n (length norms) num den rho Hn) as (rs & rhos & Ec & Ers & Lrs & Lrh & Hrank); auto.
  { destruct norms; [contradiction|cbn; lia]. }
  exists (rs ++ rhos), rho. split; [exact Ec|]. split; [rewrite app_length; lia|]. split; [exact Hrho|]. split.
  - intros j Hj. rewrite app_nth1 by lia. unfold get_rs in Ers. rewrite repeat_length, Eb, Nat.eqb_refl in Ers. cbn [negb] in Ers. injection Ers as <-. rewrite Emin, Emax.
    set (f := fun i : nat => exp (ln rMin + (ln rMax - ln rMin) / INR bins * (INR i + / 2))).
    rewrite (nth_indep _ 0 (f 0%nat)) by (rewrite map_length, seq_length; exact Hj). rewrite map_nth, seq_nth by exact Hj. unfold f.
    rewrite exp_plus, exp_ln by lra. f_equal. f_equal. unfold Rdiv. rewrite (ln_mult rMax (/ rMin)), (ln_Rinv rMin) by (try apply Rinv_0_lt_compat; lra). rewrite Nat.add_0_l. field. apply not_0_INR. lia.
  - intros j Hj. rewrite app_nth2 by lia. replace (bins + j - length rs)%nat with j by lia. destruct (Hrank j Hj) as (lo & hi & P & A & Bq & L). exists lo, hi. split; [exact P|].
    split; [revert A; apply Forall_impl; intros d Hle; apply Rltb_false in Hle; lra|]. split; [revert Bq; apply Forall_impl; intros d Hle; apply Rltb_false in Hle; lra|exact L].
Qed.
Print Assumptions C83_percentile.

(** Percentile counts from the top: Percentile = 100 gives the smallest density at each radius and Percentile = 0 the largest. *)
Theorem C83_from_the_top : forall norms o rMin rMax bins n rho0 h0 balls h den,
  Forall (fun v : vec3 => let '(x, y, z) := v in x * x + y * y + z * z = 1) norms -> norms <> [] -> (0 < n)%nat -> (0 < bins)%nat -> 0 < rMin < rMax ->
  halo_init norms o rMin rMax bins n rho0 = Some h0 -> halo_inserts h0 balls = Some h -> (0 < den)%Z ->
  exists row100 row0 rho, calc_percentile h bins n (length norms) den den = Some row100 /\ calc_percentile h bins n (length norms) 0 den = Some row0 /\
    (forall r s, (r < length norms)%nat -> (s < n)%nat -> get_rhos h r s (repeat 0 bins) = Some (rho r s)) /\
    forall j r s, (j < bins)%nat -> (r < length norms)%nat -> (s < n)%nat -> nth (bins + j) row100 0 <= nth j (rho r s) 0 <= nth (bins + j) row0 0.
Proof.
  intros norms o rMin rMax bins n rho0 h0 balls h den Hu Hne Hn Hb Hr E0 E1 Hd.
  destruct (C83_percentile norms o rMin rMax bins n rho0 h0 balls h den den Hu Hne Hn Hb Hr E0 E1 ltac:(lia) Hd) as (r1 & rho1 & C1 & _ & R1 & _ & H1).
  destruct (C83_percentile norms o rMin rMax bins n rho0 h0 balls h 0 den Hu Hne Hn Hb Hr E0 E1 ltac:(lia) Hd) as (r2 & rho2 & C2 & _ & R2 & _ & H2).
  exists r1, r2, rho1. split; [exact C1|]. split; [exact C2|]. split; [intros; now apply R1|]. intros j r s Hj Hri Hsi.
  assert (Hin : forall rho : nat -> nat -> list R, In (nth j (rho r s) 0) (densities rho (length norms) n j)).
  { intros rho. unfold densities. apply in_flat_map. exists r. split; [apply in_seq; lia|]. apply in_map_iff. exists s. split; [reflexivity|apply in_seq; lia]. }
  assert (Erho : rho2 r s = rho1 r s). { destruct (R1 r s Hri Hsi) as (A & _). destruct (R2 r s Hri Hsi) as (B & _). congruence. }
  assert (Ld : forall rho, length (densities rho (length norms) n j) = (length norms * n)%nat) by (intros rho; rewrite densities_alt, map_length, seq_length by exact Hn; reflexivity).
  assert (Hpos : (0 < length norms)%nat) by (destruct norms; [contradiction|cbn; lia]).
  split.
  - destruct (H1 j Hj) as (lo & hi & P & A & Bq & L). rewrite Z.mul_comm, Z.div_mul in L by lia.
    assert (Ll : length (lo ++ nth (bins + j) r1 0 :: hi) = (length norms * n)%nat) by (rewrite <- (Permutation_length P); apply Ld).
    rewrite app_length in Ll. cbn [length] in Ll. assert (Hlo : lo = []) by (destruct lo; [reflexivity|cbn [length] in Ll; lia]). subst lo.
    specialize (Permutation_in _ P (Hin rho1)). intros [<-|Hh]; [lra|]. rewrite Forall_forall in Bq. now apply Bq.
  - destruct (H2 j Hj) as (lo & hi & P & A & Bq & L). rewrite Z.mul_0_l, Z.div_0_l in L by lia. assert (Hhi : hi = []) by (destruct hi; [reflexivity|cbn [length] in L; lia]). subst hi.
    specialize (Permutation_in _ P (Hin rho2)). rewrite Erho. intros Hh. apply in_app_or in Hh. destruct Hh as [Hh|[<-|[]]]; [|lra]. rewrite Forall_forall in A. now apply A.
Qed.
Print Assumptions C83_from_the_top.

Example C83_nonvacuous : exists h, halo_init [(0, 0, 1)] (0, 0, 0) 1 32 4 3 (1 / 2) = Some h /\ halo_inserts h [] = Some h /\ exists row, calc_percentile h 4 3 1 50 100 = Some row /\ length row = 8%nat.
Proof.
  assert (Hu : Forall (fun v : vec3 => let '(x, y, z) := v in x * x + y * y + z * z = 1) [(0, 0, 1)]) by (repeat constructor; lra).
  destruct (halo_init [(0, 0, 1)] (0, 0, 0) 1 32 4 3 (1 / 2)) as [h|] eqn:E.
  - exists h. split; [reflexivity|]. split; [reflexivity|].
    destruct (C83_percentile [(0, 0, 1)] (0, 0, 0) 1 32 4 3 (1 / 2) h [] h 50 100 Hu ltac:(discriminate) ltac:(lia) ltac:(lia) ltac:(lra) E eq_refl ltac:(lia) ltac:(lia)) as (row & rho & Ec & L & _). exists row. auto.
  - exfalso. destruct (halo_init_good [(0, 0, 1)] (0, 0, 0) 1 32 4 3 (1 / 2) ltac:(lia) ltac:(lia) ltac:(lra)) as (h' & E' & _); [|congruence]. repeat constructor. unfold dot3. lra.
Qed.
