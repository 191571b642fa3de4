(** * C123-C127: phase mode *)
From Verif Require Import PhaseModel PhaseSpec LosSpec LoopFacts RealBase InterpProofs KdeProofs ProfProofs ProfSpec AccumProofs PhaseProofs.
From Verif Require LosProofs7 Props_Pixel Props_Prof Props_Cmd CmdModel RockstarProofs KdeProofs4.
From Verif Require Import GoBase.
From Coq Require Import ZArith Reals List Lia Lra Permutation.
Import List ListNotations.
Local Open Scope R_scope.

(** ** C123: profiles of the total velocity *)

(** Every cell gains the mass of exactly the particles whose distance and speed lie in the cell's bins. *)
Theorem C123_total_cells : forall nan c s L xs vs ms rhos, hc_radial c = false ->
  (0 < hc_rbins c)%nat -> (0 < hc_vbins c)%nat -> 0 < p_R s -> 0 < p_V s ->
  length vs = length xs -> length ms = length xs -> Forall (in_half_box L (p_c s)) xs -> length rhos = (hc_rbins c * hc_vbins c)%nat ->
  exists rhos', phase_points nan c s L xs vs ms rhos = Some rhos' /\ length rhos' = (hc_rbins c * hc_vbins c)%nat /\
    forall j k, (j < hc_rbins c)%nat -> (k < hc_vbins c)%nat -> exists gain,
      tally (phase_cell false (hc_sub c) (p_c s) (p_v s) (p_R s) (p_V s) (hc_rbins c) (hc_vbins c) j k) (combine (combine xs vs) ms) gain /\
      nth (j * hc_vbins c + k) rhos' 0 = nth (j * hc_vbins c + k) rhos 0 + gain.
Proof.
  intros nan c s L xs vs ms rhos Ht Hr Hv HR HV Lv Lm Hx HL.
  destruct (phase_points_ok nan c s L Hr Hv HR HV xs vs ms rhos Lv Lm) as (r' & E & L' & H); [|exact HL|].
  - intros p Hin. split.
    + unfold particles_of in Hin. destruct p as ((x, v), m). apply in_combine_l in Hin. apply in_combine_l in Hin. rewrite Forall_forall in Hx. now apply Hx.
    + unfold regular. rewrite Ht. discriminate.
  - exists r'. split; [exact E|]. split; [exact L'|]. unfold cell in H. rewrite Ht in H. exact H.
Qed.
Print Assumptions C123_total_cells.

(** The cells of a halo are disjoint and cover all particles inside the radius and slower than the maximum. *)
Theorem C123_cells_partition : forall hubble o u rMax vMax nr nv p, (0 < nr)%nat -> (0 < nv)%nat -> 0 < rMax -> 0 < vMax ->
  (sqrt (dist2_3 (fst (fst p)) o) < rMax /\ total_velocity hubble o u p < vMax <->
   exists j k, (j < nr)%nat /\ (k < nv)%nat /\ phase_cell false hubble o u rMax vMax nr nv j k p) /\
  forall j k j' k', phase_cell false hubble o u rMax vMax nr nv j k p -> phase_cell false hubble o u rMax vMax nr nv j' k' p -> j = j' /\ k = k'.
Proof.
  intros hubble o u rMax vMax nr nv p Hr Hv HR HV. assert (0 < INR nr) by (now apply lt_0_INR). assert (0 < INR nv) by (now apply lt_0_INR).
  assert (Hwr : 0 < rMax / INR nr) by (now apply Rdiv_lt_0_compat). assert (Hwv : 0 < vMax / INR nv) by (now apply Rdiv_lt_0_compat).
  assert (Er : rMax = INR nr * (rMax / INR nr)) by (field; lra). assert (Ev : vMax = INR nv * (vMax / INR nv)) by (field; lra).
  unfold phase_cell. set (q := sqrt (dist2_3 _ _)). assert (0 <= q) by apply sqrt_pos. set (t := total_velocity _ _ _ _). assert (0 <= t) by (unfold t, total_velocity; apply sqrt_pos). split; [split|].
  - intros (A & B). destruct (bin_exists 0 (rMax / INR nr) nr q) as (j & Hj & Bj); [assumption|lra|]. destruct (bin_exists 0 (vMax / INR nv) nv t) as (k & Hk & Bk); [assumption|lra|]. exists j, k. auto.
  - intros (j & k & Hj & Hk & (_ & A) & (_ & B)). assert (INR (S j) <= INR nr) by (apply le_INR; lia). assert (INR (S k) <= INR nv) by (apply le_INR; lia). split; nra.
  - intros j k j' k' (A & B) (C & D). split; [exact (bin_unique 0 _ j j' q Hwr A C)|exact (bin_unique 0 _ k k' t Hwv B D)].
Qed.
Print Assumptions C123_cells_partition.

Example C123_nonvacuous :
  let c := mkPhaseConf 2 2 1 1 false false in let s := mkPSphere (50, 50, 50) 10 (1, 0, 0) 100 in
  phase_cell false false (50, 50, 50) (1, 0, 0) 10 100 2 2 1 0 (56, 50, 50, (31, 0, 0), 7) /\
  exists rhos', phase_points 0 c s 100 [(56, 50, 50)] [(31, 0, 0)] [7] [0; 0; 0; 0] = Some rhos' /\ nth 2 rhos' 0 = 7.
Proof.
  cbv zeta.
  assert (Hc : phase_cell false false (50, 50, 50) (1, 0, 0) 10 100 2 2 1 0 (56, 50, 50, (31, 0, 0), 7)).
  { unfold phase_cell, total_velocity, rel_velocity, minus3, dot3, dist2_3, bin. cbn [fst snd INR].
    replace ((56 - 50) * (56 - 50) + (50 - 50) * (50 - 50) + (50 - 50) * (50 - 50)) with (6 * 6) by ring. rewrite sqrt_square by lra.
    replace ((31 - 1) * (31 - 1) + (0 - 0) * (0 - 0) + (0 - 0) * (0 - 0)) with (30 * 30) by ring. rewrite sqrt_square by lra. lra. }
  split; [exact Hc|].
  destruct (C123_total_cells 0 (mkPhaseConf 2 2 1 1 false false) (mkPSphere (50, 50, 50) 10 (1, 0, 0) 100) 100 [(56, 50, 50)] [(31, 0, 0)] [7] [0; 0; 0; 0]) as (r & E & _ & H);
    cbn [hc_radial hc_rbins hc_vbins p_R p_V p_c length]; try reflexivity; try lia; try lra.
  { constructor; [|constructor]. unfold in_half_box. repeat split; unfold Rabs; destruct (Rcase_abs _); lra. }
  exists r. split; [exact E|]. destruct (H 1%nat 0%nat) as (g & T & Eg); [cbn; lia|cbn; lia|]. cbn [hc_vbins Nat.mul Nat.add] in Eg. rewrite Eg. cbn [nth].
  cbn [combine] in T. inversion T as [|p l m Hp Tl|p l m Hp Tl]; subst; [inversion Tl; subst; cbn [snd]; lra|]. exfalso. apply Hp. exact Hc.
Qed.

(** ** C124: profiles of the radial velocity *)

(** As for the total velocity, provided that no particle sits exactly at the centre and none falls in between one bin width and nothing faster than
    the maximum. *)
Theorem C124_radial_cells_partial : forall nan c s L xs vs ms rhos, hc_radial c = true ->
  (0 < hc_rbins c)%nat -> (0 < hc_vbins c)%nat -> 0 < p_R s -> 0 < p_V s ->
  length vs = length xs -> length ms = length xs -> Forall (in_half_box L (p_c s)) xs -> length rhos = (hc_rbins c * hc_vbins c)%nat ->
  (forall p, In p (combine (combine xs vs) ms) -> sqrt (dist2_3 (fst (fst p)) (p_c s)) < p_R s -> fst (fst p) <> p_c s /\
     let v := radial_velocity (hc_sub c) (p_c s) (p_v s) p in - p_V s <= v \/ v <= - p_V s - 2 * p_V s / INR (hc_vbins c)) ->
  exists rhos', phase_points nan c s L xs vs ms rhos = Some rhos' /\ length rhos' = (hc_rbins c * hc_vbins c)%nat /\
    forall j k, (j < hc_rbins c)%nat -> (k < hc_vbins c)%nat -> exists gain,
      tally (phase_cell true (hc_sub c) (p_c s) (p_v s) (p_R s) (p_V s) (hc_rbins c) (hc_vbins c) j k) (combine (combine xs vs) ms) gain /\
      nth (j * hc_vbins c + k) rhos' 0 = nth (j * hc_vbins c + k) rhos 0 + gain.
Proof.
  intros nan c s L xs vs ms rhos Ht Hr Hv HR HV Lv Lm Hx HL Hreg.
  destruct (phase_points_ok nan c s L Hr Hv HR HV xs vs ms rhos Lv Lm) as (r' & E & L' & H); [|exact HL|].
  - intros p Hin. split.
    + unfold particles_of in Hin. destruct p as ((x, v), m). apply in_combine_l in Hin. apply in_combine_l in Hin. rewrite Forall_forall in Hx. now apply Hx.
    + intros _. now apply Hreg.
  - exists r'. split; [exact E|]. split; [exact L'|]. unfold cell in H. rewrite Ht in H. exact H.
Qed.
Print Assumptions C124_radial_cells_partial.

(** A particle that falls in at 150 is counted in the cell of velocities from -100 to 0: it is in no cell at all, but its mass is added to the first. *)
Theorem C124_fast_infall_refuted : forall nan,
  let c := mkPhaseConf 1 2 1 1 true false in let s := mkPSphere (50, 50, 50) 10 (0, 0, 0) 100 in let p := ((55, 50, 50), (-150, 0, 0), 7) in
  (forall j k, ~ phase_cell true false (p_c s) (p_v s) (p_R s) (p_V s) 1 2 j k p) /\
  phase_points nan c s 100 [(55, 50, 50)] [(-150, 0, 0)] [7] [0; 0] = Some [7; 0].
Proof.
  cbv zeta. cbn [p_c p_v p_R p_V].
  assert (Es : sqrt ((55 - 50) * (55 - 50) + (50 - 50) * (50 - 50) + (50 - 50) * (50 - 50)) = 5).
  { replace ((55 - 50) * (55 - 50) + (50 - 50) * (50 - 50) + (50 - 50) * (50 - 50)) with (5 * 5) by ring. apply sqrt_square. lra. }
  split.
  - intros j k (_ & Hb & _). unfold radial_velocity, rel_velocity, minus3, dot3 in Hb. cbn [fst snd] in Hb. rewrite Es in Hb.
    replace (((-150 - 0) * (55 - 50) + (0 - 0) * (50 - 50) + (0 - 0) * (50 - 50)) / 5) with (-150) in Hb by field. pose proof (pos_INR k). cbn [INR] in Hb. nra.
  - unfold phase_points. cbn [length loop rd nth_error]. unfold phase_point. cbn [p_c p_v p_R p_V hc_radial hc_sub hc_rbins hc_vbins]. cbv zeta.
    rewrite !wrap_id by (unfold Rabs; destruct (Rcase_abs _); lra). rewrite Es.
    rewrite (proj2 (Rleb_false _ _)) by lra. destruct (Req_EM_T 5 0) as [?|_]; [lra|].
    unfold v_min. cbn [hc_radial].
    assert (Ev : Rtrunc ((((-150 - 0) * (55 - 50) + (0 - 0) * (50 - 50) + (0 - 0) * (50 - 50)) / 5 - Ropp 100) / ((100 - Ropp 100) / INR 2)) = 0%Z).
    { replace ((((-150 - 0) * (55 - 50) + (0 - 0) * (50 - 50) + (0 - 0) * (50 - 50)) / 5 - Ropp 100) / ((100 - Ropp 100) / INR 2)) with (- (1 / 2)) by (cbn [INR]; field).
      unfold Rtrunc. destruct (Rle_dec 0 (- (1 / 2))); [lra|]. rewrite Ropp_involutive. replace (Int_part (1 / 2)) with 0%Z; [reflexivity|].
      symmetry. destruct (base_Int_part (1 / 2)) as (A & B). assert (IZR (Int_part (1/2)) < 1) by lra. assert (-1 < IZR (Int_part (1/2))) by lra. apply lt_IZR in H, H0. lia. }
    rewrite Ev. assert (Er : Rtrunc (5 / (10 / INR 1)) = 0%Z).
    { replace (5 / (10 / INR 1)) with (1 / 2) by (cbn [INR]; field). apply Props_Pixel.trunc_iff; lra. }
    rewrite Er. cbn. f_equal. f_equal. lra.
Qed.
Print Assumptions C124_fast_infall_refuted.

(** ** C125: axes and densities *)
Theorem C125_axes_densities : forall c rhos rMax vMax, (0 < hc_rbins c)%nat -> (0 < hc_vbins c)%nat -> 0 < rMax -> 0 < vMax ->
  length rhos = (hc_rbins c * hc_vbins c)%nat ->
  let lo := if hc_radial c then - vMax else 0 in let w := (vMax - lo) / INR (hc_vbins c) in let dr := rMax / INR (hc_rbins c) in
  exists rs vs out, process_phase c rhos rMax vMax = Some (rs, vs, out) /\ length rs = hc_rbins c /\ length vs = hc_vbins c /\ length out = (hc_rbins c * hc_vbins c)%nat /\
    (forall j, (j < hc_rbins c)%nat -> bin 0 dr j (nth j rs 0) /\ nth j rs 0 = (INR j * dr + INR (S j) * dr) / 2) /\
    (forall k, (k < hc_vbins c)%nat -> bin lo w k (nth k vs 0) /\ nth k vs 0 = ((lo + INR k * w) + (lo + INR (S k) * w)) / 2) /\
    forall j k, (j < hc_rbins c)%nat -> (k < hc_vbins c)%nat ->
      nth (j * hc_vbins c + k) out 0 * (shell_volume (INR j * dr) (INR (S j) * dr) * w) = nth (j * hc_vbins c + k) rhos 0.
Proof.
  intros c rhos rMax vMax Hr Hv HR HV HL lo w dr. destruct (process_phase_ok c rhos rMax vMax Hr Hv HR HV HL) as (rs & vs & out & E & Lr & Lv & Lo & Ar & Av & Ao).
  assert (0 < INR (hc_rbins c)) by (now apply lt_0_INR). assert (0 < INR (hc_vbins c)) by (now apply lt_0_INR).
  assert (Ew : vwidth c vMax = w) by (unfold vwidth, w, lo; destruct (hc_radial c); field; lra). assert (El : vmin_of c vMax = lo) by reflexivity.
  assert (Hw : 0 < w) by (rewrite <- Ew; unfold vwidth; destruct (hc_radial c); apply Rdiv_lt_0_compat; lra). assert (Hdr : 0 < dr) by (now apply Rdiv_lt_0_compat).
  rewrite Ew, El in *. fold dr in Ar, Ao. clearbody w dr lo.
  exists rs, vs, out. split; [exact E|]. split; [exact Lr|]. split; [exact Lv|]. split; [exact Lo|]. split; [|split].
  - intros j Hj. rewrite (Ar j Hj). unfold bin. rewrite S_INR. split; [nra|field].
  - intros k Hk. rewrite (Av k Hk). unfold bin. rewrite S_INR. split; [nra|field].
  - exact Ao.
Qed.
Print Assumptions C125_axes_densities.

Example C125_nonvacuous : let c := mkPhaseConf 2 3 1 1 true false in (0 < hc_rbins c)%nat /\ (0 < hc_vbins c)%nat /\ length [1; 2; 3; 4; 5; 6] = (hc_rbins c * hc_vbins c)%nat.
Proof. cbn. repeat split; lia. Qed.

(** ** C126: the rows of a run *)

(** For every line of the catalogue with a snapshot, the density in every cell times its volume is the mass of the particles of all files of that
    snapshot in the cell; lines with snapshot -1 have density 0. Snapshots do not mix, whatever the iteration order of the map of snapshots.
    (Provided that particles near a halo need not be wrapped around the box, and for radial velocities the provisos of C124.) *)
Theorem C126_rows : forall nan c enum read ids snaps (halos : list (vec3 * R * R * vec3)),
  (forall l, Permutation (enum l) l) -> length ids = length snaps -> length halos = length snaps -> snaps <> [] ->
  (0 < hc_rbins c)%nat -> (0 < hc_vbins c)%nat -> 0 < hc_rMax c -> 0 < hc_vMax c -> (forall x r m v, In (x, r, m, v) halos -> 0 < r /\ 0 < m) ->
  (forall i, (i < length snaps)%nat -> nth i snaps 0%Z <> (-1)%Z -> exists files, read (nth i snaps 0%Z) = Some files /\ files <> [] /\
     forall fv, In fv files -> file_ok fv /\
       let s := phase_sphere c (nth i halos (0, 0, 0, 0, 0, (0, 0, 0))) in
       (phase_meets s fv = true -> forall p, In p (file_particles fv) -> in_half_box (f_tw (fst fv)) (p_c s) (fst (fst p)) /\ regular c s p)) ->
  exists rows, phase_profiles nan c enum read ids snaps halos = Some rows /\ length rows = length snaps /\
    forall i, (i < length snaps)%nat ->
      let '(x, r, m, v) := nth i halos (0, 0, 0, 0, 0, (0, 0, 0)) in
      let rMax := r * hc_rMax c in let vMax := 508 * sqrt (m / 60000000000000 / r) * hc_vMax c in
      let lo := if hc_radial c then - vMax else 0 in let w := (vMax - lo) / INR (hc_vbins c) in let dr := rMax / INR (hc_rbins c) in
      let '(rs, vs, out) := nth i rows ([], [], []) in
      length rs = hc_rbins c /\ length vs = hc_vbins c /\ length out = (hc_rbins c * hc_vbins c)%nat /\
      (forall j, (j < hc_rbins c)%nat -> nth j rs 0 = (INR j * dr + INR (S j) * dr) / 2) /\
      (forall k, (k < hc_vbins c)%nat -> nth k vs 0 = ((lo + INR k * w) + (lo + INR (S k) * w)) / 2) /\
      forall j k, (j < hc_rbins c)%nat -> (k < hc_vbins c)%nat ->
        let mass := nth (j * hc_vbins c + k) out 0 * (shell_volume (INR j * dr) (INR (S j) * dr) * w) in
        (nth i snaps 0%Z = (-1)%Z -> mass = 0) /\
        (nth i snaps 0%Z <> (-1)%Z -> forall files, read (nth i snaps 0%Z) = Some files ->
           tally (phase_cell (hc_radial c) (hc_sub c) x v rMax vMax (hc_rbins c) (hc_vbins c) j k) (flat_map file_particles files) mass).
Proof.
  intros nan c enum read ids snaps halos Hen Li Lh Hne Hr Hv HRM HVM Hh Hfiles. unfold phase_profiles. cbv zeta.
  set (dh := ((0, 0, 0, 0, 0, (0, 0, 0)) : vec3 * R * R * vec3)). set (spheres := map (phase_sphere c) halos). set (ds := phase_sphere c dh).
  assert (Ls : length spheres = length snaps) by (unfold spheres; rewrite map_length; exact Lh).
  assert (Hs : forall i, nth i spheres ds = phase_sphere c (nth i halos dh)) by (intros; apply map_nth).
  assert (Hpos : forall i, (i < length snaps)%nat -> 0 < p_R (nth i spheres ds) /\ 0 < p_V (nth i spheres ds)).
  { intros i Hi. rewrite Hs. assert (Hin : In (nth i halos dh) halos) by (apply nth_In; lia). destruct (nth i halos dh) as (((x, r), m), v). destruct (Hh _ _ _ _ Hin) as (H1 & H2).
    unfold phase_sphere, velocity_scale. cbn [p_R p_V]. split; [nra|]. apply Rmult_lt_0_compat; [|exact HVM]. apply Rmult_lt_0_compat; [lra|]. apply sqrt_lt_R0.
    apply Rdiv_lt_0_compat; lra. }
  set (ins := fun (_ : Z) (_ _ : nat) s fv rhos => phase_points nan c s (f_tw (fst fv)) (f_xs (fst fv)) (snd fv) (f_ms (fst fv)) rhos).
  destruct (accum_run_ok phase_meets ins [] ds (pInv c) (pOK c) (fun snap fi j s f a => pins_ok nan c Hr Hv snap fi j s f a) enum read ids snaps spheres (repeat 0 (hc_rbins c * hc_vbins c)) Hen Li Ls Hne) as (sets & E & Lsets & Isets & Hsets).
  { unfold pInv. apply repeat_length. }
  { intros i Hi Hsn. destruct (Hfiles i Hi Hsn) as (files & Er & Hnf & Hf). exists files. split; [exact Er|]. split; [exact Hnf|]. intros fv Hin. destruct (Hf fv Hin) as (A & B).
    destruct (Hpos i Hi) as (P1 & P2). unfold pOK. split; [exact P1|]. split; [exact P2|]. split; [exact A|]. rewrite Hs. exact B. }
  rewrite E.
  assert (Hrow : forall i, In i (seq 0 (length ids)) -> exists b, (do s <- rd spheres i; do rhos <- rd sets i; process_phase c rhos (p_R s) (p_V s)) = Some b).
  { intros i Hi. apply in_seq in Hi. rewrite (rd_nth spheres i ds), (rd_nth sets i []) by lia. destruct (Hpos i ltac:(lia)) as (P1 & P2).
    destruct (process_phase_ok c (nth i sets []) (p_R (nth i spheres ds)) (p_V (nth i spheres ds)) Hr Hv P1 P2) as (rs & vs & out & Ep & _); [apply Isets; lia|]. eauto. }
  destruct (LosProofs7.mapo_spec _ _ Hrow) as (rows & Erows & Lrows & Hrows). exists rows. split; [exact Erows|]. rewrite seq_length in Lrows. split; [congruence|].
  intros i Hi. destruct (Hrows i i) as (b & Eb & Epb); [rewrite (nth_error_nth' _ 0%nat) by (rewrite seq_length; lia); f_equal; apply seq_nth; lia|].
  rewrite (rd_nth spheres i ds), (rd_nth sets i []) in Epb by lia. rewrite (nth_error_nth _ _ ([], [], []) Eb).
  destruct (Hpos i Hi) as (P1 & P2). pose proof (Hs i) as Hsi. pose proof (Hsets i Hi) as (Hm1 & Hm2).
  set (sp := nth i spheres ds) in *.
  destruct (process_phase_ok c (nth i sets []) (p_R sp) (p_V sp) Hr Hv P1 P2 (Isets i Hi)) as (rs & vs & out & Ep & Lr & Lv & Lo & Ar & Av & Ao).
  rewrite Ep in Epb. injection Epb as <-.
  assert (0 < INR (hc_rbins c)) by (now apply lt_0_INR). assert (0 < INR (hc_vbins c)) by (now apply lt_0_INR).
  (* the masses in the grid *)
  assert (Hmass : forall j k, (j < hc_rbins c)%nat -> (k < hc_vbins c)%nat -> (nth i snaps 0%Z = (-1)%Z -> nth (j * hc_vbins c + k) (nth i sets []) 0 = 0) /\
    (nth i snaps 0%Z <> (-1)%Z -> forall files, read (nth i snaps 0%Z) = Some files -> tally (cell c sp j k) (flat_map file_particles files) (nth (j * hc_vbins c + k) (nth i sets []) 0))).
  { intros j k Hj Hk. split.
    - intros Hsn. rewrite (Hm1 Hsn). apply nth_repeat.
    - intros Hsn files Er. destruct (Hm2 Hsn files Er) as (jj & Ef). destruct (row_fold_phase nan c Hr Hv (nth i snaps 0%Z) jj sp files 0 (repeat 0 (hc_rbins c * hc_vbins c))) as (r' & Er' & _ & Ht).
      + intros fv Hin. destruct (Hfiles i Hi Hsn) as (files' & Er2 & _ & Hf). rewrite Er in Er2. injection Er2 as <-. destruct (Hf fv Hin) as (A & B).
        split; [exact P1|]. split; [exact P2|]. split; [exact A|]. unfold sp. rewrite Hs. exact B.
      + unfold pInv. apply repeat_length.
      + unfold pins in Er'. unfold ins in Ef. rewrite Ef in Er'. injection Er' as <-. destruct (Ht j k Hj Hk) as (g & Tg & Eg). rewrite nth_repeat, Rplus_0_l in Eg. rewrite Eg. exact Tg. }
  clear Hm1 Hm2. destruct (nth i halos dh) as (((x, r), m), v) eqn:Eh. cbv zeta.
  assert (ER : p_R sp = r * hc_rMax c) by (rewrite Hsi; reflexivity). assert (EV : p_V sp = 508 * sqrt (m / 60000000000000 / r) * hc_vMax c).
  { rewrite Hsi. unfold phase_sphere, velocity_scale. cbn [p_V]. replace (r / 1) with r by field. reflexivity. }
  rewrite <- ER, <- EV. set (rMax := p_R sp) in *. set (vMax := p_V sp) in *.
  set (lo := if hc_radial c then - vMax else 0). assert (Ew : vwidth c vMax = (vMax - lo) / INR (hc_vbins c)) by (unfold vwidth, lo; destruct (hc_radial c); field; lra).
  rewrite <- Ew. change (vmin_of c vMax) with lo in Av.
  split; [exact Lr|]. split; [exact Lv|]. split; [exact Lo|]. split; [|split].
  - intros j Hj. rewrite (Ar j Hj), S_INR. field. lra.
  - intros k Hk. rewrite (Av k Hk), S_INR. field.
  - intros j k Hj Hk. rewrite (Ao j k Hj Hk). destruct (Hmass j k Hj Hk) as (M1 & M2). split; [exact M1|]. intros Hsn files Er. specialize (M2 Hsn files Er).
    unfold cell in M2. fold rMax vMax in M2. rewrite Hsi in M2. exact M2.
Qed.
Print Assumptions C126_rows.

(** Two lines, one without a snapshot; one file with a particle in the first halo. *)
Example C126_nonvacuous :
  let c := mkPhaseConf 2 2 1 1 false false in
  let fv := (mkPFile (0, 0, 0) (100, 100, 100) 100 0 [(56, 50, 50)] [7], [(31, 0, 0)]) in
  let h := ((50, 50, 50), 10, 600000000000000, (1, 0, 0)) in
  exists rows, phase_profiles 0 c (fun l => l) (fun _ => Some [fv]) [8; 9]%Z [3; -1]%Z [h; h] = Some rows /\
    nth 2 (snd (nth 0 rows ([], [], []))) 0 * (shell_volume 5 10 * 254) = 7 /\ nth 2 (snd (nth 1 rows ([], [], []))) 0 * (shell_volume 5 10 * 254) = 0.
Proof.
  cbv zeta. set (c := mkPhaseConf 2 2 1 1 false false). set (fv := (mkPFile (0, 0, 0) (100, 100, 100) 100 0 [(56, 50, 50)] [7], [(31, 0, 0)])). set (h := ((50, 50, 50), 10, 600000000000000, (1, 0, 0))).
  assert (HV : 508 * sqrt (600000000000000 / 60000000000000 / 10) * 1 = 508) by (replace (600000000000000 / 60000000000000 / 10) with 1 by field; rewrite sqrt_1; ring).
  destruct (C126_rows 0 c (fun l => l) (fun _ => Some [fv]) [8; 9]%Z [3; -1]%Z [h; h]) as (rows & E & _ & H); try reflexivity; try discriminate; cbn [hc_rbins hc_vbins hc_rMax hc_vMax c]; try lia; try lra.
  { intros x r m v [[= <- <- <- <-]|[[= <- <- <- <-]|[]]]; lra. }
  { intros i Hi _. exists [fv]. split; [reflexivity|]. split; [discriminate|]. intros fv' [<-|[]]. split.
    - split; [reflexivity|]. split; [reflexivity|]. constructor; [|constructor]. cbn. lra.
    - cbv zeta. intros _ p [<-|[]]. cbn [length] in Hi. assert (Ei : nth i [h; h] (0, 0, 0, 0, 0, (0, 0, 0)) = h) by (destruct i as [|[|?]]; [reflexivity|reflexivity|lia]). rewrite Ei. split; [|discriminate].
      cbn [fst fv f_tw phase_sphere p_c h]. unfold in_half_box. repeat split; unfold Rabs; destruct (Rcase_abs _); lra. }
  exists rows. split; [exact E|]. pose proof (H 0%nat ltac:(cbn; lia)) as H0. pose proof (H 1%nat ltac:(cbn; lia)) as H1. cbn [nth h] in H0, H1. cbv zeta in H0, H1. cbn [hc_rMax hc_vMax hc_radial hc_sub hc_rbins hc_vbins c] in H0, H1.
  rewrite HV in H0, H1.
  assert (Er : shell_volume (INR 1 * (10 * 1 / INR 2)) (INR 2 * (10 * 1 / INR 2)) * ((508 - 0) / INR 2) = shell_volume 5 10 * 254).
  { cbn [INR]. replace (1 * (10 * 1 / (1 + 1))) with 5 by field. replace ((1 + 1) * (10 * 1 / (1 + 1))) with 10 by field. field. }
  destruct (nth 0 rows _) as ((rs0, vs0), o0). destruct (nth 1 rows _) as ((rs1, vs1), o1). cbn [snd].
  destruct H0 as (_ & _ & _ & _ & _ & H0). destruct H1 as (_ & _ & _ & _ & _ & H1). destruct (H0 1%nat 0%nat) as (_ & H0'); [lia|lia|]. destruct (H1 1%nat 0%nat) as (H1' & _); [lia|lia|].
  specialize (H1' eq_refl). specialize (H0' ltac:(discriminate) [fv] eq_refl). cbn [Nat.mul Nat.add] in H0', H1'. rewrite Er in H0', H1'. split; [|exact H1'].
  eapply tally_fun; [exact H0'|]. replace 7 with (7 + 0) by ring. apply (tally_yes _ (56, 50, 50, (31, 0, 0), 7)); [|constructor].
  unfold phase_cell, total_velocity, rel_velocity, minus3, dot3, dist2_3, bin. cbn [fst snd INR].
  replace ((56 - 50) * (56 - 50) + (50 - 50) * (50 - 50) + (50 - 50) * (50 - 50)) with (6 * 6) by ring. rewrite sqrt_square by lra.
  replace ((31 - 1) * (31 - 1) + (0 - 0) * (0 - 0) + (0 - 0) * (0 - 0)) with (30 * 30) by ring. rewrite sqrt_square by lra. lra.
Qed.

(** ** C127: the header *)

(** Output column 2 + x (after ID and snapshot): the radii first, then the velocities, then the densities. *)
Theorem C127_layout : forall c rows, rows <> [] ->
  (forall rs vs out, In (rs, vs, out) rows -> length rs = hc_rbins c /\ length vs = hc_vbins c /\ length out = (hc_rbins c * hc_vbins c)%nat) ->
  exists cols, phase_columns rows = Some cols /\ length cols = (hc_rbins c + hc_vbins c + hc_rbins c * hc_vbins c)%nat /\
    forall i rs vs out, nth_error rows i = Some (rs, vs, out) -> forall x,
      ((x < hc_rbins c)%nat -> nth i (nth x cols []) 0 = nth x rs 0) /\
      ((hc_rbins c <= x < hc_rbins c + hc_vbins c)%nat -> nth i (nth x cols []) 0 = nth (x - hc_rbins c) vs 0) /\
      ((hc_rbins c + hc_vbins c <= x < length cols)%nat -> nth i (nth x cols []) 0 = nth (x - hc_rbins c - hc_vbins c) out 0).
Proof.
  intros c rows Hne Hrow.
  assert (Hlen : forall (f : list R * list R * list R -> list R) w, (forall r, In r rows -> length (f r) = w) -> exists t, CmdModel.transpose 0 (map f rows) = Some t /\ length t = w /\
    forall i r x, nth_error rows i = Some r -> (x < w)%nat -> nth i (nth x t []) 0 = nth x (f r) 0).
  { intros f w Hf. destruct (Props_Cmd.C62_transpose R 0 (map f rows) w) as (t & E & Lt & _ & H & _).
    - destruct rows; [congruence|discriminate]. - rewrite Forall_forall. intros l Hl. apply in_map_iff in Hl. destruct Hl as (r & <- & Hr). now apply Hf.
    - exists t. split; [exact E|]. split; [exact Lt|]. intros i r x Hr Hx. destruct (H x i (nth x (f r) 0)) as (H1 & _).
      destruct H1 as (col & Ec & En). { exists (f r). split; [now rewrite nth_error_map, Hr|]. apply nth_error_nth'. rewrite (Hf r); [exact Hx|]. now apply nth_error_In in Hr. }
      rewrite (nth_error_nth _ _ [] Ec). exact (nth_error_nth _ _ 0 En). }
  destruct (Hlen (fun r => fst (fst r)) (hc_rbins c)) as (t1 & E1 & L1 & H1); [intros ((a, b), d) Hr; apply (Hrow a b d Hr)|].
  destruct (Hlen (fun r => snd (fst r)) (hc_vbins c)) as (t2 & E2 & L2 & H2); [intros ((a, b), d) Hr; apply (Hrow a b d Hr)|].
  destruct (Hlen (fun r => snd r) (hc_rbins c * hc_vbins c)%nat) as (t3 & E3 & L3 & H3); [intros ((a, b), d) Hr; apply (Hrow a b d Hr)|].
  unfold phase_columns. rewrite E1, E2, E3. eexists. split; [reflexivity|]. rewrite !app_length, L1, L2, L3. split; [reflexivity|].
  intros i rs vs out Hr x. split; [|split]; intros Hx.
  - rewrite app_nth1 by (rewrite app_length; lia). rewrite app_nth1 by lia. exact (H1 i _ x Hr ltac:(lia)).
  - rewrite app_nth1 by (rewrite app_length; lia). rewrite app_nth2 by lia. rewrite L1. exact (H2 i _ (x - hc_rbins c)%nat Hr ltac:(lia)).
  - rewrite app_nth2 by (rewrite app_length; lia). rewrite app_length, L1, L2. replace (x - (hc_rbins c + hc_vbins c))%nat with (x - hc_rbins c - hc_vbins c)%nat by lia. exact (H3 i _ (x - hc_rbins c - hc_vbins c)%nat Hr ltac:(lia)).
Qed.
Print Assumptions C127_layout.

(** What the header says: it gives the R heading VBins columns and the V heading RBins columns. *)
Theorem C127_header_refuted : forall c, (1 < hc_rbins c)%nat -> (1 < hc_vbins c)%nat ->
  let nr := Z.of_nat (hc_rbins c) in let nv := Z.of_nat (hc_vbins c) in
  phase_header c = Some (lit "# Column contents: ID(0) Snapshot(1) R [cMpc/h](2-" ++ itoa (nv + 1) ++ lit ") V [pkm/s](" ++ itoa (nv + 2) ++ lit "-" ++ itoa (nv + nr + 1) ++
    lit ") Rho [h^2 Msun/cMpc^3/(pkm/s), V major](" ++ itoa (nv + nr + 2) ++ lit "-" ++ itoa (nv + nr + nr * nv + 1) ++ lit ")").
Proof.
  intros c Hr Hv nr nv. unfold phase_header, CatalogModel.CommentString, phase_sizes, phase_names. fold nr nv.
  assert (1 < nr)%Z by (unfold nr; lia). assert (1 < nv)%Z by (unfold nv; lia). clearbody nr nv. clear c Hr Hv.
  change (CatalogModel.orderNames _ _ _) with (Some [(lit "ID", 1); (lit "Snapshot", 1); (lit "R [cMpc/h]", nv); (lit "V [pkm/s]", nr); (lit "Rho [h^2 Msun/cMpc^3/(pkm/s), V major]", nr * nv)]%Z).
  cbn [option_map].
  f_equal. cbn [CatalogModel.labelCols Z.eqb]. change ((1 =? 1)%Z) with true. cbv iota.
  destruct (Z.eqb_spec nv 1) as [?|_]; [lia|]. destruct (Z.eqb_spec nr 1) as [?|_]; [lia|]. destruct (Z.eqb_spec (nr * nv) 1) as [?|_]; [nia|].
  replace (0 + 1 + 1 + nv - 1)%Z with (nv + 1)%Z by ring. replace (0 + 1 + 1 + nv)%Z with (nv + 2)%Z by ring. replace (nv + 2 + nr - 1)%Z with (nv + nr + 1)%Z by ring. replace (nv + 2 + nr)%Z with (nv + nr + 2)%Z by ring.
  replace (nv + nr + 2 + nr * nv - 1)%Z with (nv + nr + nr * nv + 1)%Z by ring.
  set (a := itoa (nv + 1)). set (b := itoa (nv + 2)). set (d := itoa (nv + nr + 1)). set (e := itoa (nv + nr + 2)). set (f := itoa (nv + nr + nr * nv + 1)). clearbody a b d e f.
  change (itoa 0) with (lit "0"). change (itoa (0 + 1)) with (lit "1"). change (itoa (0 + 1 + 1)) with (lit "2").
  cbn [join lit]. repeat rewrite <- app_assoc. cbn [app]. repeat rewrite <- app_assoc. cbn [app]. reflexivity.
Qed.
Print Assumptions C127_header_refuted.

(** Two radial and three velocity bins: the third column headed R holds the first velocity. *)
Example C127_nonvacuous :
  phase_header (mkPhaseConf 2 3 1 1 true false) = Some (lit "# Column contents: ID(0) Snapshot(1) R [cMpc/h](2-4) V [pkm/s](5-6) Rho [h^2 Msun/cMpc^3/(pkm/s), V major](7-12)") /\
  exists cols, phase_columns [([1; 2], [10; 20; 30], [0; 0; 0; 0; 0; 0])] = Some cols /\ nth 0 (nth (4 - 2) cols []) 0 = 10.
Proof.
  split; [vm_compute; reflexivity|].
  destruct (C127_layout (mkPhaseConf 2 3 1 1 true false) [([1; 2], [10; 20; 30], [0; 0; 0; 0; 0; 0])]) as (cols & E & _ & H); [discriminate| |].
  - intros rs vs out [[= <- <- <-]|[]]. repeat split.
  - exists cols. split; [exact E|]. destruct (H 0%nat _ _ _ eq_refl 2%nat) as (_ & H2 & _). apply H2. cbn. lia.
Qed.
