(** * Properties C85-C87: prof mode. Floats are reals (RealBase.v). *)
From Coq Require Import Reals Lra Lia ZArith List Bool Permutation.
From Verif Require Import ProfModel ProfSpec LosSpec LoopFacts InterpProofs RockstarProofs KdeProofs4 CmdProofs SortProofs SortProofs2 ProfProofs ProfProofs2.
From Verif Require Props_Sort.
Import List ListNotations.
Local Open Scope R_scope.

(** ** C85: density profiles *)

(** A file's particles are added to the bins of a halo's profile: bin j gains the mass of exactly those particles of the open annulus
    (R RMinMult, R RMaxMult) whose distance to the centre is in bin j and that the kind of profile counts (all of them, those inside the shell, those
    that are bound). Nothing panics. All particles are within half the box of the centre (beyond it C66_wrap_refuted applies). *)
Theorem C85_insert_points : forall c s L shell xs vs ms rhos,
  (0 < pc_bins c)%nat -> 0 < pc_rMin c < pc_rMax c -> 0 < e_R s ->
  length rhos = pc_bins c -> (length xs <= length ms)%nat -> (pc_type c = BoundDensity -> (length xs <= length vs)%nat) ->
  Forall (in_half_box L (e_c s)) xs ->
  exists rhos', insert_points c s L shell xs vs ms rhos = Some rhos' /\ length rhos' = pc_bins c /\
    forall j, (j < pc_bins c)%nat -> exists gain, nth j rhos' 0 = nth j rhos 0 + gain /\
      mass_of (length xs) ms (fun i => counted c s shell (nth i xs (0, 0, 0)) (nth i vs (0, 0, 0)) /\
        in_bin (e_c s) (pc_bins c) (e_R s * pc_rMin c) (e_R s * pc_rMax c) j (nth i xs (0, 0, 0))) gain.
Proof.
  intros c s L shell xs vs ms rhos Hb Hm HR HL Hms Hvs Hx. unfold insert_points.
  destruct (accumulate (length xs) (pc_bins c) (fun i => act_of c s L shell (nth i xs (0, 0, 0)) (nth i vs (0, 0, 0))) (fun i => nth i ms 0)
    (fun i rhos => do x <- rd xs i; do m <- rd ms i; do v <- (match pc_type c with BoundDensity => rd vs i | _ => Some (0, 0, 0) end); insert_point c s L shell x v m rhos) rhos) as (rhos' & E & HL' & HN).
  - intros i rh Hi Hrh. rewrite (rd_nth xs i (0, 0, 0)) by exact Hi. rewrite (rd_nth ms i 0) by lia.
    destruct (pc_type c) eqn:Et; rewrite <- ?(insert_point_act c s L shell Hb Hm HR) by exact Hrh.
    + unfold insert_point. rewrite Et. reflexivity.
    + unfold insert_point. rewrite Et. reflexivity.
    + unfold insert_point. rewrite Et. reflexivity.
    + rewrite (rd_nth vs i (0, 0, 0)) by (specialize (Hvs eq_refl); lia). reflexivity.
  - intros i j _. apply act_bins; assumption.
  - exact HL.
  - exists rhos'. split; [exact E|]. split; [exact HL'|]. intros j Hj. eexists. split; [apply HN|].
    apply mass_of_filter. intros i Hi. rewrite Forall_forall in Hx. assert (Hh : in_half_box L (e_c s) (nth i xs (0, 0, 0))) by (apply Hx; apply nth_In; exact Hi).
    rewrite <- (act_spec c s L shell Hb Hm HR _ (nth i vs (0, 0, 0)) j Hh). unfold to_bin. destruct (act_of _ _ _ _ _ _) as [k|]; [|split; [discriminate|intros; discriminate]].
    rewrite Nat.eqb_eq. split; [intros ->; reflexivity|intros [= ->]; reflexivity].
Qed.
Print Assumptions C85_insert_points.

(** The bins partition the half-open annulus [rMin, rMax): their edges ascend from rMin to rMax. *)
Theorem C85_bins : forall n rMin rMax, (0 < n)%nat -> 0 < rMin < rMax ->
  edge n rMin rMax 0 = rMin /\ edge n rMin rMax n = rMax /\ (forall i j, (i < j)%nat -> edge n rMin rMax i < edge n rMin rMax j) /\
  (forall o x, rMin < sqrt (dist2_3 x o) < rMax -> exists! j, (j < n)%nat /\ in_bin o n rMin rMax j x) /\
  forall j, edge n rMin rMax (S j) / edge n rMin rMax j = exp (ln (rMax / rMin) / INR n).
Proof.
  intros n rMin rMax Hn Hr. split; [now apply edge_0|]. split; [now apply edge_n|]. split; [intros; now apply edge_lt|]. split.
  - intros o x Hx. destruct (bin_exists n rMin rMax Hn Hr _ Hx) as (j & Hj & Ej). exists j. split.
    + split; [exact Hj|]. split; [exact Hx|]. apply (trunc_bin n rMin rMax Hn Hr (sqrt (dist2_3 x o)) j ltac:(lra)). exact Ej.
    + intros j' (_ & _ & Hi). apply (trunc_bin n rMin rMax Hn Hr (sqrt (dist2_3 x o)) j' ltac:(lra)) in Hi. lia.
  - intros j. rewrite !(edge_exp n rMin rMax Hn Hr), (L_div rMin rMax Hr), S_INR. unfold Rdiv. rewrite <- exp_Ropp, <- exp_plus. f_equal. ring.
Qed.
Print Assumptions C85_bins.

(** Finishing: radius j is the geometric mean of the edges of bin j and density j the mass divided by the volume of the shell between them. *)
Theorem C85_densities : forall n rhos rMin rMax, (0 < n)%nat -> 0 < rMin < rMax -> length rhos = n ->
  exists rs out, process_profile n rhos rMin rMax = Some (rs, out) /\ length rs = n /\ length out = n /\
    forall j, (j < n)%nat -> nth j rs 0 = sqrt (edge n rMin rMax j * edge n rMin rMax (S j)) /\
      nth j out 0 * shell_volume (edge n rMin rMax j) (edge n rMin rMax (S j)) = nth j rhos 0.
Proof.
  intros n rhos rMin rMax Hn Hr HL. unfold process_profile.
  rewrite (mapo_map _ (fun j => nth j rhos 0 / bin_volume n rMin rMax j)) by (intros j Hj; apply in_seq in Hj; rewrite (rd_nth rhos j 0) by lia; reflexivity).
  eexists _, _. split; [reflexivity|]. rewrite !map_length, !seq_length. split; [reflexivity|]. split; [reflexivity|]. intros j Hj.
  rewrite (nth_indep _ 0 (bin_centre n rMin rMax 0)) by (rewrite map_length, seq_length; exact Hj). rewrite map_nth, seq_nth by exact Hj.
  rewrite (nth_indep _ 0 (nth 0 rhos 0 / bin_volume n rMin rMax 0)) by (rewrite map_length, seq_length; exact Hj).
  rewrite (map_nth (fun j => nth j rhos 0 / bin_volume n rMin rMax j)), seq_nth by exact Hj. cbn [Nat.add].
  split; [apply bin_centre_spec; assumption|]. rewrite bin_volume_spec by assumption.
  assert (0 < shell_volume (edge n rMin rMax j) (edge n rMin rMax (S j))); [|field; lra]. apply shell_volume_pos. split; [now apply edge_pos|apply edge_lt; auto].
Qed.
Print Assumptions C85_densities.

(** The edges are not particles' bins: a particle at distance exactly R RMinMult is left out, although it is in the half-open bin 0. *)
Theorem C85_inner_edge : forall c s L shell x v m rhos, (0 < pc_bins c)%nat -> 0 < pc_rMin c < pc_rMax c -> 0 < e_R s ->
  in_half_box L (e_c s) x -> length rhos = pc_bins c -> sqrt (dist2_3 x (e_c s)) <= e_R s * pc_rMin c \/ e_R s * pc_rMax c <= sqrt (dist2_3 x (e_c s)) ->
  insert_point c s L shell x v m rhos = Some rhos.
Proof.
  intros c s L shell x v m rhos Hb Hm HR Hh HL Ho. rewrite (insert_point_act c s L shell Hb Hm HR) by exact HL. destruct (act_of _ _ _ _ _ _) as [j|] eqn:E; [|reflexivity].
  apply (act_spec c s L shell Hb Hm HR) in E; [|exact Hh]. destruct E as (_ & Hi & _). lra.
Qed.
Print Assumptions C85_inner_edge.

(** Across the boundary of the box: a particle 2 from the centre of a halo with RMinMult R = 1 and RMaxMult R = 4 is not counted. *)
Theorem C85_boundary_refuted :
  let c := mkProfConf Density 3 2 (1 / 2) 3 50 100 in let s := mkESphere (99, 50, 50) 2 1 1 (0, 0, 0) in
  LosSpec.near 100 (99, 50, 50) (1, 50, 50) (101, 50, 50) /\ sqrt (dist2_3 (101, 50, 50) (99, 50, 50)) = 2 /\
  insert_points c s 100 (fun _ _ _ => true) [(1, 50, 50)] [] [7] [0; 0; 0] = Some [0; 0; 0].
Proof.
  cbv zeta. split; [|split].
  - unfold LosSpec.near, nearest_image. split; [split; [lra|exists 1%Z; lra]|]. split; (split; [lra|exists 0%Z; lra]).
  - unfold dist2_3. replace ((101 - 99) * (101 - 99) + (50 - 50) * (50 - 50) + (50 - 50) * (50 - 50)) with (2 * 2) by ring. apply sqrt_square. lra.
  - unfold insert_points. cbn [length loop rd nth_error pc_type]. unfold insert_point, displacement. cbn [e_c e_R pc_rMin pc_rMax pc_type]. cbv zeta.
    unfold wrap. rewrite (proj2 (Rltb_false (100 / 2) (1 - 99))) by lra. rewrite (proj2 (Rltb_true (1 - 99) (- (100 / 2)))) by lra.
    rewrite (proj2 (Rltb_false (100 / 2) (50 - 50))) by lra. rewrite (proj2 (Rltb_false (50 - 50) (- (100 / 2)))) by lra.
    match goal with |- context [Rleb ?a ?b || Rleb ?d ?e] => rewrite (proj2 (Rleb_true d e)) by lra end. rewrite orb_true_r. reflexivity.
Qed.
Print Assumptions C85_boundary_refuted.

Example C85_nonvacuous :
  let c := mkProfConf Density 3 2 (1 / 2) 3 50 100 in let s := mkESphere (50, 50, 50) 2 1 1 (0, 0, 0) in
  (0 < pc_bins c)%nat /\ 0 < pc_rMin c < pc_rMax c /\ 0 < e_R s /\ Forall (in_half_box 100 (e_c s)) [(52, 50, 50); (50, 49, 50)] /\
  in_bin (50, 50, 50) 3 (2 * (1 / 2)) (2 * 2) 1 (52, 50, 50).
Proof.
  cbv zeta. cbn [pc_bins pc_rMin pc_rMax e_R e_c]. split; [lia|]. split; [lra|]. split; [lra|]. split.
  - assert (H : forall x, In x [(52, 50, 50); (50, 49, 50)] -> in_half_box 100 (50, 50, 50) x); [|apply Forall_forall; exact H].
    intros x [<-|[<-|[]]]; unfold in_half_box; repeat split; apply Rabs_le; lra.
  - assert (E : sqrt (dist2_3 (52, 50, 50) (50, 50, 50)) = 2) by (unfold dist2_3; replace ((52 - 50) * (52 - 50) + (50 - 50) * (50 - 50) + (50 - 50) * (50 - 50)) with (2 * 2) by ring; apply sqrt_square; lra).
    unfold in_bin. rewrite E. split; [lra|]. unfold edge. replace (2 * 2 / (2 * (1 / 2))) with (2 * 2) by field. rewrite ln_mult by lra. cbn [INR].
    assert (H2 : 0 < ln 2) by (rewrite <- ln_1; apply ln_increasing; lra).
    replace (2 * (1 / 2)) with 1 by field. rewrite !Rmult_1_l. assert (E2 : 2 = exp (ln 2)) by (symmetry; apply exp_ln; lra). set (l2 := ln 2) in *. split; [left; apply Rlt_le_trans with (exp l2)|apply Rle_lt_trans with (exp l2)]; try lra; apply exp_increasing; lra.
Qed.

(** ** C86: median profiles *)
(** Entry (j, p) gains the mass of exactly the particles in radial bin j and equal-area pixel p (C84), times the number of pixels: an isotropic mass
    distribution of mass M in a bin gives M in every pixel. At level 1 no particle may be in the plane z = 0 of the halo (C84_equator_refuted). *)
Theorem C86_insert : forall c s L xs ms med,
  (0 < pc_bins c)%nat -> 0 < pc_rMin c < pc_rMax c -> 0 < e_R s -> (0 <= pc_level c)%Z ->
  length med = pc_bins c -> (forall j, (j < pc_bins c)%nat -> length (nth j med []) = Z.to_nat (SpherePixelNum (pc_level c))) -> (length xs <= length ms)%nat ->
  Forall (in_half_box L (e_c s)) xs ->
  (pc_level c = 1%Z -> Forall (fun x : vec3 => let '(_, _, z0) := e_c s in let '(_, _, z) := x in z <> z0) xs) ->
  exists med', insert_median_points c s L xs ms med = Some med' /\ length med' = pc_bins c /\
    (forall j, (j < pc_bins c)%nat -> length (nth j med' []) = Z.to_nat (SpherePixelNum (pc_level c))) /\
    forall j p, (j < pc_bins c)%nat -> (p < Z.to_nat (SpherePixelNum (pc_level c)))%nat ->
      exists gain, nth p (nth j med' []) 0 = nth p (nth j med []) 0 + gain * IZR (SpherePixelNum (pc_level c)) /\
      mass_of (length xs) ms (fun i => in_bin (e_c s) (pc_bins c) (e_R s * pc_rMin c) (e_R s * pc_rMax c) j (nth i xs (0, 0, 0)) /\
        has_pixel (pc_level c) (let '(a0, b0, c0) := e_c s in let '(a, b, d) := nth i xs (0, 0, 0) in (a - a0, b - b0, d - c0)) (Z.of_nat p)) gain.
Proof.
  intros c s L xs ms med Hb Hm HR Hl HK HP Hms Hx Heq. unfold insert_median_points.
  assert (Hh : forall i, (i < length xs)%nat -> in_half_box L (e_c s) (nth i xs (0, 0, 0))) by (intros i Hi; rewrite Forall_forall in Hx; apply Hx, nth_In, Hi).
  assert (Ho : forall i, (i < length xs)%nat -> off_equator c s L (nth i xs (0, 0, 0))).
  { intros i Hi E1. rewrite (displacement_id s L _ (Hh i Hi)). specialize (Heq E1). rewrite Forall_forall in Heq. specialize (Heq _ (nth_In xs (0, 0, 0) Hi)).
    destruct (e_c s) as ((a0, b0), c0), (nth i xs (0, 0, 0)) as ((a, b), d). cbn in Heq. lra. }
  set (N := IZR (SpherePixelNum (pc_level c))).
  match goal with |- exists med', loop ?n ?b _ = _ /\ _ => destruct (accumulate2 n (pc_bins c) (Z.to_nat (SpherePixelNum (pc_level c))) (fun i => act2_of c s L (nth i xs (0, 0, 0))) (fun i => nth i ms 0 * N) b med) as (med' & E & HL' & HP' & HN) end.
  - intros i md Hi Hmd HmP. rewrite (rd_nth xs i (0, 0, 0)) by exact Hi. unfold act2_of. pose proof (Ho i Hi) as Hoi. unfold off_equator in Hoi. destruct (displacement s L (nth i xs (0, 0, 0))) as ((dx, dy), dz). cbv zeta.
    pose proof (sq3_nonneg dx dy dz) as H0. set (r2 := dx * dx + dy * dy + dz * dz) in *. destruct (_ || _) eqn:Ea; [reflexivity|].
    apply (annulus_iff c s 0 (fun _ _ _ => true) Hm HR r2 H0) in Ea. destruct (radial_index_spec c s r2 0 Hb Hm HR Ea H0) as ((k & Hk & Ek) & _).
    assert (Hp : 0 < r2). { destruct (Rle_lt_dec r2 0) as [G|G]; [|exact G]. exfalso. rewrite (Rle_antisym _ _ G H0), sqrt_0 in Ea. nra. }
    destruct (direction_pixel_spec (pc_level c) dx dy dz 0 Hl Hp Hoi) as (D & _). rewrite Ek. destruct (Z.ltb_spec (Z.of_nat k) 0); [lia|]. destruct (Z.ltb_spec (direction_pixel (pc_level c) dx dy dz) 0); [lia|]. cbn [orb].
    rewrite (rd_nth ms i 0) by lia. fold N. destruct (rd md _); [|reflexivity]. destruct (rd _ _); reflexivity.
  - intros i j p Hi. apply act2_bins; auto.
  - exact HK.
  - exact HP.
  - exists med'. split; [exact E|]. split; [exact HL'|]. split; [exact HP'|]. intros j p Hj Hp.
    exists (total (map (fun i => nth i ms 0) (filter (to_cell (fun i => act2_of c s L (nth i xs (0, 0, 0))) j p) (seq 0 (length xs))))). split.
    + rewrite HN. f_equal. fold N. set (l := filter _ _). clearbody l. induction l as [|i l IH]; [unfold total; cbn [map fold_right]; lra|]. cbn [map]. unfold total in *. cbn [fold_right]. rewrite IH. ring.
    + apply mass_of_filter. intros i Hi. rewrite <- (act2_spec c s L Hb Hm HR Hl _ j p (Ho i Hi) (Hh i Hi)). unfold to_cell. destruct (act2_of _ _ _ _) as [(k & q)|]; [|split; discriminate].
      rewrite andb_true_iff, !Nat.eqb_eq. split; [intros (-> & ->); reflexivity|intros [= -> ->]; auto].
Qed.
Print Assumptions C86_insert.

(** Finishing: density j is the value of that rank (counted from the largest) among the pixels of bin j, divided by the volume of the bin. *)
Theorem C86_percentiles : forall n med rMin rMax num den P, (0 < n)%nat -> 0 < rMin < rMax -> length med = n -> (0 < P)%nat ->
  (forall j, (j < n)%nat -> length (nth j med []) = P) -> (0 <= num <= den)%Z -> (0 < den)%Z ->
  exists rs out, process_median_profile n med rMin rMax num den = Some (rs, out) /\ length rs = n /\ length out = n /\
    forall j, (j < n)%nat -> nth j rs 0 = sqrt (edge n rMin rMax j * edge n rMin rMax (S j)) /\
      exists below m above, nth j out 0 = m / shell_volume (edge n rMin rMax j) (edge n rMin rMax (S j)) /\
        Permutation (nth j med []) (below ++ m :: above) /\ Forall (fun d => d <= m) below /\ Forall (fun d => m <= d) above /\
        Z.of_nat (length above) = (Z.max 1 (num * Z.of_nat P / den) - 1)%Z.
Proof.
  intros n med rMin rMax num den P Hn Hr HL HP HPm Hp Hd. unfold process_median_profile.
  assert (Ho : SortProofs.total_preorder Rltb).
  { split; intros *; rewrite ?Rltb_true, ?Rltb_false; lra. }
  assert (Hex : forall j, In j (seq 0 n) -> exists b, (do med0 <- rd med j; do p <- SortModel.Percentile R Rltb med0 num den None; Some (fst p / bin_volume n rMin rMax j)) = Some b).
  { intros j Hj. apply in_seq in Hj. rewrite (rd_nth med j []) by lia.
    destruct (Props_Sort.C110_percentile_rank R Rltb (nth j med []) num den None Ho) as (m & scr & Em & _); [intros E; specialize (HPm j ltac:(lia)); rewrite E in HPm; cbn in HPm; lia|exact Hp|exact Hd|discriminate|].
    rewrite Em. eauto. }
  destruct (mapo_exists _ _ Hex) as (out & Eo). rewrite Eo. pose proof (mapo_length _ _ _ Eo) as Lo. rewrite seq_length in Lo.
  eexists _, _. split; [reflexivity|]. rewrite map_length, seq_length. split; [reflexivity|]. split; [exact Lo|]. intros j Hj.
  rewrite (nth_indep _ 0 (bin_centre n rMin rMax 0)) by (rewrite map_length, seq_length; exact Hj). rewrite map_nth, seq_nth by exact Hj. cbn [Nat.add]. split; [apply bin_centre_spec; assumption|].
  assert (Hne : nth_error out j = Some (nth j out 0)) by (apply nth_error_nth'; lia).
  destruct (mapo_nth _ _ _ _ _ Eo Hne) as (j' & Ej & Ef). assert (j' = j). { rewrite (nth_error_nth' _ 0%nat) in Ej by (rewrite seq_length; exact Hj). rewrite seq_nth in Ej by exact Hj. injection Ej as <-. reflexivity. } subst j'.
  rewrite (rd_nth med j []) in Ef by lia.
  destruct (Props_Sort.C110_percentile_rank R Rltb (nth j med []) num den None Ho) as (m & scr & Em & (lo & hi & PR & FL & FH & LH)); [intros E; specialize (HPm j Hj); rewrite E in HPm; cbn in HPm; lia|exact Hp|exact Hd|discriminate|].
  rewrite Em in Ef. cbn [fst] in Ef. injection Ef as Ef. exists lo, m, hi. rewrite <- Ef, bin_volume_spec by assumption. split; [reflexivity|]. split; [exact PR|].
  assert (Hle : forall a b, SortProofs.le Rltb a b -> a <= b) by (intros a b H; unfold SortProofs.le in H; rewrite Rltb_false in H; lra).
  split; [revert FL; apply Forall_impl; intros a Ha; now apply Hle|]. split; [revert FH; apply Forall_impl; intros a Ha; now apply Hle|]. rewrite LH, (HPm j Hj). reflexivity.
Qed.
Print Assumptions C86_percentiles.

Example C86_nonvacuous :
  let c := mkProfConf MedianDensity 3 2 (1 / 2) 1 50 100 in let s := mkESphere (50, 50, 50) 2 1 1 (0, 0, 0) in
  (0 < pc_bins c)%nat /\ 0 < pc_rMin c < pc_rMax c /\ 0 < e_R s /\ Forall (in_half_box 100 (e_c s)) [(50, 50, 52)] /\
  Forall (fun x : vec3 => let '(_, _, z0) := e_c s in let '(_, _, z) := x in z <> z0) [(50, 50, 52)] /\ has_pixel 1 (0, 0, 2) 1.
Proof.
  cbv zeta. cbn [pc_bins pc_rMin pc_rMax e_R e_c]. split; [lia|]. split; [lra|]. split; [lra|]. split.
  - constructor; [|constructor]. unfold in_half_box. repeat split; apply Rabs_le; lra.
  - split; [constructor; [lra|constructor]|]. pose proof PI_RGT_0 as Hpi. pose proof (direction_pixel_spec 1 0 0 2 (direction_pixel 1 0 0 2) ltac:(lia) ltac:(lra) ltac:(intros _; lra)) as (_ & H).
    unfold has_pixel. cbn [Z.eqb Pos.eqb]. exists 0, 0, true, 0%Z, 0%Z. split; [|split; [|split]].
    + unfold polar. split; [lra|]. split; [lra|]. exists 2. split; [lra|]. rewrite sin_0, cos_0. f_equal; [f_equal|]; ring.
    + unfold Props_Pixel.is_cell. split; [lia|]. unfold Props_Pixel.sectors. cbn. lia.
    + unfold Props_Pixel.in_sphere_cell, Props_Pixel.in_cell, Props_Pixel.inner, Props_Pixel.outer, Props_Pixel.sectors. rewrite cos_0, Rabs_R1, Rminus_diag_eq, sqrt_0 by reflexivity. cbn. lra.
    + reflexivity.
Qed.

(** ** C87: what prof prints *)
(** The cube of half-width r around c meets the box with origin o and widths w. *)
Definition cube_meets (c : vec3) (r : R) (o w : vec3) : Prop :=
  let '(cx, cy, cz) := c in let '(ox, oy, oz) := o in let '(wx, wy, wz) := w in
  (ox < cx + r /\ cx - r < ox + wx) /\ (oy < cy + r /\ cy - r < oy + wy) /\ (oz < cz + r /\ cz - r < oz + wz).

Lemma cube_meets_intersect c r o w tw : cube_meets c r o w -> sheet_intersect c r o w tw = true.
Proof.
  destruct c as ((cx, cy), cz), o as ((ox, oy), oz), w as ((wx, wy), wz). intros ((A1 & A2) & (B1 & B2) & (C1 & C2)). unfold sheet_intersect, in_range.
  rewrite (proj2 (Rltb_true _ _) A1), (proj2 (Rltb_true _ _) A2), (proj2 (Rltb_true _ _) B1), (proj2 (Rltb_true _ _) B2), (proj2 (Rltb_true _ _) C1), (proj2 (Rltb_true _ _) C2). reflexivity.
Qed.

Lemma prof_files_rows c spheres shells idxs files sets sets' : prof_files c spheres shells idxs files sets = Some (Some sets') ->
  sets' = sets /\ forall f vs, In (f, vs) files -> prof_intersections c spheres f = [].
Proof.
  induction files as [|(f0, vs0) files IH]; cbn [prof_files]; [intros [= <-]; split; [reflexivity|intros ? ? []]|].
  destruct (prof_intersections c spheres f0) as [|k ks] eqn:E.
  - intros H. destruct (IH H) as (A & B). split; [exact A|]. intros f vs [[= <- <-]|Hi]; [exact E|apply (B f vs Hi)].
  - destruct (prof_insert _ _ _ _ _ _ _ _); discriminate.
Qed.

Lemma prof_snapshots_rows c read ib spheres shells snaps sets sets' : prof_snapshots c read ib spheres shells snaps sets = Some (Some sets') ->
  sets' = sets /\ forall snap, In snap snaps -> snap <> (-1)%Z -> exists ss files, CmdModel.gather spheres (CmdModel.mget ib snap) = Some ss /\ read snap = Some files /\
    forall f vs, In (f, vs) files -> prof_intersections c ss f = [].
Proof.
  revert sets. induction snaps as [|s snaps IH]; intros sets; cbn [prof_snapshots]; [intros [= <-]; split; [reflexivity|intros ? []]|].
  destruct (Z.eqb_spec s (-1)) as [Es|Es].
  - intros H. destruct (IH _ H) as (A & B). split; [exact A|]. intros snap [<-|Hi] Hn; [contradiction|apply (B snap Hi Hn)].
  - destruct (CmdModel.gather spheres _) as [ss|] eqn:Eg; [|discriminate]. destruct (read s) as [files|] eqn:Er; [|discriminate].
    destruct (prof_files c ss shells _ files sets) as [[sets1|]|] eqn:Ef; [|discriminate|discriminate]. intros H. destruct (prof_files_rows _ _ _ _ _ _ _ Ef) as (-> & F).
    destruct (IH _ H) as (A & B). split; [exact A|]. intros snap [<-|Hi] Hn; [exists ss, files; auto|apply (B snap Hi Hn)].
Qed.

(** A run prints rows only if no file of any line's snapshot meets the line's halo, and then all densities are 0: prof never prints the profile of a
    halo. *)
Theorem C87_rows_refuted : forall c enum read ids snaps spheres shells rows, (forall l, Permutation (enum l) l) ->
  (0 < pc_den c)%Z -> length ids = length snaps -> length spheres = length snaps ->
  prof_run c enum read ids snaps spheres shells = Some (Rows rows) ->
  (forall row d, In row rows -> In d (snd row) -> d = 0) /\
  forall i, (i < length snaps)%nat -> nth i snaps 0%Z <> (-1)%Z -> forall files, read (nth i snaps 0%Z) = Some files -> forall f vs, In (f, vs) files ->
    forall s, nth_error spheres i = Some s -> ~ cube_meets (e_c s) (e_R s * pc_rMax c) (f_origin f) (f_width f).
Proof.
  intros c enum read ids snaps spheres shells rows Hen Hden Li Ls. unfold prof_run.
  destruct (binBySnap_ok snaps ids ltac:(lia)) as (sb & ib & -> & (Nsb & Ksb & _) & (_ & _ & Gib)).
  set (ks := CmdModel.sortInts (enum (CmdModel.mkeys sb))).
  assert (Pk : Permutation ks (CmdModel.mkeys sb)) by (unfold ks; rewrite sortInts_perm; apply Hen).
  destruct (rd snaps 0); [|discriminate].
  set (rhoSets := repeat (repeat 0 (pc_bins c)) (length ids)). set (medSets := repeat (repeat (repeat 0 _) _) _).
  destruct (prof_snapshots c read ib spheres shells ks (rhoSets, medSets)) as [[[rs ms]|]|] eqn:E; [|discriminate|discriminate].
  destruct (prof_snapshots_rows _ _ _ _ _ _ _ _ E) as (Es & H). injection Es as -> ->. destruct (mapo _ _) as [rows'|] eqn:Em; [|discriminate]. intros [= <-]. split.
  - intros row d Hrow Hd. apply In_nth_error in Hrow. destruct Hrow as (i & Hi). destruct (mapo_nth _ _ _ _ _ Em Hi) as (i' & Ei & Ef).
    destruct (rd spheres i') as [s|]; [|discriminate]. 
    assert (Hz : forall T (x : T) n k y, rd (repeat x n) k = Some y -> y = x) by (intros T x n k y Hy; apply nth_error_In, repeat_spec in Hy; exact Hy).
    assert (Hplain : forall rhos n rMin rMax, (do rhos <- rd rhoSets i'; process_profile n rhos rMin rMax) = Some row -> rhos = rhoSets -> d = 0).
    { intros rhos n rMin rMax Hp _. destruct (rd rhoSets i') as [rh|] eqn:Er; [|discriminate]. apply Hz in Er. subst rh. unfold process_profile in Hp. destruct (mapo _ (seq 0 n)) as [out|] eqn:Eo; [|discriminate]. injection Hp as <-. cbn [snd] in Hd.
      apply In_nth_error in Hd. destruct Hd as (k & Hk). destruct (mapo_nth _ _ _ _ _ Eo Hk) as (k' & _ & Ek). destruct (rd (repeat 0 (pc_bins c)) k') as [rho|] eqn:Ez; [|discriminate]. apply Hz in Ez. injection Ek as <-. rewrite Ez. unfold Rdiv. ring. }
    destruct (pc_type c); try (apply (Hplain _ _ _ _ Ef eq_refl)).
    destruct (rd medSets i') as [med|] eqn:Er; [|discriminate]. apply Hz in Er. subst med. unfold process_median_profile in Ef. destruct (mapo _ (seq 0 (pc_bins c))) as [out|] eqn:Eo; [|discriminate]. injection Ef as <-. cbn [snd] in Hd.
    apply In_nth_error in Hd. destruct Hd as (k & Hk). destruct (mapo_nth _ _ _ _ _ Eo Hk) as (k' & _ & Ek). destruct (rd _ k') as [med|] eqn:Ez; [|discriminate]. apply Hz in Ez. subst med.
    set (zs := repeat 0 (Z.to_nat (SpherePixelNum (pc_level c)))) in *. destruct (SortModel.Percentile R Rltb zs (pc_num c) (pc_den c) None) as [(m & scr)|] eqn:Ep; [|discriminate]. injection Ek as <-. cbn [fst].
    assert (m = 0); [|subst m; unfold Rdiv; ring].
    assert (Hm : In m zs); [|apply repeat_spec in Hm; exact Hm].
    assert (Hg : zs <> [] /\ (0 <= pc_num c <= pc_den c)%Z).
    { unfold SortModel.Percentile in Ep. clearbody zs. destruct zs as [|z1 zs1]; [discriminate|]. split; [discriminate|]. destruct (Z.ltb_spec (pc_den c) (pc_num c)); [discriminate|]. destruct (Z.ltb_spec (pc_num c) 0); [discriminate|]. lia. }
    assert (Ho : SortProofs.total_preorder Rltb) by (split; intros *; rewrite ?Rltb_true, ?Rltb_false; lra).
    destruct (Props_Sort.C110_percentile_rank R Rltb zs (pc_num c) (pc_den c) None Ho (proj1 Hg) (proj2 Hg) Hden ltac:(intros ? [=])) as (m' & scr' & Em' & (lo & hi & PR & _)).
    rewrite Ep in Em'. injection Em' as <- _. apply (Permutation_in _ (Permutation_sym PR)). apply in_elt.
  - intros i Hi Hn files Ef f vs Hf s Hs Hmeet. assert (Hin : In (nth i snaps 0%Z) ks) by (apply (Permutation_in _ (Permutation_sym Pk)), Ksb; eauto).
    destruct (H _ Hin Hn) as (ss & files' & Eg & Ef' & Hno). rewrite Ef in Ef'. injection Ef' as <-. specialize (Hno f vs Hf).
    rewrite Gib, map_id in Eg. assert (Hrow : In i (rows_of snaps (length snaps) (nth i snaps 0%Z))) by (apply in_rows_of; auto).
    rewrite (gather_spec s) in Eg by (intros k Hk; apply in_rows_of in Hk; lia). injection Eg as <-. apply In_nth_error in Hrow. destruct Hrow as (k & Ek).
    assert (Hin2 : In k (prof_intersections c (map (fun i => nth i spheres s) (rows_of snaps (length snaps) (nth i snaps 0%Z))) f)); [|rewrite Hno in Hin2; exact Hin2].
    unfold prof_intersections. apply filter_In. assert (Hk : (k < length (rows_of snaps (length snaps) (nth i snaps 0%Z)))%nat) by (apply nth_error_Some; congruence). split; [apply in_seq; rewrite map_length; lia|].
    rewrite (map_nth_error _ _ _ Ek). rewrite (nth_error_nth _ _ s Hs). apply cube_meets_intersect. exact Hmeet.
Qed.
Print Assumptions C87_rows_refuted.

(** In particular a run over a halo whose own position is in one of its snapshot's files prints nothing, if it does not fail. *)
Theorem C87_silent_refuted : forall c enum read ids snaps spheres shells res, (forall l, Permutation (enum l) l) ->
  (0 < pc_den c)%Z -> 0 < pc_rMax c -> length ids = length snaps -> length spheres = length snaps ->
  prof_run c enum read ids snaps spheres shells = Some res ->
  (exists i s files f vs, (i < length snaps)%nat /\ nth i snaps 0%Z <> (-1)%Z /\ nth_error spheres i = Some s /\ 0 < e_R s /\ read (nth i snaps 0%Z) = Some files /\ In (f, vs) files /\
     let '(cx, cy, cz) := e_c s in let '(ox, oy, oz) := f_origin f in let '(wx, wy, wz) := f_width f in ox <= cx <= ox + wx /\ oy <= cy <= oy + wy /\ oz <= cz <= oz + wz) ->
  res = NoOutput.
Proof.
  intros c enum read ids snaps spheres shells res Hen Hden HM Li Ls E (i & s & files & f & vs & Hi & Hn & Hs & HR & Er & Hf & Hin). destruct res as [|rows]; [reflexivity|]. exfalso.
  destruct (C87_rows_refuted c enum read ids snaps spheres shells rows Hen Hden Li Ls E) as (_ & H). apply (H i Hi Hn files Er f vs Hf s Hs).
  unfold cube_meets. assert (0 < e_R s * pc_rMax c) by (apply Rmult_lt_0_compat; assumption). destruct (e_c s) as ((cx, cy), cz), (f_origin f) as ((ox, oy), oz), (f_width f) as ((wx, wy), wz). lra.
Qed.
Print Assumptions C87_silent_refuted.

(** Such a run exists. *)
Example C87_nonvacuous :
  let c := mkProfConf Density 1 2 (1 / 2) 3 50 100 in
  prof_run c (fun l => l) (fun _ => Some [(mkPFile (0, 0, 0) (100, 100, 100) 100 1 [] [], [])]) [7%Z] [3%Z] [mkESphere (50, 50, 50) 2 1 1 (0, 0, 0)] [fun _ _ _ => true] = Some NoOutput.
Proof.
  cbv zeta. unfold prof_run.
  change (CmdModel.binBySnap [3%Z] [7%Z]) with (Some ([(3%Z, [7%Z])], [(3%Z, [0%nat])])). cbv beta iota. change (CmdModel.sortInts (CmdModel.mkeys [(3%Z, [7%Z])])) with [3%Z].
  cbn [rd nth_error prof_snapshots Z.eqb Pos.eqb]. change (CmdModel.mget [(3%Z, [0%nat])] 3) with [0%nat]. cbn [CmdModel.gather rd nth_error]. cbn [prof_files].
  unfold prof_intersections. cbn [length seq filter nth_error e_c e_R pc_rMax f_origin f_width f_tw].
  rewrite (cube_meets_intersect (50, 50, 50) (2 * 2) (0, 0, 0) (100, 100, 100) 100) by (unfold cube_meets; lra). reflexivity.
Qed.
