(** * C177, C184: which numbers the columns of stats mode hold, and particles beyond the edge of the box. *)
From Verif Require Import StatsRunModel StatsSpec CmdProofs LoopFacts ShellProofs ShellProofs2 LosProofs9 InterpProofs StatsProofs StatsProofs2 StatsProofs3 StatsProofs4 Props_Stats Props_Stats2.
From Coq Require Import Reals Lra Lia ZArith List Permutation Bool FunctionalExtensionality.
From Verif Require Import GoBase.
Import List ListNotations.
Local Open Scope R_scope.

(** The shell of order o with the coefficients cs as a function of the angles. *)
Definition pd_shell (o : nat) (cs : list R) : R -> R -> R := fun phi th => pd_radius o cs (direction (phi, th)).

(** The shape columns of a row: Volume is 4 pi / 3 times the mean cube of the radii of SamplePoints directions; R_sp comes from it; Surface Area, axes and range of radii are those of
    further directions of the same shell (Axes and SurfaceArea: C184, C185). They do not depend on the particles. *)
Theorem C184_columns : forall eigen ratios cf workers draw arrive enum read ids snaps lines rows i s c r cs o files, (0 < workers)%nat ->
  (forall snap fi j b, Permutation (arrive snap fi j b) (seq 0 workers)) -> (forall l, Permutation (enum l) l) ->
  length ids = length snaps -> length lines = length snaps -> stats_rows eigen ratios cf workers draw arrive enum read ids snaps lines = Ok rows ->
  nth_error snaps i = Some s -> s <> (-1)%Z -> nth_error lines i = Some (c, r, cs) -> read s = Some files -> good_shell o cs ->
  (forall f, In f files -> length (f_ms (fst f)) = length (f_xs (fst f)) /\ length (snd f) = length (f_xs (fst f))) ->
  exists row A0 A1 A2 A3, nth_error rows i = Some row /\ length A0 = ts_samples cf /\ length A1 = ts_samples cf /\ length A2 = ts_samples cf /\ length A3 = S (ts_samples cf) /\
    w_vol row = 4 * PI / 3 * (total (map (fun a => pd_radius o cs (direction a) ^ 3) A0) / INR (ts_samples cf)) /\
    w_rad row = Rpower (w_vol row / (4 * PI / 3)) (33333 / 100000) /\
    w_sa row = surface_area (pd_shell o cs) A1 /\
    shell_axes eigen ratios (pd_shell o cs) A2 = Some (w_a row, w_b row, w_c row, w_avec row) /\
    sampled_range o cs A3 (w_rmin row) (w_rmax row).
Proof.
  intros eigen ratios cf workers draw arrive enum read ids snaps lines rows i s c r cs o files Hw Ha He L1 L2 E Hi Ne Hln Hrd Gs Gf.
  destruct (stats_rows_at eigen ratios cf workers draw arrive Hw Ha enum read ids snaps lines rows He L1 L2 E) as [_ H]. destruct (H i s Hi) as [_ H'].
  destruct (H' Ne) as (idxs & ls & j & shape & f0 & fs & row & Hl & Hj & Er & Erow & K). clear H H'.
  destruct (K _ Hln) as (Hlj & Esh & Esk & K'). clear K. rewrite Hrd in Er. injection Er as ->. destruct Gs as (Ho & Lc & Hp). destruct (shell_of_ok cs o Ho Lc) as (sh & Esf & Hsh).
  assert (Esp : sh = pd_shell o cs) by (apply functional_extensionality; intros phi; apply functional_extensionality; intros th; apply Hsh).
  assert (SS : same_shape shape row).
  { destruct (ts_skipMass cf) eqn:Sk; [rewrite (Esk eq_refl); apply same_shape_refl|]. destruct (K' eq_refl c r cs sh eq_refl Esf) as (A & _); [|exact A].
    intros f Hf. destruct (Gf f Hf) as [A B]. split; auto. }
  clear Esk K'. unfold row_shape in Esh. cbn [snd] in Esh. rewrite Esf in Esh.
  destruct (shell_axes eigen ratios sh (angles cf draw s j 2)) as [[[[a b] d] av]|] eqn:Eax; [|discriminate].
  pose proof (radial_range_sampled o cs sh (draw s j 3%nat 0%nat) (map (draw s j 3%nat) (seq 1 (ts_samples cf))) Hsh) as Rg.
  unfold range_sp in Esh. destruct (radial_range sh (draw s j 3%nat 0%nat) (map (draw s j 3%nat) (seq 1 (ts_samples cf)))) as [rmin rmax] eqn:Err. cbn [fst snd] in Rg. injection Esh as <-.
  destruct SS as (S1 & S2 & S3 & S4 & S5 & S6 & S7 & S8 & S9). cbn [w_rad w_vol w_sa w_a w_b w_c w_avec w_rmin w_rmax] in *.
  exists row, (angles cf draw s j 0), (angles cf draw s j 1), (angles cf draw s j 2), (map (draw s j 3%nat) (seq 0 (S (ts_samples cf)))).
  split; [exact Erow|]. unfold angles at 1 2 3. rewrite !map_length, !seq_length. do 4 (split; [reflexivity|]).
  split; [|split; [|split; [|split]]].
  - rewrite <- S2. unfold volume. rewrite (fold_sum (fun a => sh (fst a) (snd a) * sh (fst a) (snd a) * sh (fst a) (snd a))).
    unfold angles at 2. rewrite map_length, seq_length. rewrite Rplus_0_l.
    replace (map (fun a => sh (fst a) (snd a) * sh (fst a) (snd a) * sh (fst a) (snd a)) (angles cf draw s j 0)) with (map (fun a => pd_radius o cs (direction a) ^ 3) (angles cf draw s j 0)).
    + change (List.length (seq 0 (ts_samples cf))) with (length (seq 0 (ts_samples cf))). unfold Rdiv. ring.
    + apply map_ext. intros [phi th]. cbn [fst snd]. rewrite Hsh. ring.
  - rewrite <- S1, <- S2. unfold volume_radius. f_equal. f_equal. field.
  - rewrite <- S3, Esp. reflexivity.
  - rewrite <- Esp, Eax, S4, S5, S6, S7. reflexivity.
  - rewrite <- S8, <- S9. exact Rg.
Qed.
Print Assumptions C184_columns.

(** A particle on the other side of the box, e from the centre through the side, is counted at L / 2 - e from it, along any of the axes. *)
Theorem C177_edge_refuted : forall L e cx cy cz, 0 < e < L / 2 ->
  displacement (cx + (L - e), cy, cz) (cx, cy, cz) L = (L / 2 - e, 0, 0) /\ displacement (cx, cy + (L - e), cz) (cx, cy, cz) L = (0, L / 2 - e, 0) /\
  displacement (cx, cy, cz + (L - e)) (cx, cy, cz) L = (0, 0, L / 2 - e) /\
  displacement (cx - (L - e), cy, cz) (cx, cy, cz) L = (- (L / 2 - e), 0, 0) /\ displacement (cx, cy - (L - e), cz) (cx, cy, cz) L = (0, - (L / 2 - e), 0) /\
  displacement (cx, cy, cz - (L - e)) (cx, cy, cz) L = (0, 0, - (L / 2 - e)).
Proof.
  intros L e cx cy cz He.
  assert (W0 : forall u, wrap (u - u) (L / 2) = 0).
  { intros u. unfold wrap. destruct (Rltb_spec (L / 2) (u - u)); [lra|]. destruct (Rltb_spec (u - u) (- (L / 2))); lra. }
  assert (W1 : forall u, wrap (u + (L - e) - u) (L / 2) = L / 2 - e).
  { intros u. unfold wrap. destruct (Rltb_spec (L / 2) (u + (L - e) - u)); lra. }
  assert (W2 : forall u, wrap (u - (L - e) - u) (L / 2) = - (L / 2 - e)).
  { intros u. unfold wrap. destruct (Rltb_spec (L / 2) (u - (L - e) - u)); [lra|]. destruct (Rltb_spec (u - (L - e) - u) (- (L / 2))); lra. }
  unfold displacement. rewrite !W0, !W1, !W2. repeat split; reflexivity.
Qed.
Print Assumptions C177_edge_refuted.

(** The row of the example of C177 (one halo, a shell of constant radius). *)
Example C184_columns_nonvacuous : good_shell 1 [2; 0] /\ (forall f, In f [ex_file] -> length (f_ms (fst f)) = length (f_xs (fst f)) /\ length (snd f) = length (f_xs (fst f))) /\
  exists rows, stats_rows ex_eigen ex_ratios ex_conf 2 ex_draw ex_arrive (fun l => l) ex_read [1%Z] [4%Z] [ex_line 3] = Ok rows /\ length rows = 1%nat.
Proof.
  split; [exact ex_shell|]. split; [intros f [<-|[]]; split; reflexivity|].
  destruct C177_nonvacuous as (rows & row & E & Hr & _). exists rows. split; [exact E|].
  destruct (stats_rows_at ex_eigen ex_ratios ex_conf 2 ex_draw ex_arrive ltac:(lia) ex_arrive_ok (fun l => l) ex_read [1%Z] [4%Z] [ex_line 3] rows (fun l => Permutation_refl l) eq_refl eq_refl E) as [L _]. exact L.
Qed.

(** The surface element of a shell that is flat around a direction: if the five radii around the direction are those of the plane of the points x with n . x = dist,
    the area per solid angle is exactly r^2 / cos(angle between the radius and the normal). *)
Lemma cross_flat ax ay az bx by' bz nx ny nz : ax * nx + ay * ny + az * nz = 0 -> bx * nx + by' * ny + bz * nz = 0 ->
  let cx := ay * bz - az * by' in let cy := az * bx - ax * bz in let cz := ax * by' - ay * bx in let k := cx * nx + cy * ny + cz * nz in
  (nx * nx + ny * ny + nz * nz) * cx = k * nx /\ (nx * nx + ny * ny + nz * nz) * cy = k * ny /\ (nx * nx + ny * ny + nz * nz) * cz = k * nz.
Proof.
  intros A B. cbv zeta. set (u := ax * nx + ay * ny + az * nz) in *. set (v := bx * nx + by' * ny + bz * nz) in *. repeat split.
  - transitivity (((ay * bz - az * by') * nx + (az * bx - ax * bz) * ny + (ax * by' - ay * bx) * nz) * nx + (u * (bz * ny - by' * nz) - v * (az * ny - ay * nz))); [unfold u, v; ring|rewrite A, B; ring].
  - transitivity (((ay * bz - az * by') * nx + (az * bx - ax * bz) * ny + (ax * by' - ay * bx) * nz) * ny + (u * (bx * nz - bz * nx) - v * (ax * nz - az * nx))); [unfold u, v; ring|rewrite A, B; ring].
  - transitivity (((ay * bz - az * by') * nx + (az * bx - ax * bz) * ny + (ax * by' - ay * bx) * nz) * nz + (u * (by' * nx - bx * ny) - v * (ay * nx - ax * ny))); [unfold u, v; ring|rewrite A, B; ring].
Qed.
Theorem C184_plane : forall (s : Shell) phi theta n dist, 0 < dist -> 1 / 1000 < theta < PI - 1 / 1000 ->
  (forall p q, (p = phi - 1 / 1000 \/ p = phi \/ p = phi + 1 / 1000) -> (q = theta - 1 / 1000 \/ q = theta \/ q = theta + 1 / 1000) ->
     0 < dot3 n (direction (p, q)) /\ dot3 n (scale3 (s p q) (direction (p, q))) = dist) ->
  area_element s (phi, theta) = s phi theta * s phi theta / (dot3 n (direction (phi, theta)) / norm3 n).
Proof.
  intros s phi theta [[nx ny] nz] dist Hd Ht H. set (d := 1 / 1000) in *. assert (Dd : 0 < d < 1 / 100) by (unfold d; lra).
  unfold area_element. cbn [fst snd]. f_equal. f_equal. unfold cos_norm. cbv zeta. fold d. unfold cartesian.
  assert (P : forall p q, (p = phi - d \/ p = phi \/ p = phi + d) -> (q = theta - d \/ q = theta \/ q = theta + d) -> 0 < s p q /\
     s p q * sin q * cos p * nx + s p q * sin q * sin p * ny + s p q * cos q * nz = dist).
  { intros p q Hp Hq. destruct (H p q Hp Hq) as (A & B). unfold dot3, scale3, direction in A, B. cbn [fst snd] in A, B.
    set (g := nx * (sin q * cos p) + ny * (sin q * sin p) + nz * cos q) in *.
    assert (E : s p q * g = dist) by (unfold g; lra). split; [nra|]. rewrite <- E. unfold g. ring. }
  destruct (P (phi - d) (theta - d)) as (R0 & E0); auto. destruct (P (phi - d) (theta + d)) as (R1 & E1); auto. destruct (P (phi + d) (theta - d)) as (R2 & E2); auto. destruct (P (phi + d) (theta + d)) as (R3 & E3); auto. clear P.
  set (r0 := s (phi - d) (theta - d)) in *. set (r1 := s (phi - d) (theta + d)) in *. set (r2 := s (phi + d) (theta - d)) in *. set (r3 := s (phi + d) (theta + d)) in *. clearbody r0 r1 r2 r3.
  assert (Sm : 0 < sin (theta - d)) by (apply sin_gt_0; lra). assert (Sp : 0 < sin (theta + d)) by (apply sin_gt_0; lra).
  assert (S2 : 0 < sin (2 * d)) by (apply sin_gt_0; pose proof PI2_3_2; lra).
  assert (T1 : sin (theta + d) * cos (theta - d) - cos (theta + d) * sin (theta - d) = sin (2 * d)) by (rewrite <- sin_minus; f_equal; ring).
  assert (T2 : sin (phi + d) * cos (phi - d) - cos (phi + d) * sin (phi - d) = sin (2 * d)) by (rewrite <- sin_minus; f_equal; ring).
  set (sm := sin (theta - d)) in *. set (sp := sin (theta + d)) in *. set (cm := cos (theta - d)) in *. set (cp := cos (theta + d)) in *.
  set (um := sin (phi - d)) in *. set (up := sin (phi + d)) in *. set (vm := cos (phi - d)) in *. set (vp := cos (phi + d)) in *. set (w := sin (2 * d)) in *.
  assert (Q1 : um * um + vm * vm = 1) by (pose proof (sin2_cos2 (phi - d)) as Q; unfold Rsqr in Q; exact Q). assert (Q2 : up * up + vp * vp = 1) by (pose proof (sin2_cos2 (phi + d)) as Q; unfold Rsqr in Q; exact Q).
  clearbody sm sp cm cp um up vm vp w.
  set (ax := r0 * sm * vm - r3 * sp * vp). set (ay := r0 * sm * um - r3 * sp * up). set (az := r0 * cm - r3 * cp).
  set (bx := r1 * sp * vm - r2 * sm * vp). set (by' := r1 * sp * um - r2 * sm * up). set (bz := r1 * cp - r2 * cm).
  assert (Fa : ax * nx + ay * ny + az * nz = 0) by (unfold ax, ay, az; lra). assert (Fb : bx * nx + by' * ny + bz * nz = 0) by (unfold bx, by', bz; lra).
  destruct (cross_flat _ _ _ _ _ _ _ _ _ Fa Fb) as (C1 & C2 & C3). cbv zeta in C1, C2, C3.
  set (cx := ay * bz - az * by') in *. set (cy := az * bx - ax * bz) in *. set (cz := ax * by' - ay * bx) in *. set (k := cx * nx + cy * ny + cz * nz) in *.
  set (N2 := nx * nx + ny * ny + nz * nz) in *.
  (* the orientation *)
  assert (V : r0 * sm * vm * cx + r0 * sm * um * cy + r0 * cm * cz = r0 * r1 * r3 * (sp * w * w) + r0 * r2 * r3 * (sm * w * w)).
  { transitivity (r0 * r1 * r3 * (sp * (up * vm - vp * um) * (sp * cm - cp * sm)) + r0 * r2 * r3 * (sm * (up * vm - vp * um) * (sp * cm - cp * sm))); [|rewrite T1, T2; ring].
    unfold cx, cy, cz, ax, ay, az, bx, by', bz. ring. }
  assert (Vp : 0 < r0 * r1 * r3 * (sp * w * w) + r0 * r2 * r3 * (sm * w * w)) by (apply Rplus_lt_0_compat; repeat apply Rmult_lt_0_compat; assumption).
  assert (K : k * dist = N2 * (r0 * r1 * r3 * (sp * w * w) + r0 * r2 * r3 * (sm * w * w))).
  { rewrite <- V, <- E0. transitivity (r0 * sm * vm * (k * nx) + r0 * sm * um * (k * ny) + r0 * cm * (k * nz)); [ring|]. rewrite <- C1, <- C2, <- C3. ring. }
  assert (N2p : 0 < N2).
  { unfold N2. destruct (Req_EM_T nx 0) as [Zx|Zx]; [|nra]. destruct (Req_EM_T ny 0) as [Zy|Zy]; [|nra]. destruct (Req_EM_T nz 0) as [Zz|Zz]; [|nra]. subst. lra. }
  assert (Kp : 0 < k). { assert (0 < k * dist) by (rewrite K; apply Rmult_lt_0_compat; assumption). nra. }
  clear V Vp K. clearbody cx cy cz k.
  assert (Ex : cx = k / N2 * nx) by (apply Rmult_eq_reg_l with N2; [rewrite C1; field; lra|lra]). assert (Ey : cy = k / N2 * ny) by (apply Rmult_eq_reg_l with N2; [rewrite C2; field; lra|lra]). assert (Ez : cz = k / N2 * nz) by (apply Rmult_eq_reg_l with N2; [rewrite C3; field; lra|lra]).
  assert (Kn : 0 < k / N2) by (apply Rdiv_lt_0_compat; assumption). rewrite Ex, Ey, Ez.
  replace (k / N2 * nx * (k / N2 * nx) + k / N2 * ny * (k / N2 * ny) + k / N2 * nz * (k / N2 * nz)) with ((k / N2) * (k / N2) * N2) by (unfold N2; ring).
  rewrite sqrt_mult by nra. rewrite sqrt_square by lra. unfold norm3, dot3, direction. cbn [fst snd]. fold N2. assert (0 < sqrt N2) by (apply sqrt_lt_R0; exact N2p).
  set (q := k / N2) in *. clearbody q. field. split; lra.
Qed.
Print Assumptions C184_plane.
(** The plane at distance 1 above the centre meets the hypotheses around every direction within a radian of the axis. *)
Example C184_plane_nonvacuous : forall phi theta, 1 / 1000 < theta < 1 -> area_element (fun _ q => 1 / cos q) (phi, theta) = 1 / cos theta * (1 / cos theta) / cos theta.
Proof.
  intros phi theta Ht. assert (P3 : 3 < PI) by (pose proof PI2_3_2; lra).
  rewrite (C184_plane (fun _ q => 1 / cos q) phi theta (0, 0, 1) 1); [|lra|lra|].
  - unfold dot3, direction, norm3. cbn [fst snd dot3]. replace (0 * (sin theta * cos phi) + 0 * (sin theta * sin phi) + 1 * cos theta) with (cos theta) by ring. replace (0 * 0 + 0 * 0 + 1 * 1) with 1 by ring. rewrite sqrt_1. unfold Rdiv. rewrite Rinv_1, !Rmult_1_r. reflexivity.
  - intros p q _ Hq. assert (0 < cos q) by (apply cos_gt_0; lra). unfold dot3, direction, scale3. cbn [fst snd]. split; [lra|field; lra].
Qed.

(** The options of the configuration: with SkipMass, or without ShellFilter, no file is written; with ShellFilter and without SkipMass one is. *)
Theorem C182_options : forall c eigen ratios workers draw arrive sys flag enum read ids snaps lines rows,
  stats_rows eigen ratios (used_conf c) workers draw arrive enum read ids snaps lines = Ok rows -> length ids = length snaps -> length lines = length snaps ->
  (0 < workers)%nat -> (forall snap fi j b, Permutation (arrive snap fi j b) (seq 0 workers)) -> (forall l, Permutation (enum l) l) ->
  (ModeConfModel.sc_skip c = true -> (forall row, In row rows -> w_mass row = 0) /\ snd (stats_output eigen ratios (used_conf c) workers draw arrive true sys flag enum read ids snaps lines) = None) /\
  (ModeConfModel.sc_filter c = false -> snd (stats_output eigen ratios (used_conf c) workers draw arrive true sys flag enum read ids snaps lines) = None) /\
  (ModeConfModel.sc_skip c = false -> ModeConfModel.sc_filter c = true ->
     stats_output eigen ratios (used_conf c) workers draw arrive true sys flag enum read ids snaps lines =
       let w := write_shell_particles true sys flag snaps ids (map w_ids rows) in (match fst w with Panic => Panic | _ => Ok rows end, snd w)).
Proof.
  intros c eigen ratios workers draw arrive sys flag enum read ids snaps lines rows E L1 L2 Hw Ha He. split; [|split].
  - intros Sk. split; [|apply C182_no_file; left; exact Sk]. intros row Hr. apply In_nth_error in Hr. destruct Hr as (i & Hi).
    refine (proj1 (proj2 (C182_skip_mass eigen ratios (used_conf c) workers draw arrive enum read _ _ _ ids snaps lines rows Sk L1 L2 E) i row Hi)); assumption.
  - intros Fl. apply C182_no_file. right. exact Fl.
  - intros Sk Fl. unfold stats_output. rewrite E. unfold used_conf at 1 2. cbn [ts_filter ts_skipMass]. rewrite Sk, Fl. cbn [andb negb]. destruct (write_shell_particles true sys flag snaps ids (map w_ids rows)) as [[| |] f]; reflexivity.
Qed.
Print Assumptions C182_options.
