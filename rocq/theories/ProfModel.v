(** * prof mode: radial profiles (no proofs in this file).

    Models cmd/prof.go:334-437 and 462-605. Floats (float32 and float64) are reals (RealBase.v). A snapshot's files are as in LosModel.v
    (f_rhoM is not used); velocities are a list beside them. *)
From Verif Require Export LosModel PixelModel ShellModel.
From Verif Require SortModel CmdModel.
From Coq Require Import ZArith Reals List.
Import List ListNotations.
Local Open Scope R_scope.

(** prof.go:33-41 without angularFractionProfile, which reads no particles, and medianErrorProfile. *)
Inductive ProfType := Density | MedianDensity | Contained | BoundDensity.

(** prof.go:23-31; percentile/100 = pc_num/pc_den. *)
Record ProfConf := mkProfConf { pc_type : ProfType; pc_bins : nat; pc_rMax : R; pc_rMin : R; pc_level : Z; pc_num : Z; pc_den : Z }.

(** prof.go:688-692 ExtendedSphere. *)
Record ESphere := mkESphere { e_c : vec; e_R : R; e_M : R; e_Rs : R; e_v : vec }.

(** prof.go:484-488 (and 542-546): the displacement of a particle from the centre. *)
Definition displacement (s : ESphere) (tw : R) (x : vec) : vec :=
  let '(x0, y0, z0) := e_c s in let '(a, b, c) := x in
  let tw2 := tw / 2 in (wrap (a - x0) tw2, wrap (b - y0) tw2, wrap (c - z0) tw2).

(** prof.go:478-481 and 503-513: is the particle bound? *)
Definition vesc2 (s : ESphere) (r2 : R) : R :=
  let vVir := 508 * sqrt ((e_M s / 60000000000000) / (e_R s / 1)) in
  let cVir := e_R s / e_Rs s in
  let phiPrefactor := 1 / (ln (1 + cVir) - cVir / (1 + cVir)) in
  let x := sqrt r2 / e_R s in
  let phi := vVir * vVir * phiPrefactor * ln (1 + cVir * x) / x in
  phi * 2.

(** prof.go:498-500 and 560-563: the index of the radial bin, for r^2. *)
Definition radial_index (c : ProfConf) (s : ESphere) (r2 : R) : Z :=
  let lrMax := ln (e_R s * pc_rMax c) in
  let lrMin := ln (e_R s * pc_rMin c) in
  let dlr := (lrMax - lrMin) / INR (pc_bins c) in
  let ir := Rtrunc ((ln r2 / 2 - lrMin) / dlr) in
  if (ir =? Z.of_nat (pc_bins c))%Z then (ir - 1)%Z else ir.

(** prof.go:483-520: one particle. len(rhos) is Bins. A negative or too large index panics. *)
Definition insert_point (c : ProfConf) (s : ESphere) (tw : R) (shell : R -> R -> R -> bool) (x v : vec) (m : R) (rhos : list R) : option (list R) :=
  let '(dx, dy, dz) := displacement s tw x in
  let r2 := dx * dx + dy * dy + dz * dz in
  let rMax2 := e_R s * pc_rMax c * (e_R s * pc_rMax c) in
  let rMin2 := e_R s * pc_rMin c * (e_R s * pc_rMin c) in
  if Rleb r2 rMin2 || Rleb rMax2 r2 then Some rhos else
  let add := let ir := radial_index c s r2 in
    if (ir <? 0)%Z then None else do rho <- rd rhos (Z.to_nat ir); wr rhos (Z.to_nat ir) (rho + m) in
  match pc_type c with
  | Contained => if shell dx dy dz then add else Some rhos
  | BoundDensity =>
      let '(vx, vy, vz) := v in let '(ux, uy, uz) := e_v s in
      let dv2 := (vx - ux) * (vx - ux) + (vy - uy) * (vy - uy) + (vz - uz) * (vz - uz) in
      if Rltb dv2 (vesc2 s r2) then add else Some rhos
  | _ => add
  end.

(** prof.go:463-522 insertPoints. vs is only read for bound profiles. *)
Definition insert_points (c : ProfConf) (s : ESphere) (tw : R) (shell : R -> R -> R -> bool) (xs vs : list vec) (ms : list R) (rhos : list R)
    : option (list R) :=
  loop (List.length xs) (fun i rhos =>
    do x <- rd xs i; do m <- rd ms i;
    do v <- (match pc_type c with BoundDensity => rd vs i | _ => Some (0, 0, 0) end);
    insert_point c s tw shell x v m rhos) rhos.

(** prof.go:553-558: the pixel of a direction. math.Mod(atan2 + 2 pi, 2 pi) of atan2 in (-pi, pi] is atan2, plus 2 pi if it is negative. *)
Definition direction_pixel (level : Z) (dx dy dz : R) : Z :=
  let r := sqrt (dx * dx + dy * dy + dz * dz) in
  let a := atan2 dy dx in
  let phi := if Rltb a 0 then a + 2 * PI else a in
  SpherePixel phi (acos (dz / r)) level.

(** prof.go:524-566 insertMedianPoints. *)
Definition insert_median_points (c : ProfConf) (s : ESphere) (tw : R) (xs : list vec) (ms : list R) (medRhos : list (list R)) : option (list (list R)) :=
  loop (List.length xs) (fun i (med : list (list R)) =>
    do x <- rd xs i;
    let '(dx, dy, dz) := displacement s tw x in
    let r2 := dx * dx + dy * dy + dz * dz in
    let rMax2 := e_R s * pc_rMax c * (e_R s * pc_rMax c) in
    let rMin2 := e_R s * pc_rMin c * (e_R s * pc_rMin c) in
    if Rleb r2 rMin2 || Rleb rMax2 r2 then Some med else
    let p := direction_pixel (pc_level c) dx dy dz in
    let ir := radial_index c s r2 in
    if (ir <? 0)%Z || (p <? 0)%Z then None else
    do row <- rd med (Z.to_nat ir); do old <- rd row (Z.to_nat p);
    do m <- rd ms i;
    do row' <- wr row (Z.to_nat p) (old + m * IZR (SpherePixelNum (pc_level c)));
    wr med (Z.to_nat ir) row') medRhos.

(** prof.go:571-579 (and 591-599): the centre and the volume of bin j of n. *)
Definition bin_centre (n : nat) (rMin rMax : R) (j : nat) : R :=
  let dlr := (ln rMax - ln rMin) / INR n in exp (ln rMin + dlr * (INR j + / 2)).
Definition bin_volume (n : nat) (rMin rMax : R) (j : nat) : R :=
  let dlr := (ln rMax - ln rMin) / INR n in
  let rLo := exp (dlr * INR j + ln rMin) in
  let rHi := exp (dlr * INR (j + 1) + ln rMin) in
  (rHi * rHi * rHi - rLo * rLo * rLo) * 4 * PI / 3.

(** prof.go:568-583 processProfile: rs is overwritten. *)
Definition process_profile (n : nat) (rhos : list R) (rMin rMax : R) : option (list R * list R) :=
  do out <- mapo (fun j => do rho <- rd rhos j; Some (rho / bin_volume n rMin rMax j)) (seq 0 n);
  Some (map (bin_centre n rMin rMax) (seq 0 n), out).

(** prof.go:585-605 processMedianProfile. *)
Definition process_median_profile (n : nat) (medRhos : list (list R)) (rMin rMax : R) (num den : Z) : option (list R * list R) :=
  do out <- mapo (fun j => do med <- rd medRhos j;
    do p <- SortModel.Percentile R Rltb med num den None;
    Some (fst p / bin_volume n rMin rMax j)) (seq 0 n);
  Some (map (bin_centre n rMin rMax) (seq 0 n), out).

(** What a run returns: lines, or nil, nil (nothing is printed). *)
Inductive ProfResult := NoOutput | Rows (rows : list (list R * list R)).

(** prof.go:367-374 and 717-731: the spheres (scaled by RMaxMult) that meet a file. *)
Definition prof_intersections (c : ProfConf) (spheres : list ESphere) (f : PFile) : list nat :=
  filter (fun j => match nth_error spheres j with
    | Some s => sheet_intersect (e_c s) (e_R s * pc_rMax c) (f_origin f) (f_width f) (f_tw f)
    | None => false end) (seq 0 (List.length spheres)).

(** The profiles of all lines of the catalogue: rhoSets and medRhoSets. *)
Definition prof_sets : Type := list (list R) * list (list (list R)).

(** prof.go:384-413: all spheres that meet a file. The workers take disjoint sets of spheres (jj = worker mod workers), so their order is
    immaterial; the model goes through the spheres in order. *)
Definition prof_insert (c : ProfConf) (spheres : list ESphere) (shells : list (R -> R -> R -> bool)) (idxs intr : list nat) (f : PFile) (vs : list vec)
    (sets : prof_sets) : option prof_sets :=
  fold_left (fun o j =>
    do st <- o; let '(rhoSets, medSets) := (st : prof_sets) in
    do s <- rd spheres j; do idx <- rd idxs j;
    match pc_type c with
    | MedianDensity =>
        do med <- rd medSets idx; do med' <- insert_median_points c s (f_tw f) (f_xs f) (f_ms f) med;
        do medSets' <- wr medSets idx med'; Some (rhoSets, medSets')
    | _ =>
        do rhos <- rd rhoSets idx; do shell <- rd shells idx;
        do rhos' <- insert_points c s (f_tw f) shell (f_xs f) vs (f_ms f) rhos;
        do rhoSets' <- wr rhoSets idx rhos'; Some (rhoSets', medSets)
    end) intr (Some sets).

(** prof.go:376-418: the files of a snapshot. [Some None] is the return of line 417. *)
Fixpoint prof_files (c : ProfConf) (spheres : list ESphere) (shells : list (R -> R -> R -> bool)) (idxs : list nat) (files : list (PFile * list vec))
    (sets : prof_sets) : option (option prof_sets) :=
  match files with
  | [] => Some (Some sets)
  | (f, vs) :: files' =>
      match prof_intersections c spheres f with
      | [] => prof_files c spheres shells idxs files' sets
      | intr => do _ <- prof_insert c spheres shells idxs intr f vs sets; Some None
      end
  end.

(** prof.go:334-419: the snapshots. *)
Fixpoint prof_snapshots (c : ProfConf) (read : Z -> option (list (PFile * list vec))) (idxBins : CmdModel.gmap nat) (spheres : list ESphere)
    (shells : list (R -> R -> R -> bool)) (snaps : list Z) (sets : prof_sets) : option (option prof_sets) :=
  match snaps with
  | [] => Some (Some sets)
  | snap :: snaps' =>
      if (snap =? -1)%Z then prof_snapshots c read idxBins spheres shells snaps' sets else
      let idxs := CmdModel.mget idxBins snap in
      do snapSpheres <- CmdModel.gather spheres idxs;
      do files <- read snap;
      do r <- prof_files c snapSpheres shells idxs files sets;
      match r with
      | None => Some None
      | Some sets' => prof_snapshots c read idxBins spheres shells snaps' sets'
      end
  end.

(** prof.go:279-459 Run. The catalogue lines give the spheres and shells (lines 201-273, 350-362, 694-715). *)
Definition prof_run (c : ProfConf) (enum : list Z -> list Z) (read : Z -> option (list (PFile * list vec))) (ids snaps : list Z) (spheres : list ESphere)
    (shells : list (R -> R -> R -> bool)) : option ProfResult :=
  do b <- CmdModel.binBySnap snaps ids; let '(snapBins, idxBins) := b in
  let rhoSets := repeat (repeat 0 (pc_bins c)) (List.length ids) in
  let medSets := repeat (repeat (repeat 0 (Z.to_nat (SpherePixelNum (pc_level c)))) (pc_bins c)) (List.length ids) in
  let sortedSnaps := CmdModel.sortInts (enum (CmdModel.mkeys snapBins)) in
  do _ <- rd snaps 0;
  do r <- prof_snapshots c read idxBins spheres shells sortedSnaps (rhoSets, medSets);
  match r with
  | None => Some NoOutput
  | Some (rhoSets, medSets) =>
      do rows <- mapo (fun i =>
        do s <- rd spheres i;
        match pc_type c with
        | MedianDensity => do med <- rd medSets i; process_median_profile (pc_bins c) med (e_R s * pc_rMin c) (e_R s * pc_rMax c) (pc_num c) (pc_den c)
        | _ => do rhos <- rd rhoSets i; process_profile (pc_bins c) rhos (e_R s * pc_rMin c) (e_R s * pc_rMax c)
        end) (seq 0 (List.length ids));
      Some (Rows rows)
  end.
