(** * phase mode: phase-space profiles (no proofs in this file).

    Models cmd/phase.go:113-349, and the loop over snapshots and files that phase and potential mode share. Floats (float32 and float64) are
    reals (RealBase.v). A snapshot's files are as in LosModel.v (f_rhoM is not used); velocities are a list beside them. *)
From Verif Require Export LosModel.
From Verif Require CmdModel CatalogModel ConfigModel.
From Verif Require Import GoBase.
From Coq Require Import ZArith Reals List.
Import List ListNotations.
Local Open Scope R_scope.

(** ** The loops over snapshots, files and halos (phase.go:156-232, potential.go:128-209) *)
Section Accum.
Context {S F A : Type}.
(** binSphereIntersections (stats.go and prof.go): does the sphere meet the file? *)
Variable meets : S -> F -> bool.
(** What is done to the grid of the sphere for a file: snapshot, index of the file, index of the sphere in the snapshot. *)
Variable insert : Z -> nat -> nat -> S -> F -> A -> option A.

(** phase.go:206-231 and potential.go:171-208, one file: intrIdxs[i] holds the spheres that meet it in increasing order. A file without such
    spheres is not read. *)
Definition accum_file (snap : Z) (fi : nat) (spheres : list S) (idxs : list nat) (f : F) (sets : list A) : option (list A) :=
  fold_left (fun o j =>
    do sets <- o;
    do s <- rd spheres j; do idx <- rd idxs j; do a <- rd sets idx;
    do a' <- insert snap fi j s f a;
    wr sets idx a')
    (filter (fun j => match rd spheres j with Some s => meets s f | None => false end) (seq 0 (List.length spheres))) (Some sets).

(** phase.go:208-231: the files of one snapshot. *)
Fixpoint accum_files (snap : Z) (fi : nat) (spheres : list S) (idxs : list nat) (files : list F) (sets : list A) : option (list A) :=
  match files with
  | [] => Some sets
  | f :: files' => do sets' <- accum_file snap fi spheres idxs f sets; accum_files snap (fi + 1) spheres idxs files' sets'
  end.

(** phase.go:171-232: the snapshots. read is memo.ReadHeaders and buf.Read (errors are [None]); hds[0] panics if there are no files. *)
Fixpoint accum_snapshots (read : Z -> option (list F)) (idxBins : CmdModel.gmap nat) (spheres : list S) (snaps : list Z) (sets : list A) : option (list A) :=
  match snaps with
  | [] => Some sets
  | snap :: snaps' =>
      if (snap =? -1)%Z then accum_snapshots read idxBins spheres snaps' sets else
      let idxs := CmdModel.mget idxBins snap in
      do snapSpheres <- CmdModel.gather spheres idxs;
      do files <- read snap;
      match files with
      | [] => None
      | _ => do sets' <- accum_files snap 0 snapSpheres idxs files sets; accum_snapshots read idxBins spheres snaps' sets'
      end
  end.

(** phase.go:144-232 (potential.go:111-209). enum is Go's iteration order over the map snapBins. No input halos is an error. *)
Definition accum_run (enum : list Z -> list Z) (read : Z -> option (list F)) (ids snaps : list Z) (spheres : list S) (zero : A) : option (list A) :=
  match ids with
  | [] => None
  | _ =>
    do b <- CmdModel.binBySnap snaps ids;
    let '(snapBins, idxBins) := b in
    let sortedSnaps := CmdModel.sortInts (enum (CmdModel.mkeys snapBins)) in
    do _ <- rd snaps 0;
    accum_snapshots read idxBins spheres sortedSnaps (repeat zero (List.length ids))
  end.
End Accum.

(** ** phase.go *)

(** phase.go:19-31 (validate refuses negative numbers of bins); hc_radial: pType is radialPhaseProfile. *)
Record PhaseConf := mkPhaseConf { hc_rbins : nat; hc_vbins : nat; hc_rMax : R; hc_vMax : R; hc_radial : bool; hc_sub : bool }.

(** phase.go:176-202: hxBounds[j] and hvBounds[j]. p_R and p_V are the halo's radius and velocity scale times RMaxMult and VMaxMult. *)
Record PSphere := mkPSphere { p_c : vec; p_R : R; p_v : vec; p_V : R }.

(** phase.go:139-142 *)
Definition velocity_scale (hm hr : R) : R := 508 * sqrt ((hm / 60000000000000) / (hr / 1)).

(** phase.go:185-202 for one line of the catalogue: position, radius, mass, velocity. *)
Definition phase_sphere (c : PhaseConf) (h : vec * R * R * vec) : PSphere :=
  let '(x, r, m, v) := h in mkPSphere x (r * hc_rMax c) v (velocity_scale m r * hc_vMax c).

(** phase.go:277-280 *)
Definition v_min (c : PhaseConf) (vMax : R) : R := if hc_radial c then - vMax else 0.

(** phase.go:288-323, one particle. nan is what int(NaN) is: the radial velocity of a particle at the centre is 0/0, and Go leaves that conversion
    to the implementation. *)
Definition phase_point (nan : Z) (c : PhaseConf) (s : PSphere) (tw : R) (x v : vec) (m : R) (rhos : list R) : option (list R) :=
  let vMax := p_V s in
  let vMin := v_min c vMax in
  let dv := (vMax - vMin) / INR (hc_vbins c) in
  let dr := p_R s / INR (hc_rbins c) in
  let '(x0, y0, z0) := p_c s in let '(vx0, vy0, vz0) := p_v s in
  let tw2 := tw / 2 in
  let '(x, y, z) := x in
  let dx := wrap (x - x0) tw2 in let dy := wrap (y - y0) tw2 in let dz := wrap (z - z0) tw2 in
  let r2 := dx * dx + dy * dy + dz * dz in
  if Rleb (p_R s * p_R s) r2 then Some rhos else
  let r := sqrt r2 in
  let '(vx, vy, vz) := v in
  let vx := vx - vx0 in let vy := vy - vy0 in let vz := vz - vz0 in
  let iv :=
    if hc_radial c then
      if Req_EM_T r 0 then nan else
      let v := (vx * dx + vy * dy + vz * dz) / r in
      let v := if hc_sub c then v - r * 70 else v in
      Rtrunc ((v - vMin) / dv)
    else
      let '(vx, vy, vz) := if hc_sub c then (vx - 70 * dx, vy - 70 * dy, vz - 70 * dz) else (vx, vy, vz) in
      let v := sqrt (vx * vx + vy * vy + vz * vz) in
      Rtrunc ((v - vMin) / dv) in
  let ir := Rtrunc (r / dr) in
  let ir := if (ir =? Z.of_nat (hc_rbins c))%Z then (ir - 1)%Z else ir in
  if (iv >=? Z.of_nat (hc_vbins c))%Z || (iv <? 0)%Z then Some rhos else
  let i := (ir * Z.of_nat (hc_vbins c) + iv)%Z in
  if (i <? 0)%Z then None else
  do rho <- rd rhos (Z.to_nat i); wr rhos (Z.to_nat i) (rho + m).

(** phase.go:270-324 insertPhasePoints. (vs[i] and ms[i] are read for all particles here, in the code only for those that get that far.) *)
Definition phase_points (nan : Z) (c : PhaseConf) (s : PSphere) (tw : R) (xs vs : list vec) (ms : list R) (rhos : list R) : option (list R) :=
  loop (List.length xs) (fun i rhos =>
    do x <- rd xs i;
    do v <- rd vs i; do m <- rd ms i;
    phase_point nan c s tw x v m rhos) rhos.

(** phase.go:325-349 processPhaseProfile; lengths of rs, vs are rbins, vbins. *)
Definition process_phase (c : PhaseConf) (rhos : list R) (rMax vMax : R) : option (list R * list R * list R) :=
  let vMin := v_min c vMax in
  let dv := (vMax - vMin) / INR (hc_vbins c) in
  let dr := rMax / INR (hc_rbins c) in
  let vs := map (fun i => vMin + dv * (INR i + 1 / 2)) (seq 0 (hc_vbins c)) in
  let rs := map (fun j => dr * (INR j + 1 / 2)) (seq 0 (hc_rbins c)) in
  do out <- loop (hc_rbins c) (fun j rhos =>
    let rLo := dr * INR j in
    let rHi := dr * INR (j + 1) in
    let dV := (rHi * rHi * rHi - rLo * rLo * rLo) * 4 * PI / 3 in
    loop (hc_vbins c) (fun i rhos =>
      do rho <- rd rhos (j * hc_vbins c + i); wr rhos (j * hc_vbins c + i) (rho / (dV * dv))) rhos) rhos;
  Some (rs, vs, out).

(** phase.go:206, 717-731 of prof.go: the sphere is scaled by RMaxMult already. *)
Definition phase_meets (s : PSphere) (fv : PFile * list vec) : bool :=
  let f := fst fv in sheet_intersect (p_c s) (p_R s) (f_origin f) (f_width f) (f_tw f).

(** phase.go:129-240: the profiles of all lines. *)
Definition phase_profiles (nan : Z) (c : PhaseConf) (enum : list Z -> list Z) (read : Z -> option (list (PFile * list vec))) (ids snaps : list Z)
    (halos : list (vec * R * R * vec)) : option (list (list R * list R * list R)) :=
  let spheres := map (phase_sphere c) halos in
  do sets <- accum_run phase_meets (fun _ _ _ s fv rhos => phase_points nan c s (f_tw (fst fv)) (f_xs (fst fv)) (snd fv) (f_ms (fst fv)) rhos)
    enum read ids snaps spheres (repeat 0 (hc_rbins c * hc_vbins c));
  mapo (fun i => do s <- rd spheres i; do rhos <- rd sets i; process_phase c rhos (p_R s) (p_V s)) (seq 0 (List.length ids)).

(** phase.go:242-252: the float columns handed to FormatCols with the identity order. *)
Definition phase_columns (rows : list (list R * list R * list R)) : option (list (list R)) :=
  do rSets <- CmdModel.transpose 0 (map (fun r => fst (fst r)) rows);
  do vSets <- CmdModel.transpose 0 (map (fun r => snd (fst r)) rows);
  do rhoSets <- CmdModel.transpose 0 (map (fun r => snd r) rows);
  Some ((rSets ++ vSets) ++ rhoSets).

(** phase.go:254-260: the arguments of CommentString: names, order and sizes. *)
Definition phase_names : list bytes :=
  [lit "ID"; lit "Snapshot"; lit "R [cMpc/h]"; lit "V [pkm/s]"; lit "Rho [h^2 Msun/cMpc^3/(pkm/s), V major]"].
Definition phase_sizes (c : PhaseConf) : list Z :=
  [1; 1; Z.of_nat (hc_vbins c); Z.of_nat (hc_rbins c); Z.of_nat (hc_rbins c) * Z.of_nat (hc_vbins c)]%Z.
Definition phase_header (c : PhaseConf) : option bytes :=
  CatalogModel.CommentString phase_names [] [0; 1; 2; 3; 4]%Z (phase_sizes c).
