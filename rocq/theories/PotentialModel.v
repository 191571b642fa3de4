(** * potential mode: maps of the gravitational potential (no proofs in this file).

    Models cmd/potential.go:86-329 (configuration and validation: ModeConfModel.v). Floats (float32 and float64) are reals (RealBase.v): the
    potential at the position of a particle, infinite in the code, is outside of the model. *)
From Verif Require Export PhaseModel.
From Verif Require CmdModel CatalogModel.
From Verif Require Import GoBase.
From Coq Require Import ZArith Reals List.
Import List ListNotations.
Local Open Scope R_scope.

(** potential.go:21-26 (validate refuses negative numbers of cells). *)
Record PotConf := mkPotConf { tc_n : nat; tc_grid : R; tc_rMin : R; tc_rMax : R; tc_frac : R }.

(** The three maps phisXY, phisYZ, phisXZ of a halo, all with ncells*ncells elements (potential.go:121-126). *)
Definition maps := (list R * list R * list R)%type.

(** for i := ...; i < len(phisXY); ... { phis[i] -= f(i) } with all workers together (potential.go:283-309; see C51 for the workers). *)
Definition subtract_all (f : nat -> R) (phis : list R) : list R :=
  map (fun ip => snd ip - f (fst ip)) (combine (seq 0 (List.length phis)) phis).

(** potential.go:264-269, 274-309, one particle; hx is (hxBounds[j].C, hxBounds[j].R). *)
Definition pot_point (c : PotConf) (hx : vec * R) (x : vec) (pm : R) (phis : maps) : maps :=
  let '((cx, cy, cz), hR) := hx in
  let rmax2 := (tc_rMax c * tc_rMax c) * (hR * hR) in
  let rmin2 := (tc_rMin c * tc_rMin c) * (hR * hR) in
  let gridR := hR * tc_grid c in
  let delta := gridR * 2 / (INR (tc_n c) - 1) in
  let nc := tc_n c in
  let '(x, y, z) := x in
  let dx0 := x - cx in let dy0 := y - cy in let dz0 := z - cz in
  let dr02 := dx0 * dx0 + dy0 * dy0 + dz0 * dz0 in
  if Rltb rmax2 dr02 || Rltb dr02 rmin2 then phis else
  let '(xy, yz, xz) := phis in
  (subtract_all (fun i =>
     let dx := dx0 - gridR + delta * INR (i mod nc) in
     let dy := dy0 - gridR + delta * INR (i / nc) in
     pm / sqrt (dx * dx + dy * dy + dz0 * dz0)) xy,
   subtract_all (fun i =>
     let dy := dy0 - gridR + delta * INR (i mod nc) in
     let dz := dz0 - gridR + delta * INR (i / nc) in
     pm / sqrt (dx0 * dx0 + dy * dy + dz * dz)) yz,
   subtract_all (fun i =>
     let dx := dx0 - gridR + delta * INR (i mod nc) in
     let dz := dz0 - gridR + delta * INR (i / nc) in
     pm / sqrt (dx * dx + dy0 * dy0 + dz * dz)) xz).

(** potential.go:183-205, 271-272: table[i] = rand.Float64() <= frac for every particle; draw i is the value of the i-th call. *)
Definition pot_points (c : PotConf) (draw : nat -> R) (hx : vec * R) (xs : list vec) (ms : list R) (phis : maps) : option maps :=
  loop (List.length xs) (fun i phis =>
    if Rleb (draw i) (tc_frac c) then
      do x <- rd xs i; do m <- rd ms i; Some (pot_point c hx x m phis)
    else Some phis) phis.

(** potential.go:315-329 processPotential; len(rs) = ncells *)
Definition process_potential (c : PotConf) (phis : maps) (hr hm : R) : list R * maps :=
  let '(xy, yz, xz) := phis in
  let scale := map (fun p => p / (tc_frac c * hm / hr)) in
  let delta := hr * tc_grid c * 2 / INR (tc_n c) in
  (map (fun i => delta * INR i - hr * tc_grid c) (seq 0 (tc_n c)), (scale xy, scale yz, scale xz)).

(** potential.go:160-173 for a line with position and radius: the sphere is scaled by RMaxMult for the intersections and scaled back afterwards. *)
Definition pot_meets (c : PotConf) (s : vec * R) (f : PFile) : bool :=
  sheet_intersect (fst s) (snd s * tc_rMax c) (f_origin f) (f_width f) (f_tw f).
Definition pot_insert (c : PotConf) (draw : Z -> nat -> nat -> nat -> R) (snap : Z) (fi j : nat) (s : vec * R) (f : PFile) (phis : maps) : option maps :=
  pot_points c (draw snap fi j) (fst s, snd s * tc_rMax c / tc_rMax c) (f_xs f) (f_ms f) phis.

(** potential.go:102-217: the radii and maps of all lines. draw snap i j k is the k-th random number of file i for the j-th halo of the snapshot. *)
Definition potential_maps (c : PotConf) (draw : Z -> nat -> nat -> nat -> R) (enum : list Z -> list Z) (read : Z -> option (list PFile))
    (ids snaps : list Z) (halos : list (vec * R * R)) : option (list (list R * maps)) :=
  let spheres := map (fun h : vec * R * R => (fst (fst h), snd (fst h))) halos in
  let zero := repeat 0 (tc_n c * tc_n c) in
  do sets <- accum_run (pot_meets c) (pot_insert c draw) enum read ids snaps spheres (zero, zero, zero);
  mapo (fun i => do h <- rd halos i; do phis <- rd sets i; Some (process_potential c phis (snd (fst h)) (snd h))) (seq 0 (List.length ids)).

(** potential.go:219-233: the float columns handed to FormatCols with the identity order. *)
Definition potential_columns (rows : list (list R * maps)) : option (list (list R)) :=
  do rSets <- CmdModel.transpose 0 (map (fun r : list R * maps => fst r) rows);
  do xy <- CmdModel.transpose 0 (map (fun r : list R * maps => fst (fst (snd r))) rows);
  do yz <- CmdModel.transpose 0 (map (fun r : list R * maps => snd (fst (snd r))) rows);
  do xz <- CmdModel.transpose 0 (map (fun r : list R * maps => snd (snd r)) rows);
  Some (((rSets ++ xy) ++ yz) ++ xz).

(** potential.go:235-245: the arguments of CommentString: names, order and sizes. *)
Definition potential_header (c : PotConf) : option bytes :=
  let n := Z.of_nat (tc_n c) in
  CatalogModel.CommentString
    [lit "ID"; lit "Snapshot"; lit "R [cMpc/h]"; lit "Phi_xy/(G Mvir / Rvir)"; lit "Phi_yz/(G Mvir / Rvir)"; lit "Phi_xz/(G Mvir / Rvir)"]
    [] [0; 1; 2; 3; 4; 5]%Z [1; 1; n; n * n; n * n; n * n]%Z.
