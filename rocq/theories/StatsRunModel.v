(** * stats mode from the catalogue's rows and the particle files to the rows of statistics (no proofs in this file).

    Models los/analyze/shell.go:110-226 (Axes, cosNorm, SurfaceArea), 274-305 (RadiusHistogram) and cmd/stats.go:205-381, 408-422, 445-597.
    Floats are reals (RealBase.v; x / 0 is 0 here, where the code has Inf or NaN). *)
From Verif Require Export LosModel ShellModel.
From Verif Require CmdModel CatalogModel FilterModel ModeConfModel.
From Verif Require Import GoBase.
From Coq Require Import ZArith Reals List.
Import List ListNotations.
Local Open Scope R_scope.

(** ** los/analyze/shell.go *)

(** shell.go:192-215 cosNorm. *)
Definition cos_norm (s : Shell) (phi theta : R) : R :=
  let dp := 1 / 1000 in let dt := 1 / 1000 in
  let '(x00, y00, z00) := cartesian (phi - dp) (theta - dt) (s (phi - dp) (theta - dt)) in
  let '(x01, y01, z01) := cartesian (phi - dp) (theta + dt) (s (phi - dp) (theta + dt)) in
  let '(x10, y10, z10) := cartesian (phi + dp) (theta - dt) (s (phi + dp) (theta - dt)) in
  let '(x11, y11, z11) := cartesian (phi + dp) (theta + dt) (s (phi + dp) (theta + dt)) in
  let dxa := x00 - x11 in let dya := y00 - y11 in let dza := z00 - z11 in
  let dxb := x01 - x10 in let dyb := y01 - y10 in let dzb := z01 - z10 in
  let xn := dya * dzb - dza * dyb in
  let yn := dza * dxb - dxa * dzb in
  let zn := dxa * dyb - dya * dxb in
  let norm := sqrt (xn * xn + yn * yn + zn * zn) in
  let '(xl, yl, zl) := cartesian phi theta 1 in
  xl * (xn / norm) + yl * (yn / norm) + zl * (zn / norm).

(** shell.go:125, 223: the area of a direction. *)
Definition area_element (s : Shell) (a : R * R) : R := let r := s (fst a) (snd a) in r * r / cos_norm s (fst a) (snd a).

(** shell.go:218-226 SurfaceArea. *)
Definition surface_area (s : Shell) (angles : list (R * R)) : R :=
  fold_left (fun sum a => sum + area_element s a) angles 0 / INR (List.length angles) * 4 * PI.

(** shell.go:117-139: the ten sums. *)
Record moments := { mo_xx : R; mo_yy : R; mo_zz : R; mo_xy : R; mo_yz : R; mo_zx : R; mo_x : R; mo_y : R; mo_z : R; mo_1 : R }.
Definition moments_step (s : Shell) (m : moments) (a : R * R) : moments :=
  let area := area_element s a in
  let '(x, y, z) := cartesian (fst a) (snd a) (s (fst a) (snd a)) in
  {| mo_xx := mo_xx m + area * x * x; mo_yy := mo_yy m + area * y * y; mo_zz := mo_zz m + area * z * z;
     mo_xy := mo_xy m + area * x * y; mo_yz := mo_yz m + area * y * z; mo_zx := mo_zx m + area * z * x;
     mo_x := mo_x m + area * x; mo_y := mo_y m + area * y; mo_z := mo_z m + area * z; mo_1 := mo_1 m + area |}.
Definition shell_moments (s : Shell) (angles : list (R * R)) : moments :=
  fold_left (moments_step s) angles {| mo_xx := 0; mo_yy := 0; mo_zz := 0; mo_xy := 0; mo_yz := 0; mo_zx := 0; mo_x := 0; mo_y := 0; mo_z := 0; mo_1 := 0 |}.

(** shell.go:141-149: the matrix that is factorised. *)
Definition axes_matrix (m : moments) : list (list R) :=
  let n := mo_1 m in
  let nxx := mo_xx m / n in let nyy := mo_yy m / n in let nzz := mo_zz m / n in
  let nxy := mo_xy m / n in let nyz := mo_yz m / n in let nzx := mo_zx m / n in
  let nx := mo_x m / n in let ny := mo_y m / n in let nz := mo_z m / n in
  [[nyy + nzz - ny * ny - nz * nz; - nxy + nx * ny; - nzx + nz * nx];
   [- nxy + nx * ny; nxx + nzz - nx * nx - nz * nz; - nyz + ny * nz];
   [- nzx + nz * nx; - nyz + ny * nz; nxx + nyy - nx * nx - ny * ny]].

(** shell.go:160-169: half axes and the index of the major axis from the eigenvalues. *)
Definition axes_of_eigenvalues (Ix Iy Iz : R) : R * R * R * nat :=
  let ax2 := 3 * (Iy + Iz - Ix) / 2 in
  let ay2 := 3 * Iy - ax2 in
  let az2 := 3 * Iz - ax2 in
  trisort (sqrt ax2) (sqrt ay2) (sqrt az2).

(** shell.go:110-188 Axes. [eigen]: mat64's Eigen: the real parts of the eigenvalues and the columns of the eigenvectors, or a failure;
    [ratios ac bc]: the three interpolation tables (174-176), None: outside of the table. None: panic. *)
Definition shell_axes (eigen : list (list R) -> option ((R * R * R) * (vec * vec * vec))) (ratios : R -> R -> option (R * R * R)) (s : Shell) (angles : list (R * R))
  : option (R * R * R * vec) :=
  do e <- eigen (axes_matrix (shell_moments s angles));
  let '((Ix, Iy, Iz), (v0, v1, v2)) := e in
  let '(c, b, a, aIdx) := axes_of_eigenvalues Ix Iy Iz in
  let ac := a / c in let bc := b / c in
  do t <- ratios ac bc;
  let '(acRatio, bcRatio, cRatio) := t in
  let '(x, y, z) := match aIdx with O => v0 | 1%nat => v1 | _ => v2 end in
  let norm := sqrt (x * x + y * y + z * z) in
  let c := cRatio * c in
  Some (c, bcRatio * bc * c, acRatio * ac * c, (x / norm, y / norm, z / norm)).

(** shell.go:274-305 RadiusHistogram: the counts before normalisation and the output. None: index out of range. *)
Definition histogram_step (s : Shell) (bins : nat) (rMin dr : R) (o : option (list nat * nat)) (a : R * R) : option (list nat * nat) :=
  do st <- o; let '(ns, count) := st in
  let ri := (s (fst a) (snd a) - rMin) / dr in
  if Rltb ri 0 then Some (ns, count) else
  let idx := Rtrunc ri in
  if (Z.of_nat bins <=? idx)%Z then Some (ns, count) else
  if (idx <? 0)%Z then None else
  do n <- rd ns (Z.to_nat idx); do ns' <- wr ns (Z.to_nat idx) (S n); Some (ns', S count).
Definition radius_histogram (s : Shell) (angles : list (R * R)) (bins : nat) (rMin rMax : R) : option (list R * list R) :=
  let dr := (rMax - rMin) / INR bins in
  do st <- fold_left (histogram_step s bins rMin dr) angles (Some (repeat O bins, O));
  let '(ns, count) := st in
  Some (map (fun i => rMin + dr * (INR i + 1 / 2)) (seq 0 bins), map (fun n => INR n / (INR count * dr)) ns).

(** ** cmd/stats.go *)

(** stats.go:445-447, 520-521, 554-555: the shell of a row of coefficients. PennaFunc cannot fail once findOrder has succeeded. None: panic. *)
Definition shell_of (cs : list R) : option Shell :=
  match find_order cs with
  | Ok o => Some (fun phi th => match penna_func cs o o 2 phi th with Some r => r | None => 0 end)
  | _ => None
  end.

(** A line of the catalogue: position, R200m, coefficients (stats.go:205-207). *)
Definition line : Type := vec * R * list R.
(** A particle file: header, positions and masses (LosModel.PFile), and ids. *)
Definition idfile : Type := PFile * list Z.

(** stats.go:528-532, 563-567. *)
Definition displacement (x c : vec) (tw : R) : vec :=
  let '(x, y, z) := x in let '(cx, cy, cz) := c in
  (wrap (x - cx) (tw / 2), wrap (y - cy) (tw / 2), wrap (z - cz) (tw / 2)).

(** stats.go:513-543 massContainedChan. None: index out of range. *)
Definition mass_step (s : Shell) (c : vec) (rLow rHigh : R) (f : PFile) (o : option R) (i : nat) : option R :=
  do sum <- o; do x <- rd (f_xs f) i;
  let '(x, y, z) := displacement x c (f_tw f) in
  if mass_inside s rLow rHigh x y z then do m <- rd (f_ms f) i; Some (sum + m) else Some sum.
Definition mass_worker (s : Shell) (c : vec) (rLow rHigh : R) (f : PFile) (workers offset : nat) : option R :=
  fold_left (mass_step s c rLow rHigh f) (strided (List.length (f_xs f)) offset workers (List.length (f_xs f))) (Some 0).
(** stats.go:451-478 massContained. [arrive] is the order in which the workers' results arrive. *)
Definition mass_contained (s : Shell) (c : vec) (rLow rHigh : R) (f : PFile) (workers : nat) (arrive : list nat) : option R :=
  fold_left (fun o w => do sum <- o; do m <- mass_worker s c rLow rHigh f workers w; Some (sum + m)) arrive (Some 0).

(** stats.go:545-597 appendShellParticlesChan. *)
Definition ids_step (s : Shell) (c : vec) (r rLow rHigh width : R) (f : idfile) (o : option (list Z)) (i : nat) : option (list Z) :=
  do buf <- o; do x <- rd (f_xs (fst f)) i;
  let '(x, y, z) := displacement x c (f_tw (fst f)) in
  if shell_keep s r rLow rHigh width x y z then do id <- rd (snd f) i; Some (buf ++ [id]) else Some buf.
Definition ids_worker (s : Shell) (c : vec) (r rLow rHigh width : R) (f : idfile) (workers offset : nat) : option (list Z) :=
  fold_left (ids_step s c r rLow rHigh width f) (strided (List.length (f_xs (fst f))) offset workers (List.length (f_xs (fst f)))) (Some []).
(** stats.go:482-511 appendShellParticles. *)
Definition append_shell_particles (s : Shell) (c : vec) (r rLow rHigh width : R) (f : idfile) (workers : nat) (arrive : list nat) (out : list Z) : option (list Z) :=
  fold_left (fun o w => do out <- o; do ids <- ids_worker s c r rLow rHigh width f workers w; Some (out ++ ids)) arrive (Some out).

(** stats.go:23-34 *)
Record StatsConf := mkStatsConf { ts_samples : nat; ts_skipMass : bool; ts_filter : bool; ts_width : R }.

(** The columns of a row (stats.go:209-220). *)
Record stats_row := { w_mass : R; w_rad : R; w_vol : R; w_sa : R; w_a : R; w_b : R; w_c : R; w_avec : vec; w_rmin : R; w_rmax : R; w_ids : list Z }.
Definition zero_row : stats_row := {| w_mass := 0; w_rad := 0; w_vol := 0; w_sa := 0; w_a := 0; w_b := 0; w_c := 0; w_avec := (0, 0, 0); w_rmin := 0; w_rmax := 0; w_ids := [] |}.

Section Run.
Variable eigen : list (list R) -> option ((R * R * R) * (vec * vec * vec)).
Variable ratios : R -> R -> option (R * R * R).
Variable cf : StatsConf.
Variable workers : nat.
(** The angles that are drawn: snapshot, line within the snapshot, which call (0: Volume, 1: SurfaceArea, 2: Axes, 3: the printed range, 4: the range used
    for the particles), number of the draw. *)
Variable draw : Z -> nat -> nat -> nat -> R * R.
(** The order of arrival of the workers' results: snapshot, file, line, masses (false) or ids (true). *)
Variable arrive : Z -> nat -> nat -> bool -> list nat.

Definition angles (snap : Z) (j k : nat) : list (R * R) := map (draw snap j k) (seq 0 (ts_samples cf)).
(** stats.go:445-449 rangeSp *)
Definition range_sp (snap : Z) (j k : nat) (s : Shell) : R * R := radial_range s (draw snap j k 0) (map (draw snap j k) (seq 1 (ts_samples cf))).

(** stats.go:264-278: what does not depend on the particles. *)
Definition row_shape (snap : Z) (j : nat) (ln : line) : option stats_row :=
  do s <- shell_of (snd ln);
  let vol := volume s (angles snap j 0) in
  do ax <- shell_axes eigen ratios s (angles snap j 2);
  let '(a, b, c, avec) := ax in
  let '(rmin, rmax) := range_sp snap j 3 s in
  Some {| w_mass := 0; w_rad := volume_radius vol; w_vol := vol; w_sa := surface_area s (angles snap j 1);
          w_a := a; w_b := b; w_c := c; w_avec := avec; w_rmin := rmin; w_rmax := rmax; w_ids := [] |}.

(** stats.go:294, 306: is the file read? boundingSpheres (408-422): the sphere of R200m. *)
Definition line_meets (f : PFile) (ln : line) : bool := let '(c, r, _) := ln in sheet_intersect c r (f_origin f) (f_width f) (f_tw f).

(** stats.go:319-339: one line and one file. *)
Definition row_file (snap : Z) (fi : nat) (f : idfile) (j : nat) (ln : line) (row : stats_row) : option stats_row :=
  let '(c, r, cs) := ln in
  do s <- shell_of cs;
  let '(rLow, rHigh) := range_sp snap j 4 s in
  do m <- mass_contained s c rLow rHigh (fst f) workers (arrive snap fi j false);
  do ids <- (if ts_filter cf then append_shell_particles s c r rLow rHigh (ts_width cf) f workers (arrive snap fi j true) (w_ids row) else Some (w_ids row));
  Some {| w_mass := w_mass row + m; w_rad := w_rad row; w_vol := w_vol row; w_sa := w_sa row; w_a := w_a row; w_b := w_b row; w_c := w_c row; w_avec := w_avec row;
          w_rmin := w_rmin row; w_rmax := w_rmax row; w_ids := ids |}.

(** A loop over the lines of a snapshot that fails if one fails. *)
Fixpoint each_line {A B} (g : nat -> line -> A -> option B) (j : nat) (lines : list line) (l : list A) : option (list B) :=
  match lines, l with
  | ln :: lines', a :: l' => do b <- g j ln a; do r <- each_line g (S j) lines' l'; Some (b :: r)
  | _, _ => Some []
  end.

(** stats.go:304-341: the files. *)
Fixpoint row_files (snap : Z) (fi : nat) (lines : list line) (files : list idfile) (rows : list stats_row) : option (list stats_row) :=
  match files with
  | [] => Some rows
  | f :: files' =>
      if existsb (line_meets (fst f)) lines then
        do rows' <- each_line (row_file snap fi f) 0 lines rows; row_files snap (S fi) lines files' rows'
      else row_files snap (S fi) lines files' rows
  end.

(** stats.go:249-341: one snapshot. [read]: memo.ReadHeaders and buf.Read. The results are written into the rows of the snapshot (CmdModel.scatter) at the end
    here, in the code at once. Err: reading fails; Panic: run-time panic. *)
Definition stats_proc (read : Z -> option (list idfile)) (snap : Z) (lines : list line) : res (list stats_row) :=
  match each_line (fun j ln (_ : line) => row_shape snap j ln) 0 lines lines with
  | None => Panic
  | Some rows =>
      match read snap with
      | None => Err
      | Some [] => Panic
      | Some files =>
          if ts_skipMass cf then Ok rows else
          match row_files snap 0 lines files rows with Some rows' => Ok rows' | None => Panic end
      end
  end.

(** stats.go:205-342: the rows of a catalogue. *)
Definition stats_rows (enum : list Z -> list Z) (read : Z -> option (list idfile)) (ids snaps : list Z) (lines : list line) : res (list stats_row) :=
  CmdModel.stats_loop (stats_proc read) enum snaps ids lines (repeat zero_row (List.length snaps)).

(** stats.go:348-360: the float columns handed to FormatCols with the identity order. *)
Definition stats_columns (rows : list stats_row) : list (list R) :=
  [map w_mass rows; map w_rad rows; map w_vol rows; map w_sa rows; map w_a rows; map w_b rows; map w_c rows;
   map (fun w => fst (fst (w_avec w))) rows; map (fun w => snd (fst (w_avec w))) rows; map (fun w => snd (w_avec w)) rows; map w_rmin rows; map w_rmax rows].

(** stats.go:361-373 *)
Definition stats_header : option bytes :=
  CatalogModel.CommentString [lit "ID"; lit "Snapshot"]
    [lit "M_sp [M_sun/h]"; lit "R_sp [cMpc/h]"; lit "Volume [cMpc^3/h^3]"; lit "Surface Area [cMpc^2/h^2]"; lit "Major Axis [cMpc/h]"; lit "Intermediate Axis [cMpc/h]";
     lit "Minor Axis [cMpc/h]"; lit "Ax"; lit "Ay"; lit "Az"; lit "RMin [cMpc/h]"; lit "RMax [cMpc/h]"]
    [0; 1; 2; 3; 4; 5; 6; 7; 8; 9; 10; 11; 12; 13]%Z [1; 1; 1; 1; 1; 1; 1; 1; 1; 1; 1; 1; 1; 1]%Z.

(** stats.go:667-677 int64sEq *)
Fixpoint int64s_eq (xs ys : list Z) : bool :=
  match xs, ys with [], [] => true | x :: xs', y :: ys' => if (x =? y)%Z then int64s_eq xs' ys' else false | _, _ => false end.

(** stats.go:640-662: the comparison with what was read back. *)
Definition same_data (a b : FilterModel.FilterData) : bool :=
  int64s_eq (FilterModel.f_snaps a) (FilterModel.f_snaps b) && int64s_eq (FilterModel.f_ids a) (FilterModel.f_ids b) &&
  Nat.eqb (List.length (FilterModel.f_particles a)) (List.length (FilterModel.f_particles b)) &&
  forallb (fun pq => int64s_eq (fst pq) (snd pq)) (combine (FilterModel.f_particles a) (FilterModel.f_particles b)).

(** stats.go:599-665 writeShellParticles: the error or panic and what the file holds afterwards (None: it was not created). [create]: os.Create succeeds. *)
Definition write_shell_particles (create : bool) (sys : BytesModel.order) (flag : bytes) (snaps ids : list Z) (parts : list (list Z)) : res unit * option (list Z) :=
  let data := {| FilterModel.f_snaps := snaps; FilterModel.f_ids := ids; FilterModel.f_particles := parts |} in
  if negb create then (Err, None) else
  match FilterModel.write_filter sys flag data with
  | None => (Panic, Some [])
  | Some f => match FilterModel.read_filter f with
              | Ok check => if same_data check data then (Ok tt, Some f) else (Panic, Some f)
              | Err => (Err, Some f)
              | Panic => (Panic, Some f)
              end
  end.

(** stats.go:205-380: the rows that are printed, and the file of shell particles. The error of writeShellParticles is dropped (345). *)
Definition stats_output (create : bool) (sys : BytesModel.order) (flag : bytes) (enum : list Z -> list Z) (read : Z -> option (list idfile)) (ids snaps : list Z) (lines : list line)
  : res (list stats_row) * option (list Z) :=
  match stats_rows enum read ids snaps lines with
  | Ok rows =>
      if ts_filter cf && negb (ts_skipMass cf) then
        match write_shell_particles create sys flag snaps ids (map w_ids rows) with
        | (Panic, file) => (Panic, file)
        | (_, file) => (Ok rows, file)
        end
      else (Ok rows, None)
  | Err => (Err, None)
  | Panic => (Panic, None)
  end.
End Run.

(** The part of the configuration that Run uses (stats.go:191, 263, 305, 326, 333): neither Values nor ExclusionStrategy. *)
Definition used_conf (c : ModeConfModel.StatsConf) : StatsConf :=
  mkStatsConf (Z.to_nat (ModeConfModel.sc_samples c)) (ModeConfModel.sc_skip c) (ModeConfModel.sc_filter c) (ModeConfModel.sc_width c).
