(** * The shell mode's configuration check, percentile profiles and first lines of Run (no proofs in this file).

    Models cmd/shell.go:24-35, 105-119 (defaults), 143-187 (validate) and 629-660 (calcPercentile). Floats are reals (RealBase.v). *)
From Verif Require Export ShellRunModel.
From Verif Require SortModel.
From Coq Require Import ZArith Reals String List.
Import List ListNotations.
Local Open Scope R_scope.

(** shell.go:24-35 ShellConfig. percentile is a percentage given as a fraction num/den. *)
Record ShellVars := mkShellVars { v_subsampleFactor : Z; v_radialBins : Z; v_spokes : Z; v_rings : Z;
  v_rMaxMult : R; v_rMinMult : R; v_rKernelMult : R; v_eta : R; v_order : Z; v_levels : Z; v_smoothingWindow : Z;
  v_losSlopeCutoff : R; v_backgroundRhoMult : R }.

(** shell.go:105-119: the values of variables that are not set. *)
Definition shell_defaults : ShellVars := mkShellVars 1 256 256 100 3 (3 / 10) (2 / 10) 10 3 3 121 0 (1 / 2).

(** shell.go:143-187 validate: [None] is nil, [Some name] the error about the variable name (lines 180-184 name two; the first is kept). *)
Definition shell_validate (v : ShellVars) : option string :=
  if (v_subsampleFactor v <=? 0)%Z then Some "SubsampleFactor"%string
  else if (v_radialBins v <=? 0)%Z then Some "RadialBins"%string
  else if (v_spokes v <=? 0)%Z then Some "Spokes"%string
  else if (v_rings v <=? 0)%Z then Some "Rings"%string
  else if negb (Rltb 0 (v_rMaxMult v)) then Some "RMaxMult"%string
  else if negb (Rltb 0 (v_rMinMult v)) then Some "RMinMult"%string
  else if negb (Rltb 0 (v_rKernelMult v)) then Some "RKernelMult"%string
  else if negb (Rltb 0 (v_eta v)) then Some "Eta"%string
  else if (v_order v <=? 0)%Z then Some "Order"%string
  else if (v_levels v <=? 0)%Z then Some "Levels"%string
  else if (v_smoothingWindow v <=? 0)%Z then Some "SmoothingWindow"%string
  else if negb (Rltb (v_rMinMult v) (v_rMaxMult v)) then Some "RMinMult"%string
  else None.

(** The values loop works with (shell.go:288-372) for a configuration, ring normals and the particle mass. *)
Definition run_conf (v : ShellVars) (norms : list vec) (minMass : R) : ShellConf :=
  mkShellConf (mkLoadConf (Z.to_nat (v_subsampleFactor v * v_subsampleFactor v * v_subsampleFactor v)) (v_rKernelMult v) (v_rMaxMult v))
    (v_rMinMult v) norms (Z.to_nat (v_radialBins v)) (Z.to_nat (v_spokes v)) (Z.to_nat (v_smoothingWindow v)) (v_losSlopeCutoff v)
    (Z.to_nat (v_levels v)) (v_eta v) (Z.to_nat (v_order v)) minMass (v_backgroundRhoMult v).

(** shell.go:629-660 calcPercentile, for percentile/100 = num/den. buf[s + r*spokes] is the profile of line s of ring r. *)
Definition calc_percentile (h : Halo) (bins spokes rings : nat) (num den : Z) : option (list R) :=
  do outRs <- get_rs h (repeat 0 bins);
  do buf <- mapo (fun i => get_rhos h (i / spokes) (i mod spokes) (repeat 0 bins)) (seq 0 (rings * spokes));
  do outRhos <- mapo (fun ri =>
    do rBuf <- mapo (fun p => rd p ri) buf;
    do x <- SortModel.Percentile R Rltb rBuf num den (Some (repeat 0 (spokes * rings)));
    Some (fst x)) (seq 0 bins);
  Some (outRs ++ outRhos).

(** shell.go:272-286 transpose: the columns of the rows; panics if a row is shorter than the first. *)
Definition shell_transpose (rows : list (list R)) : option (list (list R)) :=
  do row0 <- rd rows 0;
  mapo (fun x => mapo (fun row => rd row x) rows) (seq 0 (List.length row0)).
