(** * prof mode: angular-fraction profiles and median-error profiles (no proofs in this file).

    Models cmd/prof.go:221-247, 275-284, 607-686 and los/analyze/shell.go:312-345. *)
From Verif Require Export LosModel ShellModel.
From Verif Require CatalogModel SortModel ProfModel.
From Verif Require Import GoBase.
From Coq Require Import ZArith Reals List.
Import List ListNotations.
Local Open Scope R_scope.

(** prof.go:246: the shell of a line; PennaFunc panics when it is called with too few coefficients, but Run reads 2 * Order^2 of them. *)
Definition prof_shell (order : nat) (cs : list R) : Shell := fun phi th => match penna_func cs order order 2 phi th with Some r => r | None => 0 end.

(** shell.go:312-345 AngularFractionProfile for the directions that are drawn. A radius that is not positive has no logarithm (NaN or -Inf): int(..) of it is the
    least integer (amd64), so it is skipped. None: index out of range. *)
Definition fraction_profile (s : Shell) (draws : list (R * R)) (bins : nat) (rMin rMax : R) : option (list R * list R) :=
  let lrMin := ln rMin in let lrMax := ln rMax in let dlr := (lrMax - lrMin) / INR bins in
  let rs := map (fun i => exp (lrMin + (INR i + 1 / 2) * dlr)) (seq 0 bins) in
  do fs <- angular_fraction (map ln (filter (fun r => Rltb 0 r) (map (fun a => s (fst a) (snd a)) draws))) bins lrMin lrMax;
  Some (rs, fs).

(** prof.go:240-247: the coefficients of line i. *)
Definition line_coeffs (coeffs : list (list R)) (i : nat) : option (list R) := mapo (fun col => rd col i) coeffs.

(** prof.go:662-671: rCols and fCols, one column per bin. *)
Definition fraction_columns (draw : nat -> list (R * R)) (order bins : nat) (rMinMult rMaxMult : R) (coords coeffs : list (list R)) (n : nat) : option (list (list R)) :=
  do Rs <- rd coords 3;
  do profs <- mapo (fun i => do cs <- line_coeffs coeffs i; do r <- rd Rs i;
    fraction_profile (prof_shell order cs) (draw i) bins (r * rMinMult) (r * rMaxMult)) (seq 0 n);
  Some (map (fun j => map (fun p => nth j (fst p) 0) profs) (seq 0 bins) ++ map (fun j => map (fun p => nth j (snd p) 0) profs) (seq 0 bins)).

Section Run.
Variable parseFloat : bytes -> option R.
Variable fmtFloat : R -> bytes.
(** The directions that AngularFractionProfile draws for line i: Samples of them. *)
Variable draw : nat -> list (R * R).

(** prof.go:679-683 *)
Definition fraction_header (bins : nat) : option bytes :=
  CatalogModel.CommentString [lit "ID"; lit "Snapshot"; lit "R [cMpc/h]"; lit "Volume Fraction Contained"] [] [0; 1; 2; 3]%Z [1; 1; Z.of_nat bins; Z.of_nat bins]%Z.

(** prof.go:221-247, 275-284, 652-686: Run with ProfileType = angular-fraction. Order and Bins are not negative here. *)
Definition fraction_run (order bins : nat) (rMinMult rMaxMult : R) (text : bytes) : res (list bytes) :=
  match CatalogModel.Parse R parseFloat text [0; 1]%Z (map (fun i => Z.of_nat (i + 2)) (seq 0 (4 + order * order * 2))) with
  | Err => Err
  | Panic => Panic
  | Ok (intCols, floatCols) =>
      match intCols with
      | [] => Err
      | ids :: _ =>
          let cols := fraction_columns draw order bins rMinMult rMaxMult (firstn 4 floatCols) (skipn 4 floatCols) (List.length ids) in
          match cols, fraction_header bins with
          | Some cols, Some header =>
              match CatalogModel.FormatCols R fmtFloat intCols cols (map Z.of_nat (seq 0 (List.length cols + 2))) with
              | Some lines => Ok (header :: lines)
              | None => Panic
              end
          | _, _ => Panic
          end
      end
  end.
End Run.

(** ** The bootstrap error of a percentile *)
(** The arithmetic of float64 (exact, or IEEE 754). *)
Record arith (A : Type) := { a_zero : A; a_add : A -> A -> A; a_sub : A -> A -> A; a_mul : A -> A -> A; a_div : A -> A -> A; a_sqrt : A -> A; a_lt : A -> A -> bool; a_nat : nat -> A }.
Arguments a_zero {A}. Arguments a_add {A}. Arguments a_sub {A}. Arguments a_mul {A}. Arguments a_div {A}. Arguments a_sqrt {A}. Arguments a_lt {A}. Arguments a_nat {A}.
Definition real_arith : arith R := {| a_zero := 0; a_add := Rplus; a_sub := Rminus; a_mul := Rmult; a_div := Rdiv; a_sqrt := sqrt; a_lt := Rltb; a_nat := INR |}.

(** prof.go:638-640: sample i; [draw i j] is the result of rand.Intn(len(x)). *)
Definition resample {A} (draw : nat -> nat -> nat) (x : list A) (i : nat) : option (list A) := mapo (fun j => rd x (draw i j)) (seq 0 (List.length x)).
(** prof.go:637-644; the scratch buffer has the length of x. *)
Definition bootstrap_step {A} (o : arith A) (draw : nat -> nat -> nat) (x scratch : list A) (num den : Z) (st : option (A * A)) (i : nat) : option (A * A) :=
  do t <- st; let '(sum, sqrSum) := t in
  do s <- resample draw x i;
  do r <- SortModel.Percentile A (a_lt o) s num den (Some scratch);
  let p := fst r in Some (a_add o sum p, a_add o sqrSum (a_mul o p p)).
(** prof.go:629-650 bootstrapErrorPercentile for percentile/100 = num/den. *)
Definition bootstrap {A} (o : arith A) (draw : nat -> nat -> nat) (x scratch : list A) (num den : Z) (samples : nat) : option A :=
  do t <- fold_left (bootstrap_step o draw x scratch num den) (seq 0 samples) (Some (a_zero o, a_zero o));
  let '(sum, sqrSum) := t in
  let sum := a_div o sum (a_nat o samples) in let sqrSum := a_div o sqrSum (a_nat o samples) in
  Some (a_sqrt o (a_sub o sqrSum (a_mul o sum sum))).

(** prof.go:607-627 processMedianErrorProfile: bin j draws with draw j. *)
Definition process_median_error (draw : nat -> nat -> nat -> nat) (n : nat) (medRhos : list (list R)) (scratch : list R) (rMin rMax : R) (num den : Z) (samples : nat) : option (list R * list R) :=
  do out <- mapo (fun j => do x <- rd medRhos j; do e <- bootstrap real_arith (draw j) x scratch num den samples;
    Some (e / ProfModel.bin_volume n rMin rMax j)) (seq 0 n);
  Some (map (ProfModel.bin_centre n rMin rMax) (seq 0 n), out).
