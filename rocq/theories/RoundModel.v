(** * The radial bins of prof and phase with rounding: cmd/prof.go:463-566, cmd/phase.go:270-327 (no proofs in this file).

    Every single- and double-precision operation is the exact operation followed by a rounding; the roundings and math.Log are parameters (RoundSpec in Props_Round.v
    says what is assumed about them: IEEE accuracy without overflow or underflow). ProfModel.v and PhaseModel.v model the same lines without rounding. *)
From Coq Require Import Reals List Bool ZArith.
From Verif Require Import RealBase.
Local Open Scope R_scope.

Record machine := { r32 : R -> R; r64 : R -> R; flog : R -> R }.

Section Round.
Variable M : machine.

(** prof.go:470-473, 531-534: rMax2 (or rMin2) of the radius [Rv] (float32) and the multiplier [m] (float64). *)
Definition limit2 (Rv m : R) : R := let t := r32 M (Rv * r32 M m) in r32 M (t * t).

(** prof.go:490, 547; phase.go:299: dx*dx + dy*dy + dz*dz in single precision, of the wrapped displacements. *)
Definition dist2 (dx dy dz : R) : R := r32 M (r32 M (r32 M (dx * dx) + r32 M (dy * dy)) + r32 M (dz * dz)).

(** prof.go:467-469, 528-530 *)
Definition lrOf (Rv m : R) : R := flog M (r64 M (Rv * m)).
Definition dlrOf (Rv a b : R) (n : nat) : R := r64 M (r64 M (lrOf Rv b - lrOf Rv a) / INR n).

(** prof.go:498: lr of the density profiles; prof.go:552, 560: of the median profiles. *)
Definition lr_density (r2 : R) : R := r64 M (flog M r2 / 2).
Definition lr_median (r2 : R) : R := flog M (r64 M (sqrt r2)).

(** prof.go:499-500, 561-563 *)
Definition bin_index (lr Rv a b : R) (n : nat) : Z :=
  let ir := Rtrunc (r64 M (r64 M (lr - lrOf Rv a) / dlrOf Rv a b n)) in
  if (ir =? Z.of_nat n)%Z then (ir - 1)%Z else ir.

(** prof.go:491 and 498-518 (or 548-564): None: the index is out of range (a panic); Some None: the particle is skipped; Some (Some i): it goes to bin i. *)
Definition prof_bin (median : bool) (Rv a b : R) (n : nat) (dx dy dz : R) : option (option nat) :=
  let r2 := dist2 dx dy dz in
  if Rleb r2 (limit2 Rv a) || Rleb (limit2 Rv b) r2 then Some None else
  let ir := bin_index (if median then lr_median r2 else lr_density r2) Rv a b n in
  if (0 <=? ir)%Z && (ir <? Z.of_nat n)%Z then Some (Some (Z.to_nat ir)) else None.

(** phase.go:280-282, 299-302, 321-322 *)
Definition phase_bin (rMax : R) (n : nat) (dx dy dz : R) : option (option nat) :=
  let r2 := dist2 dx dy dz in
  if Rleb (r64 M (rMax * rMax)) r2 then Some None else
  let r := r64 M (sqrt r2) in
  let ir := Rtrunc (r64 M (r / r64 M (rMax / INR n))) in
  let ir := if (ir =? Z.of_nat n)%Z then (ir - 1)%Z else ir in
  if (0 <=? ir)%Z && (ir <? Z.of_nat n)%Z then Some (Some (Z.to_nat ir)) else None.
End Round.
