(** * Index computations with rounding: math/interpolate/search.go (uniform tables) and los/halo.go:255-310 (no proofs in this file).

    Every double-precision operation is the exact operation followed by the rounding [r64] of a machine (RoundModel.v). InterpModel.v and LosModel.v model the same
    lines without rounding. *)
From Verif Require Export RealBase RoundModel.
Local Open Scope R_scope.

Section RoundIndex.
Variable M : machine.

(** search.go:30 *)
Definition f_lim (x0 dx : R) (n : nat) : R := r64 M (r64 M (INR (n - 1) * dx) + x0).

(** search.go:38-50 of a uniform table; None: the panic. *)
Definition f_search (x0 dx : R) (n : nat) (x : R) : option Z :=
  if Rltb (f_lim x0 dx n) x || Rltb x x0 then None else
  let idx := Rtrunc (r64 M (r64 M (x - x0) / dx)) in
  Some (if (idx =? Z.of_nat n - 1)%Z then idx - 1 else idx)%Z.

(** The constant 2*math.Pi as a float64. *)
Definition two_pi : R := r64 M (2 * PI).

(** halo.go:99 *)
Definition f_dphi (n : nat) : R := r64 M (r64 M (1 / INR n) * two_pi).

(** halo.go:284-310 idxRange *)
Definition f_idx_range (n : nat) (phiLo phiHi : R) : Z * Z * Z * Z :=
  let d := f_dphi n in
  if Rltb two_pi phiHi then (Rtrunc (r64 M (phiLo / d)), Z.of_nat n, 0%Z, (Rtrunc (r64 M (r64 M (phiHi - two_pi) / d)) + 1)%Z)
  else if Rltb phiLo 0 then (Rtrunc (r64 M (r64 M (phiLo + two_pi) / d)), Z.of_nat n, 0%Z, (Rtrunc (r64 M (phiHi / d)) + 1)%Z)
  else (Rtrunc (r64 M (phiLo / d)), (Rtrunc (r64 M (phiHi / d)) + 1)%Z, 0%Z, 0%Z).

(** halo.go:255-256: the lines of sight that a circle in the direction projPhi with the half angular width alpha is tested against. *)
Definition f_lines (n : nat) (projPhi alpha : R) : Z * Z * Z * Z := f_idx_range n (r64 M (projPhi - alpha)) (r64 M (projPhi + alpha)).
End RoundIndex.
