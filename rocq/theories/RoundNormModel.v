(** * The directions of the rings with rounding: cmd/shell.go:566-592 (no proofs in this file).

    Every float64 or float32 operation is the exact operation followed by the rounding of a machine (RoundModel.v); the draws are those of RoundRandModel.v.
    NormVecModel.v models the same lines without rounding. *)
From Verif Require Export RoundRandModel.
Import List ListNotations.
Local Open Scope R_scope.

Section RoundNorm.
Variable M : machine.

(** shell.go:579 math.Sqrt(x*x + y*y + z*z); the square root is correctly rounded. *)
Definition f_radius (x y z : R) : R := r64 M (sqrt (r64 M (r64 M (r64 M (x * x) + r64 M (y * y)) + r64 M (z * z)))).

(** shell.go:575-587: draws until the point is in the unit ball. None with all fuel used: the loop is still running. *)
Fixpoint f_pick (fuel : nat) (g : xorshift) : option (R * R * R * xorshift) :=
  match fuel with
  | O => None
  | S fuel =>
      do (x, g) <- f_uniform M (-1) 1 g;
      do (y, g) <- f_uniform M (-1) 1 g;
      do (z, g) <- f_uniform M (-1) 1 g;
      let r := f_radius x y z in
      if Rltb r 1 then Some ((r32 M (r64 M (x / r)), r32 M (r64 M (y / r)), r32 M (r64 M (z / r))), g) else f_pick fuel g
  end.

(** shell.go:574-588 *)
Fixpoint f_pick_all (fuel n : nat) (g : xorshift) : option (list (R * R * R) * xorshift) :=
  match n with
  | O => Some ([], g)
  | S n => do (v, g) <- f_pick fuel g; do (vs, g) <- f_pick_all fuel n g; Some (v :: vs, g)
  end.

(** shell.go:566-592 normVecs. *)
Definition f_normVecs (fuel : nat) (seed : N) (n : nat) : option (list (R * R * R)) :=
  match n with
  | 3%nat => Some [(0, 0, 1); (0, 1, 0); (1, 0, 0)]
  | _ => do (vs, _) <- f_pick_all fuel n (xs_init seed); Some vs
  end.
End RoundNorm.
