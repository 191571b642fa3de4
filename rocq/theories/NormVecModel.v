(** * The directions of the rings: cmd/shell.go:566-592 (no proofs in this file). Floats are reals. *)
From Verif Require Export RandModel.
Local Open Scope R_scope.

(** shell.go:575-587: draws until the point is in the unit ball. [None] with all fuel used: the loop is still running. *)
Fixpoint pick (fuel : nat) (g : xorshift) : option (R * R * R * xorshift) :=
  match fuel with
  | O => None
  | S fuel =>
      do (x, g) <- uniform xs_next (-1) 1 g;
      do (y, g) <- uniform xs_next (-1) 1 g;
      do (z, g) <- uniform xs_next (-1) 1 g;
      let r := sqrt (x * x + y * y + z * z) in
      if Rltb r 1 then Some ((x / r, y / r, z / r), g) else pick fuel g
  end.

(** shell.go:574-588 *)
Fixpoint pick_all (fuel n : nat) (g : xorshift) : option (list (R * R * R) * xorshift) :=
  match n with
  | O => Some ([], g)
  | S n => do (v, g) <- pick fuel g; do (vs, g) <- pick_all fuel n g; Some (v :: vs, g)
  end.

(** shell.go:566-592 normVecs. [seed] is the process's randSeed (cmd.go:658). Every pass of the inner loop is given the same fuel. *)
Definition normVecs (fuel : nat) (seed : N) (n : nat) : option (list (R * R * R)) :=
  match n with
  | 3%nat => Some [(0, 0, 1); (0, 1, 0); (1, 0, 0)]
  | _ => do (vs, _) <- pick_all fuel n (xs_init seed); Some vs
  end.
