(** * What a least-squares fit is (specification only). *)
From Verif Require Import RealBase MatSpec.
Local Open Scope R_scope.

(** Entry (i, j) of an n x n matrix stored row by row. *)
Definition sq (n : nat) (A : list R) (i j : nat) : R := nth (i * n + j) A 0.

(** Symmetric positive definite. *)
Definition posdef (n : nat) (A : nat -> nat -> R) : Prop :=
  (forall i j, (i < n)%nat -> (j < n)%nat -> A i j = A j i) /\
  forall v : nat -> R, (exists i, (i < n)%nat /\ v i <> 0) -> 0 < sumf n (fun i => sumf n (fun j => v i * A i j * v j)).

(** The contract of the library routine that inverts a matrix: it is right on symmetric positive definite matrices. *)
Definition inverts_posdef (inverse : nat -> list R -> list R) : Prop :=
  forall n A, (1 <= n)%nat -> List.length A = (n * n)%nat -> posdef n (sq n A) ->
    List.length (inverse n A) = (n * n)%nat /\
    forall i j, (i < n)%nat -> (j < n)%nat -> sumf n (fun k => sq n (inverse n A) i k * sq n A k j) = delta i j.

(** Sum of the squared differences between the radii of the points (phi, theta, r) and a shell. *)
Definition residual (shell : R -> R -> option R) (pts : list (R * R * R)) : R :=
  fold_right (fun '(phi, th, r) acc => (match shell phi th with Some s => (r - s) * (r - s) | None => 0 end) + acc) 0 pts.

(** The point at angles phi (from the x axis) and theta (from the z axis) and distance r from the origin. *)
Definition at_angles (phi th r : R) : R * R * R := (r * sin th * cos phi, r * sin th * sin phi, r * cos th).
