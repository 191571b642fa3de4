(** * Counted loops and slice access in the option monad (no proofs in this file). [None] is a run-time panic. *)
From Verif Require Export GoBase.

(** Go: for i := 0; i < n; i++ { body(i) } where the body transforms the mutable state. *)
Fixpoint loop {S : Type} (n : nat) (body : nat -> S -> option S) (s : S) : option S :=
  match n with
  | O => Some s
  | Datatypes.S k => match loop k body s with Some s' => body k s' | None => None end
  end.

(** Go: for i := a; i < b; i++ { body(i) }. *)
Definition loop_from {S : Type} (a b : nat) (body : nat -> S -> option S) (s : S) : option S :=
  loop (b - a) (fun i => body (a + i)) s.

(** Go: for i := n - 1; i >= 0; i-- { body(i) }. *)
Definition loop_down {S : Type} (n : nat) (body : nat -> S -> option S) (s : S) : option S :=
  loop n (fun i => body (n - 1 - i)) s.

(** Go: slice read and write; out of range indices panic. *)
Definition rd {A} (l : list A) (i : nat) : option A := nth_error l i.
Definition wr {A} (l : list A) (i : nat) (v : A) : option (list A) := upd l i v.

Notation "'do' x <- o ; f" := (match o with Some x => f | None => None end)
  (at level 200, x pattern, o at level 100, f at level 200, only parsing).
