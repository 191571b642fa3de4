(** * Vocabulary for C20 and C21. *)
From Coq Require Import NArith.
From Verif Require Import RealBase RandModel.

(** n successive calls of a generator: the values in order, and the state afterwards. *)
Fixpoint draws {S : Type} (next : S -> option (R * S)) (n : nat) (s : S) : option (list R * S) :=
  match n with
  | O => Some ([], s)
  | Datatypes.S n => match next s with
                     | Some (v, s') => match draws next n s' with Some (vs, s'') => Some (v :: vs, s'') | None => None end
                     | None => None
                     end
  end.

(** States a generator can be in after any number of calls. *)
Definition reachable {S : Type} (next : S -> option (R * S)) (s0 s : S) : Prop := exists n vs, draws next n s0 = Some (vs, s).

Definition unit_interval (x : R) : Prop := (0 <= x < 1)%R.

(** n successive points of dimension dim. *)
Fixpoint points (dim n : nat) (s : sobol) : option (list (list R) * sobol) :=
  match n with
  | O => Some ([], s)
  | S n => match sb_next dim s with
           | Some (p, s') => match points dim n s' with Some (ps, s'') => Some (p :: ps, s'') | None => None end
           | None => None
           end
  end.

(** A history of calls to one sequence: Next with any number of coordinates, or Init again. Collects every point returned. *)
Inductive call := CNext (dim : nat) | CInit.
Fixpoint history (cs : list call) (s : sobol) : option (list (list R) * sobol) :=
  match cs with
  | [] => Some ([], s)
  | CInit :: cs => match sb_init s with Some s' => history cs s' | None => None end
  | CNext dim :: cs => match sb_next dim s with
                       | Some (p, s') => match history cs s' with Some (ps, s'') => Some (p :: ps, s'') | None => None end
                       | None => None
                       end
  end.
