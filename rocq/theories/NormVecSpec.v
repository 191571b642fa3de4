(** * Vocabulary for C192 and C193. *)
From Coq Require Import NArith.
From Verif Require Import RealBase RandModel.
Local Open Scope R_scope.

(** A list of draws taken three at a time. *)
Fixpoint in_threes (l : list R) : list (R * R * R) :=
  match l with x :: y :: z :: l => (x, y, z) :: in_threes l | _ => [] end.
Definition squared (v : R * R * R) : R := let '(x, y, z) := v in x * x + y * y + z * z.
Definition in_ball (v : R * R * R) : Prop := squared v < 1.
Definition unit (v : R * R * R) : Prop := squared v = 1.
(** v is the unit vector that points from the origin to the point t. *)
Definition points_to (t v : R * R * R) : Prop :=
  unit v /\ exists s, 0 < s /\ let '(x, y, z) := t in let '(a, b, c) := v in x = s * a /\ y = s * b /\ z = s * c.
(** The points of a list that are in the ball, in order. *)
Inductive kept : list (R * R * R) -> list (R * R * R) -> Prop :=
| k_nil : kept [] []
| k_in : forall t l k, in_ball t -> kept l k -> kept (t :: l) (t :: k)
| k_out : forall t l k, ~ in_ball t -> kept l k -> kept (t :: l) k.
(** The values that Next can return: j / (2^32 - 1) with 0 <= j < 2^32 - 1. *)
Definition grid_value (v : R) : Prop := exists j, (0 <= j < 4294967295)%Z /\ v = IZR j / 4294967295.
