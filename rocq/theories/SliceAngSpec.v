(** * Angles of tetrahedron slices: specification. *)
From Coq Require Import Reals List ZArith.
From Verif Require Import GeomSpec.
Import List ListNotations.
Local Open Scope R_scope.

(** (x, y) is a point, other than the origin, in the direction phi seen from the origin. *)
Definition seen_at (phi x y : R) : Prop := exists r, 0 < r /\ x = r * cos phi /\ y = r * sin phi.
(** The direction phi is in the range of angles that begins at start and goes on, counterclockwise, for width. *)
Definition in_arc (start width phi : R) : Prop := exists t, 0 <= t <= width /\ same_direction (start + t) phi.
(** The segment between two points. *)
Definition on_segment (p q : R * R) (x y : R) : Prop := exists u, 0 <= u <= 1 /\ x = (1 - u) * fst p + u * fst q /\ y = (1 - u) * snd p + u * snd q.
(** The ray with direction phi meets the segment between two points. *)
Definition ray_meets (phi : R) (p q : R * R) : Prop := exists x y, on_segment p q x y /\ seen_at phi x y.
