(** * What the geometric functions should compute. *)
From Coq Require Import Reals List Bool ZArith.
From Verif Require Export GeomModel.
Import ListNotations.
Local Open Scope R_scope.

(** Euclidean distance, balls. *)
Definition dist3 (a b : v3) : R := sqrt ((cx a - cx b) ^ 2 + (cy a - cy b) ^ 2 + (cz a - cz b) ^ 2).
Definition in_ball (s : sphere) (p : v3) : Prop := dist3 (s_c s) p <= s_r s.

(** Convex combinations: tetrahedra, their interiors and faces. *)
Definition mix3 (a b c d : R) (p q r s : v3) : v3 :=
  V3 (a * cx p + b * cx q + c * cx r + d * cx s) (a * cy p + b * cy q + c * cy r + d * cy s) (a * cz p + b * cz q + c * cz r + d * cz s).
Definition in_tetra (t : tetra) (p : v3) : Prop :=
  exists a b c d, 0 <= a /\ 0 <= b /\ 0 <= c /\ 0 <= d /\ a + b + c + d = 1 /\ p = mix3 a b c d (t_0 t) (t_1 t) (t_2 t) (t_3 t).
Definition in_interior (t : tetra) (p : v3) : Prop :=
  exists a b c d, 0 < a /\ 0 < b /\ 0 < c /\ 0 < d /\ a + b + c + d = 1 /\ p = mix3 a b c d (t_0 t) (t_1 t) (t_2 t) (t_3 t).

(** Vector algebra. *)
Definition sub3 (a b : v3) : v3 := V3 (cx a - cx b) (cy a - cy b) (cz a - cz b).
Definition dot3 (a b : v3) : R := cx a * cx b + cy a * cy b + cz a * cz b.
Definition cross3 (a b : v3) : v3 := V3 (cy a * cz b - cz a * cy b) (cz a * cx b - cx a * cz b) (cx a * cy b - cy a * cx b).
Definition det3 (a b c : v3) : R := dot3 a (cross3 b c).
(** The point at distance l along a ray. *)
Definition along (P L : v3) (l : R) : v3 := V3 (cx P + l * cx L) (cy P + l * cy L) (cz P + l * cz L).

(** The vertices are in a positive order: seen from V3, V0 V1 V2 are in clockwise order (the right-hand normal of V0 V1 V2 points towards V3). *)
Definition det_tetra (t : tetra) : R := det3 (sub3 (t_1 t) (t_0 t)) (sub3 (t_2 t) (t_0 t)) (sub3 (t_3 t) (t_0 t)).

(** Rotations (and reflections): matrices that keep dot products. *)
Definition mat_apply (m : m3) (v : v3) : v3 := V3 (dot3 (r_0 m) v) (dot3 (r_1 m) v) (dot3 (r_2 m) v).
Definition orthogonal (m : m3) : Prop := forall v w, dot3 (mat_apply m v) (mat_apply m w) = dot3 v w.

(** The four vertices in another order. *)
Definition swap01 (t : tetra) := Tetra (t_1 t) (t_0 t) (t_2 t) (t_3 t).
Definition swap12 (t : tetra) := Tetra (t_0 t) (t_2 t) (t_1 t) (t_3 t).
Definition swap23 (t : tetra) := Tetra (t_0 t) (t_1 t) (t_3 t) (t_2 t).

(** The six edges of a tetrahedron, as pairs of vertices; two edges are in a common face when some vertex is an end of neither. *)
Definition edge_vertices (e : nat) : nat * nat := nth e [(0, 1); (0, 2); (0, 3); (1, 2); (1, 3); (2, 3)]%nat (0, 0)%nat.
Definition is_end (v e : nat) : Prop := v = fst (edge_vertices e) \/ v = snd (edge_vertices e).
Definition common_face (e f : nat) : Prop := exists v, (v < 4)%nat /\ ~ is_end v e /\ ~ is_end v f.

(** Points of a line in the plane. *)
Definition on_line (l : line) (x y : R) : Prop := if l_vert l then x = l_y0 l else y = l_y0 l + l_m l * x.

(** Two angles are the same direction. *)
Definition same_direction (a b : R) : Prop := exists k : Z, a = b + 2 * PI * IZR k.

(** Two vectors span the same plane through the origin (as normals). *)
Definition same_plane (v u : v3) : Prop := exists k, v = V3 (k * cx u) (k * cy u) (k * cz u).

(** The convex hull of finitely many points of the plane. *)
Definition hull (pts : list (R * R)) (x y : R) : Prop := exists ws : list R, length ws = length pts /\ (forall v, In v ws -> 0 <= v) /\
  fold_right Rplus 0 ws = 1 /\ x = fold_right Rplus 0 (map (fun p => fst p * fst (snd p)) (List.combine ws pts)) /\ y = fold_right Rplus 0 (map (fun p => fst p * snd (snd p)) (List.combine ws pts)).
