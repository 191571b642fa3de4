(** * Geometric primitives (no proofs in this file).

    Models los/geom/primitives.go, los/geom/intersection.go, los/geom/lines.go and los/geom/rotation.go:59-120. Floats are reals (float32 conversions are the
    identity); a division by zero (NaN or an infinity in Go) is None where it is noted. [3]float32 is a triple and loops over the three coordinates are unrolled. *)
From Coq Require Import Reals List Bool Arith ZArith.
From Verif Require Import RealBase.
Import ListNotations.
Local Open Scope R_scope.

Record v3 := V3 { cx : R; cy : R; cz : R }.
Definition zero3 := V3 0 0 0.
(** v[dim]; dim = 3 is an index out of range. *)
Definition coord (v : v3) (dim : nat) : option R :=
  match dim with 0%nat => Some (cx v) | 1%nat => Some (cy v) | 2%nat => Some (cz v) | _ => None end.

(** ** Spheres *)
(** primitives.go:183-186 Sphere. *)
Record sphere := Sphere { s_c : v3; s_r : R }.

(** The loop that SphereIntersect, VecIntersect and SphereContain share: the squares of the three differences are added up and the loop is left with false when
    the sum exceeds dr2 (primitives.go:195-202, 209-216, 275-282). *)
Definition sum_within (a b : v3) (dr2 : R) : bool :=
  let d0 := cx a - cx b in let s0 := 0 + d0 * d0 in if Rltb dr2 s0 then false else
  let d1 := cy a - cy b in let s1 := s0 + d1 * d1 in if Rltb dr2 s1 then false else
  let d2 := cz a - cz b in let s2 := s1 + d2 * d2 in if Rltb dr2 s2 then false else true.

(** primitives.go:189-203 SphereIntersect. *)
Definition sphere_intersect (s1 s2 : sphere) : bool :=
  let dr := s_r s1 + s_r s2 in sum_within (s_c s1) (s_c s2) (dr * dr).
(** primitives.go:206-218 VecIntersect. *)
Definition vec_intersect (s : sphere) (v : v3) : bool := sum_within (s_c s) v (s_r s * s_r s).
(** primitives.go:268-283 SphereContain. *)
Definition sphere_contain (s1 s2 : sphere) : bool :=
  if Rleb (s_r s1) (s_r s2) then false else
  let dr := s_r s1 - s_r s2 in sum_within (s_c s1) (s_c s2) (dr * dr).

(** primitives.go:120 Tetra. *)
Record tetra := Tetra { t_0 : v3; t_1 : v3; t_2 : v3; t_3 : v3 }.
(** t[i]; an index above 3 panics, which does not happen (the tables below hold 0 to 3): it is read as t[3]. *)
Definition vertex (t : tetra) (i : nat) : v3 := match i with 0%nat => t_0 t | 1%nat => t_1 t | 2%nat => t_2 t | _ => t_3 t end.

(** primitives.go:221-228 TetraIntersect. *)
Definition tetra_intersect (s : sphere) (t : tetra) : bool := existsb (fun i => vec_intersect s (vertex t i)) (seq 0 4).
(** primitives.go:287-294 TetraContain. *)
Definition tetra_contain (s : sphere) (t : tetra) : bool := forallb (fun i => vec_intersect s (vertex t i)) (seq 0 4).

(** primitives.go:297-314 BoundingSphere. *)
Definition bounding_sphere (t : tetra) : sphere :=
  let b := V3 ((cx (t_0 t) + cx (t_1 t) + cx (t_2 t) + cx (t_3 t)) / 4) ((cy (t_0 t) + cy (t_1 t) + cy (t_2 t) + cy (t_3 t)) / 4)
              ((cz (t_0 t) + cz (t_1 t) + cz (t_2 t) + cz (t_3 t)) / 4) in
  let rsqr v := let dx := cx b - cx v in let dy := cy b - cy v in let dz := cz b - cz v in dx * dx + dy * dy + dz * dz in
  let maxRSqr := fold_left (fun m i => if Rltb m (rsqr (vertex t i)) then rsqr (vertex t i) else m) (seq 1 3) (rsqr (t_0 t)) in
  Sphere b (sqrt maxRSqr).

(** primitives.go:231-234 LineSegment. *)
Record segment := Segment { g_o : v3; g_d : v3; g_start : R; g_end : R }.

(** primitives.go:241-265 LineSegmentIntersect: (enter, exit, enters, exits). *)
Definition line_segment_intersect (s : sphere) (ls : segment) : R * R * bool * bool :=
  let dr0 := cx (g_o ls) - cx (s_c s) in let dr1 := cy (g_o ls) - cy (s_c s) in let dr2 := cz (g_o ls) - cz (s_c s) in
  let b := 2 * cx (g_d ls) * dr0 + cy (g_d ls) * dr1 + cz (g_d ls) * dr2 in
  let c := dr0 * dr0 + dr1 * dr1 + dr2 * dr2 - s_r s * s_r s in
  let disc := b * b - 4 * c in
  let flags enter exit := (enter, exit, Rltb (g_start ls) enter && Rltb enter (g_end ls), Rltb (g_start ls) exit && Rltb exit (g_end ls)) in
  if Rltb 0 disc then flags ((- b - sqrt disc) / 2) ((- b + sqrt disc) / 2)
  else if Reqb disc 0 then flags (- b / 2) (- b / 2)
  else (0, 0, false, false).

(** ** Tetrahedra *)
(** primitives.go:167-180 Volume. *)
Definition volume (t : tetra) : R :=
  let leg10 := cx (t_1 t) - cx (t_0 t) in let leg11 := cy (t_1 t) - cy (t_0 t) in let leg12 := cz (t_1 t) - cz (t_0 t) in
  let leg20 := cx (t_2 t) - cx (t_0 t) in let leg21 := cy (t_2 t) - cy (t_0 t) in let leg22 := cz (t_2 t) - cz (t_0 t) in
  let leg30 := cx (t_3 t) - cx (t_0 t) in let leg31 := cy (t_3 t) - cy (t_0 t) in let leg32 := cz (t_3 t) - cz (t_0 t) in
  let n0 := leg10 * (leg21 * leg32 - leg22 * leg31) in
  let n1 := leg11 * (leg22 * leg30 - leg20 * leg32) in
  let n2 := leg12 * (leg20 * leg31 - leg21 * leg30) in
  let vol := (n0 + n1 + n2) / 6 in
  if Rltb vol 0 then - vol else vol.

(** primitives.go:137-155 Orient. *)
Definition orient (t : tetra) (dir : Z) : tetra :=
  let v := V3 (cx (t_1 t) - cx (t_0 t)) (cy (t_1 t) - cy (t_0 t)) (cz (t_1 t) - cz (t_0 t)) in
  let w := V3 (cx (t_2 t) - cx (t_0 t)) (cy (t_2 t) - cy (t_0 t)) (cz (t_2 t) - cz (t_0 t)) in
  let n := V3 (- cy v * cz w + cz v * cy w) (- cz v * cx w + cx v * cz w) (- cx v * cy w + cy v * cx w) in
  let dot := 0 + cx n * (cx (t_3 t) - cx (t_0 t)) + cy n * (cy (t_3 t) - cy (t_0 t)) + cz n * (cz (t_3 t) - cz (t_0 t)) in
  if (Rltb dot 0 && (dir =? -1)%Z) || (Rltb 0 dot && (dir =? 1)%Z) then Tetra (t_1 t) (t_0 t) (t_2 t) (t_3 t) else t.

Definition add3 (a b : v3) : v3 := V3 (cx a + cx b) (cy a + cy b) (cz a + cz b).
(** primitives.go:158-164 Tetra.Translate. *)
Definition tetra_translate (t : tetra) (dx : v3) : tetra := Tetra (add3 (t_0 t) dx) (add3 (t_1 t) dx) (add3 (t_2 t) dx) (add3 (t_3 t) dx).

(** rotation.go:60-65 RotateVec; the nine entries of the matrix in rows. *)
Record m3 := M3 { r_0 : v3; r_1 : v3; r_2 : v3 }.
Definition rotate_vec (v : v3) (m : m3) : v3 :=
  V3 (cx (r_0 m) * cx v + cy (r_0 m) * cy v + cz (r_0 m) * cz v) (cx (r_1 m) * cx v + cy (r_1 m) * cy v + cz (r_1 m) * cz v)
     (cx (r_2 m) * cx v + cy (r_2 m) * cy v + cz (r_2 m) * cz v).
(** rotation.go:68-72 Tetra.Rotate. *)
Definition tetra_rotate (t : tetra) (m : m3) : tetra := Tetra (rotate_vec (t_0 t) m) (rotate_vec (t_1 t) m) (rotate_vec (t_2 t) m) (rotate_vec (t_3 t) m).

(** ** Pluecker vectors *)
(** primitives.go:19-28 PluckerVec, AnchoredPluckerVec. *)
Record plucker := Plucker { p_u : v3; p_v : v3 }.
Record anchored := Anchored { a_p : plucker; a_o : v3 }.
(** primitives.go:35-37, 51-53. *)
Definition moment (P U : v3) : v3 := V3 (- cy P * cz U + cz P * cy U) (- cz P * cx U + cx P * cz U) (- cx P * cy U + cy P * cx U).
(** primitives.go:32-38 PluckerVec.Init. *)
Definition plucker_init (P L : v3) : plucker := Plucker L (moment P L).
(** primitives.go:42-54 InitFromSegment (the sum of squares that it computes is not used). *)
Definition plucker_segment (P1 P2 : v3) : plucker :=
  let U := V3 (cx P2 - cx P1) (cy P2 - cy P1) (cz P2 - cz P1) in Plucker U (moment P1 U).
(** primitives.go:57-61 PluckerVec.Translate. *)
Definition plucker_translate (p : plucker) (dx : v3) : plucker := Plucker (p_u p) (add3 (p_v p) (moment dx (p_u p))).
(** primitives.go:65-75 Dot. *)
Definition plucker_dot (p1 p2 : plucker) (flip : bool) : R :=
  let sum := 0 + (cx (p_u p1) * cx (p_v p2) + cx (p_v p1) * cx (p_u p2)) + (cy (p_u p1) * cy (p_v p2) + cy (p_v p1) * cy (p_u p2))
               + (cz (p_u p1) * cz (p_v p2) + cz (p_v p1) * cz (p_u p2)) in
  if flip then sum else - sum.
(** primitives.go:80-89 SignDot. *)
Definition sign_dot (p1 p2 : plucker) (flip : bool) : R * Z :=
  let dot := plucker_dot p1 p2 flip in if Reqb dot 0 then (dot, 0%Z) else if Rltb 0 dot then (dot, 1%Z) else (dot, (-1)%Z).
(** primitives.go:93-96, 100-103, 106-111: AnchoredPluckerVec. *)
Definition anchored_init (P L : v3) : anchored := Anchored (plucker_init P L) P.
Definition anchored_segment (P1 P2 : v3) : anchored := Anchored (plucker_segment P1 P2) P1.
Definition anchored_translate (ap : anchored) (dx : v3) : anchored := Anchored (plucker_translate (a_p ap) dx) (add3 (a_o ap) dx).

(** primitives.go:122-133 tetraIdxs, VertexIdx. *)
Definition tetra_idxs : list (list nat) := [[3; 2; 1]; [2; 3; 0]; [1; 0; 3]; [0; 1; 2]]%nat.
Definition vertex_idx (face k : nat) : nat := nth k (nth face tetra_idxs []) 0%nat.
(** primitives.go:361-373, 407-411: pluckerTetraEdges, pluckerTetraFlips, EdgeIdx. *)
Definition plucker_edges : list (list nat) := [[3; 4; 5]; [2; 1; 5]; [2; 4; 0]; [3; 1; 0]]%nat.
Definition plucker_flips : list (list bool) := [[true; false; true]; [true; false; false]; [false; true; true]; [false; true; false]].
Definition edge_idx (face k : nat) : nat * bool := (nth k (nth face plucker_edges []) 0%nat, nth k (nth face plucker_flips []) false).
(** primitives.go:384-385, 415-417: tetraEdgeStarts, tetraEdgeEnds. *)
Definition edge_starts : list nat := [0; 0; 0; 1; 1; 2]%nat.
Definition edge_ends : list nat := [1; 2; 3; 2; 3; 3]%nat.
(** primitives.go:375-382 pluckerTetraFaceShare. *)
Definition face_share : list (list bool) :=
  [[false; true; true; true; true; false]; [true; false; true; true; false; true]; [true; true; false; false; true; true];
   [true; true; false; false; true; true]; [true; false; true; true; false; true]; [false; true; true; true; true; false]].

(** primitives.go:388-395 PluckerTetra.Init. *)
Definition plucker_tetra (t : tetra) : list plucker :=
  [plucker_segment (t_0 t) (t_1 t); plucker_segment (t_0 t) (t_2 t); plucker_segment (t_0 t) (t_3 t); plucker_segment (t_1 t) (t_2 t);
   plucker_segment (t_1 t) (t_3 t); plucker_segment (t_2 t) (t_3 t)].
(** primitives.go:398-402 PluckerTetra.Translate. *)
Definition plucker_tetra_translate (pt : list plucker) (dx : v3) : list plucker := map (fun p => plucker_translate p dx) pt.
Definition edge (pt : list plucker) (i : nat) : plucker := nth i pt (Plucker zero3 zero3).

(** primitives.go:318-321 TetraFaceBary. *)
Record bary := Bary { b_w0 : R; b_w1 : R; b_w2 : R; b_face : nat }.

(** The state of the loop in IntersectionBary: fEnter with w.bEnter, fLeave with w.bLeave; None is -1. *)
Definition bary_state := (option bary * option bary)%type.
(** intersection.go:33-56: one face, without the early return and the breaks. *)
Definition bary_face (pt : list plucker) (p : plucker) (face : nat) (st : bary_state) : bary_state :=
  let '(i0, flip0) := edge_idx face 0 in let '(i1, flip1) := edge_idx face 1 in let '(i2, flip2) := edge_idx face 2 in
  let '(d0, s0) := sign_dot p (edge pt i0) flip0 in let '(d1, s1) := sign_dot p (edge pt i1) flip1 in let '(d2, s2) := sign_dot p (edge pt i2) flip2 in
  let '(en, le) := st in
  if match en with None => true | _ => false end && (0 <=? s0)%Z && (0 <=? s1)%Z && (0 <=? s2)%Z then (Some (Bary d0 d1 d2 face), le)
  else if match le with None => true | _ => false end && (s0 <=? 0)%Z && (s1 <=? 0)%Z && (s2 <=? 0)%Z then (en, Some (Bary d0 d1 d2 face))
  else (en, le).
(** intersection.go:28-57: the faces 3, 2, 1, 0; the loop is left when both faces have been found, and the function when none has been found before face 0. *)
Fixpoint bary_loop (pt : list plucker) (p : plucker) (faces : list nat) (st : bary_state) : option bary_state :=
  match faces with
  | [] => Some st
  | face :: rest =>
      match face, st with
      | 0%nat, (None, None) => None
      | _, _ => match bary_face pt p face st with
                | (Some en, Some le) => Some (Some en, Some le)
                | st' => bary_loop pt p rest st'
                end
      end
  end.
(** intersection.go:23-63 IntersectionBary; None: ok is false. *)
Definition intersection_bary (pt : list plucker) (p : plucker) : option (bary * bary) :=
  match bary_loop pt p [3; 2; 1; 0]%nat (None, None) with
  | Some (Some en, Some le) => Some (en, le)
  | _ => None
  end.

(** primitives.go:333-338: the first coordinate of the direction that is not almost zero; 3 when there is none. *)
Definition pick_dim (U : v3) : nat :=
  let big x := Rltb (1 / 1000000) x || Rltb x (- (1 / 1000000)) in
  if big (cx U) then 0%nat else if big (cy U) then 1%nat else if big (cz U) then 2%nat else 3%nat.
(** The value of Distance: a number, NaN or an infinity (division by 0), or a panic (index out of range). *)
Inductive fval := Num (x : R) | NotFinite | Panics.
(** primitives.go:325-347 Distance. *)
Definition distance (t : tetra) (ap : anchored) (b : bary) : fval :=
  let sum := 0 + b_w0 b + b_w1 b + b_w2 b in
  let dim := pick_dim (p_u (a_p ap)) in
  match coord (vertex t (vertex_idx (b_face b) 0)) dim, coord (vertex t (vertex_idx (b_face b) 1)) dim,
        coord (vertex t (vertex_idx (b_face b) 2)) dim, coord (a_o ap) dim, coord (p_u (a_p ap)) dim with
  | Some p0, Some p1, Some p2, Some o, Some u =>
      if Reqb sum 0 then NotFinite
      else Num ((b_w0 b / sum * p0 + b_w1 b / sum * p1 + b_w2 b / sum * p2 - o) / u)
  | _, _, _, _, _ => Panics
  end.
(** intersection.go:74-84 IntersectionDistance; None: ok is false. *)
Definition intersection_distance (pt : list plucker) (t : tetra) (ap : anchored) : option (fval * fval) :=
  match intersection_bary pt (a_p ap) with
  | None => None
  | Some (en, le) => Some (distance t ap en, distance t ap le)
  end.

(** ** Lines in the plane *)
(** lines.go:10-20. *)
Definition line_eps : R := 1 / 100000.
Definition line_eps_eq (x y : R) : bool := Rltb y (x + line_eps) && Rltb (x - line_eps) y.
(** lines.go:13-16 Line. *)
Record line := Line { l_y0 : R; l_m : R; l_vert : bool }.
(** lines.go:25-38 Line.Init, on a line with previous contents l (M keeps its value for a vertical line). *)
Definition line_init (l : line) (x1 y1 x2 y2 : R) : line * bool :=
  if line_eps_eq x1 x2 then
    if line_eps_eq y1 y2 then (l, false) else (Line x1 (l_m l) true, true)
  else let m := (y1 - y2) / (x1 - x2) in (Line (y1 - m * x1) m false, true).
(** lines.go:42-44 InitFromPlucker. *)
Definition line_plucker (l : line) (ap : anchored) : line * bool := line_init l (cx (a_o ap)) (cy (a_o ap)) (cx (p_u (a_p ap))) (cy (p_u (a_p ap))).
(** lines.go:47-49 AreParallel. *)
Definition are_parallel (l1 l2 : line) : bool := (l_vert l1 && l_vert l2) || line_eps_eq (l_m l1) (l_m l2).
(** lines.go:54-68 Solve. *)
Definition solve (l1 l2 : line) : option (R * R) :=
  if are_parallel l1 l2 then None
  else if l_vert l1 then Some (l_y0 l1, l_y0 l2 + l_m l2 * l_y0 l1)
  else if l_vert l2 then Some (l_y0 l2, l_y0 l1 + l_m l1 * l_y0 l2)
  else let x := (l_y0 l2 - l_y0 l1) / (l_m l1 - l_m l2) in Some (x, l_y0 l1 + l_m l1 * x).

(** ** Angles *)
(** rotation.go:99-108 AngularDistance. *)
Definition angular_distance (phi1 phi2 : R) : R :=
  let d := phi2 - phi1 in if Rltb PI d then d - 2 * PI else if Rltb d (- PI) then d + 2 * PI else d.
(** rotation.go:113-121 AngleInRange. *)
Definition angle_in_range (phi low width : R) : bool :=
  let high := low + width in
  if Rltb (2 * PI) high then Rleb low phi || Rleb phi (high - 2 * PI) else Rleb low phi && Rleb phi high.

(** ** Slices *)
(** intersection.go:98-101 crossesZPlane. *)
Definition crosses_z (t : tetra) (i1 i2 : nat) (z : R) : bool := negb (Bool.eqb (Rltb (cz (vertex t i1)) z) (Rltb (cz (vertex t i2)) z)).
(** intersection.go:106-112 intersectZPlane; when L[2] = 0 the result (0, 0, false) is used as (0, 0) by ZPlaneSlice. *)
Definition intersect_z (P L : v3) (z : R) : R * R :=
  if Reqb (cz L) 0 then (0, 0) else let t := (z - cz P) / cz L in (cx P + cx L * t, cy P + cy L * t).
(** intersection.go:171-190: the corners of the slice with the edges they are on (their polar angles are left out). *)
Definition slice_points (t : tetra) (pt : list plucker) (z : R) : list (R * R * nat) :=
  flat_map (fun i => let start := nth i edge_starts 0%nat in let stop := nth i edge_ends 0%nat in
    if crosses_z t start stop z then [(intersect_z (vertex t start) (p_u (edge pt i)) z, i)] else []) (seq 0 6).
(** intersection.go:114-140: the order in which link visits the corners; (lineStarts, lineEnds). The variable lineEnd starts at -1 and keeps its value
    when no corner is found: None. *)
Fixpoint link_find (edges : list nat) (starts : list (option nat)) (ei : nat) (js : list nat) : option nat :=
  match js with
  | [] => None
  | j :: rest => if nth (nth j edges 0%nat) (nth ei face_share []) false && match nth j starts None with None => true | _ => false end then Some j
                 else link_find edges starts ei rest
  end.
Fixpoint link_loop (edges : list nat) (n i fuel : nat) (starts ends : list (option nat)) (lineEnd : option nat) (ei : nat) : list (option nat) * list (option nat) :=
  match fuel with
  | O => (starts, ends)
  | S fuel' =>
      let lineStart := match i with O => Some 0%nat | S i' => nth i' ends None end in
      let '(lineEnd', ei') := if Nat.eqb i (n - 1) then (Some 0%nat, ei)
        else match link_find edges starts ei (seq 0 n) with Some j => (Some j, nth j edges 0%nat) | None => (lineEnd, ei) end in
      let set l v := firstn i l ++ v :: skipn (S i) l in
      link_loop edges n (S i) fuel' (set starts lineStart) (set ends lineEnd') lineEnd' ei'
  end.
Definition link (edges : list nat) : list (option nat) * list (option nat) :=
  let n := List.length edges in link_loop edges n 0 n (repeat None n) (repeat None n) None (nth 0 edges 0%nat).
(** intersection.go:269-281 RSqrMinMax on the corners of a slice (an index error when there is none). *)
Definition rsqr_min_max (pts : list (R * R)) : option (R * R) :=
  let r2 (p : R * R) := fst p * fst p + snd p * snd p in
  match pts with
  | [] => None
  | p :: rest => Some (fold_left (fun (m : R * R) q => if Rltb (snd m) (r2 q) then (fst m, r2 q) else if Rltb (r2 q) (fst m) then (r2 q, snd m) else m)
      rest (r2 p, r2 p))
  end.

(** ** Platonic solids *)
(** platonic.go:9-35 PlatonicSolid, Sides. *)
Inductive solid := Tetrahedron | Hexahedron | Octahedron | Dodecahedron | Icosahedron.
Definition sides (s : solid) : nat := match s with Tetrahedron => 4 | Hexahedron => 6 | Octahedron => 8 | Dodecahedron => 12 | Icosahedron => 20 end.
(** platonic.go:42-57 NewPlatonicSolid. *)
Definition new_solid (n : Z) : option solid :=
  match n with 4%Z => Some Tetrahedron | 6%Z => Some Hexahedron | 8%Z => Some Octahedron | 12%Z => Some Dodecahedron | 20%Z => Some Icosahedron | _ => None end.
(** platonic.go:59-72 NewUniquePlatonicSolid. *)
Definition new_unique_solid (n : Z) : option solid :=
  match n with 3%Z => Some Hexahedron | 4%Z => Some Tetrahedron | 6%Z => Some Dodecahedron | 10%Z => Some Icosahedron | _ => None end.
(** platonic.go:82-157: the tables. *)
Definition golden : R := (1 + sqrt 5) / 2.
Definition tetrahedron_faces : list (list v3) :=
  [[V3 1 1 1; V3 (-1) 1 (-1); V3 1 (-1) (-1)]; [V3 (-1) 1 (-1); V3 (-1) (-1) 1; V3 1 (-1) (-1)];
   [V3 1 1 1; V3 1 (-1) (-1); V3 (-1) (-1) 1]; [V3 1 1 1; V3 (-1) (-1) 1; V3 (-1) 1 (-1)]].
Definition hexahedron_faces : list (list v3) :=
  [[V3 1 (-1) (-1); V3 1 1 (-1); V3 1 1 1; V3 1 (-1) 1]; [V3 (-1) 1 (-1); V3 (-1) 1 1; V3 1 1 1; V3 1 1 (-1)];
   [V3 (-1) (-1) 1; V3 1 (-1) 1; V3 1 1 1; V3 (-1) 1 1];
   [V3 (-1) (-1) (-1); V3 1 (-1) (-1); V3 1 (-1) 1; V3 (-1) (-1) 1]; [V3 (-1) (-1) (-1); V3 (-1) (-1) 1; V3 (-1) 1 1; V3 (-1) 1 (-1)];
   [V3 (-1) (-1) (-1); V3 (-1) 1 (-1); V3 1 1 (-1); V3 1 (-1) (-1)]].
Definition octahedron_faces : list (list v3) :=
  let a := 1 / (2 * sqrt 2) in let b := 1 / 2 in
  [[V3 (-a) 0 a; V3 (-a) 0 (-a); V3 0 b 0]; [V3 (-a) 0 (-a); V3 a 0 (-a); V3 0 b 0]; [V3 a 0 (-a); V3 a 0 a; V3 0 b 0]; [V3 a 0 a; V3 (-a) 0 a; V3 0 b 0];
   [V3 a 0 a; V3 a 0 (-a); V3 0 (-b) 0]; [V3 (-a) 0 a; V3 a 0 a; V3 0 (-b) 0]; [V3 (-a) 0 (-a); V3 (-a) 0 a; V3 0 (-b) 0]; [V3 a 0 (-a); V3 (-a) 0 (-a); V3 0 (-b) 0]].
Definition dodecahedron_faces : list (list v3) :=
  let b := 1 / golden in let c := 2 - golden in
  [[V3 c 0 1; V3 (-c) 0 1; V3 (-b) b b; V3 0 1 c; V3 b b b];
   [V3 (-c) 0 1; V3 c 0 1; V3 b (-b) b; V3 0 (-1) c; V3 (-b) (-b) b];
   [V3 0 (-1) (-c); V3 0 (-1) c; V3 (-b) (-b) b; V3 (-1) (-c) 0; V3 (-b) (-b) (-b)];
   [V3 0 (-1) c; V3 0 (-1) (-c); V3 b (-b) (-b); V3 1 (-c) 0; V3 b (-b) b];
   [V3 1 c 0; V3 1 (-c) 0; V3 b (-b) b; V3 c 0 1; V3 b b b];
   [V3 (-1) (-c) 0; V3 (-1) c 0; V3 (-b) b b; V3 (-c) 0 1; V3 (-b) (-b) b];
   [V3 c 0 (-1); V3 (-c) 0 (-1); V3 (-b) (-b) (-b); V3 0 (-1) (-c); V3 b (-b) (-b)];
   [V3 (-c) 0 (-1); V3 c 0 (-1); V3 b b (-b); V3 0 1 (-c); V3 (-b) b (-b)];
   [V3 0 1 (-c); V3 0 1 c; V3 b b b; V3 1 c 0; V3 b b (-b)];
   [V3 0 1 c; V3 0 1 (-c); V3 (-b) b (-b); V3 (-1) c 0; V3 (-b) b b];
   [V3 (-1) c 0; V3 (-1) (-c) 0; V3 (-b) (-b) (-b); V3 (-c) 0 (-1); V3 (-b) b (-b)];
   [V3 1 (-c) 0; V3 1 c 0; V3 b b (-b); V3 c 0 (-1); V3 b (-b) (-b)]].
Definition icosahedron_faces : list (list v3) :=
  let a := 1 / 2 in let b := 1 / (2 * golden) in
  [[V3 0 b a; V3 (-b) a 0; V3 b a 0]; [V3 0 b (-a); V3 b a 0; V3 (-b) a 0]; [V3 0 b a; V3 0 (-b) a; V3 (-a) 0 b]; [V3 0 b a; V3 a 0 b; V3 0 (-b) a];
   [V3 0 b a; V3 (-a) 0 b; V3 (-b) a 0]; [V3 0 (-b) (-a); V3 (-a) 0 (-b); V3 (-b) (-a) 0]; [V3 0 b a; V3 b a 0; V3 a 0 b]; [V3 b a 0; V3 a 0 (-b); V3 a 0 b];
   [V3 0 (-b) a; V3 a 0 b; V3 b (-a) 0]; [V3 (-b) a 0; V3 (-a) 0 b; V3 (-a) 0 (-b)];
   [V3 0 (-b) (-a); V3 (-b) (-a) 0; V3 b (-a) 0]; [V3 0 (-b) a; V3 b (-a) 0; V3 (-b) (-a) 0]; [V3 0 b (-a); V3 0 (-b) (-a); V3 a 0 (-b)];
   [V3 0 b (-a); V3 (-a) 0 (-b); V3 0 (-b) (-a)]; [V3 0 (-b) (-a); V3 b (-a) 0; V3 a 0 (-b)]; [V3 0 b (-a); V3 a 0 (-b); V3 b a 0];
   [V3 0 b (-a); V3 (-b) a 0; V3 (-a) 0 (-b)]; [V3 (-b) (-a) 0; V3 (-a) 0 (-b); V3 (-a) 0 b]; [V3 0 (-b) a; V3 (-b) (-a) 0; V3 (-a) 0 b]; [V3 b (-a) 0; V3 a 0 b; V3 a 0 (-b)]].
(** platonic.go:162-183 FaceVertices for an index i < Sides() (a larger one panics). *)
Definition solid_faces (s : solid) : list (list v3) :=
  match s with Tetrahedron => tetrahedron_faces | Hexahedron => hexahedron_faces | Octahedron => octahedron_faces | Dodecahedron => dodecahedron_faces
             | Icosahedron => icosahedron_faces end.
(** platonic.go:191-213 Normals: sums of the vertices of the faces, divided by their lengths. *)
Definition normal (verts : list v3) : v3 :=
  let v := fold_left add3 verts zero3 in let sum := sqrt (0 + cx v * cx v + cy v * cy v + cz v * cz v) in V3 (cx v / sum) (cy v / sum) (cz v / sum).
Definition normals (s : solid) : list v3 := map normal (solid_faces s).
(** platonic.go:217-225 UniqueNormals. *)
Definition unique_normals (s : solid) : list v3 :=
  match s with Tetrahedron => normals s | _ => firstn (List.length (normals s) / 2) (normals s) end.
