(** * Angles of tetrahedron slices: los/geom/intersection.go:114-265.

    Floats are reals (float32 conversions are the identity), as in GeomModel. *)
From Coq Require Import Reals List ZArith.
From Verif Require Import RealBase ShellModel GeomModel.
Import List ListNotations.
Local Open Scope R_scope.

(** intersection.go:177-180: the polar angle of a corner (rotation.go:93-95 PolarAngle), moved to [0, 2 pi). *)
Definition corner_phi (p : R * R) : R := let phi := atan2 (snd p) (fst p) in if Rltb phi 0 then phi + 2 * PI else phi.
(** intersection.go:171-190: Phis of a slice. *)
Definition slice_phis (t : tetra) (pt : list plucker) (z : R) : list R := map (fun c => corner_phi (fst c)) (slice_points t pt z).

(** intersection.go:142-154: linePhiStarts[i], linePhiWidths[i] and the corners lineStarts[i], lineEnds[i] after the exchange, for the line between the
    corners s and e. *)
Record line_ang := LineAng { la_start : R; la_width : R; la_from : nat; la_to : nat }.
Definition line_angle (phis : list R) (s e : nat) : line_ang :=
  let phiLow := nth s phis 0 in
  let phiHigh := nth e phis 0 in
  let width := angular_distance phiLow phiHigh in
  if Rltb width 0 then LineAng phiHigh (- width) e s else LineAng phiLow width s e.
(** A corner that link found (the index -1, which would be an index error, is None in GeomModel; it does not occur by C168_cycle: 0 stands for it here). *)
Definition idx (o : option nat) : nat := match o with Some j => j | None => 0%nat end.
Definition line_angles (phis : list R) (se : list (option nat) * list (option nat)) : list line_ang :=
  map (fun p => line_angle phis (idx (fst p)) (idx (snd p))) (List.combine (fst se) (snd se)).
(** intersection.go:168-199 ZPlaneSlice: the angular part of the slice. *)
Definition slice_lines (t : tetra) (pt : list plucker) (z : R) : list line_ang :=
  line_angles (slice_phis t pt z) (link (map snd (slice_points t pt z))).

(** intersection.go:201-207 angularWidth. *)
Definition angular_width (low high : R) : R := if Rltb low high then high - low else 2 * PI + high - low.

(** intersection.go:214-230 IntersectingLines: the indices of l1 and l2 (None: nil). *)
Definition line_hit (phi : R) (l : line_ang) : bool :=
  let dist := angular_width (la_start l) phi in Rleb 0 dist && Rltb dist (la_width l).
Fixpoint lines_loop (phi : R) (ls : list line_ang) (i : nat) (l1 : option nat) : option nat * option nat :=
  match ls with
  | [] => (l1, None)
  | l :: rest =>
      if line_hit phi l then
        match l1 with
        | None => lines_loop phi rest (S i) (Some i)
        | Some _ => (l1, Some i)
        end
      else lines_loop phi rest (S i) l1
  end.
Definition intersecting_lines (phi : R) (ls : list line_ang) : option nat * option nat := lines_loop phi ls 0 None.

(** intersection.go:233-265 AngleRange: (start, width). *)
Definition expand (st : R * R * R) (phi : R) : R * R * R :=
  let '(lowPhi, highPhi, phiWidth) := st in
  let lowWidth := angular_width phi highPhi in
  let highWidth := angular_width lowPhi phi in
  if Rltb highWidth lowWidth then
    if Rltb phiWidth highWidth then (lowPhi, phi, highWidth) else st
  else if Rltb phiWidth lowWidth then (phi, highPhi, lowWidth) else st.
(** Phis is an array of four numbers: a slice has at least three (C168_corners, ZPlaneSlice). None: fewer than two. *)
Definition angle_range (phis : list R) : option (R * R) :=
  match phis with
  | p0 :: p1 :: rest =>
      let '(lowPhi, highPhi) := if Rltb (angular_width p1 p0) (angular_width p0 p1) then (p1, p0) else (p0, p1) in
      let '(lo, _, w) := fold_left expand rest (lowPhi, highPhi, angular_width lowPhi highPhi) in
      Some (if Rltb PI w then (0, 2 * PI) else (lo, w))
  | _ => None
  end.
