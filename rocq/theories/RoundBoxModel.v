(** * The region of a file that its header reports, with rounding: boundingBox, io/io.go:263-304 (no proofs in this file).

    Every float32 operation is the exact operation followed by a rounding of the machine (RoundModel.v); tw is float32(totalWidth). BoxModel.v models the same lines
    without rounding. *)
From Verif Require Export LosModel RoundModel.
From Coq Require Import Reals List.
Import List ListNotations.
Local Open Scope R_scope.

Section RoundBox.
Variable M : machine.

(** io.go:275-292: one coordinate x of a particle; (x0, w) = (origin[j], width[j]). min and max are never used. *)
Definition f_box_coord (tw : R) (b : R * R) (x : R) : R * R :=
  let '(x0, w) := b in
  if Rltb x0 x && Rltb x (r32 M (x0 + w)) then b else
  let tw2 := r32 M (tw / 2) in
  let x := if Rltb tw2 (r32 M (x - x0)) then r32 M (x - tw) else if Rltb (r32 M (x - x0)) (- tw2) then r32 M (x + tw) else x in
  if Rltb x x0 then (x, r32 M (w + r32 M (x0 - x)))
  else if Rltb w (r32 M (x - x0)) then (x0, r32 M (x - x0))
  else b.

(** io.go:296-301 *)
Definition f_box_limit (tw : R) (b : R * R) : R * R := if Rltb (r32 M (tw / 2)) (snd b) then (0, tw) else b.

(** io.go:274: the loop over j. *)
Definition f_box_step (tw : R) (bs : (R * R) * (R * R) * (R * R)) (v : vec) : (R * R) * (R * R) * (R * R) :=
  let '(bx, by_, bz) := bs in let '(x, y, z) := v in (f_box_coord tw bx x, f_box_coord tw by_ y, f_box_coord tw bz z).

(** io.go:263-304. [None]: xs[0] with no particles. *)
Definition f_bounding_box (xs : list vec) (tw : R) : option (vec * vec) :=
  match xs with
  | [] => None
  | (x, y, z) :: _ =>
      let '(bx, by_, bz) := fold_left (f_box_step tw) xs ((x, 0), (y, 0), (z, 0)) in
      let bx := f_box_limit tw bx in let by_ := f_box_limit tw by_ in let bz := f_box_limit tw bz in
      Some ((fst bx, fst by_, fst bz), (snd bx, snd by_, snd bz))
  end.
End RoundBox.
