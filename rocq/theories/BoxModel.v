(** * The region of a file that its header reports (no proofs in this file).

    Models boundingBox, io/io.go:263-304, used by the headers of LGadget-2, Gadget-2 and ARTIO files (lgadget2.go:39, gadget2.go:47, artio.go:255).
    float32 and float64 are reals. *)
From Verif Require Export LosModel.
From Coq Require Import Reals List.
Import List ListNotations.
Local Open Scope R_scope.

(** io.go:275-292: one coordinate x of a particle; (x0, w) = (origin[j], width[j]). min and max are never used. *)
Definition box_coord (tw : R) (x : R) (b : R * R) : R * R :=
  let '(x0, w) := b in
  if Rltb x0 x && Rltb x (x0 + w) then b else
  let tw2 := tw / 2 in
  let x := if Rltb tw2 (x - x0) then x - tw else if Rltb (x - x0) (- tw2) then x + tw else x in
  if Rltb x x0 then (x, w + (x0 - x))
  else if Rltb w (x - x0) then (x0, x - x0)
  else b.

(** io.go:296-301 *)
Definition box_limit (tw : R) (b : R * R) : R * R := if Rltb (tw / 2) (snd b) then (0, tw) else b.

(** io.go:274: the loop over j. *)
Definition box_step (tw : R) (bs : (R * R) * (R * R) * (R * R)) (v : vec) : (R * R) * (R * R) * (R * R) :=
  let '(bx, by_, bz) := bs in let '(x, y, z) := v in (box_coord tw x bx, box_coord tw y by_, box_coord tw z bz).

(** io.go:263-304. [None]: xs[0] with no particles. *)
Definition bounding_box (xs : list vec) (tw : R) : option (vec * vec) :=
  match xs with
  | [] => None
  | (x, y, z) :: _ =>
      let '(bx, by_, bz) := fold_left (box_step tw) xs ((x, 0), (y, 0), (z, 0)) in
      let bx := box_limit tw bx in let by_ := box_limit tw by_ in let bz := box_limit tw bz in
      Some ((fst bx, fst by_, fst bz), (snd bx, snd by_, snd bz))
  end.
