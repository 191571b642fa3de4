(** * Specification vocabulary for potential maps (independent of the model's functions). *)
From Coq Require Import Reals List.
From Verif Require Import LosSpec PhaseSpec.
Import ListNotations.
Local Open Scope R_scope.

(** The potential of point masses (position, mass) at q, with G = 1. *)
Fixpoint potential (q : vec3) (l : list (vec3 * R)) : R :=
  match l with
  | [] => 0
  | (x, m) :: l' => potential q l' - m / sqrt (dist2_3 x q)
  end.

(** The i-th of n equally spaced coordinates from -G to G. *)
Definition grid_coord (G : R) (n i : nat) : R := - G + INR i * (2 * G / (INR n - 1)).

(** used are the elements of l, in order, of which P holds; P gets the index of the element counted from k. *)
Inductive chosen {A} (P : nat -> A -> Prop) : nat -> list A -> list A -> Prop :=
| chosen_nil k : chosen P k [] []
| chosen_yes k a l used : P k a -> chosen P (S k) l used -> chosen P k (a :: l) (a :: used)
| chosen_no k a l used : ~ P k a -> chosen P (S k) l used -> chosen P k (a :: l) used.

(** The three maps of a halo hold the potential of the particles at the points of grids in the planes through the centre o: cell iy * n + ix
    of the first map is for the point at - coordinate ix, - coordinate iy in the x-y plane, and so on. *)
Definition mirrored_maps (n : nat) (G : R) (o : vec3) (parts : list (vec3 * R)) (xy yz xz : nat -> R) : Prop :=
  forall i j, (i < n)%nat -> (j < n)%nat ->
    let a := grid_coord G n i in let b := grid_coord G n j in
    xy (j * n + i)%nat = potential (minus3 o (a, b, 0)) parts /\
    yz (j * n + i)%nat = potential (minus3 o (0, a, b)) parts /\
    xz (j * n + i)%nat = potential (minus3 o (a, 0, b)) parts.
