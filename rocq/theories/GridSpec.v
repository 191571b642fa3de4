(** * Specification: cells, periodic distance, strictly increasing lists (no model imported). *)
From Coq Require Import Reals ZArith List Arith Lia.
Import ListNotations.
Local Open Scope R_scope.

(** The coordinate [x], brought into the box [0, W), lies in the k-th of the c slices of width W/c. *)
Definition slice_has (W : R) (c : nat) (k : nat) (x : R) : Prop :=
  (k < c)%nat /\ exists (m : Z), let x' := x + IZR m * W in
     0 <= x' < W /\ INR k * (W / INR c) <= x' < (INR k + 1) * (W / INR c).

(** The cell with flat index [idx], x running fastest, contains the point. *)
Definition cell_has (W : R) (c : nat) (idx : nat) (x y z : R) : Prop :=
  exists kx ky kz, idx = (kx + ky * c + kz * (c * c))%nat /\
    slice_has W c kx x /\ slice_has W c ky y /\ slice_has W c kz z.

(** Some periodic image of the second point is within r of the first. *)
Definition within (W r : R) (x1 y1 z1 x2 y2 z2 : R) : Prop :=
  exists a b d : Z,
    (x1 - x2 + IZR a * W) ^ 2 + (y1 - y2 + IZR b * W) ^ 2 + (z1 - z2 + IZR d * W) ^ 2 <= r ^ 2.

(** The squared distance to the nearest periodic image. *)
Definition nearest2 (W : R) (x1 y1 z1 x2 y2 z2 d2 : R) : Prop :=
  (exists a b d : Z,
    (x1 - x2 + IZR a * W) ^ 2 + (y1 - y2 + IZR b * W) ^ 2 + (z1 - z2 + IZR d * W) ^ 2 = d2) /\
  (forall a b d : Z,
    d2 <= (x1 - x2 + IZR a * W) ^ 2 + (y1 - y2 + IZR b * W) ^ 2 + (z1 - z2 + IZR d * W) ^ 2).

(** Strictly increasing. *)
Definition increasing (l : list nat) : Prop :=
  forall i j, (i < j < List.length l)%nat -> (nth i l 0 < nth j l 0)%nat.

(** Halos i and j are linked: one of their centres' periodic images is within [mult] radii of the halo
    that comes first in the catalogue. *)
Definition linked (W : R) (n : nat) (xs ys zs rs : list R) (mult : R) (i j : nat) : Prop :=
  (i < n)%nat /\ (j < n)%nat /\ i <> j /\
  within W (mult * nth (Nat.min i j) rs 0) (nth i xs 0) (nth i ys 0) (nth i zs 0) (nth j xs 0) (nth j ys 0) (nth j zs 0).

(** The list enumerates the indices that satisfy P, in increasing order, each once. *)
Definition enumerates (l : list nat) (P : nat -> Prop) : Prop := increasing l /\ forall j, In j l <-> P j.

(** A catalogue of n halos with every coordinate in the closed box and every radius scaled by [mult] at most a quarter of
    the box side less one grid cell. *)
Record catalogue (W : R) (c n : nat) (xs ys zs : list R) : Prop := {
  cat_W : 0 < W; cat_c : (0 < c)%nat;
  cat_x : List.length xs = n; cat_y : List.length ys = n; cat_z : List.length zs = n;
  cat_in : forall i, (i < n)%nat -> 0 <= nth i xs 0 <= W /\ 0 <= nth i ys 0 <= W /\ 0 <= nth i zs 0 <= W }.
