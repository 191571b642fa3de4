(** * What an interpolator must do (specification only, independent of the code). *)
From Coq Require Import Reals List Lia Lra.
Import ListNotations.
Local Open Scope R_scope.

(** Table abscissae in strictly increasing / decreasing order. *)
Definition increasing (xs : list R) : Prop :=
  forall i j a b, (i < j)%nat -> nth_error xs i = Some a -> nth_error xs j = Some b -> a < b.
Definition decreasing (xs : list R) : Prop :=
  forall i j a b, (i < j)%nat -> nth_error xs i = Some a -> nth_error xs j = Some b -> b < a.

(** The uniform grid x0, x0+dx, ..., n points. *)
Definition uniform_grid (x0 dx : R) (n : nat) : list R := map (fun i => x0 + INR i * dx) (seq 0 n).

(** x is within the range of the table. *)
Definition within (xs : list R) (x : R) : Prop :=
  exists a b, nth_error xs 0 = Some a /\ nth_error xs (length xs - 1) = Some b /\ a <= x <= b.

(** i is a cell of the table that contains x. *)
Definition cell (xs : list R) (x : R) (i : nat) : Prop :=
  exists a b, nth_error xs i = Some a /\ nth_error xs (S i) = Some b /\ a <= x <= b.

(** One dimension. *)
Record interpolates1 (xs vals : list R) (ev : R -> option R) : Prop := {
  i1_node : forall k a v, nth_error xs k = Some a -> nth_error vals k = Some v -> ev a = Some v;
  i1_affine : forall p q, (forall k a v, nth_error xs k = Some a -> nth_error vals k = Some v -> v = p + q * a) ->
                forall x, within xs x -> ev x = Some (p + q * x);
  i1_bounded : forall x, within xs x -> exists i v1 v2 r, cell xs x i /\ nth_error vals i = Some v1 /\ nth_error vals (S i) = Some v2 /\
                 ev x = Some r /\ Rmin v1 v2 <= r <= Rmax v1 v2;
  i1_outside : forall x, ~ within xs x -> ev x = None }.

(** Two dimensions; the value at node (i, j) is vals[i + nx*j]. *)
Record interpolates2 (xs ys vals : list R) (ev : R -> R -> option R) : Prop := {
  i2_node : forall i j a b v, nth_error xs i = Some a -> nth_error ys j = Some b -> nth_error vals (i + length xs * j) = Some v -> ev a b = Some v;
  i2_affine : forall p q r s,
     (forall i j a b v, nth_error xs i = Some a -> nth_error ys j = Some b -> nth_error vals (i + length xs * j) = Some v ->
        v = p + q * a + r * b + s * a * b) ->
     forall x y, within xs x -> within ys y -> ev x y = Some (p + q * x + r * y + s * x * y);
  i2_bounded : forall x y, within xs x -> within ys y -> exists i j r, cell xs x i /\ cell ys y j /\ ev x y = Some r /\
     forall m M, (forall di dj v, (di <= 1)%nat -> (dj <= 1)%nat -> nth_error vals ((i + di) + length xs * (j + dj)) = Some v -> m <= v <= M) -> m <= r <= M;
  i2_outside : forall x y, ~ within xs x \/ ~ within ys y -> ev x y = None }.

(** Three dimensions; the value at node (i, j, k) is vals[i + nx*j + nx*ny*k]. *)
Record interpolates3 (xs ys zs vals : list R) (ev : R -> R -> R -> option R) : Prop := {
  i3_node : forall i j k a b c v, nth_error xs i = Some a -> nth_error ys j = Some b -> nth_error zs k = Some c ->
     nth_error vals (i + length xs * j + length xs * length ys * k) = Some v -> ev a b c = Some v;
  i3_affine : forall p qx qy qz rxy rxz ryz s,
     (forall i j k a b c v, nth_error xs i = Some a -> nth_error ys j = Some b -> nth_error zs k = Some c ->
        nth_error vals (i + length xs * j + length xs * length ys * k) = Some v ->
        v = p + qx * a + qy * b + qz * c + rxy * a * b + rxz * a * c + ryz * b * c + s * a * b * c) ->
     forall x y z, within xs x -> within ys y -> within zs z ->
       ev x y z = Some (p + qx * x + qy * y + qz * z + rxy * x * y + rxz * x * z + ryz * y * z + s * x * y * z);
  i3_bounded : forall x y z, within xs x -> within ys y -> within zs z -> exists i j k r, cell xs x i /\ cell ys y j /\ cell zs z k /\ ev x y z = Some r /\
     forall m M, (forall di dj dk v, (di <= 1)%nat -> (dj <= 1)%nat -> (dk <= 1)%nat ->
        nth_error vals ((i + di) + length xs * (j + dj) + length xs * length ys * (k + dk)) = Some v -> m <= v <= M) -> m <= r <= M;
  i3_outside : forall x y z, ~ within xs x \/ ~ within ys y \/ ~ within zs z -> ev x y z = None }.

(** ** Tridiagonal systems: row i reads a_i u_{i-1} + b_i u_i + c_i u_{i+1} = r_i (a_0 and c_{n-1} are not part of it). *)
Definition tri_solution (as_ bs cs rs us : list R) : Prop :=
  length us = length bs /\
  forall i, (i < length bs)%nat ->
    (match i with O => 0 | S k => nth i as_ 0 * nth k us 0 end) + nth i bs 0 * nth i us 0
    + (if Nat.eqb (S i) (length bs) then 0 else nth i cs 0 * nth (S i) us 0) = nth i rs 0.

(** Determinant of the leading k x k block (three term recurrence). *)
Fixpoint minor2 (as_ bs cs : list R) (k : nat) : R * R :=
  match k with
  | O => (1, nth 0 bs 0)
  | S j => let (p, q) := minor2 as_ bs cs j in (q, nth (S j) bs 0 * q - nth (S j) as_ 0 * nth j cs 0 * p)
  end.
Definition leading_minor (as_ bs cs : list R) (k : nat) : R := fst (minor2 as_ bs cs k).

(** Strict diagonal dominance by rows. *)
Definition dominant (as_ bs cs : list R) : Prop :=
  forall i, (i < length bs)%nat -> (match i with O => 0 | _ => Rabs (nth i as_ 0) end) + (if Nat.eqb (S i) (length bs) then 0 else Rabs (nth i cs 0)) < Rabs (nth i bs 0).

(** ** Natural cubic splines: f passes through the table, is cubic on each cell, twice continuously differentiable, and
    its second derivative vanishes at both ends of the table. f1 and f2 are its derivatives. *)
Record natural_spline (xs ys : list R) (f f1 f2 : R -> R) : Prop := {
  ns_table : forall k a v, nth_error xs k = Some a -> nth_error ys k = Some v -> f a = v;
  ns_cubic : forall i a b, nth_error xs i = Some a -> nth_error xs (S i) = Some b ->
     exists p q r s, forall x, (a <= x <= b \/ b <= x <= a) -> f x = p * x ^ 3 + q * x ^ 2 + r * x + s;
  ns_d1 : forall x, derivable_pt_lim f x (f1 x);
  ns_d2 : forall x, derivable_pt_lim f1 x (f2 x);
  ns_c2 : forall x, continuity_pt f2 x;
  ns_end0 : forall a, nth_error xs 0 = Some a -> f2 a = 0;
  ns_end1 : forall b, nth_error xs (length xs - 1) = Some b -> f2 b = 0 }.
