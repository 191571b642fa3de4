(** * Specification vocabulary for the statistics of shells (independent of the model's functions). *)
From Verif Require Export LosSpec.
From Coq Require Import Reals List ZArith Sorted Permutation.
Import List ListNotations.
Local Open Scope R_scope.

Definition sum_n (n : nat) (f : nat -> R) : R := fold_right Rplus 0 (map f (seq 0 n)).

(** The radius in the direction of the unit vector (x, y, z) of the Penna-Dines shell of order o with the coefficients cs. *)
Definition pd_radius (o : nat) (cs : list R) (n : vec3) : R :=
  let '(x, y, z) := n in
  sum_n 2 (fun k => sum_n o (fun j => sum_n o (fun i => nth ((k * o + j) * o + i) cs 0 * x ^ i * y ^ j * z ^ k))).

Definition unit3 (n : vec3) : Prop := dot3 n n = 1.
Definition sub3 (a b : vec3) : vec3 := let '(x, y, z) := a in let '(x', y', z') := b in (x - x', y - y', z - z').
Definition norm3 (a : vec3) : R := sqrt (dot3 a a).
Definition scale3 (t : R) (a : vec3) : vec3 := let '(x, y, z) := a in (t * x, t * y, t * z).
(** The direction of spherical angles. *)
Definition direction (a : R * R) : vec3 := let '(phi, th) := a in (sin th * cos phi, sin th * sin phi, cos th).

(** d = r n is inside of the shell: it is closer to the origin than the shell in its direction. (The origin is in no direction.) *)
Definition inside_pd (o : nat) (cs : list R) (d : vec3) : Prop := exists r n, 0 < r /\ unit3 n /\ d = scale3 r n /\ r < pd_radius o cs n.
(** d is within delta of the shell, along its direction. *)
Definition near_pd (o : nat) (cs : list R) (delta : R) (d : vec3) : Prop := exists r n, 0 < r /\ unit3 n /\ d = scale3 r n /\ Rabs (r - pd_radius o cs n) < delta.

(** The values (masses or ids) of the particles (position, value) whose position has the property, in order. *)
Inductive picked {V} (P : vec3 -> Prop) : list (vec3 * V) -> list V -> Prop :=
| pk_nil : picked P [] []
| pk_in : forall x v l L, P x -> picked P l L -> picked P ((x, v) :: l) (v :: L)
| pk_out : forall x v l L, ~ P x -> picked P l L -> picked P ((x, v) :: l) L.
Definition total (l : list R) : R := fold_right Rplus 0 l.

(** No coordinate of x - c needs to be wrapped in a box of width L. *)
Definition unwrapped (L : R) (c x : vec3) : Prop :=
  let '(a, b, d) := sub3 x c in Rabs a <= L / 2 /\ Rabs b <= L / 2 /\ Rabs d <= L / 2.

(** lo and hi are the least and greatest radius of the shell in the directions of the angles. *)
Definition sampled_range (o : nat) (cs : list R) (angles : list (R * R)) (lo hi : R) : Prop :=
  (exists a, In a angles /\ lo = pd_radius o cs (direction a)) /\ (exists a, In a angles /\ hi = pd_radius o cs (direction a)) /\
  forall a, In a angles -> lo <= pd_radius o cs (direction a) <= hi.

(** rows are the lines of snapshot s in the order of the catalogue, and idxs their numbers. *)
Definition lines_of {X} (snaps : list Z) (xs : list X) (s : Z) (idxs : list nat) (rows : list X) : Prop :=
  StronglySorted lt idxs /\ (forall i, In i idxs <-> nth_error snaps i = Some s) /\ map (nth_error xs) idxs = map Some rows.

(** ** Weighted points *)
Definition weights (pts : list (R * vec3)) : R := total (map fst pts).
Definition wmean (f : vec3 -> R) (pts : list (R * vec3)) : R := total (map (fun p => fst p * f (snd p)) pts) / weights pts.
Definition coord (i : nat) (x : vec3) : R := let '(a, b, c) := x in match i with O => a | 1%nat => b | _ => c end.
(** Component i, j of the inertia tensor (per weight) about the centroid. *)
Definition centroid (pts : list (R * vec3)) : vec3 := (wmean (coord 0) pts, wmean (coord 1) pts, wmean (coord 2) pts).
Definition inertia (pts : list (R * vec3)) (i j : nat) : R :=
  wmean (fun x => let d := sub3 x (centroid pts) in (if Nat.eqb i j then dot3 d d else 0) - coord i d * coord j d) pts.

(** How many of the values lie in [lo, hi). *)
Definition how_many (vals : list R) (lo hi : R) : nat := length (filter (fun v => if Rle_dec lo v then if Rlt_dec v hi then true else false else false) vals).
