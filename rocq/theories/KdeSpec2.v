(** * Vocabulary of C77 and C78 that mentions the public routines (definitions only). *)
From Verif Require Import RealBase InterpModel InterpSpec KdeModel KdeSpec.
Import List ListNotations.
Local Open Scope R_scope.

(** f is the density curve of the points pts: what GaussianKDE returns for them, on 100 points between 0 and high (see C76). *)
Definition density_curve (pts : list R) (h high : R) (f : R -> R) : Prop :=
  exists sp, gaussian_kde pts h 0 high 100 = Some sp /\ forall x, 0 <= x <= high -> SplineEval sp x = Some (f x).

(** The centres of the 2^l sectors. *)
Definition level_angles (l : nat) : list R := map (centre l) (seq 0 (2 ^ l)).

(** GetConnMaxes(level) returns these anchor radii at the centres of the sectors, and the function GetRFunc(level, Radial) returns is f on a
    full turn, where f is a natural spline through the anchors. *)
Definition anchors (kt : KDETree) (level : nat) (radii : list R) (f : R -> R) : Prop :=
  get_conn_maxes (kt_ths kt) (kt_conn kt) level = Some (radii, level_angles level) /\ length radii = (2 ^ level)%nat /\ filtering_curve radii f /\
  exists sp, get_rfunc (kt_ths kt) (kt_conn kt) level = Some sp /\ forall th, 0 <= th <= 2 * PI -> SplineEval sp th = Some (f th).

(** The points with positive radii at angles of one turn that the filter is given. *)
Definition valid_points (rs phis : list R) : Prop := rs <> [] /\ length phis = length rs /\ (forall r, In r rs -> 0 < r) /\ (forall p, In p phis -> 0 <= p < 2 * PI).

(** The elements with a property, in order. *)
Inductive selected {A : Type} (P : A -> Prop) : list A -> list A -> Prop :=
| sel_nil : selected P [] []
| sel_in a l out : P a -> selected P l out -> selected P (a :: l) (a :: out)
| sel_out a l out : ~ P a -> selected P l out -> selected P (a :: l) out.

(** The points (radius, angle) of a ring whose line of sight found a radius. *)
Definition ring_points (oks : list bool) (rs phis : list R) : list (R * R) := map snd (filter fst (combine oks (combine rs phis))).

(** One attempt of the filter with kernel width h keeps these of the points pts: those closer than h/2 to the curve of the tree NewKDETree builds. *)
Definition attempt (pts : list (R * R)) (levels : nat) (h : R) (kept : list (R * R)) : Prop :=
  exists kt radii f, new_kde_tree (map fst pts) (map snd pts) levels h = Some kt /\ anchors kt levels radii f /\
    selected (fun p => Rabs (f (snd p) - fst p) < h / 2) pts kept.
