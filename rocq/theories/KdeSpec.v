(** * Kernel density estimates and filtering curves (specification only). *)
From Coq Require Import Reals List.
From Verif Require Import InterpSpec.
Import ListNotations.
Local Open Scope R_scope.

(** The density estimate at g of points xs with Gaussian kernels exp(-(d/h)^2) (not normalised). *)
Definition kde (xs : list R) (h g : R) : R := fold_right (fun x acc => exp (- ((g - x) / h) ^ 2) + acc) 0 xs.

(** The i-th of n evenly spaced points from low to high (both included). *)
Definition even_point (low high : R) (n i : nat) : R := low + INR i * ((high - low) / INR (n - 1)).

(** Level l of the recursion divides the circle into 2^l sectors; centre and membership of sector j. *)
Definition centre (l j : nat) : R := 2 * PI * (INR j + 1 / 2) / INR (2 ^ l).
Definition in_sector (l j : nat) (phi : R) : Prop := 2 * PI * INR j / INR (2 ^ l) <= phi < 2 * PI * INR (S j) / INR (2 ^ l).

(** The points of a sector, in order. *)
Inductive sector_points (P : R -> Prop) : list R -> list R -> list R -> Prop :=
| sp_nil : sector_points P [] [] []
| sp_in r phi rs phis out : P phi -> sector_points P rs phis out -> sector_points P (r :: rs) (phi :: phis) (r :: out)
| sp_out r phi rs phis out : ~ P phi -> sector_points P rs phis out -> sector_points P (r :: rs) (phi :: phis) out.

(** The sample radii at which maxima are looked for: every hundredth of the largest radius, with the last one moved to the largest. *)
Definition sample (high : R) (i : nat) : R := if (i =? 99)%nat then high else high * INR i / 100.

(** f rises to sample i and falls after it. *)
Definition peak (high : R) (f : R -> R) (i : nat) : Prop :=
  (1 <= i <= 98)%nat /\ f (sample high (i - 1)) < f (sample high i) /\ f (sample high (i + 1)) < f (sample high i).

(** The anchors continued periodically: entry k (from 0) of the table is anchor (k - buf) modulo n at angle (k - buf + 1/2) / n of a turn. *)
Definition wrap_anchor (radii : list R) (buf k : nat) : R := nth ((k + (length radii - buf)) mod length radii) radii 0.
Definition wrap_angle (n buf k : nat) : R := 2 * PI * (INR k - INR buf + 1 / 2) / INR n.

(** f is a filtering curve through the anchors: a natural cubic spline through the anchors continued on both sides by up to five of them. *)
Definition filtering_curve (radii : list R) (f : R -> R) : Prop :=
  let n := length radii in let buf := Nat.min 5 n in
  exists f1 f2, natural_spline (map (wrap_angle n buf) (seq 0 (n + 2 * buf))) (map (wrap_anchor radii buf) (seq 0 (n + 2 * buf))) f f1 f2.

(** v is one of the values of l closest to p. *)
Definition nearest (p : R) (l : list R) (v : R) : Prop := In v l /\ forall w, In w l -> Rabs (v - p) <= Rabs (w - p).
