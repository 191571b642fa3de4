(** * Specification vocabulary for radial profiles (independent of the model's functions). *)
From Coq Require Import Reals List.
From Verif Require Import LosSpec.
Import ListNotations.
Local Open Scope R_scope.

(** The edges of n logarithmic bins between rMin and rMax: rMin (rMax/rMin)^(j/n), j = 0, ..., n. *)
Definition edge (n : nat) (rMin rMax : R) (j : nat) : R := rMin * exp (INR j / INR n * ln (rMax / rMin)).

(** The volume of the shell between two radii. *)
Definition shell_volume (lo hi : R) : R := 4 * PI / 3 * (hi ^ 3 - lo ^ 3).

Definition total (l : list R) : R := fold_right Rplus 0 l.

(** Particle x is inside the open annulus (rMin, rMax) around o and in its bin j. *)
Definition in_bin (o : vec3) (n : nat) (rMin rMax : R) (j : nat) (x : vec3) : Prop :=
  let r := sqrt (dist2_3 x o) in rMin < r < rMax /\ edge n rMin rMax j <= r < edge n rMin rMax (S j).

(** No coordinate of x differs from that of o by more than half the box of width L. *)
Definition in_half_box (L : R) (o x : vec3) : Prop :=
  let '(a0, b0, c0) := o in let '(a, b, c) := x in Rabs (a - a0) <= L / 2 /\ Rabs (b - b0) <= L / 2 /\ Rabs (c - c0) <= L / 2.

(** Bound to an NFW halo of mass M, radius Rv, scale radius Rs with circular velocity 508 sqrt(M/6e13/Rv) at Rv: the squared speed relative
    to the halo is below the squared escape velocity 2 phi at r. *)
Definition nfw_bound (M Rv Rs : R) (r speed2 : R) : Prop :=
  let c := Rv / Rs in
  let phi := (508 * sqrt (M / 60000000000000 / Rv)) ^ 2 * (ln (1 + c * (r / Rv)) / (r / Rv)) / (ln (1 + c) - c / (1 + c)) in
  speed2 < 2 * phi.

(** m is the total mass of exactly the particles of which P holds (particle i of n has mass ms[i]). *)
Definition mass_of (n : nat) (ms : list R) (P : nat -> Prop) (m : R) : Prop :=
  exists idx, NoDup idx /\ (forall i, In i idx <-> (i < n)%nat /\ P i) /\ m = total (map (fun i => nth i ms 0) idx).
