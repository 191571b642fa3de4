(** * Specification vocabulary for phase-space profiles and potential maps (independent of the model's functions). *)
From Coq Require Import Reals List.
From Verif Require Import LosSpec.
Import ListNotations.
Local Open Scope R_scope.

(** A particle: position, velocity, mass. *)
Definition particle := (vec3 * vec3 * R)%type.

(** m is the total mass of the particles of the list of which P holds. *)
Inductive tally (P : particle -> Prop) : list particle -> R -> Prop :=
| tally_nil : tally P [] 0
| tally_yes p l m : P p -> tally P l m -> tally P (p :: l) (snd p + m)
| tally_no p l m : ~ P p -> tally P l m -> tally P (p :: l) m.

(** The k-th of equal bins of the given width, the first one starting at lo. *)
Definition bin (lo width : R) (k : nat) (x : R) : Prop := lo + INR k * width <= x < lo + INR (S k) * width.

Definition minus3 (a b : vec3) : vec3 := let '(x, y, z) := a in let '(x', y', z') := b in (x - x', y - y', z - z').
Definition scale3 (t : R) (a : vec3) : vec3 := let '(x, y, z) := a in (t * x, t * y, t * z).

(** Velocity of a particle relative to the halo; with hubble, the Hubble flow with 70 (km/s)/Mpc is taken off. *)
Definition rel_velocity (hubble : bool) (centre vel : vec3) (p : particle) : vec3 :=
  let '(x, v, _) := p in
  let u := minus3 v vel in if hubble then minus3 u (scale3 70 (minus3 x centre)) else u.

(** Its component away from the centre, and its length. *)
Definition radial_velocity (hubble : bool) (centre vel : vec3) (p : particle) : R :=
  let d := minus3 (fst (fst p)) centre in dot3 (rel_velocity hubble centre vel p) d / sqrt (dot3 d d).
Definition total_velocity (hubble : bool) (centre vel : vec3) (p : particle) : R :=
  let u := rel_velocity hubble centre vel p in sqrt (dot3 u u).

(** The particle is in radial bin j (of nr up to rMax) and in velocity bin k of nv: from -vMax to vMax for radial velocities, from 0 to vMax for
    total ones. *)
Definition phase_cell (radial hubble : bool) (centre vel : vec3) (rMax vMax : R) (nr nv j k : nat) (p : particle) : Prop :=
  bin 0 (rMax / INR nr) j (sqrt (dist2_3 (fst (fst p)) centre)) /\
  if radial then bin (- vMax) (2 * vMax / INR nv) k (radial_velocity hubble centre vel p)
  else bin 0 (vMax / INR nv) k (total_velocity hubble centre vel p).
