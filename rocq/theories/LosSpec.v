(** * Specification vocabulary for lines of sight (independent of the model's functions). *)
From Coq Require Import Reals List ZArith.
Import ListNotations.
Local Open Scope R_scope.

(** Length of the part of the interval from [start] to [stop] (None = minus infinity) that lies in [lo, hi]. *)
Definition covered (start stop : option R) (lo hi : R) : R :=
  match stop with
  | None => 0
  | Some e => match start with
              | None => Rmax 0 (Rmin e hi - lo)
              | Some s => Rmax 0 (Rmin e hi - Rmax s lo)
              end
  end.

(** start <= stop for extended numbers. *)
Definition ordered (start stop : option R) : Prop :=
  match start, stop with None, _ => True | Some s, Some e => s <= e | Some _, None => False end.

(** An insertion: interval, density, index of the profile. *)
Definition plateau := (option R * option R * R * nat)%type.

(** Density that bin j (of width dr, the first one starting at lo) of profile i should have after the given insertions: the sum
    of the inserted densities, each weighted by the fraction of the bin its interval covers. *)
Fixpoint density (lo dr : R) (i j : nat) (ops : list plateau) : R :=
  match ops with
  | [] => 0
  | (s, e, rho, k) :: rest =>
      (if Nat.eqb k i then rho * (covered s e (lo + INR j * dr) (lo + INR (S j) * dr) / dr) else 0) + density lo dr i j rest
  end.

(** Points of three-space. *)
Notation vec3 := (R * R * R)%type.
Definition dist2_3 (a b : vec3) : R :=
  let '(x, y, z) := a in let '(x', y', z') := b in
  (x - x') * (x - x') + (y - y') * (y - y') + (z - z') * (z - z').
Definition dot3 (a b : vec3) : R :=
  let '(x, y, z) := a in let '(x', y', z') := b in x * x' + y * y' + z * z'.
(** The point at distance t from o in direction u. *)
Definition along (o u : vec3) (t : R) : vec3 :=
  let '(x, y, z) := o in let '(a, b, c) := u in (x + t * a, y + t * b, z + t * c).

(** A displacement d is the displacement to the nearest periodic image for the difference x and box width L. *)
Definition nearest_image (L x d : R) : Prop :=
  - (L / 2) <= d <= L / 2 /\ exists k : Z, d = x + IZR k * L.

(** [inside t] says that the point at distance t along a ray is inside a body. The body's intersection with the ray is the
    interval from start to stop in the logarithm of the distance (None = minus infinity; an empty intersection has stop = None). *)
Definition log_chord (inside : R -> Prop) (start stop : option R) : Prop :=
  forall x, inside (exp x) <->
    match start with None => True | Some s => s <= x end /\ match stop with None => False | Some e => x <= e end.

(** A point of the box [0, L]^3, and: x' is a periodic image of x, the one nearest to o in every coordinate. *)
Definition in_box (L : R) (x : vec3) : Prop := let '(a, b, c) := x in 0 <= a <= L /\ 0 <= b <= L /\ 0 <= c <= L.
Definition near (L : R) (o x x' : vec3) : Prop :=
  let '(a0, b0, c0) := o in let '(a, b, c) := x in let '(a', b', c') := x' in
  nearest_image L (a - a0) (a' - a0) /\ nearest_image L (b - b0) (b' - b0) /\ nearest_image L (c - c0) (c' - c0).

(** v is the fraction of the logarithmic radial bin [lo, hi] of the ray from o in direction u that lies in the ball around c. *)
Definition ray_share (o u c : vec3) (radius lo hi v : R) : Prop :=
  exists s e, ordered s e /\ log_chord (fun t => dist2_3 (along o u t) c <= radius * radius) s e /\ v = covered s e lo hi / (hi - lo).

(** The density of a bin due to balls (centre, density) of the same radius. *)
Inductive ray_total (o u : vec3) (radius lo hi : R) : list (vec3 * R) -> R -> Prop :=
| rt_nil : ray_total o u radius lo hi [] 0
| rt_cons c rho ps v s : ray_share o u c radius lo hi v -> ray_total o u radius lo hi ps s ->
    ray_total o u radius lo hi ((c, rho) :: ps) (rho * v + s).

(** A ball that cannot be deposited on rays pointing away from it, for a ring of n rays with axes e1, e2 and normal norm: it does
    not reach the ring's plane, or it contains the centre, or it spans less than a half turn less one ray spacing as seen from the
    centre and does not cross the negative first axis from below. *)
Definition no_ghosts3 (n : nat) (o e1 e2 norm c : vec3) (radius : R) : Prop :=
  let '(x, y, z) := c in let '(x0, y0, z0) := o in
  let d := (x - x0, y - y0, z - z0) in
  let cx := dot3 e1 d in let cy := dot3 e2 d in let cz := dot3 norm d in
  radius <= Rabs cz \/ cx * cx + cy * cy < radius * radius - cz * cz \/
  (radius * radius - cz * cz <= (cx * cx + cy * cy) * (cos (PI / INR n) * cos (PI / INR n)) /\
    (0 <= cy \/ 0 <= cx \/ radius * radius - cz * cz < cy * cy)).

