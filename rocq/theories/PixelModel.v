(** * Equal-area pixels of the disk and the sphere (no proofs in this file).

    Models los/geom/pixel.go. Floats are reals (RealBase.v); ints are Z. *)
From Verif Require Export RealBase.
From Coq Require Import ZArith Reals.
Local Open Scope R_scope.

(** pixel.go:11-19 DiskPixel. Go's / on ints truncates. *)
Definition DiskPixel (r theta : R) (lvl : Z) : Z :=
  let ir := Rtrunc (r * IZR (2 * lvl + 1)) in
  if (ir =? 0)%Z then 0%Z else
  let ir := Z.quot (ir + 1) 2 in
  let ir := if (lvl <=? ir)%Z then lvl else ir in
  let ith := Rtrunc (IZR (8 * ir) * theta / (2 * PI)) in
  ((2 * (ir - 1) + 1) * (2 * (ir - 1) + 1) + ith)%Z.

(** pixel.go:33-35 DiskPixelNum. *)
Definition DiskPixelNum (lvl : Z) : Z := ((lvl * 2 + 1) * (lvl * 2 + 1))%Z.

(** pixel.go:38-41 SpherePixelNum. *)
Definition SpherePixelNum (lvl : Z) : Z := if (lvl =? 0)%Z then 1%Z else (DiskPixelNum (lvl - 1) * 2)%Z.

(** pixel.go:23-30 SpherePixel; cosPi4 is line 7. *)
Definition SpherePixel (phi theta : R) (lvl : Z) : Z :=
  if (lvl =? 0)%Z then 0%Z
  else if Rltb (PI / 2) theta then DiskPixel (cos (theta / 2) / cos (PI / 4)) phi (lvl - 1)
  else (DiskPixelNum (lvl - 1) + DiskPixel (cos ((PI - theta) / 2) / cos (PI / 4)) phi (lvl - 1))%Z.
