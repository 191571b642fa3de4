(** * The pixel of a particle in median profiles with rounding: cmd/prof.go:554-564, los/geom/pixel.go (no proofs in this file).

    Every operation is the exact operation followed by a rounding of the machine (RoundModel.v); math.Acos and math.Cos are parameters. PixelModel.v and ProfModel.v
    model the same lines without rounding. NaN is None. Conversions to int are those of amd64: NaN and numbers that do not fit give the least int; ints wrap around. *)
From Verif Require Export RealBase RoundModel.
From Coq Require Import ZArith.
Local Open Scope R_scope.

Definition wrap64 (z : Z) : Z := ((z + 2 ^ 63) mod 2 ^ 64 - 2 ^ 63)%Z.
Definition go_int (o : option R) : Z :=
  match o with
  | None => (- 2 ^ 63)%Z
  | Some x => let z := Rtrunc x in if ((- 2 ^ 63 <=? z) && (z <? 2 ^ 63))%Z then z else (- 2 ^ 63)%Z
  end.

Section RoundPixel.
Variable M : machine.
Variables facos fcos : R -> R.

(** pixel.go:7; constants are rounded to float64. *)
Definition cos_pi4 : R := fcos (r64 M (PI / 4)).

(** pixel.go:11-19 DiskPixel *)
Definition f_disk_pixel (r : option R) (theta : R) (lvl : Z) : Z :=
  let ir := go_int (option_map (fun r => r64 M (r * r64 M (IZR (2 * lvl + 1)))) r) in
  if (ir =? 0)%Z then 0%Z else
  let ir := Z.quot (wrap64 (ir + 1)) 2 in
  let ir := if (lvl <=? ir)%Z then lvl else ir in
  let ith := go_int (Some (r64 M (r64 M (r64 M (IZR (wrap64 (8 * ir))) * theta) / r64 M (2 * PI)))) in
  wrap64 ((2 * (ir - 1) + 1) * (2 * (ir - 1) + 1) + ith).

(** pixel.go:33-35 and 38-41 *)
Definition f_disk_num (lvl : Z) : Z := ((lvl * 2 + 1) * (lvl * 2 + 1))%Z.
Definition f_sphere_num (lvl : Z) : Z := if (lvl =? 0)%Z then 1%Z else (f_disk_num (lvl - 1) * 2)%Z.

(** pixel.go:23-30 SpherePixel; a comparison with NaN is false. *)
Definition f_sphere_pixel (phi : R) (theta : option R) (lvl : Z) : Z :=
  if (lvl =? 0)%Z then 0%Z
  else if match theta with Some t => Rltb (r64 M (PI / 2)) t | None => false end
    then f_disk_pixel (option_map (fun t => r64 M (fcos (r64 M (t / 2)) / cos_pi4)) theta) phi (lvl - 1)
  else wrap64 (f_disk_num (lvl - 1) + f_disk_pixel (option_map (fun t => r64 M (fcos (r64 M (r64 M (r64 M PI - t) / 2)) / cos_pi4)) theta) phi (lvl - 1)).

(** prof.go:554-558, 564: the pixel of a particle; None: index out of range (a panic). *)
Definition median_pixel (phi dx dy dz : R) (lvl : Z) : option Z :=
  let c := r64 M (dz / r64 M (sqrt (dist2 M dx dy dz))) in
  let th := if Rltb 1 (Rabs c) then None else Some (facos c) in
  let p := f_sphere_pixel phi th lvl in
  if ((0 <=? p) && (p <? f_sphere_num lvl))%Z then Some p else None.
End RoundPixel.
