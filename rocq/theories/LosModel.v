(** * Lines of sight: profile rings, halos, sheet intersection and periodic wrapping (no proofs in this file).

    Models los/profile_ring.go, los/halo.go, los/geom/rotation.go:14-81 and the helpers wrapDist, wrap, inRange of
    cmd/stats.go. Floats are reals (see RealBase); float32 conversions are the identity. -Inf, which the code passes to
    ProfileRing.Insert and obtains as math.Log(0), is represented: an extended radius is an [option R], None = -Inf. *)
From Verif Require Export RealBase LoopBase MatModel.
From Verif Require Import ShellModel.
Import List ListNotations.
Local Open Scope R_scope.

(** profile_ring.go:34-40 ProfileRing, without Lines (which nothing reads). *)
Record Ring := mkRing { p_derivs : list R; p_bins : nat; p_n : nat; p_lowR : R; p_highR : R; p_dr : R }.

(** profile_ring.go:75-82 Init. *)
Definition ring_init (lowR highR : R) (bins n : nat) : Ring :=
  mkRing (repeat 0 (bins * n)) bins n lowR highR ((highR - lowR) / INR bins).

(** Go: xs[i] += v for an int index; a negative or too large index panics. *)
Definition add_at (l : list R) (i : Z) (v : R) : option (list R) :=
  if (i <? 0)%Z then None else do x <- rd l (Z.to_nat i); wr l (Z.to_nat i) (x + v).

(** profile_ring.go:102-107 and 113-118: the two updates at one edge of the plateau (rho is negated at its end). *)
Definition ring_edge (p : Ring) (x rho : R) (i : nat) (derivs : list R) : option (list R) :=
  let q := (x - p_lowR p) / p_dr p in
  let idx := Rtrunc q in
  let rem := q - IZR idx in
  do d1 <- add_at derivs (Z.of_nat (i * p_bins p) + idx) (rho * (1 - rem));
  if (idx <? Z.of_nat (p_bins p) - 1)%Z then add_at d1 (Z.of_nat (i * p_bins p) + idx + 1) (rho * rem) else Some d1.

(** profile_ring.go:92-120 Insert. The end of an interval is always a real number or -Inf. *)
Definition ring_insert (p : Ring) (start stop : option R) (rho : R) (i : nat) : option Ring :=
  let outside :=
    match stop with None => true | Some e => Rleb e (p_lowR p) end ||
    match start with None => false | Some s => Rleb (p_highR p) s end in
  if outside then Some p else
  do d1 <- match start with
           | Some s => if Rltb (p_lowR p) s then ring_edge p s rho i (p_derivs p)
                       else add_at (p_derivs p) (Z.of_nat (i * p_bins p)) rho
           | None => add_at (p_derivs p) (Z.of_nat (i * p_bins p)) rho
           end;
  do d2 <- match stop with
           | Some e => if Rltb e (p_highR p) then ring_edge p e (- rho) i d1 else Some d1
           | None => Some d1
           end;
  Some (mkRing d2 (p_bins p) (p_n p) (p_lowR p) (p_highR p) (p_dr p)).

(** profile_ring.go:124-130 Retrieve: writes the first bins elements of out. *)
Definition ring_retrieve (p : Ring) (i : nat) (out : list R) : option (list R) :=
  do st <- loop (p_bins p) (fun j (st : R * list R) =>
    let '(sum, out) := st in
    do d <- rd (p_derivs p) (j + p_bins p * i);
    do out' <- wr out j (sum + d);
    Some (sum + d, out')) (0, out);
  Some (snd st).

(** profile_ring.go:44-52 Join. *)
Definition ring_join (p1 p2 : Ring) : option Ring :=
  if negb (p_n p1 =? p_n p2)%nat || negb (p_bins p1 =? p_bins p2)%nat then None else
  do d <- loop (List.length (p_derivs p2)) (fun i d =>
    do v <- rd (p_derivs p2) i; do x <- rd d i; wr d i (x + v)) (p_derivs p1);
  Some (mkRing d (p_bins p1) (p_n p1) (p_lowR p1) (p_highR p1) (p_dr p1)).

(** profile_ring.go:57-70 Split: the new value of p2; line 64 assigns p2.dr to itself. *)
Definition ring_split (p1 p2 : Ring) : Ring :=
  if negb (p_n p1 =? p_n p2)%nat || negb (p_bins p1 =? p_bins p2)%nat
  then ring_init (p_lowR p1) (p_highR p1) (p_bins p1) (p_n p1)
  else mkRing (map (fun _ => 0) (p_derivs p2)) (p_bins p1) (p_n p2) (p_lowR p1) (p_highR p1) (p_dr p2).

(** A three-vector. *)
Notation vec := (R * R * R)%type.

(** geom/rotation.go:26-38 EulerMatrixAt: m3 * (m2 * m1). *)
Definition euler_matrix (phi theta psi : R) (out : matrix) : option matrix :=
  let c1 := cos phi in let s1 := sin phi in
  let c2 := cos theta in let s2 := sin theta in
  let c3 := cos psi in let s3 := sin psi in
  do m1 <- newMatrix [c1; - s1; 0; s1; c1; 0; 0; 0; 1] 3 3;
  do m2 <- newMatrix [1; 0; 0; 0; c2; - s2; 0; s2; c2] 3 3;
  do m3 <- newMatrix [c3; - s3; 0; s3; c3; 0; 0; 0; 1] 3 3;
  do m21 <- mult m2 m1;
  multAt m3 m21 out.

(** geom/rotation.go:76-81 SphericalAngles. *)
Definition spherical_angles (v : vec) : R * R :=
  let '(x, y, z) := v in
  let phi := atan2 y x in
  let r := sqrt (x * x + y * y + z * z) in
  (phi, acos (z / r)).

(** geom/rotation.go:49-57 EulerMatrixBetweenAt. *)
Definition euler_between (v1 v2 : vec) (out : matrix) : option matrix :=
  let '(phi1, theta1) := spherical_angles v1 in
  let '(phi2, theta2) := spherical_angles v2 in
  euler_matrix (PI / 2 - phi1) (theta1 - theta2) (phi2 - PI / 2) out.

(** geom/rotation.go:60-65 RotateVec. *)
Definition rotate_vec (v : vec) (m : matrix) : option vec :=
  let '(x, y, z) := v in
  do a0 <- rd (vals m) 0; do a1 <- rd (vals m) 1; do a2 <- rd (vals m) 2;
  do a3 <- rd (vals m) 3; do a4 <- rd (vals m) 4; do a5 <- rd (vals m) 5;
  do a6 <- rd (vals m) 6; do a7 <- rd (vals m) 7; do a8 <- rd (vals m) 8;
  Some (a0 * x + a1 * y + a2 * z, a3 * x + a4 * y + a5 * z, a6 * x + a7 * y + a8 * z).

(** halo.go:44-59 Halo, without rs (never read), ringPhis kept as a function of the index. *)
Record Halo := mkHalo {
  h_origin : vec; h_rings : nat; h_bins : nat; h_n : nat; h_rMin : R; h_rMax : R;
  h_ringVecs : list (R * R); h_dPhi : R;
  h_rots : list matrix; h_irots : list matrix; h_norms : list vec; h_profs : list Ring; h_defaultRho : R }.

(** halo.go:96: the angle of line of sight i of n. *)
Definition ring_phi (n i : nat) : R := INR i / INR n * (2 * PI).

(** mapM in the option monad: Go loops that fill out[i] from xs[i]. *)
Fixpoint mapo {A B} (f : A -> option B) (l : list A) : option (list B) :=
  match l with [] => Some [] | a :: l' => do b <- f a; do bs <- mapo f l'; Some (b :: bs) end.

(** halo.go:65-100 Init. *)
Definition halo_init (norms : list vec) (origin : vec) (rMin rMax : R) (bins n : nat) (defaultRho : R) : option Halo :=
  let zAxis := (0, 0, 1) in
  let zero9 := {| vals := repeat 0 9; width := 3; height := 3 |} in
  do rots <- mapo (fun v => euler_between v zAxis zero9) norms;
  do irots <- mapo (fun v => euler_between zAxis v zero9) norms;
  Some (mkHalo origin (List.length norms) bins n rMin rMax
    (map (fun i => (cos (ring_phi n i), sin (ring_phi n i))) (seq 0 n)) (1 / INR n * (2 * PI))
    rots irots norms (map (fun _ => ring_init (ln rMin) (ln rMax) bins n) norms) defaultRho).

(** math.Log on non-negative numbers. *)
Definition go_log (x : R) : option R := if Rltb 0 x then Some (ln x) else None.

(** halo.go:315-317 halfAngularWidth. *)
Definition half_angular_width (dist2 r2 : R) : R := asin (sqrt (r2 / dist2)).

(** halo.go:324-329 twoValIntrDist with the NaN test of lines 262 and 271: None when math.Sqrt(rad2 - b2) is NaN. The other
    argument, dist2 - b2, is the square of the distance along the ray and is never negative in exact arithmetic. *)
Definition two_val_intr_dist (dist2 rad2 b : R) : option (R * R) :=
  let b2 := b * b in
  let midDist := sqrt (dist2 - b2) in
  if Rltb (rad2 - b2) 0 then None else
  let diff := sqrt (rad2 - b2) in Some (midDist - diff, midDist + diff).

(** halo.go:337-346 oneValIntrDist; neither argument of math.Sqrt is negative in exact arithmetic. *)
Definition one_val_intr_dist (dist2 rad2 b dir : R) : R :=
  let b2 := b * b in
  let radMidDist := sqrt (rad2 - b2) in
  let cMidDist := sqrt (dist2 - b2) in
  if Rltb 0 dir then radMidDist + cMidDist else radMidDist - cMidDist.

(** halo.go:284-310 idxRange. *)
Definition idx_range (h : Halo) (phiLo phiHi : R) : Z * Z * Z * Z :=
  let n := Z.of_nat (h_n h) in
  if Rltb (2 * PI) phiHi then
    (Rtrunc (phiLo / h_dPhi h), n, 0%Z, (Rtrunc ((phiHi - 2 * PI) / h_dPhi h) + 1)%Z)
  else if Rltb phiLo 0 then
    (Rtrunc ((phiLo + 2 * PI) / h_dPhi h), n, 0%Z, (Rtrunc (phiHi / h_dPhi h) + 1)%Z)
  else (Rtrunc (phiLo / h_dPhi h), (Rtrunc (phiHi / h_dPhi h) + 1)%Z, 0%Z, 0%Z).

(** Go: for i := lo; i < hi; i++ over ints; a negative index into a slice panics. *)
Definition zloop {S : Type} (lo hi : Z) (body : nat -> S -> option S) (s : S) : option S :=
  loop (Z.to_nat (hi - lo)) (fun k s => let i := (lo + Z.of_nat k)%Z in if (i <? 0)%Z then None else body (Z.to_nat i) s) s.

(** halo.go:258-266 and 268-275: one line of sight of a circle that does not contain the centre. *)
Definition insert_two (h : Halo) (cx cy projDist2 projRad2 rho : R) (i : nat) (p : Ring) : option Ring :=
  do u <- rd (h_ringVecs h) i;
  let b := cy * fst u - cx * snd u in
  match two_val_intr_dist projDist2 projRad2 b with
  | None => Some p
  | Some (rLo, rHi) => ring_insert p (go_log rLo) (go_log rHi) rho i
  end.

(** halo.go:244-250: one line of sight of a circle that contains the centre. *)
Definition insert_one (h : Halo) (cx cy projDist2 projRad2 rho : R) (i : nat) (p : Ring) : option Ring :=
  do u <- rd (h_ringVecs h) i;
  let b := cy * fst u - cx * snd u in
  let dir := cx * fst u + cy * snd u in
  ring_insert p None (go_log (one_val_intr_dist projDist2 projRad2 b dir)) rho i.

(** halo.go:228-277 insertToRing: the new value of profs[ring]. *)
Definition insert_to_ring (h : Halo) (v : vec) (radius rho : R) (rot : matrix) (p : Ring) : option Ring :=
  do w <- rotate_vec v rot;
  let '(cx, cy, cz) := w in
  let projDist2 := cx * cx + cy * cy in
  let projRad2 := if Rltb (radius * radius - cz * cz) 0 then 0 else radius * radius - cz * cz in
  if Rltb projDist2 projRad2 then
    loop (h_n h) (insert_one h cx cy projDist2 projRad2 rho) p
  else
    let alpha := half_angular_width projDist2 projRad2 in
    let projPhi := atan2 cy cx in
    let '(iLo1, iHi1, iLo2, iHi2) := idx_range h (projPhi - alpha) (projPhi + alpha) in
    do p1 <- zloop iLo1 iHi1 (insert_two h cx cy projDist2 projRad2 rho) p;
    zloop iLo2 iHi2 (insert_two h cx cy projDist2 projRad2 rho) p1.

(** halo.go:218-224 sphereIntersectRing. *)
Definition sphere_intersect_ring (norm v : vec) (radius : R) : bool :=
  let '(nx, ny, nz) := norm in let '(x, y, z) := v in
  let dot := nx * x + ny * y + nz * z in
  Rltb dot radius && Rltb (- radius) dot.

(** halo.go:201-215 Insert. *)
Definition halo_insert (h : Halo) (v : vec) (radius rho : R) : option Halo :=
  let '(x, y, z) := v in
  let '(x0, y0, z0) := h_origin h in
  let d := (x - x0, y - y0, z - z0) in
  do profs <- loop (h_rings h) (fun ring profs =>
    do norm <- rd (h_norms h) ring;
    if sphere_intersect_ring norm d radius then
      do rot <- rd (h_rots h) ring;
      do p <- rd profs ring;
      do p' <- insert_to_ring h d radius rho rot p;
      wr profs ring p'
    else Some profs) (h_profs h);
  Some (mkHalo (h_origin h) (h_rings h) (h_bins h) (h_n h) (h_rMin h) (h_rMax h) (h_ringVecs h) (h_dPhi h)
    (h_rots h) (h_irots h) (h_norms h) profs (h_defaultRho h)).

(** halo.go:350-357 GetRhos. *)
Definition get_rhos (h : Halo) (ring losIdx : nat) (buf : list R) : option (list R) :=
  do p <- rd (h_profs h) ring;
  do buf' <- ring_retrieve p losIdx buf;
  Some (map (fun rho => if Rltb rho (h_defaultRho h) then h_defaultRho h else rho) buf').

(** halo.go:360-370 GetRs. *)
Definition get_rs (h : Halo) (buf : list R) : option (list R) :=
  if negb (List.length buf =? h_bins h)%nat then None else
  let dlr := (ln (h_rMax h) - ln (h_rMin h)) / INR (h_bins h) in
  let lrMin := ln (h_rMin h) in
  Some (map (fun i => exp (lrMin + dlr * (INR i + / 2))) (seq 0 (List.length buf))).

(** halo.go:428-440 LineSegment: origin, direction, start and end radius. *)
Definition line_segment (h : Halo) (ring losIdx : nat) : option (vec * vec * R * R) :=
  do irot <- rd (h_irots h) ring;
  do d <- rotate_vec (cos (ring_phi (h_n h) losIdx), sin (ring_phi (h_n h) losIdx), 0) irot;
  Some (h_origin h, d, h_rMin h, h_rMax h).

(** halo.go:471-475 PlaneToVolume. *)
Definition plane_to_volume (h : Halo) (ring : nat) (px py : R) : option vec :=
  do irot <- rd (h_irots h) ring; rotate_vec (px, py, 0) irot.

(** halo.go:107-123 Split for one worker halo: a worker of the same sizes keeps its ringVecs, dPhi, irots and
    defaultRho (and, through ring_split, the dr of its rings). *)
Definition halo_split1 (h hi : Halo) : option Halo :=
  let same := (h_rings h =? h_rings hi)%nat && (h_bins h =? h_bins hi)%nat && (h_n h =? h_n hi)%nat in
  do hi' <- (if same then
      Some (mkHalo (h_origin h) (h_rings hi) (h_bins hi) (h_n hi) (h_rMin h) (h_rMax h) (h_ringVecs hi) (h_dPhi hi)
        (h_rots h) (h_irots hi) (h_norms h) (h_profs hi) (h_defaultRho hi))
    else halo_init (h_norms h) (h_origin h) (h_rMin h) (h_rMax h) (h_bins h) (h_n h) (h_defaultRho h));
  do profs <- loop (List.length (h_profs h)) (fun r profs =>
    do p <- rd (h_profs h) r; do q <- rd profs r; wr profs r (ring_split p q)) (h_profs hi');
  Some (mkHalo (h_origin hi') (h_rings hi') (h_bins hi') (h_n hi') (h_rMin hi') (h_rMax hi') (h_ringVecs hi') (h_dPhi hi')
    (h_rots hi') (h_irots hi') (h_norms hi') profs (h_defaultRho hi')).

(** halo.go:129-140 Join for one worker halo. *)
Definition halo_join1 (h hi : Halo) : option Halo :=
  if (h_rings h =? h_rings hi)%nat && (h_bins h =? h_bins hi)%nat && (h_n h =? h_n hi)%nat then
    do profs <- loop (List.length (h_profs h)) (fun r profs =>
      do p <- rd profs r; do q <- rd (h_profs hi) r; do p' <- ring_join p q; wr profs r p') (h_profs h);
    Some (mkHalo (h_origin h) (h_rings h) (h_bins h) (h_n h) (h_rMin h) (h_rMax h) (h_ringVecs h) (h_dPhi h)
      (h_rots h) (h_irots h) (h_norms h) profs (h_defaultRho h))
  else None.

(** halo.go:147-164 Intersect for one vector. *)
Definition halo_intersect1 (h : Halo) (r : R) (v : vec) : bool :=
  let rMin := if Rltb (h_rMin h - r) 0 then 0 else h_rMin h - r in
  let rMax := h_rMax h + r in
  let '(x, y, z) := v in let '(x0, y0, z0) := h_origin h in
  let r2 := (x - x0) * (x - x0) + (y - y0) * (y - y0) + (z - z0) * (z - z0) in
  Rltb (rMin * rMin) r2 && Rltb r2 (rMax * rMax).

(** halo.go:168-197 Transform: one coordinate, then one vector (the slice is updated in place). *)
Definition transform1 (x x0 tw : R) : R :=
  let tw2 := tw / 2 in
  let dx := x - x0 in
  if Rltb tw2 dx then x - tw else if Rltb dx (- tw2) then x + tw else x.
Definition transform (origin : vec) (tw : R) (vecs : list vec) : list vec :=
  let '(x0, y0, z0) := origin in
  map (fun v => let '(x, y, z) := v in (transform1 x x0 tw, transform1 y y0 tw, transform1 z z0 tw)) vecs.

(** stats.go:383-392 and halo.go:442-451 wrapDist. *)
Definition wrap_dist (x1 x2 width : R) : R :=
  let dist := x1 - x2 in
  if Rltb (width / 2) dist then dist - width else if Rltb dist (width / -2) then dist + width else dist.

(** stats.go:436-443 wrap. *)
Definition wrap (x tw2 : R) : R := if Rltb tw2 x then x - tw2 else if Rltb x (- tw2) then x + tw2 else x.

(** stats.go:679-682 and halo.go:453-456 inRange. *)
Definition in_range (x r low width tw : R) : bool :=
  (Rltb low (x + r) && Rltb (x - r) (low + width)) ||
  (Rltb (- r) (wrap_dist x low tw) && Rltb (wrap_dist x (low + width) tw) r).

(** stats.go:685-692 sphereSheetIntersect and halo.go:460-467 SheetIntersect: c and r are the centre and radius, o and w
    the origin and widths of the sheet. *)
Definition sheet_intersect (c : vec) (r : R) (o w : vec) (tw : R) : bool :=
  let '(cx, cy, cz) := c in let '(ox, oy, oz) := o in let '(wx, wy, wz) := w in
  in_range cx r ox wx tw && in_range cy r oy wy tw && in_range cz r oz wz tw.

(** shell.go:599-611 binIntersections and stats.go:694-708 binSphereIntersections: for every file the indices of the halos
    whose sphere meets it. *)
Definition bin_intersections (hds : list (vec * vec * R)) (spheres : list (vec * R)) : list (list nat) :=
  map (fun hd => let '(o, w, tw) := hd in
    map fst (filter (fun s => let '(c, r) := snd s in sheet_intersect c r o w tw) (combine (seq 0 (List.length spheres)) spheres))) hds.

(** shell.go:491-492, the indices for i := offset*sf3; i < len; i += skip (fuel: len is enough when skip > 0). *)
Fixpoint strided (fuel i skip len : nat) : list nat :=
  match fuel with O => [] | S f => if (i <? len)%nat then i :: strided f (i + skip) skip len else [] end.

(** shell.go:479-500 chanLoadSphereVec: sf3 is subsampleFactor^3; the density of a particle of mass m is m*sf3/(4/3 pi rad^3)/rhoM.
    rhoM = cosmo.RhoAverage(...) is a parameter. *)
Definition chan_load (h : Halo) (xs : list vec) (ms : list R) (intr : list bool) (offset workers sf3 : nat) (rad rhoM : R) : option Halo :=
  let sphVol := 4 * PI / 3 * rad * rad * rad in
  fold_left (fun oh i => do h <- oh; do b <- rd intr i;
    if (b : bool) then do x <- rd xs i; do m <- rd ms i; halo_insert h x rad (m * INR sf3 / sphVol / rhoM) else Some h)
    (strided (List.length xs) (offset * sf3) (workers * sf3) (List.length xs)) (Some h).

(** shell.go:423-465 loadSphereVecs: the new halo, workers and positions. rKernelMult and rMaxMult are configuration values. Every
    goroutine works on a halo of its own and only reads xs, ms and intr, so the workers are run one after the other. *)
Definition load_sphere_vecs (h : Halo) (sphWorkers : list Halo) (xs : list vec) (ms : list R) (tw : R)
    (workers sf3 : nat) (rKernelMult rMaxMult rhoM : R) : option (Halo * list Halo * list vec) :=
  if negb (List.length sphWorkers + 1 =? workers)%nat then None else
  let xs' := transform (h_origin h) tw xs in
  let rad := h_rMax h * rKernelMult / rMaxMult in
  let intr := map (halo_intersect1 h rad) xs' in
  do ws <- mapo (halo_split1 h) sphWorkers;
  do ws' <- mapo (fun iw : nat * Halo => chan_load (snd iw) xs' ms intr (fst iw) workers sf3 rad rhoM)
    (combine (seq 0 (List.length ws)) ws);
  do h1 <- chan_load h xs' ms intr (workers - 1) workers sf3 rad rhoM;
  do h2 <- fold_left (fun oh w => do h <- oh; halo_join1 h w) ws' (Some h1);
  Some (h2, ws', xs').

(** What sphereLoop uses of a particle file: the region and box width of its header, the mean density at its redshift, the
    positions and masses. *)
Record PFile := mkPFile { f_origin : vec; f_width : vec; f_tw : R; f_rhoM : R; f_xs : list vec; f_ms : list R }.

(** shell.go:599-611 binIntersections for one file: the indices of the halos that meet it. *)
Definition file_bins (halos : list Halo) (f : PFile) : list nat :=
  map fst (filter (fun ih => sheet_intersect (h_origin (snd ih)) (h_rMax (snd ih)) (f_origin f) (f_width f) (f_tw f))
    (combine (seq 0 (List.length halos)) halos)).

(** The configuration values used while loading: subsampleFactor^3, rKernelMult, rMaxMult. *)
Record LoadConf := mkLoadConf { c_sf3 : nat; c_rKernelMult : R; c_rMaxMult : R }.

(** shell.go:405-408: load one file into the halos that meet it. Halos are pointers in the code: the bins of the file are
    indices into the list here. *)
Definition load_file (c : LoadConf) (workers : nat) (f : PFile) (idxs : list nat) (halos : list Halo) (ws : list Halo)
    : option (list Halo * list Halo * list vec) :=
  fold_left (fun ost a =>
    do st <- ost;
    let '(halos, ws, xs) := st in
    do h <- rd halos a;
    do r <- load_sphere_vecs h ws xs (f_ms f) (f_tw f) workers (c_sf3 c) (c_rKernelMult c) (c_rMaxMult c) (f_rhoM f);
    let '(h', ws', xs') := r in
    do halos' <- wr halos a h';
    Some (halos', ws', xs')) idxs (Some (halos, ws, f_xs f)).

(** shell.go:376-414 sphereLoop (after the headers are read; file reads that fail are not modelled). The bins are computed
    before the loop, from the origins and radii of the halos, which loading does not change. *)
Definition sphere_loop (c : LoadConf) (workers : nat) (files : list PFile) (halos ws : list Halo) : option (list Halo * list Halo) :=
  fold_left (fun ost fi =>
    do st <- ost;
    let '(halos, ws) := st in
    let '(f, idxs) := (fi : PFile * list nat) in
    do r <- load_file c workers f idxs halos ws;
    let '(halos', ws', _) := r in Some (halos', ws'))
    (map (fun f => (f, file_bins halos f)) files) (Some (halos, ws)).

(** shell.go:530-564 createHalos for halos with r > 0. norms = normVecs(rings); defaultRho r is the background density. *)
Definition create_halos (norms : list vec) (rMinMult rMaxMult : R) (bins n : nat) (defaultRho : R -> R) (coords : list (vec * R))
    : option (list Halo) :=
  mapo (fun xr : vec * R => halo_init norms (fst xr) (snd xr * rMinMult) (snd xr * rMaxMult) bins n (defaultRho (snd xr))) coords.
