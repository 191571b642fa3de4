(** * Smoothing kernels, numerical derivatives and the splashback radius of a line of sight (no proofs in this file).

    Models math/interpolate/filter.go, math/calc/deriv.go, los/analyze/smooth.go, los/analyze/splashback_radius.go and
    los/analyze/ring_buffer.go. Floats are reals (RealBase); a panic is [None]; a routine that writes to a slice returns
    the new contents. Window widths and orders are [nat]: negative ones are refused by the same tests (Go: -3 % 2 is -1). *)
From Verif Require Export RealBase LoopBase MatModel LosModel.
Import List ListNotations.
Local Open Scope R_scope.

(** filter.go:10-13 Kernel. *)
Record Kernel := mkKernel { k_cs : list R; k_center : nat }.

(** filter.go:22-29 BoundaryCondition. *)
Inductive BC := Periodic | Reflection | ZeroPad | Extension.

(** filter.go:33-62 Get. *)
Definition bc_get (b : BC) (xs : list R) (i : Z) : option R :=
  let n := Z.of_nat (List.length xs) in
  if (i <? 0)%Z then
    match b with Periodic => at_ xs (n - 1 + i) | Reflection => at_ xs (- (i + 1)) | ZeroPad => Some 0 | Extension => at_ xs 0 end
  else if (n <=? i)%Z then
    match b with Periodic => at_ xs (i - n) | Reflection => at_ xs (n - 1 - (i - n - 1)) | ZeroPad => Some 0 | Extension => at_ xs (n - 1) end
  else at_ xs i.

(** filter.go:112-126: the sample used in the first loop. *)
Definition left_sample (b : BC) (xs : list R) (idx : Z) : option R :=
  let n := Z.of_nat (List.length xs) in
  if (idx <? 0)%Z then
    match b with Periodic => at_ xs (n - 1 + idx) | Reflection => at_ xs (- (idx - 1)) | ZeroPad => Some 0 | Extension => at_ xs 0 end
  else at_ xs idx.

(** filter.go:142-156: the sample used in the last loop. *)
Definition right_sample (b : BC) (xs : list R) (idx : Z) : option R :=
  let n := Z.of_nat (List.length xs) in
  if (n <=? idx)%Z then
    match b with Periodic => at_ xs (idx - n) | Reflection => at_ xs (2 * (n - 1) - idx) | ZeroPad => Some 0 | Extension => at_ xs (n - 1) end
  else at_ xs idx.

(** filter.go:110-128, 132-136, 140-158: sum over the kernel, for a way of reading samples. *)
Definition kernel_sum (k : Kernel) (sample : Z -> option R) (i : nat) : option R :=
  loop (List.length (k_cs k)) (fun j sum =>
    do c <- rd (k_cs k) j;
    do x <- sample (Z.of_nat i + Z.of_nat j - Z.of_nat (k_center k))%Z;
    Some (sum + x * c)) 0.

(** filter.go:104-161 ConvolveAt. out is a slice other than xs (as in all calls). *)
Definition convolve_at (k : Kernel) (xs : list R) (b : BC) (out : list R) : option (list R) :=
  let n := Z.of_nat (List.length xs) in
  let nl := Z.of_nat (k_center k) in
  let nr := (Z.of_nat (List.length (k_cs k)) - 1 - nl)%Z in
  do out1 <- zloop 0 (nl + 1) (fun i out => do s <- kernel_sum k (left_sample b xs) i; wr out i s) out;
  do out2 <- zloop (nl + 1) (n - nr) (fun i out => do s <- kernel_sum k (at_ xs) i; wr out i s) out1;
  zloop (n - nr) n (fun i out => do s <- kernel_sum k (right_sample b xs) i; wr out i s) out2.

(** filter.go:96-100 Convolve. *)
Definition convolve (k : Kernel) (xs : list R) (b : BC) : option (list R) := convolve_at k xs b (zeros (List.length xs)).

(** filter.go:163-171 normalize. *)
Definition normalize (cs : list R) : list R := let sum := fold_left Rplus cs 0 in map (fun c => c / sum) cs.

(** filter.go:175-195 NewGaussianKernel. *)
Definition gaussian_kernel (width : nat) (sigma dx : R) : option Kernel :=
  if negb (width mod 2 =? 1)%nat then None else
  let center := (width / 2)%nat in
  do cs <- loop (center + 1) (fun i cs =>
    let x := (INR i - INR center) * dx in wr cs i (exp (- x * x / (2 * sigma * sigma)))) (zeros width);
  do cs <- loop_from (center + 1) width (fun i cs => do c <- rd cs (width - 1 - i); wr cs i c) cs;
  Some (mkKernel (normalize cs) center).

(** filter.go:198-213 NewTophatKernel. *)
Definition tophat_kernel (width : nat) : option Kernel :=
  if negb (width mod 2 =? 1)%nat then None else
  Some (mkKernel (normalize (repeat 1 width)) (width / 2)).

(** filter.go:275-285: the sum of (+-k)^p, k = 1..n (and 1 for p = 0). math.Pow with an integral exponent is exact here. *)
Definition power_sum (n p : nat) : R :=
  let s0 := if (p =? 0)%nat then 1 else 0 in
  let s1 := fold_left (fun s k => s + INR k ^ p) (seq 1 n) s0 in
  fold_left (fun s k => s + (- INR k) ^ p) (seq 1 n) s1.

(** filter.go:272-295: the (m+1) x (m+1) matrix of power sums; imj = -mm + 2t. *)
Definition savgol_matrix (n m : nat) : option (list R) :=
  loop (2 * m + 1) (fun ipj vs =>
    let sum := power_sum n ipj in
    let mm := if (ipj <? 2 * m - ipj)%nat then ipj else (2 * m - ipj)%nat in
    loop (mm + 1) (fun t vs =>
      let i := ((ipj + 2 * t - mm) / 2)%nat in
      let j := ((ipj + mm - 2 * t) / 2)%nat in
      wr vs (j * (m + 1) + i) sum) vs) (zeros ((m + 1) * (m + 1))).

(** filter.go:265-310 savgol: the coefficients of a kernel of 2n+1 points; lu.SolveVector(b, b) solves in place. *)
Definition savgol (n m ld : nat) : option (list R) :=
  do avals <- savgol_matrix n m;
  do a <- newMatrix avals (m + 1) (m + 1);
  do lu <- luOf a;
  do b0 <- wr (zeros (m + 1)) ld 1;
  do b <- luSolveVector lu b0 b0;
  do first <- rd b 0;
  loop (2 * n + 1) (fun t cs =>
    let i64 := INR t - INR n in
    do st <- loop_from 1 (m + 1) (fun mm st =>
      let '(sum, fac) := st in
      let fac' := fac * i64 in
      do bm <- rd b mm; Some (sum + bm * fac', fac')) (first, 1);
    wr cs t (fst st)) (zeros (2 * n + 1)).

(** filter.go:218-231 NewSavGolKernel. *)
Definition savgol_kernel (order width : nat) : option Kernel :=
  if negb (width mod 2 =? 1)%nat then None
  else if (width <=? order)%nat then None
  else do cs <- savgol (width / 2) order 0; Some (mkKernel cs (width / 2)).

(** filter.go:312-318 factorial (int overflow is not modelled). *)
Fixpoint go_factorial (x : nat) : nat := match x with O => 1 | S k => (x * go_factorial k)%nat end.

(** filter.go:244-263 NewSavGolDerivKernel. *)
Definition savgol_deriv_kernel (dx : R) (dOrder pOrder width : nat) : option Kernel :=
  if negb (width mod 2 =? 1)%nat then None
  else if (pOrder <? dOrder)%nat then None
  else if (width <=? pOrder)%nat then None
  else do cs <- savgol (width / 2) pOrder dOrder;
    Some (mkKernel (map (fun c => c * (INR (go_factorial dOrder) / dx ^ dOrder)) cs) (width / 2)).

(** calc/deriv.go:24-68 Deriv; out is a slice other than xs and ys. The tests of 34-38 are the first line. *)
Definition deriv (xs ys : list R) (order : nat) (out : list R) : option (list R) :=
  let n := List.length xs in
  if negb (List.length ys =? n)%nat || negb (List.length out =? n)%nat then None else
  let y i := at_ ys (Z.of_nat n + i) in
  let x i := at_ xs (Z.of_nat n + i) in
  if (order =? 0)%nat then loop n (fun i out => do v <- rd xs i; wr out i v) out
  else if (order =? 2)%nat then
    do out1 <- loop_from 1 (n - 1) (fun i out =>
      do yp <- rd ys (i + 1); do ym <- rd ys (i - 1); do xp <- rd xs (i + 1); do xm <- rd xs (i - 1);
      wr out i ((yp - ym) / (xp - xm))) out;
    do y0 <- rd ys 0; do y1 <- rd ys 1; do y2 <- rd ys 2; do x2 <- rd xs 2; do x0 <- rd xs 0;
    do out2 <- wr out1 0 ((-3 * y0 + 4 * y1 - y2) / (x2 - x0));
    do z1 <- y (-1)%Z; do z2 <- y (-2)%Z; do z3 <- y (-3)%Z; do w1 <- x (-1)%Z; do w3 <- x (-3)%Z;
    wr out2 (n - 1) (- (-3 * z1 + 4 * z2 - z3) / (w1 - w3))
  else if (order =? 4)%nat then
    do out1 <- loop_from 2 (n - 2) (fun i out =>
      do yp2 <- rd ys (i + 2); do yp <- rd ys (i + 1); do ym <- rd ys (i - 1); do ym2 <- rd ys (i - 2);
      do xp2 <- rd xs (i + 2); do xm <- rd xs (i - 1);
      wr out i ((- yp2 + 8 * yp - 8 * ym + ym2) / (3 * (xp2 - xm)))) out;
    do y0 <- rd ys 0; do y1 <- rd ys 1; do y2 <- rd ys 2; do y3 <- rd ys 3; do y4 <- rd ys 4; do x4 <- rd xs 4; do x0 <- rd xs 0;
    do out2 <- wr out1 0 ((-3 * y4 + 16 * y3 - 36 * y2 + 48 * y1 - 25 * y0) / (3 * (x4 - x0)));
    do z1 <- y (-1)%Z; do z2 <- y (-2)%Z; do z3 <- y (-3)%Z; do z4 <- y (-4)%Z; do z5 <- y (-5)%Z; do w1 <- x (-1)%Z; do w5 <- x (-5)%Z;
    do out3 <- wr out2 (n - 2) ((-3 * z1 - 10 * z2 + 18 * z3 - 6 * z4 + z5) / (3 * (w5 - w1)));
    do out4 <- wr out3 1 ((-3 * y0 - 10 * y1 + 18 * y2 - 6 * y3 + y4) / (3 * (x4 - x0)));
    wr out4 (n - 1) ((-3 * z5 + 16 * z4 - 36 * z3 + 48 * z2 - 25 * z1) / (3 * (w5 - w1)))
  else None.

(** smooth.go:9-12: the package variables kernels and derivKernels, which always have the same keys. *)
Definition kcache := list (nat * (Kernel * Kernel)).
Fixpoint cached (c : kcache) (window : nat) : option (Kernel * Kernel) :=
  match c with [] => None | (w, kk) :: c' => if (w =? window)%nat then Some kk else cached c' window end.

(** smooth.go:84-97 getSmoothingKernel. *)
Definition get_kernels (c : kcache) (window : nat) (dx : R) : option (kcache * Kernel * Kernel) :=
  match cached c window with
  | Some (k, kd) => Some (c, k, kd)
  | None =>
    do k <- savgol_kernel 4 window;
    do kd <- savgol_deriv_kernel dx 1 4 window;
    Some ((window, (k, kd)) :: c, k, kd)
  end.

(** smooth.go:46-81 Smooth with the options Vals and Derivs (as in ring_buffer.go): the new cache, ys, vals, derivs and ok. math.Log is
    ln, so densities and radii are taken to be positive. *)
Definition smooth (c : kcache) (xs ys : list R) (window : nat) (vals derivs : list R)
    : option (kcache * list R * list R * list R * bool) :=
  if negb (List.length xs =? List.length ys)%nat then None
  else if (List.length xs <=? window)%nat then Some (c, ys, vals, derivs, false)
  else
    do x1 <- rd xs 1; do x0 <- rd xs 0;
    let dx := ln x1 - ln x0 in
    do r <- get_kernels c window dx;
    let '(c', k, kd) := r in
    let lys := map ln ys in
    do vals' <- convolve_at k lys Extension vals;
    do derivs' <- convolve_at kd lys Extension derivs;
    Some (c', map exp lys, map exp vals', derivs', true).

(** splashback_radius.go:61-63 isMinimum (&& does not read xs[i-1] when the first comparison fails). *)
Definition is_minimum (xs : list R) (i : nat) : option bool :=
  do a <- rd xs i; do b <- rd xs (i + 1);
  if Rltb a b then do c <- rd xs (i - 1); Some (Rltb a c) else Some false.

(** splashback_radius.go:30-58 SplashbackRadius: (r, ok). iMin = -1 is None. *)
Definition splashback_radius (rs rhos derivs : list R) (dLim : R) : option (R * bool) :=
  if negb (List.length rhos =? List.length derivs)%nat then None
  else match rhos with
  | [] => Some (0, false)
  | rho0 :: _ =>
    do st <- loop_from 1 (List.length rs - 1) (fun i (st : R * R * option nat) =>
      let '(rhoMin, dMin, iMin) := st in
      do rho <- rd rhos i;
      if Rltb rho rhoMin then
        do m <- is_minimum derivs i;
        if (m : bool) then
          do d <- rd derivs i;
          Some (if Rltb d dMin then (rho, d, Some i) else (rho, dMin, iMin))
        else Some (rho, dMin, iMin)
      else Some (rhoMin, dMin, iMin)) (rho0, dLim, None);
    match snd st with None => Some (0, false) | Some i => do r <- rd rs i; Some (r, true) end
  end.

(** ring_buffer.go:15-25 RingBuffer. *)
Record RingBuffer := mkRB {
  rb_planeXs : list R; rb_planeYs : list R; rb_xs : list R; rb_ys : list R; rb_zs : list R; rb_rs : list R; rb_phis : list R;
  rb_oks : list bool; rb_profRs : list R; rb_profRhos : list R; rb_smoothRhos : list R; rb_smoothDerivs : list R;
  rb_n : nat; rb_bins : nat }.

(** ring_buffer.go:28-38 Init. *)
Definition rb_init (n bins : nat) : RingBuffer :=
  mkRB (zeros n) (zeros n) (zeros n) (zeros n) (zeros n) (zeros n) (zeros n) (repeat false n)
    (zeros bins) (zeros bins) (zeros bins) (zeros bins) n bins.

(** ring_buffer.go:41-53 Clear. *)
Definition rb_clear (r : RingBuffer) : option RingBuffer :=
  let clear {A} (z : A) (n : nat) (l : list A) := loop n (fun i l => wr l i z) l in
  do pxs <- clear 0 (rb_n r) (rb_planeXs r); do pys <- clear 0 (rb_n r) (rb_planeYs r);
  do xs <- clear 0 (rb_n r) (rb_xs r); do ys <- clear 0 (rb_n r) (rb_ys r); do zs <- clear 0 (rb_n r) (rb_zs r);
  do phis <- clear 0 (rb_n r) (rb_phis r); do rs <- clear 0 (rb_n r) (rb_rs r);
  do oks <- clear false (rb_n r) (rb_oks r);
  do sr <- clear 0 (rb_bins r) (rb_smoothRhos r); do sd <- clear 0 (rb_bins r) (rb_smoothDerivs r);
  do pr <- clear 0 (rb_bins r) (rb_profRs r); do prho <- clear 0 (rb_bins r) (rb_profRhos r);
  Some (mkRB pxs pys xs ys zs rs phis oks pr prho sr sd (rb_n r) (rb_bins r)).

(** halo.go:424 Phi (ringPhis is filled by halo.go:95-97). *)
Definition halo_phi (h : Halo) (i : nat) : option R := if (i <? h_n h)%nat then Some (ring_phi (h_n h) i) else None.

(** ring_buffer.go:63-91: one line of sight. *)
Definition rb_line (h : Halo) (ring window : nat) (dLim : R) (i : nat) (st : kcache * RingBuffer) : option (kcache * RingBuffer) :=
  let '(c, r) := st in
  do rhos <- get_rhos h ring i (rb_profRhos r);
  do sm <- smooth c (rb_profRs r) rhos window (rb_smoothRhos r) (rb_smoothDerivs r);
  let '(c', rhos', vals, derivs, ok) := sm in
  do oks <- wr (rb_oks r) i ok;
  let r1 := mkRB (rb_planeXs r) (rb_planeYs r) (rb_xs r) (rb_ys r) (rb_zs r) (rb_rs r) (rb_phis r) oks
    (rb_profRs r) rhos' vals derivs (rb_n r) (rb_bins r) in
  if negb ok then Some (c', r1) else
  do sp <- splashback_radius (rb_profRs r1) vals derivs dLim;
  let '(rad, ok2) := sp in
  do rs <- wr (rb_rs r1) i rad;
  do oks2 <- wr oks i ok2;
  let r2 := mkRB (rb_planeXs r) (rb_planeYs r) (rb_xs r) (rb_ys r) (rb_zs r) rs (rb_phis r) oks2
    (rb_profRs r) rhos' vals derivs (rb_n r) (rb_bins r) in
  if negb ok2 then Some (c', r2) else
  do phi0 <- halo_phi h i;
  let phi := if Rltb phi0 0 then phi0 + PI else phi0 in
  do phis <- wr (rb_phis r) i phi;
  do pxs <- wr (rb_planeXs r) i (cos phi * rad);
  do pys <- wr (rb_planeYs r) i (sin phi * rad);
  do ls <- line_segment h ring i;
  let '(_, dir, _, _) := ls in let '(dx, dy, dz) := (dir : vec) in
  do xs <- wr (rb_xs r) i (rad * dx); do ys <- wr (rb_ys r) i (rad * dy); do zs <- wr (rb_zs r) i (rad * dz);
  Some (c', mkRB pxs pys xs ys zs rs phis oks2 (rb_profRs r) rhos' vals derivs (rb_n r) (rb_bins r)).

(** ring_buffer.go:57-93 Splashback. *)
Definition rb_splashback (c : kcache) (r : RingBuffer) (h : Halo) (ring window : nat) (dLim : R) : option (kcache * RingBuffer) :=
  do rs <- get_rs h (rb_profRs r);
  loop (rb_n r) (rb_line h ring window dLim)
    (c, mkRB (rb_planeXs r) (rb_planeYs r) (rb_xs r) (rb_ys r) (rb_zs r) (rb_rs r) (rb_phis r) (rb_oks r)
      rs (rb_profRhos r) (rb_smoothRhos r) (rb_smoothDerivs r) (rb_n r) (rb_bins r)).

(** ring_buffer.go:97-106 and 110-119: the pairs of two lists where Oks is true (OkPlaneCoords, OkPolarCoords; also
    penna.go:124-137). *)
Fixpoint ok_pairs (oks : list bool) (xs ys : list R) : option (list (R * R)) :=
  match oks with
  | [] => Some []
  | ok :: oks' =>
    match xs, ys with
    | x :: xs', y :: ys' => do l <- ok_pairs oks' xs' ys'; Some (if (ok : bool) then (x, y) :: l else l)
    | _, _ => if existsb (fun b => b) oks then None else Some []
    end
  end.
