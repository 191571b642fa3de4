(** * Kernel density trees and the filtering of points (no proofs in this file).

    los/analyze/kde.go, los/analyze/penna.go:110-165, cmd/shell.go:613-627. Floats are reals (RealBase.v); None is a panic; in connMaxes a
    NaN is [None]. math.Exp is [exp]. PlotLevel (debugging) is not modelled. *)
From Verif Require Export InterpModel LoopBase FitModel SmoothModel.
Local Open Scope R_scope.
Local Open Scope list_scope.

(** kde.go:16-20: the n evaluation points. *)
Definition kde_grid (low high : R) (n : nat) : list R :=
  let dx := (high - low) / INR (n - 1) in
  map (fun i => low + dx * INR i) (seq 0 (n - 1)) ++ [high].

(** kde.go:25-36: one point x added to the table. *)
Definition kde_add (spXs : list R) (h low dx : R) (n : nat) (x : R) (spYs : list R) : option (list R) :=
  let maxDist := h * 3 in
  let lowIdx := Rtrunc ((x - maxDist - low) / dx) in
  let highIdx := (Rtrunc ((x + maxDist - low) / dx) + 1)%Z in
  let lowIdx := if (lowIdx <? 0)%Z then 0%Z else lowIdx in
  let highIdx := if (Z.of_nat n <=? highIdx)%Z then (Z.of_nat n - 1)%Z else highIdx in
  loop_from (Z.to_nat lowIdx) (Z.to_nat (highIdx + 1)) (fun i ys =>
    do g <- rd spXs i;
    let udx := (g - x) / h in
    do y <- rd ys i;
    wr ys i (y + exp (- udx * udx))) spYs.

(** kde.go:24-37. *)
Definition kde_table (xs : list R) (h low high : R) (n : nat) : option (list R) :=
  let dx := (high - low) / INR (n - 1) in
  loop (List.length xs) (fun k ys => do x <- rd xs k; kde_add (kde_grid low high n) h low dx n x ys) (repeat 0 n).

(** kde.go:14-40 GaussianKDE; n = 0 panics at line 20. *)
Definition gaussian_kde (xs : list R) (h low high : R) (n : nat) : option Spline :=
  if (n =? 0)%nat then None
  else do ys <- kde_table xs h low high n; NewSpline (kde_grid low high n) ys.

(** kde.go:156-175 binByTheta. *)
Definition bin_by_theta (rs ths : list R) (bins : nat) : option (list (list R) * list R) :=
  let dth := (2 * PI) / INR bins in
  do rBins <- loop (List.length rs) (fun i rBins =>
    do th <- rd ths i; do r <- rd rs i;
    let idx := Rtrunc (th / dth) in
    do bin <- at_ rBins idx;
    wr rBins (Z.to_nat idx) (bin ++ [r])) (repeat [] bins);
  Some (rBins, map (fun i => 2 * PI * (INR i + 1 / 2) / INR bins) (seq 0 bins)).

(** kde.go:193-206 localSplineMaxes. *)
Definition local_spline_maxes (xs : list R) (sp : Spline) : option (list R) :=
  do x0 <- rd xs 0; do x1 <- rd xs 1; do x2 <- rd xs 2;
  do prev <- SplineEval sp x0; do curr <- SplineEval sp x1; do next <- SplineEval sp x2;
  let maxes := if Rltb next curr && Rltb prev curr then [x1] else [] in
  do st <- loop_from 2 (List.length xs - 1) (fun i (st : R * R * list R) =>
    let '(curr, next, maxes) := st in
    do x <- rd xs (S i); do next' <- SplineEval sp x;
    do xi <- rd xs i;
    let '(prev, curr, next) := (curr, next, next') in
    Some (curr, next, if Rltb next curr && Rltb prev curr then maxes ++ [xi] else maxes)) (curr, next, maxes);
  Some (snd st).

(** kde.go:287-311 extendAngularRange: (spMaxes, spThs). Simplified: the three copying loops are list segments. *)
Definition extend_angular (maxes ths : list R) : option (list R * list R) :=
  let n := List.length maxes in
  let buf := if (n <? 5)%nat then n else 5%nat in
  do a <- mapo (fun j => do m <- rd maxes j; do t <- rd ths j; Some (m, t - 2 * PI)) (seq (n - buf) buf);
  do b <- mapo (fun j => do m <- rd maxes j; do t <- rd ths j; Some (m, t)) (seq 0 n);
  do c <- mapo (fun j => do m <- rd maxes j; do t <- rd ths j; Some (m, t + 2 * PI)) (seq 0 buf);
  Some (map fst (a ++ b ++ c), map snd (a ++ b ++ c)).

(** kde.go:262-270 getFinestMax: rounds i, i+1, ..., level. *)
Fixpoint finest_loop (rounds i : nat) (conn : list (list (option R))) (idx level : nat) : option R :=
  match rounds with
  | O => None
  | S rounds' =>
      do row <- rd conn (level - i); do r <- rd row (idx / 2 ^ i)%nat;
      match r with Some v => Some v | None => finest_loop rounds' (S i) conn idx level end
  end.
Definition get_finest (conn : list (list (option R))) (idx level : nat) : option R := finest_loop (S level) 0 conn idx level.

(** kde.go:274-282 GetConnMaxes. *)
Definition get_conn_maxes (ths : list (list R)) (conn : list (list (option R))) (level : nat) : option (list R * list R) :=
  do t <- rd ths level; do maxes <- rd conn level;
  do rs <- mapo (fun i => get_finest conn i level) (seq 0 (List.length maxes));
  Some (rs, t).

(** kde.go:325-331 GetRFunc with Radial: the spline whose Eval is returned. (Cartesian is not used by the program.) *)
Definition get_rfunc (ths : list (list R)) (conn : list (list (option R))) (level : nat) : option Spline :=
  do mt <- get_conn_maxes ths conn level; let '(maxes, t) := mt in
  do e <- extend_angular maxes t; let '(spMaxes, spThs) := e in
  NewSpline spThs spMaxes.

(** kde.go:232-239: the first of the maxima that are closest to p; maxes is not empty. *)
Definition closest_max (p : R) (maxes : list R) : option R :=
  do st <- loop (List.length maxes) (fun i (st : option (nat * R)) =>
    do m <- rd maxes i;
    let dist := Rabs (p - m) in
    match st with
    | None => Some (Some (i, dist))
    | Some (_, minDist) => Some (if Rltb dist minDist then Some (i, dist) else st)
    end) None;
  match st with Some (i, _) => rd maxes i | None => None end.

(** kde.go:221-254: one node of one level. The test at line 223 looks at the level's list and never fires. *)
Definition connect_node (ths : list (list R)) (conn : list (list (option R))) (h : R) (split : nat) (prevMaxes : list (option R))
    (maxes : list (list R)) (node : nat) (curr : list (option R)) : option (list (option R)) :=
  do nodeMaxes <- rd maxes node;
  do prev <- rd prevMaxes (node / 2)%nat;
  do connMax <- match prev, nodeMaxes with
                | None, _ => Some None
                | _, [] => Some None
                | Some p, _ => do m <- closest_max p nodeMaxes; Some (Some (m, p))
                end;
  let fallback :=
    loop (List.length nodeMaxes) (fun k curr =>
      do mx <- rd nodeMaxes k;
      do sp <- get_rfunc ths conn split;
      do lev <- rd ths (S split); do th <- rd lev node;
      do spR <- SplineEval sp th;
      if Rltb (Rabs (mx - spR)) h then wr curr node (Some mx) else Some curr) curr in
  match connMax with
  | Some (m, p) => if (split =? 0)%nat || Rltb (Rabs (m - p)) h then wr curr node (Some m) else fallback
  | None => fallback
  end.

(** kde.go:211-258 connectMaxes. *)
Definition connect_maxes (ths : list (list R)) (maxesTree : list (list (list R))) (h : R) : option (list (list (option R))) :=
  do l0 <- rd maxesTree 0; do n0 <- rd l0 0; do m0 <- rd n0 0;
  loop (List.length (tl maxesTree)) (fun split conn =>
    do maxes <- rd (tl maxesTree) split;
    do prevMaxes <- rd conn (List.length conn - 1);
    do curr <- loop (List.length maxes) (connect_node ths conn h split prevMaxes maxes) (repeat None (2 * List.length prevMaxes));
    Some (conn ++ [curr])) [[Some m0]].

(** kde.go:44-60. *)
Record KDETree := mkKDE { kt_h : R; kt_low : R; kt_high : R; kt_sps : list (list Spline); kt_maxes : list (list (list R));
  kt_ths : list (list R); kt_conn : list (list (option R)); kt_spRs : list R }.

(** kde.go:140-152 growTrees: the new levels of spTree and thTree. *)
Definition grow_trees (rs phis : list R) (h low high : R) (splits : nat) (sps : list (list Spline)) (ths : list (list R))
    : option (list (list Spline) * list (list R)) :=
  loop splits (fun split (st : list (list Spline) * list (list R)) =>
    let '(sps, ths) := st in
    do b <- bin_by_theta rs phis (2 ^ (1 + split)); let '(rBins, thBins) := b in
    do level <- mapo (fun rBin => gaussian_kde rBin h low high 100) rBins;
    Some (sps ++ [level], ths ++ [thBins])) (sps, ths).

(** kde.go:66-106 NewKDETree. The second result of the code is always true. *)
Definition new_kde_tree (rs phis : list R) (splits : nat) (h : R) : option KDETree :=
  match rs with
  | [] => None
  | r0 :: _ =>
      let low := 0 in
      let high := fold_left (fun hi r => if Rltb hi r then r else hi) rs r0 in
      let dr := (high - low) / INR 100 in
      let spRs := map (fun i => low + dr * INR i) (seq 0 99) ++ [high] in
      do sp0 <- gaussian_kde rs h low high 100;
      do g <- grow_trees rs phis h low high splits [[sp0]] [[PI]]; let '(sps, ths) := g in
      do maxes <- mapo (mapo (local_spline_maxes spRs)) sps;
      do conn <- connect_maxes ths maxes h;
      Some (mkKDE h low high sps maxes ths conn spRs)
  end.

(** kde.go:355-370 FilterNearby: (fRs, fThs, idxs). *)
Definition filter_nearby (kt : KDETree) (rs ths : list R) (level : nat) (dr : R) : option (list R * list R * list nat) :=
  do sp <- get_rfunc (kt_ths kt) (kt_conn kt) level;
  loop (List.length rs) (fun i (st : list R * list R * list nat) =>
    let '(fRs, fThs, idxs) := st in
    do th <- rd ths i; do v <- SplineEval sp th; do r <- rd rs i;
    Some (if Rltb (Rabs (v - r)) (dr / 2) then (fRs ++ [r], fThs ++ [th], idxs ++ [i]) else st)) ([], [], []).

(** penna.go:146-153: up to ten attempts with growing kernel widths; rounds is the number left. *)
Fixpoint filter_attempts (rounds : nat) (validRs validPhis : list R) (levels : nat) (h factor : R) (fRs fThs : list R) : option (list R * list R) :=
  match rounds with
  | O => Some (fRs, fThs)
  | S rounds' =>
      match fRs with
      | _ :: _ => Some (fRs, fThs)
      | [] =>
          do kt <- new_kde_tree validRs validPhis levels (h * factor);
          do f <- filter_nearby kt validRs validPhis levels (kt_h kt); let '(fRs, fThs, _) := f in
          filter_attempts rounds' validRs validPhis levels h (factor * (11 / 10)) fRs fThs
      end
  end.

(** penna.go:131-161: one ring. ok_pairs (SmoothModel.v) collects the entries with Oks set, as the loop of lines 132-137 does; the lists
    of lines 121-129 are never used. *)
Definition filter_ring (r : RingBuffer) (levels : nat) (h : R) : option (list R * list R) :=
  do valid <- ok_pairs (rb_oks r) (rb_rs r) (rb_phis r);
  do f <- filter_attempts 10 (map fst valid) (map snd valid) levels h 1 [] []; let '(fRs, fThs) := f in
  do ps <- mapo (fun i => do rr <- rd fRs i; do th <- rd fThs i; Some (rr * cos th, rr * sin th)) (seq 0 (List.length fRs));
  Some (map fst ps, map snd ps).

(** penna.go:115-165 FilterPoints; the third result is always true. *)
Definition filter_points (rs : list RingBuffer) (levels : nat) (h : R) : option (list (list R) * list (list R)) :=
  do ps <- mapo (fun r => filter_ring r levels h) rs;
  Some (map fst ps, map snd ps).

(** cmd/shell.go:613-627 calcCoeffs: Clear and Splashback of every ring buffer, then the filter and the fit. The Smooth cache (package
    variable of smooth.go) is threaded through. *)
Definition calc_coeffs (B : nat) (inverse : nat -> list R -> list R) (c : kcache) (h : Halo) (buf : list RingBuffer)
    (window : nat) (losSlopeCutoff : R) (levels : nat) (eta : R) (order : nat) : option (kcache * list RingBuffer * list R) :=
  do st <- loop (List.length buf) (fun i (st : kcache * list RingBuffer) =>
    let '(c, buf) := st in
    do r <- rd buf i; do r <- rb_clear r;
    do x <- rb_splashback c r h i window losSlopeCutoff; let '(c, r) := x in
    do buf <- wr buf i r; Some (c, buf)) (c, buf);
  let '(c, buf) := st in
  do ps <- filter_points buf levels (h_rMax h / eta); let '(pxs, pys) := ps in
  do cs <- penna_volume_fit B inverse pxs pys h order order;
  Some (c, buf, cs).
