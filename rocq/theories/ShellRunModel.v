(** * shell mode from the halo coordinates and particle files to the rows of coefficients (no proofs in this file).

    Models cmd/shell.go:288-372 (loop), 502-528 (haloAnalysis) and 530-564 (createHalos) with everything that is kept between halos and
    snapshots: the smoothing kernels (package variables of los/analyze/smooth.go), the ring buffers and the worker halos. Reading a
    snapshot (memo.ReadHeaders and buf.Read) is a function from snapshot numbers to files. [None] is a panic or an error: both end the
    program without output. *)
From Verif Require Export KdeModel FitModel.
From Verif Require CmdModel.
Import List ListNotations.
Local Open Scope R_scope.

(** shell.go:21-42 ShellConfig: the values used here. sc_load holds subsampleFactor^3, rKernelMult and rMaxMult; sc_norms is
    normVecs(rings) (shell.go:566-592), which depends on the seed only. *)
Record ShellConf := mkShellConf { sc_load : LoadConf; sc_rMinMult : R; sc_norms : list vec; sc_bins : nat; sc_spokes : nat;
  sc_window : nat; sc_cutoff : R; sc_levels : nat; sc_eta : R; sc_order : nat; sc_minMass : R; sc_background : R }.

(** shell.go:546-554: the background density of a halo of radius r, with the mean density of the file f. *)
Definition background_density (c : ShellConf) (f : PFile) (r : R) : R :=
  let rad := r * c_rKernelMult (sc_load c) in
  let sphVol := 4 * PI / 3 * rad * rad * rad in
  sc_minMass c * INR (c_sf3 (sc_load c)) / sphVol / f_rhoM f * sc_background c.

(** shell.go:530-564 createHalos, and the use of its result: a halo with r <= 0 stays nil, and the first method called on it
    (SheetIntersect in binIntersections, or RMax in calcCoeffs if there are no files) panics. *)
Definition created (c : ShellConf) (hd0 : PFile) (coords : list (vec * R)) : option (list Halo) :=
  do hs <- create_halos (sc_norms c) (sc_rMinMult c) (c_rMaxMult (sc_load c)) (sc_bins c) (sc_spokes c) (background_density c hd0) coords;
  if existsb (fun xr : vec * R => negb (Rltb 0 (snd xr))) coords then None else Some hs.

(** What survives from one halo or snapshot to the next. *)
Definition shell_state : Type := kcache * list RingBuffer * list Halo.

(** shell.go:502-528 haloAnalysis without percentile profiles. The ok of calcCoeffs is always true. *)
Definition halo_analysis (B : nat) (inverse : nat -> list R -> list R) (c : ShellConf) (halos : list Halo) (idxs : list nat)
    (k : kcache) (buf : list RingBuffer) (out : list (list R)) : option (kcache * list RingBuffer * list (list R)) :=
  loop (List.length halos) (fun i (st : kcache * list RingBuffer * list (list R)) =>
    let '(k, buf, out) := st in
    do h <- rd halos i; do idx <- rd idxs i;
    do r <- calc_coeffs B inverse k h buf (sc_window c) (sc_cutoff c) (sc_levels c) (sc_eta c) (sc_order c);
    let '(k', buf', cs) := r in
    do out' <- wr out idx cs;
    Some (k', buf', out')) (k, buf, out).

(** shell.go:326-361: one snapshot. *)
Definition shell_snapshot (B : nat) (inverse : nat -> list R -> list R) (c : ShellConf) (workers : nat) (hd0 : PFile)
    (read : Z -> option (list PFile)) (snap : Z) (coords : list (vec * R)) (idxs : list nat) (st : shell_state) (out : list (list R))
    : option (shell_state * list (list R)) :=
  let '(k, buf, ws) := st in
  do snapCoords <- CmdModel.gather coords idxs;
  do halos <- created c hd0 snapCoords;
  do files <- read snap;
  do r <- sphere_loop (sc_load c) workers files halos ws;
  let '(halos', ws') := r in
  do a <- halo_analysis B inverse c halos' idxs k buf out;
  let '(k', buf', out') := a in
  Some ((k', buf', ws'), out').

(** shell.go:322-369: the loop over the sorted snapshots. *)
Fixpoint shell_snapshots (B : nat) (inverse : nat -> list R -> list R) (c : ShellConf) (workers : nat) (hd0 : PFile)
    (read : Z -> option (list PFile)) (idxBins : CmdModel.gmap nat) (coords : list (vec * R)) (snaps : list Z) (st : shell_state)
    (out : list (list R)) : option (list (list R)) :=
  match snaps with
  | [] => Some out
  | snap :: snaps' =>
      if (snap =? -1)%Z then shell_snapshots B inverse c workers hd0 read idxBins coords snaps' st out else
      do r <- shell_snapshot B inverse c workers hd0 read snap coords (CmdModel.mget idxBins snap) st out;
      let '(st', out') := r in
      shell_snapshots B inverse c workers hd0 read idxBins coords snaps' st' out'
  end.

(** A zero value of los.Halo (shell.go:319). *)
Definition fresh_worker : Halo := mkHalo (0, 0, 0) 0 0 0 0 0 [] 0 [] [] [] [] 0.

(** shell.go:222-231 and 288-372: the rows of coefficients of a catalogue. enum is the order in which Go enumerates the snapshots' map
    (lines 299-302). sortedSnaps[0] and hds[0] panic on an empty catalogue and on a snapshot without files. *)
Definition shell_rows (B : nat) (inverse : nat -> list R -> list R) (c : ShellConf) (workers : nat) (enum : list Z -> list Z)
    (read : Z -> option (list PFile)) (ids snaps : list Z) (coords : list (vec * R)) : option (list (list R)) :=
  let out := repeat (repeat 0 (sc_order c * sc_order c * 2)) (List.length ids) in
  do b <- CmdModel.binBySnap snaps ids; let '(snapBins, idxBins) := b in
  let ringBuf := repeat (rb_init (sc_spokes c) (sc_bins c)) (List.length (sc_norms c)) in
  let sortedSnaps := CmdModel.sortInts (enum (CmdModel.mkeys snapBins)) in
  do s0 <- rd sortedSnaps 0;
  do hds <- read s0; do hd0 <- rd hds 0;
  shell_snapshots B inverse c workers hd0 read idxBins coords sortedSnaps ([], ringBuf, repeat fresh_worker (workers - 1)) out.
