(** * Mean and median profiles of a halo and the median radius of a shell (no proofs in this file). Floats are reals. *)
From Verif Require Import RealBase LoopBase LosModel ShellModel SortModel.
From Coq Require Import Reals List.
Import List ListNotations.
Local Open Scope R_scope.

(** halo.go:380-386: the order in which the lines of sight are read. *)
Definition lines_of_sight (h : Halo) : list (nat * nat) := flat_map (fun r => map (fun i => (r, i)) (seq 0 (h_n h))) (seq 0 (h_rings h)).
(** halo.go:391-396 for one bin j; medBuf is filled anew for every bin and is both the argument and the buffer of Median. *)
Definition median_bin (rhoBufs : list (list R)) (j : nat) : option R :=
  do medBuf <- mapo (fun b => rd b j) rhoBufs;
  do (m, _) <- Median R Rltb medBuf (Some medBuf);
  Some m.
(** halo.go:373-399 MedianProfile. *)
Definition median_profile (h : Halo) : option (list R) :=
  do rhoBufs <- mapo (fun ri => get_rhos h (fst ri) (snd ri) (repeat 0 (h_bins h))) (lines_of_sight h);
  mapo (median_bin rhoBufs) (seq 0 (h_bins h)).

(** halo.go:410-412: mean[j] += buf[j] for every j of buf. *)
Definition add_bins (mean buf : list R) : option (list R) :=
  loop (List.length buf) (fun j mean => do m <- rd mean j; do b <- rd buf j; wr mean j (m + b)) mean.
(** halo.go:408-413: one line of sight; buf is reused. *)
Definition mean_step (h : Halo) (r i : nat) (st : list R * list R) : option (list R * list R) :=
  let '(mean, buf) := st in
  do buf' <- get_rhos h r i buf;
  do mean' <- add_bins mean buf';
  Some (mean', buf').
(** halo.go:402-421 MeanProfile. *)
Definition mean_profile (h : Halo) : option (list R) :=
  do (mean, _) <- loop (h_rings h) (fun r => loop (h_n h) (mean_step h r)) (repeat 0 (h_bins h), repeat 0 (h_bins h));
  Some (map (fun m => m / INR (h_rings h * h_n h)) mean).

(** shell.go:81-88 MedianRadius; the angles drawn by randomAngle are an argument, as in ShellModel. *)
Definition median_radius (s : ShellModel.Shell) (angles : list (R * R)) : option R :=
  let rs := map (fun a => s (fst a) (snd a)) angles in
  do (m, _) <- Median R Rltb rs (Some rs);
  Some m.
