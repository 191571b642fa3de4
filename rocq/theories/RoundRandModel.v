(** * Random draws and angular bins with rounding: math/rand/xorshift.go, math/rand/rand.go:84-96, los/halo.go:93-96, los/analyze/kde.go:156-175 (no proofs in this file).

    Every double-precision operation is the exact operation followed by the rounding [r64] of a machine (RoundModel.v); the states of the generator and its integer
    arithmetic are those of RandModel.v. RandModel.v and KdeModel.v model the same lines without rounding. *)
From Coq Require Import NArith.
From Verif Require Export RealBase LoopBase RandModel RoundModel RoundIndexModel.
Import List ListNotations.
Local Open Scope R_scope.

Section RoundRand.
Variable M : machine.

(** xorshift.go:28: the two conversions from uint32 are exact. *)
Definition f_value (g : xorshift) : R := r64 M (IZR (Z.of_N (maxUint32 - xs_w g)) / IZR (Z.of_N maxUint32)).

(** xorshift.go:24-33. The recursion is on fuel; None would be non-termination. *)
Fixpoint f_nextF (fuel : nat) (g : xorshift) : option (R * xorshift) :=
  match fuel with
  | O => None
  | S fuel => let g' := xs_step g in
              if Reqb (f_value g') 1 then f_nextF fuel g' else Some (f_value g', g')
  end.
Definition f_next (g : xorshift) : option (R * xorshift) := f_nextF 4 g.

(** rand.go:84-88; float64(high-low) and float64(low) are conversions; high-low does not wrap around. *)
Definition f_uniformInt (low high : Z) (g : xorshift) : option (Z * xorshift) :=
  do (f, g') <- f_next g; Some (Int_part (r64 M (r64 M (r64 M (IZR (high - low)) * f) + r64 M (IZR low))), g').

(** rand.go:91-96 *)
Definition f_uniform (low high : R) (g : xorshift) : option (R * xorshift) :=
  if Reqb low 0 && Reqb high 1 then f_next g
  else do (f, g') <- f_next g; Some (r64 M (r64 M (f * r64 M (high - low)) + low), g').

(** halo.go:96: ringPhis[i] of n lines of sight; 2*math.Pi is a constant. *)
Definition f_phi (n i : nat) : R := r64 M (r64 M (INR i / INR n) * two_pi M).

(** kde.go:163-167: dth and the index of one angle *)
Definition f_theta_index (bins : nat) (th : R) : Z := Rtrunc (r64 M (th / r64 M (two_pi M / INR bins))).

(** kde.go:159-167: rBins; None: a panic. *)
Definition f_bin_radii (rs ths : list R) (bins : nat) : option (list (list R)) :=
  loop (List.length rs) (fun i rBins =>
    do th <- rd ths i; do r <- rd rs i;
    let idx := f_theta_index bins th in
    do bin <- at_ rBins idx;
    wr rBins (Z.to_nat idx) (bin ++ [r])) (repeat [] bins).
End RoundRand.
