(** * The Tausworthe generator with rounding: math/rand/tausworthe.go, math/rand/rand.go:91-96 (no proofs in this file).

    Every float64 operation is the exact operation followed by the rounding of a machine (RoundModel.v). RandModel.v models the same lines without rounding. *)
From Verif Require Export RealBase LoopBase RandModel RoundModel.
Import List ListNotations.
Local Open Scope R_scope.

Section RoundTaus.
Variable M : machine.
(** The Golang generator (math/rand of Go, not modelled): a state and its draws. *)
Context {S : Type} (goFloat : S -> R * S).

(** rand.go:91-96 for the Golang generator *)
Definition f_go_uniform (low high : R) (s : S) : R * S :=
  let '(f, s') := goFloat s in
  if Reqb low 0 && Reqb high 1 then (f, s') else (r64 M (r64 M (f * r64 M (high - low)) + low), s').

(** tausworthe.go:22-44 *)
Definition f_t_init (s : S) : option tausworthe :=
  do (seq, _, _) <- loop tauswortheDigitsRandomized (fun _ st =>
    let '(seq, f, s) := st in
    do (seq', s') <- loop (List.length seq) (fun i st =>
      let '(seq, s) := st in
      let '(v, s') := f_go_uniform 0 f s in
      do a <- rd seq i;
      do seq' <- wr seq i (r64 M (a + v));
      Some (seq', s')) (seq, s);
    Some (seq', r64 M (f / 2), s')) (repeat 0 tauswortheSeqLen, 1, s);
  Some {| t_seq := map (fun x => if Rleb 1 x then r64 M (x - 1) else x) seq;
          t_leader := 0; t_first := tauswortheFirstOffset; t_second := tauswortheSecondOffset |}.

(** tausworthe.go:46-68 *)
Definition f_t_next (g : tausworthe) : option (R * tausworthe) :=
  do a <- rd (t_seq g) (t_first g);
  do b <- rd (t_seq g) (t_second g);
  let d := r64 M (a - b) in
  let next := if Rltb d 0 then r64 M (d + 1) else d in
  do seq <- wr (t_seq g) (t_leader g) next;
  let n := List.length (t_seq g) in
  Some (next, {| t_seq := seq; t_leader := wrapDec n (t_leader g); t_first := wrapDec n (t_first g); t_second := wrapDec n (t_second g) |}).

(** rand.go:84-88 for the Tausworthe generator; float64(high-low) and float64(low) are conversions; high-low does not wrap around. *)
Definition f_t_uniformInt (low high : Z) (g : tausworthe) : option (Z * tausworthe) :=
  do (f, g') <- f_t_next g; Some (Int_part (r64 M (r64 M (r64 M (IZR (high - low)) * f) + r64 M (IZR low))), g').
End RoundTaus.
