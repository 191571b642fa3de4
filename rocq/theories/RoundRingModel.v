(** * Profile rings with rounding: los/profile_ring.go:72-130 (no proofs in this file).

    Every double-precision operation is the exact operation followed by the rounding [r64] of a machine (RoundModel.v). LosModel.v models the same lines without rounding. *)
From Coq Require Import Reals List Bool ZArith.
From Verif Require Export RealBase LoopBase RoundModel.
Import List.
Local Open Scope R_scope.

(** profile_ring.go:34-40 ProfileRing without the lines. *)
Record fring := mkFring { f_derivs : list R; f_bins : nat; f_n : nat; f_lowR : R; f_highR : R; f_dr : R }.

Section RoundRing.
Variable M : machine.

(** profile_ring.go:75-82 Init *)
Definition fring_init (lowR highR : R) (bins n : nat) : fring :=
  mkFring (repeat 0 (bins * n)) bins n lowR highR (r64 M (r64 M (highR - lowR) / INR bins)).

(** p.derivs[k] += x; None: index out of range. *)
Definition fadd_at (d : list R) (k : Z) (x : R) : option (list R) :=
  if (k <? 0)%Z then None else do y <- rd d (Z.to_nat k); wr d (Z.to_nat k) (r64 M (y + x)).

(** profile_ring.go:102-107 and 113-118: one end of a plateau; [sgn] is 1 for += and -1 for -=. math.Modf is exact. *)
Definition fring_edge (p : fring) (s sgn rho : R) (i : nat) (d : list R) : option (list R) :=
  let q := r64 M (r64 M (s - f_lowR p) / f_dr p) in
  let idx := Rtrunc q in
  let rem := q - IZR idx in
  do d1 <- fadd_at d (Z.of_nat (i * f_bins p) + idx) (sgn * r64 M (rho * r64 M (1 - rem)));
  if (idx <? Z.of_nat (f_bins p) - 1)%Z then fadd_at d1 (Z.of_nat (i * f_bins p) + idx + 1) (sgn * r64 M (rho * rem)) else Some d1.

(** profile_ring.go:92-120 Insert; None as an end is -Inf. *)
Definition fring_insert (p : fring) (start stop : option R) (rho : R) (i : nat) : option fring :=
  let outside :=
    match stop with None => true | Some e => Rleb e (f_lowR p) end ||
    match start with None => false | Some s => Rleb (f_highR p) s end in
  if outside then Some p else
  do d1 <- match start with
           | Some s => if Rltb (f_lowR p) s then fring_edge p s 1 rho i (f_derivs p) else fadd_at (f_derivs p) (Z.of_nat (i * f_bins p)) rho
           | None => fadd_at (f_derivs p) (Z.of_nat (i * f_bins p)) rho
           end;
  do d2 <- match stop with
           | Some e => if Rltb e (f_highR p) then fring_edge p e (-1) rho i d1 else Some d1
           | None => Some d1
           end;
  Some (mkFring d2 (f_bins p) (f_n p) (f_lowR p) (f_highR p) (f_dr p)).
End RoundRing.
