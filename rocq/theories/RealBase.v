(** * Floats as real numbers (no proofs in this file).

    Modelling decision used by all numerical models: a float64 is a real number, + - * / are exact, comparisons are
    decided, and int(x) truncates toward zero. Rounding, overflow, Inf and NaN are not modelled; in particular x/0 is
    the unspecified real of the standard library, so theorems carry the hypotheses that make the code's divisors non-zero. *)
From Coq Require Export Reals.
From Verif Require Export GoBase.
Local Open Scope R_scope.

Definition Rleb (x y : R) : bool := if Rle_dec x y then true else false.
Definition Rltb (x y : R) : bool := if Rlt_dec x y then true else false.
Definition Reqb (x y : R) : bool := if Req_EM_T x y then true else false.

(** Go's conversion int(x) of a finite float: truncation toward zero. *)
Definition Rtrunc (x : R) : Z := if Rle_dec 0 x then Int_part x else (- Int_part (- x))%Z.

Definition bindo {X Y} (o : option X) (f : X -> option Y) : option Y := match o with Some x => f x | None => None end.

(** Go slice read xs[i] for an int index. *)
Definition at_ {A} (l : list A) (i : Z) : option A :=
  if (i <? 0)%Z then None else nth_error l (Z.to_nat i).
