(** * Vocabulary for smoothing, derivatives and splashback radii (independent of the model's algorithms). *)
From Verif Require Import RealBase SmoothModel MatSpec.
Import List ListNotations.
Local Open Scope R_scope.

(** The signal xs continued to all integers: by its end values, by zeros, periodically, or mirrored at its end samples. *)
Definition continued (b : BC) (xs : list R) (i : Z) : R :=
  let n := Z.of_nat (List.length xs) in
  let at' (z : Z) := nth (Z.to_nat z) xs 0 in
  if (0 <=? i)%Z && (i <? n)%Z then at' i else
  match b with
  | Extension => if (i <? 0)%Z then at' 0%Z else at' (n - 1)%Z
  | ZeroPad => 0
  | Periodic => at' (i mod n)%Z
  | Reflection => if (i <? 0)%Z then at' (- i)%Z else at' (2 * (n - 1) - i)%Z
  end.

(** The kernel-weighted sum of the neighbours of position i of a signal s. *)
Definition weighted (k : Kernel) (s : Z -> R) (i : nat) : R :=
  sumf (List.length (k_cs k)) (fun j => nth j (k_cs k) 0 * s (Z.of_nat i + Z.of_nat j - Z.of_nat (k_center k))%Z).

(** Polynomials by their coefficients, lowest first, and their derivative. *)
Fixpoint peval (p : list R) (x : R) : R := match p with [] => 0 | c :: p' => c + x * peval p' x end.
Fixpoint pderiv_from (k : nat) (p : list R) : list R := match p with [] => [] | c :: p' => INR k * c :: pderiv_from (S k) p' end.
Definition pderiv (p : list R) : list R := match p with [] => [] | _ :: p' => pderiv_from 1 p' end.

(** Samples of a polynomial at x0, x0 + dx, ... *)
Definition grid_points (x0 dx : R) (n : nat) : list R := map (fun i => x0 + INR i * dx) (seq 0 n).
Definition samples (p : list R) (x0 dx : R) (n : nat) : list R := map (peval p) (grid_points x0 dx n).

(** The candidates of SplashbackRadius: interior points where the density is lower than at all smaller radii and the slope has a
    local minimum below the limit. *)
Definition candidate (len : nat) (rhos derivs : list R) (dLim : R) (i : nat) : Prop :=
  (1 <= i)%nat /\ (i + 1 < len)%nat /\ (forall j, (j < i)%nat -> nth i rhos 0 < nth j rhos 0) /\
  nth i derivs 0 < nth (i + 1) derivs 0 /\ nth i derivs 0 < nth (i - 1) derivs 0 /\ nth i derivs 0 < dLim.
