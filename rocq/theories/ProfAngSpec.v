(** * Specification vocabulary for angular-fraction profiles and bootstrap errors (independent of the model's functions). *)
From Verif Require Export StatsSpec.
From Coq Require Import Reals List ZArith Permutation.
Import List ListNotations.
Local Open Scope R_scope.

(** The radii that divide [rMin, rMax] into n bins of equal ratios; t need not be an integer. *)
Definition edge (n : nat) (rMin rMax t : R) : R := rMin * Rpower (rMax / rMin) (t / INR n).
(** How many of the values lie strictly between lo and hi. *)
Definition strictly_between (vals : list R) (lo hi : R) : nat := length (filter (fun v => if Rlt_dec lo v then if Rlt_dec v hi then true else false else false) vals).
(** The number of radii in the range of the profile that are beyond the inner edge of bin j. The first bin reaches one bin below rMin. *)
Definition beyond (n : nat) (rMin rMax : R) (radii : list R) (j : nat) : nat :=
  match j with O => strictly_between radii (edge n rMin rMax (-1)) rMax | _ => how_many radii (edge n rMin rMax (INR j)) rMax end.

(** Mean and (population) standard deviation. *)
Definition mean (l : list R) : R := total l / INR (length l).
Definition is_deviation (l : list R) (d : R) : Prop := 0 <= d /\ d * d = mean (map (fun p => (p - mean l) * (p - mean l)) l).
(** One sample of x, with replacement. *)
Definition sample_of {A} (x s : list A) : Prop := length s = length x /\ forall v, In v s -> In v x.
(** m is the k-th largest value of s (the largest one is the first). *)
Definition has_rank (s : list R) (k : Z) (m : R) : Prop :=
  exists below above, Permutation s (below ++ m :: above) /\ Forall (fun d => d <= m) below /\ Forall (fun d => m <= d) above /\ (Z.of_nat (length above) = k - 1)%Z.
