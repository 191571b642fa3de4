(** * The prof mode's configuration check (no proofs in this file).

    Models cmd/prof.go:23-41 and 103-173. Floats are reals (RealBase.v). The text of variables is read by package parse (ConfigModel.v); here their values are given. *)
From Verif Require Export ProfModel.
From Coq Require Import ZArith Reals String List.
Import List ListNotations.
Local Open Scope R_scope.

(** prof.go:33-41. *)
Inductive Profile := PDensity | PMedian | PMedianError | PContained | PAngular | PBound.

(** prof.go:23-31 and 113: the values of the variables; percentile = pv_num / pv_den * 100. *)
Record ProfVars := mkProfVars { pv_bins : Z; pv_order : Z; pv_samples : Z; pv_rMaxMult : R; pv_rMinMult : R; pv_level : Z; pv_num : Z; pv_den : Z; pv_type : string }.

(** prof.go:106-114: the values of variables that are not set. *)
Definition prof_defaults : ProfVars := mkProfVars 150 3 50000 3 (3 / 100) 3 50 100 "".

(** prof.go:157-173 validate: [None] is nil, [Some name] the error about the variable name. *)
Definition prof_validate (v : ProfVars) : option string :=
  if (pv_bins v <? 0)%Z then Some "Bins"%string
  else if negb (Rltb 0 (pv_rMinMult v)) then Some "RMinMult"%string
  else if negb (Rltb 0 (pv_rMaxMult v)) then Some "RMinMult"%string
  else if (pv_level v <? 0)%Z then Some "MedianPixelLevel"%string
  else None.

(** prof.go:135-152: the profile type. *)
Definition prof_type (s : string) : option Profile :=
  if String.eqb s "density" then Some PDensity
  else if String.eqb s "median-density" then Some PMedian
  else if String.eqb s "median-error" then Some PMedianError
  else if String.eqb s "contained-density" then Some PContained
  else if String.eqb s "angular-fraction" then Some PAngular
  else if String.eqb s "bound-density" then Some PBound
  else None.

(** prof.go:103-155 ReadConfig, after the variables are read: [given] says that there is a configuration file or a flag. [inl] is the error's variable;
    the type of a ProfConfig that was never set is densityProfile. *)
Definition prof_read_config (given : bool) (v : ProfVars) : string + Profile :=
  if negb given then inr PDensity else
  match prof_type (pv_type v) with
  | None => inl "ProfileType"%string
  | Some t => match prof_validate v with Some name => inl name | None => inr t end
  end.
