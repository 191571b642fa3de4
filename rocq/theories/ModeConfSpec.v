(** * What reading the configuration of a mode means, stated without the parser and without the modes' code. *)
From Verif Require Import GoBase ConfigModel ConfigSpec ConfigProofs3.
From Coq Require Import ZArith Reals List.
Import List ListNotations.

(** Lower case of ASCII text. *)
Definition lower_ascii (s : bytes) : bytes :=
  map (fun c => let n := nat_of_ascii c in if (65 <=? n)%nat && (n <=? 90)%nat then ascii_of_nat (n + 32) else c) s.

(** What is assumed of strings.ToLower: ASCII text. *)
Definition lowers_ascii (toLower : bytes -> bytes) : Prop := forall s, Forall (fun c => nat_of_ascii c < 128)%nat s -> toLower s = lower_ascii s.

(** The assignments [al] are what the user gave: by a config file with this header and no flags, or by flags and no config file. *)
Definition given_by (header : bytes) (file : option bytes) (flags : list bytes) (al : list (bytes * bytes)) : Prop :=
  (exists text ls, file = Some text /\ flags = [] /\ lines_of text ls /\ config_lines header ls al) \/
  (file = None /\ exists groups, groups <> [] /\ Forall good_group groups /\ flags = args_of groups /\ al = groups_al groups).

(** Only these names are assigned. *)
Definition known (toLower : bytes -> bytes) (names : list bytes) (al : list (bytes * bytes)) : Prop :=
  forall n v, In (n, v) al -> exists x, In x names /\ toLower n = toLower x.

(** The variable [name] of type [ty] has value [x]: the one assigned, or the default. *)
Definition setting (parseFloat : bytes -> option R) (toLower : bytes -> bytes) (al : list (bytes * bytes)) (name : bytes) (ty : varType) (default x : value R) : Prop :=
  (exists n v, In (n, v) al /\ toLower n = toLower name /\ denotes R parseFloat ty v x) \/
  ((forall n v, In (n, v) al -> toLower n <> toLower name) /\ x = default).
