(** * Specification vocabulary for halo catalogues and their cache (independent of the functions of RockstarModel). *)
From Coq Require Import Permutation Sorting.Sorted.
From Verif Require Import GoBase.
Local Open Scope nat_scope.
Local Open Scope list_scope.

(** [is_last l x i]: [i] is the position of the last occurrence of [x] in [l]. *)
Definition is_last {A} (l : list A) (x : A) (i : nat) : Prop :=
  nth_error l i = Some x /\ forall j, i < j -> nth_error l j <> Some x.

(** The overdensity radii that are computed from a mass when the catalogue does not have them. *)
Definition radius_pairs : list (bytes * bytes) :=
  [(lit "M200m", lit "R200m"); (lit "M200c", lit "R200c"); (lit "M500c", lit "R500c"); (lit "M2500c", lit "R2500c")].

Section Spec.
Variable V : Type.
Variable radius_of : bytes -> V -> V.

(** [halo_value names cols r name v]: the value called [name] of the halo in row [r] of a catalogue with the named
    columns [cols] is [v]: the entry of the column of that name, or the radius derived from the mass column. *)
Inductive halo_value (names : list bytes) (cols : list (list V)) (r : nat) : bytes -> V -> Prop :=
| hv_column name i c v :
    is_last names name i -> nth_error cols i = Some c -> nth_error c r = Some v -> halo_value names cols r name v
| hv_radius m name i c v :
    In (m, name) radius_pairs -> ~ In name names -> is_last names m i ->
    nth_error cols i = Some c -> nth_error c r = Some v -> halo_value names cols r name (radius_of name v).

(** The names that have a meaning. *)
Definition known (names : list bytes) (name : bytes) : Prop :=
  In name names \/ exists m, In (m, name) radius_pairs /\ In m names.

(** A catalogue of [n] rows with one column per name. *)
Definition catalogue_ok (names : list bytes) (cols : list (list V)) (n : nat) : Prop :=
  List.length cols = List.length names /\ Forall (fun c => List.length c = n) cols.

(** [by_mass ltb mass order]: the row numbers [order] are in decreasing order of mass. *)
Definition by_mass (ltb : V -> V -> bool) (mass : nat -> V -> Prop) (order : list nat) : Prop :=
  StronglySorted (fun i j => forall a b, mass i a -> mass j b -> ltb a b = false) order.

(** What sort.Sort promises for a strict weak order: a permutation of the indices after which no later key is less
    than an earlier one. *)
Definition sorts (go_sort : (V -> V -> bool) -> list V -> list nat) (lt : V -> V -> bool) : Prop :=
  forall xs, Permutation (go_sort lt xs) (seq 0 (List.length xs)) /\
    StronglySorted (fun i j => forall a b, nth_error xs i = Some a -> nth_error xs j = Some b -> lt b a = false) (go_sort lt xs).

(** A strict weak order. *)
Definition weak_order (ltb : V -> V -> bool) : Prop :=
  (forall a b, ltb a b = true -> ltb b a = false) /\
  (forall a b c, ltb b a = false -> ltb c b = false -> ltb c a = false).
End Spec.
