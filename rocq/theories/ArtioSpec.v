(** * What an ARTIO fileset holds, independent of the model's reading functions. *)
From Verif Require Export ArtioModel.
From Verif Require Import GoBaseFacts.
From Coq Require Import Reals List ZArith.
Import List ListNotations.
Local Open Scope R_scope.

(** One Mpc in cm and one solar mass in g. *)
Definition cm_per_mpc : R := 308560 * 10 ^ 19.
Definition g_per_msun : R := 1989 * 10 ^ 30.
Definition length_in_mpc (h : fileset) (h100 x : R) : R := x * fs_length_unit h / cm_per_mpc * h100.
Definition mass_in_msun (h : fileset) (h100 m : R) : R := m * fs_mass_unit h / g_per_msun * h100.
Definition vec_in_mpc (h : fileset) (h100 : R) (v : vec) : vec := let '(x, y, z) := v in (length_in_mpc h h100 x, length_in_mpc h h100 y, length_in_mpc h h100 z).

(** Species number i is dark matter. *)
Definition is_nbody (h : fileset) (i : nat) : Prop := nth_error (fs_labels h) i = Some (list_ascii_of_string "N-BODY").

(** A fileset whose particles can be read: all species have a label and a mass, and every block k, the cells sfc[k] to sfc[k+1] - 1, can be read. *)
Record readable (h : fileset) : Prop := {
  rd_labels : length (fs_labels h) = fs_species h; rd_masses : length (fs_masses h) = fs_species h; rd_some : (0 < fs_species h)%nat;
  rd_open : fs_particles h = true;
  rd_blocks : forall k lo hi, nth_error (fs_sfc h) k = Some lo -> nth_error (fs_sfc h) (S k) = Some (hi + 1)%Z ->
    exists c, fs_count h lo hi = Some c /\ length c = fs_species h /\
      forall i, is_nbody h i -> exists ps, fs_pos h i lo hi = Some ps /\ nth_error c i = Some (length ps) }.

(** The dark matter particles of a range of cells with their masses, species by species, from species i on. *)
Inductive dark_matter (h : fileset) (h100 : R) (lo hi : Z) : nat -> list (vec * R) -> Prop :=
| dm_end : forall i, (fs_species h <= i)%nat -> dark_matter h h100 lo hi i []
| dm_other : forall i l, (i < fs_species h)%nat -> ~ is_nbody h i -> dark_matter h h100 lo hi (S i) l -> dark_matter h h100 lo hi i l
| dm_nbody : forall i ps m l, (i < fs_species h)%nat -> is_nbody h i -> fs_pos h i lo hi = Some ps -> nth_error (fs_masses h) i = Some m ->
    dark_matter h h100 lo hi (S i) l ->
    dark_matter h h100 lo hi i (map (fun p => (vec_in_mpc h h100 p, mass_in_msun h h100 m)) ps ++ l).

(** The buffers that a program can have: made by NewARTIOBuffer for f0, then used by Read, Close and ReadHeader in any order, with any arguments and results
    (also errors). *)
Inductive history (disk : bytes -> option fileset) (f0 : bytes) : artio_buf -> Prop :=
| h_new : forall b, new_artio disk f0 = Some b -> history disk f0 b
| h_read : forall b sx sm f b' r, history disk f0 b -> artio_read disk sx sm b f = Ok (b', r) -> history disk f0 b'
| h_close : forall b b', history disk f0 b -> artio_close b = Ok b' -> history disk f0 b'
| h_header : forall b sx sm f b' r, history disk f0 b -> artio_read_header disk sx sm b f = Ok (b', r) -> history disk f0 b'.

(** fname names block k of the fileset set: set.k, the number (possibly signed) with any number of letters p before and after it. *)
Definition names_block (fname set : bytes) (k : Z) : Prop :=
  exists a digits b, fname = set ++ "."%char :: repeat "p"%char a ++ digits ++ repeat "p"%char b /\ go_int digits k.
