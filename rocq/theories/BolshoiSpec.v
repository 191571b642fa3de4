(** * What Bolshoi and BolshoiP files are, independent of the model's reading functions. *)
From Coq Require Import Reals.
From Verif Require Export GadgetSpec BolshoiModel.
Local Open Scope Z_scope.

(** The common start: comment, two headers, boundaries, number of particles. *)
Definition bol_start (p : bool) (e : order) (comment : list Z) (h1 h2 bnd : list Z) (n : nat) : list Z :=
  frecord e comment ++ frecord e (put_words e (bh1_layout p) h1) ++ frecord e (put_words e (bh2_layout p) h2)
  ++ frecord e (put_words e (repeat 4%nat 6) bnd) ++ frecord e (put_int e 4 (Z.of_nat n)).

(** Bolshoi: groups of particles, each a record with its size and a record with positions, velocities and id of one particle after the other. *)
Definition bolshoi_file (e : order) (comment h1 h2 bnd : list Z) (groups : list (list particle)) : list Z :=
  bol_start false e comment h1 h2 bnd (length (concat groups))
  ++ flat_map (fun g => frecord e (put_int e 4 (Z.of_nat (length g)))
                     ++ frecord e (flat_map (fun p => flat_map (put e 4) (p_x p) ++ flat_map (put e 4) (p_v p) ++ put_int e 8 (p_id p)) g)) groups.

(** BolshoiP: each group is a record with its size and three records: all x, all y and all z coordinates; the same for the velocities; all weights and all ids
    (the particle's p_m is its weight). *)
Definition axis_block (e : order) (f : particle -> list Z) (i : nat) (g : list particle) : list Z := flat_map (fun p => put e 4 (nth i (f p) 0)) g.
Definition bolshoiP_file (e : order) (comment h1 h2 bnd : list Z) (groups : list (list particle)) : list Z :=
  bol_start true e comment h1 h2 bnd (length (concat groups))
  ++ flat_map (fun g => frecord e (put_int e 4 (Z.of_nat (length g)))
                     ++ frecord e (axis_block e p_x 0 g ++ axis_block e p_x 1 g ++ axis_block e p_x 2 g)
                     ++ frecord e (axis_block e p_v 0 g ++ axis_block e p_v 1 g ++ axis_block e p_v 2 g)
                     ++ frecord e (flat_map (fun p => put e 4 (p_m p)) g ++ flat_map (fun p => put_int e 8 (p_id p)) g)) groups.

(** Good contents: words fit, the file is number K of Nx * Ny * Nz (words 0 to 3 of the second header). *)
Record bol_good (p : bool) (comment h1 h2 bnd : list Z) (K Nx Ny Nz : Z) (groups : list (list particle)) : Prop := {
  bg_comment : length comment = 45%nat;
  bg_h1 : Forall2 word (bh1_layout p) h1; bg_h2 : Forall2 word (bh2_layout p) h2; bg_bnd : Forall2 word (repeat 4%nat 6) bnd;
  bg_k : nth 0 h2 0 = K; bg_nx : nth 1 h2 0 = Nx; bg_ny : nth 2 h2 0 = Ny; bg_nz : nth 3 h2 0 = Nz;
  bg_pos : 0 < Nx /\ 0 < Ny /\ 0 < Nz; bg_range : 1 <= K <= Nx * Ny * Nz; bg_small : Nx * Ny * Nz < 2 ^ 31;
  bg_n : Z.of_nat (length (concat groups)) < 2 ^ 31;
  bg_parts : Forall (Forall (good_particle 8)) groups }.

(** The cells are numbered from 1, x fastest. *)
Definition cell_number (Nx Ny ix iy iz : Z) : Z := 1 + ix + Nx * (iy + Ny * iz).

(** The float32 bounds of cell number i of n along an axis of width W, and the test on the three coordinates. *)
Definition lower (F : bops) (W n i : Z) : Z := b_mul F (b_int F i) (b_div F W (b_int F n)).
Definition upper (F : bops) (W n i : Z) : Z := b_add F (lower F W n i) (b_div F W (b_int F n)).
Definition in_slab (F : bops) (W n i x : Z) : bool := b_lt F (lower F W n i) x && b_le F x (upper F W n i).
Definition in_cell (F : bops) (W Nx Ny Nz ix iy iz : Z) (x : list Z) : bool :=
  in_slab F W Nx ix (nth 0 x 0) && in_slab F W Ny iy (nth 1 x 0) && in_slab F W Nz iz (nth 2 x 0).

(** Bolshoi coordinates are 1 + (position in grid cells). *)
Definition position_of (F : bops) (h1 : list Z) (p : particle) : list Z :=
  map (fun c => b_mul F (b_sub F c (b_one F)) (b_div F (nth 10 h1 0) (b_int F (nth 4 h1 0)))) (p_x p).

(** The cell of file number K. *)
Definition in_file_cell (F : bops) (W Nx Ny Nz K : Z) (x : list Z) : bool :=
  in_cell F W Nx Ny Nz ((K - 1) mod Nx) ((K - 1) / Nx mod Ny) ((K - 1) / (Nx * Ny)) x.

(** The bounds of the n cells along an axis of width W are computed without rounding, and finite floats are compared as the real numbers that they stand for. *)
Record unrounded (F : bops) (val : Z -> R) (fin : Z -> Prop) (W n : Z) : Prop := {
  un_lower : forall i, 0 <= i < n -> fin (lower F W n i) /\ val (lower F W n i) = (IZR i * val W / IZR n)%R;
  un_upper : forall i, 0 <= i < n -> fin (upper F W n i) /\ val (upper F W n i) = (IZR (i + 1) * val W / IZR n)%R;
  un_lt : forall a b, fin a -> fin b -> (b_lt F a b = true <-> (val a < val b)%R);
  un_le : forall a b, fin a -> fin b -> (b_le F a b = true <-> (val a <= val b)%R) }.

(** The three coordinates are finite and in (0, W]. *)
Definition inside (val : Z -> R) (fin : Z -> Prop) (W : Z) (x : list Z) : Prop :=
  forall i, (i < 3)%nat -> fin (nth i x 0) /\ (0 < val (nth i x 0%Z) <= val W)%R.

(** All file numbers. *)
Definition file_numbers (n : Z) : list Z := map Z.of_nat (seq 1 (Z.to_nat n)).
