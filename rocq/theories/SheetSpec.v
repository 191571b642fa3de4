(** * What a gotetra file is, independent of the model's reading functions. *)
From Verif Require Export GadgetSpec SheetModel.
Local Open Scope Z_scope.

(** The byte order flag: 0 for little endian, -1 for big endian. *)
Definition flag_of (e : order) : Z := match e with LE => 0 | BE => -1 end.

(** flag, header size, header, positions. *)
Definition sheet_file (e : order) (h : list Z) (pts : list (list Z)) : list Z :=
  put_int LE 4 (flag_of e) ++ put_int e 4 152 ++ put_words e sheet_layout h ++ flat_map (fun p => flat_map (put e 4) p) pts.

(** Header words: 6 = SegmentWidth, 7 = GridWidth, 8 = GridCount. The points are a grid of gw^3 positions, x fastest. *)
Record sheet_good (sw gw : nat) (h : list Z) (pts : list (list Z)) : Prop := {
  sg_words : Forall2 word sheet_layout h;
  sg_sw : nth 6 h 0 = Z.of_nat sw; sg_gw : nth 7 h 0 = Z.of_nat gw; sg_count : nth 8 h 0 = Z.of_nat (gw * gw * gw);
  sg_small : Z.of_nat (gw * gw * gw) < 2 ^ 63; sg_smallw : Z.of_nat sw < 2 ^ 63 /\ Z.of_nat gw < 2 ^ 63;
  sg_len : length pts = (gw * gw * gw)%nat;
  sg_pts : Forall (fun p => length p = 3%nat /\ Forall (word 4) p) pts }.

(** The grid point (x, y, z) of the file. *)
Definition grid_point (gw : nat) (pts : list (list Z)) (x y z : nat) : list Z := nth (x + gw * (y + gw * z)) pts [].

(** The points of the segment: those with all coordinates below sw, x fastest. *)
Definition segment (sw gw : nat) (pts : list (list Z)) : list (list Z) :=
  flat_map (fun z => flat_map (fun y => map (fun x => grid_point gw pts x y z) (seq 0 sw)) (seq 0 sw)) (seq 0 sw).

(** All triples below n, x fastest. *)
Definition triples (n : nat) : list (nat * nat * nat) :=
  flat_map (fun z => flat_map (fun y => map (fun x => (x, y, z)) (seq 0 n)) (seq 0 n)) (seq 0 n).

(** The cell of file number idx in a simulation of C^3 files. *)
Definition cell_of (C idx : nat) : nat * nat * nat := (idx mod C, (idx / C) mod C, idx / (C * C))%nat.

(** The files of one snapshot: file idx holds, at the grid points (x, y, z) of its segment, the particles G (cx sw + x, cy sw + y, cz sw + z). *)
Definition sheet_snapshot (sw gw C : nat) (G : nat * nat * nat -> list Z) (hs : nat -> list Z) (pts : nat -> list (list Z)) : Prop :=
  forall idx, (idx < C * C * C)%nat -> sheet_good sw gw (hs idx) (pts idx) /\
    forall x y z, (x < sw)%nat -> (y < sw)%nat -> (z < sw)%nat ->
      let '(cx, cy, cz) := cell_of C idx in grid_point gw (pts idx) x y z = G (cx * sw + x, cy * sw + y, cz * sw + z)%nat.

(** The positions returned by reading files one after the other with the same buffer, closing it each time. *)
Fixpoint read_in_turn (sys : order) (cap : nat) (b : sheet_buf) (files : list (option (list Z))) : fres (list (list (list Z))) :=
  match files with
  | [] => FOk []
  | f :: files' =>
      match sheet_read sys cap b f with
      | FOk (b', Some (xs, _, _, _)) =>
          match sheet_close b' with
          | FOk b'' => match read_in_turn sys cap b'' files' with FOk r => FOk (xs :: r) | FErr => FErr | FPanic => FPanic end
          | _ => FPanic
          end
      | FOk (_, None) => FErr
      | FErr => FErr
      | FPanic => FPanic
      end
  end.
