(** * gotetra snapshot files (io/gotetra.go; no proofs in this file).

    Floats are bit patterns. A file is [None] if it cannot be opened, otherwise its bytes. *)
From Verif Require Export GadgetModel.
Local Open Scope Z_scope.

(** gotetra.go:109-120: the sizes of the words of a rawGotetraHeader (152 bytes, no padding). *)
Definition sheet_layout : list nat := (repeat 8 4 ++ repeat 8 7 ++ repeat 8 2 ++ repeat 4 12)%nat.
(** An int64 field. *)
Definition sh_int (hd : list Z) (i : nat) : Z := sign 8 (nth i hd 0).
Definition sh_countWidth (hd : list Z) : Z := sh_int hd 5.
Definition sh_segmentWidth (hd : list Z) : Z := sh_int hd 6.
Definition sh_gridWidth (hd : list Z) : Z := sh_int hd 7.
Definition sh_gridCount (hd : list Z) : Z := sh_int hd 8.
Definition sh_idx (hd : list Z) : Z := sh_int hd 9.
Definition sh_cells (hd : list Z) : Z := sh_int hd 10.

(** gotetra.go:145-153; [None]: panic. *)
Definition endianness (flag : Z) : option order := if flag =? 0 then Some LE else if flag =? -1 then Some BE else None.

Inductive fres (A : Type) := FOk (a : A) | FErr | FPanic.
Arguments FOk {A} a. Arguments FErr {A}. Arguments FPanic {A}.

(** gotetra.go:177-211: the header, the byte order and the rest of the file. (Count is replaced by CountWidth cubed; see NewGotetraBuffer.) *)
Definition load_sheet_header (file : option (list Z)) : fres (list Z * order * list Z) :=
  match file with
  | None => FErr
  | Some bytes =>
      match read_i32 LE bytes with
      | None => FPanic
      | Some (flag, s) =>
          match endianness flag with
          | None => FPanic
          | Some o =>
              match read_i32 o s with
              | None => FPanic
              | Some (size, s) =>
                  if negb (size =? 152) then FErr else
                  match read_full 152 s with
                  | (Some bs, rest) => FOk (decode_words o sheet_layout bs, o, rest)
                  | (None, _) => FErr
                  end
              end
          end
      end
  end.

(** gotetra.go:13-22: the buffer. sheet is the memory of the positions (12 bytes per point). *)
Record sheet_buf := { b_open : bool; b_sheet : list Z; b_sw : nat; b_gw : nat; b_mass : Z }.

(** gotetra.go:24-47. uniform is calcUniformMass of the header with Count = CountWidth cubed. Negative widths panic in make. *)
Definition new_sheet_buf (uniform : list Z -> Z) (file : option (list Z)) : fres sheet_buf :=
  match load_sheet_header file with
  | FOk (hd, _, _) =>
      let sw := sh_segmentWidth hd in let gw := sh_gridWidth hd in
      if (sw <? 0) || (gw <? 0) then FPanic else
      FOk {| b_open := false; b_sheet := repeat 0 (12 * (Z.to_nat gw * Z.to_nat gw * Z.to_nat gw))%nat; b_sw := Z.to_nat sw; b_gw := Z.to_nat gw;
             b_mass := uniform hd |}
  | FErr => FErr
  | FPanic => FPanic
  end.

(** gotetra.go:228-251 readSheetPositionsAt: the new memory of the buffer. An error of loadSheetHeader is dropped (line 231-233: return nil). *)
Definition read_sheet_positions (sys : order) (cap : nat) (file : option (list Z)) (n : nat) (mem : list Z) : fres (list Z) :=
  match load_sheet_header file with
  | FPanic => FPanic
  | FErr => FOk mem
  | FOk (hd, o, rest) =>
      if negb (sh_gridCount hd =? Z.of_nat n) then FErr else
      match read_vec_as_byte sys o cap n mem rest with
      | None => FPanic
      | Some (true, _, _) => FErr
      | Some (false, mem', _) => FOk mem'
      end
  end.

(** What Read returns: positions, velocities (nil), masses, ids. *)
Definition sheet_out := (list (list Z) * list (list Z) * list Z * list Z)%type.

(** gotetra.go:73-85: the points of the sheet with coordinates below sw, x fastest. *)
Definition segment_points {A} (sheet : list A) (sw gw : nat) : option (list A) :=
  loop sw (fun z acc => loop sw (fun y acc => loop sw (fun x acc =>
    do v <- rd sheet (x + y * gw + z * gw * gw)%nat; Some (acc ++ [v])) acc) acc) [].

(** gotetra.go:60-88. The buffer after the call and what it returned. After an error the buffer stays open. *)
Definition sheet_read (sys : order) (cap : nat) (b : sheet_buf) (file : option (list Z)) : fres (sheet_buf * option sheet_out) :=
  if b_open b then FPanic else
  let n := (b_gw b * b_gw b * b_gw b)%nat in
  match read_sheet_positions sys cap file n (b_sheet b) with
  | FPanic => FPanic
  | FErr => FOk ({| b_open := true; b_sheet := b_sheet b; b_sw := b_sw b; b_gw := b_gw b; b_mass := b_mass b |}, None)
  | FOk mem =>
      match segment_points (mem_vecs sys n mem) (b_sw b) (b_gw b) with
      | None => FPanic
      | Some xs =>
          let k := (b_sw b * b_sw b * b_sw b)%nat in
          FOk ({| b_open := true; b_sheet := mem; b_sw := b_sw b; b_gw := b_gw b; b_mass := b_mass b |}, Some (xs, [], repeat (b_mass b) k, repeat 0 k))
      end
  end.

(** gotetra.go:90-96 *)
Definition sheet_close (b : sheet_buf) : fres sheet_buf :=
  if b_open b then FOk {| b_open := false; b_sheet := b_sheet b; b_sw := b_sw b; b_gw := b_gw b; b_mass := b_mass b |} else FPanic.

(** gotetra.go:122-128, 213-225: Header.N. *)
Definition sheet_header_n (file : option (list Z)) : fres Z :=
  match load_sheet_header file with
  | FOk (hd, _, _) => FOk (sh_segmentWidth hd * sh_segmentWidth hd * sh_segmentWidth hd)
  | FErr => FErr
  | FPanic => FPanic
  end.

(** gotetra.go:130-135 *)
Definition file_coords (idx cells : Z) : Z * Z * Z := (Z.rem idx cells, Z.rem (Z.quot idx cells) cells, Z.quot idx (cells * cells)).
