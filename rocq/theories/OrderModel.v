(** * The block readers of io/io.go (no proofs in this file).

    A block buffer is modelled by its memory: the list of its bytes.  [sys] is the byte order of the
    machine, so that an n-byte word v in memory is [put sys n v]. *)
From Verif Require Export BytesModel.
Local Open Scope Z_scope.

(** Go: buf[i1], buf[i2] = buf[i2], buf[i1]. *)
Definition swap (buf : list Z) (i1 i2 : nat) : option (list Z) :=
  do a <- rd buf i1;
  do b <- rd buf i2;
  do buf' <- wr buf i1 b;
  wr buf' i2 a.

(** io/io.go:100-107. *)
Definition reorder (buf : list Z) (size words : nat) : option (list Z) :=
  loop words (fun word b =>
    loop (size / 2) (fun i b => swap b (word * size + i) ((word + 1) * size - (i + 1))) b) buf.

(** io/io.go:249-261: the first byte of the int32 1 in memory is 1 exactly on little endian machines. *)
Definition is_sys_order (sys e : order) : bool :=
  if nth 0 (put sys 4 1) 0 =? 1 then order_eqb LE e else order_eqb BE e.

(** io.Reader.Read(buf) for a reader that delivers at most [cap] bytes per call (os.File delivers at
    most 2^30): the error flag (io.EOF when nothing is left), the buffer and what is left. *)
Definition rd_read (cap : nat) (buf s : list Z) : bool * list Z * list Z :=
  let k := Nat.min cap (Nat.min (length buf) (length s)) in
  (match buf, s with _ :: _, [] => true | _, _ => false end,
   firstn k s ++ skipn k buf, skipn k s).

(** The swapping loops of io/io.go:151-158 (readVecAsByte: n = 3*bufLen, w = 4), 179-186
    (readInt64AsByte: w = 8), 207-214 (readInt32AsByte: w = 4) and 234-241 (readFloat32AsByte: w = 4). *)
Definition swap_words (n w half : nat) (buf : list Z) : option (list Z) :=
  loop n (fun i b => loop half (fun j b => swap b (i * w + j) (i * w + (w - 1) - j)) b) buf.

(** The result of a reader: (error, memory of the buffer, rest of the file). *)
Definition read_block (swapper : list Z -> option (list Z)) (sys e : order) (cap : nat)
  (buf s : list Z) : option (bool * list Z * list Z) :=
  let '(err, buf1, s1) := rd_read cap buf s in
  if err then Some (true, buf1, s1)
  else if is_sys_order sys e then Some (false, buf1, s1)
  else do buf2 <- swapper buf1; Some (false, buf2, s1).

(** io/io.go:138-164: buf is a [][3]float32 of 12 * n bytes. *)
Definition read_vec_as_byte (sys e : order) (cap n : nat) (buf s : list Z) :=
  read_block (swap_words (n * 3) 4 2) sys e cap buf s.

(** io/io.go:166-192: buf is an []int64 of 8 * n bytes. *)
Definition read_int64_as_byte (sys e : order) (cap n : nat) (buf s : list Z) :=
  read_block (swap_words n 8 4) sys e cap buf s.

(** io/io.go:194-220: buf is an []int32 of 4 * n bytes. *)
Definition read_int32_as_byte (sys e : order) (cap n : nat) (buf s : list Z) :=
  read_block (swap_words n 4 2) sys e cap buf s.

(** io/io.go:222-247: buf is a []float32 of 4 * n bytes. *)
Definition read_float32_as_byte (sys e : order) (cap n : nat) (buf s : list Z) :=
  read_block (swap_words n 4 2) sys e cap buf s.

(** Go: f(buf[a:b]), a function that rewrites a sub-slice in place. *)
Definition on_slice (f : list Z -> option (list Z)) (buf : list Z) (a b : nat) : option (list Z) :=
  if ((a <=? b) && (b <=? length buf))%nat then
    do m <- f (firstn (b - a) (skipn a buf));
    Some (firstn a buf ++ m ++ skipn b buf)
  else None.

(** io/io.go:109-136: buf is a []bolshoiParticle (bolshoi.go:39-43: six float32s and an int64, 32
    bytes) of 32 * n bytes. *)
Definition read_bolshoi_as_byte (sys e : order) (cap n : nat) (buf s : list Z) :=
  read_block (fun b => loop n (fun i b =>
      let offset := (i * 32)%nat in
      do b1 <- on_slice (fun m => reorder m 4 6) b offset (offset + 24);
      on_slice (fun m => reorder m 8 1) b1 (offset + 24) (offset + 24 + 8)) b) sys e cap buf s.
