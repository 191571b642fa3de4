(** * Gadget-2 snapshot files (io/gadget2.go; no proofs in this file).

    Floating point numbers are their bit patterns; the arithmetic of [fix] is a parameter, so every
    theorem holds for every float32 arithmetic. *)
From Verif Require Export OrderModel.
Local Open Scope Z_scope.

(** The float operations used by io/gadget2.go:287-321 and 212, on bit patterns. *)
Record f32ops := {
  f32_of_64 : Z -> Z;          (** float32(x), x float64 *)
  sqrt_64 : Z -> Z;            (** math.Sqrt *)
  f32_mul : Z -> Z -> Z; f32_add : Z -> Z -> Z; f32_sub : Z -> Z -> Z;
  f32_neg : Z -> Z; f32_dbl : Z -> Z;   (** -x, 2*x *)
  f32_lt : Z -> Z -> bool; f32_ge : Z -> Z -> bool;
  f32_zero : Z; f32_naninf : Z -> bool  (** math.IsNaN || math.IsInf *) }.

(** io/gadget2.go:11-25: the sizes of the words of a gadget2Header in declaration order (256 bytes). *)
Definition header_layout : list nat :=
  (repeat 4 6 ++ repeat 8 6 ++ [8; 8] ++ [4; 4] ++ repeat 4 6 ++ [4; 4] ++ [8; 8; 8; 8] ++ [4; 4]
   ++ repeat 4 6 ++ [4] ++ repeat 1 60)%nat.

(** binary.Read into a struct: the fields in declaration order, without padding. *)
Fixpoint decode_words (o : order) (sizes : list nat) (bs : list Z) : list Z :=
  match sizes with
  | [] => []
  | n :: sizes' => get o (firstn n bs) :: decode_words o sizes' (skipn n bs)
  end.

(** A gadget2Header is the list of its 97 words. *)
Definition gh_npart (gh : list Z) (i : nat) : nat := Z.to_nat (nth i gh 0).
Definition gh_mass (gh : list Z) (i : nat) : Z := nth (6 + i) gh 0.
Definition gh_time (gh : list Z) : Z := nth 12 gh 0.
Definition gh_boxsize (gh : list Z) : Z := nth 24 gh 0.
Definition gh_total (gh : list Z) (i : nat) : Z := nth (16 + i) gh 0.
Definition gh_total_hw (gh : list Z) (i : nat) : Z := nth (30 + i) gh 0.

(** io/io.go:85-91 (the fields used here). *)
Record Context := { c_dm : list Z; c_single : list Z; c_mass_units : Z; c_pos_units : Z }.

(** binary.Read(f, order, gh); on a short file the header stays zero (line 83 ignores the error). *)
Definition read_header (o : order) (s : list Z) : list Z * list Z :=
  match read_full 256 s with
  | (Some bs, rest) => (decode_words o header_layout bs, rest)
  | (None, rest) => (repeat 0 97, rest)
  end.

(** io/lgadget2.go:60-68: [None] is the panic on a failed read. *)
Definition read_i32 (o : order) (s : list Z) : option (Z * list Z) :=
  match read_full 4 s with
  | (Some bs, rest) => Some (get_int o bs, rest)
  | (None, _) => None
  end.

(** io/gadget2.go:147-152 and 154-159. *)
Definition is_multi_mass (c : Context) (i : nat) : bool :=
  negb (existsb (fun j => j =? Z.of_nat i) (c_single c)).
Definition is_dm (c : Context) (i : nat) : bool := existsb (fun j => j =? Z.of_nat i) (c_dm c).

(** io/gadget2.go:161-165, 167-175, 177-183. *)
Definition count_if (gh : list Z) (f : nat -> bool) : nat :=
  fold_left (fun n i => if f i then n + gh_npart gh i else n)%nat (seq 0 6) 0%nat.
Definition particle_count (gh : list Z) : nat := count_if gh (fun _ => true).
Definition dm_count (gh : list Z) (c : Context) : nat := count_if gh (is_dm c).
Definition multi_count (gh : list Z) (c : Context) : nat := count_if gh (is_multi_mass c).

(** io/gadget2.go:190-200, 219-229, 242-252, 265-275: offsets[i+1] = offsets[i] (+ NPart[i]). *)
Definition offsets (gh : list Z) (f : nat -> bool) : option (list nat) :=
  loop 6 (fun i offs => do o <- rd offs i; wr offs (i + 1) (if f i then o + gh_npart gh i else o)%nat) (repeat 0%nat 7).

(** Go: xs[a:b]. *)
Definition slice_of {A} (l : list A) (a b : nat) : option (list A) :=
  if ((a <=? b) && (b <=? length l))%nat then Some (firstn (b - a) (skipn a l)) else None.

(** Go: copy(dst[a:b], src) where dst may be the same array as src's (copy is memmove). *)
Definition copy_to {A} (dst : list A) (a b : nat) (src : list A) : option (list A) :=
  if ((a <=? b) && (b <=? length dst))%nat then
    let n := Nat.min (b - a) (length src) in
    Some (firstn a dst ++ firstn n src ++ skipn (a + n) dst)
  else None.

(** io/gadget2.go:185-216. *)
Definition unpack_mass (F : f32ops) (gh : list Z) (c : Context) (multi ms : list Z) : option (list Z) :=
  do moffs <- offsets gh (is_multi_mass c);
  do offs <- offsets gh (fun _ => true);
  loop 6 (fun i ms =>
    do a <- rd offs i; do b <- rd offs (i + 1);
    if is_multi_mass c i then
      do ma <- rd moffs i; do mb <- rd moffs (i + 1);
      do src <- slice_of multi ma mb;
      copy_to ms a b src
    else
      loop_from a b (fun j ms => wr ms j (f32_of_64 F (gh_mass gh i))) ms) ms.

(** io/gadget2.go:218-239 (packVec), 241-262 (packInt64), 264-285 (packFloat32): the same code for
    three element types. *)
Definition pack {A} (gh : list Z) (c : Context) (buf : list A) : option (list A) :=
  do doffs <- offsets gh (is_dm c);
  do offs <- offsets gh (fun _ => true);
  loop 6 (fun i buf =>
    if is_dm c i then
      do da <- rd doffs i; do db <- rd doffs (i + 1);
      do a <- rd offs i; do b <- rd offs (i + 1);
      do src <- slice_of buf a b;
      copy_to buf da db src
    else Some buf) buf.

(** io/gadget2.go:299-315: one coordinate; [None] when corruption is detected. *)
Definition fix_coord (F : f32ops) (tw units x : Z) : option Z :=
  let x1 := if f32_lt F x (f32_zero F) then f32_add F x tw
            else if f32_ge F x tw then f32_sub F x tw else x in
  if f32_naninf F x1 || f32_lt F x1 (f32_neg F tw) || f32_lt F (f32_dbl F tw) x1 then None
  else Some (f32_mul F x1 units).

Fixpoint map_opt {A B} (f : A -> option B) (l : list A) : option (list B) :=
  match l with
  | [] => Some []
  | a :: l' => match f a with Some b => option_map (cons b) (map_opt f l') | None => None end
  end.

(** io/gadget2.go:287-321 on slices of equal lengths (line 136-140 make them so).  The in-place loop
    treats every coordinate by itself; it is modelled by maps.  [None] is the corruption error. *)
Definition fix_all (F : f32ops) (gh : list Z) (c : Context) (xs vs : list (list Z)) (ms : list Z)
  : option (list (list Z) * list (list Z) * list Z) :=
  let rootA := f32_of_64 F (sqrt_64 F (gh_time gh)) in
  let tw := f32_of_64 F (gh_boxsize gh) in
  do xs' <- map_opt (map_opt (fix_coord F tw (f32_of_64 F (c_pos_units c)))) xs;
  Some (xs', map (map (fun v => f32_mul F v rootA)) vs,
        map (fun m => f32_mul F m (f32_of_64 F (c_mass_units c))) ms).

(** Memory to values: k words of n bytes; vectors are three words. *)
Definition mem_words (sys : order) (n k : nat) (mem : list Z) : list Z := map (get sys) (chunks n k mem).
Definition mem_vecs (sys : order) (k : nat) (mem : list Z) : list (list Z) := chunks 3 k (mem_words sys 4 (3 * k) mem).
Definition mem_ints (sys : order) (n k : nat) (mem : list Z) : list Z := map (get_int sys) (chunks n k mem).

(** io/gadget2.go:109-121: the id block after its size field was read.  Integer division by zero
    panics; sizes other than 8 or 4 bytes per id read nothing and leave the ids as they were. *)
Definition read_ids (sys e : order) (cap : nat) (stale : nat -> list Z) (size : Z) (n : nat) (s : list Z)
  : option (list Z * list Z) :=
  let old := mem_ints sys 8 n (stale (8 * n)%nat) in
  if (n =? 0)%nat then None
  else
    let q := Z.quot size (Z.of_nat n) in
    if q =? 8 then
      do r <- read_int64_as_byte sys e cap n (stale (8 * n)%nat) s;
      let '(_, mem, rest) := r in Some (mem_ints sys 8 n mem, rest)
    else if q =? 4 then
      do r <- read_int32_as_byte sys e cap n (repeat 0 (4 * n)) s;
      let '(_, mem, rest) := r in Some (mem_ints sys 4 n mem, rest)
    else Some (old, s).

(** io/gadget2.go:64-145.  [stale n] is the memory of an n-byte buffer as expandVectors and friends
    leave it (io/lgadget2.go:153-186: the right length, any content); the errors of the block readers
    are ignored, as in the code.  [None] is a panic; the inner option is the corruption error. *)
Definition read_gadget2 (F : f32ops) (sys e : order) (cap : nat) (stale : nat -> list Z) (c : Context)
  (file : list Z)
  : option (option (list (list Z) * list (list Z) * list Z * list Z)) :=
  do r <- read_i32 e file; let '(_, s) := r in
  let '(gh, s) := read_header e s in
  do r <- read_i32 e s; let '(_, s) := r in
  let totalN := particle_count gh in
  let dmN := dm_count gh c in
  let multiN := multi_count gh c in
  do r <- read_i32 e s; let '(_, s) := r in
  do r <- read_vec_as_byte sys e cap totalN (stale (12 * totalN)%nat) s; let '(_, xmem, s) := r in
  do r <- read_i32 e s; let '(_, s) := r in
  do r <- read_i32 e s; let '(_, s) := r in
  do r <- read_vec_as_byte sys e cap totalN (stale (12 * totalN)%nat) s; let '(_, vmem, s) := r in
  do r <- read_i32 e s; let '(_, s) := r in
  do r <- read_i32 e s; let '(size, s) := r in
  do r <- read_ids sys e cap stale size totalN s; let '(ids, s) := r in
  do r <- read_i32 e s; let '(_, s) := r in
  do r <- read_i32 e s; let '(_, s) := r in
  do r <- read_float32_as_byte sys e cap multiN (stale (4 * multiN)%nat) s; let '(_, mmem, s) := r in
  do r <- read_i32 e s; let '(_, s) := r in
  do ms <- unpack_mass F gh c (mem_words sys 4 multiN mmem) (mem_words sys 4 totalN (stale (4 * totalN)%nat));
  do xs <- pack gh c (mem_vecs sys totalN xmem);
  do vs <- pack gh c (mem_vecs sys totalN vmem);
  do ids <- pack gh c ids;
  do ms <- pack gh c ms;
  do xs <- slice_of xs 0 dmN;
  do vs <- slice_of vs 0 dmN;
  do ids <- slice_of ids 0 dmN;
  do ms <- slice_of ms 0 dmN;
  Some (do r <- fix_all F gh c xs vs ms; let '(xs, vs, ms) := r in Some (xs, vs, ms, ids)).

(** io/gadget2.go:50-62: the record size is read in the given order, the header always in little
    endian order.  [None]: panic or error. *)
Definition read_gadget2_header (e : order) (file : list Z) : option (list Z) :=
  do r <- read_i32 e file; let '(_, s) := r in
  match read_full 256 s with
  | (Some bs, _) => Some (decode_words LE header_layout bs)
  | (None, _) => None
  end.

(** io/gadget2.go:36-39: out.N (an int64 sum over the configured list; indices outside 0..5 panic). *)
Definition header_n (gh : list Z) (c : Context) : option Z :=
  fold_left (fun n j => do n' <- n;
     if (0 <=? j) && (j <? 6) then Some (n' + nth (Z.to_nat j) gh 0) else None) (c_dm c) (Some 0).

(** io/gadget2.go:404-415 (int is 64 bits). *)
Definition total_particles (e : order) (c : Context) (file : list Z) : option Z :=
  do hd <- read_gadget2_header e file;
  fold_left (fun n j => do n' <- n;
     if (0 <=? j) && (j <? 6)
     then Some (n' + (gh_total hd (Z.to_nat j) + Z.shiftl (gh_total_hw hd (Z.to_nat j)) 32)) else None) (c_dm c) (Some 0).
