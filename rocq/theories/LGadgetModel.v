(** * LGadget-2 snapshot files (io/lgadget2.go; no proofs in this file).

    As in GadgetModel.v floating point numbers are their bit patterns and float arithmetic is a parameter. *)
From Verif Require Export GadgetModel.
Local Open Scope Z_scope.

(** io/lgadget2.go:12-23: the sizes of the words of an lGadget2Header in declaration order (256 bytes). *)
Definition lg_layout : list nat :=
  (repeat 4 6 ++ repeat 8 6 ++ [8; 8] ++ [4; 4] ++ repeat 4 6 ++ [4; 4] ++ [8; 8; 8; 8] ++ [4; 4] ++ repeat 1 88)%nat.

(** io/lgadget2.go:42-57; a and b are npart[0] and npart[1]. [None] is the panic. *)
Definition lg_count (npartNum a b : Z) : option Z :=
  if npartNum =? 2 then (if a >? 100 * 1000 then None else Some (b + Z.shiftl a 32)) else Some a.

(** io/lgadget2.go:124-142 for one coordinate of one position; [None]: corruption. *)
Definition lg_coord (F : f32ops) (tw x : Z) : option Z :=
  let x1 := if f32_lt F x (f32_zero F) then f32_add F x tw else if f32_ge F x tw then f32_sub F x tw else x in
  if f32_naninf F x1 || f32_lt F x1 (f32_neg F tw) || f32_lt F (f32_dbl F tw) x1 then None else Some x1.

(** io/lgadget2.go:84-151. The header is read in little endian order (line 100) and a short header is ignored; [stale] as in GadgetModel.read_gadget2.
    [None] is a panic, the inner option is the corruption error. *)
Definition read_lgadget2 (F : f32ops) (sys e : order) (cap : nat) (stale : nat -> list Z) (npartNum mass : Z) (file : list Z)
  : option (option (list (list Z) * list (list Z) * list Z * list Z)) :=
  do r <- read_i32 e file; let '(_, s) := r in
  let '(gh, s) := match read_full 256 s with (Some bs, rest) => (decode_words LE lg_layout bs, rest) | (None, rest) => (repeat 0 118, rest) end in
  do r <- read_i32 e s; let '(_, s) := r in
  do count <- lg_count npartNum (nth 0 gh 0) (nth 1 gh 0);
  let n := Z.to_nat count in
  do r <- read_i32 e s; let '(_, s) := r in
  do r <- read_vec_as_byte sys e cap n (stale (12 * n)%nat) s; let '(_, xmem, s) := r in
  do r <- read_i32 e s; let '(_, s) := r in
  do r <- read_i32 e s; let '(_, s) := r in
  do r <- read_vec_as_byte sys e cap n (stale (12 * n)%nat) s; let '(_, vmem, s) := r in
  do r <- read_i32 e s; let '(_, s) := r in
  do r <- read_i32 e s; let '(_, s) := r in
  do r <- read_int64_as_byte sys e cap n (stale (8 * n)%nat) s; let '(_, imem, s) := r in
  let rootA := f32_of_64 F (sqrt_64 F (gh_time gh)) in
  let tw := f32_of_64 F (gh_boxsize gh) in
  Some (do xs <- map_opt (map_opt (lg_coord F tw)) (mem_vecs sys n xmem);
        Some (xs, map (map (fun v => f32_mul F v rootA)) (mem_vecs sys n vmem), repeat mass n, mem_ints sys 8 n imem)).

(** io/lgadget2.go:70-82: [None]: panic or error. *)
Definition read_lgadget2_header (e : order) (file : list Z) : option (list Z) :=
  do r <- read_i32 e file; let '(_, s) := r in
  match read_full 256 s with (Some bs, _) => Some (decode_words LE lg_layout bs) | (None, _) => None end.

(** io/lgadget2.go:277-282 and 32 (out.N in postprocess). *)
Definition lg_total (e : order) (npartNum : Z) (file : list Z) : option Z :=
  do gh <- read_lgadget2_header e file; lg_count npartNum (nth 16 gh 0) (nth 17 gh 0).
Definition lg_header_n (e : order) (npartNum : Z) (file : list Z) : option Z :=
  do gh <- read_lgadget2_header e file; lg_count npartNum (nth 0 gh 0) (nth 1 gh 0).
