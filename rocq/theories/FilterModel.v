(** * Filter files (io/filter_data.go; no proofs in this file). *)
From Verif Require Export BytesModel.
Local Open Scope Z_scope.

(** io/filter_data.go:11-15. *)
Record FilterData := { f_snaps : list Z; f_ids : list Z; f_particles : list (list Z) }.

(** io/filter_data.go:17-19. *)
Record haloInfo := { h_id : Z; h_snap : Z; h_start : Z; h_len : Z }.

(** io/filter_data.go:21-34; [sys] is the byte order of the machine (IsSysOrder, io/io.go:249-261).
    [None] is the panic on line 33. *)
Definition flag_to_order (sys : order) (flag : bytes) : option order :=
  if beq flag (lit "LittleEndian") then Some LE
  else if beq flag (lit "BigEndian") then Some BE
  else if beq flag (lit "SystemOrder") then Some (if order_eqb sys BE then BE else LE)
  else None.

(** encoding/binary layout of a haloInfo: four int64s, in declaration order. *)
Definition put_info (o : order) (h : haloInfo) : list Z :=
  write_ints o 8 [h_id h; h_snap h; h_start h; h_len h].

(** io/filter_data.go:49-55, iteration i.  totLen is declared on line 49 and never changed. *)
Definition info_step (d : FilterData) (totLen baseOffset : Z) (i : nat) (info : list haloInfo)
  : option (list haloInfo) :=
  do s <- rd (f_snaps d) i;
  do x <- rd (f_ids d) i;
  do p <- rd (f_particles d) i;
  wr info i {| h_id := x; h_snap := s; h_start := totLen * 8 + baseOffset;
               h_len := Z.of_nat (length p) |}.

(** io/filter_data.go:46-55: the header table. *)
Definition make_info (d : FilterData) : option (list haloInfo) :=
  let n := length (f_snaps d) in
  let baseOffset := 4 + 4 + Z.of_nat n * 32 in
  loop n (info_step d 0 baseOffset)
       (repeat {| h_id := 0; h_snap := 0; h_start := 0; h_len := 0 |} n).

(** io/filter_data.go:36-63: the bytes written, or [None] for a panic.  Errors of the underlying
    Writer are ignored by the code and are not modelled (the Writer accepts every byte). *)
Definition write_filter (sys : order) (flag : bytes) (d : FilterData) : option (list Z) :=
  do o <- flag_to_order sys flag;
  do info <- make_info d;
  do body <- loop (length info)
               (fun i out => do p <- rd (f_particles d) i; Some (out ++ write_ints o 8 p)) [];
  Some (put_int o 4 (match o with BE => -1 | LE => 0 end)
        ++ put_int o 4 (Z.of_nat (length (f_snaps d)))
        ++ flat_map (put_info o) info
        ++ body).

(** The haloInfo decoded from its four int64s. *)
Definition info_of (ws : list Z) : haloInfo :=
  {| h_id := nth 0 ws 0; h_snap := nth 1 ws 0; h_start := nth 2 ws 0; h_len := nth 3 ws 0 |}.

(** io/filter_data.go:83-84: binary.Read into make([]haloInfo, n); zero when the file is short. *)
Definition read_info (o : order) (n : nat) (s : list Z) : list haloInfo * list Z :=
  match read_full (32 * n) s with
  | (Some bs, rest) => (map (fun c => info_of (map (get_int o) (chunks 8 4 c))) (chunks 32 n bs), rest)
  | (None, rest) => (repeat {| h_id := 0; h_snap := 0; h_start := 0; h_len := 0 |} n, rest)
  end.

(** io/filter_data.go:91-96; make([]int64, n) panics when n is negative. *)
Fixpoint read_particles (o : order) (info : list haloInfo) (s : list Z) : option (list (list Z)) :=
  match info with
  | [] => Some []
  | h :: info' =>
      if h_len h <? 0 then None
      else
        let n := Z.to_nat (h_len h) in
        let '(p, s') := read_ints o 8 n (repeat 0 n) s in
        do ps <- read_particles o info' s';
        Some (p :: ps)
  end.

(** io/filter_data.go:65-99.  [Panic] when a length is negative; otherwise errors of binary.Read
    are ignored and the zero values stay. *)
Definition read_filter (s : list Z) : res FilterData :=
  let '(flag, s1) := read_ints LE 4 1 [0] s in
  let k (o : order) :=
    let '(nn, s2) := read_ints o 4 1 [0] s1 in
    let haloNum := nth 0 nn 0 in
    if haloNum <? 0 then Panic
    else
      let '(info, s3) := read_info o (Z.to_nat haloNum) s2 in
      match read_particles o info s3 with
      | Some ps => Ok {| f_snaps := map h_snap info; f_ids := map h_id info; f_particles := ps |}
      | None => Panic
      end in
  if nth 0 flag 0 =? 0 then k LE
  else if nth 0 flag 0 =? -1 then k BE
  else Err.
