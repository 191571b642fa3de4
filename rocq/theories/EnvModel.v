(** * Model of cmd/env/*.go and of validateFormat in cmd/cmd.go (no proofs in this file).

    The variables of the global config file used here are collected in [pinfo]. The contents of
    ScaleFactorFile are a field: [None] means that ioutil.ReadFile returns an error. Go's int is an
    unbounded integer: differences of snapshot or block numbers that overflow 64 bits are not
    modelled, nor is a make() that exhausts memory. fmt.Sprintf is a parameter [sprintf]: nothing is
    assumed about it.                                                                              *)
From Verif Require Export LoopBase.
Local Open Scope nat_scope.
Local Open Scope list_scope.

(** A value of type interface{} held in a format column: untouched, int or string (env.go:117-133). *)
Inductive arg : Type := ANil | AInt (z : Z) | AStr (s : bytes).

(** env.go:46-54 (ParticleInfo) and the part of cmd.go:46-84 that validateFormat reads. *)
Record pinfo : Type := {
  snapshotFormat : bytes;
  meanings : list bytes;             (* SnapshotFormatMeanings *)
  scaleFactorFile : option bytes;    (* contents of the file named ScaleFactorFile *)
  blockMins : list Z;
  blockMaxes : list Z;
  snapMin : Z;
  snapMax : Z;
  logging : bytes;                   (* GlobalConfig.Logging, cmd.go:70 *)
}.

(** out := make([]int, hi - lo + 1); out[i] = i + lo (env.go:93-96, 108-111). A negative length makes
    make() panic. *)
Definition int_range (lo hi : Z) : option (list Z) :=
  if (hi - lo + 1 <? 0)%Z then None
  else Some (map (fun i => (Z.of_nat i + lo)%Z) (seq 0 (Z.to_nat (hi - lo + 1)))).

(** env.go:72-81: the non-blank lines, trimmed. *)
Definition scale_lines (text : bytes) : list bytes :=
  filter (fun l => negb (List.length l =? 0)) (map (trim sp) (split_byte nl text)).

(** s[:5] == "Block" guarded by len(s) >= 5 (env.go:99). *)
Definition block_prefix (m : bytes) : bool :=
  (5 <=? List.length m) && beq (firstn 5 m) (lit "Block").

(** env.go:61-115 GetColumn(i), with m = SnapshotFormatMeanings[i]. *)
Definition get_column (info : pinfo) (m : bytes) : res (list arg * bool) :=
  if beq m (lit "ScaleFactor") then
    match scaleFactorFile info with
    | None => Err
    | Some text =>
        let out := scale_lines text in
        if negb (Z.of_nat (List.length out) =? snapMax info - snapMin info + 1)%Z then Err
        else Ok (map AStr out, true)
    end
  else if beq m (lit "Snapshot") then
    match int_range (snapMin info) (snapMax info) with
    | None => Panic
    | Some out => Ok (map AInt out, true)
    end
  else if block_prefix m then
    match (if 5 <? List.length m then atoi (skipn 5 m) else Some 0%Z) with
    | None => Err
    | Some idx =>
        if (idx <? 0)%Z then Panic
        else
          match nth_error (blockMaxes info) (Z.to_nat idx), nth_error (blockMins info) (Z.to_nat idx) with
          | Some hi, Some lo =>
              match int_range lo hi with
              | None => Panic
              | Some out => Ok (map AInt out, false)
              end
          | _, _ => Panic
          end
    end
  else Panic.                                                     (* panic("Impossible") *)

(** env.go:189-206: the number of snapshots and of rows per snapshot; None is the "Column %d is
    snapAligned" panic (or a short snapAligned slice). *)
Definition heights (cols : list (list arg)) (aligned : list bool) : option (option nat * nat) :=
  loop (List.length cols) (fun i st =>
    let '(snaps, nonSnaps) := st in
    do al <- rd aligned i;
    do c <- rd cols i;
    if al then
      match snaps with
      | None => Some (Some (List.length c), nonSnaps)
      | Some k => if k =? List.length c then Some st else None
      end
    else Some (snaps, nonSnaps * List.length c)) (None, 1).

(** snapRows[row][col] = v (env.go:220,227). *)
Definition set_cell (rows : list (list arg)) (row col : nat) (v : arg) : option (list (list arg)) :=
  do r <- rd rows row;
  do r' <- wr r col v;
  wr rows row r'.

(** Go's x / y and x %% y on non-negative ints: division by zero panics. *)
Definition godiv (x y : nat) : option nat := if y =? 0 then None else Some (x / y).
Definition gomod (x y : nat) : option nat := if y =? 0 then None else Some (x mod y).

(** env.go:210-230: the rows of one snapshot. *)
Definition snap_rows (cols : list (list arg)) (aligned : list bool) (nonSnaps snap : nat)
  : option (list (list arg)) :=
  do st <- loop (List.length cols) (fun col st =>
      let '(rows, divSize, modSize) := st in
      do al <- rd aligned col;
      do c <- rd cols col;
      if al then
        do rows' <- loop (List.length rows) (fun row rs =>
            do v <- rd c snap;
            set_cell rs row col v) rows;
        Some (rows', divSize, modSize)
      else
        let divSize := divSize * modSize in
        let modSize := List.length c in
        do rows' <- loop (List.length rows) (fun row rs =>
            do q <- godiv row divSize;
            do k <- gomod q modSize;
            do v <- rd c k;
            set_cell rs row col v) rows;
        Some (rows', divSize, modSize))
    (repeat (repeat ANil (List.length cols)) nonSnaps, 1, 1);
  let '(rows, _, _) := st in
  Some rows.

(** env.go:187-236 interleave. *)
Definition interleave (cols : list (list arg)) (aligned : list bool)
  : option (list (list (list arg))) :=
  do h <- heights cols aligned;
  let '(snaps, nonSnaps) := h in
  let snaps := match snaps with None => 1 | Some k => k end in
  loop snaps (fun snap out =>
    do rows <- snap_rows cols aligned nonSnaps snap;
    Some (out ++ [rows])) [].

(** The loop that fills cols and snapAligned (Gadget-2.go:11-19 and the same lines in the other
    Init functions). *)
Fixpoint get_columns (info : pinfo) (ms : list bytes) : res (list (list arg) * list bool) :=
  match ms with
  | [] => Ok ([], [])
  | m :: ms' =>
      bindr (get_column info m) (fun ca =>
      bindr (get_columns info ms') (fun cas =>
      Ok (fst ca :: fst cas, snd ca :: snd cas)))
  end.

(** env.go:139-143 Catalogs. *)
Record catalogs : Type := { c_snapMin : Z; c_names : list (list bytes) }.

Inductive snap_type : Type :=
  Gotetra | LGadget2 | Gadget2 | ARTIO | Bolshoi | BolshoiP | NilSnap.

Section Init.
Variable sprintf : bytes -> list arg -> bytes.

(** Gadget-2.go:7-38, LGadget-2.go:7-38, ARTIO.go:7-39, bolshoi.go:7-38, bolshoiP.go:7-38: the five
    functions have the same body. *)
Definition init_columns (info : pinfo) (validate : bool) : res catalogs :=
  bindr (get_columns info (meanings info)) (fun ca =>
  match interleave (fst ca) (snd ca) with
  | None => Panic
  | Some fargs =>
      let names := map (map (sprintf (snapshotFormat info))) fargs in
      if validate then Panic
      else Ok {| c_snapMin := snapMin info; c_names := names |}
  end).

(** gotetra.go:7-45. *)
Definition init_gotetra (info : pinfo) (validate : bool) : res catalogs :=
  if negb (List.length (blockMins info) =? 3) then Err else init_columns info validate.

(** nil_snapshot.go:8-18: snapMin is left at its zero value. *)
Definition init_nil (info : pinfo) (validate : bool) : res catalogs :=
  if (snapMax info - snapMin info + 1 <? 0)%Z then Panic
  else
    let names := map (fun i => [itoa (Z.of_nat i)]) (seq 0 (Z.to_nat (snapMax info - snapMin info + 1))) in
    if validate then Panic else Ok {| c_snapMin := 0; c_names := names |}.

(** shellfish.go:618-636 initCatalogs (an unknown SnapshotType is excluded by cmd.go:165-172). *)
Definition init_catalogs (t : snap_type) (info : pinfo) (validate : bool) : res catalogs :=
  match t with
  | Gotetra => init_gotetra info validate
  | LGadget2 | Gadget2 | ARTIO | Bolshoi | BolshoiP => init_columns info validate
  | NilSnap => init_nil info validate
  end.
End Init.

(** env.go:145-147 Blocks. *)
Definition blocks (cat : catalogs) : option nat :=
  option_map (@List.length bytes) (nth_error (c_names cat) 0).

(** env.go:149-151 ParticleCatalog(snap, block). *)
Definition particle_catalog (cat : catalogs) (snap block : Z) : option bytes :=
  if (snap - c_snapMin cat <? 0)%Z then None
  else
    do row <- nth_error (c_names cat) (Z.to_nat (snap - c_snapMin cat));
    if (block <? 0)%Z then None else nth_error row (Z.to_nat block).

(** env.go:157-163 Halos. *)
Record halos : Type := { h_snapMin : Z; h_snapOffset : Z; h_names : list bytes }.

(** text_halos.go:9-36 InitTextHalo. [dir] is the result of ioutil.ReadDir: the file names sorted by
    name, each already joined with HaloDir; None is an error. *)
Definition init_text_halo (dir : option (list bytes)) (hmin hmax : Z) : res halos :=
  match dir with
  | None => Err
  | Some names =>
      let n := Z.of_nat (List.length names) in
      if (n <? hmax - hmin + 1)%Z then Err
      else
        let lo := (n - (hmax - hmin + 1))%Z in
        if (n <? lo)%Z then Panic
        else Ok {| h_snapMin := hmin; h_snapOffset := hmax - n; h_names := skipn (Z.to_nat lo) names |}
  end.

(** env.go:165-167 HaloCatalog(snap). *)
Definition halo_catalog (h : halos) (snap : Z) : option bytes :=
  if (snap - h_snapMin h <? 0)%Z then None
  else nth_error (h_names h) (Z.to_nat (snap - h_snapMin h)).

(** strings.Count(s, "%") (cmd.go:389). *)
Definition count_byte (c : ascii) (s : bytes) : nat := List.length (filter (Ascii.eqb c) s).

(** cmd.go:406-412: is there a BlockMins[i] > BlockMaxes[i]? (BlockMaxes has been checked to be as long
    as BlockMins.) *)
Fixpoint some_above (mins maxes : list Z) : bool :=
  match mins, maxes with
  | lo :: mins', hi :: maxes' => (hi <? lo)%Z || some_above mins' maxes'
  | _, _ => false
  end.

(** cmd.go:423-445: the loop over SnapshotFormatMeanings. [Ok true] is "return nil" from inside the loop
    (line 438), [Ok false] is falling out of it. *)
Fixpoint check_meanings (nblocks : nat) (ms : list bytes) : res bool :=
  match ms with
  | [] => Ok false
  | m :: ms' =>
      if beq m (lit "ScaleFactor") then check_meanings nblocks ms'
      else if beq m (lit "Snapshot") then check_meanings nblocks ms'
      else if beq m (lit "Block") then check_meanings nblocks ms'
      else if (5 <? List.length m) && beq (firstn 5 m) (lit "Block") then
        match atoi (skipn 5 m) with
        | None => Err
        | Some n => if (n <? 0)%Z || (Z.of_nat nblocks <=? n)%Z then Err else Ok true
        end
      else Err
  end.

(** cmd.go:385-455 validateFormat: [Ok tt] is a nil error. *)
Definition validate_format (info : pinfo) : res unit :=
  let specifiers := count_byte "%"%char (snapshotFormat info) in
  if negb (List.length (blockMins info) =? List.length (blockMaxes info)) then Err
  else if (snapMin info =? -1)%Z then Err
  else if (snapMax info =? -1)%Z then Err
  else if (snapMax info <? snapMin info)%Z then Err
  else if some_above (blockMins info) (blockMaxes info) then Err
  else if (List.length (meanings info) =? 0) && negb (specifiers =? 0) then Err
  else if negb (specifiers =? List.length (meanings info)) then Err
  else
    match check_meanings (List.length (blockMaxes info)) (meanings info) with
    | Ok true => Ok tt
    | Ok false =>
        if existsb (beq (logging info)) (map lit ["nil"; "performance"; "debug"]%string) then Ok tt else Err
    | Err => Err
    | Panic => Panic
    end.
