(** * Halo catalogue conversion and its cache: cmd/halo/io.go and cmd/memo/memoize.go:27-240
    (no proofs in this file).

    Parameters, about which the model assumes nothing: the type [V] of float64 values with their 8-byte
    encoding and decoding, the comparison <, the conversion int(x), the radius of a halo of given mass
    (halo.Radius.Radius followed by the unit conversion of io.go:73-76), Go's sort.Sort, and the text
    catalogue as read by catalog.ReadFile.                                                            *)
From Verif Require Export BytesModel.
Local Open Scope nat_scope.
Local Open Scope list_scope.

(** Element-wise Go loop that may panic. *)
Fixpoint mapo {A B} (f : A -> option B) (l : list A) : option (list B) :=
  match l with
  | [] => Some []
  | a :: l' => do b <- f a; do bs <- mapo f l'; Some (b :: bs)
  end.

(** halo/io.go:19-26 VarColumns. ColumnLookup is the index of the last of [v_names] equal to the key. *)
Record VarColumns := { v_names : list bytes; v_columns : list Z; v_generator : list bytes; v_nbinary : nat }.

(** ColumnLookup[name]: the map is filled in increasing order of index, so the last one stays (io.go:34-35,48). *)
Fixpoint last_index (eqb : bytes -> bytes -> bool) (name : bytes) (l : list bytes) : option nat :=
  match l with
  | [] => None
  | x :: l' => match last_index eqb name l' with
               | Some i => Some (S i)
               | None => if eqb x name then Some 0 else None
               end
  end.
Definition column_lookup (vc : VarColumns) (name : bytes) : option nat := last_index beq name (v_names vc).

(** col, _ := vc.ColumnLookup[name]: zero when the name is unknown (io.go:62,65,82). *)
Definition lookup0 (vc : VarColumns) (name : bytes) : nat :=
  match column_lookup vc name with Some i => i | None => 0 end.

(** io.go:44-53, iteration i. *)
Definition add_generated (mr : bytes * bytes) (vc : VarColumns) : VarColumns :=
  match column_lookup vc (fst mr), column_lookup vc (snd mr) with
  | Some _, None =>
      {| v_names := v_names vc ++ [snd mr]; v_columns := v_columns vc ++ [(-1)%Z];
         v_generator := v_generator vc ++ [fst mr]; v_nbinary := v_nbinary vc |}
  | _, _ => vc
  end.

(** io.go:28-57 NewVarColumns: columns[i] panics when there are fewer columns than names. *)
Definition new_var_columns (names : list bytes) (columns : list Z) : option VarColumns :=
  if length columns <? length names then None
  else
    Some (fold_left (fun vc mr => add_generated mr vc)
      (combine (map lit ["M200m"; "M200c"; "M500c"; "M2500c"]%string)
               (map lit ["R200m"; "R200c"; "R500c"; "R2500c"]%string))
      {| v_names := names; v_columns := firstn (length names) columns;
         v_generator := repeat [] (length names); v_nbinary := length names |}).

(** io.go:103-109, 166-172: the columns before the first -1. *)
Fixpoint before_neg1 (l : list Z) : list Z :=
  match l with [] => [] | x :: l' => if (x =? -1)%Z then [] else x :: before_neg1 l' end.

(** memoize.go:22. *)
Definition shortMemoNum : nat := Z.to_nat 10000.

Section Rockstar.
Variable V : Type.
Variable enc : V -> list Z.
Variable dec : list Z -> V.
Variable ltb : V -> V -> bool.
Variable to_int : V -> Z.
Variable radius_of : bytes -> V -> V.
(** sort.Sort with the given Less on a slice with the given keys: the resulting arrangement of the original
    indices. *)
Variable go_sort : (V -> V -> bool) -> list V -> list nat.
(** readTable(HaloCatalog(snap), columns) (io.go:269-274). *)
Variable read_table : list Z -> res (list (list V)).
Variable vc : VarColumns.

(** io.go:59-79 GetColumn. *)
Definition get_column (cols : list (list V)) (name : bytes) : option (list V) :=
  let col := lookup0 vc name in
  do g <- rd (v_generator vc) col;
  if length g =? 0 then rd cols col
  else do ms <- rd cols (lookup0 vc g); Some (map (radius_of name) ms).

(** io.go:81-87 GetIDs. *)
Definition get_ids (cols : list (list V)) : option (list Z) :=
  do c <- rd cols (lookup0 vc (lit "ID")); Some (map to_int c).

(** io.go:122-131, 202-211: the bytes of a binary table: the row count, then the columns. *)
Definition table_bytes (n : nat) (cols : list (list V)) : list Z :=
  put_int LE 8 (Z.of_nat n) ++ flat_map (flat_map enc) cols.

(** io.go:100-134 RockstarConvert: the bytes of the file. *)
Definition rockstar_convert : res (list Z) :=
  match read_table (before_neg1 (v_columns vc)) with
  | Ok cols => match rd cols 0 with Some c => Ok (table_bytes (length c) cols) | None => Panic end
  | Err => Err
  | Panic => Panic
  end.

(** io.go:163-214 RockstarConvertTopN. *)
Definition rockstar_convert_top (n : nat) : res (list Z) :=
  match read_table (before_neg1 (v_columns vc)) with
  | Ok cols =>
      match (do c0 <- rd cols 0;
             let n := Nat.min n (length c0) in
             do ms <- get_column cols (lit "M200m");
             let sorted := go_sort ltb ms in
             if length sorted <? length c0 - n then None
             else
               let idxs := skipn (length c0 - n) sorted in
               do outCols <- mapo (fun col => mapo (rd col) idxs) cols;
               Some (table_bytes n outCols)) with
      | Some bs => Ok bs
      | None => Panic
      end
  | Err => Err
  | Panic => Panic
  end.

(** io.go:238-267 binaryColGetter with colIdxs = 0 .. nbinary-1 (io.go:226-229). A negative row count makes
    make() panic; reading zero rows always succeeds. *)
Definition read_binary (file : list Z) : res (list (list V)) :=
  if length file <? 8 then Err
  else
    let n := get_int LE (firstn 8 file) in
    if (n <? 0)%Z then Panic
    else
      let n := Z.to_nat n in
      match mapo (fun i =>
               match read_full (8 * n) (skipn (8 + 8 * n * i) file) with
               | (Some bs, _) => Some (map dec (chunks 8 n bs))
               | (None, _) => None
               end) (seq 0 (v_nbinary vc)) with
      | Some cols => Ok cols
      | None => Err
      end.

(** NewIntFinder/Find (memoize.go:226-240): the index of the last equal ID. *)
Fixpoint last_id (id : Z) (l : list Z) : option nat :=
  match l with
  | [] => None
  | x :: l' => match last_id id l' with
               | Some i => Some (S i)
               | None => if (x =? id)%Z then Some 0 else None
               end
  end.

(** memoize.go:197-215: the rows of the requested ids; [None] is a panic, [Some None] an ID that is missing. *)
Fixpoint select_rows (rids : list Z) (rvals : list (list V)) (ids : list Z) : option (option (list (list V))) :=
  match ids with
  | [] => Some (Some [])
  | id :: ids' =>
      match last_id id rids with
      | None => Some None
      | Some line =>
          do row <- mapo (fun col => rd col line) rvals;
          do rest <- select_rows rids rvals ids';
          Some (option_map (cons row) rest)
      end
  end.

(** The two cache files of the snapshot (memoize.go:20-21,128-129). *)
Record cache := { shortFile : option (list Z); fullFile : option (list Z) }.
Inductive which := Short | Full.
Definition file_of (w : which) (c : cache) := match w with Short => shortFile c | Full => fullFile c end.
Definition set_cache (w : which) (c : cache) (bs : list Z) : cache :=
  match w with Short => {| shortFile := Some bs; fullFile := fullFile c |}
             | Full => {| shortFile := shortFile c; fullFile := Some bs |} end.
Definition convert (w : which) : res (list Z) :=
  match w with Short => rockstar_convert_top shortMemoNum | Full => rockstar_convert end.

(** memoize.go:164-181: make sure the file exists. An I/O error while writing is not modelled. *)
Definition ensure (w : which) (c : cache) : res cache :=
  match file_of w c with
  | Some _ => Ok c
  | None => match convert w with Ok bs => Ok (set_cache w c bs) | Err => Err | Panic => Panic end
  end.

(** memoize.go:153-216 readRockstar. The result lists, for each requested id, its values in the order of valNames
    (the code's vals, transposed); with ids == nil, all rows. *)
Definition load (w : which) (valNames : list bytes) (c : cache) : res (cache * list Z * list (list V)) :=
  match ensure w c with
  | Ok c' =>
      match file_of w c' with
      | None => Panic
      | Some file =>
          match read_binary file with
          | Ok rawCols =>
              match (do rids <- get_ids rawCols; do rvals <- mapo (get_column rawCols) valNames; Some (rids, rvals)) with
              | Some (rids, rvals) => Ok (c', rids, rvals)
              | None => Panic
              end
          | Err => Err
          | Panic => Panic
          end
      end
  | Err => Err
  | Panic => Panic
  end.

Definition read_rockstar1 (w : which) (valNames : list bytes) (ids : list Z) (c : cache)
  : res (cache * list (list V)) :=
  match load w valNames c with
  | Ok (c', rids, rvals) =>
      match select_rows rids rvals ids with
      | None => Panic
      | Some None => Err
      | Some (Some rows) => Ok (c', rows)
      end
  | Err => Err
  | Panic => Panic
  end.

(** The state of the cache after a failed read: ensure may have created the file. *)
Definition cache_after (w : which) (c : cache) : cache :=
  match ensure w c with Ok c' => c' | _ => c end.

(** memoize.go:109-151 ReadRockstar with non-nil ids: short file first, then the full one. *)
Definition read_rockstar (valNames : list bytes) (ids : list Z) (c : cache) : res (cache * list (list V)) :=
  match read_rockstar1 Short valNames ids c with
  | Ok r => Ok r
  | Err => read_rockstar1 Full valNames ids (cache_after Short c)
  | Panic => Panic
  end.

(** memoize.go:30-86 ReadSortedRockstarIDs. *)
Definition read_sorted_ids (maxID : Z) (valName : bytes) (c : cache) : res (cache * list Z) :=
  let w := if ((Z.of_nat shortMemoNum <=? maxID) || (maxID =? -1))%Z then Full else Short in
  match load w [valName] c with
  | Ok (c', ids, vals) =>
      match rd vals 0 with
      | None => Panic
      | Some ms =>
          if (Z.of_nat (length ids) <? maxID)%Z then Err
          else
            match mapo (rd ids) (go_sort (fun a b => ltb b a) ms) with
            | None => Panic
            | Some sorted =>
                if (maxID =? -1)%Z then Ok (c', sorted)
                else if ((maxID + 1 <? 0) || (Z.of_nat (length ids) <? maxID + 1))%Z then Panic
                else Ok (c', firstn (Z.to_nat (maxID + 1)) sorted)
            end
      end
  | Err => Err
  | Panic => Panic
  end.
End Rockstar.
