(** * Model of the command layer's bookkeeping: ring buffers, grouping by snapshot, write-back, tree output filter,
      matrix helpers (no proofs in this file). [None] is a run-time panic. *)
From Coq Require Import Reals.
From Verif Require Export LoopBase.
Local Open Scope Z_scope.

(* ------------------------------------------------------------------ *)
(** ** los/analyze/ring_buffer.go *)
Section Ring.
Variable A : Type.
Variable zero : A.

(** los/analyze/ring_buffer.go:15-25 (RingBuffer). *)
Record ring : Type := {
  PlaneXs : list A; PlaneYs : list A; Xs : list A; Ys : list A; Zs : list A; Rs : list A; Phis : list A;
  Oks : list bool;
  profRs : list A; profRhos : list A; smoothRhos : list A; smoothDerivs : list A;
  rN : nat; rBins : nat }.

(** los/analyze/ring_buffer.go:28-38 (Init); make([]float64, n) is a list of n zeros. *)
Definition ring_init (n bins : nat) : ring :=
  {| PlaneXs := repeat zero n; PlaneYs := repeat zero n;
     Xs := repeat zero n; Ys := repeat zero n; Zs := repeat zero n;
     Phis := repeat zero n; Rs := repeat zero n;
     Oks := repeat false n;
     smoothRhos := repeat zero bins; smoothDerivs := repeat zero bins;
     profRs := repeat zero bins; profRhos := repeat zero bins;
     rN := n; rBins := bins |}.

(** los/analyze/ring_buffer.go:41-53 (Clear): writes zero to indices 0..N-1 of the seven coordinate slices and of Oks, and to
    0..Bins-1 of the four profile slices. *)
Definition zero_to {B} (z : B) (n : nat) (l : list B) : option (list B) := loop n (fun i l => wr l i z) l.
Definition ring_clear (r : ring) : option ring :=
  do a <- zero_to zero (rN r) (PlaneXs r);
  do b <- zero_to zero (rN r) (PlaneYs r);
  do c <- zero_to zero (rN r) (Xs r);
  do d <- zero_to zero (rN r) (Ys r);
  do e <- zero_to zero (rN r) (Zs r);
  do f <- zero_to zero (rN r) (Phis r);
  do g <- zero_to zero (rN r) (Rs r);
  do h <- zero_to false (rN r) (Oks r);
  do i <- zero_to zero (rBins r) (smoothRhos r);
  do j <- zero_to zero (rBins r) (smoothDerivs r);
  do k <- zero_to zero (rBins r) (profRs r);
  do l <- zero_to zero (rBins r) (profRhos r);
  Some {| PlaneXs := a; PlaneYs := b; Xs := c; Ys := d; Zs := e; Phis := f; Rs := g; Oks := h;
          smoothRhos := i; smoothDerivs := j; profRs := k; profRhos := l; rN := rN r; rBins := rBins r |}.

(** The append loop shared by OkPlaneCoords and OkPolarCoords: for i, ok := range oks { if ok { u = append(u, us[i]); ... } }. *)
Definition ok_coords (oks : list bool) (us vs : list A) : option (list A * list A) :=
  loop (List.length oks) (fun i st =>
    do ok <- rd oks i;
    if ok then do u <- rd us i; do v <- rd vs i; Some (fst st ++ [u], snd st ++ [v])
    else Some st) ([], []).

(** los/analyze/ring_buffer.go:97-106 (OkPlaneCoords): the arguments are truncated to length 0 before the loop, so their contents
    do not matter. *)
Definition OkPlaneCoords (r : ring) (xs ys : list A) : option (list A * list A) := ok_coords (Oks r) (PlaneXs r) (PlaneYs r).
(** los/analyze/ring_buffer.go:110-119 (OkPolarCoords). *)
Definition OkPolarCoords (r : ring) (rs phis : list A) : option (list A * list A) := ok_coords (Oks r) (Rs r) (Phis r).

(** los/analyze/penna.go:121-137 (first half of FilterPoints): the two gathering loops; the second ranges over r.Rs. *)
Definition filter_gather (r : ring) : option ((list A * list A) * (list A * list A)) :=
  do p <- loop (rN r) (fun i st =>
    do ok <- rd (Oks r) i;
    if ok then do u <- rd (PlaneXs r) i; do v <- rd (PlaneYs r) i; Some (fst st ++ [u], snd st ++ [v]) else Some st) ([], []);
  do q <- loop (List.length (Rs r)) (fun i st =>
    do ok <- rd (Oks r) i;
    if ok then do u <- rd (Rs r) i; do v <- rd (Phis r) i; Some (fst st ++ [u], snd st ++ [v]) else Some st) ([], []);
  Some (p, q).

(** los/analyze/ring_buffer.go:63-92 (body of the Splashback loop): [find i] is what Smooth + SplashbackRadius return for line i
    (the radius and the flag; a flag of false from Smooth gives (None, false): Rs[i] is not written), [phi i], [cs], [sn], [dir i]
    are h.Phi(i) (already shifted), cos, sin and the line's direction; [mul] is float64 multiplication. *)
Definition splash_line (find : nat -> option A * bool) (phi cs sn : nat -> A) (dir : nat -> A * A * A) (mul : A -> A -> A)
           (i : nat) (r : ring) : option ring :=
  let '(rad, ok) := find i in
  do oks <- wr (Oks r) i ok;
  do rs <- (match rad with Some v => wr (Rs r) i v | None => Some (Rs r) end);
  let r1 := {| PlaneXs := PlaneXs r; PlaneYs := PlaneYs r; Xs := Xs r; Ys := Ys r; Zs := Zs r; Rs := rs; Phis := Phis r;
               Oks := oks; profRs := profRs r; profRhos := profRhos r; smoothRhos := smoothRhos r;
               smoothDerivs := smoothDerivs r; rN := rN r; rBins := rBins r |} in
  if ok then
    do ri <- rd rs i;
    do ph <- wr (Phis r) i (phi i);
    do px <- wr (PlaneXs r) i (mul (cs i) ri);
    do py <- wr (PlaneYs r) i (mul (sn i) ri);
    let '(dx, dy, dz) := dir i in
    do x <- wr (Xs r) i (mul ri dx);
    do y <- wr (Ys r) i (mul ri dy);
    do z <- wr (Zs r) i (mul ri dz);
    Some {| PlaneXs := px; PlaneYs := py; Xs := x; Ys := y; Zs := z; Rs := rs; Phis := ph;
            Oks := oks; profRs := profRs r; profRhos := profRhos r; smoothRhos := smoothRhos r;
            smoothDerivs := smoothDerivs r; rN := rN r; rBins := rBins r |}
  else Some r1.

(** los/analyze/ring_buffer.go:57-93 (Splashback): the loop over the N lines. The scratch slices profRs, profRhos, smoothRhos,
    smoothDerivs are not tracked. *)
Definition splashback (find : nat -> option A * bool) (phi cs sn : nat -> A) (dir : nat -> A * A * A) (mul : A -> A -> A)
           (r : ring) : option ring :=
  loop (rN r) (splash_line find phi cs sn dir mul) r.
End Ring.

Arguments PlaneXs {A}. Arguments PlaneYs {A}. Arguments Xs {A}. Arguments Ys {A}. Arguments Zs {A}. Arguments Rs {A}.
Arguments Phis {A}. Arguments Oks {A}. Arguments profRs {A}. Arguments profRhos {A}. Arguments smoothRhos {A}.
Arguments smoothDerivs {A}. Arguments rN {A}. Arguments rBins {A}.

(* ------------------------------------------------------------------ *)
(** ** Go maps from int to slices *)

(** A map[int][]T is an association list; m[k] of an absent key is the nil slice. *)
Definition gmap (T : Type) : Type := list (Z * list T).
Fixpoint mget {T} (m : gmap T) (k : Z) : list T :=
  match m with
  | [] => []
  | (k', v) :: m' => if k =? k' then v else mget m' k
  end.
(** m[k] = append(m[k], v). *)
Fixpoint mappend {T} (m : gmap T) (k : Z) (v : T) : gmap T :=
  match m with
  | [] => [(k, [v])]
  | (k', l) :: m' => if k =? k' then (k', l ++ [v]) :: m' else (k', l) :: mappend m' k v
  end.
Definition mkeys {T} (m : gmap T) : list Z := map fst m.

(** cmd/shell.go:662-671 (binBySnap): ids[i] panics if ids is shorter than snaps. *)
Definition binBySnap (snaps ids : list Z) : option (gmap Z * gmap nat) :=
  loop (List.length snaps) (fun i st =>
    do snap <- rd snaps i;
    do id <- rd ids i;
    Some (mappend (fst st) snap id, mappend (snd st) snap i)) ([], []).

(** cmd/stats.go:394-406 (binCoeffsBySnap). *)
Definition binCoeffsBySnap {C} (snaps ids : list Z) (coeffs : list C) : option (gmap Z * gmap C * gmap nat) :=
  loop (List.length snaps) (fun i st =>
    do snap <- rd snaps i;
    do id <- rd ids i;
    do c <- rd coeffs i;
    Some (mappend (fst (fst st)) snap id, mappend (snd (fst st)) snap c, mappend (snd st) snap i)) ([], [], []).

(** sort.Ints of Go's standard library, as insertion sort: the ascending arrangement of a list of integers is unique, so the
    algorithm does not matter. *)
Fixpoint insertZ (x : Z) (l : list Z) : list Z :=
  match l with [] => [x] | y :: l' => if x <=? y then x :: l else y :: insertZ x l' end.
Definition sortInts (l : list Z) : list Z := fold_right insertZ [] l.

(** Go: ys := make([]T, len(idxs)); for i, idx := range idxs { ys[i] = xs[idx] } (cmd/shell.go:327-336, cmd/stats.go:252-261). *)
Fixpoint gather {T} (xs : list T) (idxs : list nat) : option (list T) :=
  match idxs with
  | [] => Some []
  | i :: is => do x <- rd xs i; do r <- gather xs is; Some (x :: r)
  end.

(** Go: for i := range rows { out[idxs[i]] = rows[i] } (cmd/shell.go:507-526; cmd/stats.go:264-278, 319-324; cmd/coord.go:259-263). *)
Fixpoint scatter {T} (out : list T) (idxs : list nat) (rows : list T) {struct idxs} : option (list T) :=
  match idxs, rows with
  | [], _ => Some out
  | i :: is, r :: rs => do out' <- wr out i r; scatter out' is rs
  | _ :: _, [] => None
  end.

(** cmd/shell.go:288-372 (loop), cmd/stats.go:245-342 (body of Run): for every snapshot of [ks], except -1, take the rows of that
    snapshot, analyse them together, and store each result in the slot of its row. [proc snap rows] stands for reading the
    particle files of the snapshot and analysing each halo; an error aborts. *)
Fixpoint snap_loop {X Y} (proc : Z -> list X -> res (list Y)) (idxBins : gmap nat) (xs : list X) (ks : list Z) (out : list Y)
  : res (list Y) :=
  match ks with
  | [] => Ok out
  | snap :: ks' =>
      if snap =? -1 then snap_loop proc idxBins xs ks' out else
      let idxs := mget idxBins snap in
      match gather xs idxs with
      | None => Panic
      | Some rows =>
          match proc snap rows with
          | Err => Err
          | Panic => Panic
          | Ok ys => match scatter out idxs ys with None => Panic | Some out' => snap_loop proc idxBins xs ks' out' end
          end
      end
  end.

(** cmd/shell.go:293-305: the header of the first sorted snapshot is read before the loop and passed (line 340) to createHalos
    for every snapshot, where it sets the background density. [perm] is the order in which the map's keys are enumerated (Go does
    not specify it); [readHd] is memo.ReadHeaders(snap)[0]. sortedSnaps[0] panics on an empty input. *)
Definition shell_loop {H X Y} (readHd : Z -> res H) (proc : H -> Z -> list X -> res (list Y)) (enum : list Z -> list Z)
           (snaps ids : list Z) (xs : list X) (out : list Y) : res (list Y) :=
  match binBySnap snaps ids with
  | None => Panic
  | Some (snapBins, idxBins) =>
      let sortedSnaps := sortInts (enum (mkeys snapBins)) in
      match sortedSnaps with
      | [] => Panic
      | s0 :: _ =>
          match readHd s0 with
          | Err => Err
          | Panic => Panic
          | Ok hd => snap_loop (proc hd) idxBins xs sortedSnaps out
          end
      end
  end.

(** cmd/stats.go:222-342: the same loop, where the headers of each snapshot are read inside the loop. *)
Definition stats_loop {X Y} (proc : Z -> list X -> res (list Y)) (enum : list Z -> list Z)
           (snaps ids : list Z) (xs : list X) (out : list Y) : res (list Y) :=
  match binCoeffsBySnap snaps ids xs with
  | None => Panic
  | Some (snapBins, _, idxBins) => snap_loop proc idxBins xs (sortInts (enum (mkeys snapBins))) out
  end.

(* ------------------------------------------------------------------ *)
(** ** cmd/coord.go: readHaloCoords *)
Section Coord.
Local Open Scope R_scope.

(** io.CosmologyHeader: only the fields used here. *)
Record cosmology : Type := { cZ : R; cH100 : R }.

(** cmd/halo/radius.go:114-126 (UnitConversionFactor); [None] is the panic on an unknown unit. *)
Definition UnitConversionFactor (u : bytes) (c : cosmology) : option R :=
  if beq u (lit "cMpc/h") then Some 1
  else if beq u (lit "ckpc/h") then Some (/ 1000)
  else if beq u (lit "pMpc/h") then Some (1 + cZ c)
  else if beq u (lit "pkpc/h") then Some (/ 1000 * (1 + cZ c))
  else if beq u (lit "cMpc") then Some (cH100 c)
  else if beq u (lit "ckpc") then Some (/ 1000 * cH100 c)
  else if beq u (lit "pMpc") then Some ((1 + cZ c) * cH100 c)
  else if beq u (lit "pkpc") then Some (/ 1000 * (1 + cZ c) * cH100 c)
  else None.

(** cmd/coord.go:240-257: the factor applied to a column, by the column's name; columns that are neither positions nor radii are
    left alone (factor None = no multiplication). *)
Definition col_unit (posUnits radUnits name : bytes) : option bytes :=
  if beq name (lit "X") || beq name (lit "Y") || beq name (lit "Z") then Some posUnits
  else if beq name (lit "R200m") || beq name (lit "R200c") || beq name (lit "R500c") || beq name (lit "Rs") then Some radUnits
  else None.
Definition scale_col (posUnits radUnits : bytes) (c : cosmology) (name : bytes) (col : list R) : option (list R) :=
  match col_unit posUnits radUnits name with
  | None => Some col
  | Some u => do f <- UnitConversionFactor u c; Some (map (fun x => x * f) col)
  end.
Fixpoint scale_cols (posUnits radUnits : bytes) (c : cosmology) (names : list bytes) (cols : list (list R)) : option (list (list R)) :=
  match names, cols with
  | [], _ => Some []
  | n :: ns, col :: cs =>
      do x <- scale_col posUnits radUnits c n col; do r <- scale_cols posUnits radUnits c ns cs; Some (x :: r)
  | _ :: _, [] => None
  end.

(** cmd/coord.go:259-263: cols[j][idx] = scols[j][i] for every j and every i, idx of idxs. *)
Fixpoint scatter_cols (cols : list (list R)) (idxs : list nat) (scols : list (list R)) : option (list (list R)) :=
  match cols, scols with
  | [], _ => Some []
  | c :: cs, s :: ss => do c' <- scatter c idxs s; do r <- scatter_cols cs idxs ss; Some (c' :: r)
  | _ :: _, [] => None
  end.

(** cmd/coord.go:220-264: the loop over the map in the order [ks]; [readHd s] is memo.ReadHeaders(s)[0].Cosmo and
    [readVals snap ids] is memo.ReadRockstar(snap, valNames, ids)'s columns. The headers are read for [snap0] = snaps[0] each time. *)
Fixpoint coord_loop (readHd : Z -> res cosmology) (readVals : Z -> list Z -> res (list (list R))) (posUnits radUnits : bytes)
         (names : list bytes) (snap0 : Z) (snapBins : gmap Z) (idxBins : gmap nat) (ks : list Z) (cols : list (list R))
  : res (list (list R)) :=
  match ks with
  | [] => Ok cols
  | snap :: ks' =>
      if Z.eqb snap (-1) then coord_loop readHd readVals posUnits radUnits names snap0 snapBins idxBins ks' cols else
      match readHd snap0 with
      | Err => Err | Panic => Panic
      | Ok c =>
          match readVals snap (mget snapBins snap) with
          | Err => Err | Panic => Panic
          | Ok scols =>
              match scale_cols posUnits radUnits c names scols with
              | None => Panic
              | Some scaled =>
                  match scatter_cols cols (mget idxBins snap) scaled with
                  | None => Panic
                  | Some cols' => coord_loop readHd readVals posUnits radUnits names snap0 snapBins idxBins ks' cols'
                  end
              end
          end
      end
  end.

(** cmd/coord.go:207-267 (readHaloCoords): an empty input returns nil. *)
Definition readHaloCoords (readHd : Z -> res cosmology) (readVals : Z -> list Z -> res (list (list R))) (posUnits radUnits : bytes)
           (names : list bytes) (enum : list Z -> list Z) (ids snaps : list Z) : res (list (list R)) :=
  match snaps with
  | [] => Ok []
  | snap0 :: _ =>
      match binBySnap snaps ids with
      | None => Panic
      | Some (snapBins, idxBins) =>
          coord_loop readHd readVals posUnits radUnits names snap0 snapBins idxBins (enum (mkeys snapBins))
                     (repeat (repeat 0%R (List.length ids)) (List.length names))
      end
  end.
End Coord.

(* ------------------------------------------------------------------ *)
(** ** Small helpers *)

(** cmd/shell.go:272-286 (transpose): in[0] panics on an empty input, in[y][x] on a short row. *)
Definition transpose {A} (zero : A) (m : list (list A)) : option (list (list A)) :=
  match m with
  | [] => None
  | r0 :: _ =>
      let rows := List.length m in
      let cols := List.length r0 in
      loop rows (fun y out =>
        loop cols (fun x out =>
          do row <- rd m y;
          do v <- rd row x;
          do col <- rd out x;
          do col' <- wr col y v;
          wr out x col') out) (repeat (repeat zero rows) cols)
  end.

(** cmd/shell.go:467-477 (expandBools): [back] is the backing array from the slice's start to its capacity (scalars[:0], so the
    length is 0 and the capacity is len(back)); the result is the slice handed to Intersect. int(float64(c)*1.5) is (3c)/2. *)
Definition expandBools (back : list bool) (n : nat) : list bool :=
  let c := List.length back in
  if (n <=? c)%nat then firstn n back
  else if (n <? (3 * c) / 2)%nat then back ++ repeat false (n - c)
  else repeat false n.

(** cmd/tree.go:95-104: the histories are concatenated with a sentinel (-1, -1) between consecutive ones. *)
Fixpoint join_sets (sets : list (list (Z * Z))) : list (Z * Z) :=
  match sets with
  | [] => []
  | [s] => s
  | s :: rest => s ++ [(-1, -1)] ++ join_sets rest
  end.

(** cmd/tree.go:109-124: which (id, snapshot) lines are printed. *)
Fixpoint tree_lines (snapMin snapMax : Z) (select : list Z) (rows : list (Z * Z)) : list (Z * Z) :=
  match rows with
  | [] => []
  | (id, snap) :: rest =>
      (if (snapMin <=? snap) && (snap <=? snapMax) then
         (match select with
          | [] => [(id, snap)]
          | _ => flat_map (fun s => if s =? snap then [(id, snap)] else []) select
          end)
       else []) ++ tree_lines snapMin snapMax select rest
  end.

(* ------------------------------------------------------------------ *)
(** ** cmd/coord.go: layout of the output table *)

(** cmd/coord.go:198-203 (findString): [None] is the panic. *)
Fixpoint findString (x : bytes) (xs : list bytes) : option nat :=
  match xs with
  | [] => None
  | y :: r => if beq y x then Some O else option_map S (findString x r)
  end.
(** cmd/coord.go:159-161 (isIntType). *)
Definition isIntType (c : bytes) : bool := beq c (lit "int") || beq c (lit """int""").

(** cmd/coord.go:125-134: whether a requested value is printed as an integer. [comments] is HaloValueComments; comments[j] panics
    when it is too short. The first pass (lines 114-122) makes the same look-ups. *)
Definition value_is_int (hnames comments : list bytes) (v : bytes) : option bool :=
  if beq v (lit "R200m") || beq v (lit "R200c") || beq v (lit "R500c") || beq v (lit "R2500c")
  then Some (isIntType (lit "Mpc/h"))
  else do j <- findString v hnames; do c <- rd comments j; Some (isIntType c).

(** cmd/coord.go:108-146: the requested columns split into integer and float columns, and the column order given to FormatCols.
    The columns are abstract; [ints] tells which of them are integers. Result: icols ++ fcols (the column list FormatCols builds,
    cmd/catalog/catalog.go:52-80) and colOrder. *)
Fixpoint split_cols {T} (i : nat) (ints : list bool) (cols : list T) (ic fc : list T) (io fo : list nat)
  : option (list T * list nat) :=
  match ints with
  | [] => Some (ic ++ fc, io ++ fo)
  | b :: ints' =>
      match cols with
      | [] => None
      | c :: cols' =>
          if b then split_cols (S i) ints' cols' (ic ++ [c]) fc (io ++ [i + 2]%nat) fo
          else split_cols (S i) ints' cols' ic (fc ++ [c]) io (fo ++ [i + 2]%nat)
      end
  end.
(** cmd/catalog/catalog.go:81-93: output column k is the column numbered order[k]. *)
Definition coord_table {T} (id snap : T) (ints : list bool) (cols : list T) : option (list T) :=
  do p <- split_cols 0 ints cols [id; snap] [] [0; 1]%nat [];
  gather (fst p) (snd p).

(** cmd/coord.go:164-185: the look-ups of makeCommentString (the text itself is not modelled); [None] is a panic. *)
Fixpoint comment_lookups (hnames comments : list bytes) (values : list bytes) : option unit :=
  match values with
  | [] => Some tt
  | v :: vs =>
      if beq v (lit "R200m") || beq v (lit "R200c") || beq v (lit "R500c") || beq v (lit "Rs")
      then comment_lookups hnames comments vs
      else do j <- findString v hnames; do c <- rd comments j; comment_lookups hnames comments vs
  end.

(** cmd/halo/io.go:28-57 (NewVarColumns), the part that decides which names are known: every configured name, and each radius
    whose mass is configured. *)
Definition known_value (hnames : list bytes) (v : bytes) : bool :=
  existsb (beq v) hnames
  || existsb (fun p => beq v (snd p) && existsb (beq (fst p)) hnames)
       [(lit "M200m", lit "R200m"); (lit "M200c", lit "R200c"); (lit "M500c", lit "R500c"); (lit "M2500c", lit "R2500c")].
(** cmd/coord.go:48-58 (validate). *)
Definition coord_validate (hnames values : list bytes) : bool := forallb (known_value hnames) values.
(** cmd/coord.go:90-149: what Run does with the names once the input is read: validate (an error), classify each value, build
    the header. *)
Fixpoint classify (hnames comments values : list bytes) : option (list bool) :=
  match values with
  | [] => Some []
  | v :: vs => do b <- value_is_int hnames comments v; do r <- classify hnames comments vs; Some (b :: r)
  end.
Definition coord_names (hnames comments values : list bytes) : res (list bool) :=
  if coord_validate hnames values then
    match classify hnames comments values with
    | None => Panic
    | Some ints => match comment_lookups hnames comments values with None => Panic | Some _ => Ok ints end
    end
  else Err.

(* ------------------------------------------------------------------ *)
(** ** cmd/halo/radius.go and cosmo/param.go over the reals *)
Section Radius.
Local Open Scope R_scope.

(** cosmo/const.go:3-8. *)
Definition GMks : R := 667259 / 100000 * / 10 ^ 11.
Definition MpcMks : R := 30856 / 10000 * 10 ^ 22.
Definition MSunMks : R := 1989 / 1000 * 10 ^ 30.

(** cosmo/param.go:19-21 (HubbleFrac); math.Pow(1+z, 3) is the cube. *)
Definition HubbleFrac (omegaM omegaL z : R) : R := sqrt (omegaM * (1 + z) ^ 3 + omegaL).
(** cosmo/param.go:24-32 (rhoCriticalMks). *)
Definition rhoCriticalMks (H0 omegaM omegaL z : R) : R :=
  let H0Mks := (H0 * 1000) / MpcMks in
  let H100 := H0 / 100 in
  let H0MksH := H0Mks / H100 in
  let H := HubbleFrac omegaM omegaL z * H0MksH in
  3 * H * H / (8 * PI * GMks).
(** cosmo/param.go:38-40 (RhoCritical). *)
Definition RhoCritical (H0 omegaM omegaL z : R) : R := rhoCriticalMks H0 omegaM omegaL z * MpcMks ^ 3 / MSunMks.
(** cosmo/param.go:44-46 (RhoAverage). *)
Definition RhoAverage (H0 omegaM omegaL z : R) : R := RhoCritical H0 omegaM omegaL 0 * omegaM * (1 + z) ^ 3.

(** cmd/halo/radius.go:11-18. *)
Inductive rtype := R200c | R200m | R500c | R2500c.
(** cmd/halo/radius.go:21-33 (RadiusFromString). *)
Definition RadiusFromString (s : bytes) : option rtype :=
  if beq s (lit "R200m") then Some R200m
  else if beq s (lit "R200c") then Some R200c
  else if beq s (lit "R500c") then Some R500c
  else if beq s (lit "R2500c") then Some R2500c
  else None.
(** cmd/halo/radius.go:35-47 (MassString). *)
Definition MassString (r : rtype) : bytes :=
  match r with R200m => lit "M200m" | R200c => lit "M200c" | R500c => lit "R500c" | R2500c => lit "M2500c" end.
(** cmd/halo/radius.go:50-62 (String). *)
Definition RString (r : rtype) : bytes :=
  match r with R200m => lit "R200m" | R200c => lit "R200c" | R500c => lit "R500c" | R2500c => lit "R2500c" end.

(** io.CosmologyHeader. *)
Record cosmo_header : Type := { hZ : R; hOmegaM : R; hOmegaL : R; hH100 : R }.

(** cmd/halo/radius.go:68-79 and 93-102: the threshold density. *)
Definition threshold (r : rtype) (c : cosmo_header) : R :=
  let h0 := hH100 c * 100 in
  match r with
  | R200c => 200 * RhoCritical h0 (hOmegaM c) (hOmegaL c) (hZ c)
  | R200m => 200 * RhoAverage h0 (hOmegaM c) (hOmegaL c) (hZ c)
  | R500c => 500 * RhoCritical h0 (hOmegaM c) (hOmegaL c) (hZ c)
  | R2500c => 2500 * RhoCritical h0 (hOmegaM c) (hOmegaL c) (hZ c)
  end.

(** math.Pow(x, 1/3) for x >= 0 (a negative x gives NaN in Go; here 0). *)
Definition cbrt (x : R) : R := if Rlt_dec 0 x then Rpower x (1 / 3) else 0.

(** cmd/halo/radius.go:64-87 (Radius), one element: out[i] = math.Pow(m/factor, 1.0/3) / a. *)
Definition radius_of (r : rtype) (c : cosmo_header) (m : R) : R :=
  let rho := threshold r c in
  let a := 1 / (1 + hZ c) in
  let factor := rho * 4 * PI / 3 in
  cbrt (m / factor) / a.
(** cmd/halo/radius.go:89-110 (Mass), one element. *)
Definition mass_of (r : rtype) (c : cosmo_header) (rad : R) : R :=
  let rho := threshold r c in
  let a := 1 / (1 + hZ c) in
  let factor := rho * 4 * PI / 3 in
  let r := rad * a in
  factor * (r * r * r).
(** cmd/halo/radius.go:84-86, 106-109: the loops, over slices of equal length. *)
Definition Radius (r : rtype) (c : cosmo_header) (ms : list R) : list R := map (radius_of r c) ms.
Definition Mass (r : rtype) (c : cosmo_header) (rs : list R) : list R := map (mass_of r c) rs.
End Radius.

(* ------------------------------------------------------------------ *)
(** ** Start of shell, stats and coord *)
From Verif Require EnvModel.

(** cmd/shell.go:544-554 (createHalos): the background density stored in the halo made for a row of R200m [r]; [hd] is the header
    of the first sorted snapshot. sf is the subsample factor, [mult] BackgroundRhoMult, [kern] RKernelMult. *)
Definition default_rho (sf minMass mult kern : R) (hd : cosmo_header) (r : R) : R :=
  (let rad := r * kern in
   let sphVol := 4 * PI / 3 * rad * rad * rad in
   let rhoM := RhoAverage (hH100 hd * 100) (hOmegaM hd) (hOmegaL hd) (hZ hd) in
   let rho := ((minMass * (sf * sf * sf)) / sphVol) / rhoM in
   rho * mult)%R.

(** cmd/memo/memoize.go:260-302 and cmd/env/env.go:149-151: ReadHeaders(snap) first asks for the file names of the snapshot, and
    ParticleCatalog panics on a snapshot outside the range; [hdr] is the result of reading the named file's header. *)
Definition read_hd {H} (cat : EnvModel.catalogs) (hdr : bytes -> res H) (snap : Z) : res H :=
  match EnvModel.particle_catalog cat snap 0 with None => Panic | Some f => hdr f end.

(** cmd/shell.go:233-241: getVectorBuffer(e.ParticleCatalog(snaps[0], 0)) and then loop. *)
Definition shell_run {H X Y} (cat : EnvModel.catalogs) (hdr : bytes -> res H) (proc : H -> Z -> list X -> res (list Y))
           (enum : list Z -> list Z) (snaps ids : list Z) (xs : list X) (out : list Y) : res (list Y) :=
  match snaps with
  | [] => Err
  | s0 :: _ =>
      match EnvModel.particle_catalog cat s0 0 with
      | None => Panic
      | Some _ => shell_loop (read_hd cat hdr) proc enum snaps ids xs out
      end
  end.
(** cmd/stats.go:233-342: the same, with the loop of stats. An empty input panics on snaps[0] (len(intCols) = 2 always, so the check
    of stats.go:202 never fires). *)
Definition stats_run {X Y} (cat : EnvModel.catalogs) (proc : Z -> list X -> res (list Y))
           (enum : list Z -> list Z) (snaps ids : list Z) (xs : list X) (out : list Y) : res (list Y) :=
  match snaps with
  | [] => Panic
  | s0 :: _ =>
      match EnvModel.particle_catalog cat s0 0 with
      | None => Panic
      | Some _ => stats_loop proc enum snaps ids xs out
      end
  end.
