(** * id mode: cmd/id.go (no proofs in this file).

    Parameters, about which the model assumes nothing: the type [M] of masses with its comparison <, the answers of
    the halo catalogue of the snapshot (ReadSortedRockstarIDs, the M200m of the halos it lists with -1, the
    subhalo finder run on them), getVectorBuffer, and the IDs catalog.Parse finds on standard input.
    All IDs have the same snapshot (lines 233-236, 247-250), so the maps snapGroups and groupIdxs of findOverlapSubs
    and readSubIDs have one key and their grouping is left out. ReadHeaders and the look-up of positions and radii are taken not to fail.         *)
From Verif Require Export GoBase LoopBase.
Local Open Scope Z_scope.
Local Open Scope list_scope.

Section ID.
Variable M : Type.
Variable ltb : M -> M -> bool.
Variable zero : M.
(** memo.ReadSortedRockstarIDs(snap, maxID, "M200m", ...). *)
Variable sorted_ids : Z -> res (list Z).
(** memo.ReadRockstar(snap, {"M200m"}, rids, ...) with the rids listed by sorted_ids (-1). *)
Variable masses : res (list M).
(** SubhaloFinder.HostCount and Subhalos after FindSubhalos on the halos listed by sorted_ids (-1). *)
Variable host_count : nat -> Z.
Variable subhalos : nat -> list nat.
(** Whether getVectorBuffer succeeds. *)
Variable buffer_ok : bool.
(** catalog.Parse(stdin, {0}, {}). *)
Variable stdin_ids : res (list Z).
Variables snapMin snapMax : Z.

(** id.go:21-29 *)
Record IDConfig := {
  idType : bytes; ids : list Z; idStart : Z; idEnd : Z; snap : Z; mult : Z; m200mMax : M; m200mMin : M;
  exclusionStrategy : bytes; exclusionRadiusMult : M }.

(** id.go:136-175: true is "no error". The comparison of lines 170-171 has no effect. *)
Definition validate (c : IDConfig) : bool :=
  (beq (idType c) (lit "halo-id") || beq (idType c) (lit "m200m")) &&
  (beq (exclusionStrategy c) (lit "none") || beq (exclusionStrategy c) (lit "subhalo") || beq (exclusionStrategy c) (lit "neighbor") ||
   beq (exclusionStrategy c) (lit "overlap") && ltb zero (exclusionRadiusMult c)) &&
  negb (snap c =? -1) && negb (snap c <? 0) && negb (mult c <=? 0) && negb (ltb (m200mMax c) zero).

Definition set_range (c : IDConfig) (s e : Z) : IDConfig :=
  {| idType := idType c; ids := ids c; idStart := s; idEnd := e; snap := snap c; mult := mult c;
     m200mMax := m200mMax c; m200mMin := m200mMin c; exclusionStrategy := exclusionStrategy c;
     exclusionRadiusMult := exclusionRadiusMult c |}.
Definition set_type (c : IDConfig) (t : bytes) : IDConfig :=
  {| idType := t; ids := ids c; idStart := idStart c; idEnd := idEnd c; snap := snap c; mult := mult c;
     m200mMax := m200mMax c; m200mMin := m200mMin c; exclusionStrategy := exclusionStrategy c;
     exclusionRadiusMult := exclusionRadiusMult c |}.

(** id.go:351-362 from index i on, with the current idStart; the result is (idStart, idEnd). *)
Fixpoint mass_range (c : IDConfig) (start : Z) (i : Z) (ms : list M) : Z * Z :=
  match ms with
  | [] => (start, i - 1)
  | m :: ms' =>
      let start := if (start =? -1) && negb (ltb (m200mMax c) m) then i else start in
      if ltb m (m200mMin c) then (start, i - 1) else mass_range c start (i + 1) ms'
  end.

(** id.go:330-364 getMassIDRange: the configuration it leaves; its error is ignored by the caller (line 209). *)
Definition get_mass_id_range (c : IDConfig) : IDConfig :=
  let c := set_type c (lit "m200m") in
  if negb buffer_ok then c
  else match sorted_ids (-1), masses with
       | Ok _, Ok ms => let r := mass_range c (-1) 0 ms in set_range c (fst r) (snd r)
       | _, _ => c
       end.

(** id.go:367-387 getIDs; make panics for a negative length. *)
Definition get_ids (idStart idEnd : Z) (ids : list Z) : res (list Z) :=
  if negb (idStart =? -1) then
    if idEnd - idStart <? 0 then Panic
    else Ok (map (fun i => idStart + Z.of_nat i) (seq 0 (Z.to_nat (idEnd - idStart))))
  else if (0 <? List.length ids)%nat then Ok ids
  else stdin_ids.

(** Indexing rids[i] with a Go int. *)
Definition at_rank (rids : list Z) (i : Z) : option Z := if i <? 0 then None else nth_error rids (Z.to_nat i).

Fixpoint all_some {A B} (f : A -> option B) (l : list A) : option (list B) :=
  match l with
  | [] => Some []
  | a :: l' => match f a with Some b => option_map (cons b) (all_some f l') | None => None end
  end.

(** id.go:389-410 convertSortedIDs. *)
Definition convert_sorted_ids (rawIDs : list Z) : res (list Z) :=
  let maxID := fold_left (fun m id => if m <? id then id else m) rawIDs 0 in
  match sorted_ids maxID with
  | Ok rids => match all_some (at_rank rids) rawIDs with Some ids => Ok ids | None => Panic end
  | Err => Err
  | Panic => Panic
  end.

(** id.go:467-474: the search for one ID; [None] is the error. The loop does nothing when rids is empty. *)
Fixpoint first_rank (id : Z) (rids : list Z) (j : nat) : option nat :=
  match rids with
  | [] => None
  | r :: rids' => if r =? id then Some j else first_rank id rids' (S j)
  end.

(** id.go:412-478 findOverlapSubs. FindSubhalos panics without halos (finder.go:88, 263: xs[len(xs)-1]). *)
Definition find_overlap_subs (ids : list Z) : res (list bool) :=
  match sorted_ids (-1) with
  | Ok rids =>
      match rids with
      | [] => Panic
      | _ => match all_some (fun id => option_map (fun j => 0 <? host_count j) (first_rank id rids 0)) ids with
             | Some l => Ok l
             | None => Err
             end
      end
  | Err => Err
  | Panic => Panic
  end.

(** newIntFinder/find (id.go:562-590): the last index with this ID. *)
Fixpoint last_rank (id : Z) (rids : list Z) (j : nat) : option nat :=
  match rids with
  | [] => None
  | r :: rids' => match last_rank id rids' (S j) with
                  | Some k => Some k
                  | None => if r =? id then Some j else None
                  end
  end.

(** id.go:532-545 for one ID: its neighbours. [Ok None] does not occur. *)
Definition neighbours (rids : list Z) (id : Z) : res (list Z) :=
  match last_rank id rids 0 with
  | None => Err
  | Some j => match all_some (nth_error rids) (subhalos j) with Some l => Ok l | None => Panic end
  end.

(** id.go:532-555: the loop over the group followed by the assembly of the output. *)
Fixpoint add_neighbours (rids : list Z) (ids : list Z) : res (list Z) :=
  match ids with
  | [] => Ok []
  | id :: ids' =>
      match neighbours rids id with
      | Ok l => match add_neighbours rids ids' with Ok rest => Ok (id :: l ++ rest) | Err => Err | Panic => Panic end
      | Err => Err
      | Panic => Panic
      end
  end.

(** id.go:480-558 readSubIDs. FindSubhalos panics without halos. *)
Definition read_sub_ids (ids : list Z) : res (list Z) :=
  match sorted_ids (-1) with Ok [] => Panic | Ok rids => add_neighbours rids ids | Err => Err | Panic => Panic end.

(** id.go:299-305 *)
Fixpoint filter_lines {A} (lines : list A) (exclude : list bool) : option (list A) :=
  match lines, exclude with
  | [], _ => Some []
  | l :: lines', e :: exclude' => option_map (fun r => if e then r else l :: r) (filter_lines lines' exclude')
  | _ :: _, [] => None
  end.

(** id.go:178-326 Run: the rows (ID, snapshot) that are printed; [Ok None] is the empty output without the
    comment line (line 223). *)
Definition run (c : IDConfig) : res (option (list (Z * Z))) :=
  if snap c =? -1 then Err
  else if (snap c <? snapMin) || (snapMax <? snap c) then Err
  else
    let c := if ltb zero (m200mMax c) then get_mass_id_range c else c in
    match (if idStart c <=? idEnd c then
             match get_ids (idStart c) (idEnd c) (ids c) with
             | Ok [] => Ok None
             | Ok l => Ok (Some l)
             | Err => Err
             | Panic => Panic
             end
           else Ok (Some [])) with
    | Ok None => Ok None
    | Ok (Some rawIds) =>
        if (List.length rawIds =? 0)%nat then Panic
        else if negb buffer_ok then Err
        else
          match (if beq (idType c) (lit "halo-id") then Ok rawIds
                 else if beq (idType c) (lit "m200m") then convert_sorted_ids rawIds else Panic) with
          | Ok haloIds =>
              match (if beq (exclusionStrategy c) (lit "subhalo") then Panic
                     else if beq (exclusionStrategy c) (lit "neighbor") then
                       match read_sub_ids haloIds with Ok l => Ok (l, map (fun _ => false) l) | Err => Err | Panic => Panic end
                     else if beq (exclusionStrategy c) (lit "overlap") then
                       match find_overlap_subs haloIds with Ok l => Ok (haloIds, l) | Err => Err | Panic => Panic end
                     else Ok (haloIds, map (fun _ => false) haloIds)) with
              | Ok (outIds, exclude) =>
                  match filter_lines (map (fun id => (id, snap c)) outIds) exclude with
                  | Some rows => Ok (Some (flat_map (fun row => repeat row (Z.to_nat (mult c))) rows))
                  | None => Panic
                  end
              | Err => Err
              | Panic => Panic
              end
          | Err => Err
          | Panic => Panic
          end
    | Err => Err
    | Panic => Panic
    end.
End ID.
