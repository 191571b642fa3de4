(** * The halo grid and the subhalo finders (cmd/halo/grid.go, finder.go, split_finder.go; no proofs). *)
From Verif Require Export RealBase LoopBase.
Notation length := List.length.
Notation concat := List.concat.
Local Open Scope R_scope.

(** cmd/halo/grid.go:7-15.  Heads and Next hold indices or -1 (tail). *)
Record Grid := { g_cells : nat; g_cw : R; g_width : R; g_heads : list Z; g_next : list Z }.

(** cmd/halo/grid.go:17-31. *)
Definition new_grid (cells : nat) (width : R) (dataLen : nat) : Grid :=
  {| g_cells := cells; g_cw := width / INR cells; g_width := width;
     g_heads := repeat (-1)%Z (cells * cells * cells); g_next := repeat 0%Z dataLen |}.

(** Go: a slice element assignment with an int index. *)
Definition wrz {A} (l : list A) (i : Z) (v : A) : option (list A) :=
  if (i <? 0)%Z then None else wr l (Z.to_nat i) v.

(** The list walk of cmd/halo/grid.go:34-40 and 93-99: the indices met until tail.  A walk that takes
    more steps than there are nodes has come back to a node and never ends; it is [None], like the
    panics of an index out of range. *)
Fixpoint walk (fuel : nat) (next : list Z) (i : Z) : option (list nat) :=
  if (i =? -1)%Z then Some []
  else match fuel with
       | O => None
       | S f => do n <- at_ next i; do r <- walk f next n; Some (Z.to_nat i :: r)
       end.

Definition cell_list (g : Grid) (idx : Z) : option (list nat) :=
  do h <- at_ (g_heads g) idx; walk (length (g_next g)) (g_next g) h.

(** cmd/halo/grid.go:33-41. *)
Definition grid_length (g : Grid) (idx : Z) : option nat := option_map (@List.length nat) (cell_list g idx).

(** cmd/halo/grid.go:47-61: one coordinate moved into the box. *)
Definition wrap1 (w x : R) : R := if Rleb w x then x - w else if Rltb x 0 then x + w else x.

(** cmd/halo/grid.go:63-64. *)
Definition cell_idx (g : Grid) (x y z : R) : Z :=
  let c := Z.of_nat (g_cells g) in
  (Rtrunc (wrap1 (g_width g) x / g_cw g) + Rtrunc (wrap1 (g_width g) y / g_cw g) * c
   + Rtrunc (wrap1 (g_width g) z / g_cw g) * c * c)%Z.

(** cmd/halo/grid.go:43-69. *)
Definition insert (g : Grid) (xs ys zs : list R) : option Grid :=
  loop (length xs) (fun i g =>
    do x <- rd xs i; do y <- rd ys i; do z <- rd zs i;
    let idx := cell_idx g x y z in
    do h <- at_ (g_heads g) idx;
    do next' <- wr (g_next g) i h;
    do heads' <- wrz (g_heads g) idx (Z.of_nat i);
    Some {| g_cells := g_cells g; g_cw := g_cw g; g_width := g_width g; g_heads := heads'; g_next := next' |}) g.

(** cmd/halo/grid.go:71-73. *)
Definition total_cells (g : Grid) : nat := length (g_heads g).

(** cmd/halo/grid.go:75-84. *)
Definition max_length (g : Grid) : option nat :=
  loop (total_cells g) (fun i m => do l <- grid_length g (Z.of_nat i); Some (if m <? l then l else m)%nat) 0%nat.

(** cmd/halo/grid.go:90-102: buf has capacity [cap]; writing past it panics. *)
Definition read_indexes (g : Grid) (idx : Z) (cap : nat) : option (list nat) :=
  do l <- cell_list g idx; if (length l <=? cap)%nat then Some l else None.

(** cmd/halo/finder.go:21-33, one dimension: (Origin, Span). *)
Definition sphere_bounds1 (pos r cw width : R) : Z * Z :=
  let mn := if Rltb (pos - r) 0 then pos - r + width else pos - r in
  let mx := if Rltb (pos - r) 0 then pos + r + width else pos + r in
  let minCell := Rtrunc (mn / cw) in
  let maxCell := Rtrunc (mx / cw) in
  (minCell, (maxCell - minCell + 1)%Z).

(** cmd/halo/finder.go:36-50, one dimension. *)
Definition convert_index (origin x width : Z) : Z :=
  if (x - origin <? 0)%Z then (x - origin + width)%Z else (x - origin)%Z.

(** cmd/halo/finder.go:54-62. *)
Definition inside (origin span val width : Z) : bool :=
  let lo := origin in
  let hi := (origin + span)%Z in
  let v := if (hi <=? val)%Z then (val - width)%Z else if (val <? lo)%Z then (val + width)%Z else val in
  ((v <? hi) && (lo <=? v))%Z.

(** cmd/halo/finder.go:98-101 (and 104-107, 110-113): the cell visited at offset d. *)
Definition cell_at (origin : Z) (c : nat) (d : nat) : Z :=
  let z := (origin + Z.of_nat d)%Z in if (Z.of_nat c <=? z)%Z then (z - Z.of_nat c)%Z else z.

(** cmd/halo/finder.go:97-122 and split_finder.go:51-74: visit the cells of the bounding box and hand
    the list of each to [visit]. *)
Definition visit_box {S : Type} (g : Grid) (cap : nat) (bx by_ bz : Z * Z) (visit : list nat -> S -> option S) (s : S) : option S :=
  let c := g_cells g in
  loop (Z.to_nat (snd bz)) (fun dz s =>
    let zOff := (cell_at (fst bz) c dz * Z.of_nat c * Z.of_nat c)%Z in
    loop (Z.to_nat (snd by_)) (fun dy s =>
      let yOff := (cell_at (fst by_) c dy * Z.of_nat c)%Z in
      loop (Z.to_nat (snd bx)) (fun dx s =>
        let idx := (zOff + yOff + cell_at (fst bx) c dx)%Z in
        do l <- read_indexes g idx cap; visit l s) s) s) s.

(** cmd/halo/finder.go:248-253: the displacement to the nearest image. *)
Definition wrap_diff (L d : R) : R :=
  let d1 := if Rltb (L / 2) d then d - L else d in
  if Rltb d1 (- L / 2) then d1 + L else d1.

Definition dist2 (L hx hy hz sx sy sz : R) : R :=
  let dx := wrap_diff L (hx - sx) in let dy := wrap_diff L (hy - sy) in let dz := wrap_diff L (hz - sz) in
  dx * dx + dy * dy + dz * dz.

(** cmd/halo/finder.go:236-259: the radius of the other halo is read and discarded. *)
Definition mark_subhalos (ih : nat) (idxs : list nat) (xs ys zs rs : list R) (L : R) (subs : list nat) : option (list nat) :=
  do hx <- rd xs ih; do hy <- rd ys ih; do hz <- rd zs ih; do hr <- rd rs ih;
  fold_left (fun acc j => do subs <- acc;
    if (j <=? ih)%nat then Some subs
    else do sx <- rd xs j; do sy <- rd ys j; do sz <- rd zs j; do sr <- rd rs j;
         if Rleb (dist2 L hx hy hz sx sy sz) (hr * hr) then Some (subs ++ [j]) else Some subs) idxs (Some subs).

(** cmd/halo/finder.go:261-272; xs[len(xs)-1] panics for an empty slice. *)
Definition cumulative_max (xs : list R) : option (list R) :=
  do last <- at_ xs (Z.of_nat (length xs) - 1);
  do r <- loop_down (length xs) (fun i st => let '(mx, ms) := st in
     do x <- rd xs i;
     let mx' := if Rltb mx x then x else mx in
     do ms' <- wr ms i mx'; Some (mx', ms')) (last, repeat 0 (length xs));
  Some (snd r).

(** cmd/halo/finder.go:9-12 without the grid: subhaloStarts and subhalos. *)
Record Finder := { sf_starts : list nat; sf_subs : list nat }.

(** cmd/halo/finder.go:131-137. *)
Definition start_end (starts : list nat) (total : nat) (ih : nat) : option (nat * nat) :=
  if (Z.of_nat ih =? Z.of_nat (length starts) - 1)%Z then do s <- rd starts ih; Some (s, total)
  else do s <- rd starts ih; do e <- rd starts (ih + 1); Some (s, e).

(** Go: l[a:b]. *)
Definition sub_slice {A} (l : list A) (a b : nat) : option (list A) :=
  if ((a <=? b) && (b <=? length l))%nat then Some (firstn (b - a) (skipn a l)) else None.

(** cmd/halo/finder.go:158-161. *)
Definition intersects (f : Finder) (ih : nat) : option (list nat) :=
  do se <- start_end (sf_starts f) (length (sf_subs f)) ih; sub_slice (sf_subs f) (fst se) (snd se).

(** cmd/halo/finder.go:139-142. *)
Definition intersect_count (f : Finder) (ih : nat) : option Z :=
  do se <- start_end (sf_starts f) (length (sf_subs f)) ih; Some (Z.of_nat (snd se) - Z.of_nat (fst se))%Z.

(** cmd/halo/finder.go:144-152. *)
Fixpoint first_above (ih : nat) (is : list nat) : nat :=
  match is with [] => 0 | sh :: is' => if (ih <? sh)%nat then 0 else S (first_above ih is') end.
Definition host_count (f : Finder) (ih : nat) : option nat :=
  do is <- intersects f ih; Some (first_above ih is).

(** cmd/halo/finder.go:154-156, 163-165, 167-169. *)
Definition subhalo_count (f : Finder) (ih : nat) : option Z :=
  do n <- intersect_count f ih; do h <- host_count f ih; Some (n - Z.of_nat h)%Z.
Definition hosts (f : Finder) (ih : nat) : option (list nat) :=
  do is <- intersects f ih; do n <- host_count f ih; sub_slice is 0 n.
Definition subhalos (f : Finder) (ih : nat) : option (list nat) :=
  do is <- intersects f ih; do n <- host_count f ih; sub_slice is n (length is).

(** sort.Sort(sort.IntSlice(l)), by its specification: the sorted rearrangement. *)
Fixpoint ins (a : nat) (l : list nat) : list nat :=
  match l with [] => [a] | b :: l' => if (a <=? b)%nat then a :: l else b :: ins a l' end.
Fixpoint isort (l : list nat) : list nat := match l with [] => [] | a :: l' => ins a (isort l') end.

(** cmd/halo/finder.go:173-181. *)
Definition count_hosts (f : Finder) : option (list nat) :=
  loop (length (sf_starts f)) (fun ih counts =>
    do se <- start_end (sf_starts f) (length (sf_subs f)) ih;
    loop_from (fst se) (snd se) (fun ish counts =>
      do sh <- rd (sf_subs f) ish; do n <- rd counts sh; wr counts sh (n + 1)%nat) counts)
    (repeat 0%nat (length (sf_starts f))).

(** cmd/halo/finder.go:183-186. *)
Definition prefix_starts (counts : list nat) : option (list nat) :=
  loop_from 1 (length counts) (fun i hs =>
    do a <- rd hs (i - 1); do b <- rd counts (i - 1); wr hs i (a + b)%nat) (repeat 0%nat (length counts)).

(** cmd/halo/finder.go:188-196: (hosts, hostStarts). *)
Definition fill_hosts (f : Finder) (hostStarts : list nat) : option (list nat * list nat) :=
  loop (length (sf_starts f)) (fun ih st =>
    do se <- start_end (sf_starts f) (length (sf_subs f)) ih;
    loop_from (fst se) (snd se) (fun ish st => let '(hosts, hs) := st in
      do sh <- rd (sf_subs f) ish; do k <- rd hs sh;
      do hosts' <- wr hosts k ih; do hs' <- wr hs sh (k + 1)%nat; Some (hosts', hs')) st)
    (repeat 0%nat (length (sf_subs f)), hostStarts).

(** cmd/halo/finder.go:198-200. *)
Definition restore_starts (counts hs : list nat) : option (list nat) :=
  loop (length counts) (fun i hs => do a <- rd hs i; do b <- rd counts i; wr hs i (a - b)%nat) hs.

(** cmd/halo/finder.go:211-214 and 217-220: copy src[start:end] to dst[j:]; j advances. *)
Definition copy_run (src : list nat) (se : nat * nat) (st : nat * list nat) : option (nat * list nat) :=
  loop_from (fst se) (snd se) (fun ish st => let '(j, dst) := st in
    do v <- rd src ish; do dst' <- wr dst j v; Some ((j + 1)%nat, dst')) st.

(** cmd/halo/finder.go:202-224. *)
Definition merge_rows (f : Finder) (hosts hostStarts counts : list nat) : option Finder :=
  do r <- loop (length counts) (fun ih st => let '(j, subs, starts) := st in
      do starts' <- wr starts ih j;
      do se1 <- start_end hostStarts (length (sf_subs f)) ih;
      do st1 <- copy_run hosts se1 (j, subs);
      do se2 <- start_end (sf_starts f) (length (sf_subs f)) ih;
      do st2 <- copy_run (sf_subs f) se2 st1;
      Some (st2, starts'))
    (0%nat, repeat 0%nat (length hosts + length (sf_subs f)), repeat 0%nat (length (sf_starts f)));
  let '(_, subs, starts) := r in Some {| sf_starts := starts; sf_subs := subs |}.

(** cmd/halo/finder.go:226-229: sort each row in place. *)
Definition sort_rows (f : Finder) : option Finder :=
  do subs <- loop (length (sf_starts f)) (fun i subs =>
      do se <- start_end (sf_starts f) (length subs) i;
      do m <- sub_slice subs (fst se) (snd se);
      Some (firstn (fst se) subs ++ isort m ++ skipn (snd se) subs)) (sf_subs f);
  Some {| sf_starts := sf_starts f; sf_subs := subs |}.

(** cmd/halo/finder.go:173-230. *)
Definition cross_match (f : Finder) : option Finder :=
  do counts <- count_hosts f;
  do hs <- prefix_starts counts;
  do r <- fill_hosts f hs; let '(hosts, hs1) := r in
  do hs2 <- restore_starts counts hs1;
  do f1 <- merge_rows f hosts hs2 counts;
  sort_rows f1.

(** cmd/halo/finder.go:66-74 and 77-129 on a fresh finder: the resulting finder and the slice rs, which
    the code scales and scales back. *)
Definition find_subhalos (g : Grid) (xs ys zs rs : list R) (mult : R) : option (Finder * list R) :=
  do cap <- max_length g;
  let rs1 := map (fun r => r * mult) rs in
  do cMax <- cumulative_max rs1;
  do f <- loop (length rs1) (fun ih f =>
      do rh <- rd rs1 ih;
      do starts' <- wr (sf_starts f) ih (length (sf_subs f));
      do maxSR <- rd cMax ih;
      do x <- rd xs ih; do y <- rd ys ih; do z <- rd zs ih;
      let b p := sphere_bounds1 p (rh + maxSR) (g_cw g) (g_width g) in
      do subs' <- visit_box g cap (b x) (b y) (b z)
          (fun l subs => mark_subhalos ih l xs ys zs rs1 (g_width g) subs) (sf_subs f);
      Some {| sf_starts := starts'; sf_subs := subs' |})
    {| sf_starts := repeat 0%nat (length (g_next g)); sf_subs := [] |};
  do f' <- cross_match f;
  Some (f', map (fun r => r / mult) rs1).

(** cmd/halo/split_finder.go:38-101: the halos of the grid within rh of a point, with their squared
    distances.  idxBuf and dr2Buf have one slot per grid halo: more hits than that panic. *)
Definition add_subhalos (xs ys zs : list R) (idxs : list nat) (xh yh zh rh L : R) (cap : nat)
  (out : list (nat * R)) : option (list (nat * R)) :=
  fold_left (fun acc j => do out <- acc;
    do sx <- rd xs j; do sy <- rd ys j; do sz <- rd zs j;
    let d := dist2 L xh yh zh sx sy sz in
    if Rleb d (rh * rh) then (if (length out <? cap)%nat then Some (out ++ [(j, d)]) else None)
    else Some out) idxs (Some out).

Definition split_find (g : Grid) (xs ys zs : list R) (xh yh zh rh : R) : option (list (nat * R)) :=
  do cap <- max_length g;
  let b p := sphere_bounds1 p rh (g_cw g) (g_width g) in
  visit_box g cap (b xh) (b yh) (b zh)
    (fun l out => add_subhalos xs ys zs l xh yh zh rh (g_width g) (length (g_next g)) out) [].
