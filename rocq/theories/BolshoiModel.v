(** * Bolshoi and BolshoiP snapshot files (io/bolshoi.go, io/bolshoiP.go; no proofs in this file).

    Floating point numbers are their bit patterns and float arithmetic is a parameter. *)
From Verif Require Export GadgetModel.
Local Open Scope Z_scope.

(** The float32 operations of io/bolshoi.go:127-147, 160-167, 195-246 on bit patterns. [b_scale a] is float32(1/(1 + float64(1/a - 1))) (lines 216 and 160),
    [b_minmass w] is MinMass for the box width w (lines 241-246; TotalParticles is constant). *)
Record bops := {
  b_add : Z -> Z -> Z; b_sub : Z -> Z -> Z; b_mul : Z -> Z -> Z; b_div : Z -> Z -> Z;
  b_lt : Z -> Z -> bool; b_le : Z -> Z -> bool;
  b_one : Z; b_int : Z -> Z;
  b_scale : Z -> Z; b_minmass : Z -> Z }.

(** io/bolshoi.go:177-193 for a buffer of n bytes: [None] are the panics. *)
Definition fortran_read (e : order) (n : nat) (s : list Z) : option (list Z * list Z) :=
  do r <- read_i32 e s; let '(size1, s) := r in
  if size1 =? Z.of_nat n then
    match read_full n s with
    | (Some bs, s) =>
        do r <- read_i32 e s; let '(size2, s) := r in
        if size1 =? size2 then Some (bs, s) else None
    | (None, _) => None
    end
  else None.

(** io/bolshoi.go:25-37, io/bolshoiP.go:24-37: the sizes of the words of the headers; p: BolshoiP. *)
Definition bh1_layout (p : bool) : list nat := if p then repeat 4%nat 12 else repeat 4%nat 11.
Definition bh2_layout (p : bool) : list nat := if p then repeat 4%nat 6 else repeat 4%nat 5.

(** io/bolshoi.go:81-91 and 200-210, io/bolshoiP.go:75-85 and 177-187: bh1, bh2, nPart and what is left. *)
Definition bol_head (p : bool) (e : order) (s : list Z) : option (list Z * list Z * Z * list Z) :=
  do r <- fortran_read e 45 s; let '(_, s) := r in
  do r <- fortran_read e (list_sum (bh1_layout p)) s; let '(b1, s) := r in
  do r <- fortran_read e (list_sum (bh2_layout p)) s; let '(b2, s) := r in
  do r <- fortran_read e 24 s; let '(_, s) := r in
  do r <- fortran_read e 4 s; let '(bn, s) := r in
  Some (decode_words e (bh1_layout p) b1, decode_words e (bh2_layout p) b2, get_int e bn, s).

(** Go: int32 arithmetic wraps; division by zero panics and truncates. *)
Definition wrap32 (v : Z) : Z := sign 4 (unsign 4 v).
Definition div32 (a b : Z) : option Z := if b =? 0 then None else Some (wrap32 (Z.quot a b)).
Definition rem32 (a b : Z) : option Z := if b =? 0 then None else Some (Z.rem a b).

(** The fields of io.Header used here. *)
Record bhead := { bd_n : Z; bd_total : Z; bd_a : Z; bd_origin : list Z; bd_width : list Z }.

(** io/bolshoi.go:212-235, io/bolshoiP.go:189-212 *)
Definition bol_bhead (F : bops) (bh1 bh2 : list Z) (nPart : Z) : option bhead :=
  let bw := nth 10 bh1 0 in
  let i32 i := sign 4 (nth i bh2 0) in
  let K1 := wrap32 (i32 0%nat - 1) in
  do ix <- rem32 K1 (i32 1%nat);
  do q <- div32 K1 (i32 1%nat); do iy <- rem32 q (i32 2%nat);
  do iz <- div32 K1 (wrap32 (i32 1%nat * i32 2%nat));
  let wx := b_div F bw (b_int F (i32 1%nat)) in
  let wy := b_div F bw (b_int F (i32 2%nat)) in
  let wz := b_div F bw (b_int F (i32 3%nat)) in
  Some {| bd_n := nPart; bd_total := bw; bd_a := nth 0 bh1 0;
          bd_origin := [b_mul F (b_int F ix) wx; b_mul F (b_int F iy) wy; b_mul F (b_int F iz) wz]; bd_width := [wx; wy; wz] |}.

(** io/bolshoi.go:195-239, io/bolshoiP.go:172-216 on a file that can be opened *)
Definition bol_read_header (F : bops) (p : bool) (e : order) (file : list Z) : option bhead :=
  do r <- bol_head p e file; let '(bh1, bh2, n, _) := r in bol_bhead F bh1 bh2 n.

(** io/bolshoi.go:141-148, io/bolshoiP.go:159-166 *)
Definition bol_in_range (F : bops) (x : list Z) (hd : bhead) : bool :=
  let X i := nth i x 0 in let O i := nth i (bd_origin hd) 0 in let W i := nth i (bd_width hd) 0 in
  b_lt F (O 0%nat) (X 0%nat) && b_lt F (O 1%nat) (X 1%nat) && b_lt F (O 2%nat) (X 2%nat) &&
  b_le F (X 0%nat) (b_add F (O 0%nat) (W 0%nat)) && b_le F (X 1%nat) (b_add F (O 1%nat) (W 1%nat)) && b_le F (X 2%nat) (b_add F (O 2%nat) (W 2%nat)).

(** reader(f, order, buf[lo: lo+m]) for a buffer whose elements have w bytes; the reader's error is ignored by the callers. A slice beyond the length panics here
    (in Go only beyond the capacity). *)
Definition read_part (reader : nat -> list Z -> list Z -> option (bool * list Z * list Z)) (w : nat) (mem : list Z) (lo : nat) (m : Z) (s : list Z)
  : option (list Z * list Z) :=
  if m <? 0 then None else
  let m' := Z.to_nat m in
  if (w * (lo + m') <=? length mem)%nat then
    do r <- reader m' (firstn (w * m') (skipn (w * lo) mem)) s; let '(_, part, s) := r in
    Some (firstn (w * lo) mem ++ part ++ skipn (w * (lo + m')) mem, s)
  else None.

(** io/bolshoi.go:95-101: the memory and what is left of the file. Every pass consumes at least 12 bytes or panics, so fuel above the length of the file is never exhausted. *)
Fixpoint bol_groups (fuel : nat) (sys e : order) (cap : nat) (nPart : Z) (nRead : nat) (mem s : list Z) : option (list Z * list Z) :=
  match fuel with
  | O => None
  | S fuel =>
      if Z.of_nat nRead <? nPart then
        do r <- fortran_read e 4 s; let '(bm, s) := r in
        let m := get_int e bm in
        do r <- read_i32 e s; let '(_, s) := r in
        do r <- read_part (read_bolshoi_as_byte sys e cap) 32 mem nRead m s; let '(mem, s) := r in
        do r <- read_i32 e s; let '(_, s) := r in
        bol_groups fuel sys e cap nPart (nRead + Z.to_nat m) mem s
      else Some (mem, s)
  end.

(** A bolshoiParticle: X, V and ID (io/bolshoi.go:39-43). *)
Definition bparticle : Type := list Z * list Z * Z.
Definition mem_particle (sys : order) (mem : list Z) : bparticle :=
  let ws := mem_words sys 4 6 (firstn 24 mem) in (firstn 3 ws, skipn 3 ws, get_int sys (skipn 24 mem)).
Definition mem_particles (sys : order) (n : nat) (mem : list Z) : list bparticle := map (mem_particle sys) (chunks 32 n mem).

(** io/bolshoi.go:124-139 *)
Definition filter_bolshoi (F : bops) (bh1 : list Z) (hd : bhead) (p : list bparticle) : option (list bparticle) :=
  let unit := b_div F (nth 10 bh1 0) (b_int F (sign 4 (nth 4 bh1 0))) in
  do r <- loop (length p) (fun i (st : list bparticle * nat) => let '(p, j) := st in
    do pp <- rd p i;
    let '(x, v, id) := pp in
    let x := map (fun c => b_mul F (b_sub F c (b_one F)) unit) x in
    if bol_in_range F x hd then do p <- wr p j (x, v, id); Some (p, S j) else Some (p, j)) (p, 0%nat);
  let '(p, j) := r in Some (firstn j p).

(** io/bolshoi.go:74-111 and 150-171 for a buffer whose own header (io/bolshoi.go:67-69) has the box width [bw0]; [stale]: expandBolshoiParticles returns memory
    of the right length with any content. *)
Definition read_bolshoi (F : bops) (sys e : order) (cap : nat) (stale : nat -> list Z) (bw0 : Z) (file : list Z)
  : option (list (list Z) * list (list Z) * list Z * list Z) :=
  do r <- bol_head false e file; let '(bh1, bh2, nPart, s) := r in
  if nPart <? 0 then None else
  let n := Z.to_nat nPart in
  do r <- bol_groups (S (length file)) sys e cap nPart 0 (stale (32 * n)%nat) s; let '(mem, _) := r in
  do hd <- bol_read_header F false e file;
  do p <- filter_bolshoi F bh1 hd (mem_particles sys n mem);
  let scale := b_scale F (bd_a hd) in
  let mp := b_minmass F bw0 in
  Some (map (fun q => fst (fst q)) p, map (fun q => map (fun v => b_mul F v scale) (snd (fst q))) p, map (fun _ => mp) p, map snd p).

(** io/bolshoi.go:60-71 (NewBolshoiBuffer on a file that can be opened): the box width of its header. *)
Definition bol_new (p : bool) (e : order) (file : list Z) : option (list Z) :=
  do r <- fortran_read e 45 file; let '(_, s) := r in
  do r <- fortran_read e (list_sum (bh1_layout p)) s; let '(b1, s) := r in
  do r <- fortran_read e (list_sum (bh2_layout p)) s; let '(_, s) := r in
  Some (decode_words e (bh1_layout p) b1).

(** io/bolshoiP.go:12-22: the read buffers x, v (three arrays each), wp and ids as memory. *)
Definition pmem : Type := list (list Z) * list (list Z) * list Z * list Z.

(** io/bolshoiP.go:101-105, 107-111: three arrays one after the other. *)
Definition read_three (sys e : order) (cap : nat) (mems : list (list Z)) (lo : nat) (m : Z) (s : list Z) : option (list (list Z) * list Z) :=
  loop 3 (fun i (st : list (list Z) * list Z) => let '(mems, s) := st in
    do mem <- rd mems i;
    do r <- read_part (read_float32_as_byte sys e cap) 4 mem lo m s; let '(mem, s) := r in
    do mems <- wr mems i mem; Some (mems, s)) (mems, s).

(** io/bolshoiP.go:98-119 *)
Fixpoint bolp_groups (fuel : nat) (sys e : order) (cap : nat) (nPart : Z) (nRead : nat) (mem : pmem) (s : list Z) : option (pmem * list Z) :=
  match fuel with
  | O => None
  | S fuel =>
      if Z.of_nat nRead <? nPart then
        let '(xm, vm, wm, im) := mem in
        do r <- fortran_read e 4 s; let '(bm, s) := r in
        let m := get_int e bm in
        do r <- read_i32 e s; let '(_, s) := r in
        do r <- read_three sys e cap xm nRead m s; let '(xm, s) := r in
        do r <- read_i32 e s; let '(_, s) := r in
        do r <- read_i32 e s; let '(_, s) := r in
        do r <- read_three sys e cap vm nRead m s; let '(vm, s) := r in
        do r <- read_i32 e s; let '(_, s) := r in
        do r <- read_i32 e s; let '(_, s) := r in
        do r <- read_part (read_float32_as_byte sys e cap) 4 wm nRead m s; let '(wm, s) := r in
        do r <- read_part (read_int64_as_byte sys e cap) 8 im nRead m s; let '(im, s) := r in
        do r <- read_i32 e s; let '(_, s) := r in
        bolp_groups fuel sys e cap nPart (nRead + Z.to_nat m) (xm, vm, wm, im) s
      else Some (mem, s)
  end.

(** io/bolshoiP.go:128-150: xs, vs, ids as left by the loop (ms is mp at the first j indices), and j. *)
Definition filter_bolshoiP (F : bops) (hd : bhead) (scale : Z) (n : nat) (xr vr : list (list Z)) (st0 : list (list Z) * list (list Z) * list Z)
  : option (list (list Z) * list (list Z) * list Z * nat) :=
  loop n (fun i (st : list (list Z) * list (list Z) * list Z * nat) => let '(xs, vs, ids, j) := st in
    do x0 <- rd (nth 0 xr []) i; do x1 <- rd (nth 1 xr []) i; do x2 <- rd (nth 2 xr []) i;
    do xs <- wr xs i [x0; x1; x2];
    do v0 <- rd (nth 0 vr []) i; do v1 <- rd (nth 1 vr []) i; do v2 <- rd (nth 2 vr []) i;
    do vs <- wr vs i [v0; v1; v2];
    do x <- rd xs i;
    if negb (bol_in_range F x hd) then Some (xs, vs, ids, j) else
    do xs <- wr xs j x;
    do v <- rd vs i;
    do vs <- wr vs j (map (b_mul F scale) v);
    do id <- rd ids i;
    do ids <- wr ids j id;
    Some (xs, vs, ids, S j)) (let '(xs, vs, ids) := st0 in (xs, vs, ids, 0%nat)).

(** io/bolshoiP.go:68-156; [stale n]: memory of n bytes with any content, [sx], [sv]: any vectors. *)
Definition read_bolshoiP (F : bops) (sys e : order) (cap : nat) (stale : nat -> nat -> list Z) (sx sv : nat -> list (list Z)) (file : list Z)
  : option (list (list Z) * list (list Z) * list Z * list Z) :=
  do r <- bol_head true e file; let '(bh1, bh2, nPart, s) := r in
  if nPart <? 0 then None else
  let n := Z.to_nat nPart in
  do r <- bolp_groups (S (length file)) sys e cap nPart 0
      (map (fun i => stale i (4 * n)%nat) [0; 1; 2]%nat, map (fun i => stale i (4 * n)%nat) [3; 4; 5]%nat, stale 6%nat (4 * n)%nat, stale 7%nat (8 * n)%nat) s;
  let '((xm, vm, _, im), _) := r in
  do hd <- bol_read_header F true e file;
  let mp := nth 11 bh1 0 in
  let scale := b_scale F (bd_a hd) in
  do r <- filter_bolshoiP F hd scale n (map (mem_words sys 4 n) xm) (map (mem_words sys 4 n) vm) (sx n, sv n, mem_ints sys 8 n im);
  let '(xs, vs, ids, j) := r in
  Some (firstn j xs, firstn j vs, repeat mp j, firstn j ids).
