(** * Model of math/rand (no proofs in this file).

    uint32 values are [N] below 2^32; every operation that can leave that range is reduced explicitly. float64 values are reals. *)
From Coq Require Import NArith.
From Verif Require Export RealBase LoopBase.
Local Open Scope N_scope.

Definition u32 (x : N) : N := x mod 2 ^ 32.
Definition maxUint32 : N := 2 ^ 32 - 1.

(** ** xorshift.go *)

(** xorshift.go:13-15 *)
Record xorshift := { xs_w : N; xs_x : N; xs_y : N; xs_z : N }.

(** xorshift.go:17-22; uint32(seed) of a uint64. *)
Definition xs_init (seed : N) : xorshift :=
  {| xs_x := 123456789; xs_y := 362436069; xs_z := 521288629; xs_w := u32 seed |}.

(** xorshift.go:25-27 and 37-39. *)
Definition xs_step (g : xorshift) : xorshift :=
  let t := N.lxor (xs_x g) (u32 (N.shiftl (xs_x g) 11)) in
  {| xs_x := xs_y g; xs_y := xs_z g; xs_z := xs_w g;
     xs_w := N.lxor (N.lxor (xs_w g) (N.shiftr (xs_w g) 19)) (N.lxor t (N.shiftr t 8)) |}.

(** xorshift.go:28, 40: float64(math.MaxUint32-gen.w) / float64(math.MaxUint32); w <= MaxUint32. *)
Definition xs_value (g : xorshift) : R := (IZR (Z.of_N (maxUint32 - xs_w g)) / IZR (Z.of_N maxUint32))%R.

(** xorshift.go:24-33. The recursion (retry when the value is 1.0) is on fuel; [None] would be non-termination. *)
Fixpoint xs_nextF (fuel : nat) (g : xorshift) : option (R * xorshift) :=
  match fuel with
  | O => None
  | S fuel => let g' := xs_step g in
              if Reqb (xs_value g') 1 then xs_nextF fuel g' else Some (xs_value g', g')
  end.

(** Four passes always suffice from a reachable state (proved). *)
Definition xs_next (g : xorshift) : option (R * xorshift) := xs_nextF 4 g.

(** xorshift.go:35-45: the for loop with i-- on a retry. *)
Fixpoint xs_seqF (fuel : nat) (i : nat) (target : list R) (g : xorshift) : option (list R * xorshift) :=
  match fuel with
  | O => None
  | S fuel =>
    if (i <? List.length target)%nat then
      let g' := xs_step g in
      do target' <- wr target i (xs_value g');
      if Reqb (xs_value g') 1 then xs_seqF fuel i target' g'       (* i--, then i++ of the for statement *)
      else xs_seqF fuel (i + 1) target' g'
    else Some (target, g)
  end.

Definition xs_nextSequence (target : list R) (g : xorshift) : option (list R * xorshift) :=
  xs_seqF (4 * List.length target + 1) 0 target g.

(** ** tausworthe.go *)

(** tausworthe.go:17-20 *)
Record tausworthe := { t_seq : list R; t_leader : nat; t_first : nat; t_second : nat }.

Definition tauswortheSeqLen : nat := 9689.
Definition tauswortheFirstOffset : nat := 2444.
Definition tauswortheSecondOffset : nat := 4187.
Definition tauswortheDigitsRandomized : nat := 15.

(** rand.go:91-96 on top of a backend's Next. *)
Definition uniform {S : Type} (next : S -> option (R * S)) (low high : R) (s : S) : option (R * S) :=
  if Reqb low 0 && Reqb high 1 then next s
  else do (f, s') <- next s; Some (f * (high - low) + low, s')%R.

(** rand.go:84-88; int(math.Floor(x)) is the integer part. *)
Definition uniformInt {S : Type} (next : S -> option (R * S)) (low high : Z) (s : S) : option (Z * S) :=
  do (f, s') <- next s; Some (Int_part (IZR (high - low) * f + IZR low)%R, s').

(** rand.go:101-109 on top of a backend's NextSequence. *)
Definition uniformAt {S : Type} (nextSeq : list R -> S -> option (list R * S)) (low high : R) (target : list R) (s : S) : option (list R * S) :=
  do (t, s') <- nextSeq target s;
  if Reqb low 0 && Reqb high 1 then Some (t, s')
  else Some (map (fun x => x * (high - low) + low)%R t, s').

(** golang.go:9-26: a wrapper around Go's math/rand, which is not modelled: a source is any state with a draw function
    [goFloat], the wrapper adds nothing to it. *)
Definition go_next {S : Type} (goFloat : S -> R * S) (s : S) : option (R * S) := Some (goFloat s).
Definition go_nextSequence {S : Type} (goFloat : S -> R * S) (target : list R) (s : S) : option (list R * S) :=
  loop (List.length target) (fun i st => let '(t, s) := st in let '(f, s') := goFloat s in do t' <- wr t i f; Some (t', s')) (target, s).

(** tausworthe.go:22-44; digitGen is a Golang generator seeded by the caller. *)
Definition t_init {S : Type} (goFloat : S -> R * S) (s : S) : option tausworthe :=
  do (seq, _, _) <- loop tauswortheDigitsRandomized (fun _ st =>
    let '(seq, f, s) := st in
    do (seq', s') <- loop (List.length seq) (fun i st =>
      let '(seq, s) := st in
      do (v, s') <- uniform (go_next goFloat) 0 f s;
      do a <- rd seq i;
      do seq' <- wr seq i (a + v)%R;
      Some (seq', s')) (seq, s);
    Some (seq', f / 2, s')%R) (repeat 0%R tauswortheSeqLen, 1%R, s);
  Some {| t_seq := map (fun x => if Rleb 1 x then (x - 1)%R else x) seq;
          t_leader := 0; t_first := tauswortheFirstOffset; t_second := tauswortheSecondOffset |}.

(** tausworthe.go:53-65: wrap, then decrement. *)
Definition wrapDec (n i : nat) : nat := ((if (i =? 0)%nat then n else i) - 1)%nat.

(** tausworthe.go:46-68 *)
Definition t_next (g : tausworthe) : option (R * tausworthe) :=
  do a <- rd (t_seq g) (t_first g);
  do b <- rd (t_seq g) (t_second g);
  let next := (if Rltb (a - b) 0 then a - b + 1 else a - b)%R in
  do seq <- wr (t_seq g) (t_leader g) next;
  let n := List.length (t_seq g) in
  Some (next, {| t_seq := seq; t_leader := wrapDec n (t_leader g); t_first := wrapDec n (t_first g); t_second := wrapDec n (t_second g) |}).

(** tausworthe.go:70-94: the body of Next repeated inline, then target[i] = next. *)
Definition t_nextSequence (target : list R) (g : tausworthe) : option (list R * tausworthe) :=
  loop (List.length target) (fun i st =>
    let '(t, g) := st in
    do a <- rd (t_seq g) (t_first g);
    do b <- rd (t_seq g) (t_second g);
    let next := (if Rltb (a - b) 0 then a - b + 1 else a - b)%R in
    do seq <- wr (t_seq g) (t_leader g) next;
    let n := List.length (t_seq g) in
    let g' := {| t_seq := seq; t_leader := wrapDec n (t_leader g); t_first := wrapDec n (t_first g); t_second := wrapDec n (t_second g) |} in
    do t' <- wr t i next;
    Some (t', g')) (target, g).

(** ** sobol.go *)

Definition maxDim : nat := 6.
Definition maxBit : nat := 30.
Definition maxSeqNum : N := 2 ^ 30.

(** sobol.go:15-21 *)
Definition initMDeg : list nat := [1; 2; 3; 3; 4; 4]%nat.
Definition initIp : list N := [0; 1; 1; 2; 1; 4].
Definition initIv : list N :=
  [1; 1; 1; 1; 1; 1; 3; 1; 3; 3; 1; 1; 5; 7; 7; 3; 3; 5; 15; 11; 5; 15; 13; 9] ++ repeat 0 156%nat.

(** sobol.go:25-32 (the unused field fac is omitted; ip and mdeg are constants after Init). *)
Record sobol := { sb_seqNum : N; sb_ix : list N; sb_iv : list N; sb_isInit : bool }.

(** sobol.go:66-71 *)
Fixpoint sb_mix (l : nat) (iv : list N) (jk : nat) (ipp i : N) : option N :=
  match l with
  | O => Some i
  | S l => do v <- rd iv jk;
           sb_mix l iv jk (N.shiftr ipp 1) (if N.land 1 ipp =? 1 then N.lxor i v else i)
  end.

(** sobol.go:55-75. For degree 0 the uint32 loop bound deg-1 would wrap around; all degrees in initMDeg are positive. *)
Definition sb_tables : option (list N) :=
  loop maxDim (fun k iv =>
    do deg <- rd initMDeg k;
    do iv <- loop deg (fun j iv =>
      do v <- rd iv (maxDim * j + k)%nat;
      wr iv (maxDim * j + k)%nat (u32 (N.shiftl v (N.of_nat (maxBit - j - 1))))) iv;
    loop_from deg maxBit (fun j iv =>
      do ipp <- rd initIp k;
      do i0 <- rd iv (maxDim * (j - deg) + k)%nat;
      let i := N.lxor i0 (N.shiftr i0 (N.of_nat deg)) in
      do i <- sb_mix (deg - 1) iv (maxDim * (j - 1) + k)%nat ipp i;
      wr iv (maxDim * j + k)%nat i) iv) initIv.

(** sobol.go:42-78 *)
Definition sb_init (s : sobol) : option sobol :=
  let ix := repeat 0 maxDim in
  if sb_isInit s then Some {| sb_seqNum := sb_seqNum s; sb_ix := ix; sb_iv := sb_iv s; sb_isInit := true |}
  else do iv <- sb_tables; Some {| sb_seqNum := 0; sb_ix := ix; sb_iv := iv; sb_isInit := true |}.

(** sobol.go:35-39 *)
Definition sb_new : option sobol :=
  sb_init {| sb_seqNum := 0; sb_ix := repeat 0 maxDim; sb_iv := repeat 0 (maxBit * maxDim)%nat; sb_isInit := false |}.

(** sobol.go:101-106: index of the lowest zero bit, at most MaxBit. *)
Fixpoint sb_zero (fuel : nat) (z : nat) (n : N) : nat :=
  match fuel with
  | O => z
  | S fuel => if N.land n (N.shiftl 1 (N.of_nat z)) =? 0 then z else sb_zero fuel (z + 1) n
  end.
Definition zeroIdx (n : N) : nat := sb_zero maxBit 0 n.

(** sobol.go:88-113. Returns the target and the new state. *)
Definition sb_next (dim : nat) (s : sobol) : option (list R * sobol) :=
  if (maxDim <? dim)%nat then None
  else if maxSeqNum <=? sb_seqNum s then None
  else
    let seqNum := u32 (sb_seqNum s + 1) in
    let im := (zeroIdx seqNum * maxDim)%nat in
    do (target, ix) <- loop dim (fun k st =>
      let '(target, ix) := st in
      do a <- rd ix k;
      do v <- rd (sb_iv s) (im + k)%nat;
      let x := N.lxor a v in
      do ix <- wr ix k x;
      do target <- wr target k (IZR (Z.of_N x) * (1 / IZR (Z.of_N maxSeqNum)))%R;
      Some (target, ix)) (repeat 0%R dim, sb_ix s);
    Some (target, {| sb_seqNum := seqNum; sb_ix := ix; sb_iv := sb_iv s; sb_isInit := sb_isInit s |}).
