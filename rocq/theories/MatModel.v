(** * Model of math/mat/mat.go (no proofs in this file).

    float64 is R (RealBase.v); a panic is [None]. Slices are value lists: a routine that writes to a slice returns the
    new contents. Sizes are [nat], so the "must be positive" panics of Init are tests for zero. math/mat/mat32.go is the same code with float32
    for float64 (without MultVec, VecMult and Transpose) and is covered by the same definitions under the same reading of floats. *)
From Verif Require Export RealBase LoopBase.
Local Open Scope R_scope.

(** mat.go:16-19 *)
Record matrix := { vals : list R; width : nat; height : nat }.

(** mat.go:31-49 (NewMatrix, Init) *)
Definition newMatrix (vs : list R) (w h : nat) : option matrix :=
  if (w =? 0)%nat then None
  else if (h =? 0)%nat then None
  else if negb (w * h =? List.length vs)%nat then None
  else Some {| vals := vs; width := w; height := h |}.

(** Go: make([]float64, n), and "for i := range out { out[i] = 0 }". *)
Definition zeros (n : nat) : list R := repeat 0 n.

(** mat.go:60-81. out is overwritten; only its length matters. *)
Definition multAt (m1 m2 out : matrix) : option matrix :=
  if negb (width m1 =? height m2)%nat then None
  else
    do vs <- loop (height m1) (fun i o =>
      let off := (i * width m1)%nat in
      loop (width m2) (fun j o =>
        let outIdx := (off + j)%nat in
        loop (width m1) (fun k o =>
          let m1Idx := (off + k)%nat in
          let m2Idx := (k * width m2 + j)%nat in
          do a <- rd (vals m1) m1Idx;
          do b <- rd (vals m2) m2Idx;
          do c <- rd o outIdx;
          wr o outIdx (c + a * b)) o) o) (zeros (List.length (vals out)));
    Some {| vals := vs; width := width out; height := height out |}.

(** mat.go:52-56 *)
Definition mult (m1 m2 : matrix) : option matrix :=
  do out <- newMatrix (zeros (height m1 * width m2)) (width m2) (height m1);
  multAt m1 m2 out.

(** mat.go:84-99 *)
Definition multVec (m : matrix) (v out : list R) : option (list R) :=
  if negb (height m =? List.length out)%nat || negb (width m =? List.length v)%nat then None
  else
    do s <- loop (height m) (fun j s =>
      let '(out, offset) := s in
      do out' <- loop (width m) (fun i out =>
        do a <- rd (vals m) (offset + i)%nat;
        do b <- rd v i;
        do c <- rd out j;
        wr out j (c + a * b)) out;
      Some (out', (offset + width m)%nat)) (zeros (List.length out), 0%nat);
    Some (fst s).

(** mat.go:102-116 *)
Definition vecMult (v : list R) (m : matrix) (out : list R) : option (list R) :=
  if negb (height m =? List.length v)%nat || negb (width m =? List.length out)%nat then None
  else
    loop (width m) (fun i out =>
      do sum <- loop (height m) (fun j sum =>
        do a <- rd v j;
        do b <- rd (vals m) (i + width m * j)%nat;
        Some (sum + a * b)) 0;
      wr out i sum) (zeros (List.length out)).

(** mat.go:169-183 *)
Definition baseTranspose (m out : list R) (width height mXLow mYLow mXWidth mYWidth outXLow outYLow : nat) : option (list R) :=
  loop mYWidth (fun y out =>
    let my := (mYLow + y)%nat in
    let outx := (outXLow + y)%nat in
    let mOffset := (my * width)%nat in
    loop mXWidth (fun x out =>
      let mx := (mXLow + x)%nat in
      let outy := (outYLow + x)%nat in
      do a <- rd m (mOffset + mx)%nat;
      wr out (outy * height + outx)%nat a) out) out.

(** mat.go:139-166. [B] is the constant transposeRecWidth = 16000000 of mat.go:134. The recursion is on fuel; running out
    would be [None], and transpose supplies enough (the sum of the two widths bounds the depth, proved for every B >= 1). *)
Fixpoint recTranspose (B fuel : nat) (m out : list R) (width height mXLow mYLow mXWidth mYWidth outXLow outYLow : nat) : option (list R) :=
  match fuel with
  | O => None
  | S fuel =>
    if (mXWidth <=? B)%nat && (mYWidth <=? B)%nat then
      baseTranspose m out width height mXLow mYLow mXWidth mYWidth outXLow outYLow
    else if (mYWidth <? mXWidth)%nat then
      let newMXWidth := (mXWidth / 2)%nat in
      do out <- recTranspose B fuel m out width height mXLow mYLow newMXWidth mYWidth outXLow outYLow;
      recTranspose B fuel m out width height (mXLow + newMXWidth) mYLow (mXWidth - newMXWidth) mYWidth outXLow (outYLow + newMXWidth)
    else
      let newMYWidth := (mYWidth / 2)%nat in
      do out <- recTranspose B fuel m out width height mXLow mYLow mXWidth newMYWidth outXLow outYLow;
      recTranspose B fuel m out width height mXLow (mYLow + newMYWidth) mXWidth (mYWidth - newMYWidth) (outXLow + newMYWidth) outYLow
  end.

(** mat.go:127-132 *)
Definition transposeAt (B : nat) (m out : matrix) : option matrix :=
  do vs <- recTranspose B (S (width m + height m)) (vals m) (vals out) (width m) (height m) 0 0 (width m) (height m) 0 0;
  Some {| vals := vs; width := width out; height := height out |}.

(** mat.go:119-124 *)
Definition transpose (B : nat) (m : matrix) : option matrix :=
  do out <- newMatrix (zeros (height m * width m)) (height m) (width m);
  transposeAt B m out.

(** mat.go:24-28 *)
Record luFactors := { lu_vals : list R; lu_n : nat; lu_pivot : list nat; lu_d : R }.

(** mat.go:249-263, the row scaling vector; "Singular Matrix." is [None]. *)
Definition rowScales (n : nat) (vs : list R) : option (list R) :=
  loop n (fun i vv =>
    do big <- loop n (fun j big =>
      do a <- rd vs (i * n + j)%nat;
      let tmp := Rabs a in
      Some (if Rltb big tmp then tmp else big)) 0;
    if Reqb big 0 then None else wr vv i (1 / big)) (zeros n).

(** mat.go:267-274, the pivot search of step k; imax is carried over from the previous step. *)
Definition pivotSearch (n k : nat) (vs vv : list R) (imax : nat) : option nat :=
  do s <- loop_from k n (fun i s =>
    let '(big, imax) := s in
    do v <- rd vv i;
    do a <- rd vs (i * n + k)%nat;
    let tmp := v * Rabs a in
    Some (if Rltb big tmp then (tmp, i) else (big, imax))) (0, imax);
  Some (snd s).

(** mat.go:276-279 *)
Definition swapRows (n k imax : nat) (vs : list R) : option (list R) :=
  loop n (fun j vs =>
    do a <- rd vs (k * n + j)%nat;
    do b <- rd vs (imax * n + j)%nat;
    do vs <- wr vs (imax * n + j)%nat a;
    wr vs (k * n + j)%nat b) vs.

(** mat.go:287-293 *)
Definition eliminate (n k : nat) (vs : list R) : option (list R) :=
  loop_from (k + 1) n (fun i vs =>
    do a <- rd vs (i * n + k)%nat;
    do p <- rd vs (k * n + k)%nat;
    do vs <- wr vs (i * n + k)%nat (a / p);
    do tmp <- rd vs (i * n + k)%nat;
    loop_from (k + 1) n (fun j vs =>
      do x <- rd vs (i * n + j)%nat;
      do y <- rd vs (k * n + j)%nat;
      wr vs (i * n + j)%nat (x - tmp * y)) vs) vs.

Record fstate := { f_vs : list R; f_vv : list R; f_imax : nat; f_piv : list nat; f_d : R }.

(** mat.go:266-294, one pass of the loop over k. *)
Definition factorStep (n k : nat) (s : fstate) : option fstate :=
  do imax <- pivotSearch n k (f_vs s) (f_vv s) (f_imax s);
  do s1 <-
    (if negb (k =? imax)%nat then
       do vs <- swapRows n k imax (f_vs s);
       do v <- rd (f_vv s) k;
       do vv <- wr (f_vv s) imax v;
       Some (vs, vv, - f_d s)
     else Some (f_vs s, f_vv s, f_d s));
  let '(vs, vv, d) := s1 in
  do piv <- wr (f_piv s) k imax;
  do p <- rd vs (k * n + k)%nat;
  do vs <- (if Reqb p 0 then wr vs (k * n + k)%nat (1 / 100000000000000000000) else Some vs);
  do vs <- eliminate n k vs;
  Some {| f_vs := vs; f_vv := vv; f_imax := imax; f_piv := piv; f_d := d |}.

(** mat.go:247-295 *)
Definition factorizeInPlace (n : nat) (vs : list R) (piv : list nat) : option luFactors :=
  do vv <- rowScales n vs;
  do s <- loop n (factorStep n) {| f_vs := vs; f_vv := vv; f_imax := 0; f_piv := piv; f_d := 1 |};
  Some {| lu_vals := f_vs s; lu_n := n; lu_pivot := f_piv s; lu_d := f_d s |}.

(** mat.go:213-244 (NewLUFactors, LU, LUFactorsAt) *)
Definition luOf (m : matrix) : option luFactors :=
  if negb (width m =? height m)%nat then None
  else factorizeInPlace (width m) (vals m) (repeat 0%nat (width m)).

(** mat.go:325-336 *)
Definition forwardSubst (n : nat) (piv : list nat) (lu bs ys : list R) : option (list R) :=
  do ys <- loop n (fun i ys => do p <- rd piv i; do b <- rd bs i; wr ys p b) ys;
  loop n (fun i ys =>
    do sum <- loop i (fun j sum => do a <- rd lu (i * n + j)%nat; do y <- rd ys j; Some (sum + a * y)) 0;
    do y <- rd ys i;
    wr ys i (y - sum)) ys.

(** mat.go:340-348. The only caller passes the same slice as ys and xs (mat.go:309,318), so there is one slice here. *)
Definition backSubst (n : nat) (lu xs : list R) : option (list R) :=
  loop_down n (fun i xs =>
    do sum <- loop_from (i + 1) n (fun j sum => do a <- rd lu (i * n + j)%nat; do x <- rd xs j; Some (sum + a * x)) 0;
    do y <- rd xs i;
    do a <- rd lu (i * n + i)%nat;
    wr xs i ((y - sum) / a)) xs.

(** mat.go:300-321. When bs and xs are the same slice the code copies bs first (310-313); value lists make that copy
    implicit. &bs[0] on empty slices (n = 0, mat.go:310) cannot happen: Init refuses empty matrices. *)
Definition luSolveVector (luf : luFactors) (bs xs : list R) : option (list R) :=
  let n := lu_n luf in
  if negb (n =? List.length bs)%nat then None
  else if negb (n =? List.length xs)%nat then None
  else
    do ys <- forwardSubst n (lu_pivot luf) (lu_vals luf) bs xs;
    backSubst n (lu_vals luf) ys.

(** mat.go:353-380. x is both input and output, as in the code; b is used only for its shape, as in the code. *)
Definition luSolveMatrix (luf : luFactors) (b x : matrix) : option matrix :=
  let n := lu_n luf in
  if negb (width b =? height b)%nat then None
  else if negb (width x =? height x)%nat then None
  else if negb (n =? width b)%nat then None
  else if negb (n =? width x)%nat then None
  else
    do s <- loop n (fun j s =>
      let '(xs, col) := s in
      do col <- loop n (fun i col => do a <- rd xs (i * n + j)%nat; wr col i a) col;
      do col <- luSolveVector luf col col;
      do xs <- loop n (fun i xs => do a <- rd col i; wr xs (i * n + j)%nat a) xs;
      Some (xs, col)) (vals x, zeros n);
    Some {| vals := fst s; width := width x; height := height x |}.

(** mat.go:384-401 *)
Definition luInvertAt (luf : luFactors) (out : matrix) : option matrix :=
  let n := lu_n luf in
  if negb (width out =? height out)%nat then None
  else if negb (n =? width out)%nat then None
  else
    do vs <- loop n (fun i vs => wr vs (i * n + i)%nat 1) (zeros (List.length (vals out)));
    let o := {| vals := vs; width := width out; height := height out |} in
    luSolveMatrix luf o o.

(** mat.go:405-414 *)
Definition luDeterminant (luf : luFactors) : option R :=
  let n := lu_n luf in
  loop n (fun i d => do a <- rd (lu_vals luf) (i * n + i)%nat; Some (d * a)) (lu_d luf).

(** mat.go:186-210 *)
Definition invert (m : matrix) : option matrix :=
  do lu <- luOf m;
  do inv <- newMatrix (zeros (List.length (vals m))) (width m) (height m);
  luInvertAt lu inv.

Definition determinant (m : matrix) : option R := do lu <- luOf m; luDeterminant lu.

Definition solveVector (m : matrix) (bs : list R) : option (list R) :=
  do lu <- luOf m; luSolveVector lu bs (zeros (List.length bs)).

Definition solveMatrix (m b : matrix) : option matrix :=
  do x <- newMatrix (zeros (List.length (vals m))) (width m) (height m);
  do lu <- luOf m;
  luSolveMatrix lu b x.
