(** * Model of math/interpolate: search.go, linear_interpolators.go, spline.go, cubic_interpolators.go (no proofs).
    None = panic. *)
From Verif Require Import RealBase.
Local Open Scope R_scope.
Local Open Scope list_scope.

(** search.go:8-13 *)
Record searcher := { s_xs : list R; s_x0 : R; s_dx : R; s_lim : R; s_n : Z; s_unif : bool; s_incr : bool }.

(** search.go:16-24 init; None = xs[0] or xs[len-1] out of range. *)
Definition s_init (xs : list R) : option searcher :=
  bindo (at_ xs 0) (fun x0 => bindo (at_ xs (Z.of_nat (List.length xs) - 1)) (fun lim =>
  let dx := (lim - x0) / IZR (Z.of_nat (List.length xs) - 1) in
  Some {| s_xs := xs; s_x0 := x0; s_dx := dx; s_lim := lim; s_n := Z.of_nat (List.length xs);
          s_unif := false; s_incr := Rltb 0 dx |})).

(** search.go:27-35 unifInit *)
Definition s_unifInit (x0 dx : R) (n : Z) : searcher :=
  {| s_xs := []; s_x0 := x0; s_dx := dx; s_lim := IZR (n - 1) * dx + x0; s_n := n; s_unif := true; s_incr := Rltb 0 dx |}.

(** search.go:63-71 (and spline.go:184-192): binary search between lo and hi; the fuel hi-lo suffices. *)
Fixpoint bloop (fuel : nat) (xs : list R) (incr : bool) (x : R) (lo hi : Z) : option Z :=
  match fuel with
  | O => None
  | S f => if (1 <? hi - lo)%Z then
             let mid := Z.quot (lo + hi) 2 in
             bindo (at_ xs mid) (fun v =>
             if Bool.eqb incr (Rleb v x) then bloop f xs incr x mid hi else bloop f xs incr x lo mid)
           else Some lo
  end.

(** search.go:54-60 (and spline.go:175-181): is the guess good? *)
Definition goodGuess (xs : list R) (incr : bool) (x : R) (guess : Z) : option bool :=
  if (0 <=? guess)%Z && (guess <? Z.of_nat (List.length xs) - 1)%Z then
    bindo (at_ xs guess) (fun a => bindo (at_ xs (guess + 1)) (fun b =>
    Some (Bool.eqb (Rleb a x) incr && Bool.eqb (Rleb x b) incr)))
  else Some false.

(** search.go:54-73 with the guess as a parameter. *)
Definition searchGuess (guess : Z) (s : searcher) (x : R) : option Z :=
  bindo (goodGuess (s_xs s) (s_incr s) x guess) (fun ok =>
  if ok then Some guess else bloop (S (Z.to_nat (s_n s))) (s_xs s) (s_incr s) x 0 (s_n s - 1)).

(** search.go:38-75 search *)
Definition search (s : searcher) (x : R) : option Z :=
  if Rltb (s_lim s) x || Rltb x (s_x0 s) then None
  else if s_unif s then
    let idx := Rtrunc ((x - s_x0 s) / s_dx s) in
    Some (if (idx =? s_n s - 1)%Z then idx - 1 else idx)%Z
  else bindo (at_ (s_xs s) 0) (fun a => searchGuess (Rtrunc ((x - a) / s_dx s)) s x).

(** search.go:78-84 val *)
Definition s_val (s : searcher) (i : Z) : option R :=
  if s_unif s then Some (IZR i * s_dx s + s_x0 s) else at_ (s_xs s) i.

(** linear_interpolators.go:12-42 *)
Record Linear := { l_xs : searcher; l_vals : list R }.
Definition NewLinear (xs vals : list R) : option Linear :=
  if negb (Nat.eqb (List.length xs) (List.length vals)) then None
  else bindo (s_init xs) (fun s => Some {| l_xs := s; l_vals := vals |}).
Definition NewUniformLinear (x0 dx : R) (vals : list R) : Linear :=
  {| l_xs := s_unifInit x0 dx (Z.of_nat (List.length vals)); l_vals := vals |}.

(** linear_interpolators.go:47-54 *)
Definition LinearEval (lin : Linear) (x : R) : option R :=
  bindo (search (l_xs lin) x) (fun i1 => let i2 := (i1 + 1)%Z in
  bindo (s_val (l_xs lin) i1) (fun x1 => bindo (s_val (l_xs lin) i2) (fun x2 =>
  bindo (at_ (l_vals lin) i1) (fun v1 => bindo (at_ (l_vals lin) i2) (fun v2 =>
  Some (((v2 - v1) / (x2 - x1)) * (x - x1) + v1)))))).

(** linear_interpolators.go:95-151 *)
Record BiLinear := { b_xs : searcher; b_ys : searcher; b_vals : list R; b_nx : Z }.
Definition NewBiLinear (xs ys vals : list R) : option BiLinear :=
  bindo (s_init xs) (fun sx => bindo (s_init ys) (fun sy =>
  if Nat.eqb (List.length xs * List.length ys) (List.length vals) then
    Some {| b_xs := sx; b_ys := sy; b_vals := vals; b_nx := Z.of_nat (List.length xs) |}
  else None)).
Definition NewUniformBiLinear (x0 dx : R) (nx : Z) (y0 dy : R) (ny : Z) (vals : list R) : option BiLinear :=
  if (nx * ny =? Z.of_nat (List.length vals))%Z then
    Some {| b_xs := s_unifInit x0 dx nx; b_ys := s_unifInit y0 dy ny; b_vals := vals; b_nx := nx |}
  else None.

(** linear_interpolators.go:156-184 *)
Definition BiLinearEval (bi : BiLinear) (x y : R) : option R :=
  bindo (search (b_xs bi) x) (fun ix1 => bindo (search (b_ys bi) y) (fun iy1 =>
  let ix2 := (ix1 + 1)%Z in let iy2 := (iy1 + 1)%Z in
  let '(ix1, ix2) := if (ix2 =? s_n (b_xs bi))%Z then (ix1 - 1, ix2 - 1)%Z else (ix1, ix2) in
  let '(iy1, iy2) := if (iy2 =? s_n (b_ys bi))%Z then (iy1 - 1, iy2 - 1)%Z else (iy1, iy2) in
  bindo (s_val (b_xs bi) ix1) (fun x1 => bindo (s_val (b_xs bi) ix2) (fun x2 =>
  bindo (s_val (b_ys bi) iy1) (fun y1 => bindo (s_val (b_ys bi) iy2) (fun y2 =>
  bindo (at_ (b_vals bi) (ix1 + b_nx bi * iy1)%Z) (fun v11 => bindo (at_ (b_vals bi) (ix1 + b_nx bi * iy2)%Z) (fun v12 =>
  bindo (at_ (b_vals bi) (ix2 + b_nx bi * iy1)%Z) (fun v21 => bindo (at_ (b_vals bi) (ix2 + b_nx bi * iy2)%Z) (fun v22 =>
  let dx := x2 - x1 in let dy := y2 - y1 in
  let dx1 := x - x1 in let dx2 := x2 - x in
  let dy1 := y - y1 in let dy2 := y2 - y in
  Some ((v11 * dx2 * dy2 + v12 * dx2 * dy1 + v21 * dx1 * dy2 + v22 * dx1 * dy1) / (dx * dy)))))))))))).

(** linear_interpolators.go:225-287 *)
Record TriLinear := { t_xs : searcher; t_ys : searcher; t_zs : searcher; t_vals : list R; t_nx : Z; t_ny : Z }.
Definition NewTriLinear (xs ys zs vals : list R) : option TriLinear :=
  bindo (s_init xs) (fun sx => bindo (s_init ys) (fun sy => bindo (s_init zs) (fun sz =>
  if Nat.eqb (List.length xs * List.length ys * List.length zs) (List.length vals) then
    Some {| t_xs := sx; t_ys := sy; t_zs := sz; t_vals := vals; t_nx := Z.of_nat (List.length xs); t_ny := Z.of_nat (List.length ys) |}
  else None))).

(** linear_interpolators.go:263-287 *)
Definition NewUniformTriLinear (x0 dx : R) (nx : Z) (y0 dy : R) (ny : Z) (z0 dz : R) (nz : Z) (vals : list R) : option TriLinear :=
  if (nx * ny * nz =? Z.of_nat (List.length vals))%Z then
    Some {| t_xs := s_unifInit x0 dx nx; t_ys := s_unifInit y0 dy ny; t_zs := s_unifInit z0 dz nz; t_vals := vals; t_nx := nx; t_ny := ny |}
  else None.

(** linear_interpolators.go:289-323. Lines 292 and 308 use the y searcher for z, as here. *)
Definition TriLinearEval (t : TriLinear) (x y z : R) : option R :=
  bindo (search (t_xs t) x) (fun ix => bindo (search (t_ys t) y) (fun iy => bindo (search (t_ys t) z) (fun iz =>
  let diy := t_nx t in let diz := (t_nx t * t_ny t)%Z in
  let i := (ix + iy * t_nx t + iz * t_ny t * t_nx t)%Z in
  bindo (at_ (t_vals t) i) (fun v111 => bindo (at_ (t_vals t) (i + diz)%Z) (fun v112 =>
  bindo (at_ (t_vals t) (i + diy)%Z) (fun v121 => bindo (at_ (t_vals t) (i + diy + diz)%Z) (fun v122 =>
  bindo (at_ (t_vals t) (i + 1)%Z) (fun v211 => bindo (at_ (t_vals t) (i + 1 + diz)%Z) (fun v212 =>
  bindo (at_ (t_vals t) (i + 1 + diy)%Z) (fun v221 => bindo (at_ (t_vals t) (i + 1 + diy + diz)%Z) (fun v222 =>
  bindo (s_val (t_xs t) ix) (fun x1 => bindo (s_val (t_xs t) (ix + 1)%Z) (fun x2 =>
  bindo (s_val (t_ys t) iy) (fun y1 => bindo (s_val (t_ys t) (iy + 1)%Z) (fun y2 =>
  bindo (s_val (t_ys t) iz) (fun z1 => bindo (s_val (t_ys t) (iz + 1)%Z) (fun z2 =>
  let xd := (x - x1) / (x2 - x1) in let yd := (y - y1) / (y2 - y1) in let zd := (z - z1) / (z2 - z1) in
  let c11 := v111 * (1 - xd) + v211 * xd in
  let c21 := v121 * (1 - xd) + v221 * xd in
  let c12 := v112 * (1 - xd) + v212 * xd in
  let c22 := v122 * (1 - xd) + v222 * xd in
  let c1 := c11 * (1 - yd) + c21 * yd in
  let c2 := c12 * (1 - yd) + c22 * yd in
  Some (c1 * (1 - zd) + c2 * zd)))))))))))))))))).

(** ** spline.go *)

(** spline.go:281-289: forward sweep over rows i >= 1; a row is (a_i, b_i, c_{i-1}, r_i); result: (tmp_i, out_i). *)
Fixpoint triFwd (rows : list (R * R * R * R)) (beta prev : R) : option (list (R * R)) :=
  match rows with
  | [] => Some []
  | (a, b, c, r) :: rows' =>
      let tmp := c / beta in
      let beta' := b - a * tmp in
      if Reqb beta' 0 then None
      else let o := (r - a * prev) / beta' in
           option_map (cons (tmp, o)) (triFwd rows' beta' o)
  end.

(** spline.go:291-293: back substitution; the first argument is out[i], the list holds (tmp_k, out_k) for k > i. *)
Fixpoint triBack (o : R) (l : list (R * R)) : list R :=
  match l with
  | [] => [o]
  | (t, o') :: l' => let us := triBack o' l' in
                     (o - t * hd 0 us) :: us
  end.

Fixpoint zip4 (a b c r : list R) : list (R * R * R * R) :=
  match a, b, c, r with
  | x :: a', y :: b', z :: c', w :: r' => (x, y, z, w) :: zip4 a' b' c' r'
  | _, _, _, _ => []
  end.

(** spline.go:266-294 TriDiagAt (and 304-308 TriDiag): the contents of out. In the code out is a caller-supplied slice
    of the same length; its previous contents are not read. *)
Definition TriDiag (as_ bs cs rs : list R) : option (list R) :=
  if negb (Nat.eqb (List.length as_) (List.length bs) && Nat.eqb (List.length as_) (List.length cs) && Nat.eqb (List.length as_) (List.length rs)) then None
  else match bs, rs with
       | b0 :: bs', r0 :: rs' =>
           if Reqb b0 0 then None
           else let o0 := r0 / b0 in
                option_map (triBack o0) (triFwd (zip4 (tl as_) bs' cs rs') b0 o0)
       | _, _ => None
       end.

(** spline.go:10-24 *)
Record coeff := { ca : R; cb : R; cc : R; cd : R }.
Record Spline := { sp_xs : list R; sp_ys : list R; sp_y2s : list R; sp_coeffs : list coeff; sp_incr : bool; sp_dx : R }.

(** spline.go:56-70: the table must be sorted (ties are let through). *)
Fixpoint sortedTable (incr : bool) (xs : list R) : bool :=
  match xs with
  | a :: ((b :: _) as t) => negb (if incr then Rltb b a else Rltb a b) && sortedTable incr t
  | _ => true
  end.

(** spline.go:214-223: the rows of the tridiagonal system, over consecutive triples. *)
Fixpoint splineRows (xs ys : list R) : list (R * R * R * R) :=
  match xs, ys with
  | x0 :: ((x1 :: x2 :: _) as xs'), y0 :: ((y1 :: y2 :: _) as ys') =>
      ((x1 - x0) / 6, (x2 - x0) / 3, (x2 - x1) / 6,
       ((y2 - y1) / (x2 - x1)) - ((y1 - y0) / (x1 - x0))) :: splineRows xs' ys'
  | _, _ => []
  end.

(** spline.go:203-226 calcY2s *)
Definition calcY2s (xs ys : list R) : option (list R) :=
  let rows := splineRows xs ys in
  bindo (TriDiag (map (fun r => fst (fst (fst r))) rows) (map (fun r => snd (fst (fst r))) rows)
                 (map (fun r => snd (fst r)) rows) (map snd rows)) (fun u => Some (0 :: u ++ [0])).

(** spline.go:228-237 calcCoeffs *)
Fixpoint calcCoeffs (xs ys y2s : list R) : list coeff :=
  match xs, ys, y2s with
  | x0 :: ((x1 :: _) as xs'), y0 :: ((y1 :: _) as ys'), d0 :: ((d1 :: _) as ds') =>
      let dx := x1 - x0 in
      {| ca := (- d0 / 6 + d1 / 6) / dx; cb := d0 / 2; cc := (y1 - y0) / dx + dx * (- d0 / 3 - d1 / 6); cd := y0 |}
      :: calcCoeffs xs' ys' ds'
  | _, _, _ => []
  end.

(** spline.go:28-75 NewSpline / Init *)
Definition NewSpline (xs ys : list R) : option Spline :=
  if negb (Nat.eqb (List.length xs) (List.length ys)) then None
  else match xs with
       | x0 :: x1 :: _ =>
           let incr := Rltb x0 x1 in
           if sortedTable incr xs then
             bindo (calcY2s xs ys) (fun y2s =>
             Some {| sp_xs := xs; sp_ys := ys; sp_y2s := y2s; sp_coeffs := calcCoeffs xs ys y2s; sp_incr := incr;
                     sp_dx := (last xs 0 - x0) / IZR (Z.of_nat (List.length xs) - 1) |})
           else None
       | _ => None
       end.

(** spline.go:173-199 bsearch with the guess as a parameter (the check at line 194 never fires). *)
Definition bsearchGuess (guess : Z) (s : Spline) (x : R) : option Z :=
  bindo (goodGuess (sp_xs s) (sp_incr s) x guess) (fun ok =>
  if ok then Some guess
  else bindo (bloop (S (List.length (sp_xs s))) (sp_xs s) (sp_incr s) x 0 (Z.of_nat (List.length (sp_xs s)) - 1)) (fun lo =>
       if (lo =? Z.of_nat (List.length (sp_xs s)) - 1)%Z then None else Some lo)).
Definition bsearch (s : Spline) (x : R) : option Z :=
  bindo (at_ (sp_xs s) 0) (fun a => bsearchGuess (Rtrunc ((x - a) / sp_dx s)) s x).

Definition poly (c : coeff) (order : nat) (dx : R) : R :=
  match order with
  | 0%nat => ca c * dx * dx * dx + cb c * dx * dx + cc c * dx + cd c
  | 1%nat => 3 * ca c * dx * dx + 2 * cb c * dx + cc c
  | 2%nat => 6 * ca c * dx + 2 * cb c
  | 3%nat => 6 * ca c
  | _ => 0
  end.

(** spline.go:80-97 Eval *)
Definition SplineEval (s : Spline) (x : R) : option R :=
  let n := Z.of_nat (List.length (sp_xs s)) in
  bindo (at_ (sp_xs s) 0) (fun a => bindo (at_ (sp_xs s) (n - 1)) (fun b =>
  if Bool.eqb (Rleb x a) (sp_incr s) || Bool.eqb (Rleb b x) (sp_incr s) then
    if Reqb x a then at_ (sp_ys s) 0
    else if Reqb x b then at_ (sp_ys s) (Z.of_nat (List.length (sp_ys s)) - 1)
    else None
  else
    bindo (bsearch s x) (fun i => bindo (at_ (sp_xs s) i) (fun xi => bindo (at_ (sp_coeffs s) i) (fun c =>
    Some (poly c 0 (x - xi))))))).

(** spline.go:116-137 Deriv *)
Definition SplineDeriv (s : Spline) (x : R) (order : nat) : option R :=
  let n := Z.of_nat (List.length (sp_xs s)) in
  bindo (at_ (sp_xs s) 0) (fun a => bindo (at_ (sp_xs s) (n - 1)) (fun b =>
  if Bool.eqb (Rltb x a) (sp_incr s) || Bool.eqb (Rltb b x) (sp_incr s) then None
  else
    bindo (bsearch s x) (fun i => bindo (at_ (sp_xs s) i) (fun xi => bindo (at_ (sp_coeffs s) i) (fun c =>
    Some (poly c order (x - xi))))))).

(** spline.go:165-169 integTerm *)
Definition integTerm (c : coeff) (lo hi : R) : R :=
  let dx := hi - lo in
  ca c * dx * dx * dx * dx / 4 + cb c * dx * dx * dx / 3 + cc c * dx * dx / 2 + cd c * dx.

(** spline.go:159-161: segments i, i+1, ... (k of them). *)
Fixpoint integMid (s : Spline) (k : nat) (i : Z) : option R :=
  match k with
  | O => Some 0
  | S k' => bindo (at_ (sp_coeffs s) i) (fun c => bindo (at_ (sp_xs s) i) (fun a => bindo (at_ (sp_xs s) (i + 1)) (fun b =>
            bindo (integMid s k' (i + 1)) (fun rest => Some (integTerm c a b + rest)))))
  end.

(** spline.go:144-162: Integrate for lo <= hi. *)
Definition integrateUp (s : Spline) (lo hi : R) : option R :=
  let n := Z.of_nat (List.length (sp_xs s)) in
  bindo (at_ (sp_xs s) 0) (fun a => bindo (at_ (sp_xs s) (n - 1)) (fun b =>
  if Bool.eqb (Rltb lo a) (sp_incr s) || Bool.eqb (Rltb b lo) (sp_incr s) then None
  else if Bool.eqb (Rltb hi a) (sp_incr s) || Bool.eqb (Rltb b hi) (sp_incr s) then None
  else
    bindo (bsearch s lo) (fun iLo => bindo (bsearch s hi) (fun iHi =>
    bindo (at_ (sp_coeffs s) iLo) (fun cLo =>
    if (iLo =? iHi)%Z then Some (integTerm cLo lo hi)
    else bindo (at_ (sp_coeffs s) iHi) (fun cHi => bindo (at_ (sp_xs s) (iLo + 1)) (fun xLo1 => bindo (at_ (sp_xs s) iHi) (fun xHi =>
         bindo (integMid s (Z.to_nat (iHi - (iLo + 1))) (iLo + 1)) (fun mid =>
         Some (integTerm cLo lo xLo1 + integTerm cHi xHi hi + mid)))))))))).

(** spline.go:140-163 Integrate *)
Definition SplineIntegrate (s : Spline) (lo hi : R) : option R :=
  if Rltb hi lo then option_map Ropp (integrateUp s hi lo) else integrateUp s lo hi.

(** ** cubic_interpolators.go *)

(** Evaluate a list of splines at one point; None = some evaluation panics. *)
Fixpoint evalSplines (ss : list Spline) (x : R) : option (list R) :=
  match ss with
  | [] => Some []
  | s :: ss' => bindo (SplineEval s x) (fun v => bindo (evalSplines ss' x) (fun vs => Some (v :: vs)))
  end.

Fixpoint sequence {A} (l : list (option A)) : option (list A) :=
  match l with
  | [] => Some []
  | o :: l' => bindo o (fun a => bindo (sequence l') (fun r => Some (a :: r)))
  end.

(** cubic_interpolators.go:11-20 *)
Record BiCubic := { bc_xs : list R; bc_ySplines : list Spline; bc_lastY : R; bc_xSpline : Spline }.

(** cubic_interpolators.go:22-39, 71-90 (vals(ix,iy) = vals[nx*iy+ix]). *)
Definition NewBiCubic (xs ys vals : list R) : option BiCubic :=
  if negb (Nat.eqb (List.length xs * List.length ys) (List.length vals)) then None
  else
    bindo (sequence (map (fun xi =>
      bindo (sequence (map (fun yi => nth_error vals (List.length xs * yi + xi)) (seq 0 (List.length ys)))) (NewSpline ys))
      (seq 0 (List.length xs)))) (fun ySplines =>
    bindo (nth_error ys 0) (fun y0 =>
    bindo (evalSplines ySplines y0) (fun xv =>
    bindo (NewSpline xs xv) (fun xSpline =>
    Some {| bc_xs := xs; bc_ySplines := ySplines; bc_lastY := y0; bc_xSpline := xSpline |})))).

(** cubic_interpolators.go:41-69: the grid is spelled out, then the same initialisation. *)
Definition NewUniformBiCubic (x0 dx : R) (nx : nat) (y0 dy : R) (ny : nat) (vals : list R) : option BiCubic :=
  NewBiCubic (map (fun i => x0 + IZR (Z.of_nat i) * dx) (seq 0 nx)) (map (fun i => y0 + IZR (Z.of_nat i) * dy) (seq 0 ny)) vals.

(** cubic_interpolators.go:92-103 Eval, with its cache: the result and the interpolator afterwards.
    lastY is assigned before the evaluations that may panic, as in the code; a panic is the second component None.
    Simplified: Init on the existing xSpline is NewSpline (Init overwrites every field); after a panic part-way through
    the loop xSplineVals, which xSpline aliases, may be partly overwritten, which the model does not show. *)
Definition BiCubicEval (bi : BiCubic) (x y : R) : BiCubic * option R :=
  if Reqb y (bc_lastY bi) then (bi, SplineEval (bc_xSpline bi) x)
  else
    let bi1 := {| bc_xs := bc_xs bi; bc_ySplines := bc_ySplines bi; bc_lastY := y; bc_xSpline := bc_xSpline bi |} in
    match bindo (evalSplines (bc_ySplines bi) y) (NewSpline (bc_xs bi)) with
    | None => (bi1, None)
    | Some sx => ({| bc_xs := bc_xs bi; bc_ySplines := bc_ySplines bi; bc_lastY := y; bc_xSpline := sx |}, SplineEval sx x)
    end.

(** cubic_interpolators.go:138-149; zSplines[yi*nx+xi] is kept as rows tc_zSplines[xi][yi]. *)
Record TriCubic := { tc_xs : list R; tc_ys : list R; tc_zSplines : list (list Spline); tc_lastY : R; tc_lastZ : R;
                     tc_ySplines : list Spline; tc_xSpline : Spline }.

(** cubic_interpolators.go:231-238 and 257-265: the splines along y at one z. *)
Definition ySplinesAt (ys : list R) (zS : list (list Spline)) (z : R) : option (list Spline) :=
  sequence (map (fun row => bindo (evalSplines row z) (NewSpline ys)) zS).
(** cubic_interpolators.go:244-249 and 270-275. *)
Definition xSplineAt (xs : list R) (yS : list Spline) (y : R) : option Spline := bindo (evalSplines yS y) (NewSpline xs).

(** cubic_interpolators.go:151-169, 209-250 *)
Definition NewTriCubic (xs ys zs vals : list R) : option TriCubic :=
  let nx := List.length xs in let ny := List.length ys in
  if negb (Nat.eqb (nx * ny * List.length zs) (List.length vals)) then None
  else
    bindo (sequence (map (fun xi => sequence (map (fun yi =>
      bindo (sequence (map (fun zi => nth_error vals (nx * ny * zi + nx * yi + xi)) (seq 0 (List.length zs)))) (NewSpline zs))
      (seq 0 ny))) (seq 0 nx))) (fun zS =>
    bindo (nth_error zs 0) (fun z0 =>
    bindo (ySplinesAt ys zS z0) (fun yS =>
    bindo (nth_error ys 0) (fun y0 =>
    bindo (xSplineAt xs yS y0) (fun sx =>
    Some {| tc_xs := xs; tc_ys := ys; tc_zSplines := zS; tc_lastY := y0; tc_lastZ := z0; tc_ySplines := yS; tc_xSpline := sx |}))))).

(** cubic_interpolators.go:252-279 Eval with its two-level cache; same simplifications as BiCubicEval. *)
Definition TriCubicEval (t : TriCubic) (x y z : R) : TriCubic * option R :=
  if Reqb y (tc_lastY t) && Reqb z (tc_lastZ t) then (t, SplineEval (tc_xSpline t) x)
  else
    let t1 := {| tc_xs := tc_xs t; tc_ys := tc_ys t; tc_zSplines := tc_zSplines t; tc_lastY := tc_lastY t; tc_lastZ := z;
                 tc_ySplines := tc_ySplines t; tc_xSpline := tc_xSpline t |} in
    match (if Reqb z (tc_lastZ t) then Some (tc_ySplines t) else ySplinesAt (tc_ys t) (tc_zSplines t) z) with
    | None => (t1, None)
    | Some yS =>
        let t2 := {| tc_xs := tc_xs t; tc_ys := tc_ys t; tc_zSplines := tc_zSplines t; tc_lastY := y; tc_lastZ := z;
                     tc_ySplines := yS; tc_xSpline := tc_xSpline t |} in
        match xSplineAt (tc_xs t) yS y with
        | None => (t2, None)
        | Some sx => ({| tc_xs := tc_xs t; tc_ys := tc_ys t; tc_zSplines := tc_zSplines t; tc_lastY := y; tc_lastZ := z;
                         tc_ySplines := yS; tc_xSpline := sx |}, SplineEval sx x)
        end
    end.
