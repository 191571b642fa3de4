(** * The Penna-Dines fit (no proofs in this file).

    los/analyze/penna.go:12-58, 84-108, 167-194. Floats are reals (RealBase.v); None is a panic. gonum's mat64 is a library: Mul is the
    matrix product, and Inverse is the argument [inverse] (a function from the size and the row-major entries of a square matrix to the
    entries the receiver holds afterwards); the error Inverse returns is dropped by the code (penna.go:184), as here. *)
From Verif Require Export MatModel ShellModel LosModel.
Local Open Scope R_scope.

(** mat64.Dense.Mul of an h x p and a p x w matrix, row-major. *)
Definition dense_mul (h p w : nat) (a b : list R) : list R :=
  map (fun e => fold_left (fun acc q => acc + nth ((e / w) * p + q) a 0 * nth (q * w + e mod w) b 0) (seq 0 p) 0) (seq 0 (h * w)).

(** penna.go:170-194 pinv. *)
Definition pinv (inverse : nat -> list R -> list R) (m t : matrix) : option matrix :=
  let out1 := dense_mul (height m) (width m) (height m) (vals m) (vals t) in
  let inv := inverse (height m) out1 in
  let out2 := dense_mul (width m) (height m) (height m) (vals t) inv in
  do vs <- loop (width m) (fun y vs =>
    loop (height m) (fun x vs =>
      do v <- rd out2 (y * height m + x)%nat;
      wr vs (y * height m + x)%nat v) vs) (zeros (width m * height m));
  newMatrix vs (height m) (width m).

(** penna.go:14-58 PennaCoeffs. B is mat.go's transposeRecWidth (see MatModel.v). The divisions of lines 27-30 by zero (a point at the
    origin or on the z axis) are unspecified here and NaN in the code. *)
Definition penna_coeffs (B : nat) (inverse : nat -> list R -> list R) (ps : list (R * R * R)) (I J K : nat) : option (list R) :=
  let rs := map (fun p => t_r (penna_trig p)) ps in
  do M0 <- newMatrix (repeat 0 (I * J * K * List.length ps)) (List.length rs) (I * J * K);
  do MVals <- penna_matrix ps I J K;
  let M := {| vals := MVals; width := width M0; height := height M0 |} in
  do T <- transpose B M;
  do p <- pinv inverse M T;
  vecMult rs p (zeros (I * J * K)).

(** penna.go:97-104: the points of every plane, ring by ring, in the volume. Simplified: the preallocated fXs, fYs, fZs are one list. *)
Definition volume_points (xs ys : list (list R)) (h : Halo) : option (list (R * R * R)) :=
  loop (List.length xs) (fun i out =>
    do xi <- rd xs i;
    loop (List.length xi) (fun j out =>
      do x <- rd xi j; do yi <- rd ys i; do y <- rd yi j;
      do p <- plane_to_volume h i x y;
      Some (out ++ [p])) out) [].

(** penna.go:88-108 PennaVolumeFit: the coefficients; the shell is PennaFunc of these. *)
Definition penna_volume_fit (B : nat) (inverse : nat -> list R -> list R) (xs ys : list (list R)) (h : Halo) (I J : nat) : option (list R) :=
  do ps <- volume_points xs ys h;
  penna_coeffs B inverse ps I J 2.
