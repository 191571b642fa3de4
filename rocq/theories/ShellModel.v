(** * Penna-Dines shells and Monte Carlo shell statistics (no proofs in this file).

    los/analyze/penna.go, los/analyze/shell.go, cmd/stats.go. Floats are reals (RealBase.v). The angles drawn by
    randomAngle (shell.go:21-24) are an argument: the list of (phi, theta) in the order they are drawn. *)
From Verif Require Export RealBase LoopBase.
Local Open Scope R_scope.

(** cmd/stats.go:424-434 findOrder, on the length n of the coefficient list: i counts up from 1 until 2*i*i reaches n. The
    fuel only makes the definition structural: the loop ends after at most n + 1 rounds. *)
Fixpoint find_order_loop (fuel i n : nat) : res nat :=
  match fuel with
  | O => Panic
  | S fuel' => if (2 * i * i =? n)%nat then Ok i
               else if (n <? 2 * i * i)%nat then Panic
               else find_order_loop fuel' (i + 1) n
  end.
Definition find_order (coeffs : list R) : res nat := find_order_loop (S (List.length coeffs)) 1 (List.length coeffs).

(** Shell (shell.go:18). *)
Definition Shell := R -> R -> R.

(** shell.go:27-31 cartesian. *)
Definition cartesian (phi theta r : R) : R * R * R := (r * sin theta * cos phi, r * sin theta * sin phi, r * cos theta).

(** penna.go:62-82 PennaFunc: the returned function at (phi, th); None: cs[idx] out of range. math.Pow with an integer
    exponent is [pow] (in particular Pow(0, 0) = 1). *)
Definition penna_func (cs : list R) (I J K : nat) (phi th : R) : option R :=
  let sinPhi := sin phi in let cosPhi := cos phi in let sinTh := sin th in let cosTh := cos th in
  do st <- loop K (fun k st =>
    let cosK := cosTh ^ k in
    loop J (fun j st =>
      let sinJ := sinPhi ^ j in
      loop I (fun i st =>
        let cosI := cosPhi ^ i in
        let sinIJ := sinTh ^ (i + j) in
        let '(idx, sum) := st in
        do c <- rd cs idx; Some (S idx, sum + c * sinIJ * cosK * sinJ * cosI)) st) st) (O, 0);
  Some (snd st).

(** penna.go:25-31: rs, cosths, sinths, cosphis, sinphis of one point. *)
Record trig := { t_r : R; t_costh : R; t_sinth : R; t_cosphi : R; t_sinphi : R }.
Definition penna_trig (p : R * R * R) : trig :=
  let '(x, y, z) := p in
  let r := sqrt (x * x + y * y + z * z) in
  let costh := z / r in
  let sinth := sqrt (1 - costh * costh) in
  {| t_r := r; t_costh := costh; t_sinth := sinth; t_cosphi := x / r / sinth; t_sinphi := y / r / sinth |}.

(** penna.go:33-53: the matrix M (I*J*K rows, one column per point), filled column by column. *)
Definition penna_matrix (ps : list (R * R * R)) (I J K : nat) : option (list R) :=
  let N := List.length ps in
  let ts := map penna_trig ps in
  loop N (fun n MVals =>
    do t <- rd ts n;
    do st <- loop K (fun k st =>
      let costh := t_costh t ^ k in
      loop J (fun j st =>
        let sinphi := t_sinphi t ^ j in
        let '(m, MVals) := st in
        do st3 <- loop I (fun i st3 =>
          let '(m, cosphi, MVals) := st3 in
          do MVals' <- wr MVals (m * N + n) (t_sinth t ^ (i + j) * cosphi * costh * sinphi);
          Some (S m, cosphi * t_cosphi t, MVals')) (m, 1, MVals);
        let '(m', _, MVals') := st3 in Some (m', MVals')) st) (O, MVals);
    Some (snd st)) (repeat 0 (I * J * K * N)).

(** math.Atan2. *)
Definition atan2 (y x : R) : R :=
  if Rltb 0 x then atan (y / x)
  else if Rltb x 0 then (if Rleb 0 y then atan (y / x) + PI else atan (y / x) - PI)
  else if Rltb 0 y then PI / 2 else if Rltb y 0 then - PI / 2 else 0.

(** shell.go:349-354 Contains. *)
Definition contains (s : Shell) (x y z : R) : bool :=
  let r := sqrt (x * x + y * y + z * z) in
  Rltb r (s (atan2 y x) (acos (z / r))).

(** shell.go:58-67 Volume. *)
Definition volume (s : Shell) (angles : list (R * R)) : R :=
  let sum := fold_left (fun sum a => let r := s (fst a) (snd a) in sum + r * r * r) angles 0 in
  let r3 := sum / INR (List.length angles) in
  r3 * 4 * (PI / 3).

(** cmd/stats.go:269: the splashback radius reported for a volume. *)
Definition volume_radius (vol : R) : R := Rpower (vol / (PI * 4 / 3)) (33333 / 100000).

(** shell.go:70-78 MeanRadius. *)
Definition mean_radius (s : Shell) (angles : list (R * R)) : R :=
  fold_left (fun sum a => sum + s (fst a) (snd a)) angles 0 / INR (List.length angles).

(** shell.go:92-108 trisort. *)
Definition trisort (x y z : R) : R * R * R * nat :=
  let '(a, p, q, i) :=
    if Rltb y x && Rltb z x then (x, y, z, 0%nat)
    else if Rltb x y && Rltb z y then (y, z, x, 1%nat)
    else (z, x, y, 2%nat) in
  if Rltb q p then (a, p, q, i) else (a, q, p, i).

(** shell.go:229-239 DiffVolume. *)
Definition diff_volume (s1 s2 : Shell) (angles : list (R * R)) : R :=
  let sum := fold_left (fun sum a =>
    let r1 := s1 (fst a) (snd a) in let r2 := s2 (fst a) (snd a) in
    let r := (r1 + r2) / 2 in let dr := Rabs (r1 - r2) in sum + dr * r * r) angles 0 in
  sum / INR (List.length angles) * (4 * PI) / 3.

(** shell.go:243-254 MaxDiff. *)
Definition max_diff (s1 s2 : Shell) (angles : list (R * R)) : R :=
  fold_left (fun max a => let dr := Rabs (s1 (fst a) (snd a) - s2 (fst a) (snd a)) in if Rltb max dr then dr else max) angles 0.

(** shell.go:257-272 RadialRange: a0 is the first angle drawn. *)
Definition radial_range (s : Shell) (a0 : R * R) (angles : list (R * R)) : R * R :=
  let low := s (fst a0) (snd a0) in
  fold_left (fun lh a => let r := s (fst a) (snd a) in
    let high := if Rltb (snd lh) r then r else snd lh in
    let low := if Rltb r (fst lh) then r else fst lh in (low, high)) angles (low, low).

(** shell.go:312-345 AngularFractionProfile; the samples are the values math.Log(s(phi, theta)). None: out of range
    index. *)
Definition angular_fraction (lrs : list R) (bins : nat) (lrMin lrMax : R) : option (list R) :=
  let dlr := (lrMax - lrMin) / INR bins in
  do ns <- fold_left (fun acc lr => do ns <- acc;
      let lri := Rtrunc ((lr - lrMin) / dlr) in
      if (lri <? 0)%Z || (Z.of_nat bins <=? lri)%Z then Some ns
      else (do v <- rd ns (Z.to_nat lri); wr ns (Z.to_nat lri) (S v))) lrs (Some (repeat O bins));
  do ns <- loop_down (bins - 1) (fun i ns => do a <- rd ns i; do b <- rd ns (i + 1); wr ns i (a + b)%nat) ns;
  match ns with [] => Some [] | n0 :: _ => Some (map (fun n => INR n / INR n0) ns) end.

(** cmd/stats.go:534-539, massContainedChan: the test on a particle at displacement (x, y, z) (after wrap). *)
Definition mass_inside (s : Shell) (rLow rHigh x y z : R) : bool :=
  let low2 := rLow * rLow in let high2 := rHigh * rHigh in
  let r2 := x * x + y * y + z * z in
  Rltb r2 low2 || (Rltb r2 high2 && contains s x y z).

(** cmd/stats.go:556-593, appendShellParticlesChan: the test on a particle; R is sphere.R. *)
Definition shell_keep (s : Shell) (R rLow rHigh shellWidth x y z : R) : bool :=
  let delta := if Rltb shellWidth 0 then 0 else R * shellWidth in
  let rLow := rLow - delta in let rHigh := rHigh + delta in
  let low2 := rLow * rLow in let high2 := rHigh * rHigh in
  let r2 := x * x + y * y + z * z in
  if Rltb shellWidth 0 then
    if Rltb r2 high2 then let r := sqrt r2 in Rltb r (s (atan2 y x) (acos (z / r))) else false
  else if Rltb low2 r2 && Rltb r2 high2 then
    let r := sqrt r2 in let rs := s (atan2 y x) (acos (z / r)) in
    Rltb r (rs + delta) && Rltb (rs - delta) r
  else false.
