(** * Model of math/sort (no proofs).

    [A] stands for float64 and [lt] for the comparison <; the theorems assume that the values compared are totally
    (pre)ordered, i.e. there is no NaN. A slice is a list; None = index out of range or a loop that does not end
    (fuel exhausted), so a theorem concluding [Some _] shows that neither happens. *)
From Verif Require Import GoBase.
Local Open Scope list_scope.

Section Sort.
Variable A : Type.
Variable lt : A -> A -> bool.

Definition bindo {X Y} (o : option X) (f : X -> option Y) : option Y := match o with Some x => f x | None => None end.

(** xs[i], xs[j] = xs[j], xs[i] *)
Definition swap (xs : list A) (i j : nat) : option (list A) :=
  bindo (nth_error xs i) (fun a => bindo (nth_error xs j) (fun b =>
  bindo (upd xs i b) (fun xs1 => upd xs1 j a))).

(** sort.go:7-13 Reverse; k = n2 - i iterations left. *)
Fixpoint reverseLoop (k i : nat) (xs : list A) : option (list A) :=
  match k with
  | O => Some xs
  | S k' => bindo (swap xs i (List.length xs - 1 - i)) (reverseLoop k' (S i))
  end.
Definition Reverse (xs : list A) : option (list A) := reverseLoop (Nat.div (List.length xs) 2) 0 xs.

(** quick.go:8-30 sort3 *)
Definition sort3 (x y z : A) : A * A * A :=
  if lt y x then
    if lt z x then
      if lt z y then (x, y, z) else (x, z, y)
    else (z, x, y)
  else
    if lt z y then
      if lt z x then (y, x, z) else (y, z, x)
    else (z, y, x).

(** shell.go:11-14: 1, 4, 13, ... up to the first value above n (fuel: n+1 steps suffice). *)
Fixpoint firstInc (fuel inc n : nat) : nat :=
  match fuel with
  | O => inc
  | S f => if inc <=? n then firstInc f (inc * 3 + 1) n else inc
  end.

(** shell.go:21-27: the inner loop; at its head j >= inc. *)
Fixpoint shift (fuel : nat) (xs : list A) (v : A) (inc j : nat) : option (list A * nat) :=
  match fuel with
  | O => None
  | S f =>
      bindo (nth_error xs (j - inc)) (fun a =>
      if lt v a then
        bindo (upd xs j a) (fun xs1 =>
        if j - inc <? inc then Some (xs1, j - inc) else shift f xs1 v inc (j - inc))
      else Some (xs, j))
  end.

(** shell.go:18-29: one pass, from i, k positions left. *)
Fixpoint shellPass (k : nat) (xs : list A) (inc i : nat) : option (list A) :=
  match k with
  | O => Some xs
  | S k' =>
      bindo (nth_error xs i) (fun v =>
      bindo (shift (S i) xs v inc i) (fun r =>
      bindo (upd (fst r) (snd r) v) (fun xs1 =>
      shellPass k' xs1 inc (S i))))
  end.

(** shell.go:16-30: the loop over increments. *)
Fixpoint shellLoop (fuel : nat) (xs : list A) (inc : nat) : option (list A) :=
  match fuel with
  | O => None
  | S f => if 1 <? inc then
             let inc' := Nat.div inc 3 in
             bindo (shellPass (List.length xs - inc') xs inc' inc') (fun xs1 => shellLoop f xs1 inc')
           else Some xs
  end.

(** shell.go:5-32 Shell *)
Definition Shell (xs : list A) : option (list A) :=
  let n := List.length xs in
  if Nat.eqb n 1 then Some xs
  else let inc := firstInc (S n) 1 n in shellLoop (S inc) xs inc.

(** quick.go:61-63 *)
Fixpoint scanUp (fuel : nat) (xs : list A) (mid : A) (lo : nat) : option nat :=
  match fuel with
  | O => None
  | S f => bindo (nth_error xs lo) (fun a => if lt a mid then scanUp f xs mid (S lo) else Some lo)
  end.

(** quick.go:65-67; below index 0 the read is out of range. *)
Fixpoint scanDown (xs : list A) (mid : A) (hi : nat) : option nat :=
  bindo (nth_error xs hi) (fun a =>
  if lt mid a then match hi with O => None | S h => scanDown xs mid h end else Some hi).

(** quick.go:59-72 *)
Fixpoint partLoop (fuel : nat) (xs : list A) (mid : A) (lo hi : nat) : option (list A * nat) :=
  match fuel with
  | O => None
  | S f =>
      bindo (scanUp (S (List.length xs)) xs mid (S lo)) (fun lo1 =>
      match hi with
      | O => None
      | S h =>
          bindo (scanDown xs mid h) (fun hi1 =>
          if hi1 <? lo1 then Some (xs, hi1)
          else bindo (swap xs lo1 hi1) (fun xs1 => partLoop f xs1 mid lo1 hi1))
      end)
  end.

(** quick.go:50-78 partition *)
Definition partition (xs : list A) : option (list A * nat) :=
  let n := List.length xs in
  let n2 := Nat.div n 2 in
  bindo (nth_error xs 0) (fun x0 => bindo (nth_error xs n2) (fun x2 => bindo (nth_error xs (n - 1)) (fun xn =>
  let '(max, mid, min) := sort3 x0 x2 xn in
  bindo (upd xs 0 min) (fun xs => bindo (upd xs n2 mid) (fun xs => bindo (upd xs (n - 1) max) (fun xs =>
  bindo (swap xs 1 n2) (fun xs =>
  bindo (partLoop (S n) xs mid 1 (n - 1)) (fun r =>
  bindo (swap (fst r) 1 (snd r)) (fun xs => Some (xs, snd r)))))))))).

(** quick.go:36-45 Quick; the two recursive calls work in place on the two sub-slices. *)
Definition manualLen : nat := 25.
Fixpoint quick (fuel : nat) (xs : list A) : option (list A) :=
  match fuel with
  | O => None
  | S f =>
      if List.length xs <? manualLen then Shell xs
      else bindo (partition xs) (fun r =>
           bindo (quick f (firstn (snd r) (fst r))) (fun l =>
           bindo (quick f (skipn (snd r) (fst r))) (fun h => Some (l ++ h))))
  end.
Definition Quick (xs : list A) : option (list A) := quick (S (List.length xs)) xs.

(** median.go:67-104 nthLargest: the value and the scrambled slice. *)
Fixpoint nthLargest (fuel : nat) (xs : list A) (n : Z) : option (A * list A) :=
  match fuel with
  | O => None
  | S f =>
      match xs with
      | [x] => Some (x, xs)
      | [x; y] =>
          let xs := if lt y x then [y; x] else [x; y] in
          if (n <=? 2)%Z then
            if (2 - n <? 0)%Z then None
            else bindo (nth_error xs (Z.to_nat (2 - n))) (fun v => Some (v, xs))
          else None
      | [x; y; z] =>
          let '(high, mid, low) := sort3 x y z in
          if (n =? 1)%Z then Some (high, xs) else if (n =? 2)%Z then Some (mid, xs)
          else if (n =? 3)%Z then Some (low, xs) else None
      | _ =>
          bindo (partition xs) (fun r =>
          let '(ys, pivIdx) := r in
          let nPiv := (Z.of_nat (List.length ys) - Z.of_nat pivIdx)%Z in
          if (n <? nPiv)%Z then
            bindo (nthLargest f (skipn pivIdx ys) n) (fun q => Some (fst q, firstn pivIdx ys ++ snd q))
          else if (nPiv <? n)%Z then
            bindo (nthLargest f (firstn pivIdx ys) (n - nPiv)) (fun q => Some (fst q, snd q ++ skipn pivIdx ys))
          else bindo (nth_error ys pivIdx) (fun v => Some (v, ys)))
      end
  end.

(** median.go:42-61 NthLargest: value and final contents of the scratch slice; None = panic.
    [buf] is the optional buffer. copy(medSlice, xs) makes the scratch slice equal to xs. *)
Definition NthLargest (xs : list A) (n : Z) (buf : option (list A)) : option (A * list A) :=
  match xs with
  | [] => None
  | _ => match buf with
         | Some b => if Nat.eqb (List.length b) (List.length xs) then nthLargest (S (List.length xs)) xs n else None
         | None => nthLargest (S (List.length xs)) xs n
         end
  end.

(** median.go:27-33 Median *)
Definition Median (xs : list A) (buf : option (list A)) : option (A * list A) :=
  match xs with [] => None | _ => NthLargest xs (Z.of_nat (Nat.div (List.length xs) 2)) buf end.

(** median.go:8-22 Percentile for p = num/den (den > 0). Simplification: p * len is computed exactly and truncated,
    where the code rounds the product to a float64 first. *)
Definition Percentile (xs : list A) (num den : Z) (buf : option (list A)) : option (A * list A) :=
  match xs with
  | [] => None
  | _ => if (den <? num)%Z || (num <? 0)%Z then None
         else let n := Z.quot (num * Z.of_nat (List.length xs)) den in
              NthLargest xs (if (n =? 0)%Z then 1 else n)%Z buf
  end.
End Sort.
