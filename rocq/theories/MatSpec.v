(** * Linear algebra vocabulary for C18 and C19 (independent of the model's algorithms). *)
From Verif Require Import RealBase MatModel.
Local Open Scope R_scope.

(** sum_{i<n} f i *)
Fixpoint sumf (n : nat) (f : nat -> R) : R := match n with O => 0 | S k => sumf k f + f k end.

(** A matrix value that NewMatrix accepts: positive sizes and width * height values. *)
Definition shaped (m : matrix) (h w : nat) : Prop :=
  height m = h /\ width m = w /\ List.length (vals m) = (h * w)%nat /\ h <> O /\ w <> O.

(** Row i, column j (row-major storage). *)
Definition entry (m : matrix) (i j : nat) : R := nth (i * width m + j) (vals m) 0.

Definition vec (v : list R) (i : nat) : R := nth i v 0.

(** C = A B *)
Definition is_product (a b c : matrix) (h p w : nat) : Prop :=
  shaped c h w /\ forall i j, (i < h)%nat -> (j < w)%nat -> entry c i j = sumf p (fun k => entry a i k * entry b k j).

Definition is_transpose (a b : matrix) (h w : nat) : Prop :=
  shaped b w h /\ forall i j, (i < h)%nat -> (j < w)%nat -> entry b j i = entry a i j.

(** A x = b *)
Definition solves (a : matrix) (x b : list R) (n : nat) : Prop :=
  List.length x = n /\ forall i, (i < n)%nat -> sumf n (fun j => entry a i j * vec x j) = vec b i.

(** Identity matrix entries. *)
Definition delta (i j : nat) : R := if (i =? j)%nat then 1 else 0.

(** The determinant, by Laplace expansion along the first column. [drop i k] is the k-th row index once row i is removed. *)
Definition drop (i k : nat) : nat := if (k <? i)%nat then k else S k.
Fixpoint det (n : nat) (M : nat -> nat -> R) : R :=
  match n with
  | O => 1
  | S k => sumf n (fun i => (-1) ^ i * M i O * det k (fun r c => M (drop i r) (S c)))
  end.

(** Row i, column j of the stored factors; no row interchange happened. *)
Definition luEntry (f : luFactors) (i j : nat) : R := nth (i * lu_n f + j) (lu_vals f) 0.
Definition noSwap (f : luFactors) : Prop := forall k, (k < lu_n f)%nat -> nth_error (lu_pivot f) k = Some k.
