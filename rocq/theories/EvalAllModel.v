(** * Batch evaluation of the interpolators: the EvalAll methods of math/interpolate (no proofs in this file).

    linear_interpolators.go:61-69, 191-199, 325-333, cubic_interpolators.go:105-113, 281-289, spline.go:100-110: the same loop six times.
    float64 slices are windows of one memory, so that the output may overlap the inputs. None = panic. *)
From Verif Require Import RealBase LoopBase InterpModel.
From Coq Require Import Reals List.
Import List ListNotations.

(** A slice: the index of its first element in the memory, and its length. *)
Record window := Win { w_off : nat; w_len : nat }.
Definition get (mem : list R) (s : window) (i : nat) : option R := if (i <? w_len s)%nat then rd mem (w_off s + i) else None.
Definition put (mem : list R) (s : window) (i : nat) (v : R) : option (list R) := if (i <? w_len s)%nat then wr mem (w_off s + i) v else None.

Section Loop.
Context {St : Type}.
(** The interpolator's Eval on the values xs[i] (and ys[i], zs[i]): the interpolator afterwards and the result. *)
Variable eval : St -> list R -> St * option R.

Fixpoint gets (mem : list R) (ins : list window) (i : nat) : option (list R) :=
  match ins with
  | [] => Some []
  | s :: rest => do x <- get mem s i; do xs <- gets mem rest i; Some (x :: xs)
  end.
(** out[0][i] = Eval(xs[i], ...) *)
Definition eval_step (ins : list window) (out : window) (i : nat) (st : St * list R) : option (St * list R) :=
  let '(s, mem) := st in
  do a <- gets mem ins i;
  match eval s a with
  | (s', Some v) => do mem' <- put mem out i v; Some (s', mem')
  | (_, None) => None
  end.
(** The loop over xs, the first of the inputs; the interpolator and the memory afterwards. *)
Definition eval_into (s : St) (ins : list window) (out : window) (mem : list R) : option (St * list R) :=
  match ins with
  | [] => None
  | xs :: _ => loop (w_len xs) (eval_step ins out) (s, mem)
  end.
(** Without an output array a new one is made; the slice that is returned, the interpolator and the memory. *)
Definition eval_all (s : St) (ins : list window) (outs : list window) (mem : list R) : option (window * (St * list R)) :=
  match outs with
  | out :: _ => do r <- eval_into s ins out mem; Some (out, r)
  | [] =>
      match ins with
      | [] => None
      | xs :: _ => let out := Win (List.length mem) (w_len xs) in
                   do r <- eval_into s ins out (mem ++ repeat 0%R (w_len xs)); Some (out, r)
      end
  end.
End Loop.

(** The Eval methods of the six interpolators as functions of the list of coordinates (other lengths do not occur). *)
Definition linear_eval (l : Linear) (a : list R) : Linear * option R := match a with [x] => (l, LinearEval l x) | _ => (l, None) end.
Definition bilinear_eval (l : BiLinear) (a : list R) : BiLinear * option R := match a with [x; y] => (l, BiLinearEval l x y) | _ => (l, None) end.
Definition trilinear_eval (l : TriLinear) (a : list R) : TriLinear * option R := match a with [x; y; z] => (l, TriLinearEval l x y z) | _ => (l, None) end.
Definition spline_eval (l : Spline) (a : list R) : Spline * option R := match a with [x] => (l, SplineEval l x) | _ => (l, None) end.
Definition bicubic_eval (b : BiCubic) (a : list R) : BiCubic * option R := match a with [x; y] => BiCubicEval b x y | _ => (b, None) end.
Definition tricubic_eval (t : TriCubic) (a : list R) : TriCubic * option R := match a with [x; y; z] => TriCubicEval t x y z | _ => (t, None) end.

Definition LinearEvalAll := eval_all linear_eval.
Definition BiLinearEvalAll := eval_all bilinear_eval.
Definition TriLinearEvalAll := eval_all trilinear_eval.
Definition SplineEvalAll := eval_all spline_eval.
Definition BiCubicEvalAll := eval_all bicubic_eval.
Definition TriCubicEvalAll := eval_all tricubic_eval.
