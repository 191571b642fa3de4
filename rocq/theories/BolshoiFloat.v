(** * IEEE 754 single precision for BolshoiModel (Flocq; round to nearest even, as Go's float32). No proofs of the code's properties in this file. *)
From Coq Require Import ZArith Lia.
From Flocq Require Import Core.FLX IEEE754.BinarySingleNaN IEEE754.Binary IEEE754.Bits.
From Verif Require Import BolshoiModel.
Local Open Scope Z_scope.

Lemma prec24 : FLX.Prec_gt_0 24. Proof. reflexivity. Qed.
Lemma emax128 : BinarySingleNaN.Prec_lt_emax 24 128. Proof. reflexivity. Qed.

(** float32(n) *)
Definition f32_of_int (n : Z) : binary32 := binary_normalize 24 128 prec24 emax128 mode_NE n 0 false.

(** Go's float32 operations on bit patterns; the two composed operations do not matter here. *)
Definition ieee32 (scale minmass : Z -> Z) : bops := {|
  b_add := fun a b => bits_of_b32 (b32_plus mode_NE (b32_of_bits a) (b32_of_bits b));
  b_sub := fun a b => bits_of_b32 (b32_minus mode_NE (b32_of_bits a) (b32_of_bits b));
  b_mul := fun a b => bits_of_b32 (b32_mult mode_NE (b32_of_bits a) (b32_of_bits b));
  b_div := fun a b => bits_of_b32 (b32_div mode_NE (b32_of_bits a) (b32_of_bits b));
  b_lt := fun a b => match b32_compare (b32_of_bits a) (b32_of_bits b) with Some Lt => true | _ => false end;
  b_le := fun a b => match b32_compare (b32_of_bits a) (b32_of_bits b) with Some Lt | Some Eq => true | _ => false end;
  b_one := 1065353216; b_int := fun n => bits_of_b32 (f32_of_int n);
  b_scale := scale; b_minmass := minmass |}.
