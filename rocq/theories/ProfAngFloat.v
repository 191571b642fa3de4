(** * IEEE 754 double precision for ProfAngModel (Flocq; round to nearest even, as Go's float64 on amd64, where products are not fused). No proofs of the code's properties in this file. *)
From Coq Require Import ZArith.
From Flocq Require Import Core.FLX IEEE754.BinarySingleNaN IEEE754.Binary IEEE754.Bits.
From Verif Require Import ProfAngModel.
Local Open Scope Z_scope.

Lemma prec53 : FLX.Prec_gt_0 53. Proof. reflexivity. Qed.
Lemma emax1024 : BinarySingleNaN.Prec_lt_emax 53 1024. Proof. reflexivity. Qed.

(** Go's float64 operations on bit patterns. *)
Definition ieee64 : arith Z := {|
  a_zero := 0;
  a_add := fun a b => bits_of_b64 (b64_plus mode_NE (b64_of_bits a) (b64_of_bits b));
  a_sub := fun a b => bits_of_b64 (b64_minus mode_NE (b64_of_bits a) (b64_of_bits b));
  a_mul := fun a b => bits_of_b64 (b64_mult mode_NE (b64_of_bits a) (b64_of_bits b));
  a_div := fun a b => bits_of_b64 (b64_div mode_NE (b64_of_bits a) (b64_of_bits b));
  a_sqrt := fun a => bits_of_b64 (b64_sqrt mode_NE (b64_of_bits a));
  a_lt := fun a b => match b64_compare (b64_of_bits a) (b64_of_bits b) with Some Lt => true | _ => false end;
  a_nat := fun n => bits_of_b64 (binary_normalize 53 1024 prec53 emax1024 mode_NE (Z.of_nat n) 0 false) |}.

(** Not a number. *)
Definition nan64 (b : Z) : Prop := is_nan 53 1024 (b64_of_bits b) = true.
(** The float64 closest to 1/10. *)
Definition tenth : Z := 4591870180066957722.
