(** The operations of NoiseModel.v on the numbers of IEEE 754; those of [nums] are in RingFloatModel.v. *)
From Coq Require Import ZArith.
From Flocq Require Import Core.Core IEEE754.Binary IEEE754.Bits IEEE754.BinarySingleNaN.
From Verif Require Import Base RingModel RingFloatModel LineFloatModel.
Local Open Scope Z_scope.

(** std::floor (NoiseUtils.cpp:81-82); what is not finite has no conversion to int, as has 2^31. *)
Definition doubleFloor (x : binary64) : Z :=
  match x with
  | Binary.B754_zero _ _ _ => 0
  | Binary.B754_finite _ _ s m e _ => let z := cond_Zopp s (Zpos m) in if 0 <=? e then z * 2 ^ e else z / 2 ^ (- e)
  | _ => 2 ^ 31
  end.
(** std::sqrt (NoiseUtils.cpp:6). *)
Definition doubleSqrt (x : binary64) : binary64 := b64_sqrt mode_NE x.
(** 1E-5 (NoiseUtils.cpp:77), the double nearest to it. *)
Definition doubleTiny : binary64 := b64_div mode_NE (doubleInt 1) (doubleInt 100000).
