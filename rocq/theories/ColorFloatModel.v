(** Colors and gradients of ColorModel.v with the numbers of IEEE 754: every operation is rounded to the nearest double, ties to
    even. *)
From Coq Require Import ZArith.
From Flocq Require Import Core.Core IEEE754.Binary IEEE754.Bits IEEE754.BinarySingleNaN.
From Verif Require Import Base ColorModel RingModel RowModel RingFloatModel LineFloatModel.
Local Open Scope Z_scope.

(** A double without its fraction (Color.hpp:40-43); what is not finite has no conversion to int, as has 2^31. *)
Definition doubleTrunc (x : binary64) : Z :=
  match x with
  | Binary.B754_zero _ _ _ => 0
  | Binary.B754_finite _ _ s m e _ => let z := cond_Zopp s (Zpos m) in if 0 <=? e then z * 2 ^ e else Z.quot z (2 ^ (- e))
  | _ => 2 ^ 31
  end.
(** Color.hpp:40-43: one channel times a double, converted to int. *)
Definition scaleChannel (v : Z) (f : binary64) : outcome Z := castInt (doubleTrunc (nmul doubleNums (doubleInt v) f)).
(** Color.hpp:39-44. *)
Definition scaleColorD (c : color) (f : binary64) : outcome color :=
  bind (scaleChannel (red c) f) (fun r => bind (scaleChannel (green c) f) (fun g =>
  bind (scaleChannel (blue c) f) (fun b => bind (scaleChannel (alpha c) f) (fun a => Ok (colorOf r g b a))))).
(** ColorGradient.hpp:61-65. *)
Definition mixColorsD (a b : color) (r : binary64) : outcome color :=
  bind (scaleColorD a (nsub doubleNums (doubleInt 1) r)) (fun x => bind (scaleColorD b r) (fun y => Ok (addColor x y))).
(** ColorGradient.hpp:18, GradientData. *)
Definition gradientD : Type := list (binary64 * color).
(** ColorGradient.hpp:41-43: the loop, from the given stop on. *)
Fixpoint seekStopD (l : gradientD) (time : binary64) : nat :=
  match l with
  | [] => 0
  | (t, _) :: l' => match l' with [] => 0 | _ => if nlt doubleNums t time then S (seekStopD l' time) else 0 end
  end.
(** ColorGradient.hpp:37-53. *)
Definition evaluateD (l : gradientD) (time : binary64) : outcome color :=
  match l with
  | [] => Ok noColor
  | _ =>
      let index := seekStopD l time in
      match nth_error l (index - 1), nth_error l index with
      | Some (ta, a), Some (tb, b) =>
          mixColorsD a b (match index with
                          | O => doubleInt 0
                          | _ => ndiv doubleNums (nsub doubleNums time ta) (nsub doubleNums tb ta)
                          end)
      | _, _ => UB
      end
  end.
