(** The operations of RingModel.v on the numbers of IEEE 754: every operation of GeometryUtils.hpp:16-30 and
    GeoCoordinate.hpp:26-29 is rounded to the nearest double, ties to even.  A compiler which fuses multiplication and
    subtraction or keeps sums in longer registers is left out. *)
From Coq Require Import ZArith.
From Flocq Require Import Core.Core IEEE754.Binary IEEE754.Bits IEEE754.BinarySingleNaN.
From Verif Require Import Base GeoModel RingModel.

(** operator< of double (GeometryUtils.hpp:29, GeoCoordinate.hpp:27-28): false with a NaN. *)
Definition doubleLt (x y : binary64) : bool := match b64_compare x y with Some Lt => true | _ => false end.
(** double as used by GeometryUtils.hpp:16-30. *)
Definition doubleNums : nums binary64 :=
  mkNums (Binary.B754_zero 53 1024 false) (b64_plus mode_NE) (b64_minus mode_NE) (b64_mult mode_NE) (b64_div mode_NE) b64_abs doubleLt.
(** numeric_limits<double>::epsilon() of GeoCoordinate.hpp:27-28. *)
Definition doubleEpsilon : binary64 := b64_of_bits 4372995238176751616.
