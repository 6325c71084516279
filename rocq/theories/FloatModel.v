(** The two conversions between double and float used by core/src/index/MeshStream.cpp:22
    and 33, on bit patterns: IEEE 754 round to nearest even, NaNs quieted with the leading
    payload bits kept (what x86-64 cvtsd2ss/cvtss2sd do). *)
From Coq Require Import ZArith Bool.
From Flocq Require Import Core.Core IEEE754.Binary IEEE754.Bits.
Open Scope Z_scope.

(** float of MeshStream.cpp:22, 33: 24 bits of precision. *)
Definition prec32 : FLX.Prec_gt_0 24 := eq_refl.
(** float of MeshStream.cpp:22, 33: the largest exponent. *)
Definition emax32 : BinarySingleNaN.Prec_lt_emax 24 128 := eq_refl.
(** double of MeshStream.cpp:22, 33: 53 bits of precision. *)
Definition prec64 : FLX.Prec_gt_0 53 := eq_refl.
(** double of MeshStream.cpp:22, 33: the largest exponent. *)
Definition emax64 : BinarySingleNaN.Prec_lt_emax 53 1024 := eq_refl.

(** static_cast<float>(double), MeshStream.cpp:33, on anything but a NaN. *)
Definition toSingle (x : binary64) : binary32 :=
  match x with
  | B754_zero _ _ s => B754_zero 24 128 s
  | B754_infinity _ _ s => B754_infinity 24 128 s
  | B754_nan _ _ _ _ _ => proj1_sig default_nan_pl32
  | B754_finite _ _ s m e _ =>
      binary_normalize 24 128 prec32 emax32 BinarySingleNaN.mode_NE (cond_Zopp s (Zpos m)) e s
  end.

(** float to double, MeshStream.cpp:22, on anything but a NaN. *)
Definition toDouble (x : binary32) : binary64 :=
  match x with
  | B754_zero _ _ s => B754_zero 53 1024 s
  | B754_infinity _ _ s => B754_infinity 53 1024 s
  | B754_nan _ _ _ _ _ => proj1_sig default_nan_pl64
  | B754_finite _ _ s m e _ =>
      binary_normalize 53 1024 prec64 emax64 BinarySingleNaN.mode_NE (cond_Zopp s (Zpos m)) e s
  end.

(** Quieting sets the top payload bit of a NaN (MeshStream.cpp:22, 33 on NaNs). *)
Definition quiet (top m : Z) : Z := if m <? top then m + top else m.

(** MeshStream.cpp:33 on 64 bit patterns. *)
Definition f32of64 (x : N) : N :=
  let z := Z.of_N x in
  if is_nan 53 1024 (b64_of_bits z) then
    let '(s, m, _) := split_bits 52 11 z in
    Z.to_N (join_bits 23 8 s (quiet (2 ^ 22) (m / 2 ^ 29)) 255)
  else Z.to_N (bits_of_b32 (toSingle (b64_of_bits z))).

(** MeshStream.cpp:22 on 32 bit patterns. *)
Definition f64of32 (x : N) : N :=
  let z := Z.of_N x in
  if is_nan 24 128 (b32_of_bits z) then
    let '(s, m, _) := split_bits 23 8 z in
    Z.to_N (join_bits 52 11 s (quiet (2 ^ 22) m * 2 ^ 29) 2047)
  else Z.to_N (bits_of_b64 (toDouble (b32_of_bits z))).
