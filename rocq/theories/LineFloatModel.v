(** The operations of LineGridModel.v on the numbers of IEEE 754; those of [nums] are in RingFloatModel.v. *)
From Coq Require Import ZArith.
From Flocq Require Import Core.Core IEEE754.Binary IEEE754.Bits IEEE754.BinarySingleNaN.
From Verif Require Import Base RingModel LineGridModel RingFloatModel.

(** Conversion of cInt to double (LineGridSplitter.hpp:49-50), to the nearest. *)
Definition doubleInt (k : Z) : binary64 := Binary.binary_normalize 53 1024 eq_refl eq_refl mode_NE k 0 false.
(** std::ceil (LineGridSplitter.hpp:70). *)
Definition doubleCeil (x : binary64) : binary64 := Binary.Bnearbyint 53 1024 eq_refl unop_nan_pl64 mode_UP x.
(** LineGridSplitter.hpp:49-50, 57, 70, 112, 155-156 with double. *)
Definition doubleGrids : grids binary64 := mkGrids doubleInt doubleCeil (doubleInt 1) doubleEpsilon.
