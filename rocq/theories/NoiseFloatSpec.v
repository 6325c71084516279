(** What noise computed with doubles is compared to. *)
From Coq Require Import Reals ZArith.
From Flocq Require Import Core.Core IEEE754.Binary IEEE754.Bits.
From Verif Require Import Base RingFloatSpec NoiseSpec.
Local Open Scope R_scope.

(** The product as a double. *)
Definition rounded (x f : binary64) : R := round radix2 (FLT_exp (-1074) 53) ZnearestE (valueOf x * valueOf f).
(** A coordinate whose cell is the number of an int. *)
Definition reachable (x f : binary64) : Prop := is_finite 53 1024 x = true /\ is_finite 53 1024 f = true /\ fits (Zfloor (rounded x f)).
