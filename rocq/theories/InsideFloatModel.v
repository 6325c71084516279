(** The comparison which the tests of InsideModel.v and MeshBuildModel.v need beside the operations of RingFloatModel.v. *)
From Coq Require Import ZArith.
From Flocq Require Import Core.Core IEEE754.Binary IEEE754.Bits IEEE754.BinarySingleNaN.
From Verif Require Import Base.

(** operator<= of double (GeometryUtils.hpp:171-172, Polygon.hpp:126-127): false with a NaN. *)
Definition doubleLe (x y : binary64) : bool := match b64_compare x y with Some Lt | Some Eq => true | _ => false end.
