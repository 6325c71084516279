(** What splitting a side by the lines of a grid is to give with doubles. *)
From Coq Require Import Reals ZArith Permutation.
From Flocq Require Import Core.Core IEEE754.Binary IEEE754.Bits.
From Verif Require Import Base RingModel MeshBuildModel RingFloatSpec InsideSpec InsideFloatSpec LineGridSpec.
Local Open Scope R_scope.

(** What std::sort keeps whatever the order. *)
Definition permutes {A} (srt : (A -> A -> bool) -> list A -> list A) : Prop := forall lt l, Permutation l (srt lt l).
(** A cell size: from a millionth of a degree to a hundred degrees. *)
Definition goodStep (step : binary64) : Prop := is_finite 53 1024 step = true /\ 1 / 1000000 <= valueOf step <= 100.
(** A number on the map. *)
Definition goodNumber (x : binary64) : Prop := is_finite 53 1024 x = true /\ Rabs (valueOf x) <= 180.
(** A corner in ten-millionths of a degree. *)
Definition goodCorner (p : Z * Z) : Prop := (Z.abs (fst p) <= 1800000000 /\ Z.abs (snd p) <= 1800000000)%Z.
Definition degreesOf (p : Z * Z) : pt := mkV2 (IZR (fst p) / 10000000) (IZR (snd p) / 10000000).
(** Within [d] of the line through [s] and [e]. *)
Definition nearLine (d : R) (s e p : pt) : Prop :=
  exists t, Rabs (v2x p - v2x (between s e t)) <= d /\ Rabs (v2y p - v2y (between s e t)) <= d.
(** No two points are as near as that without being the same. *)
Definition distinct (d : R) (l : list pt) : Prop := forall p q, In p l -> In q l -> near d p q -> p = q.
(** How far the last of [n] accumulated lines may be from its place. *)
Definition drift (n : nat) : R := IZR (Z.of_nat n + 1) * (282 / 9007199254740992).
(** Not on a line of the grid. *)
Definition offGrid (step : R) (p : pt) : Prop := forall m : Z, v2x p <> IZR m * step /\ v2y p <> IZR m * step.
