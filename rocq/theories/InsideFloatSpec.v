(** When rounding must not change the answer of a test for a point in a polygon. *)
From Coq Require Import Reals ZArith.
From Flocq Require Import Core.Core IEEE754.Binary IEEE754.Bits.
From Verif Require Import Base GeoModel RingModel QuatModel MeshBuildModel InsideModel InsideSpec RingFloatModel RingFloatSpec InsideFloatModel.
Local Open Scope R_scope.

(** A place given by longitude and latitude, as the meshes have it. *)
Definition coordinate {T} (v : vec2 T) : point T := mkPoint (v2y v) (v2x v).
Definition spotOf (v : vec2 binary64) : pt := mkV2 (valueOf (v2x v)) (valueOf (v2y v)).
Definition onChart (v : vec2 binary64) : Prop := onMap (coordinate v).

(** Polygon.hpp:119-134, GeometryUtils.hpp:165-177 and GeoUtils.hpp:92-101, with doubles and in exact arithmetic. *)
Definition doubleTests : list (vec2 binary64 -> list (vec2 binary64) -> bool) :=
  [ pointInside doubleNums doubleLe; insidePoints doubleNums doubleLe;
    fun p ring => isPointInPolygon doubleNums (coordinate p) (map coordinate ring) ].
Definition exactTests : list (pt -> list pt -> bool) :=
  [ pointInside realNums Rleb; insidePoints realNums Rleb;
    fun p ring => isPointInPolygon realNums (coordinate p) (map coordinate ring) ].

(** The ends of every side have the same latitude or latitudes which differ by at least 1E-12 degrees. *)
Definition tallSides (ring : list pt) : Prop :=
  forall a b, In (a, b) (edges ring) -> v2y a = v2y b \/ 1 / 1000000000000 <= Rabs (v2y b - v2y a).
(** Going east or west, [p] has more than [d] degrees to every side. *)
Definition clearance (d : R) (p : pt) (ring : list pt) : Prop :=
  forall a b q, In (a, b) (edges ring) -> onSegment q a b -> v2y q = v2y p -> d < Rabs (v2x q - v2x p).

(** Places in ten-millionths of a degree, and the doubles nearest to them. *)
Definition unitSpot (v : vec2 Z) : pt := mkV2 (IZR (v2x v)) (IZR (v2y v)).
Definition readAs (k : vec2 Z) (v : vec2 binary64) : Prop := nearestPlace (v2y k) (v2x k) (coordinate v).
Definition inRange (k : vec2 Z) : Prop := (Z.abs (v2x k) <= 1800000000 /\ Z.abs (v2y k) <= 900000000)%Z.
(** Both coordinates of neighbours differ by no more than [m] ten-millionths of a degree. *)
Definition sidesWithin (m : Z) (ring : list (vec2 Z)) : Prop :=
  forall a b, In (a, b) (edges ring) -> (Z.abs (v2x b - v2x a) <= m /\ Z.abs (v2y b - v2y a) <= m)%Z.
