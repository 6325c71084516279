(** Planar geometry in terms of which the tests for a point in a polygon are judged. *)
From Coq Require Import Reals Lra.
From Verif Require Import Base GeoModel RingModel QuatModel MeshBuildModel.
Local Open Scope R_scope.

(** Exact [<=]. *)
Definition Rleb (x y : R) : bool := if Rle_dec x y then true else false.

Definition pt := vec2 R.

(** The edges of a closed ring, each as its two corners. *)
Definition edges {A} (ring : list A) : list (A * A) :=
  match ring with [] => [] | v :: _ => combine (last ring v :: ring) ring end.

(** Twice the signed area of a triangle: positive if [c] is to the left of the way from [a] to [b]. *)
Definition orient (a b c : pt) : R :=
  (v2x b - v2x a) * (v2y c - v2y a) - (v2y b - v2y a) * (v2x c - v2x a).

(** The point at [t] of the way from [a] to [b]. *)
Definition along (a b : pt) (t : R) : pt :=
  mkV2 (v2x a + t * (v2x b - v2x a)) (v2y a + t * (v2y b - v2y a)).
Definition onSegment (v a b : pt) : Prop := exists t, 0 <= t <= 1 /\ v = along a b t.
Definition onRing (v : pt) (ring : list pt) : Prop :=
  exists a b, In (a, b) (edges ring) /\ onSegment v a b.
(** Two segments have a point in common. *)
Definition meet (p q a b : pt) : Prop := exists v, onSegment v p q /\ onSegment v a b.

(** Two segments cross: the ends of either are strictly on both sides of the other. *)
Definition crossSegments (p q a b : pt) : bool :=
  if Rlt_dec (orient p q a * orient p q b) 0 then
    if Rlt_dec (orient a b p * orient a b q) 0 then true else false
  else false.
(** The number of edges that the segment from [p] to [q] crosses is odd. *)
Definition oddCrossings (p q : pt) (ring : list pt) : bool :=
  Nat.odd (length (filter (fun e => crossSegments p q (fst e) (snd e)) (edges ring))).

(** There is a line with [p] on it, or on one side, and all of the ring on the other. *)
Definition apart (p : pt) (ring : list pt) : Prop :=
  exists nx ny c, c <= nx * v2x p + ny * v2y p /\
    forall v, In v ring -> nx * v2x v + ny * v2y v < c.

(** A strictly convex ring, counter-clockwise. *)
Definition convexRing (ring : list pt) : Prop :=
  NoDup ring /\ (3 <= length ring)%nat /\
  forall a b v, In (a, b) (edges ring) -> In v ring -> v <> a -> v <> b -> 0 < orient a b v.

(** The segment has no point on the ring. *)
Definition clearOf (p q : pt) (ring : list pt) : Prop := forall a b, In (a, b) (edges ring) -> ~ meet p q a b.

(** Strictly inside: to the left of every edge. *)
Definition leftOfAll (p : pt) (ring : list pt) : Prop := forall a b, In (a, b) (edges ring) -> 0 < orient a b p.

(** No edge of one ring meets an edge of the other. *)
Definition disjointRings (r s : list pt) : Prop :=
  forall a b c d, In (a, b) (edges r) -> In (c, d) (edges s) -> ~ meet a b c d.

(** A corner as a geographical coordinate, and back. *)
Definition geo (v : pt) : point R := mkPoint (v2y v) (v2x v).
Definition flat (c : point R) : pt := mkV2 (plon c) (plat c).
