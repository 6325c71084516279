(** What the walls of a raised region are expected to be, without the model of the code (exact real arithmetic). *)
From Coq Require Import Reals.
From Verif Require Import Base RingModel MeshBuildModel MeshBuildSpec GenSpec RowModel RowSpec.
Local Open Scope R_scope.

(** The sides of a ring, the last one back to its first point. *)
Definition ringSides {A} (l : list A) : list (A * A) := match l with [] => [] | x :: l' => combine l (l' ++ [x]) end.
(** A tile by its least and greatest longitude and latitude. *)
Record tileBox := mkTile { tWest : R; tSouth : R; tEast : R; tNorth : R }.
Definition tileWide (t : tileBox) : R := tEast t - tWest t.
Definition tileHigh (t : tileBox) : R := tNorth t - tSouth t.
Definition properTile (t : tileBox) : Prop := tWest t < tEast t /\ tSouth t < tNorth t.
(** Within [d] of a line through a side of the tile, where [d] is another for sides of other lengths. *)
Definition nearLines (tol : R) (t : tileBox) (p : vec2 R) : Prop :=
  Rabs (v2x p - tWest t) * tileHigh t < tol \/ Rabs (v2x p - tEast t) * tileHigh t < tol \/
  Rabs (v2y p - tSouth t) * tileWide t < tol \/ Rabs (v2y p - tNorth t) * tileWide t < tol.
(** Inside of the tile, not on its border. *)
Definition strictlyIn (t : tileBox) (p : vec2 R) : Prop := tWest t < v2x p < tEast t /\ tSouth t < v2y p < tNorth t.
Definition halfway (p q : vec2 R) : vec2 R := mkV2 ((v2x p + v2x q) / 2) ((v2y p + v2y q) / 2).

(** A wall from [p] to [q] on the ground, [h] high. *)
Definition wall (ground : vec2 R -> R) (h : R) (s : vec2 R * vec2 R) : list tri3 :=
  let '(p, q) := s in
  let foot v := mkV3 (v2x v) (ground v) (v2y v) in
  let top v := mkV3 (v2x v) (ground v + h) (v2y v) in
  [(foot p, top q, foot q); (top p, top q, foot p)].
(** The elevation of a place: that of the options or of the provider. *)
Definition groundAt (env : builderEnv R) (geo : geomOptions R) (p : vec2 R) : R :=
  if Rlt_dec (eLowest env) (gele geo) then gele geo else eElevation env (v2y p) (v2x p).
(** To the left of the way from [p] to [q] on the map. *)
Definition leftOf (p q : vec2 R) (m : vec3 R) : Prop :=
  0 < (v2x q - v2x p) * (v3z m - v2y p) - (v2y q - v2y p) * (v3x m - v2x p).
