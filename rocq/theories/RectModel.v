(** Model of core/src/math/Rectangle.hpp, of the rectangle of core/src/math/Polygon.hpp, and of
    getCircle, getCentroid and outerRectangles of core/src/utils/GeometryUtils.hpp, with exact
    arithmetic: expanding a rectangle does not round, getCircle and getCentroid do, which is left out. *)
From Coq Require Import QArith.
From Verif Require Import Base RingModel MeshBuildModel.
Local Open Scope Q_scope.

(** Rectangle.hpp:20-21: numeric_limits<double>::max(). *)
Definition huge : Q := inject_Z (2 ^ 1024 - 2 ^ 971).
(** Rectangle.hpp:22-23: numeric_limits<double>::min(), the least positive normal number. *)
Definition tiny : Q := 1 # (2 ^ 1022).

(** Rectangle.hpp:14 (the lines of line 16 are not used here). *)
Record rect := mkRect { xMin : Q; yMin : Q; xMax : Q; yMax : Q }.
(** Rectangle.hpp:18-24: the default constructor. *)
Definition noRect : rect := mkRect huge huge tiny tiny.
(** std::min (Rectangle.hpp:38-39). *)
Definition stdMin (a b : Q) : Q := if nlt exactNums b a then b else a.
(** std::max (Rectangle.hpp:40-41). *)
Definition stdMax (a b : Q) : Q := if nlt exactNums a b then b else a.
(** Rectangle.hpp:37-42, expand. *)
Definition expand (r : rect) (p : vec2 Q) : rect :=
  mkRect (stdMin (xMin r) (v2x p)) (stdMin (yMin r) (v2y p)) (stdMax (xMax r) (v2x p)) (stdMax (yMax r) (v2y p)).
(** Rectangle.hpp:31-35, expand with a contour. *)
Definition expandAll (r : rect) (l : list (vec2 Q)) : rect := fold_left expand l r.

(** Polygon.hpp:15-27: the polygon with its rectangle. *)
Record footprint := mkFoot { fpoly : polygon Q; frect : rect }.
(** Polygon.hpp:29-33: a polygon without contours. *)
Definition noFoot : footprint := mkFoot emptyPolygon noRect.

Section Footprint.
  Context (env : builderEnv Q).

  (** Polygon.hpp:42-44 and 64-66: the points which are taken from a contour. *)
  Definition takenOf (contour : list (vec2 Q)) : list (vec2 Q) :=
    match contour with
    | [] => []
    | v :: _ => firstn (if sameVec exactNums env v (last contour v) then length contour - 1 else length contour)%nat contour
    end.
  (** Polygon.hpp:41-72, addContour: the rectangle grows with the points of a contour, unless it is
      a hole in which no point was found (lines 51-55). *)
  Definition addFoot (f : footprint) (contour : list (vec2 Q)) (isHole : bool) (inside : option (vec2 Q)) : outcome footprint :=
    bind (addContour exactNums env (fpoly f) contour isHole inside) (fun p =>
    Ok (mkFoot p (match isHole, inside with true, None => frect f | _, _ => expandAll (frect f) (takenOf contour) end))).
  (** A sequence of addContour and addHole (Polygon.hpp:32-38). *)
  Fixpoint addFeet (f : footprint) (l : list (list (vec2 Q) * bool * option (vec2 Q))) : outcome footprint :=
    match l with
    | [] => Ok f
    | (contour, isHole, inside) :: l' => bind (addFoot f contour isHole inside) (fun f => addFeet f l')
    end.
End Footprint.

(** Pairs of coordinates (GeometryUtils.hpp:78-81, 106-108). *)
Fixpoint pairsOf (l : list Q) : list (vec2 Q) :=
  match l with x :: y :: l' => mkV2 x y :: pairsOf l' | _ => [] end.
(** The points of a range (GeometryUtils.hpp:78, 106); ranges of a polygon lie within its points. *)
Definition rangePoints (p : polygon Q) (range : nat * nat) : list (vec2 Q) :=
  pairsOf (skipn (fst range) (firstn (snd range) (ppoints p))).
(** GeometryUtils.hpp:98-113, outerRectangles: the visited rectangles. *)
Definition outerRects (f : footprint) : list rect :=
  match pouters (fpoly f) with
  | [_] => [frect f]
  | os => map (fun o => expandAll noRect (rangePoints (fpoly f) o)) os
  end.
(** GeometryUtils.hpp:58-70, getCircle: the centre and the size. *)
Definition circleOf (r : rect) : vec2 Q * vec2 Q :=
  let rx := (xMax r - xMin r) / 2 in
  let ry := (yMax r - yMin r) / 2 in
  (mkV2 (xMin r + rx) (yMin r + ry), mkV2 rx ry).
(** DomeRoofBuilder.hpp:21-25 and CylinderFacadeBuilder.hpp:19-23: where domes and cylinders are put. *)
Definition roundParts (f : footprint) : list (vec2 Q * vec2 Q) := map circleOf (outerRects f).
(** SphereFacadeBuilder.hpp:21-24: where a sphere is put. *)
Definition spherePart (f : footprint) : vec2 Q * vec2 Q := circleOf (frect f).

(** GeometryUtils.hpp:78-81: the sums. *)
Definition sums (l : list (vec2 Q)) : vec2 Q :=
  fold_left (fun s p => mkV2 (v2x s + v2x p) (v2y s + v2y p)) l (mkV2 0 0).
(** GeometryUtils.hpp:72-88, getCentroid; nothing for a range without points, where 0 is divided by 0. *)
Definition centroid (p : polygon Q) (range : nat * nat) : option (vec2 Q) :=
  let l := rangePoints p range in
  let count := inject_Z (Z.of_nat (snd range - fst range)) / 2 in
  if (snd range - fst range =? 0)%nat then None
  else Some (mkV2 (v2x (sums l) / count) (v2y (sums l) / count)).
