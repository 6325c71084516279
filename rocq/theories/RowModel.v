(** Models of things put along ways: core/src/builders/generators/WallGenerator.hpp with the part of
    AbstractGenerator.hpp it uses, copyMeshAlong of core/src/utils/MeshUtils.hpp,
    core/src/builders/misc/BarrierBuilder.cpp, core/src/builders/misc/LampBuilder.cpp and
    core/src/builders/poi/TreeBuilder.cpp, over any operations on double.  A mesh is described by the calls
    which fill it (MeshBuildModel.meshOp). *)
From Coq Require Import Reals.
From Verif Require Import Base GeoModel RingModel MeshBuildModel QuatModel GenModel.
Local Open Scope nat_scope.

(** Functions of other parts: GeoUtils::distance (GeoUtils.hpp:117-132), truncation of a finite double towards
    zero (MeshUtils.hpp:50, WallGenerator.hpp:68, LampBuilder.cpp:52) and the elevation of the tile by latitude and
    longitude (MeshUtils.hpp:55, WallGenerator.hpp:97-104). *)
Record rows (T : Type) := mkRows { wDist : point T -> point T -> T; wTrunc : T -> Z; wEle : T -> T -> T }.
Arguments mkRows {T}. Arguments wDist {T}. Arguments wTrunc {T}. Arguments wEle {T}.

(** What BarrierBuilder reads of a style: whether type is pillar (BarrierBuilder.cpp:66), width in degrees, height,
    length and gap (78-85), the size of radius (96), step (119) and the appearance (64). *)
Record barrierStyle (T : Type) := mkBarrier { bPillar : bool; bWidth : T; bHeight : T; bLength : T; bGap : T;
  bRadius : vec3 T; bStep : T; bLook : lookOptions T }.
Arguments mkBarrier {T}. Arguments bPillar {T}. Arguments bWidth {T}. Arguments bHeight {T}. Arguments bLength {T}.
Arguments bGap {T}. Arguments bRadius {T}. Arguments bStep {T}. Arguments bLook {T}.

(** The elements visited by BarrierBuilder (BarrierBuilder.cpp:23, 28, 32, 36); [E] stands for what the style provider
    looks at. *)
Inductive barrier (E T : Type) :=
| BNode (e : E) (c : point T)
| BWay (e : E) (cs : list (point T))
| BArea (e : E) (cs : list (point T))
| BRelation (e : E) (ms : list (barrier E T)).
Arguments BNode {E T}. Arguments BWay {E T}. Arguments BArea {E T}. Arguments BRelation {E T}.

Section Rows.
  Context {T : Type} (n : nums T) (k : trig T) (g : gens T) (env : builderEnv T) (w : rows T).
  Local Notation "a + b" := (nadd n a b).
  Local Notation "a - b" := (nsub n a b).
  Local Notation "a * b" := (nmul n a b).
  Local Notation "a / b" := (ndiv n a b).

  (** GeoUtils.hpp:135-140, newPoint. *)
  Definition newPoint (p1 p2 : point T) (f : T) : point T :=
    mkPoint (plat p1 + (plat p2 - plat p1) * f) (plon p1 + (plon p2 - plon p1) * f).
  (** Conversion of a value to int (MeshUtils.hpp:50, WallGenerator.hpp:68, LampBuilder.cpp:52). *)
  Definition castInt (z : Z) : outcome Z := if ((- 2 ^ 31 <=? z) && (z <? 2 ^ 31))%Z then Ok z else UB.
  (** MeshUtils.hpp:49-50: how many of [step] a side has; the quotient by zero is no finite number and its conversion
      undefined. *)
  Definition countOf (d step : T) : outcome Z :=
    if nlt n step (nzero n) || nlt n (nzero n) step then castInt (wTrunc w (d / step)) else UB.
  (** The loop over the sides of a line (BarrierBuilder.cpp:120-125, LampBuilder.cpp:47-90, TreeBuilder.cpp:46-57,
      WallGenerator.hpp:63-79) for a line with at least one point. *)
  Fixpoint overSides {A} (f : point T -> point T -> outcome (list A)) (l : list (point T)) : outcome (list A) :=
    match l with
    | p0 :: ((p1 :: _) as l') => bind (f p0 p1) (fun a => bind (overSides f l') (fun r => Ok (a ++ r)))
    | _ => Ok []
    end.

  (** MeshUtils.hpp:50-53: where the copies are put. *)
  Definition copyPlaces (step : T) (p1 p2 : point T) : outcome (list (point T)) :=
    bind (countOf (wDist w p1 p2) step) (fun c =>
    Ok (map (fun j => newPoint p1 p2 (gint g j / gint g c)) (upTo c))).
  (** MeshUtils.hpp:55-59 and LampBuilder.cpp:74-78: the copy at a place of a mesh made at [position]. *)
  Definition copyOp (position : point T) (src : bmesh T) (q : point T) : meshOp :=
    OpCopy (mkV3 (plon q - plon position) (wEle w (plat q) (plon q)) (plat q - plat position)) src.
  (** MeshUtils.hpp:45-61, copyMeshAlong. *)
  Definition copyMeshAlong (position : point T) (src : bmesh T) (step : T) (p1 p2 : point T) : outcome (list meshOp) :=
    bind (copyPlaces step p1 p2) (fun ps => Ok (map (copyOp position src) ps)).

  (** TreeBuilder.cpp:44-59: the mesh given to the callback for a way, from the mesh of a tree at the centre of the
      tile; size() - 1 of a way without coordinates is the greatest number and the first coordinate is read. *)
  Definition treeWay (center : point T) (tree : bmesh T) (step : T) (cs : list (point T)) : outcome (bmesh T) :=
    match cs with
    | [] => UB
    | _ => bind (overSides (copyMeshAlong center tree step) cs) (fun ops => meshRun n env ops emptyMesh)
    end.

  (** Vector2.hpp:62-67 (with 52-54), normalized. *)
  Definition normalized2 (v : vec2 T) : vec2 T :=
    let l := ksqrt k (v2x v * v2x v + v2y v * v2y v) in
    if nlt n (geps g) l then mkV2 (v2x v / l) (v2y v / l) else mkV2 (nzero n) (nzero n).
  (** LampBuilder.cpp:57-58, WallGenerator.hpp:90-91: the normal to the left of a side. *)
  Definition normalOf (a b : vec2 T) : vec2 T :=
    let d := normalized2 (mkV2 (v2x b - v2x a) (v2y b - v2y a)) in mkV2 (nzero n - v2y d) (v2x d).
  (** LampBuilder.cpp:59-62, WallGenerator.hpp:92-95: a point moved by the normal to the left or to the right. *)
  Definition leftOf (a normal : vec2 T) (width : T) : vec2 T :=
    mkV2 (v2x a + v2x normal * width) (v2y a + v2y normal * width).
  (** LampBuilder.cpp:61-62, WallGenerator.hpp:94-95. *)
  Definition rightOf (a normal : vec2 T) (width : T) : vec2 T :=
    mkV2 (v2x a - v2x normal * width) (v2y a - v2y normal * width).
  (** Vector2 of a coordinate (LampBuilder.cpp:57, WallGenerator.hpp:74) and back (LampBuilder.cpp:67-71). *)
  Definition vecOf (p : point T) : vec2 T := mkV2 (plon p) (plat p).
  (** LampBuilder.cpp:67-71. *)
  Definition geoOf (v : vec2 T) : point T := mkPoint (v2y v) (v2x v).

  (** LampBuilder.cpp:56-80: the places of the lamps on both sides of a wide road. *)
  Definition lampPlaces (width : T) (c : Z) (p0 p1 : point T) : outcome (list (point T)) :=
    let nv := normalOf (vecOf p0) (vecOf p1) in
    let side move := (geoOf (move (vecOf p0) nv width), geoOf (move (vecOf p1) nv width)) in
    bind (castInt (c - 1)) (fun last =>
    Ok (map (fun i => let j := (i + 1)%Z in
                      let '(a, b) := side (if (j mod 2 =? 0)%Z then leftOf else rightOf) in
                      newPoint a b (gint g j / gint g c)) (upTo (last - 1)))).
  (** LampBuilder.cpp:48-89: the copies made for a side. *)
  Definition lampSide (center : point T) (lamp : bmesh T) (width step : T) (p0 p1 : point T) : outcome (list meshOp) :=
    bind (countOf (wDist w p0 p1) step) (fun c =>
    if (c =? 0)%Z then Ok []
    else if nlt n (nzero n) width
    then bind (lampPlaces width c p0 p1) (fun ps => Ok (map (copyOp center lamp) ps))
    else copyMeshAlong center lamp step p0 p1).
  (** LampBuilder.cpp:38-93: the mesh given to the callback for a way, if any; for a way without coordinates as in
      [treeWay]. *)
  Definition lampWay (center : point T) (lamp : bmesh T) (width step : T) (cs : list (point T)) : outcome (option (bmesh T)) :=
    match cs with
    | [] => UB
    | _ =>
        bind (overSides (lampSide center lamp width step) cs) (fun ops =>
        bind (meshRun n env ops emptyMesh) (fun m =>
        Ok (match bverts m with [] => None | _ => Some m end)))
    end.

  (** WallGenerator.hpp:71-78: the pieces number [j] and following of a side cut into [c] parts. *)
  Fixpoint wallLoop (ratio : T) (c : Z) (p0 p1 start : point T) (js : list Z) : list (vec2 T * vec2 T) :=
    match js with
    | [] => []
    | j :: js' =>
        let stop := if (c =? 1)%Z then p1 else newPoint p0 p1 (gint g j / gint g c) in
        (mkV2 (plon start) (plat start),
         mkV2 (plon start + (plon stop - plon start) * ratio) (plat start + (plat stop - plat start) * ratio))
        :: wallLoop ratio c p0 p1 stop js'
    end.
  (** WallGenerator.hpp:64-78: the pieces of a side. *)
  Definition wallSide (len gap : T) (p0 p1 : point T) : outcome (list (vec2 T * vec2 T)) :=
    bind (countOf (wDist w p0 p1) (len + gap)) (fun c =>
    let c := Z.max c 1 in
    Ok (wallLoop (len / (len + gap)) c p0 p1 p0 (map (fun i => i + 1)%Z (upTo c)))).
  (** WallGenerator.hpp:58-79: the pieces of a wall; nothing for a line without points. *)
  Definition wallPieces (len gap : T) (cs : list (point T)) : outcome (list (vec2 T * vec2 T)) :=
    overSides (wallSide len gap) cs.

  (** MeshContext.hpp:25 with MeshBuilder.hpp:24-31, and AbstractGenerator.hpp:84: the geometry options. *)
  Definition geoWith (height : T) : geomOptions T :=
    mkGeom (nzero n) (nzero n) (eLowest env) height false false 0.
  (** AbstractGenerator.hpp:70-78 (vertex noise is 0 in the builders of this file): the call for a triangle. *)
  Definition triangleOp (height : T) (look : lookOptions T) (v0 v1 v2 : vec3 T) : meshOp :=
    OpTriangle v0 v1 v2 (mkV2 (nzero n) (nzero n)) (mkV2 (kone k) (nzero n)) (mkV2 (kone k) (kone k)) (geoWith height) look.
  (** AbstractGenerator.hpp:91-108, buildParallelepiped. *)
  Definition boxOps (look : lookOptions T) (l0 l1 r0 r1 : vec3 T) (height : T) : list meshOp :=
    let plane a b := OpPlane3 a b (geoWith height) look in
    let up v := mkV3 (v3x v) (v3y v + height) (v3z v) in
    [plane l1 l0; plane r1 l1; plane r0 r1; plane l0 r0;
     triangleOp height look (up l0) (up l1) (up r0); triangleOp height look (up r0) (up l1) (up r1)].
  (** WallGenerator.hpp:97-109: a corner on the ground. *)
  Definition groundAt (offset : T) (v : vec2 T) : vec3 T := mkV3 (v2x v) (offset + wEle w (v2y v) (v2x v)) (v2y v).
  (** WallGenerator.hpp:88-111, buildSegment. *)
  Definition segmentOps (look : lookOptions T) (width height offset : T) (piece : vec2 T * vec2 T) : list meshOp :=
    let '(a, b) := piece in
    let nv := normalOf a b in
    boxOps look (groundAt offset (leftOf a nv width)) (groundAt offset (leftOf b nv width))
                (groundAt offset (rightOf a nv width)) (groundAt offset (rightOf b nv width)) height.
  (** WallGenerator.hpp:57-83, generate. *)
  Definition wallOps (look : lookOptions T) (width height offset len gap : T) (cs : list (point T)) : outcome (list meshOp) :=
    match cs with
    | [] => Ok []
    | _ => bind (wallPieces len gap cs) (fun ps => Ok (flat_map (segmentOps look width height offset) ps ++ [OpTexture look]))
    end.

  (** BarrierBuilder.cpp:77-88, buildWall: the meshes given to the callback; heightOffset_ is 0 (WallGenerator.hpp:23). *)
  Definition buildWall (st : barrierStyle T) (cs : list (point T)) : outcome (list (bmesh T)) :=
    bind (wallOps (bLook st) (bWidth st) (bHeight st) (nzero n) (bLength st) (bGap st) cs) (fun ops =>
    bind (meshRun n env ops emptyMesh) (fun m => Ok [m])).

  (** BarrierBuilder.cpp:100-109: the triangles of a pillar at a coordinate; direction and right are those of
      CylinderGenerator.hpp:114-115 (Vector3.hpp:59-66). *)
  Definition pillarShape (st : barrierStyle T) (p : point T) : outcome (list (triangle T)) :=
    let size := mkV3 (v3x (bRadius st)) (bHeight st) (v3z (bRadius st)) in
    cylinderOf n k g
      (mkCylinder (mkV3 (plon p) (wEle w (plat p) (plon p)) (plat p)) (mkV3 (nzero n) (kone k) (nzero n))
         (mkV3 (kone k) (nzero n) (nzero n)) size size (gint g 5) 7 (fun v => v)).
  (** BarrierBuilder.cpp:100-111: the mesh of a pillar. *)
  Definition pillarMesh (st : barrierStyle T) (p : point T) : outcome (bmesh T) :=
    bind (pillarShape st p) (fun ts =>
    meshRun n env (map (fun '(a, b, c) => triangleOp (nzero n) (bLook st) a b c) ts ++ [OpTexture (bLook st)]) emptyMesh).
  (** BarrierBuilder.cpp:91-127, buildPillar. *)
  Definition buildPillar (st : barrierStyle T) (cs : list (point T)) : outcome (list (bmesh T)) :=
    match cs with
    | [] => Ok []
    | p :: rest =>
        bind (pillarMesh st p) (fun src =>
        match rest with
        | [] => Ok [src]
        | _ =>
            bind (overSides (copyMeshAlong p src (bStep st)) cs) (fun ops =>
            bind (meshRun n env ops emptyMesh) (fun m => Ok [m]))
        end)
    end.

  (** BarrierBuilder.cpp:66-69. *)
  Definition buildBarrier (st : barrierStyle T) (cs : list (point T)) : outcome (list (bmesh T)) :=
    if bPillar st then buildPillar st cs else buildWall st cs.

  Context {E : Type} (styleFor : E -> barrierStyle T).
  (** BarrierBuilder.cpp:44-52, setStyle: the style kept and whether it was set. *)
  Definition setStyle (e : E) (kept : option (barrierStyle T)) : option (barrierStyle T) * bool :=
    match kept with None => (Some (styleFor e), true) | Some _ => (kept, false) end.
  (** BarrierBuilder.cpp:54-57, resetStyle. *)
  Definition resetStyle (isSet : bool) (kept : option (barrierStyle T)) : option (barrierStyle T) :=
    if isSet then None else kept.
  (** BarrierBuilder.cpp:60-74, build; the style is dereferenced in lines 64-69. *)
  Definition build (e : E) (cs : list (point T)) (kept : option (barrierStyle T))
    : outcome (option (barrierStyle T) * list (bmesh T)) :=
    let '(kept, isSet) := setStyle e kept in
    match kept with
    | None => UB
    | Some st => bind (buildBarrier st cs) (fun ms => Ok (resetStyle isSet kept, ms))
    end.
  (** BarrierBuilder.cpp:23-42: the visitor with the style it keeps and the meshes it gives to the callback. *)
  Fixpoint visitBarrier (b : barrier E T) (kept : option (barrierStyle T)) : outcome (option (barrierStyle T) * list (bmesh T)) :=
    match b with
    | BNode e c => build e [c] kept
    | BWay e cs => build e cs kept
    | BArea e cs => build e cs kept
    | BRelation e ms =>
        let '(kept, isSet) := setStyle e kept in
        bind ((fix members ms kept :=
                 match ms with
                 | [] => Ok (kept, [])
                 | m :: ms' => bind (visitBarrier m kept) (fun '(kept, a) =>
                               bind (members ms' kept) (fun '(kept, r) => Ok (kept, a ++ r)))
                 end) ms kept) (fun '(kept, a) => Ok (resetStyle isSet kept, a))
    end.
End Rows.

(** Truncation towards zero (MeshUtils.hpp:50). *)
Definition truncR (x : R) : Z := if Rlt_dec x 0 then (- Int_part (- x))%Z else Int_part x.
(** Exact real arithmetic with any distance and elevation (GeoUtils.hpp:117, MeshUtils.hpp:55). *)
Definition realRows (dist : point R -> point R -> R) (ele : R -> R -> R) : rows R := mkRows dist truncR ele.
