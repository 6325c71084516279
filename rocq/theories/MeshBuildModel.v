(** Models of core/src/builders/MeshBuilder.cpp, core/src/utils/MeshUtils.hpp (copyMesh) and the
    contours of core/src/math/Polygon.hpp.  A double is a value of [T] with the operations of
    [nums T]; the Triangle library, elevation, noise, gradients and square roots are parameters.
    Arithmetic on int is exact and undefined when it leaves 32 bits; a conversion of a size to
    int wraps. *)
From Verif Require Import Base RingModel.
Local Open Scope nat_scope.

(** core/src/math/Mesh.hpp:12-18; the name takes no part. *)
Record bmesh (T : Type) := mkBMesh {
  bverts : list T; btris : list Z; bcols : list Z; buvs : list T; bmap : list Z }.
Arguments mkBMesh {T}. Arguments bverts {T}. Arguments btris {T}. Arguments bcols {T}.
Arguments buvs {T}. Arguments bmap {T}.

(** Mesh.hpp:20-26: a new mesh. *)
Definition emptyMesh {T} : bmesh T := mkBMesh [] [] [] [] [].

(** static_cast<int> of a std::size_t, e.g. MeshBuilder.cpp:58. *)
Definition toInt (n : nat) : Z :=
  let u := (Z.of_nat n mod 2 ^ 32)%Z in if (u <? 2 ^ 31)%Z then u else (u - 2 ^ 32)%Z.
(** Addition of int, e.g. MeshBuilder.cpp:101. *)
Definition intAdd (a b : Z) : outcome Z :=
  let s := (a + b)%Z in if ((- 2 ^ 31 <=? s) && (s <? 2 ^ 31))%Z then Ok s else UB.

(** core/src/math/Vector2.hpp:11-13. *)
Record vec2 (T : Type) := mkV2 { v2x : T; v2y : T }.
Arguments mkV2 {T}. Arguments v2x {T}. Arguments v2y {T}.
(** core/src/math/Vector3.hpp:11-14. *)
Record vec3 (T : Type) := mkV3 { v3x : T; v3y : T; v3z : T }.
Arguments mkV3 {T}. Arguments v3x {T}. Arguments v3y {T}. Arguments v3z {T}.

(** core/src/mapcss/StyleSheet.hpp:16-34, TextureRegion. *)
Record region := mkRegion {
  ratlasW : Z; ratlasH : Z; rx : Z; ry : Z; rwidth : Z; rheight : Z }.
(** StyleSheet.hpp:29-31, isEmpty. *)
Definition emptyRegion (r : region) : bool := ((ratlasW r =? 0) || (ratlasH r =? 0))%Z.

(** The part of triangulateio read by fillMesh, MeshBuilder.cpp:66-104. *)
Record triio (T : Type) := mkTri {
  tpoints : list (T * T); tmarkers : option (list Z); tcorners : nat; ttris : list (list Z) }.
Arguments mkTri {T}. Arguments tpoints {T}. Arguments tmarkers {T}. Arguments tcorners {T}.
Arguments ttris {T}.

(** core/src/math/Polygon.hpp:15-22; [outers] and [inners] hold the ranges. *)
Record polygon (T : Type) := mkPoly {
  ppoints : list T; pholes : list T; psegs : list Z;
  pouters : list (nat * nat); pinners : list (nat * nat) }.
Arguments mkPoly {T}. Arguments ppoints {T}. Arguments pholes {T}. Arguments psegs {T}.
Arguments pouters {T}. Arguments pinners {T}.
(** Polygon.hpp:26-30. *)
Definition emptyPolygon {T} : polygon T := mkPoly [] [] [] [] [].

(** MeshBuilder.hpp:23-56, GeometryOptions. *)
Record geomOptions (T : Type) := mkGeom {
  garea : T; gnoise : T; gele : T; gheight : T; gflip : bool; gback : bool; gsplit : nat }.
Arguments mkGeom {T}. Arguments garea {T}. Arguments gnoise {T}. Arguments gele {T}.
Arguments gheight {T}. Arguments gflip {T}. Arguments gback {T}. Arguments gsplit {T}.

(** MeshBuilder.hpp:58-84, AppearanceOptions; the gradient as the color it gives for a noise. *)
Record lookOptions (T : Type) := mkLook {
  lgradient : T -> Z; lnoise : T; ltexture : Z; lregion : region; lscale : T }.
Arguments mkLook {T}. Arguments lgradient {T}. Arguments lnoise {T}. Arguments ltexture {T}.
Arguments lregion {T}. Arguments lscale {T}.

(** What the builder was constructed with (MeshBuilder.cpp:108-112) and the functions of other
    parts it calls: elevation of the tile by latitude and longitude, NoiseUtils::perlin2D,
    GeoUtils::getOffset, Vector2::distance, Triangle with "pzBQ" and with "prazPQ". *)
Record builderEnv (T : Type) := mkEnv {
  eLowest : T; eEps : T; eElevation : T -> T -> T; ePerlin : T -> T -> T -> T;
  eOffset : T -> T -> T -> T; eDistance : vec2 T -> vec2 T -> T;
  eWidth : T; eHeight : T; eMinLon : T; eMinLat : T;
  eTriangulate : polygon T -> triio T; eRefine : nat -> T -> triio T -> triio T }.
Arguments mkEnv {T}. Arguments eLowest {T}. Arguments eEps {T}. Arguments eElevation {T}.
Arguments ePerlin {T}. Arguments eOffset {T}. Arguments eDistance {T}. Arguments eWidth {T}.
Arguments eHeight {T}. Arguments eMinLon {T}. Arguments eMinLat {T}.
Arguments eTriangulate {T}. Arguments eRefine {T}.

Section Builder.
  Context {T : Type} (n : nums T) (env : builderEnv T).

  (** MeshBuilder.cpp:283-293 and 295-297, addVertex. *)
  Definition addVertex (m : bmesh T) (p : vec3 T) (color index : Z) (uv : vec2 T) : bmesh T :=
    mkBMesh (bverts m ++ [v3x p; v3z p; v3y p]) (btris m ++ [index]) (bcols m ++ [color])
            (buvs m ++ [v2x uv; v2y uv]) (bmap m).

  (** MeshBuilder.cpp:24-44, createMapFunc. *)
  Definition mapUv (look : lookOptions T) (x y : T) : vec2 T :=
    if emptyRegion (lregion look) then mkV2 (nzero n) (nzero n)
    else mkV2 (nmul n (ndiv n (nsub n x (eMinLon env)) (eWidth env)) (lscale look))
              (nmul n (ndiv n (nsub n y (eMinLat env)) (eHeight env)) (lscale look)).

  (** MeshBuilder.cpp:71-78: the height of the [i]th point. *)
  Definition pointEle (geo : geomOptions T) (x y : T) (marker : option Z) : T :=
    let base := if nlt n (eLowest env) (gele geo) then gele geo else eElevation env y x in
    let ele := nadd n (gheight geo) base in
    match marker with
    | None => ele
    | Some k => if (k =? 1)%Z then ele else nadd n ele (ePerlin env x y (gnoise geo))
    end.

  (** MeshBuilder.cpp:66-93, the loop over the points from the [i]th on. *)
  Fixpoint fillPoints (geo : geomOptions T) (look : lookOptions T) (markers : option (list Z))
      (i : nat) (ps : list (T * T)) (m : bmesh T) : outcome (bmesh T) :=
    match ps with
    | [] => Ok m
    | (x, y) :: ps' =>
        bind (match markers with
              | None => Ok None
              | Some l => match nth_error l i with Some k => Ok (Some k) | None => UB end
              end) (fun marker =>
        let uv := mapUv look x y in
        fillPoints geo look markers (Datatypes.S i) ps'
          (mkBMesh (bverts m ++ [x; y; pointEle geo x y marker]) (btris m)
             (bcols m ++ [lgradient look (ePerlin env x y (lnoise look))])
             (buvs m ++ [v2x uv; v2y uv]) (bmap m)))
    end.

  (** MeshBuilder.cpp:100-104, the loop over the triangles; a row of trianglelist has
      numberofcorners entries and a corner beyond it is not modelled (UB). *)
  Fixpoint fillTriangles (start : Z) (flip : bool) (rows : list (list Z)) (m : bmesh T)
    : outcome (bmesh T) :=
    match rows with
    | [] => Ok m
    | r :: rows' =>
        let corner k := match nth_error r k with Some c => intAdd start c | None => UB end in
        bind (corner (if flip then 2 else 1)) (fun a =>
        bind (corner 0) (fun b =>
        bind (corner (if flip then 1 else 2)) (fun c =>
        fillTriangles start flip rows'
          (mkBMesh (bverts m) (btris m ++ [a; b; c]) (bcols m) (buvs m) (bmap m)))))
    end.

  (** MeshBuilder.cpp:54-105, fillMesh. *)
  Definition fillMesh (io : triio T) (geo : geomOptions T) (look : lookOptions T) (m : bmesh T)
    : outcome (bmesh T) :=
    let start := toInt (length (bverts m) / 3) in
    bind (fillPoints geo look (tmarkers io) 0 (tpoints io) m) (fun m =>
    fillTriangles start (gflip geo) (ttris io) m).

  (** MeshBuilder.cpp:116-190, addPolygon. *)
  Definition addPolygon (m : bmesh T) (p : polygon T) (geo : geomOptions T) (look : lookOptions T)
    : outcome (bmesh T) :=
    let mid := eTriangulate env p in
    if nlt n (nabs n (garea geo)) (eEps env) then fillMesh mid geo look m
    else fillMesh (eRefine env (gsplit geo) (garea geo) mid) geo look m.

  (** MeshBuilder.cpp:208-230, addPlane. *)
  Definition addPlane3 (m : bmesh T) (p1 p2 : vec3 T) (geo : geomOptions T) (look : lookOptions T)
    : outcome (bmesh T) :=
    let color := lgradient look (ePerlin env (v3x p1) (v3y p1) (lnoise look)) in
    let index := toInt (length (bverts m) / 3) in
    let size := ndiv n (eWidth env) (lscale look) in
    let scaleX := ndiv n (eDistance env (mkV2 (v3x p2) (v3z p2)) (mkV2 (v3x p1) (v3z p1))) size in
    let scaleY := ndiv n (eOffset env (v3y p1) (v3x p1) (gheight geo)) size in
    let top1 := mkV3 (v3x p1) (nadd n (v3y p1) (gheight geo)) (v3z p1) in
    let top2 := mkV3 (v3x p2) (nadd n (v3y p2) (gheight geo)) (v3z p2) in
    let z := nzero n in
    bind (intAdd index 1) (fun i1 => bind (intAdd index 2) (fun i2 => bind (intAdd index 3) (fun j0 =>
    bind (intAdd j0 1) (fun j1 => bind (intAdd j0 2) (fun j2 =>
    let m := addVertex m p1 color index (mkV2 z z) in
    let m := addVertex m p2 color i2 (mkV2 scaleX z) in
    let m := addVertex m top2 color i1 (mkV2 scaleX scaleY) in
    let m := addVertex m top1 color j0 (mkV2 z scaleY) in
    let m := addVertex m p1 color j2 (mkV2 z z) in
    Ok (addVertex m top2 color j1 (mkV2 scaleX scaleY))))))).

  (** MeshBuilder.cpp:192-206, addPlane of two points on the ground. *)
  Definition addPlane2 (m : bmesh T) (p1 p2 : vec2 T) (geo : geomOptions T) (look : lookOptions T)
    : outcome (bmesh T) :=
    let ele p := nadd n (if nlt n (eLowest env) (gele geo) then gele geo
                         else eElevation env (v2y p) (v2x p))
                        (ePerlin env (v2x p) (v2y p) (gnoise geo)) in
    addPlane3 m (mkV3 (v2x p1) (ele p1) (v2y p1)) (mkV3 (v2x p2) (ele p2) (v2y p2)) geo look.

  (** MeshBuilder.cpp:232-255, addTriangle. *)
  Definition addTriangle (m : bmesh T) (v0 v1 v2 : vec3 T) (uv0 uv1 uv2 : vec2 T)
      (geo : geomOptions T) (look : lookOptions T) : outcome (bmesh T) :=
    let color := lgradient look (ePerlin env (v3x v0) (v3z v0) (lnoise look)) in
    let start := toInt (length (bverts m) / 3) in
    bind (intAdd start 1) (fun i1 => bind (intAdd i1 1) (fun i2 =>
    let m := addVertex m v0 color start uv0 in
    let m := addVertex m v1 color i1 uv1 in
    let m := addVertex m v2 color i2 uv2 in
    if gback geo then
      bind (intAdd i2 1) (fun i3 => bind (intAdd i3 1) (fun i4 =>
      let m := addVertex m v2 color i2 uv0 in
      let m := addVertex m v1 color i3 uv1 in
      Ok (addVertex m v0 color i4 uv2)))
    else Ok m)).

  (** MeshBuilder.cpp:273-280: the record written for a texture. *)
  Definition mapRecord (size : nat) (look : lookOptions T) : list Z :=
    let r := lregion look in
    [toInt size; ltexture look; ratlasW r; ratlasH r; rx r; ry r; rwidth r; rheight r].

  (** MeshBuilder.cpp:261-267, the comparisons against the entries read from the end; an entry
      before the first one is read out of bounds. *)
  Fixpoint matchBack (l : list Z) (want : list Z) : outcome (option (list Z)) :=
    match want with
    | [] => Ok (Some l)
    | w :: want' =>
        match l with
        | [] => UB
        | x :: l' => if (x =? w)%Z then matchBack l' want' else Ok None
        end
    end.

  (** MeshBuilder.cpp:257-281, writeTextureMappingInfo. *)
  Definition writeTexture (m : bmesh T) (look : lookOptions T) : outcome (bmesh T) :=
    let rec := mapRecord (length (buvs m)) look in
    let put l := Ok (mkBMesh (bverts m) (btris m) (bcols m) (buvs m) l) in
    match bmap m with
    | [] => put rec
    | _ =>
        bind (matchBack (rev (bmap m)) (rev (tl rec))) (fun o =>
        match o with
        | None => put (bmap m ++ rec)
        | Some [] => UB
        | Some (_ :: front) => put (rev front ++ rec)
        end)
    end.

  (** MeshUtils.hpp:16-21: the vertices moved; a list that is not a multiple of three is read
      beyond its end. *)
  Fixpoint moved (off : vec3 T) (l : list T) : outcome (list T) :=
    match l with
    | [] => Ok []
    | a :: b :: c :: l' =>
        bind (moved off l') (fun r => Ok (nadd n a (v3x off) :: nadd n b (v3z off) :: nadd n c (v3y off) :: r))
    | _ => UB
    end.
  (** MeshUtils.hpp:23-29: each index moved. *)
  Fixpoint shifted (d : Z) (l : list Z) : outcome (list Z) :=
    match l with
    | [] => Ok []
    | a :: l' => bind (intAdd a d) (fun a => bind (shifted d l') (fun r => Ok (a :: r)))
    end.
  (** MeshUtils.hpp:38-41: every eighth entry of the copied map moved, [i] entries before the next
      one. *)
  Fixpoint shiftMap (d : Z) (i : nat) (l : list Z) : outcome (list Z) :=
    match l with
    | [] => Ok []
    | a :: l' =>
        match i with
        | O => bind (intAdd a d) (fun a => bind (shiftMap d 7 l') (fun r => Ok (a :: r)))
        | Datatypes.S i' => bind (shiftMap d i' l') (fun r => Ok (a :: r))
        end
    end.
  (** MeshUtils.hpp:11-42, copyMesh; source and destination are different meshes. *)
  Definition copyMesh (off : vec3 T) (src dst : bmesh T) : outcome (bmesh T) :=
    let start := toInt (length (bverts dst) / 3) in
    bind (moved off (bverts src)) (fun vs =>
    bind (shifted start (btris src)) (fun ts =>
    bind (shiftMap (toInt (length (buvs dst ++ buvs src) - length (buvs src))) 0 (bmap src)) (fun mp =>
    Ok (mkBMesh (bverts dst ++ vs) (btris dst ++ ts) (bcols dst ++ bcols src)
                (buvs dst ++ buvs src) (bmap dst ++ mp))))).
  (** MeshUtils.hpp:52-60: the copies made by copyMeshAlong at the given offsets. *)
  Fixpoint copyAll (src : bmesh T) (offs : list (vec3 T)) (dst : bmesh T) : outcome (bmesh T) :=
    match offs with
    | [] => Ok dst
    | o :: offs' => bind (copyMesh o src dst) (copyAll src offs')
    end.

  (** The calls that change a mesh: MeshBuilder.hpp:93-133 and MeshUtils.hpp:11. *)
  Inductive meshOp :=
  | OpPolygon (p : polygon T) (geo : geomOptions T) (look : lookOptions T)
  | OpPlane2 (p1 p2 : vec2 T) (geo : geomOptions T) (look : lookOptions T)
  | OpPlane3 (p1 p2 : vec3 T) (geo : geomOptions T) (look : lookOptions T)
  | OpTriangle (v0 v1 v2 : vec3 T) (uv0 uv1 uv2 : vec2 T) (geo : geomOptions T) (look : lookOptions T)
  | OpTexture (look : lookOptions T)
  | OpCopy (off : vec3 T) (src : bmesh T).

  (** One call: MeshBuilder.cpp:116-281, MeshUtils.hpp:11-42. *)
  Definition meshStep (o : meshOp) (m : bmesh T) : outcome (bmesh T) :=
    match o with
    | OpPolygon p geo look => addPolygon m p geo look
    | OpPlane2 p1 p2 geo look => addPlane2 m p1 p2 geo look
    | OpPlane3 p1 p2 geo look => addPlane3 m p1 p2 geo look
    | OpTriangle v0 v1 v2 uv0 uv1 uv2 geo look => addTriangle m v0 v1 v2 uv0 uv1 uv2 geo look
    | OpTexture look => writeTexture m look
    | OpCopy off src => copyMesh off src m
    end.
  (** A sequence of calls on one mesh, MeshBuilder.hpp:93-133. *)
  Fixpoint meshRun (ops : list meshOp) (m : bmesh T) : outcome (bmesh T) :=
    match ops with
    | [] => Ok m
    | o :: ops' => bind (meshStep o m) (meshRun ops')
    end.

  (** Vector2.hpp:16-19, operator==. *)
  Definition sameVec (a b : vec2 T) : bool :=
    nlt n (nabs n (nsub n (v2x a) (v2x b))) (eEps env) && nlt n (nabs n (nsub n (v2y a) (v2y b))) (eEps env).

  (** Polygon.hpp:63-70: points and segments of the contour, [i] of [count] already added, the
      first segment being number [offset]. *)
  Fixpoint contourLoop (offset count i : nat) (l : list (vec2 T)) (p : polygon T) : polygon T :=
    match l with
    | [] => p
    | v :: l' =>
        contourLoop offset count (Datatypes.S i) l'
          (mkPoly (ppoints p ++ [v2x v; v2y v]) (pholes p)
             (psegs p ++ [toInt (offset + i); toInt (offset + Datatypes.S i mod count)])
             (pouters p) (pinners p))
    end.
  (** Polygon.hpp:126-129: the edge between [i] and [j] in the ray test; [le] is [<=]. *)
  Definition rayEdge (le : T -> T -> bool) (p i j : vec2 T) (inside : bool) : bool :=
    if ((nlt n (v2y i) (v2y p) && le (v2y p) (v2y j)) || (nlt n (v2y j) (v2y p) && le (v2y p) (v2y i)))
       && (le (v2x i) (v2x p) || le (v2x j) (v2x p))
    then xorb inside
           (nlt n (nadd n (v2x i) (nmul n (ndiv n (nsub n (v2y p) (v2y i)) (nsub n (v2y j) (v2y i)))
                                          (nsub n (v2x j) (v2x i)))) (v2x p))
    else inside.
  (** Polygon.hpp:125-131: the loop from the edge that ends at the head of the list. *)
  Fixpoint rayLoop (le : T -> T -> bool) (p j : vec2 T) (inside : bool) (l : list (vec2 T)) : bool :=
    match l with
    | [] => inside
    | i :: l' => rayLoop le p i (rayEdge le p i j inside) l'
    end.
  (** Polygon.hpp:119-134, isPointInPolygon. *)
  Definition pointInside (le : T -> T -> bool) (p : vec2 T) (poly : list (vec2 T)) : bool :=
    match poly with [] => false | v :: _ => rayLoop le p (last poly v) false poly end.

  (** Polygon.hpp:98-112: candidates beside the middle of an edge, at [j] of [limit]; [ofNat]
      converts the int [j].  A candidate has to pass [test]. *)
  Fixpoint tryEdge (ofNat : nat -> T) (test : vec2 T -> bool) (cx cy dx dy : T) (js : list nat)
    : option (vec2 T) :=
    match js with
    | [] => None
    | j :: js' =>
        let r := mkV2 (nadd n cx (ndiv n dx (ofNat j))) (nadd n cy (ndiv n dy (ofNat j))) in
        let l := mkV2 (nsub n cx (ndiv n dx (ofNat j))) (nsub n cy (ndiv n dy (ofNat j))) in
        if test r then Some r else if test l then Some l
        else tryEdge ofNat test cx cy dx dy js'
    end.
  (** Polygon.hpp:88-115: the edges of the contour in order; [k] is 1.374. *)
  Fixpoint tryEdges (ofNat : nat -> T) (k : T) (test : vec2 T -> bool) (es : list (vec2 T * vec2 T))
    : option (vec2 T) :=
    match es with
    | [] => None
    | (a, b) :: es' =>
        match tryEdge ofNat test (ndiv n (nadd n (v2x a) (v2x b)) (ofNat 2))
                (ndiv n (nadd n (v2y a) (v2y b)) (ofNat 2))
                (ndiv n (nsub n (v2y b) (v2y a)) k) (ndiv n (nsub n (v2x a) (v2x b)) k)
                (seq 1 8) with
        | Some q => Some q
        | None => tryEdges ofNat k test es'
        end
    end.
  (** Polygon.hpp:74-116, findPointInPolygon; [bounds] is the test against the bounding rectangle
      (lines 75-76, Rectangle.hpp:46-48). *)
  Definition findPoint (le : T -> T -> bool) (ofNat : nat -> T) (k : T) (bounds : vec2 T -> bool)
      (contour : list (vec2 T)) : option (vec2 T) :=
    match contour with
    | [a; b; c] =>
        Some (mkV2 (ndiv n (nadd n (nadd n (v2x a) (v2x b)) (v2x c)) (ofNat 3))
                   (ndiv n (nadd n (nadd n (v2y a) (v2y b)) (v2y c)) (ofNat 3)))
    | _ =>
        tryEdges ofNat k (fun q => bounds q && pointInside le q contour)
          (combine contour (tl contour ++ firstn 1 contour))
    end.

  (** Polygon.hpp:41-71, addContour; [inside] is the point found by findPointInPolygon
      (lines 74-116), if any. *)
  Definition addContour (p : polygon T) (contour : list (vec2 T)) (isHole : bool)
      (inside : option (vec2 T)) : outcome (polygon T) :=
    match contour with
    | [] => UB
    | v :: _ =>
        let count := if sameVec v (last contour v) then length contour - 1 else length contour in
        let start := length (ppoints p) in
        let go p := Ok (contourLoop (length (psegs p) / 2) count 0 (firstn count contour) p) in
        let range := (start, start + count * 2) in
        if isHole then
          match inside with
          | None => Ok p
          | Some q => go (mkPoly (ppoints p) (pholes p ++ [v2x q; v2y q]) (psegs p) (pouters p)
                                 (pinners p ++ [range]))
          end
        else go (mkPoly (ppoints p) (pholes p) (psegs p) (pouters p ++ [range]) (pinners p))
    end.

  (** A sequence of addContour and addHole on one polygon, Polygon.hpp:32-38. *)
  Fixpoint addContours (p : polygon T) (l : list (list (vec2 T) * bool * option (vec2 T)))
    : outcome (polygon T) :=
    match l with
    | [] => Ok p
    | (contour, isHole, inside) :: l' =>
        bind (addContour p contour isHole inside) (fun p => addContours p l')
    end.
End Builder.
