(** Model of core/src/builders/buildings/BuildingBuilder.cpp with FlatRoofBuilder.hpp, PyramidalRoofBuilder.hpp and
    FlatFacadeBuilder.hpp, over any operations on double.  The other roofs and facades take part as functions which
    give the calls that fill the mesh (MeshBuildModel.meshOp). *)
From Verif Require Import Base GeoModel RingModel MeshBuildModel.
Local Open Scope nat_scope.

(** BuildingBuilder.cpp:55-99, the roofs by name; a roof of another file (dome, mansard, skillion, round) gives its calls
    from the appearance, the polygon, the height of the roof and the height above ground (RoofBuilder.hpp:25-47). *)
Inductive roofKind (T : Type) :=
| RoofNone | RoofFlat | RoofPyramidal
| RoofOther (f : lookOptions T -> polygon T -> T -> T -> outcome (list (@meshOp T))).
Arguments RoofNone {T}. Arguments RoofFlat {T}. Arguments RoofPyramidal {T}. Arguments RoofOther {T}.
(** BuildingBuilder.cpp:101-122, the facades by name; cylinder and sphere as above (FacadeBuilder.hpp:25-43). *)
Inductive facadeKind (T : Type) :=
| FacadeFlat
| FacadeOther (f : lookOptions T -> polygon T -> T -> T -> outcome (list (@meshOp T))).
Arguments FacadeFlat {T}. Arguments FacadeOther {T}.

(** What the builder reads of a style: building and multipolygon (BuildingBuilder.cpp:251-257), height and min-height
    (262-267), the type, height and appearance of the roof (285-302), the type and appearance of the facade (328-342).  A
    type which is not in the map of lines 55-122 is [None].  The texture depends on an id (MeshContext.hpp:57-61). *)
Record houseStyle (T : Type) := mkHouse {
  hBuilding : bool; hMulti : bool; hHeight : T; hMin : T;
  hRoof : option (roofKind T); hRoofHeight : T; hRoofLook : N -> lookOptions T;
  hFacade : option (facadeKind T); hFacadeLook : N -> lookOptions T }.
Arguments mkHouse {T}. Arguments hBuilding {T}. Arguments hMulti {T}. Arguments hHeight {T}. Arguments hMin {T}.
Arguments hRoof {T}. Arguments hRoofHeight {T}. Arguments hRoofLook {T}. Arguments hFacade {T}. Arguments hFacadeLook {T}.

(** The elements visited (BuildingBuilder.cpp:186-225); [E] stands for id, tags and what the style provider looks at. *)
Inductive house (E T : Type) :=
| HNode (e : E)
| HWay (e : E)
| HArea (e : E) (cs : list (point T))
| HRelation (e : E) (ms : list (house E T)).
Arguments HNode {E T}. Arguments HWay {E T}. Arguments HArea {E T}. Arguments HRelation {E T}.

(** What the builder was constructed with and functions of other parts: the number ten (BuildingBuilder.cpp:265), equality
    of double (264), the elevation of the tile by latitude and longitude (269), GeoUtils::getScaled with the box of the tile
    (GeoUtils.hpp:112-114), conversion of a count (GeometryUtils.hpp:83) and a point inside a contour
    (Polygon.hpp:74-116). *)
Record houseEnv (T : Type) := mkHouseEnv {
  kTen : T; kTwo : T; kEqual : T -> T -> bool; kEle : T -> T -> T; kScaled : T -> T -> T; kCount : nat -> T;
  kInside : list (vec2 T) -> option (vec2 T) }.
Arguments mkHouseEnv {T}. Arguments kTen {T}. Arguments kTwo {T}. Arguments kEqual {T}. Arguments kEle {T}.
Arguments kScaled {T}. Arguments kCount {T}. Arguments kInside {T}.

Section House.
  Context {T E : Type} (n : nums T) (env : builderEnv T) (w : houseEnv T).
  Context (idOf : E -> N) (ignored : E -> bool) (styleOf : E -> houseStyle T).
  Local Notation "a + b" := (nadd n a b).
  Local Notation "a - b" := (nsub n a b).
  Local Notation "a / b" := (ndiv n a b).

  (** The loops over indices (FlatFacadeBuilder.hpp:22-45, PyramidalRoofBuilder.hpp:24-41): one result for each. *)
  Fixpoint overAll {A B} (f : A -> outcome B) (l : list A) : outcome (list B) :=
    match l with
    | [] => Ok []
    | a :: l' => bind (f a) (fun b => bind (overAll f l') (fun r => Ok (b :: r)))
    end.
  (** BuildingBuilder.cpp:125-133, toPoints. *)
  Definition toPoints (cs : list (point T)) : list (vec2 T) := map (fun c => mkV2 (plon c) (plat c)) cs.
  (** polygon.points[i] and the next entry (FlatFacadeBuilder.hpp:36-38, PyramidalRoofBuilder.hpp:31-33). *)
  Definition pointAt (p : polygon T) (i : nat) : outcome (vec2 T) :=
    match nth_error (ppoints p) i, nth_error (ppoints p) (Datatypes.S i) with
    | Some x, Some y => Ok (mkV2 x y)
    | _, _ => UB
    end.
  (** The even indices of a range (FlatFacadeBuilder.hpp:33-35, PyramidalRoofBuilder.hpp:28); the end lies an even number
      of entries behind the begin (Polygon.hpp:46-49). *)
  Definition indicesOf (range : nat * nat) : list nat :=
    map (fun j => fst range + 2 * j)%nat (seq 0 ((snd range - fst range) / 2)).

  (** MeshContext.hpp:25 with MeshBuilder.hpp:24-31: the geometry options with an elevation and a height. *)
  Definition houseGeo (ele height : T) (flip : bool) : geomOptions T :=
    mkGeom (nzero n) (nzero n) ele height flip false 0.
  (** RoofBuilder.hpp:37-40 and FacadeBuilder.hpp:37-40, setColorNoiseFreq with 0 (BuildingBuilder.cpp:301, 320, 342). *)
  Definition noNoise (look : lookOptions T) : lookOptions T :=
    mkLook (lgradient look) (nzero n) (ltexture look) (lregion look) (lscale look).

  (** FlatRoofBuilder.hpp:23-32, build. *)
  Definition flatRoof (look : lookOptions T) (p : polygon T) (minHeight : T) (flip : bool) : list meshOp :=
    [OpPolygon p (houseGeo minHeight (nzero n) flip) look].

  (** GeometryUtils.hpp:72-88, getCentroid. *)
  Definition centroidAt (p : polygon T) (range : nat * nat) : outcome (vec2 T) :=
    bind (overAll (pointAt p) (indicesOf range)) (fun l =>
    let s := fold_left (fun s q => mkV2 (v2x s + v2x q) (v2y s + v2y q)) l (mkV2 (nzero n) (nzero n)) in
    let count := kCount w (snd range - fst range)%nat / kTwo w in
    Ok (mkV2 (v2x s / count) (v2y s / count))).
  (** PyramidalRoofBuilder.hpp:24-41: the triangles over an outer contour. *)
  Definition pyramidRange (look : lookOptions T) (p : polygon T) (height minHeight : T) (range : nat * nat) : outcome (list meshOp) :=
    let scale := kScaled w (lscale look) height in
    let o := nzero n in
    bind (centroidAt p range) (fun center =>
    overAll (fun i =>
      let next := if (i =? snd range - 2)%nat then fst range else (i + 2)%nat in
      bind (pointAt p i) (fun a =>
      bind (pointAt p next) (fun b =>
      Ok (OpTriangle (mkV3 (v2x a) minHeight (v2y a)) (mkV3 (v2x center) (minHeight + height) (v2y center))
            (mkV3 (v2x b) minHeight (v2y b)) (mkV2 o o) (mkV2 scale o) (mkV2 scale scale)
            (houseGeo (eLowest env) o false) look)))) (indicesOf range)).
  (** PyramidalRoofBuilder.hpp:19-44, build. *)
  Definition pyramidalRoof (look : lookOptions T) (p : polygon T) (height minHeight : T) : outcome (list meshOp) :=
    bind (overAll (pyramidRange look p height minHeight) (pouters p)) (fun l => Ok (concat l ++ [OpTexture look])).

  (** FlatFacadeBuilder.hpp:31-46, buildRange. *)
  Definition facadeRange (look : lookOptions T) (p : polygon T) (height minHeight : T) (range : nat * nat) : outcome (list meshOp) :=
    overAll (fun i =>
      let j := if (i =? fst range)%nat then (snd range - 2)%nat else (i - 2)%nat in
      bind (pointAt p i) (fun p2 =>
      bind (pointAt p j) (fun p1 =>
      Ok (OpPlane2 p1 p2 (houseGeo minHeight height false) look)))) (rev (indicesOf range)).
  (** FlatFacadeBuilder.hpp:18-27, build. *)
  Definition flatFacade (look : lookOptions T) (p : polygon T) (height minHeight : T) : outcome (list meshOp) :=
    bind (overAll (facadeRange look p height minHeight) (pouters p ++ pinners p)) (fun l => Ok (concat l)).

  (** BuildingBuilder.cpp:284-306, attachRoof; the end of the map is dereferenced for another type. *)
  Definition attachRoof (id : N) (st : houseStyle T) (p : polygon T) (elevation height : T) : outcome (list meshOp) :=
    let look := noNoise (hRoofLook st id) in
    let minHeight := elevation + height in
    bind (match hRoof st with
          | None => UB
          | Some RoofNone => Ok []
          | Some RoofFlat => Ok (flatRoof look p minHeight false)
          | Some RoofPyramidal => pyramidalRoof look p (hRoofHeight st) minHeight
          | Some (RoofOther f) => f look p (hRoofHeight st) minHeight
          end) (fun ops => Ok (ops ++ [OpTexture look])).
  (** BuildingBuilder.cpp:308-325, attachFloors. *)
  Definition attachFloors (id : N) (st : houseStyle T) (p : polygon T) (elevation : T) : list meshOp :=
    let look := noNoise (hRoofLook st id) in
    flatRoof look p elevation true ++ [OpTexture look].
  (** BuildingBuilder.cpp:327-346, attachFacade. *)
  Definition attachFacade (id : N) (st : houseStyle T) (p : polygon T) (elevation height : T) : outcome (list meshOp) :=
    let look := noNoise (hFacadeLook st id) in
    bind (match hFacade st with
          | None => UB
          | Some FacadeFlat => flatFacade look p height elevation
          | Some (FacadeOther f) => f look p height elevation
          end) (fun ops => Ok (ops ++ [OpTexture look])).
  (** BuildingBuilder.cpp:259-282, build: the calls on the mesh; the id is that of the element the mesh was created for
      (line 236). *)
  Definition buildOps (id : N) (st : houseStyle T) (p : polygon T) : outcome (list meshOp) :=
    bind (pointAt p 0) (fun first =>
    let height := if kEqual w (hHeight st) (nzero n) then kTen w else hHeight st in
    let elevation := kEle w (v2y first) (v2x first) + hMin st in
    let height := height - hMin st in
    bind (attachRoof id st p elevation height) (fun roof =>
    let floors := if nlt n (nzero n) (hMin st) then attachFloors id st p elevation else [] in
    bind (attachFacade id st p elevation height) (fun facade => Ok (roof ++ floors ++ facade)))).

  (** BuildingBuilder.cpp:145-173, MultiPolygonVisitor. *)
  Fixpoint multiVisit (h : house E T) (p : polygon T) : outcome (polygon T) :=
    match h with
    | HNode _ | HWay _ => Throw DomainError
    | HArea _ cs => let l := toPoints cs in addContour n env p l (isClockwise n cs) (kInside w l)
    | HRelation _ ms =>
        (fix members ms p := match ms with [] => Ok p | m :: ms' => bind (multiVisit m p) (members ms') end) ms p
    end.

  (** BuildingBuilder.cpp:348-350: the polygon and the mesh with the element it was created for. *)
  Record site := mkSite { sPoly : option (polygon T); sMesh : option (E * bmesh T) }.
  (** BuildingBuilder.cpp:181-184: the builder is constructed. *)
  Definition newSite : site := mkSite None None.
  (** BuildingBuilder.cpp:229-241, ensureContext. *)
  Definition ensureContext (e : E) (s : site) : site * bool :=
    let p := match sPoly s with None => Some emptyPolygon | _ => sPoly s end in
    match sMesh s with
    | None => (mkSite p (Some (e, emptyMesh)), true)
    | Some _ => (mkSite p (sMesh s), false)
    end.
  (** BuildingBuilder.cpp:243-249, completeIfNecessary: the meshes given to the callback. *)
  Definition complete (justCreated : bool) (s : site) : outcome (site * list (E * bmesh T)) :=
    if justCreated then
      match sMesh s with None => UB | Some m => Ok (mkSite (sPoly s) None, [m]) end
    else Ok (s, []).
  (** BuildingBuilder.cpp:259-282, build, after the polygon was filled by [fill]. *)
  Definition buildWith (st : houseStyle T) (fill : polygon T -> outcome (polygon T)) (s : site) : outcome site :=
    match sPoly s, sMesh s with
    | Some p, Some (e, m) =>
        bind (fill p) (fun p =>
        bind (buildOps (idOf e) st p) (fun ops =>
        bind (meshRun n env ops m) (fun m => Ok (mkSite None (Some (e, m))))))
    | _, _ => UB
    end.

  (** BuildingBuilder.cpp:186-225: the visitor with the state it keeps and the meshes it gives to the callback. *)
  Fixpoint visitHouse (h : house E T) (s : site) : outcome (site * list (E * bmesh T)) :=
    match h with
    | HNode _ | HWay _ => Ok (s, [])
    | HArea e cs =>
        let st := styleOf e in
        if hBuilding st then
          let '(s, created) := ensureContext e s in
          bind (buildWith st (fun p => addContour n env p (toPoints cs) false None) s) (complete created)
        else Ok (s, [])
    | HRelation e [] => Ok (s, [])
    | HRelation e ms =>
        let '(s, created) := ensureContext e s in
        let st := styleOf e in
        if hMulti st && hBuilding st then
          bind (buildWith st (multiVisit (HRelation e ms)) s) (complete created)
        else
          bind ((fix members ms s :=
                   match ms with
                   | [] => Ok (s, [])
                   | m :: ms' => bind (visitHouse m s) (fun '(s, a) =>
                                 bind (members ms' s) (fun '(s, r) => Ok (s, a ++ r)))
                   end) ms s) (fun '(s, a) => bind (complete created s) (fun '(s, r) => Ok (s, a ++ r)))
    end.
  (** BuildingBuilder.cpp:359-367, visitArea and visitRelation (visitNode and visitWay of BuildingBuilder.hpp:19-21 do
      nothing): the element tagged to be ignored is left out. *)
  Definition visitTop (h : house E T) (s : site) : outcome (site * list (E * bmesh T)) :=
    match h with
    | HNode _ | HWay _ => Ok (s, [])
    | HArea e _ | HRelation e _ => if ignored e then Ok (s, []) else visitHouse h s
    end.
  (** The elements of a tile one after the other (BuildingBuilder.hpp:19-25). *)
  Fixpoint visitTops (hs : list (house E T)) (s : site) : outcome (site * list (E * bmesh T)) :=
    match hs with
    | [] => Ok (s, [])
    | h :: hs' => bind (visitTop h s) (fun '(s, a) => bind (visitTops hs' s) (fun '(s, r) => Ok (s, a ++ r)))
    end.
End House.
Arguments site T E : clear implicits.
