(** Model of the terrain builder: core/src/builders/terrain/{TerraBuilder,SurfaceGenerator,TerraGenerator}.cpp with
    RegionTypes.hpp and ClipperEx of core/lib/clipper.  ExteriorGenerator.cpp does nothing with regions and is left
    out.

    Parameters: paths of the clipper and what the clipper library does with them (Execute, CleanPolygons,
    ClipperOffset), signed areas, styles of elements and of the canvas.  Areas are counted twice (Clipper::Area is half
    of an integer); the division by Scale*Scale of TerraBuilder.cpp:244 does not change comparisons and is left out.
    What a mesh gets is recorded as a list of parts instead of triangles. *)
From Coq Require Import Sorted.
From Verif Require Import Base.
Local Open Scope Z_scope.

(** ClipperLib::PolyType, ClipType and PolyFillType (core/lib/clipper/clipper.hpp:63-69) as used by
    core/src/math/PolyClip.hpp:21-55. *)
Inductive polyType := Subject | Clip.
(** clipper.hpp:63 as used by PolyClip.hpp:41-55. *)
Inductive clipType := Intersection | Union | Difference.
(** clipper.hpp:69 as used by PolyClip.hpp:41-55. *)
Inductive fillType := EvenOdd | NonZero.

(** Names of layers, meshes and extras (TerraBuilder.cpp:111, SurfaceGenerator.cpp:77, 100): bytes of a std::string. *)
Definition name := list N.
(** Equality of the keys of layers_ (TerraBuilder.cpp:257) and ExtrasFuncs. *)
Definition name_eqb (a b : name) : bool := if list_eq_dec N.eq_dec a b then true else false.
(** "forest" and "water", the keys of ExtrasFuncs (SurfaceGenerator.cpp:14-18). *)
Definition forestName : name := [102; 111; 114; 101; 115; 116]%N.
(** SurfaceGenerator.cpp:14-18. *)
Definition waterName : name := [119; 97; 116; 101; 114]%N.

(** What RegionContext (RegionTypes.hpp:15-66) keeps for the drawing: mesh-name and mesh-extras under its prefix
    (SurfaceGenerator.cpp:77, 100) and whether height-offset is not 0 (TerraGenerator.cpp:41). *)
Record context := mkContext { cMesh : name; cExtras : name; cRaised : bool }.

Section Terra.
  Context {P W G : Type}.
  (** Clipper::Execute of the library on subjects and clips. *)
  Context (execute : clipType -> fillType -> fillType -> list P -> list P -> list P).
  (** ClipperLib::CleanPolygons (core/lib/clipper/clipper.cpp:4286-4296). *)
  Context (clean : list P -> list P).
  (** ClipperOffset of open paths with the given width (TerraBuilder.cpp:102-105). *)
  Context (widen : W -> list P -> list P).
  (** Twice ClipperLib::Area (core/src/math/PolyClip.hpp:65-67). *)
  Context (area2 : P -> Z).

  (** ClipperEx (clipper.hpp:391-402): paths in the order of m_edges with the type of their edges and
      edgeStartIndex_.  AddPath keeps every path; those refused by the library have no inside. *)
  Record clipper := mkClipper { clEdges : list (polyType * P); clStart : nat }.
  (** clipper.hpp:394. *)
  Definition newClipper : clipper := mkClipper [] 0.
  (** PolyClip.hpp:21-31, addClip, addSubject, addSubjects. *)
  Definition addPaths (t : polyType) (c : clipper) (ps : list P) : clipper :=
    mkClipper (clEdges c ++ map (fun p => (t, p)) ps) (clStart c).
  (** The test of clipper.cpp:4479 and 4488. *)
  Definition isClip (e : polyType * P) : bool := match fst e with Clip => true | Subject => false end.
  (** What Execute (clipper.cpp) takes as subjects and as clips (PolyClip.hpp:41-55). *)
  Definition subjectsOf (c : clipper) : list P := map snd (filter (fun e => negb (isClip e)) (clEdges c)).
  (** PolyClip.hpp:41-55, the clips. *)
  Definition clipsOf (c : clipper) : list P := map snd (filter isClip (clEdges c)).
  (** PolyClip.hpp:41-55: executeIntersection with the default of both fill types, executeUnion and
      executeDifference with pftNonZero. *)
  Definition executeIntersection (c : clipper) : list P := execute Intersection EvenOdd EvenOdd (subjectsOf c) (clipsOf c).
  (** PolyClip.hpp:41-55, executeUnion. *)
  Definition executeUnion (c : clipper) : list P := execute Union NonZero NonZero (subjectsOf c) (clipsOf c).
  (** PolyClip.hpp:41-55, executeDifference. *)
  Definition executeDifference (c : clipper) : list P := execute Difference NonZero NonZero (subjectsOf c) (clipsOf c).
  (** PolyClip.hpp:57-63 with clipper.cpp:4135-4147: both calls of TerraGenerator.cpp:38-39. *)
  Definition tidy (g : list P) : list P := clean (execute Union EvenOdd EvenOdd g []).
  (** clipper.cpp:4459-4473, moveSubjectToClip: edges before edgeStartIndex_ are not looked at. *)
  Definition moveSubjectToClip (c : clipper) : clipper :=
    match clEdges c with
    | [] => c
    | _ => mkClipper (firstn (clStart c) (clEdges c) ++ map (fun e => (Clip, snd e)) (skipn (clStart c) (clEdges c)))
                     (List.length (clEdges c) - 1)
    end.
  (** clipper.cpp:4475-4495, removeSubject. *)
  Definition removeSubject (c : clipper) : clipper := mkClipper (filter isClip (clEdges c)) (clStart c).

  (** RegionTypes.hpp:69-100. *)
  Record region := mkRegion { rLevel : Z; rArea : Z; rContext : option context; rGeometry : list P }.
  (** RegionTypes.hpp:85-87. *)
  Definition isLayer (r : region) : bool := match rContext r with None => true | Some _ => false end.

  (** What the builder asks of a style: terrain-layer when it is declared (TerraBuilder.cpp:112-113, 218), level
      (221), width with its dimension (96, 188-195) and the rest by RegionContext::create. *)
  Record style := mkStyle { sLayer : option name; sLevel : Z; sWidth : W; sContext : context }.
  (** Elements: tags and geometry (core/src/entities/Element.hpp:30-34, Way.hpp:14-22, Area.hpp:14-22,
      Relation.hpp:14-21). *)
  Inductive element :=
  | Node (g : G)
  | Way (g : G) (p : P)
  | Area (g : G) (p : P)
  | Relation (g : G) (es : list element).
  (** The classes of the same files, on which selectors of a stylesheet depend (StyleProvider.cpp:41-48). *)
  Inductive kind := KNode | KWay | KArea | KRelation.
  (** The class of an element (Element.hpp:39-41, accept). *)
  Definition kindOf (e : element) : kind :=
    match e with Node _ => KNode | Way _ _ => KWay | Area _ _ => KArea | Relation _ _ => KRelation end.
  (** Element::tags (Element.hpp:34). *)
  Definition tagsOf (e : element) : G := match e with Node g | Way g _ | Area g _ | Relation g _ => g end.
  (** Tags without members, forElement and hasStyle of the style provider. *)
  Context (noTags : G -> bool) (styleOf : kind -> G -> style) (hasStyle : kind -> G -> bool).
  (** forCanvas (TerraBuilder.cpp:75): context and sort-order under a prefix (lines 164-167). *)
  Context (canvasContext : name -> context) (canvasOrder : name -> Z).
  Context (tile : P).

  (** TerraBuilder.cpp:253-258: clipper_ and layers_, an unordered_map by name. *)
  Record builder := mkBuilder { bClipper : clipper; bLayers : list (name * list region) }.
  (** TerraBuilder.cpp:73-88. *)
  Definition newBuilder : builder := mkBuilder (addPaths Clip newClipper [tile]) [].

  (** TerraBuilder.cpp:201, layers_[type].regions.push_back. *)
  Fixpoint pushRegion (n : name) (r : region) (ls : list (name * list region)) : list (name * list region) :=
    match ls with
    | [] => [(n, [r])]
    | (m, rs) :: ls => if name_eqb n m then (m, rs ++ [r]) :: ls else (m, rs) :: pushRegion n r ls
    end.
  (** The context of a new region (TerraBuilder.cpp:145-146, 218-219). *)
  Definition contextOf (s : style) : option context :=
    match sLayer s with Some _ => None | None => Some (sContext s) end.
  (** TerraBuilder.cpp:111-115, 121-125 and 148-150: type and addRegion (197-205). *)
  Definition addRegion (s : style) (r : region) (b : builder) : builder :=
    let type := if isLayer r then match sLayer s with Some n => n | None => [] end else [] in
    mkBuilder (bClipper b) (pushRegion type r (bLayers b)).
  (** TerraBuilder.cpp:208-223. *)
  Definition createRegion (s : style) (p : P) : region := mkRegion (sLevel s) 0 (contextOf s) [p].
  (** TerraBuilder.cpp:93-116. *)
  Definition visitWay (s : style) (p : P) (b : builder) : builder :=
    let r := createRegion s p in
    let c := addPaths Subject (bClipper b) (widen (sWidth s) (rGeometry r)) in
    addRegion s (mkRegion (rLevel r) (rArea r) (rContext r) (executeIntersection c)) (mkBuilder (removeSubject c) (bLayers b)).
  (** TerraBuilder.cpp:118-126. *)
  Definition visitArea (s : style) (p : P) (b : builder) : builder := addRegion s (createRegion s p) b.
  (** TerraBuilder.cpp:134-136: the tags of a member of a relation with tags [g]. *)
  Definition memberTags (g : G) (e : element) : G := if noTags (tagsOf e) then g else tagsOf e.
  (** TerraBuilder.cpp:90-152: the element [e] which has the tags [g] now.  Members of a relation go to
      RelationVisitor (46-68): areas are collected, others visited by the builder. *)
  Fixpoint visitAs (g : G) (e : element) (b : builder) : builder :=
    match e with
    | Node _ => b
    | Way _ p => visitWay (styleOf KWay g) p b
    | Area _ p => visitArea (styleOf KArea g) p b
    | Relation _ es =>
      let '(b, geometry) :=
        (fix members (es : list element) (b : builder) (geometry : list P) : builder * list P :=
           match es with
           | [] => (b, geometry)
           | m :: es =>
             let mg := memberTags g m in
             if hasStyle (kindOf m) mg then
               match m with
               | Area _ p => members es b (geometry ++ [p])
               | _ => members es (visitAs mg m b) geometry
               end
             else members es b geometry
           end) es b [] in
      match geometry with
      | [] => b
      | _ => let s := styleOf KRelation g in addRegion s (mkRegion 0 0 (contextOf s) geometry) b
      end
    end.
  (** Element::accept of TerraBuilder.cpp:261-267. *)
  Definition visit (b : builder) (e : element) : builder := visitAs (tagsOf e) e b.

  (** TerraBuilder.cpp:227-237: regions of one level share a clipper, in order of the first of each level. *)
  Fixpoint joinLevel (r : region) (ls : list (Z * clipper)) : list (Z * clipper) :=
    match ls with
    | [] => [(rLevel r, addPaths Subject newClipper (rGeometry r))]
    | (l, c) :: ls => if rLevel r =? l then (l, addPaths Subject c (rGeometry r)) :: ls else (l, c) :: joinLevel r ls
    end.
  (** TerraBuilder.cpp:225-250, mergeRegions. *)
  Definition mergeRegions (k : context) (rs : list region) : list region :=
    map (fun lc => let g := executeUnion (snd lc) in
                   mkRegion (fst lc) (fold_left (fun acc p => acc + Z.abs (area2 p)) g 0) (Some k) g)
        (fold_left (fun ls r => joinLevel r ls) rs []).
  (** LessThanByArea and MoreThanSortOrder (TerraBuilder.cpp:31-43). *)
  Definition lessThanByArea (a b : region) : bool := rArea a <? rArea b.
  (** TerraBuilder.cpp:38-43. *)
  Definition moreThanSortOrder (a b : Z * list region) : bool := fst b <? fst a.
  (** std::sort (TerraBuilder.cpp:173, 180). *)
  Context (sortRegions : (region -> region -> bool) -> list region -> list region)
          (sortLayers : (Z * list region -> Z * list region -> bool) -> list (Z * list region) -> list (Z * list region)).
  (** The loop body of TerraBuilder.cpp:161-175. *)
  Definition finishLayer (l : name * list region) : Z * list region :=
    let (order, rs) :=
      match fst l with
      | [] => (0, snd l)
      | _ => (canvasOrder (fst l), mergeRegions (canvasContext (fst l)) (snd l))
      end in
    (order, sortRegions lessThanByArea rs).
  (** TerraBuilder.cpp:158-180.  The order of an unordered_map is that of the list. *)
  Definition finishLayers (ls : list (name * list region)) : list (Z * list region) :=
    sortLayers moreThanSortOrder (map finishLayer ls).

  (** A piece of geometry put into a mesh (TerraGenerator.cpp:82, SurfaceGenerator.cpp:81, 89); the mesh of the terrain has the empty name here. *)
  Record part := mkPart { pMesh : name; pWalls : bool; pPaths : list P }.
  (** TerraGenerator.cpp:52: AreaTolerance (line 9), doubled as areas are. *)
  Definition kept (p : P) : bool := negb (Z.abs (area2 p) <? 2000).
  (** SurfaceGenerator.cpp:97-106: ExtrasFuncs.at. *)
  Definition extrasFor (k : context) : outcome unit :=
    match cExtras k with
    | [] => Ok tt
    | n => if name_eqb n forestName || name_eqb n waterName then Ok tt else Throw OutOfRange
    end.
  (** SurfaceGenerator.cpp:76-95: the polygon goes to its own mesh when there is a name for it. *)
  Definition addPolygon (k : context) (ps : list P) : outcome (list part) :=
    bind (extrasFor k) (fun _ => Ok [mkPart (cMesh k) false ps]).
  (** TerraGenerator.cpp:34-68: all paths after cleaning, the kept ones and the parts of meshes.  The walls of
      buildHeightOffset (70-84) go to mesh_.  A path which is kept has points. *)
  Definition addGeometry (g : list P) (k : context) : outcome (list P * list P * list part) :=
    let all := tidy g in
    let ps := filter kept all in
    let walls := if cRaised k then map (fun p => mkPart [] true [p]) ps else [] in
    match ps with
    | [] => Ok (all, ps, walls)
    | _ => bind (addPolygon k ps) (fun parts => Ok (all, ps, walls ++ parts))
    end.

  (** What was drawn for a region (SurfaceGenerator.cpp:65-74) of a layer with the given order. *)
  Record surface := mkSurface { sfOrder : Z; sfRegion : region; sfAll : list P; sfKept : list P; sfParts : list part }.
  (** SurfaceGenerator.cpp:65-74: foregroundClipper_ and backgroundClipper_ are changed.  There is no check of the
      context. *)
  Definition buildRegion (fg bg : clipper) (order : Z) (r : region) : outcome (clipper * clipper * surface) :=
    let fg := addPaths Subject fg (rGeometry r) in
    let solution := executeDifference fg in
    let fg := moveSubjectToClip fg in
    match rContext r with
    | None => UB
    | Some k => bind (addGeometry solution k) (fun '(all, ps, parts) =>
                  Ok (fg, addPaths Clip bg ps, mkSurface order r all ps parts))
    end.
  (** SurfaceGenerator.cpp:41-44, 57-63: all regions of all layers. *)
  Fixpoint buildForeground (fg bg : clipper) (rs : list (Z * region)) : outcome (clipper * list surface) :=
    match rs with
    | [] => Ok (bg, [])
    | (order, r) :: rs =>
      bind (buildRegion fg bg order r) (fun '(fg, bg, s) =>
        bind (buildForeground fg bg rs) (fun '(bg, ss) => Ok (bg, s :: ss)))
    end.
  (** SurfaceGenerator.cpp:46-55. *)
  Definition buildBackground (bg : clipper) : outcome (list P * list P * list part) :=
    match executeDifference (addPaths Subject bg [tile]) with
    | [] => Ok ([], [], [])
    | background => addGeometry background (canvasContext [])
    end.
  (** What was drawn for the tile (SurfaceGenerator.cpp:32-39). *)
  Record terrain := mkTerrain { teSurfaces : list surface; teAll : list P; teKept : list P; teParts : list part }.
  (** SurfaceGenerator.cpp:32-39; parts in the order they are made. *)
  Definition generateFrom (layers : list (Z * list region)) : outcome terrain :=
    let rs := flat_map (fun l => map (fun r => (fst l, r)) (snd l)) layers in
    bind (buildForeground newClipper newClipper rs) (fun '(bg, ss) =>
      bind (buildBackground bg) (fun '(all, ps, parts) =>
        Ok (mkTerrain ss all ps (flat_map sfParts ss ++ parts)))).
  (** TerraBuilder.cpp:155-184, complete; [None]: cancelled, no mesh. *)
  Definition complete (cancelled : bool) (b : builder) : outcome (option terrain) :=
    if cancelled then Ok None else omap Some (generateFrom (finishLayers (bLayers b))).
  (** A tile of which the elements are visited in the given order, from TerraBuilder.cpp:73-88 to 184. *)
  Definition buildTerrain (cancelled : bool) (es : list element) : outcome (option terrain) :=
    complete cancelled (fold_left visit es newBuilder).
End Terra.
Arguments Node {P G}. Arguments Way {P G}. Arguments Area {P G}. Arguments Relation {P G}.
