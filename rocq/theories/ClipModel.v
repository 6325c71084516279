(** Model of core/src/index/ElementGeometryClipper.cpp.
    Parameters: the two conversions between degrees and the integer grid, and the polygon
    clipping library (core/lib/clipper), which answers the contours of the intersection in the
    order of PolyTree::GetFirst / PolyNode::GetNext (holes included).  A conversion of a number
    that does not fit, and exceptions of the library, are outside the model. *)
From Verif Require Import Base Bytes ElementModel GeoModel.
Local Open Scope nat_scope.

(** ClipperLib::IntPoint: X, Y (core/lib/clipper/clipper.hpp:84-92). *)
Definition gridPoint : Type := (Z * Z)%type.

(** ElementGeometryClipper.hpp: PointLocation (line 21). *)
Inductive location := AllInside | AllOutside | Mixed.

Section Clip.
  (** static_cast<cInt>(v * Scale), ElementGeometryClipper.cpp:43-44 and 64-75; the argument is the bit pattern. *)
  Variable snap : N -> Z.
  (** c / Scale, ElementGeometryClipper.cpp:57. *)
  Variable unsnap : Z -> N.
  (** ElementGeometryClipper.cpp:96-99 (and 214-218): intersection of a rectangle and a path; whether the path is
      closed. *)
  Variable intersection : list gridPoint -> bool -> list gridPoint -> list (list gridPoint).

  (** The box of the tile, corners as bit patterns (BoundingBox.hpp:11-15). *)
  Record clipBox := mkClip { cmin : coord; cmax : coord }.
  (** The same box with its corners as comparisons see them (BoundingBox.hpp:11-15). *)
  Definition boxOf (b : clipBox) : box dbl := mkBox (pointOf (cmin b)) (pointOf (cmax b)).

  (** BoundingBox::contains (BoundingBox.hpp:69-72). *)
  Definition inBox (b : clipBox) (c : coord) : bool := containsPoint dord (boxOf b) (pointOf c).

  (** ElementGeometryClipper.cpp:61-77, createPathFromBoundingBox. *)
  Definition clipPath (b : clipBox) : list gridPoint :=
    [(snap (clon (cmin b)), snap (clat (cmin b))); (snap (clon (cmax b)), snap (clat (cmin b)));
     (snap (clon (cmax b)), snap (clat (cmax b))); (snap (clon (cmin b)), snap (clat (cmax b)))].

  (** ElementGeometryClipper.cpp:21-29, areConnected: for ways and for areas. *)
  Definition areConnected (closed : bool) (b : clipBox) (cs : list coord) (allOutside : bool) : bool :=
    if closed then intersects dord (boxOf b) (expandAll dord emptyBox (map pointOf cs))
    else negb allOutside.

  (** ElementGeometryClipper.cpp:32-51, checkElement. *)
  Definition checkElement (closed : bool) (b : clipBox) (cs : list coord) : location :=
    let allInside := forallb (inBox b) cs in
    let allOutside := forallb (fun c => negb (inBox b c)) cs in
    if allInside then AllInside
    else if areConnected closed b cs allOutside then Mixed else AllOutside.
  (** ElementGeometryClipper.cpp:43-45, the shape for the library. *)
  Definition shapeOf (cs : list coord) : list gridPoint := map (fun c => (snap (clon c), snap (clat c))) cs.

  (** ElementGeometryClipper.cpp:53-59, setCoordinates. *)
  Definition coordsOf (path : list gridPoint) : list coord :=
    map (fun p => mkCoord (unsnap (snd p)) (unsnap (fst p))) path.

  (** ElementGeometryClipper.cpp:79-131, clipElement for the constructor [make] (Way or Area). *)
  Definition clipElement (make : N -> list tag -> list coord -> element) (closed : bool) (b : clipBox)
    (i : N) (ts : list tag) (cs : list coord) : option element :=
    match checkElement closed b cs with
    | AllInside => Some (make i ts cs)
    | AllOutside => None
    | Mixed =>
        match intersection (clipPath b) closed (shapeOf cs) with
        | [] => None
        | [contour] => Some (make i ts (coordsOf contour))
        | contours => Some (Relation i [] (map (fun p => make 0%N ts (coordsOf p)) contours))
        end
    end.

  (** ElementGeometryClipper.cpp:206-207: assignment to the fields of the element. *)
  Definition relabel (i : N) (ts : list tag) (e : element) : element :=
    match e with
    | Node _ _ c => Node i ts c
    | Way _ _ cs => Way i ts cs
    | Area _ _ cs => Area i ts cs
    | Relation _ _ es => Relation i ts es
    end.

  (** ElementGeometryClipper.cpp:191-210, the result of clipRelation from the parts that were kept. *)
  Definition gather (i : N) (ts : list tag) (kept : list element) : option element :=
    match kept with
    | [] => None
    | [e] => Some (relabel i ts e)
    | _ => Some (Relation i ts kept)
    end.

  (** ElementGeometryClipper.cpp:133-210, and 228-250 for elements outside relations: what reaches the callback. *)
  Fixpoint clip (b : clipBox) (e : element) : option element :=
    match e with
    | Node i ts c => if inBox b c then Some (Node i ts c) else None
    | Way i ts cs => clipElement Way false b i ts cs
    | Area i ts cs => clipElement Area true b i ts cs
    | Relation i ts es =>
        gather i ts (flat_map (fun m => match clip b m with Some m' => [m'] | None => [] end) es)
    end.
End Clip.
