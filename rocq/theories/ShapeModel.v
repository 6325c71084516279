(** Model of core/src/formats/shape/ShapeParser.hpp and ShapeDataVisitor.hpp.  Opening files, reading
    records and attributes (shapelib) are given as data.  Coordinates are of any type with the equality of
    GeoCoordinate.  Tags stay texts: utils::setTags is modelled in TagModel.  Freeing of records is not
    modelled, open files are counted. *)
From Verif Require Import Base Bytes ElevModel.
Local Open Scope Z_scope.

(** shapefil.h: the kinds of shapes as lines 89-109 of ShapeParser.hpp group them. *)
Inductive kind := KPoint | KArc | KPolygon | KOther.

Section Shape.
  Context {C : Type}.
  (** GeoCoordinate::operator== (ShapeParser.hpp:129). *)
  Variable ceqb : C -> C -> bool.
  (** What is read one entry beyond [panPartStart] (ShapeParser.hpp:137). *)
  Variable past : outcome Z.

  (** shapefil.h, SHPObject: nSHPType, panPartStart, whether panPartType is SHPP_RING, and the vertices (lines 334-357). *)
  Record shape := mkShape { shKind : kind; shStarts : list Z; shRings : list bool; shPoints : list C }.
  (** core/src/formats/FormatTypes.hpp:41-44. *)
  Record member := mkMember { isRing : bool; coords : list C }.
  (** The calls of the visitor at ShapeParser.hpp:114, 129 and 151. *)
  Inductive call :=
  | CNode (c : C) (tags : list (bytes * bytes))
  | CWay (cs : list C) (tags : list (bytes * bytes)) (ring : bool)
  | CRelation (ms : list member) (tags : list (bytes * bytes)).

  (** ShapeParser.hpp:112-115, visitPoint. *)
  Definition visitPoint (s : shape) (tags : list (bytes * bytes)) : outcome (list call) :=
    omap (fun c => [CNode c tags]) (readAt (shPoints s) 0).
  (** ShapeParser.hpp:117-130, visitArc. *)
  Definition visitArc (s : shape) (tags : list (bytes * bytes)) : outcome (list call) :=
    if (1 <? length (shStarts s))%nat then Ok [] else
    bind (readAt (shPoints s) 0) (fun a =>
    bind (readAt (shPoints s) (Z.of_nat (length (shPoints s)) - 1)) (fun z =>
    Ok [CWay (shPoints s) tags (ceqb a z)])).

  (** ShapeParser.hpp:137. *)
  Definition partStart (s : shape) (partNum : nat) : outcome Z :=
    match nth_error (shStarts s) partNum with
    | Some z => Ok z
    | None => if (partNum =? length (shStarts s))%nat then past else UB
    end.
  (** ShapeParser.hpp:149: a vertex is added to an existing member. *)
  Fixpoint addTo (ms : list member) (k : nat) (c : C) : outcome (list member) :=
    match ms, k with
    | [], _ => UB
    | m :: ms', O => Ok (mkMember (isRing m) (coords m ++ [c]) :: ms')
    | m :: ms', S k' => omap (cons m) (addTo ms' k' c)
    end.
  (** ShapeParser.hpp:136-150 from the vertex [i] on.  The reservations of lines 134 and 146 have no effect; the next
      start which line 145 reads exists. *)
  Fixpoint polygonFrom (s : shape) (i : Z) (points : list C) (partNum coordIndex : nat) (ms : list member) : outcome (list member) :=
    match points with
    | [] => Ok ms
    | c :: points' =>
        bind (partStart s partNum) (fun start =>
        if (partNum <? length (shStarts s))%nat && (start =? i) then
          bind (readAt (shRings s) (Z.of_nat partNum)) (fun ring =>
          bind (addTo (ms ++ [mkMember ring []]) partNum c) (fun ms' =>
          polygonFrom s (i + 1) points' (S partNum) partNum ms'))
        else bind (addTo ms coordIndex c) (fun ms' => polygonFrom s (i + 1) points' partNum coordIndex ms'))
    end.
  (** ShapeParser.hpp:132-152, visitPolygon. *)
  Definition visitPolygon (s : shape) (tags : list (bytes * bytes)) : outcome (list call) :=
    omap (fun ms => [CRelation ms tags]) (polygonFrom s 0 (shPoints s) 0 0 []).

  (** ShapeParser.hpp:88-110, visitShape. *)
  Definition visitShape (s : shape) (tags : list (bytes * bytes)) : outcome (list call) :=
    match shKind s with
    | KPoint => visitPoint s tags
    | KArc => visitArc s tags
    | KPolygon => visitPolygon s tags
    | KOther => Ok []
    end.

  (** ShapeParser.hpp:59-86, parseTags: names of the fields and values, unless null. *)
  Fixpoint parseTags (fields : list bytes) (values : list (option bytes)) : list (bytes * bytes) :=
    match fields, values with
    | f :: fields', v :: values' => match v with Some t => (f, t) :: parseTags fields' values' | None => parseTags fields' values' end
    | _, _ => []
    end.

  (** A table: names of the fields, and the values of each record (ShapeParser.hpp:32-40). *)
  Record table := mkTable { tFields : list bytes; tRecords : list (list (option bytes)) }.
  (** What a run of the parser leaves: the calls made, its end and the files still open (ShapeParser.hpp:23-55). *)
  Record run := mkRun { rCalls : list call; rEnd : outcome unit; rOpen : nat }.

  (** ShapeParser.hpp:42-54: the loop over the records left, and closing. *)
  Fixpoint records (fields : list bytes) (shapes : list (option shape)) (values : list (list (option bytes))) : run :=
    match shapes, values with
    | [], _ => mkRun [] (Ok tt) 0
    | None :: _, _ => mkRun [] (Throw DomainError) 2
    | Some s :: shapes', v :: values' =>
        match visitShape s (parseTags fields v) with
        | Throw e => mkRun [] (Throw e) 2
        | UB => mkRun [] UB 2
        | Ok cs => let r := records fields shapes' values' in mkRun (cs ++ rCalls r) (rEnd r) (rOpen r)
        end
    | Some _ :: _, [] => mkRun [] UB 2
    end.
  (** ShapeParser.hpp:23-55, parse.  [None]: the file cannot be opened. *)
  Definition parseShapes (shp : option (list (option shape))) (dbf : option table) : run :=
    match shp with
    | None => mkRun [] (Throw DomainError) 0
    | Some shapes =>
        match dbf with
        | None => mkRun [] (Throw DomainError) 1
        | Some t =>
            if (length (tFields t) =? 0)%nat then mkRun [] (Throw DomainError) 2
            else if negb (length shapes =? length (tRecords t))%nat then mkRun [] (Throw DomainError) 2
            else records (tFields t) shapes (tRecords t)
        end
    end.

  (** core/src/entities: the parts of elements used here (Node.hpp:12-14, Way.hpp:12-14, Area.hpp:12-14, Relation.hpp:12-13). *)
  Inductive selem :=
  | SNode (id : Z) (c : C) (tags : list (bytes * bytes))
  | SWay (id : Z) (cs : list C) (tags : list (bytes * bytes))
  | SArea (id : Z) (cs : list C) (tags : list (bytes * bytes))
  | SRelation (id : Z) (es : list selem) (tags : list (bytes * bytes)).
  (** ShapeDataVisitor.hpp:74-89: the element of a member.  It has no tags. *)
  Definition memberElement (m : member) : selem :=
    match coords m with
    | [c] => SNode 0 c []
    | cs => if isRing m then SArea 0 cs [] else SWay 0 cs []
    end.
  (** ShapeDataVisitor.hpp:42-93: the element handed to [functor_]. *)
  Definition elementOf (c : call) : selem :=
    match c with
    | CNode p tags => SNode 0 p tags
    | CWay cs tags ring => if ring then SArea 0 cs tags else SWay 0 cs tags
    | CRelation ms tags => SRelation 0 (map memberElement ms) tags
    end.
  (** ShapeDataVisitor.hpp:25-28. *)
  Record counts := mkCounts { nNodes : nat; nWays : nat; nAreas : nat; nRelations : nat }.
  (** ShapeDataVisitor.hpp:47-48, 57-58, 64-65, 91-92 and 102-104. *)
  Definition countCall (accepted : selem -> bool) (n : counts) (c : call) : counts :=
    if accepted (elementOf c) then
      match elementOf c with
      | SNode _ _ _ => mkCounts (S (nNodes n)) (nWays n) (nAreas n) (nRelations n)
      | SWay _ _ _ => mkCounts (nNodes n) (S (nWays n)) (nAreas n) (nRelations n)
      | SArea _ _ _ => mkCounts (nNodes n) (nWays n) (S (nAreas n)) (nRelations n)
      | SRelation _ _ _ => mkCounts (nNodes n) (nWays n) (nAreas n) (S (nRelations n))
      end
    else n.
End Shape.
Arguments shape : clear implicits.
Arguments member : clear implicits.
Arguments call : clear implicits.
Arguments run : clear implicits.
Arguments selem : clear implicits.
