(** Models of core/src/formats/osm/OsmDataVisitor.cpp, RelationProcessor.hpp,
    BuildingProcessor.hpp, MultipolygonProcessor.cpp (process and mergeTags) and
    visitRelationMembers of core/src/utils/ElementUtils.hpp.
    The cancellation token (never cancelled here) is left out; elements in the maps, which are
    shared pointers, are referred to by their keys. *)
From Verif Require Import Base Bytes ElementModel TagModel GeoModel RingModel.
Local Open Scope nat_scope.

(** core/src/formats/FormatTypes.hpp:34-38, RelationMember.  The type is only compared with "n"
    and "w", the role with "outer", "inner" and "outline". *)
Inductive memberType := TNode | TWay | TOther.
(** FormatTypes.hpp:37, the role. *)
Inductive memberRole := ROuter | RInner | ROutline | RNone.
(** FormatTypes.hpp:34-38, RelationMember. *)
Record member := mkMember { refId : N; mtype : memberType; role : memberRole }.

(** How OsmDataVisitor.cpp:89-96 treats a relation. *)
Inductive kind := Multipolygon | Building | Plain.

(** Loops that may not end ([None]: out of fuel) and may fail (RelationProcessor.hpp:30-64 and ElementUtils.hpp:92-123). *)
Definition obind {A B} (x : option (outcome A)) (f : A -> option (outcome B)) : option (outcome B) :=
  match x with
  | None => None
  | Some (Ok a) => f a
  | Some (Throw e) => Some (Throw e)
  | Some UB => Some UB
  end.

(** Assignment through a pointer found under a key (OsmDataContext.hpp:14-17). *)
Definition aupdate {V} (k : N) (f : V -> V) (m : list (N * V)) : list (N * V) :=
  map (fun '(k', v) => if N.eqb k k' then (k', f v) else (k', v)) m.

(** core/src/entities: what a node, a way or an area, and a relation hold besides the id (Node.hpp:12-14). *)
Record onode (T : Type) := mkNode { ncoord : point T; ntags : list tag }.
Arguments mkNode {T}. Arguments ncoord {T}. Arguments ntags {T}.
(** Way.hpp:12-14 and Area.hpp:12-14. *)
Record oline (T : Type) := mkLine { lcoords : list (point T); ltags : list tag }.
Arguments mkLine {T}. Arguments lcoords {T}. Arguments ltags {T}.

(** A pointer in Relation::elements: to an element of a map or to a new area
    (MultipolygonProcessor.cpp:156-169, 253-263). *)
Inductive item (T : Type) :=
| INode (id : N) | IWay (id : N) | IArea (id : N) | IRel (id : N) | INew (a : @ringArea (point T)).
Arguments INode {T}. Arguments IWay {T}. Arguments IArea {T}. Arguments IRel {T}. Arguments INew {T}.
(** Element::id of the pointed to element (Element.hpp:33). *)
Definition itemId {T} (i : item T) : N :=
  match i with INode x | IWay x | IArea x | IRel x => x | INew a => ringId a end.

(** Relation.hpp:12-13. *)
Record orel (T : Type) := mkRel { rtags : list tag; relems : list (item T) }.
Arguments mkRel {T}. Arguments rtags {T}. Arguments relems {T}.

(** core/src/formats/osm/OsmDataContext.hpp and the members of the visitor (OsmDataContext.hpp:13-23, OsmDataVisitor.hpp:49). *)
Record octx (T : Type) := mkCtx {
  nodes : list (N * onode T); ways : list (N * oline T); areas : list (N * oline T);
  rels : list (N * orel T); members : list (N * list member)
}.
Arguments mkCtx {T}. Arguments nodes {T}. Arguments ways {T}. Arguments areas {T}.
Arguments rels {T}. Arguments members {T}.

(** A visitor that has visited nothing (OsmDataVisitor.cpp:129-133). *)
Definition emptyCtx {T} : octx T := mkCtx [] [] [] [] [].

(** Assignment to nodeMap (OsmDataContext.hpp:19). *)
Definition setNodes {T} c (c' : octx T) := mkCtx c (ways c') (areas c') (rels c') (members c').
(** Assignment to wayMap (OsmDataContext.hpp:20). *)
Definition setWays {T} c (c' : octx T) := mkCtx (nodes c') c (areas c') (rels c') (members c').
(** Assignment to areaMap (OsmDataContext.hpp:21). *)
Definition setAreas {T} c (c' : octx T) := mkCtx (nodes c') (ways c') c (rels c') (members c').
(** Assignment to relationMap (OsmDataContext.hpp:22). *)
Definition setRels {T} c (c' : octx T) := mkCtx (nodes c') (ways c') (areas c') c (members c').

Section Visitor.
  Context {T : Type} (n : nums T).
  (** operator== of coordinates, GeoCoordinate.hpp:26-29. *)
  Variable same : point T -> point T -> bool.
  Variable intern : bytes -> N.
  Variable sort : list tag -> list tag.

  (** OsmDataVisitor.cpp:22-28. *)
  Definition visitNode (id : N) (c : point T) (tags : list rawTag) (st : octx T) : octx T :=
    setNodes (aset N.eqb id (mkNode c (setTags intern sort [] tags)) (nodes st)) st.

  (** OsmDataVisitor.cpp:33-35; operator[] of a missing node inserts a null pointer, which is
      then dereferenced. *)
  Fixpoint coordsFrom (st : octx T) (ids : list N) : outcome (list (point T)) :=
    match ids with
    | [] => Ok []
    | i :: ids' =>
        match alookup N.eqb i (nodes st) with
        | None => UB
        | Some nd => omap (cons (ncoord nd)) (coordsFrom st ids')
        end
    end.
  (** OsmDataVisitor.cpp:30-56. *)
  Definition visitWay (id : N) (ids : list N) (tags : list rawTag) (st : octx T) : outcome (octx T) :=
    omap (fun cs =>
      let ts := setTags intern sort [] tags in
      let closed := match cs with [] => false | f :: _ => (3 <? length cs) && same f (last cs f) end in
      if closed then
        let cs' := removelast cs in
        let ring := if isClockwise n cs' then rev cs' else cs' in
        setAreas (aset N.eqb id (mkLine ring ts) (areas st)) st
      else setWays (aset N.eqb id (mkLine cs ts) (ways st)) st) (coordsFrom st ids).

  (** OsmDataVisitor.cpp:58-67. *)
  Definition visitRelation (id : N) (ms : list member) (tags : list rawTag) (st : octx T) : octx T :=
    mkCtx (nodes st) (ways st) (areas st)
      (aset N.eqb id (mkRel (convertTags intern sort tags) []) (rels st)) (aset N.eqb id ms (members st)).

  (** Ids of the strings "type", "multipolygon" and "building". *)
  Variables typeK multiV buildV : N.

  (** OsmDataVisitor.cpp:89-96. *)
  Definition kindOf (tags : list tag) : outcome kind :=
    bind (hasTag typeK multiV tags) (fun m => if m : bool then Ok Multipolygon else
    omap (fun b : bool => if b then Building else Plain) (hasTag typeK buildV tags)).

  (** relation_.elements.push_back (RelationProcessor.hpp:30-56). *)
  Definition pushItem (r : N) (i : item T) (st : octx T) : octx T :=
    setRels (aupdate r (fun x => mkRel (rtags x) (relems x ++ [i])) (rels st)) st.

  (** ElementUtils.hpp:99-123: what a member refers to. *)
  Definition target (st : octx T) (m : member) : option (item T) :=
    match mtype m with
    | TNode => option_map (fun _ => INode (refId m)) (alookup N.eqb (refId m) (nodes st))
    | TWay =>
        match alookup N.eqb (refId m) (areas st) with
        | Some _ => Some (IArea (refId m))
        | None => option_map (fun _ => IWay (refId m)) (alookup N.eqb (refId m) (ways st))
        end
    | TOther => option_map (fun _ => IRel (refId m)) (alookup N.eqb (refId m) (rels st))
    end.

  Section Processors.
    (** resolve_ *)
    Variable rec : N -> octx T -> option (outcome (octx T)).
    (** relation_.id *)
    Variable r : N.

    (** The elements of a relation (Relation.hpp:13). *)
    Definition elementsOf (st : octx T) (x : N) : list (item T) :=
      match alookup N.eqb x (rels st) with None => [] | Some e => relems e end.
    (** RelationProcessor.hpp:57-64. *)
    Definition isAlreadyProcessed (st : octx T) (id : N) : bool :=
      existsb (fun i => N.eqb (itemId i) id) (elementsOf st r).
    (** RelationProcessor.hpp:66-78; every relation has an entry in the map of members. *)
    Definition hasReferenceToParent (st : octx T) (q : N) : bool :=
      match alookup N.eqb q (members st) with
      | None => false
      | Some ms => existsb (fun m => N.eqb (refId m) r) ms
      end.

    (** RelationProcessor.hpp:27-54. *)
    Definition visitPlain (i : item T) (st : octx T) : option (outcome (octx T)) :=
      match i with
      | IRel q =>
          if isAlreadyProcessed st q || hasReferenceToParent st q then Some (Ok st)
          else obind (rec q st) (fun st' => Some (Ok (pushItem r i st')))
      | _ => Some (Ok (if isAlreadyProcessed st (itemId i) then st else pushItem r i st))
      end.

    (** The tag of BuildingProcessor.hpp:55. *)
    Definition ignoreTag : tag := mkTag noId 0.
    (** BuildingProcessor.hpp:55: element->tags.push_back. *)
    Definition pushTag (i : item T) (st : octx T) : octx T :=
      match i with
      | INode x => setNodes (aupdate x (fun e => mkNode (ncoord e) (ntags e ++ [ignoreTag])) (nodes st)) st
      | IWay x => setWays (aupdate x (fun e => mkLine (lcoords e) (ltags e ++ [ignoreTag])) (ways st)) st
      | IArea x => setAreas (aupdate x (fun e => mkLine (lcoords e) (ltags e ++ [ignoreTag])) (areas st)) st
      | IRel x => setRels (aupdate x (fun e => mkRel (rtags e ++ [ignoreTag]) (relems e)) (rels st)) st
      | INew _ => st
      end.
    (** BuildingProcessor.hpp:49-56. *)
    Definition addToRelation (i : item T) (ro : memberRole) (st : octx T) : octx T :=
      pushTag i (match ro with ROutline => st | _ => pushItem r i st end).
    (** BuildingProcessor.hpp:26-45. *)
    Definition visitBuilding (i : item T) (ro : memberRole) (st : octx T) : option (outcome (octx T)) :=
      match i with
      | IRel q => obind (rec q st) (fun st' => Some (Ok (addToRelation i ro st')))
      | _ => Some (Ok (addToRelation i ro st))
      end.

    (** ElementUtils.hpp:99-123, visitRelationMembers. *)
    Fixpoint visitMembers (visit : item T -> memberRole -> octx T -> option (outcome (octx T)))
      (ms : list member) (st : octx T) : option (outcome (octx T)) :=
      match ms with
      | [] => Some (Ok st)
      | m :: ms' =>
          match target st m with
          | None => visitMembers visit ms' st
          | Some i => obind (visit i (role m) st) (visitMembers visit ms')
          end
      end.

    (** std::unique of MultipolygonProcessor.cpp:288-290. *)
    Fixpoint uniqFrom (t : tag) (l : list tag) : list tag :=
      match l with
      | [] => [t]
      | t' :: l' => if N.eqb (tkey t) (tkey t') then uniqFrom t l' else t :: uniqFrom t' l'
      end.
    (** std::unique of MultipolygonProcessor.cpp:288-290 from the first tag on. *)
    Definition uniqKeys (l : list tag) : list tag := match l with [] => [] | t :: l' => uniqFrom t l' end.
    (** MultipolygonProcessor.cpp:280-291. *)
    Definition mergeTags (ts : list tag) (st : octx T) : octx T :=
      setRels (aupdate r (fun x => mkRel (uniqKeys (sort (rtags x ++ ts))) (relems x)) (rels st)) st.

    (** MultipolygonProcessor.cpp:97-143.  The sequences with their roles (true: outer), or
        [None] after the return of line 126. *)
    Fixpoint scan (hasNoTags : bool) (ms : list member) (st : octx T) (acc : list (bool * sequence (point T)))
      : option (outcome (octx T * option (list (bool * sequence (point T))))) :=
      match ms with
      | [] => Some (Ok (st, Some acc))
      | m :: ms' =>
          let next st' (cs : list (point T)) :=
            match cs with
            | [] => scan hasNoTags ms' st' acc
            | _ =>
                match role m with
                | ROuter => scan hasNoTags ms' st' (acc ++ [(true, mkSeq (refId m) cs)])
                | RInner => scan hasNoTags ms' st' (acc ++ [(false, mkSeq (refId m) cs)])
                | _ => scan hasNoTags ms' st' acc
                end
            end in
          match mtype m with
          | TWay =>
              match alookup N.eqb (refId m) (ways st) with
              | Some w => next st (lcoords w)
              | None =>
                  match alookup N.eqb (refId m) (areas st) with
                  | Some a =>
                      match lcoords a with
                      | [] => Some UB
                      | c :: _ =>
                          next (match role m with
                                | ROuter => if hasNoTags then mergeTags (ltags a) st else st
                                | _ => st
                                end) (lcoords a ++ [c])
                      end
                  | None =>
                      match alookup N.eqb (refId m) (rels st) with
                      | None => Some (Ok (st, None))
                      | Some _ => obind (rec (refId m) st) (fun st' => next st' [])
                      end
                  end
              end
          | _ => scan hasNoTags ms' st acc
          end
      end.

    (** MultipolygonProcessor.cpp:145-148. *)
    Definition assemble (seqs : list (bool * sequence (point T))) : option (outcome (list (@ringArea (point T)))) :=
      let outers := map snd (filter fst seqs) in
      let inners := map snd (filter (fun s => negb (fst s)) seqs) in
      match outers with
      | [o] =>
          if forallb (fun s => isClosed same (snd s)) seqs
          then Some (simpleCase same (isClockwise n) o inners)
          else complexCase same (isClockwise n) (isPointInPolygon n) (map snd seqs)
      | _ => complexCase same (isClockwise n) (isPointInPolygon n) (map snd seqs)
      end.

    (** MultipolygonProcessor.cpp:90-149. *)
    Definition processMulti (tags : list tag) (ms : list member) (st : octx T) : option (outcome (octx T)) :=
      obind (scan (length tags <? 2) ms st []) (fun '(st', seqs) =>
      match seqs with
      | None => Some (Ok st')
      | Some l =>
          obind (assemble l) (fun new => Some (Ok (fold_left (fun s a => pushItem r (INew a) s) new st')))
      end).
  End Processors.

  (** OsmDataVisitor.cpp:80-97.  [None]: deeper recursion than the fuel. *)
  Fixpoint resolve (fuel : nat) (r : N) (st : octx T) : option (outcome (octx T)) :=
    match fuel with
    | O => None
    | S fuel' =>
        match alookup N.eqb r (rels st), alookup N.eqb r (members st) with
        | Some e, Some ms =>
            if length (relems e) =? length ms then Some (Ok st) else
            match kindOf (rtags e) with
            | Ok Multipolygon => processMulti (resolve fuel') r (rtags e) ms st
            | Ok Building => visitMembers (visitBuilding (resolve fuel') r) ms st
            | Ok Plain => visitMembers (fun i _ => visitPlain (resolve fuel') r i) ms st
            | Throw ex => Some (Throw ex)
            | UB => Some UB
            end
        | _, _ => Some UB
        end
    end.

  (** OsmDataVisitor.cpp:104-108: [order] is the order of the hash map. *)
  Fixpoint resolveAll (fuel : nat) (order : list N) (st : octx T) : option (outcome (octx T)) :=
    match order with
    | [] => Some (Ok st)
    | r :: order' =>
        match alookup N.eqb r (rels st) with
        | None => resolveAll fuel order' st
        | Some _ => obind (resolve fuel r st) (resolveAll fuel order')
        end
    end.

  (** OsmDataVisitor.cpp:110-124: the elements that are added, in the order of the maps. *)
  Definition added (st : octx T) : list (item T) :=
    map (fun p => IRel (fst p)) (rels st) ++ map (fun p => INode (fst p)) (nodes st) ++
    map (fun p => IWay (fst p)) (ways st) ++ map (fun p => IArea (fst p)) (areas st).

  (** OsmDataVisitor.cpp:99-127, complete. *)
  Definition complete (fuel : nat) (order : list N) (st : octx T) : option (outcome (octx T * list (item T))) :=
    obind (resolveAll fuel order st) (fun st' => Some (Ok (st', added st'))).
End Visitor.
