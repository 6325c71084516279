(** Model of core/src/formats/osm/json/OsmJsonParser.hpp over a tree already read (read_json is not
    modelled).  Parameters: getId of the string table, ptree::get_value<double>, GeoCoordinate::operator==
    and std::sort of tags.  The visitor is the list of elements added. *)
From Coq Require Import String Ascii.
From Verif Require Import Base Bytes StyleModel.
Local Open Scope list_scope.

(** The bytes of a literal (e.g. OsmJsonParser.hpp:19). *)
Definition str (s : string) : bytes := map N_of_ascii (list_ascii_of_string s).

(** boost::property_tree::ptree (OsmJsonParser.hpp:21): data, and children in order; elements of arrays have an empty name. *)
Inductive ptree := PT (data : bytes) (children : list (bytes * ptree)).
(** ptree::data (e.g. OsmJsonParser.hpp:61). *)
Definition pdata (t : ptree) : bytes := let 'PT d _ := t in d.
(** The children of a tree in order (e.g. OsmJsonParser.hpp:57). *)
Definition pchildren (t : ptree) : list (bytes * ptree) := let 'PT _ c := t in c.

(** boost::property_tree::string_path: the parts of a path between points (OsmJsonParser.hpp:60, 61). *)
Fixpoint pathFrom (cur : bytes) (s : bytes) : list bytes :=
  match s with
  | [] => [rev cur]
  | c :: s' => if N.eqb c 46 then rev cur :: match s' with [] => [] | _ => pathFrom [] s' end else pathFrom (c :: cur) s'
  end.
(** An empty path is the tree itself (OsmJsonParser.hpp:60). *)
Definition path (s : bytes) : list bytes := match s with [] => [] | _ => pathFrom [] s end.

(** ptree::find (OsmJsonParser.hpp:60): the first child with a name. *)
Definition pfind (name : bytes) (t : ptree) : option ptree := alookup beqb name (pchildren t).
(** ptree::walk_path (OsmJsonParser.hpp:60). *)
Fixpoint pwalk (ps : list bytes) (t : ptree) : option ptree :=
  match ps with [] => Some t | p :: ps' => match pfind p t with Some t' => pwalk ps' t' | None => None end end.

(** ptree_bad_path, ptree_bad_data, std::invalid_argument and boost::bad_lexical_cast (thrown at OsmJsonParser.hpp:60-163). *)
Inductive jerror := BadPath | BadData | BadGeometry | BadId.
(** A value or an exception (OsmJsonParser.hpp:60-163). *)
Inductive jres (A : Type) := JOk (a : A) | JErr (e : jerror).
Arguments JOk {A} a.
Arguments JErr {A} e.
(** Sequencing of calls which may throw (OsmJsonParser.hpp:60-163). *)
Definition jbind {A B} (r : jres A) (f : A -> jres B) : jres B := match r with JOk a => f a | JErr e => JErr e end.
(** A loop which fills a vector (e.g. OsmJsonParser.hpp:161-163). *)
Fixpoint jeach {A B} (f : A -> jres B) (l : list A) : jres (list B) :=
  match l with [] => JOk [] | a :: l' => jbind (f a) (fun b => jbind (jeach f l') (fun bs => JOk (b :: bs))) end.
(** ptree::get_child (OsmJsonParser.hpp:60). *)
Definition getChild (p : string) (t : ptree) : jres ptree :=
  match pwalk (path (str p)) t with Some t' => JOk t' | None => JErr BadPath end.

Section Json.
  Context {D : Type}.
  Variable getId : bytes -> N.
  Variable toDouble : bytes -> option D.
  Variable ceqb : D * D -> D * D -> bool.
  Variable sortTags : list (N * N) -> list (N * N).

  (** core/src/entities/Element.hpp, Node.hpp, Way.hpp, Area.hpp and Relation.hpp; coordinates are
      latitude and longitude (Element.hpp:30-35, Node.hpp:14, Way.hpp:14, Area.hpp:14, Relation.hpp:13). *)
  Inductive jelem :=
  | JNode (id : N) (tags : list (N * N)) (c : D * D)
  | JWay (id : N) (tags : list (N * N)) (cs : list (D * D))
  | JArea (id : N) (tags : list (N * N)) (cs : list (D * D))
  | JRelation (id : N) (tags : list (N * N)) (es : list jelem).

  (** OsmJsonParser.hpp:196-205, parseId. *)
  Definition parseId (v : bytes) : jres N :=
    match v with
    | [] => JOk 0%N
    | c :: v' => match castId (if N.eqb c 45 then v' else v) with Some n => JOk n | None => JErr BadId end
    end.
  (** OsmJsonParser.hpp:182-188. *)
  Fixpoint propertiesFrom (id : N) (tags : list (N * N)) (ps : list (bytes * ptree)) : jres (N * list (N * N)) :=
    match ps with
    | [] => JOk (id, tags)
    | (name, t) :: ps' =>
        if N.eqb (getId name) (getId (str "id")) then jbind (parseId (pdata t)) (fun id' => propertiesFrom id' tags ps')
        else propertiesFrom id (tags ++ [(getId name, getId (pdata t))]) ps'
    end.
  (** OsmJsonParser.hpp:180-194, parseProperties of an element without tags. *)
  Definition parseProperties (featureId : N) (t : ptree) : jres (N * list (N * N)) :=
    jbind (propertiesFrom 0 [] (pchildren t)) (fun '(id, tags) => JOk (id, sortTags (tags ++ [(getId (str "feature"), featureId)]))).

  (** OsmJsonParser.hpp:170-178, parseCoordinate. *)
  Definition parseCoordinate (t : ptree) : jres (D * D) :=
    match pchildren t with
    | [(_, x); (_, y)] =>
        match toDouble (pdata x) with
        | None => JErr BadData
        | Some lon => match toDouble (pdata y) with None => JErr BadData | Some lat => JOk (lat, lon) end
        end
    | _ => JErr BadGeometry
    end.
  (** OsmJsonParser.hpp:159-168, parseCoordinates. *)
  Definition parseCoordinates (t : ptree) : jres (list (D * D)) :=
    jbind (jeach (fun c => parseCoordinate (snd c)) (pchildren t)) (fun cs => JOk (rev cs)).

  (** OsmJsonParser.hpp:142. *)
  Definition closed (cs : list (D * D)) : bool :=
    (3 <? List.length cs)%nat && match cs with [] => false | c :: _ => ceqb c (last cs c) end.
  (** OsmJsonParser.hpp:141-145 and 151-156. *)
  Definition ringElement (cs : list (D * D)) : jelem := if closed cs then JArea 0 [] cs else JWay 0 [] cs.
  (** OsmJsonParser.hpp:137-148, parseRelation: the elements. *)
  Definition parseRelation (t : ptree) : jres (list jelem) :=
    jeach (fun c => jbind (parseCoordinates (snd c)) (fun cs => JOk (ringElement cs))) (pchildren t).

  (** OsmJsonParser.hpp:128: id and tags of an element are set. *)
  Definition withProperties (id : N) (tags : list (N * N)) (e : jelem) : jelem :=
    match e with
    | JNode _ _ c => JNode id tags c
    | JWay _ _ cs => JWay id tags cs
    | JArea _ _ cs => JArea id tags cs
    | JRelation _ _ es => JRelation id tags es
    end.
  (** OsmJsonParser.hpp:125-134, processSimpleRelation. *)
  Definition simpleRelation (featureId : N) (f : ptree) : jres jelem :=
    jbind (getChild "geometry.coordinates" f) (fun g =>
    jbind (parseRelation g) (fun es =>
    jbind (getChild "properties" f) (fun p =>
    jbind (parseProperties featureId p) (fun '(id, tags) =>
    JOk match es with [e] => withProperties id tags e | _ => JRelation id tags es end)))).
  (** OsmJsonParser.hpp:107-113, parseLineString. *)
  Definition lineString (featureId : N) (f : ptree) : jres jelem :=
    jbind (getChild "properties" f) (fun p =>
    jbind (parseProperties featureId p) (fun '(id, tags) =>
    jbind (getChild "geometry.coordinates" f) (fun g =>
    jbind (parseCoordinates g) (fun cs => JOk (JWay id tags cs))))).
  (** OsmJsonParser.hpp:115-121, parsePoint. *)
  Definition point (featureId : N) (f : ptree) : jres jelem :=
    jbind (getChild "properties" f) (fun p =>
    jbind (parseProperties featureId p) (fun '(id, tags) =>
    jbind (getChild "geometry.coordinates" f) (fun g =>
    jbind (parseCoordinate g) (fun c => JOk (JNode id tags c))))).
  (** OsmJsonParser.hpp:85-92: one polygon of several; a single element is copied. *)
  Definition childElement (es : list jelem) : jelem := match es with [e] => e | _ => JRelation 0 [] es end.
  (** OsmJsonParser.hpp:81-95, parseMultiPolygon. *)
  Definition multiPolygon (featureId : N) (f : ptree) : jres jelem :=
    jbind (getChild "properties" f) (fun p =>
    jbind (parseProperties featureId p) (fun '(id, tags) =>
    jbind (getChild "geometry.coordinates" f) (fun g =>
    jbind (jeach (fun c => jbind (parseRelation (snd c)) (fun es => JOk (childElement es))) (pchildren g)) (fun es =>
    JOk (JRelation id tags es))))).

  (** OsmJsonParser.hpp:61-73: one feature. *)
  Definition parseFeature (featureId : N) (f : ptree) : jres jelem :=
    jbind (getChild "geometry.type" f) (fun t =>
    let type := pdata t in
    if beqb type (str "Point") then point featureId f
    else if beqb type (str "LineString") then lineString featureId f
    else if beqb type (str "Polygon") then simpleRelation featureId f
    else if beqb type (str "MultiLineString") then simpleRelation featureId f
    else if beqb type (str "MultiPolygon") then multiPolygon featureId f
    else JErr BadGeometry).

  (** A loop which hands elements to the visitor until one throws (OsmJsonParser.hpp:60-74): elements, and the end. *)
  Fixpoint told (f : ptree -> jres jelem) (l : list (bytes * ptree)) : list jelem * jres unit :=
    match l with
    | [] => ([], JOk tt)
    | (_, t) :: l' => match f t with
                      | JErr e => ([], JErr e)
                      | JOk a => let '(es, r) := told f l' in (a :: es, r)
                      end
    end.
  (** OsmJsonParser.hpp:58-60: the features under a name, looked up in the whole tree by path. *)
  Definition featuresOf (pt : ptree) (name : bytes) : jres ptree :=
    match pwalk (path name) pt with
    | None => JErr BadPath
    | Some t => getChild "features" t
    end.
  (** OsmJsonParser.hpp:57-75, from a child of the tree on. *)
  Fixpoint parseFrom (pt : ptree) (cs : list (bytes * ptree)) : list jelem * jres unit :=
    match cs with
    | [] => ([], JOk tt)
    | (name, _) :: cs' =>
        match featuresOf pt name with
        | JErr e => ([], JErr e)
        | JOk fs =>
            let '(es, r) := told (parseFeature (getId name)) (pchildren fs) in
            match r with
            | JErr e => (es, JErr e)
            | JOk _ => let '(es', r') := parseFrom pt cs' in (es ++ es', r')
            end
        end
    end.
  (** OsmJsonParser.hpp:52-76, parse. *)
  Definition parseJson (pt : ptree) : list jelem * jres unit := parseFrom pt (pchildren pt).
End Json.
Arguments jelem : clear implicits.
