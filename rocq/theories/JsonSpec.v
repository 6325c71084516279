(** GeoJSON documents and the elements they stand for, independent of the parser. *)
From Coq Require Import String.
From Verif Require Import Base Bytes JsonModel.
Local Open Scope list_scope.

Section Spec.
  Context {D : Type}.
  (** How a number is written. *)
  Variable show : D -> bytes.

  (** Geometries; positions are latitude and longitude. *)
  Inductive geometry :=
  | GPoint (c : D * D)
  | GLine (cs : list (D * D))
  | GPolygon (rings : list (list (D * D)))
  | GMultiLine (lines : list (list (D * D)))
  | GMultiPolygon (polygons : list (list (list (D * D)))).
  (** A feature: its properties, among them perhaps an identifier, and its geometry. *)
  Record gfeature := mkFeature { gProperties : list (bytes * bytes); gGeometry : geometry }.

  (** The tree of a document. *)
  Definition leaf (d : bytes) : ptree := PT d [].
  Definition array (l : list ptree) : ptree := PT [] (map (fun t => ([], t)) l).
  Definition treePosition (c : D * D) : ptree := array [leaf (show (snd c)); leaf (show (fst c))].
  Definition treeLine (cs : list (D * D)) : ptree := array (map treePosition cs).
  Definition treeLines (ls : list (list (D * D))) : ptree := array (map treeLine ls).
  Definition treeGeometry (g : geometry) : string * ptree :=
    match g with
    | GPoint c => ("Point"%string, treePosition c)
    | GLine cs => ("LineString"%string, treeLine cs)
    | GPolygon rs => ("Polygon"%string, treeLines rs)
    | GMultiLine ls => ("MultiLineString"%string, treeLines ls)
    | GMultiPolygon ps => ("MultiPolygon"%string, array (map treeLines ps))
    end.
  Definition treeFeature (f : gfeature) : ptree :=
    let '(type, coordinates) := treeGeometry (gGeometry f) in
    PT [] [(str "type", leaf (str "Feature"));
           (str "properties", PT [] (map (fun p => (fst p, leaf (snd p))) (gProperties f)));
           (str "geometry", PT [] [(str "type", leaf (str type)); (str "coordinates", coordinates)])].
  Definition treeCollection (fs : list gfeature) : ptree :=
    PT [] [(str "type", leaf (str "FeatureCollection")); (str "features", array (map treeFeature fs))].
  Definition treeDocument (doc : list (bytes * list gfeature)) : ptree :=
    PT [] (map (fun nf => (fst nf, treeCollection (snd nf))) doc).

  Variable getId : bytes -> N.
  Variable ceqb : D * D -> D * D -> bool.
  Variable sortTags : list (N * N) -> list (N * N).

  (** The identifier: the last property called id, without a minus; 0 if there is none. *)
  Definition idText (v : bytes) : bytes := match v with [] => str "0" | c :: v' => if N.eqb c 45 then v' else v end.
  Definition idProperties (ps : list (bytes * bytes)) : list bytes :=
    map snd (filter (fun p => beqb (fst p) (str "id")) ps).
  Definition plainProperties (ps : list (bytes * bytes)) : list (bytes * bytes) :=
    filter (fun p => negb (beqb (fst p) (str "id"))) ps.
  Definition hasId (ps : list (bytes * bytes)) (id : N) : Prop :=
    Forall (fun v => StyleModel.castId (idText v) <> None) (idProperties ps) /\
    StyleModel.castId (idText (last (idProperties ps) [])) = Some id.
  (** The tags: the other properties and the name of the feature collection. *)
  Definition tagsOf (name : bytes) (ps : list (bytes * bytes)) : list (N * N) :=
    sortTags (map (fun p => (getId (fst p), getId (snd p))) (plainProperties ps) ++ [(getId (str "feature"), getId name)]).

  (** Positions are kept in reverse order; a ring is a closed line of more than three positions. *)
  Definition lineElement (id : N) (tags : list (N * N)) (cs : list (D * D)) : jelem D :=
    match cs with
    | c :: _ :: _ :: _ :: _ => if ceqb (last cs c) c then JArea id tags (rev cs) else JWay id tags (rev cs)
    | _ => JWay id tags (rev cs)
    end.
  (** One line stands for itself, several for a relation. *)
  Definition linesElement (id : N) (tags : list (N * N)) (ls : list (list (D * D))) : jelem D :=
    match ls with [cs] => lineElement id tags cs | _ => JRelation id tags (map (lineElement 0 []) ls) end.
  Definition elementOf (id : N) (tags : list (N * N)) (g : geometry) : jelem D :=
    match g with
    | GPoint c => JNode id tags c
    | GLine cs => JWay id tags (rev cs)
    | GPolygon ls | GMultiLine ls => linesElement id tags ls
    | GMultiPolygon ps => JRelation id tags (map (linesElement 0 []) ps)
    end.
  Definition stands (name : bytes) (f : gfeature) (e : jelem D) : Prop :=
    exists id, hasId (gProperties f) id /\ e = elementOf id (tagsOf name (gProperties f)) (gGeometry f).
End Spec.
Arguments geometry : clear implicits.
Arguments gfeature : clear implicits.
