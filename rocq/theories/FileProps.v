(** Which parser reads a data file: theorems for C86. *)
From Coq Require Import String.
From Verif Require Import Base Bytes ElementModel GeoModel StoreModel TileStoreModel TileStoreSpec TileStoreProofs
  TileStoreProps JsonModel FileModel FileSpec FileProofs.
Local Open Scope nat_scope.

(** Every path has a format, decided by how the path ends; nothing outside the path is read, however short it is. *)
Theorem C86_format : forall path, exists f, formatOf path = Ok f /\
  (f = Pbf <-> endsIn path (str "pbf")) /\ (f = Xml <-> endsIn path (str "xml")) /\
  (f = Json <-> endsIn path (str "json")) /\
  (f = Shape <-> ~ endsIn path (str "pbf") /\ ~ endsIn path (str "xml") /\ ~ endsIn path (str "json")).
Proof. exact formatOf_spec. Qed.
Print Assumptions C86_format.

(** Only the last four characters count: directories and the rest of the name do not. *)
Theorem C86_tail : forall p q s, 4 <= length s -> formatOf (p ++ s) = formatOf (q ++ s).
Proof. exact formatOf_tail. Qed.
Print Assumptions C86_tail.

Example C86_format_example :
  formatOf (str "/data/berlin.osm.xml") = Ok Xml /\ formatOf (str "earth.geojson") = Ok Json /\
  formatOf (str "osm.pbf") = Ok Pbf /\ formatOf (str "ne_110m_land") = Ok Shape /\ formatOf (str "f") = Ok Shape /\
  formatOf [] = Ok Shape /\ 4 <= length (str ".xml").
Proof. repeat (split; [vm_compute; reflexivity|]). cbn. lia. Qed.

(** What the store is given is what the parser of that format finds in the file, and no other parser is asked; without
    support of PBF such a file is refused before anything is stored. *)
Theorem C86_reader : forall C pbf (rs : readers C) files add path,
  (endsIn path (str "xml") -> addFile pbf rs files add path = add (readXml rs (files path))) /\
  (endsIn path (str "json") -> addFile pbf rs files add path = add (readJson rs (files path))) /\
  (endsIn path (str "pbf") -> pbf = true -> addFile pbf rs files add path = add (readPbf rs (files path))) /\
  (endsIn path (str "pbf") -> pbf = false -> addFile pbf rs files add path = ([], Throw DomainError)) /\
  (~ endsIn path (str "pbf") -> ~ endsIn path (str "xml") -> ~ endsIn path (str "json") ->
   addFile pbf rs files add path = add (readShape rs path)).
Proof.
  intros C pbf rs files add path. destruct (formatOf_spec path) as (f & E & P & X & J & S).
  unfold addFile, importOf. rewrite E. cbn [bind].
  split; [intro H; apply X in H; subst f; reflexivity|].
  split; [intro H; apply J in H; subst f; reflexivity|].
  split; [intros H ->; apply P in H; subst f; reflexivity|].
  split; [intros H ->; apply P in H; subst f; reflexivity|].
  intros A B D. assert (H : f = Shape) by (apply S; auto). subst f. reflexivity.
Qed.
Print Assumptions C86_reader.

(** Importing a file into a registered store leaves the set of stores as it is. *)
Theorem C86_registered : forall C pbf (rs : readers C) files add name path (m : storeMap memory) s,
  nameSorted m -> alookup beqb name m = Some (Some s) ->
  addNamed pbf rs files add name path m = (addFile pbf rs files add path, emplace name None m) /\
  forall x, alookup beqb x (emplace name None m) = alookup beqb x m.
Proof.
  intros C pbf rs files add name path m s Hs Hn. split.
  - unfold addNamed, lookupStore. rewrite Hn. reflexivity.
  - intro x. rewrite emplace_lookup by exact Hs. destruct (alookup beqb x m) eqn:E; [reflexivity|].
    destruct (beqb x name) eqn:B; [|reflexivity]. apply BytesProofs.beqb_eq in B. subst x. congruence.
Qed.
Print Assumptions C86_registered.

(** What comes of a file without elements: no exception and no cancellation (GeoStore.cpp:89-95). *)
Definition nothing : import := mkImport [] None false.
(** Parsers of files without elements (GeoStore.cpp:84-114). *)
Definition idle : readers unit := mkReaders (fun _ => nothing) (fun _ => nothing) (fun _ => nothing) (fun _ => nothing).

(** Not so for a name which is not registered: an import which throws, as one of PBF without its support, or one of a file
    without elements, which ends as if it had succeeded, makes every later search of a tile undefined. *)
Theorem C86_unknown : forall C (rs : readers C) files add name path (m : storeMap memory) k,
  nameSorted m -> alookup beqb name m = None ->
  (endsIn path (str "pbf") -> exists m', addNamed false rs files add name path m = ([], Throw DomainError, m') /\
     searchStores k m' = UB) /\
  (endsIn path (str "xml") -> readXml rs (files path) = nothing ->
     exists m', addNamed false rs files add name path m = ([], Ok tt, m') /\ searchStores k m' = UB).
Proof.
  intros C rs files add name path m k Hs Hn. destruct (C45_unknown name m k Hs Hn) as [N U].
  unfold addNamed. destruct (lookupStore name m) as [s m'] eqn:L. cbn [fst snd] in N, U. subst s. split.
  - intro P. exists m'. split; [|exact U]. unfold addNull.
    destruct (C86_reader C false rs files (fun i => match parsed i, thrown i with
      | _ :: _, _ => ([], UB) | [], Some x => ([], Throw x) | [], None => if cancelled i then ([], UB) else ([], Ok tt) end)
      path) as (_ & _ & _ & H & _). rewrite H by auto. reflexivity.
  - intros X R. exists m'. split; [|exact U]. unfold addNull.
    destruct (C86_reader C false rs files (fun i => match parsed i, thrown i with
      | _ :: _, _ => ([], UB) | [], Some x => ([], Throw x) | [], None => if cancelled i then ([], UB) else ([], Ok tt) end)
      path) as (H & _). rewrite H by auto. rewrite R. reflexivity.
Qed.
Print Assumptions C86_unknown.

Example C86_unknown_example : exists (m : storeMap memory), nameSorted m /\ alookup beqb [67%N] m = None /\
  searchStores (mkKey 7 1 1) m = Ok [] /\ endsIn (str "a.osm.pbf") (str "pbf") /\ endsIn (str "a.xml") (str "xml") /\
  readXml idle tt = nothing.
Proof.
  exists (registerStore [65%N] [] []). split; [apply emplace_sorted; constructor|].
  split; [reflexivity|]. split; [reflexivity|].
  split; [exists (str "a.osm."); reflexivity|]. split; [exists (str "a."); reflexivity|reflexivity].
Qed.

(** It is refuted that a file of OpenStreetMap is read by its parser whatever customary extension it has: one which ends in
    .osm, or in .XML, is given to the parser of shapes, wherever it is. *)
Theorem C86_osm_refuted : forall p, formatOf (p ++ str ".osm") = Ok Shape /\ formatOf (p ++ str ".XML") = Ok Shape.
Proof.
  intro p. split; [rewrite (formatOf_tail p [])|rewrite (formatOf_tail p [])]; try (cbn; lia); reflexivity.
Qed.
Print Assumptions C86_osm_refuted.
