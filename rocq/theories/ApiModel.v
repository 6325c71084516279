(** Model of the exported C functions: core/shared/ExportLib.cpp, Application.hpp, Configuration.hpp, Storage.hpp, Search.hpp and
    Common.hpp.  Stores, stylesheets, builders and elevation are parameters ([parts]); the string table is that of StringModel.
    Strings are the bytes in front of their first NUL. *)
From Verif Require Import Base Bytes StringModel ElementModel GeoModel MeshModel StyleModel.
Local Open Scope Z_scope.

(** Common.hpp:36: which elevation is used. *)
Inductive eleKind := Flat | Srtm | Grid.
(** Application.hpp:64-71, getElevationProvider: any other number is flat. *)
Definition kindOf (n : Z) : eleKind := if n =? 2 then Grid else if n =? 1 then Srtm else Flat.

(** Storage.hpp:21, 41, 55, 128: what is added to a store: a data file to the tiles of a range, of a box and a range or to one tile,
    or one element. *)
Inductive request :=
| InRange (path : bytes) (r : lodRange)
| InBox (path : bytes) (least most : coord) (r : lodRange)
| InTile (path : bytes) (k : quadKey)
| OneElement (e : element) (r : lodRange).
(** Search.hpp:18-33: the three texts and the box of a search. *)
Record query := mkQuery { qNot : bytes; qAnd : bytes; qOr : bytes; qLeast : coord; qMost : coord; qRange : lodRange }.
(** Search.hpp:57-69: what a tile is built to. *)
Inductive product := Built (m : mesh) | Found (e : element).

(** Common.hpp:12-33: the callbacks.  An array is its content and the size told. *)
Inductive event :=
| EError (e : exn)
| EDirectory (path : bytes)
| EElement (tag : Z) (id : N) (tags : list bytes) (tagsSize : Z) (vertices : list N) (vertexSize : Z) (style : list bytes) (styleSize : Z)
| EMesh (tag : Z) (m : mesh).
(** What the function returns (ExportLib.cpp:72-74, 91-93). *)
Inductive answer := Nothing | Yes (b : bool) | Height (h : N).

(** static_cast<int> of a size (Search.hpp:61-65, 133-135). *)
Definition asInt (n : nat) : Z := (Z.of_nat n + 2 ^ 31) mod 2 ^ 32 - 2 ^ 31.

(** * Vectors of strings and pointers to them (Search.hpp:143-180) *)
(** Search.hpp:202-203, std::vector<std::string>: its strings, its capacity and how often its memory was replaced. *)
Record strings := mkStrings { sItems : list bytes; sRoom : nat; sAge : nat }.
(** Search.hpp:202-203: an empty vector. *)
Definition noStrings : strings := mkStrings [] 0 0.
(** std::vector::reserve (Search.hpp:146, 169). *)
Definition reserve (n : nat) (v : strings) : strings :=
  if (sRoom v <? n)%nat then mkStrings (sItems v) n (S (sAge v)) else v.
(** std::vector::push_back (Search.hpp:152-153, 173-174); without room left the memory is replaced. *)
Definition push (s : bytes) (v : strings) : strings :=
  if (length (sItems v) <? sRoom v)%nat then mkStrings (sItems v ++ [s]) (sRoom v) (sAge v)
  else mkStrings (sItems v ++ [s]) (S (length (sItems v))) (S (sAge v)).
(** std::vector::clear (Search.hpp:139-140): the memory is kept. *)
Definition clear (v : strings) : strings := mkStrings [] (sRoom v) (sAge v).
(** c_str() of a string of the vector (Search.hpp:154-155, 175-176): which memory and which string of it. *)
Definition cptr := (nat * nat)%type.
(** Common.hpp:28, 30: reading a string behind a pointer, up to its NUL; memory which was replaced must not be read. *)
Definition readC (v : strings) (p : cptr) : outcome bytes :=
  if (fst p =? sAge v)%nat then match nth_error (sItems v) (snd p) with Some s => Ok (cstr s) | None => UB end else UB.
(** Reading the array of pointers (Common.hpp:28, 30). *)
Fixpoint readAllC (v : strings) (ps : list cptr) : outcome (list bytes) :=
  match ps with [] => Ok [] | p :: ps' => bind (readC v p) (fun s => bind (readAllC v ps') (fun l => Ok (s :: l))) end.
(** Search.hpp:152-155, 173-176: two strings and the pointers to them. *)
Definition pushPair (a b : bytes) (v : strings) : strings * list cptr :=
  let v := push b (push a v) in
  let n := length (sItems v) in (v, [(sAge v, n - 2); (sAge v, n - 1)]%nat).

Section Api.
  (** The hash of the string table (StringTable.cpp:50, StringModel). *)
  Context (hash : bytes -> N).
  Context {P S : Type}.
  (** The other parts of the library.  Stylesheets: MapCssParser.cpp and StyleProvider.cpp; a stylesheet may take strings into the table before it
      fails.  Stores: GeoStore.cpp.  Tiles: QuadKeyBuilder.cpp.  Elevation: the classes of core/src/heightmap.  What stores
      and builders found before an exception is kept (used by Application.hpp:20-80). *)
  Record parts := mkParts {
    qCreate : bytes -> outcome (table * S);
    qProvide : bytes -> bytes -> table -> table * outcome P;
    qTag : P -> bytes;
    qStyle : P -> element -> Z -> outcome (list (N * bytes));
    qSame : coord -> coord -> bool;
    qRegister : bytes -> option bytes -> S -> S;
    qCaching : bool -> S -> S;
    qStore : bytes -> request -> P -> table -> S -> table * S * outcome unit;
    qHas : quadKey -> S -> outcome bool;
    qSearch : query -> table -> S -> table * S * list element * outcome unit;
    qBuild : quadKey -> P -> eleKind -> table -> S -> table * S * list product * outcome unit;
    qElevation : eleKind -> quadKey -> coord -> outcome N
  }.
  (** ExportLib.cpp:11: the parts of the one application. *)
  Context (q : parts).

  (** Application.hpp:73-82 and Common.hpp:53-58: the path of the index, the string table, the stores and builders, and the
      stylesheets by path. *)
  Record application := mkApp { aIndex : bytes; aTable : table; aStores : S; aStyles : list (bytes * P) }.
  (** Application.hpp:18-24 and Common.hpp:43-51, the constructors. *)
  Definition create (index : bytes) : outcome application := omap (fun '(t, s) => mkApp index t s []) (qCreate q index).
  (** Common.hpp:54: the table was changed. *)
  Definition setTable (a : application) (t : table) : application := mkApp (aIndex a) t (aStores a) (aStyles a).

  (** Application.hpp:53: the path up to its last slash. *)
  Fixpoint dirOf (path : bytes) : bytes :=
    match path with
    | [] => []
    | c :: path' =>
        match dirOf path' with
        | [] => if N.eqb c 47 || N.eqb c 92 then [c] else []
        | d => c :: d
        end
    end.
  (** Application.hpp:43-61, getStyleProvider; [disk] is what can be read at the moment. *)
  Definition provider (disk : bytes -> option bytes) (path : bytes) (a : application) : application * outcome P :=
    match alookup beqb path (aStyles a) with
    | Some p => (a, Ok p)
    | None =>
        match disk path with
        | None => (a, Throw InvalidArgument)
        | Some text =>
            let '(t, r) := qProvide q (dirOf path) text (aTable a) in
            match r with
            | Ok p => (mkApp (aIndex a) t (aStores a) ((path, p) :: aStyles a), Ok p)
            | Throw e => (setTable a t, Throw e)
            | UB => (setTable a t, UB)
            end
        end
    end.

  (** * Search.hpp:86-204: elements to arrays *)
  (** Search.hpp:148-156, the loop of getTags. *)
  Fixpoint pushTags (ts : list tag) (t : table) (v : strings) : table * outcome (strings * list cptr) :=
    match ts with
    | [] => (t, Ok (v, []))
    | x :: ts' =>
        match bind (getString (tkey x) t) (fun '(key, t1) => bind (getString (tvalue x) t1) (fun '(value, t2) => Ok (key, value, t2))) with
        | Throw e => (t, Throw e)
        | UB => (t, UB)
        | Ok (key, value, t2) =>
            let '(v, ps) := pushPair key value v in
            let '(t3, r) := pushTags ts' t2 v in
            (t3, bind r (fun '(v, ps') => Ok (v, ps ++ ps')))
        end
    end.
  (** Search.hpp:171-177, the loop of getStyles: the key is an id of the string table. *)
  Fixpoint pushStyles (ds : list (N * bytes)) (t : table) (v : strings) : table * outcome (strings * list cptr) :=
    match ds with
    | [] => (t, Ok (v, []))
    | (k, value) :: ds' =>
        match getString k t with
        | Throw e => (t, Throw e)
        | UB => (t, UB)
        | Ok (key, t2) =>
            let '(v, ps) := pushPair key value v in
            let '(t3, r) := pushStyles ds' t2 v in
            (t3, bind r (fun '(v, ps') => Ok (v, ps ++ ps')))
        end
    end.
  (** Search.hpp:183-191, fillVertices: longitude, latitude, elevation. *)
  Fixpoint fillVertices (ele : coord -> outcome N) (cs : list coord) : outcome (list N) :=
    match cs with
    | [] => Ok []
    | c :: cs' => bind (ele c) (fun h => bind (fillVertices ele cs') (fun l => Ok (clon c :: clat c :: h :: l)))
    end.
  (** Search.hpp:108-123: the coordinates told for an element; a relation is at 0, 0. *)
  Definition placesOf (e : element) : list coord :=
    match e with Node _ _ c => [c] | Way _ _ cs | Area _ _ cs => cs | Relation _ _ _ => [mkCoord 0 0] end.
  (** Search.hpp:202-203: the vectors of the visitor between two elements. *)
  Record visitor := mkVisitor { vTags : strings; vStyles : strings }.
  (** Search.hpp:125-141, visitElement, with lines 144-147 and 162-170; [style] and [ele] are those of one of the two constructors
      (lines 91-106).  The vertices are in a vector of numbers and read at once. *)
  Definition visitElement (n : Z) (style : option (element -> outcome (list (N * bytes)))) (ele : coord -> outcome N) (e : element)
      (t : table) (v : visitor) : table * visitor * outcome event :=
    let '(t, tags) := pushTags (etags e) t (reserve (length (etags e) * 2) (vTags v)) in
    match tags with
    | Throw x => (t, v, Throw x)
    | UB => (t, v, UB)
    | Ok (ts, tps) =>
        let '(t, styles) :=
          match style with
          | None => (t, Ok (vStyles v, []))
          | Some f =>
              match f e with
              | Throw x => (t, Throw x)
              | UB => (t, UB)
              | Ok ds => pushStyles ds t (reserve (length ds * 2) (vStyles v))
              end
          end in
        match styles with
        | Throw x => (t, v, Throw x)
        | UB => (t, v, UB)
        | Ok (ss, sps) =>
            (t, mkVisitor (clear ts) (clear ss),
             bind (fillVertices ele (placesOf e)) (fun vs =>
             bind (readAllC ts tps) (fun tags =>
             bind (readAllC ss sps) (fun styles =>
             Ok (EElement n (eid e) tags (asInt (length tps)) vs (asInt (length vs)) styles (asInt (length sps)))))))
        end
    end.
  (** Search.hpp:36: the elements found, one after the other. *)
  Fixpoint visitAll (n : Z) style ele (es : list element) (t : table) (v : visitor) : table * list event * outcome unit :=
    match es with
    | [] => (t, [], Ok tt)
    | e :: es' =>
        let '(t, v, r) := visitElement n style ele e t v in
        match r with
        | Throw x => (t, [], Throw x)
        | UB => (t, [], UB)
        | Ok ev => let '(t, evs, r) := visitAll n style ele es' t v in (t, ev :: evs, r)
        end
    end.
  (** Search.hpp:55-69: meshes and elements of a tile; a mesh without vertices is not told. *)
  Fixpoint tellAll (n : Z) style ele (os : list product) (t : table) (v : visitor) : table * list event * outcome unit :=
    match os with
    | [] => (t, [], Ok tt)
    | Built m :: os' =>
        let '(t, evs, r) := tellAll n style ele os' t v in
        (t, (match vertices m with [] => [] | _ => [EMesh n m] end) ++ evs, r)
    | Found e :: os' =>
        let '(t, v, r) := visitElement n style ele e t v in
        match r with
        | Throw x => (t, [], Throw x)
        | UB => (t, [], UB)
        | Ok ev => let '(t, evs, r) := tellAll n style ele os' t v in (t, ev :: evs, r)
        end
    end.
  (** Search.hpp:34, 54: a new visitor. *)
  Definition newVisitor : visitor := mkVisitor noStrings noStrings.

  (** * Storage.hpp: arrays to elements *)
  (** Storage.hpp:76-77, 86, 94: an entry of an array of a caller. *)
  Definition entry {A} (l : list A) (i : nat) : outcome A := match nth_error l i with Some x => Ok x | None => UB end.
  (** Storage.hpp:75-79: the ids of [n] keys and values. *)
  Fixpoint tagIds (tags : list bytes) (i n : nat) (t : table) : table * outcome (list tag) :=
    match n with
    | O => (t, Ok [])
    | Datatypes.S n' =>
        match bind (entry tags i) (fun key => bind (getId hash key t) (fun '(k, t1) =>
              bind (entry tags (i + 1)) (fun value => bind (getId hash value t1) (fun '(v, t2) => Ok (mkTag k v, t2))))) with
        | Throw e => (t, Throw e)
        | UB => (t, UB)
        | Ok (x, t2) => let '(t3, r) := tagIds tags (i + 2) n' t2 in (t3, omap (cons x) r)
        end
    end.
  (** Storage.hpp:93-95: [n] coordinates, latitude first. *)
  Fixpoint places (vertices : list N) (i n : nat) : outcome (list coord) :=
    match n with
    | O => Ok []
    | Datatypes.S n' =>
        bind (entry vertices i) (fun lat => bind (entry vertices (i + 1)) (fun lon =>
        bind (places vertices (i + 2) n') (fun l => Ok (mkCoord lat lon :: l))))
    end.
  (** How often a loop with i += 2 runs up to a length (Storage.hpp:75, 93). *)
  Definition steps (n : Z) : nat := Z.to_nat ((n + 1) / 2).
  (** Storage.hpp:73-79: the tags.  A negative length is a size greater than any vector for reserve; -1 / 2 is 0, but the
      counter is compared with it as a std::size_t. *)
  Definition tagsOf (tags : list bytes) (n : Z) (t : table) : table * outcome (list tag) :=
    if n <=? -2 then (t, Throw LengthError) else if n <? 0 then (t, UB) else tagIds tags 0 (steps n) t.
  (** Storage.hpp:81-112: the element; a relation cannot be told. *)
  Definition elementOf (id : N) (vertices : list N) (n : Z) (ts : list tag) : outcome element :=
    if Z.quot n 2 =? 1 then bind (entry vertices 0) (fun lat => bind (entry vertices 1) (fun lon => Ok (Node id ts (mkCoord lat lon))))
    else if n <=? -2 then Throw LengthError
    else bind (places vertices 0 (steps n)) (fun cs =>
      match cs with
      | [] => UB
      | c :: _ => Ok (if qSame q c (last cs c) then Area id ts cs else Way id ts cs)
      end).

  (** * Configuration.hpp *)
  (** Configuration.hpp:56-61, createDataDirs, with lines 19-20. *)
  Definition dataDirs (root : bytes) : list event :=
    map (fun i => EDirectory (root ++ 47%N :: decimal (Z.to_N i))) (interval 1 16).
  (** Configuration.hpp:29: where the meshes of a stylesheet are cached. *)
  Definition cacheRoot (index tag : bytes) : bytes := index ++ [47; 99; 97; 99; 104; 101; 47]%N ++ tag ++ [47%N].

    (** PersistentElementStore.cpp:222-227, getFilePath: where a persistent store keeps a tile. *)
  Definition storeFile (dataPath extension : bytes) (k : quadKey) : outcome bytes :=
    omap (fun s => dataPath ++ 47%N :: decimal (Z.to_N (lod k)) ++ 47%N :: s ++ extension) (keyString k).

  (** Common.hpp:62-69, safeExecute; [evs] are the callbacks called before the action ended. *)
  Definition safely (evs : list event) (r : outcome unit) : list event * outcome answer :=
    match r with
    | Ok _ => (evs, Ok Nothing)
    | Throw e => (evs ++ [EError e], Ok Nothing)
    | UB => (evs, UB)
    end.

  (** Storage.hpp:20-22, 40-42, 54-56, 127-129: with a stylesheet. *)
  Definition addWith (disk : bytes -> option bytes) (key style : bytes) (r : request) (a : application) : application * list event * outcome answer :=
    let '(a, p) := provider disk style a in
    match p with
    | Ok p =>
        let '(t, s, r) := qStore q key r p (aTable a) (aStores a) in
        let '(evs, r) := safely [] r in (mkApp (aIndex a) t s (aStyles a), evs, r)
    | Throw e => let '(evs, r) := safely [] (Throw e) in (a, evs, r)
    | UB => (a, [], UB)
    end.
  (** Storage.hpp:39, 53, 72 and Search.hpp:33: the range is made outside of safeExecute. *)
  Definition withRange (s e : Z) (a : application) (f : lodRange -> application * list event * outcome answer) : application * list event * outcome answer :=
    match newRange s e with Ok r => f r | Throw x => (a, [], Throw x) | UB => (a, [], UB) end.

  (** * ExportLib.cpp *)
  (** ExportLib.cpp:31-93: the functions but for connect and disconnect. *)
  Inductive call :=
  | RegisterStylesheet (path : bytes)
  | RegisterInMemoryStore (key : bytes)
  | RegisterPersistentStore (key path : bytes)
  | EnableMeshCache (enabled : Z)
  | AddDataInRange (key style path : bytes) (s e : Z)
  | AddDataInBoundingBox (key style path : bytes) (least most : coord) (s e : Z)
  | AddDataInQuadKey (key style path : bytes) (k : quadKey)
  | AddDataInElement (key style : bytes) (id : N) (vertices : list N) (vertexLength : Z) (tags : list bytes) (tagLength : Z) (s e : Z)
  | HasData (k : quadKey)
  | GetDataByText (tag : Z) (nots ands ors : bytes) (least most : coord) (s e : Z)
  | GetDataByQuadKey (tag : Z) (style : bytes) (k : quadKey) (ele : Z)
  | GetElevationByQuadKey (k : quadKey) (ele : Z) (c : coord).

  (** Configuration.hpp:26-52, Storage.hpp:10-117, Search.hpp:16-81. *)
  Definition serve (disk : bytes -> option bytes) (c : call) (a : application) : application * list event * outcome answer :=
    match c with
    | RegisterStylesheet path =>
        let '(a, p) := provider disk path a in
        match p with
        | Ok p => (a, dataDirs (cacheRoot (aIndex a) (qTag q p)), Ok Nothing)
        | Throw e => (a, [], Throw e)
        | UB => (a, [], UB)
        end
    | RegisterInMemoryStore key => (mkApp (aIndex a) (aTable a) (qRegister q key None (aStores a)) (aStyles a), [], Ok Nothing)
    | RegisterPersistentStore key path =>
        (mkApp (aIndex a) (aTable a) (qRegister q key (Some path) (aStores a)) (aStyles a), dataDirs path, Ok Nothing)
    | EnableMeshCache enabled => (mkApp (aIndex a) (aTable a) (qCaching q (0 <? enabled) (aStores a)) (aStyles a), [], Ok Nothing)
    | AddDataInRange key style path s e => withRange s e a (fun r => addWith disk key style (InRange path r) a)
    | AddDataInBoundingBox key style path least most s e => withRange s e a (fun r => addWith disk key style (InBox path least most r) a)
    | AddDataInQuadKey key style path k => addWith disk key style (InTile path k) a
    | AddDataInElement key style id vertices vertexLength tags tagLength s e =>
        withRange s e a (fun r =>
        let '(t, ts) := tagsOf tags tagLength (aTable a) in
        let a := setTable a t in
        match bind ts (elementOf id vertices vertexLength) with
        | Ok x => addWith disk key style (OneElement x r) a
        | Throw x => (a, [], Throw x)
        | UB => (a, [], UB)
        end)
    | HasData k => (a, [], omap Yes (qHas q k (aStores a)))
    | GetDataByText tag nots ands ors least most s e =>
        withRange s e a (fun r =>
        let '(t, st, es, found) := qSearch q (mkQuery nots ands ors least most r) (aTable a) (aStores a) in
        let '(t, evs, told) := visitAll tag None (fun _ => Ok 0%N) es t newVisitor in
        let '(evs, o) := safely evs (bind told (fun _ => found)) in
        (mkApp (aIndex a) t st (aStyles a), evs, o))
    | GetDataByQuadKey tag style k ele =>
        let '(a, p) := provider disk style a in
        match p with
        | Throw e => let '(evs, r) := safely [] (Throw e) in (a, evs, r)
        | UB => (a, [], UB)
        | Ok p =>
            let kind := kindOf ele in
            let '(t, st, os, built) := qBuild q k p kind (aTable a) (aStores a) in
            let '(t, evs, told) := tellAll tag (Some (fun e => qStyle q p e (lod k))) (qElevation q kind k) os t newVisitor in
            let '(evs, o) := safely evs (bind told (fun _ => built)) in
            (mkApp (aIndex a) t st (aStyles a), evs, o)
        end
    | GetElevationByQuadKey k ele c => (a, [], omap Height (qElevation q (kindOf ele) k c))
    end.

  (** ExportLib.cpp:11: applicationPtr; after delete it points to nothing. *)
  Inductive pointer := Null | Live (a : application) | Gone.
  (** ExportLib.cpp:18-93: the functions; every one of them but connect and disconnect goes through the pointer. *)
  Inductive op := Connect (index : bytes) | Disconnect | Use (disk : bytes -> option bytes) (c : call).
  (** ExportLib.cpp:19-29: connect does not free an application, disconnect does not reset the pointer. *)
  Definition step (o : op) (p : pointer) : pointer * list event * outcome answer :=
    match o with
    | Connect index =>
        match create index with
        | Ok a => (Live a, [], Ok Nothing)
        | Throw e => (p, [EError e], Ok Nothing)
        | UB => (p, [], UB)
        end
    | Disconnect => match p with Null => (Null, [], Ok Nothing) | Live _ => (Gone, [], Ok Nothing) | Gone => (Gone, [], UB) end
    | Use disk c =>
        match p with
        | Live a => let '(a, evs, r) := serve disk c a in (Live a, evs, r)
        | _ => (p, [], UB)
        end
    end.
  (** ExportLib.cpp:18-93: what the caller of one function gets: an answer or an exception. *)
  Inductive reply := Returned (x : answer) | Escaped (e : exn).
  (** ExportLib.cpp:18-93: calls one after the other, also after an exception; undefined behaviour ends the program. *)
  Fixpoint run (os : list op) (p : pointer) : pointer * list event * outcome (list reply) :=
    match os with
    | [] => (p, [], Ok [])
    | o :: os' =>
        let '(p, evs, r) := step o p in
        match r with
        | UB => (p, evs, UB)
        | Throw x => let '(p, evs', r) := run os' p in (p, evs ++ evs', omap (cons (Escaped x)) r)
        | Ok x => let '(p, evs', r) := run os' p in (p, evs ++ evs', omap (cons (Returned x)) r)
        end
    end.
End Api.
Arguments parts : clear implicits.
Arguments application : clear implicits.
Arguments pointer : clear implicits.
Arguments Null {P S}.
Arguments Gone {P S}.
