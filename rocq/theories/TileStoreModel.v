(** Model of core/src/index/ElementStore.cpp (which tiles an element goes to) and
    core/src/index/GeoStore.cpp (importing data and searching all stores). *)
From Verif Require Import Base Bytes ElementModel GeoModel StoreModel.

(** * core/src/index/ElementStore.cpp *)

(** What ElementStore.cpp:70-71 and 83 ask of the style of an element at a level: it is
    empty, has skip:true, has clip:true. *)
Record styleFlags := mkFlags { sEmpty : bool; sSkip : bool; sClip : bool }.

Section ElementStore.
  (** core/src/utils/GeoUtils.hpp:26-30 and 43-52, see ProjectionModel.v. *)
  Variable tileOf : point dbl -> Z -> quadKey.
  Variable tileBox : quadKey -> box dbl.
  (** center() == center(), ElementStore.cpp:44 (BoundingBox.hpp:85-89, GeoCoordinate.hpp:26-29). *)
  Variable sameCenter : box dbl -> box dbl -> bool.
  (** StyleProvider::forElement, ElementStore.cpp:70. *)
  Variable styleOf : element -> Z -> styleFlags.
  (** The elements a new ElementGeometryClipper passes to save in clipAndCall,
      ElementStore.cpp:84-92.  (The clippers are kept per tile, but no tile is visited twice
      in one call, C20.) *)
  Variable clip : quadKey -> box dbl -> element -> list element.

  (** ElementStore.cpp:71. *)
  Definition wanted (f : styleFlags) : bool := negb (sEmpty f || sSkip f).

  (** ElementStore.cpp:75-76. *)
  Definition boxOnce (b : box dbl) (e : element) : box dbl :=
    if isValid dord b then b else geometryVisit b e.

  (** The visitor of ElementStore.cpp:79-98: what it saves for one tile. *)
  Definition saveTile (f : styleFlags) (e : element) (v : quadKey * box dbl) : list (quadKey * element) :=
    if sClip f then map (fun e' => (fst v, e')) (clip (fst v) (snd v) e) else [(fst v, e)].

  (** ElementStore.cpp:69-99: saves in order, and whether any tile was accepted. *)
  Fixpoint storeLevels (accept : box dbl -> box dbl -> bool) (e : element) (b : box dbl) (ls : list Z)
    : list (quadKey * element) * bool :=
    match ls with
    | [] => ([], false)
    | l :: ls' =>
        let f := styleOf e l in
        if wanted f then
          let b := boxOnce b e in
          let vs := filter (fun v => accept b (snd v)) (visitTileRange dord tileOf tileBox b l) in
          let '(ss, w) := storeLevels accept e b ls' in
          (flat_map (saveTile f e) vs ++ ss, negb (Nat.eqb (length vs) 0) || w)
        else storeLevels accept e b ls'
    end.

  (** ElementStore.cpp:60-103. *)
  Definition storeWith accept (e : element) (r : lodRange) := storeLevels accept e emptyBox (levels r).

  (** ElementStore.cpp:31-35. *)
  Definition storeRange (e : element) (r : lodRange) := storeWith (fun _ _ => true) e r.

  (** ElementStore.cpp:37-46. *)
  Definition storeTile (e : element) (k : quadKey) : outcome (list (quadKey * element) * bool) :=
    omap (fun r => storeWith (fun b kb => intersects dord b (tileBox k) && sameCenter (tileBox k) kb) e r)
      (newRange (lod k) (lod k)).

  (** ElementStore.cpp:48-58. *)
  Definition storeBox (e : element) (bb : box dbl) (r : lodRange) :=
    storeWith (fun b _ => intersects dord b bb) e r.

  (** * core/src/index/GeoStore.cpp *)

  (** A data file as the import sees it (GeoStore.cpp:81-116): the elements the parser and
      its visitor hand to the store until they finish or stop because of the token, whether
      they end in an exception, and what the token says afterwards (lines 48, 62, 77). *)
  Record import := mkImport { parsed : list element; thrown : option exn; cancelled : bool }.

  (** The calls an ElementStore receives; [save] is virtual (ElementStore.hpp:56-57). *)
  Definition calls (saves : list (quadKey * element)) : list call :=
    map (fun '(k, e) => Store k e) saves.

  (** Storing the parsed elements one by one, GeoStore.cpp:44-46. *)
  Fixpoint importTile (es : list element) (k : quadKey) : list call * outcome unit :=
    match es with
    | [] => ([], Ok tt)
    | e :: es' =>
        match storeTile e k with
        | Ok (saves, _) => let '(cs, o) := importTile es' k in (calls saves ++ cs, o)
        | Throw x => ([], Throw x)
        | UB => ([], UB)
        end
    end.

  (** GeoStore.cpp:38-50 on the store found for the key: the calls it receives and how add
      ends. *)
  Definition addTile (i : import) (k : quadKey) : list call * outcome unit :=
    let '(cs, o) := importTile (parsed i) k in
    match o, thrown i with
    | Ok _, None => if cancelled i then (cs ++ [Erase k], Ok tt) else (cs, Ok tt)
    | Ok _, Some x => (cs, Throw x)
    | _, _ => (cs, o)
    end.

  (** GeoStore.cpp:58-60 and 73-75. *)
  Definition importRange (store : element -> list (quadKey * element) * bool) (es : list element) : list call :=
    flat_map (fun e => calls (fst (store e))) es.

  (** GeoStore.cpp:62-63 and 77-78: erasing by box throws in both stores
      (InMemoryElementStore.cpp:129-131, PersistentElementStore.cpp:180-182). *)
  Definition addRangeWith store (i : import) : list call * outcome unit :=
    let cs := importRange store (parsed i) in
    match thrown i with
    | Some x => (cs, Throw x)
    | None => if cancelled i then (cs, Throw DomainError) else (cs, Ok tt)
    end.

  (** GeoStore.cpp:52-64. *)
  Definition addRange (i : import) (r : lodRange) := addRangeWith (fun e => storeRange e r) i.
  (** GeoStore.cpp:66-79. *)
  Definition addBox (i : import) (bb : box dbl) (r : lodRange) := addRangeWith (fun e => storeBox e bb r) i.
End ElementStore.

(** GeoStore.cpp:151: the stores by name, in the order of std::map; a null pointer is None. *)
Definition storeMap (S : Type) := list (list N * option S).

(** std::string's operator< (the order of the map, GeoStore.cpp:151). *)
Fixpoint nameLess (a b : list N) : bool :=
  match a, b with
  | _, [] => false
  | [], _ :: _ => true
  | x :: a', y :: b' => (x <? y)%N || ((x =? y)%N && nameLess a' b')
  end.

(** Inserting when the name is absent (GeoStore.cpp:26 emplace; lines 34, 43, 57, 72
    operator[]). *)
Fixpoint emplace {S} (name : list N) (s : option S) (m : storeMap S) : storeMap S :=
  match m with
  | [] => [(name, s)]
  | (n, s') :: m' =>
      if nameLess name n then (name, s) :: m
      else if nameLess n name then (n, s') :: emplace name s m'
      else m
  end.

(** GeoStore.cpp:25-27. *)
Definition registerStore {S} (name : list N) (s : S) (m : storeMap S) : storeMap S := emplace name (Some s) m.

(** storeMap_[storeKey], GeoStore.cpp:34: a missing name is added with a null pointer. *)
Definition lookupStore {S} (name : list N) (m : storeMap S) : option S * storeMap S :=
  (match alookup beqb name m with Some s => s | None => None end, emplace name None m).

(** GeoStore.cpp:130-139 over in-memory stores; a null pointer is dereferenced. *)
Fixpoint searchStores (k : quadKey) (m : storeMap memory) : outcome (list element) :=
  match m with
  | [] => Ok []
  | (_, None) :: _ => UB
  | (_, Some s) :: m' =>
      let here := if memHasData k s then memSearch k never s else [] in
      omap (app here) (searchStores k m')
  end.

(** GeoStore.cpp:141-147. *)
Fixpoint hasDataStores (k : quadKey) (m : storeMap memory) : outcome bool :=
  match m with
  | [] => Ok false
  | (_, None) :: _ => UB
  | (_, Some s) :: m' => if memHasData k s then Ok true else hasDataStores k m'
  end.
