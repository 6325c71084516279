(** Model of core/src/mapcss/StyleProvider.cpp, Style.hpp and StyleSheet.hpp: compilation of a
    stylesheet into filters, the style of an element, the fingerprint of a stylesheet.
    Parameters: [intern] and [text] are getId and getString of the string table, [num] is
    parseDouble (core/src/utils/CoreUtils.hpp:55-62), [gradient] is the effect of checking
    and parsing a declaration as a color gradient (StyleProvider.cpp:363-364), [sortConds]
    the std::sort of conditions (lines 370-371).  The texts of declarations
    (StyleEvaluator::parse) are not looked into here. *)
From Verif Require Import Base Bytes ElementModel GeoModel TagModel.

(** StyleSheet.hpp:95-99. *)
Record condition := mkCondition { ckey : bytes; coperation : bytes; cvalue : bytes }.
(** StyleSheet.hpp:101-105: two uint8_t. *)
Record zoom := mkZoom { zstart : N; zend : N }.
(** StyleSheet.hpp:107-112. *)
Record selector := mkSelector { names : list bytes; szoom : zoom; sconditions : list condition }.
(** StyleSheet.hpp:114-118. *)
Record declaration := mkDecl { dkey : bytes; dvalue : bytes }.
(** StyleSheet.hpp:120-124. *)
Record rule := mkRule { selectors : list selector; declarations : list declaration }.

(** StyleSheet.hpp:15-35: a texture region as the six numbers passed to its constructor. *)
Definition region : Type := (N * N * N * N * N * N)%type.
(** StyleSheet.hpp:36-57, TextureGroup. *)
Definition textureGroup : Type := list region.
(** StyleSheet.hpp:59-92, TextureAtlas. *)
Record atlas := mkAtlas { aindex : N; agroups : list (bytes * textureGroup) }.
(** StyleSheet.hpp:126-131; an L-system is an opaque number here. *)
Record sheet := mkSheet { rules : list rule; textures : list atlas; lsystems : list (bytes * N) }.

(** The letters of the selector names and operators, StyleProvider.cpp:255-260 and 346-350,
    and of the builder key, StyleConsts.cpp:15-18. *)
Definition sNode : bytes := [110; 111; 100; 101]%N.
(** StyleProvider.cpp:255-260. *)
Definition sWay : bytes := [119; 97; 121]%N.
(** StyleProvider.cpp:255-260. *)
Definition sArea : bytes := [97; 114; 101; 97]%N.
(** StyleProvider.cpp:255-260. *)
Definition sRelation : bytes := [114; 101; 108; 97; 116; 105; 111; 110]%N.
(** StyleProvider.cpp:255-260. *)
Definition sCanvas : bytes := [99; 97; 110; 118; 97; 115]%N.
(** StyleProvider.cpp:255-260. *)
Definition sElement : bytes := [101; 108; 101; 109; 101; 110; 116]%N.
(** StyleConsts.cpp:15-18. *)
Definition sBuilder : bytes := [98; 117; 105; 108; 100; 101; 114]%N.
(** StyleProvider.cpp:346-350. *)
Definition sEq : bytes := [61]%N.
(** StyleProvider.cpp:346-350. *)
Definition sNe : bytes := [33; 61]%N.
(** StyleProvider.cpp:346-350. *)
Definition sLt : bytes := [60]%N.
(** StyleProvider.cpp:346-350. *)
Definition sGt : bytes := [62]%N.

(** StyleProvider.cpp:22, OpType. *)
Inductive opType := Exists | Equals | NotEquals | Less | Greater.
(** StyleProvider.cpp:24-28, ConditionType. *)
Record condType := mkCond { kkey : N; kvalue : N; ktype : opType }.
(** StyleDeclaration.hpp:19-24: key id and text. *)
Definition decl : Type := (N * bytes)%type.
(** StyleProvider.cpp:30-33, ConditionFilter. *)
Record filter := mkFilter { fconds : list condType; fdecls : list decl }.
(** StyleProvider.cpp:37, ConditionFilterMap. *)
Definition filterMap : Type := list (Z * list filter).
(** StyleProvider.cpp:38-39, IdentifierFilter and IdentifierFilterMap. *)
Definition idFilter : Type := list (N * list decl).
(** StyleProvider.cpp:39, IdentifierFilterMap. *)
Definition idFilterMap : Type := list (Z * idFilter).

(** StyleProvider.cpp:41-48, FilterCollection. *)
Record filters := mkFilters {
  fNodes : filterMap; fWays : filterMap; fAreas : filterMap; fRelations : filterMap;
  fCanvases : filterMap; fElements : idFilterMap
}.
(** StyleProvider.cpp:240 and 244-249: empty filters. *)
Definition noFilters : filters := mkFilters [] [] [] [] [] [].

(** A loop whose body may throw (StyleProvider.cpp:251-269). *)
Fixpoint loop {S A} (body : S -> A -> outcome S) (l : list A) (s : S) : outcome S :=
  match l with
  | [] => Ok s
  | a :: l' => bind (body s a) (loop body l')
  end.

(** operator[] of an unordered_map from levels to vectors or maps: a missing entry is
    created empty (StyleProvider.cpp:37-39). *)
Definition at_ {V} (l : Z) (m : list (Z * list V)) : list V :=
  match alookup Z.eqb l m with Some v => v | None => [] end.

(** StyleProvider.cpp:326 and 372: the int loop over the zoom range. *)
Definition zoomLevels (z : zoom) : list Z :=
  interval (Z.of_N (zstart z)) (Z.of_N (zend z)).

(** boost::lexical_cast<std::uint64_t> of a string (CoreUtils.hpp:44-47): an optional sign,
    at least one digit, nothing else, no overflow; a minus sign negates modulo 2^64. *)
Fixpoint castDigits (bs : bytes) (acc : N) : option N :=
  match bs with
  | [] => Some acc
  | b :: bs' =>
      if (N.leb 48 b && N.leb b 57)%bool then
        let acc' := (acc * 10 + (b - 48))%N in
        if N.ltb acc' 18446744073709551616 then castDigits bs' acc' else None
      else None
  end.
(** The whole text as a number (StyleProvider.cpp:322). *)
Definition castId (bs : bytes) : option N :=
  match bs with
  | [] | [43%N] | [45%N] => None
  | 43%N :: ds => castDigits ds 0
  | 45%N :: ds => option_map (fun n => ((18446744073709551616 - n) mod 18446744073709551616)%N)
                             (castDigits ds 0)
  | ds => castDigits ds 0
  end.

Section Provider.
  Variable intern : bytes -> N.
  Variable text : N -> bytes.
  Variable num : bytes -> dbl.
  Variable gradient : bytes -> outcome unit.
  Variable sortConds : list condType -> list condType.

  (** StyleProvider.cpp:346-352. *)
  Definition opOf (s : bytes) : outcome opType :=
    match s with
    | [] => Ok Exists
    | _ =>
      if beqb s sEq then Ok Equals
      else if beqb s sNe then Ok NotEquals
      else if beqb s sLt then Ok Less
      else if beqb s sGt then Ok Greater
      else Throw DomainError
    end.

  (** StyleProvider.cpp:342-358, addConditions to a filter without conditions. *)
  Fixpoint addConditions (cs : list condition) : outcome (list condType) :=
    match cs with
    | [] => Ok []
    | c :: cs' =>
        bind (opOf (coperation c)) (fun t =>
        omap (cons (mkCond (intern (ckey c)) (intern (cvalue c)) t)) (addConditions cs'))
    end.

  (** StyleProvider.cpp:361-367: the declarations handed to the callback. *)
  Fixpoint addDeclarations (ds : list declaration) : outcome (list decl) :=
    match ds with
    | [] => Ok []
    | d :: ds' =>
        bind (gradient (dvalue d)) (fun _ =>
        omap (cons (intern (dkey d), dvalue d)) (addDeclarations ds'))
    end.

  (** StyleProvider.cpp:369-375. *)
  Definition addToFilterMap (f : filter) (z : zoom) (m : filterMap) : filterMap :=
    let f' := mkFilter (sortConds (fconds f)) (fdecls f) in
    fold_left (fun m l => aset Z.eqb l (at_ l m ++ [f']) m) (zoomLevels z) m.

  (** StyleProvider.cpp:333-340. *)
  Definition addConditionRule (r : rule) (s : selector) (m : filterMap) : outcome filterMap :=
    bind (addConditions (sconditions s)) (fun cs =>
    bind (addDeclarations (declarations r)) (fun ds =>
    Ok (addToFilterMap (mkFilter cs ds) (szoom s) m))).

  (** StyleProvider.cpp:326-329: emplace keeps an existing entry. *)
  Definition emplaceId (id : N) (ds : list decl) (z : zoom) (m : idFilterMap) : idFilterMap :=
    fold_left (fun m l =>
                 let f := at_ l m in
                 aset Z.eqb l (match alookup N.eqb id f with
                               | Some _ => f
                               | None => f ++ [(id, ds)]
                               end) m) (zoomLevels z) m.

  (** StyleProvider.cpp:319-330: the id is taken from the value of the first condition, once per
      declaration; without declarations nothing is added. *)
  Definition addIdentifierRule (s : selector) (decls : list declaration) (m : idFilterMap)
    : outcome idFilterMap :=
    match decls with
    | [] => Ok m
    | d :: decls' =>
        bind (gradient (dvalue d)) (fun _ =>
        match sconditions s with
        | [] => UB
        | c :: _ =>
            match castId (cvalue c) with
            | None => Throw InvalidArgument (* boost::bad_lexical_cast *)
            | Some id =>
                bind (addDeclarations decls') (fun ds =>
                Ok (emplaceId id ((intern (dkey d), dvalue d) :: ds) (szoom s) m))
            end
        end)
    end.

  (** StyleProvider.cpp:253-267: one selector name. *)
  Definition addName (r : rule) (s : selector) (f : filters) (name : bytes) : outcome filters :=
    let '(mkFilters n w a rl c e) := f in
    if beqb name sNode then omap (fun m => mkFilters m w a rl c e) (addConditionRule r s n)
    else if beqb name sWay then omap (fun m => mkFilters n m a rl c e) (addConditionRule r s w)
    else if beqb name sArea then omap (fun m => mkFilters n w m rl c e) (addConditionRule r s a)
    else if beqb name sRelation then omap (fun m => mkFilters n w a m c e) (addConditionRule r s rl)
    else if beqb name sCanvas then omap (fun m => mkFilters n w a rl m e) (addConditionRule r s c)
    else if beqb name sElement then
      omap (fun m => mkFilters n w a rl c m) (addIdentifierRule s (declarations r) e)
    else Throw DomainError.

  (** StyleProvider.cpp:251-269: the constructor's loops over rules, selectors and names. *)
  Definition addSelector (r : rule) (f : filters) (s : selector) : outcome filters :=
    loop (addName r s) (names s) f.
  (** StyleProvider.cpp:253-268. *)
  Definition addRule (f : filters) (r : rule) : outcome filters :=
    loop (addSelector r) (selectors r) f.
  (** StyleProvider.cpp:251-269. *)
  Definition compile (sh : sheet) : outcome filters := loop addRule (rules sh) noFilters.

  (** StyleProvider.cpp:148-168. *)
  Definition matchTag (t : tag) (c : condType) : bool :=
    match ktype c with
    | Exists => true
    | Equals => N.eqb (tvalue t) (kvalue c)
    | NotEquals => negb (N.eqb (tvalue t) (kvalue c))
    | Less => dltb (num (text (tvalue t))) (num (text (kvalue c)))
    | Greater => dltb (num (text (kvalue c))) (num (text (tvalue t)))
    end.

  (** Lines 171-182, the same loop as in ElementUtils.hpp:46-57; a search that does not end
      would count as no match (it always ends, TagProofs.searchTag_total). *)
  Definition matchTags (tags : list tag) (c : condType) : bool :=
    match searchTag (S (length tags)) (kkey c) tags 0 (length tags) with
    | Some (Some t) => matchTag t c
    | _ => false
    end.

  (** StyleProvider.cpp:189-192: conditions of one filter. *)
  Definition matchFilter (tags : list tag) (f : filter) : bool :=
    forallb (matchTags tags) (fconds f).

  (** Style.hpp:159-163: declarations_ and builders_ (a std::set, here its elements in
      order). *)
  Record style := mkStyle { sdecls : list (N * bytes); sbuilders : list bytes }.
  (** Style.hpp:22-26. *)
  Definition emptyStyle : style := mkStyle [] [].

  (** std::string::compare as used by std::set<std::string> (Style.hpp:56). *)
  Fixpoint bltb (a b : bytes) : bool :=
    match a, b with
    | _, [] => false
    | [], _ :: _ => true
    | x :: a', y :: b' => N.ltb x y || (N.eqb x y && bltb a' b')
    end.
  (** std::set<std::string>::insert, Style.hpp:56. *)
  Fixpoint setInsert (s : bytes) (l : list bytes) : list bytes :=
    match l with
    | [] => [s]
    | x :: l' => if bltb s x then s :: l else if bltb x s then x :: setInsert s l' else l
    end.

  (** Style.hpp:54-60, put. *)
  Definition put (s : style) (d : decl) : style :=
    let b := if N.eqb (fst d) (intern sBuilder) then setInsert (snd d) (sbuilders s)
             else sbuilders s in
    mkStyle (aset N.eqb (fst d) (snd d) (sdecls s)) b.

  (** Style.hpp:41-48, has. *)
  Definition has (k : N) (s : style) : bool :=
    match alookup N.eqb k (sdecls s) with Some _ => true | None => false end.
  (** Style.hpp:45-48, has with a value. *)
  Definition hasValue (k : N) (v : bytes) (s : style) : bool :=
    match alookup N.eqb k (sdecls s) with Some v' => beqb v' v | None => false end.

  (** Style.hpp:62-70, get; also what getString (99-109) answers for a declaration that is not
      an expression. *)
  Definition getDecl (k : N) (s : style) : outcome bytes :=
    match alookup N.eqb k (sdecls s) with Some v => Ok v | None => Throw MapcssError end.

  (** StyleProvider.cpp:120-126 and 138: style and canBuild_ of a StyleBuilder. *)
  Definition builder : Type := (style * bool)%type.

  (** StyleProvider.cpp:185-204, buildFromCondition. *)
  Fixpoint buildFromCondition (onlyCheck : bool) (tags : list tag) (fs : list filter) (b : builder)
    : builder :=
    match fs with
    | [] => b
    | f :: fs' =>
        if matchFilter tags f then
          if onlyCheck then (fst b, true)
          else buildFromCondition onlyCheck tags fs' (fold_left put (fdecls f) (fst b), true)
        else buildFromCondition onlyCheck tags fs' b
    end.

  (** StyleProvider.cpp:207-221, buildFromIdentifier: whether a rule was found, and the builder. *)
  Definition buildFromIdentifier (onlyCheck : bool) (f : filters) (l : Z) (id : N) (b : builder)
    : bool * builder :=
    match alookup Z.eqb l (fElements f) with
    | None => (false, b)
    | Some m =>
        match alookup N.eqb id m with
        | None => (false, b)
        | Some ds => (true, (if onlyCheck then fst b else fold_left put ds (fst b), true))
        end
    end.

  (** StyleProvider.cpp:128-134 and Element::accept: the filters of the kind of the element. *)
  Definition filtersFor (f : filters) (e : element) : filterMap :=
    match e with
    | Node _ _ _ => fNodes f | Way _ _ _ => fWays f
    | Area _ _ _ => fAreas f | Relation _ _ _ => fRelations f
    end.

  (** StyleProvider.cpp:142-145 with 186-187, checkOrBuild. *)
  Definition checkOrBuild (onlyCheck : bool) (f : filters) (l : Z) (e : element) : builder :=
    let b := (emptyStyle, false) in
    let '(found, b') := buildFromIdentifier onlyCheck f l (eid e) b in
    if found then b'
    else match alookup Z.eqb l (filtersFor f e) with
         | None => b'
         | Some fs => buildFromCondition onlyCheck (etags e) fs b'
         end.

  (** StyleProvider.cpp:407-411. *)
  Definition hasStyle (f : filters) (e : element) (l : Z) : bool := snd (checkOrBuild true f l e).
  (** StyleProvider.cpp:413-417. *)
  Definition forElement (f : filters) (e : element) (l : Z) : style := fst (checkOrBuild false f l e).
  (** StyleProvider.cpp:419-427: all canvas filters of the level, conditions are not looked at.  The
      empty entry operator[] may create in canvases is not observable. *)
  Definition forCanvas (f : filters) (l : Z) : style :=
    fold_left (fun s g => fold_left put (fdecls g) s) (at_ l (fCanvases f)) emptyStyle.

  (** utymap::utils::toString of a number, CoreUtils.hpp:15-18: decimal digits. *)
  Fixpoint decimalFuel (fuel : nat) (n : N) (acc : bytes) : bytes :=
    match fuel with
    | O => acc
    | S fuel' =>
        let acc' := (48 + n mod 10)%N :: acc in
        if N.ltb n 10 then acc' else decimalFuel fuel' (n / 10) acc'
    end.
  (** 64 bit numbers have at most 20 digits (StyleProvider.cpp:51-56). *)
  Definition decimal (n : N) : bytes := decimalFuel 20 n [].

  (** StyleProvider.cpp:51-56. *)
  Definition declsText (ds : list decl) : bytes :=
    flat_map (fun d => decimal (fst d) ++ snd d) ds.
  (** StyleProvider.cpp:58-71. *)
  Definition opText (t : opType) : bytes :=
    match t with
    | Exists => [126] | Equals => [61; 61] | NotEquals => [33; 61] | Less => [60] | Greater => [62]
    end%N.
  (** StyleProvider.cpp:77-83: one filter. *)
  Definition filterText (f : filter) : bytes :=
    flat_map (fun c => decimal (kkey c) ++ opText (ktype c) ++ decimal (kvalue c)) (fconds f)
    ++ declsText (fdecls f).

  (** The order in which the keys of an unordered_map are visited: parameters.  (It may
      depend on more than the keys, e.g. on the order of insertion; equal key lists come
      from equal insertions here.) *)
  Variable orderZ : list Z -> list Z.
  Variable orderN : list N -> list N.
  Variable md5 : bytes -> bytes.

  (** StyleProvider.cpp:74-86. *)
  Definition filterMapText (m : filterMap) : bytes :=
    flat_map (fun l => decimal (Z.to_N l) ++ flat_map filterText (at_ l m)) (orderZ (map fst m)).
  (** StyleProvider.cpp:92-95. *)
  Definition idFilterText (m : idFilter) : bytes :=
    flat_map (fun id => decimal id ++ declsText (match alookup N.eqb id m with
                                                 | Some ds => ds | None => [] end))
             (orderN (map fst m)).
  (** StyleProvider.cpp:89-97. *)
  Definition idMapText (m : idFilterMap) : bytes :=
    flat_map (fun l => decimal (Z.to_N l) ++ idFilterText (at_ l m)) (orderZ (map fst m)).
  (** StyleProvider.cpp:100-112 before hashing, and hashed. *)
  Definition tagText (f : filters) : bytes :=
    filterMapText (fNodes f) ++ filterMapText (fWays f) ++ filterMapText (fAreas f) ++
    filterMapText (fRelations f) ++ filterMapText (fCanvases f) ++ idMapText (fElements f).
  (** StyleProvider.cpp:100-112, hashed. *)
  Definition hashTag (f : filters) : bytes := md5 (tagText f).

  (** StyleProvider.cpp:271-274: the default atlas is registered first; emplace keeps the first atlas of
      an index.  The default atlas has no groups. *)
  Definition defaultTexture : N := 65535.
  (** StyleProvider.cpp:271-274. *)
  Definition textureMap (sh : sheet) : list (N * atlas) :=
    fold_left (fun m a => match alookup N.eqb (aindex a) m with
                          | Some _ => m | None => m ++ [(aindex a, a)] end)
              (textures sh) [(defaultTexture, mkAtlas 0 [])].

  (** StyleSheet.hpp:69: the group with one empty region (isEmpty looks at the atlas size
      only).  Its position and size are conversions of DBL_MAX to uint16_t, which the
      standard leaves undefined; the model has zeros there. *)
  Definition emptyGroup : textureGroup := [(0, 0, 0, 0, 0, 0)%N].
  (** StyleSheet.hpp:79-86. *)
  Definition atlasGet (a : atlas) (key : bytes) : textureGroup :=
    match alookup beqb key (agroups a) with Some g => g | None => emptyGroup end.
  (** StyleProvider.cpp:300-306. *)
  Definition getTexture (sh : sheet) (index : N) (key : bytes) : outcome textureGroup :=
    match alookup N.eqb index (textureMap sh) with
    | Some a => Ok (atlasGet a key)
    | None => match alookup N.eqb defaultTexture (textureMap sh) with
              | Some a => Ok (atlasGet a key)
              | None => UB
              end
    end.
  (** StyleSheet.hpp:50-52: an empty group divides by zero. *)
  Definition randomRegion (g : textureGroup) (seed : N) : outcome region :=
    match g with
    | [] => UB
    | r :: _ => Ok (nth (N.to_nat (seed mod N.of_nat (length g))) g r)
    end.
  (** StyleProvider.cpp:308-314. *)
  Definition getLsystem (sh : sheet) (key : bytes) : outcome N :=
    match alookup beqb key (lsystems sh) with Some l => Ok l | None => Throw MapcssError end.
End Provider.
