(** What a stylesheet means, in terms of its text: which rules apply to an element with given
    tags, and the cascade of their declarations.  Nothing here refers to filters or ids. *)
From Verif Require Import Base Bytes ElementModel GeoModel TagModel TagSpec StyleModel.
From Coq Require Import Permutation Sorted.

(** The kind of an element as written in a selector. *)
Definition kindName (e : element) : bytes :=
  match e with
  | Node _ _ _ => sNode | Way _ _ _ => sWay | Area _ _ _ => sArea | Relation _ _ _ => sRelation
  end.

(** The zoom range includes the level. *)
Definition inZoom (z : zoom) (l : Z) : bool :=
  (Z.leb (Z.of_N (zstart z)) l && Z.leb l (Z.of_N (zend z)))%bool.

(** A condition holds for a set of key-value pairs. *)
Definition holds (num : bytes -> dbl) (kvs : list (bytes * bytes)) (c : condition) : bool :=
  existsb (fun kv =>
    beqb (fst kv) (ckey c) &&
    (if beqb (coperation c) [] then true
     else if beqb (coperation c) sEq then beqb (snd kv) (cvalue c)
     else if beqb (coperation c) sNe then negb (beqb (snd kv) (cvalue c))
     else if beqb (coperation c) sLt then dltb (num (snd kv)) (num (cvalue c))
     else dltb (num (cvalue c)) (num (snd kv)))) kvs.

(** A selector selects an element kind with these tags at this level. *)
Definition selects (num : bytes -> dbl) (kind : bytes) (l : Z) (kvs : list (bytes * bytes))
  (s : selector) : bool :=
  existsb (beqb kind) (names s) && inZoom (szoom s) l && forallb (holds num kvs) (sconditions s).

(** The applicable rules in the order of the stylesheet. *)
Definition applicable (sel : selector -> bool) (rs : list rule) : list rule :=
  List.filter (fun r => existsb sel (selectors r)) rs.

(** Identifier rules: "element" selectors with the id as value of the first condition; the
    key and the operation of the condition play no role. *)
Definition selectsId (l : Z) (id : N) (s : selector) : bool :=
  existsb (beqb sElement) (names s) && inZoom (szoom s) l &&
  match sconditions s with
  | [] => false
  | c :: _ => match castId (cvalue c) with Some i => N.eqb i id | None => false end
  end.

(** Identifier rules for an element at a level. *)
Definition idRules (sh : sheet) (l : Z) (id : N) : list rule :=
  List.filter (fun r => match declarations r with [] => false | _ => true end)
    (applicable (selectsId l id) (rules sh)).

(** The declarations in force, in order: those of the first identifier rule if there is one,
    otherwise those of all applicable rules. *)
Definition inForce (num : bytes -> dbl) (sh : sheet) (kind : bytes) (l : Z) (id : N)
  (kvs : list (bytes * bytes)) : list declaration :=
  match idRules sh l id with
  | r :: _ => declarations r
  | [] => flat_map declarations (applicable (selects num kind l kvs) (rules sh))
  end.

(** The last declaration of a key in a list. *)
Definition lastValue (k : bytes) (ds : list declaration) (v : bytes) : Prop :=
  exists before after, ds = before ++ mkDecl k v :: after /\
                       forall v', ~ In (mkDecl k v') after.

(** All strings of a stylesheet. *)
Definition sheetStrings (sh : sheet) : list bytes :=
  flat_map (fun r =>
    flat_map (fun s => flat_map (fun c => [ckey c; cvalue c]) (sconditions s)) (selectors r)
    ++ map dkey (declarations r)) (rules sh).

(** The element carries exactly the given key-value pairs, in the order the importer puts
    them (C23). *)
Definition tagged (intern : bytes -> N) (e : element) (kvs : list (bytes * bytes)) : Prop :=
  ascending (etags e) /\ Permutation (etags e) (map (convertTag intern) kvs).

(** Correctness of the string table for the strings in play. *)
Definition tableOk (intern : bytes -> N) (text : N -> bytes) (strings : list bytes) : Prop :=
  goodIds intern strings /\ forall s, In s strings -> text (intern s) = s.

(** A stylesheet that the constructor accepts. *)
Definition acceptable (gradient : bytes -> outcome unit) (sh : sheet) : Prop :=
  forall r s n, In r (rules sh) -> In s (selectors r) -> In n (names s) ->
    (forall d, In d (declarations r) -> gradient (dvalue d) = Ok tt) /\
    (In n [sNode; sWay; sArea; sRelation; sCanvas] /\
     (forall c, In c (sconditions s) -> In (coperation c) [[]; sEq; sNe; sLt; sGt])
     \/ n = sElement /\
        (declarations r <> [] -> exists c cs id, sconditions s = c :: cs /\ castId (cvalue c) = Some id)).

(** Values of the declarations of one key. *)
Definition valuesOf (k : bytes) (ds : list declaration) : list bytes :=
  map dvalue (List.filter (fun d => beqb (dkey d) k) ds).

(** Strictly ascending in the order of std::string. *)
Definition stringsAscending (l : list bytes) : Prop :=
  StronglySorted (fun a b => bltb a b = true) l.

(** Canvas rules: only the name and the level count. *)
Definition selectsCanvas (l : Z) (s : selector) : bool :=
  existsb (beqb sCanvas) (names s) && inZoom (szoom s) l.
