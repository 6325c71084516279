(** Model of core/src/formats/osm/xml/OsmXmlParser.cpp, the importer of OSM XML, with the semantics of Boost.Spirit of
    Peg.v.  qi::double_ is a parameter ([number]).  The calls of the visitor are recorded as events; those made
    before a failed expectation are kept, since nothing takes them back.  All line numbers are of that file. *)
From Coq Require Import String.
From Verif Require Import Base Bytes JsonModel Peg.
Local Open Scope list_scope.

(** The quotation mark (e.g. OsmXmlParser.cpp:69). *)
Definition xquote : bytes := [34%N].
(** qi::char_ - quotation mark (OsmXmlParser.cpp:54, 69). *)
Definition inXml (c : N) : bool := negb (N.eqb c 34).
(** qi::alnum (OsmXmlParser.cpp:54). *)
Definition isAlnum (c : N) : bool := (N.leb 48 c && N.leb c 57) || (N.leb 65 c && N.leb c 90) || (N.leb 97 c && N.leb c 122).
(** OsmXmlParser.cpp:46-49, knownKey. *)
Definition pknown : parser unit := por (plit (str "id=")) (por (plit (str "lat=")) (plit (str "lon="))).
(** OsmXmlParser.cpp:54: an attribute which is not known. *)
Definition pattribute : parser unit := fun s =>
  match pknown s with
  | Parsed _ _ => Fail
  | _ => pbind (pchars1 isAlnum) (fun _ => pbind (plit (str "=" ++ xquote)) (fun _ => pbind (pchars1 inXml) (fun _ => plit xquote))) s
  end.
(** OsmXmlParser.cpp:52-54: one match of the skipper. *)
Definition skipAttribute (s : bytes) : option bytes :=
  match s with
  | [] => None
  | c :: s' => if isSpace c then Some s' else match pattribute s with Parsed _ r => Some r | _ => None end
  end.
(** qi::skip_over with the skipper of OsmXmlParser.cpp:287: as long as it matches. *)
Fixpoint skipAttrFuel (fuel : nat) (s : bytes) : bytes :=
  match fuel with
  | O => s
  | S fuel' => match skipAttribute s with Some r => skipAttrFuel fuel' r | None => s end
  end.
(** OsmXmlParser.cpp:287; every match takes a character, so that the length is enough. *)
Definition skipAttrs (s : bytes) : bytes := skipAttrFuel (List.length s) s.

(** A literal behind the skipper of OsmXmlParser.cpp:287 (e.g. line 148). *)
Definition tokA (l : bytes) : parser unit := pskip skipAttrs (plit l).
(** A literal behind qi::skip(qi::space) (e.g. OsmXmlParser.cpp:93). *)
Definition tokS (l : bytes) : parser unit := pskip skipSpaces (plit l).

(** OsmXmlParser.cpp:68-69, stringValue; spaces are skipped in front as for every rule without a skipper. *)
Definition pvalue : parser bytes := pskip skipSpaces (pbind (plit xquote) (fun _ s =>
  let '(a, r) := spanOf inXml s in pbind (pexpect (plit xquote)) (fun _ => preturn a) r)).
(** qi::ulong_long (OsmXmlParser.cpp:93, 105): digits. *)
Definition isDigitX (c : N) : bool := N.leb 48 c && N.leb c 57.
(** qi::ulong_long (OsmXmlParser.cpp:93, 105): the value of digits. *)
Fixpoint naturalFrom (acc : N) (ds : bytes) : N :=
  match ds with [] => acc | d :: ds' => naturalFrom (acc * 10 + (d - 48))%N ds' end.
(** qi::ulong_long (OsmXmlParser.cpp:93, 105): no sign; a number which does not fit 64 bits is no match. *)
Definition pulong : parser N := fun s =>
  match spanOf isDigitX s with
  | ([], _) => Fail
  | (ds, r) => if (naturalFrom 0 ds <? 2 ^ 64)%N then Parsed (naturalFrom 0 ds) r else Fail
  end.
(** OsmXmlParser.cpp:93 and 105 behind their skippers. *)
Definition pnumbered (l : bytes) : parser N :=
  pbind (tokS l) (fun _ => pbind (pexpect (pskip skipSpaces pulong)) (fun v => pbind (pexpect (tokS xquote)) (fun _ => preturn v))).
(** OsmXmlParser.cpp:92-93, id, as it is called with the skipper of line 287. *)
Definition pid : parser N := pskip skipAttrs (pnumbered (str "id=" ++ xquote)).
(** OsmXmlParser.cpp:104-105, ref, as it is called with spaces skipped. *)
Definition pref : parser N := pskip skipSpaces (pnumbered (str "ref=" ++ xquote)).
(** OsmXmlParser.cpp:131: a key, e.g. k=, and its value. *)
Definition pkeyed (l : bytes) : parser bytes := pbind (tokS l) (fun _ => pexpect pvalue).
(** OsmXmlParser.cpp:130-131, tag. *)
Definition ptag : parser (bytes * bytes) :=
  pbind (tokS (str "<tag")) (fun _ => pbind (pexpect (pkeyed (str "k="))) (fun k => pbind (pexpect (pkeyed (str "v="))) (fun v =>
  pbind (pexpect (tokS (str "/>"))) (fun _ => preturn (k, v))))).
(** OsmXmlParser.cpp:170, nodeRef. *)
Definition pnodeRef : parser N :=
  pbind (tokS (str "<nd")) (fun _ => pbind (pexpect pref) (fun r => pbind (pexpect (tokS (str "/>"))) (fun _ => preturn r))).
(** OsmXmlParser.cpp:40, 28-33: a member of a relation: its type, reference and role. *)
Definition xmember : Type := bytes * N * bytes.
(** OsmXmlParser.cpp:268-274, mapType. *)
Definition mapType (t : bytes) : bytes := if beqb t (str "node") then str "n" else if beqb t (str "way") then str "w" else str "r".
(** OsmXmlParser.cpp:189, memberRef, and 261-263: the type is mapped before the visitor is called. *)
Definition pmember : parser xmember :=
  pbind (tokS (str "<member")) (fun _ => pbind (pexpect (pkeyed (str "type="))) (fun t => pbind (pexpect pref) (fun r =>
  pbind (pexpect (pkeyed (str "role="))) (fun o => pbind (pexpect (tokS (str "/>"))) (fun _ => preturn (mapType t, r, o)))))).

(** The calls of the visitor, OsmXmlParser.cpp:244, 250, 256, 265. *)
Inductive xevent (T : Type) :=
| XBounds (minLat minLon maxLat maxLon : T)
| XNode (id : N) (lat lon : T) (tags : list (bytes * bytes))
| XWay (id : N) (refs : list N) (tags : list (bytes * bytes))
| XRelation (id : N) (members : list xmember) (tags : list (bytes * bytes)).
Arguments XBounds {T}. Arguments XNode {T}. Arguments XWay {T}. Arguments XRelation {T}.

(** OsmXmlParser.cpp:173: the rest of a way behind its start tag, and line 192 of a relation: some parts, tags and the end tag. *)
Definition pbody {A} (part : parser A) (close : bytes) : parser (list A * list (bytes * bytes)) :=
  pbind (pexpect (pmany1 part)) (fun l => pbind (pmany ptag) (fun ts => pbind (pexpect (tokA close)) (fun _ => preturn (l, ts)))).

Section Numbers.
  Context {T : Type}.
  (** What the tuple of OsmXmlParser.cpp:36 is filled with at first. *)
  Variable zero : T.
  (** qi::double_. *)
  Variable number : bytes -> option (T * bytes).

  (** qi::double_ (OsmXmlParser.cpp:81). *)
  Definition pdouble : parser T := fun s => match number s with Some (v, r) => Parsed v r | None => Fail end.
  (** OsmXmlParser.cpp:80-81, doubleValue; called with spaces skipped. *)
  Definition pdoubleValue : parser T := pskip skipSpaces (pbind (plit xquote) (fun _ =>
    pbind (pexpect pdouble) (fun v => pbind (pexpect (plit xquote)) (fun _ => preturn v)))).
  (** OsmXmlParser.cpp:144, 145 and 117: a key and a number. *)
  Definition pcoordinate (l : bytes) : parser T := pbind (tokS l) (fun _ => pexpect pdoubleValue).

  (** OsmXmlParser.cpp:117: the keys of the permutation. *)
  Definition boundsKeys : list bytes := [str "minlat="; str "minlon="; str "maxlat="; str "maxlon="].
  (** OsmXmlParser.cpp:117: one of the keys which have not been seen, by its place. *)
  Fixpoint pboundsItem (i : nat) (keys : list bytes) (seen : list (nat * T)) : parser (nat * T) :=
    match keys with
    | [] => pfail
    | k :: keys' =>
        if existsb (fun p => Nat.eqb (fst p) i) seen then pboundsItem (S i) keys' seen
        else por (pbind (pcoordinate k) (fun v => preturn (i, v))) (pboundsItem (S i) keys' seen)
    end.
  (** OsmXmlParser.cpp:117: as long as one matches.  At most one of the keys matches at a place, so that the order of the trials
      does not matter; every match takes one of four keys. *)
  Fixpoint pboundsItems (fuel : nat) (seen : list (nat * T)) : parser (list (nat * T)) := fun s =>
    match fuel with
    | O => Parsed seen s
    | S fuel' =>
        match pboundsItem 0 boundsKeys seen s with
        | Fail => Parsed seen s
        | Unexpected => Unexpected
        | Parsed p r => pboundsItems fuel' (p :: seen) r
        end
    end.
  (** OsmXmlParser.cpp:117: at least one. *)
  Definition pboundsSome : parser (list (nat * T)) := fun s =>
    match pboundsItems 4 [] s with Parsed [] _ => Fail | r => r end.
  (** OsmXmlParser.cpp:36: the value at a place of the tuple. *)
  Definition boundsAt (seen : list (nat * T)) (i : nat) : T :=
    match alookup Nat.eqb i seen with Some v => v | None => zero end.
  (** OsmXmlParser.cpp:116-117, bounds as it is called with the skipper of line 287, and 240-245. *)
  Definition pbounds : parser (xevent T) := pskip skipAttrs (
    pbind (tokS (str "<bounds")) (fun _ => pbind (pexpect pboundsSome) (fun b => pbind (pexpect (tokS (str "/>"))) (fun _ =>
    preturn (XBounds (boundsAt b 0) (boundsAt b 1) (boundsAt b 2) (boundsAt b 3)))))).

  (** OsmXmlParser.cpp:147-151, node, and 247-251. *)
  Definition pnode : parser (xevent T) :=
    pbind (tokA (str "<node")) (fun _ => pbind (pexpect pid) (fun id =>
    pbind (pexpect (pskip skipAttrs (pcoordinate (str "lat=")))) (fun lat =>
    pbind (pexpect (pskip skipAttrs (pcoordinate (str "lon=")))) (fun lon =>
    pbind (pexpect (por (pbind (tokA (str ">")) (fun _ => pbind (pmany ptag) (fun ts => pbind (pexpect (tokA (str "</node>"))) (fun _ => preturn ts))))
                        (pbind (pexpect (tokA (str "/>"))) (fun _ => preturn [])))) (fun ts =>
    preturn (XNode id lat lon ts)))))).
  (** OsmXmlParser.cpp:172-173, way, and 253-257. *)
  Definition pway : parser (xevent T) :=
    pbind (tokA (str "<way")) (fun _ => pbind (pexpect pid) (fun id => pbind (pexpect (tokA (str ">"))) (fun _ =>
    pbind (pbody pnodeRef (str "</way>")) (fun b => preturn (XWay id (fst b) (snd b)))))).
  (** OsmXmlParser.cpp:191-192, relation, and 259-266. *)
  Definition prelation : parser (xevent T) :=
    pbind (tokA (str "<relation")) (fun _ => pbind (pexpect pid) (fun id => pbind (pexpect (tokA (str ">"))) (fun _ =>
    pbind (pbody pmember (str "</relation>")) (fun b => preturn (XRelation id (fst b) (snd b)))))).

  (** OsmXmlParser.cpp:210: *(qi::char_ - '>') with skipping. *)
  Definition pheadChar : parser N := pskip skipAttrs (pchar (fun c => negb (N.eqb c 62))).
  (** OsmXmlParser.cpp:210-211. *)
  Definition pheader : parser unit :=
    pbind (tokA (str "<?")) (fun _ => pbind (pexpect (pmany pheadChar)) (fun _ => pbind (pexpect (tokA (str ">"))) (fun _ =>
    pbind (pexpect (tokA (str "<osm"))) (fun _ => pexpect (tokA (str ">")))))).
  (** OsmXmlParser.cpp:212: everything before the first node or bounds. *)
  Fixpoint beforeFirst (s : bytes) : bytes :=
    match por (plit (str "<node")) (plit (str "<bounds")) s with
    | Parsed _ _ => s
    | _ => match s with [] => [] | _ :: s' => beforeFirst s' end
    end.
  (** OsmXmlParser.cpp:212: the skipper is applied first; an optional part which takes nothing leaves its place. *)
  Definition skipOther (s : bytes) : bytes :=
    let s1 := skipAttrs s in let r := beforeFirst s1 in
    if Nat.eqb (List.length r) (List.length s1) then s else r.

  (** The result of the import: the calls, and whether the text was parsed (OsmXmlParser.cpp:214-216). *)
  Definition told : Type := list (xevent T) * option bytes.
  (** OsmXmlParser.cpp:214-216: * with actions. *)
  Fixpoint tellAll (fuel : nat) (p : parser (xevent T)) (s : bytes) : told :=
    match fuel with
    | O => ([], Some s)
    | S fuel' =>
        match p s with
        | Fail => ([], Some s)
        | Unexpected => ([], None)
        | Parsed e r => let '(es, o) := tellAll fuel' p r in (e :: es, o)
        end
    end.
  (** OsmXmlParser.cpp:213: - with an action. *)
  Definition tellOption (p : parser (xevent T)) (s : bytes) : told :=
    match p s with Fail => ([], Some s) | Unexpected => ([], None) | Parsed e r => ([e], Some r) end.
  (** OsmXmlParser.cpp:213-216: one part behind the other. *)
  Definition tellThen (a : told) (f : bytes -> told) : told :=
    match a with (es, None) => (es, None) | (es, Some r) => let '(es', o) := f r in (es ++ es', o) end.
  (** OsmXmlParser.cpp:209-217, osm, and 281-292: an exception if there is no match. *)
  Definition parseXml (s : bytes) : list (xevent T) * outcome unit :=
    match pheader s with
    | Parsed _ r =>
        let all p q := tellAll (S (List.length q)) p q in
        let '(es, o) := tellThen (tellOption pbounds (skipOther r)) (fun r1 =>
                        tellThen (all pnode r1) (fun r2 => tellThen (all pway r2) (fun r3 => all prelation r3))) in
        match o with
        | None => (es, Throw DomainError)
        | Some r4 => match tokA (str "</osm>") r4 with Parsed _ _ => (es, Ok tt) | _ => (es, Throw DomainError) end
        end
    | _ => ([], Throw DomainError)
    end.
End Numbers.
