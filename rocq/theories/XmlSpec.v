(** The texts of OSM XML which are understood, and what they tell, independent of the parser. *)
From Coq Require Import String.
From Verif Require Import Base Bytes JsonModel XmlModel.
Local Open Scope list_scope.

(** ** Blanks and attributes *)
Definition blank (c : N) : Prop := (c = 32 \/ 9 <= c <= 13)%N.
Definition blanks (s : bytes) : Prop := Forall blank s.
Definition quoted (s : bytes) : bytes := [34%N] ++ s ++ [34%N].
Definition unquoted (s : bytes) : Prop := ~ In 34%N s.
Definition alnum (c : N) : Prop := (48 <= c <= 57 \/ 65 <= c <= 90 \/ 97 <= c <= 122)%N.
(** An attribute without meaning here: its value is not empty. *)
Definition foreign (t : bytes) : Prop :=
  exists k v, k <> [] /\ Forall alnum k /\ ~ In k [str "id"; str "lat"; str "lon"] /\ v <> [] /\ unquoted v /\
    t = k ++ str "=" ++ quoted v.
(** Blanks and such attributes. *)
Inductive agap : bytes -> Prop :=
| agap_nil : agap []
| agap_blank c a : blank c -> agap a -> agap (c :: a)
| agap_foreign t a : foreign t -> agap a -> agap (t ++ a).

(** ** Numbers *)
Inductive natural : bytes -> N -> Prop :=
| nat_one d : (d <= 9)%N -> natural [(48 + d)%N] d
| nat_more ds v d : natural ds v -> (d <= 9)%N -> natural (ds ++ [(48 + d)%N]) (10 * v + d)%N.
(** id=, a number of 64 bits. *)
Definition numberedText (key : bytes) (v : N) (t : bytes) : Prop :=
  exists b1 ds b2, blanks b1 /\ natural ds v /\ (v < 2 ^ 64)%N /\ blanks b2 /\ t = key ++ str "=" ++ quoted (b1 ++ ds ++ b2).
(** k=, any text without quotation marks. *)
Definition keyedText (key v t : bytes) : Prop :=
  exists b, blanks b /\ unquoted v /\ t = key ++ str "=" ++ b ++ quoted v.

(** ** Parts *)
Definition tagText (kv : bytes * bytes) (t : bytes) : Prop :=
  exists b1 t1 b2 t2 b3, blanks b1 /\ keyedText (str "k") (fst kv) t1 /\ blanks b2 /\ keyedText (str "v") (snd kv) t2 /\ blanks b3 /\
    t = str "<tag" ++ b1 ++ t1 ++ b2 ++ t2 ++ b3 ++ str "/>".
Definition refText (r : N) (t : bytes) : Prop :=
  exists b1 t1 b2, blanks b1 /\ numberedText (str "ref") r t1 /\ blanks b2 /\ t = str "<nd" ++ b1 ++ t1 ++ b2 ++ str "/>".
(** n for node, w for way, and r for everything else. *)
Definition typeName (t n : bytes) : Prop :=
  (t = str "node" /\ n = str "n") \/ (t = str "way" /\ n = str "w") \/ (t <> str "node" /\ t <> str "way" /\ n = str "r").
Definition memberText (m : xmember) (t : bytes) : Prop :=
  exists b1 ty t1 b2 t2 b3 t3 b4, blanks b1 /\ keyedText (str "type") ty t1 /\ typeName ty (fst (fst m)) /\ blanks b2 /\
    numberedText (str "ref") (snd (fst m)) t2 /\ blanks b3 /\ keyedText (str "role") (snd m) t3 /\ blanks b4 /\
    t = str "<member" ++ b1 ++ t1 ++ b2 ++ t2 ++ b3 ++ t3 ++ b4 ++ str "/>".
(** Things one behind the other, each with something in front. *)
Inductive listText {A} (G : bytes -> Prop) (P : A -> bytes -> Prop) : list A -> bytes -> Prop :=
| list_nil : listText G P [] []
| list_cons g a t l u : G g -> P a t -> listText G P l u -> listText G P (a :: l) (g ++ t ++ u).

Section Numbers.
  Context {T : Type} (zero : T) (numeral : T -> bytes -> Prop).
  Definition coordinateText (key : bytes) (v : T) (t : bytes) : Prop :=
    exists b ds, blanks b /\ numeral v ds /\ t = key ++ str "=" ++ b ++ quoted ds.
  (** A number parser takes numerals only, and takes a numeral whole in front of a quotation mark. *)
  Definition goodNumber (number : bytes -> option (T * bytes)) : Prop :=
    (forall s v r, number s = Some (v, r) -> exists w, s = w ++ r /\ numeral v w) /\
    (forall v w r, numeral v w -> number (w ++ 34%N :: r) = Some (v, 34%N :: r)).

  (** bounds: some of the four numbers in any order, each once; those left out are zero. *)
  Definition boundsKey (i : nat) : bytes := nth i [str "minlat"; str "minlon"; str "maxlat"; str "maxlon"] [].
  Definition boundsItem (p : nat * T) (t : bytes) : Prop := (fst p < 4)%nat /\ coordinateText (boundsKey (fst p)) (snd p) t.
  Definition valueAt (l : list (nat * T)) (i : nat) (v : T) : Prop := In (i, v) l \/ (~ In i (map fst l) /\ v = zero).
  Definition boundsText (e : xevent T) (t : bytes) : Prop :=
    exists l u b v0 v1 v2 v3, l <> [] /\ NoDup (map fst l) /\ listText blanks boundsItem l u /\ blanks b /\
      valueAt l 0 v0 /\ valueAt l 1 v1 /\ valueAt l 2 v2 /\ valueAt l 3 v3 /\ e = XBounds v0 v1 v2 v3 /\
      t = str "<bounds" ++ u ++ b ++ str "/>".
  (** A node: the identifier, the latitude and the longitude in this order. *)
  Definition nodeText (e : xevent T) (t : bytes) : Prop :=
    exists id lat lon ts a1 t1 a2 t2 a3 t3 a4 rest, agap a1 /\ numberedText (str "id") id t1 /\ agap a2 /\
      coordinateText (str "lat") lat t2 /\ agap a3 /\ coordinateText (str "lon") lon t3 /\ agap a4 /\
      ((ts = [] /\ rest = str "/>") \/
       exists u a5, listText blanks tagText ts u /\ agap a5 /\ rest = str ">" ++ u ++ a5 ++ str "</node>") /\
      e = XNode id lat lon ts /\ t = str "<node" ++ a1 ++ t1 ++ a2 ++ t2 ++ a3 ++ t3 ++ a4 ++ rest.
  (** A way or a relation: at least one part, then the tags. *)
  Definition bodyText {A} (name : bytes) (P : A -> bytes -> Prop) (id : N) (l : list A) (ts : list (bytes * bytes)) (t : bytes) : Prop :=
    exists a1 t1 a2 u v a3, agap a1 /\ numberedText (str "id") id t1 /\ agap a2 /\ l <> [] /\ listText blanks P l u /\
      listText blanks tagText ts v /\ agap a3 /\
      t = str "<" ++ name ++ a1 ++ t1 ++ a2 ++ str ">" ++ u ++ v ++ a3 ++ str "</" ++ name ++ str ">".
  Definition wayText (e : xevent T) (t : bytes) : Prop :=
    exists id l ts, e = XWay id l ts /\ bodyText (str "way") refText id l ts t.
  Definition relationText (e : xevent T) (t : bytes) : Prop :=
    exists id l ts, e = XRelation id l ts /\ bodyText (str "relation") memberText id l ts t.

  (** Nothing of this looks like a node or bounds. *)
  Definition noFirst (junk : bytes) : Prop := forall a r, junk <> a ++ str "<node" ++ r /\ junk <> a ++ str "<bounds" ++ r.
  (** The parts of a document behind what comes before the first node or bounds. *)
  Definition partsText (es : list (xevent T)) (t : bytes) : Prop :=
    exists eb tb en tn ew tw er tr,
      ((eb = [] /\ tb = []) \/ exists e, eb = [e] /\ boundsText e tb) /\
      listText agap nodeText en tn /\ listText agap wayText ew tw /\ listText agap relationText er tr /\
      es = eb ++ en ++ ew ++ er /\ t = tb ++ tn ++ tw ++ tr.
  Definition startsFirst (t : bytes) : Prop := exists r, t = str "<node" ++ r \/ t = str "<bounds" ++ r.

  (** A document as it is meant: the XML declaration, the start tag, other elements, and then bounds or a node. *)
  Definition cleanHead (t : bytes) : Prop :=
    exists c a a1 a2, blank c /\ agap a /\ agap a1 /\ agap a2 /\
      t = str "<?xml" ++ c :: a ++ str "?>" ++ a1 ++ str "<osm" ++ a2 ++ str ">".
  Definition cleanText (es : list (xevent T)) (t : bytes) : Prop :=
    exists h a junk body a1, cleanHead h /\ agap a /\ noFirst junk /\ (junk = [] \/ exists r, junk = str "<" ++ r) /\
      partsText es body /\ startsFirst body /\ agap a1 /\ t = h ++ a ++ junk ++ body ++ a1 ++ str "</osm>".

  (** The beginning of any text from which something is told. *)
  Definition laxHead (t : bytes) : Prop :=
    exists a x a0 a1 a2, agap a /\ agap a0 /\ agap a1 /\ agap a2 /\
      t = a ++ str "<?" ++ x ++ a0 ++ str ">" ++ a1 ++ str "<osm" ++ a2 ++ str ">".
  Definition laxText (es : list (xevent T)) (t : bytes) : Prop :=
    exists h a junk a' body, laxHead h /\ agap a /\ noFirst junk /\ agap a' /\ partsText es body /\ t = h ++ a ++ junk ++ a' ++ body.
End Numbers.

(** ** What can be told *)
Section Tellable.
  Context {T : Type} (zero : T) (numeral : T -> bytes -> Prop).
  (** The number can be written. *)
  Definition writable (v : T) : Prop := exists w, numeral v w.
  Definition goodTags (ts : list (bytes * bytes)) : Prop := Forall (fun kv => unquoted (fst kv) /\ unquoted (snd kv)) ts.
  (** A number which is given, or left out. *)
  Definition given (o : option T) : T := match o with Some v => v | None => zero end.
  Definition goodBounds (e : xevent T) : Prop :=
    exists o0 o1 o2 o3, e = XBounds (given o0) (given o1) (given o2) (given o3) /\ Exists (fun o => o <> None) [o0; o1; o2; o3] /\
      Forall (fun o => match o with Some v => writable v | None => True end) [o0; o1; o2; o3].
  Definition goodNode (e : xevent T) : Prop :=
    exists id lat lon ts, e = XNode id lat lon ts /\ (id < 2 ^ 64)%N /\ writable lat /\ writable lon /\ goodTags ts.
  Definition goodWay (e : xevent T) : Prop :=
    exists id l ts, e = XWay id l ts /\ (id < 2 ^ 64)%N /\ l <> [] /\ Forall (fun r => (r < 2 ^ 64)%N) l /\ goodTags ts.
  Definition goodMember (m : xmember) : Prop :=
    In (fst (fst m)) [str "n"; str "w"; str "r"] /\ (snd (fst m) < 2 ^ 64)%N /\ unquoted (snd m).
  Definition goodRelation (e : xevent T) : Prop :=
    exists id l ts, e = XRelation id l ts /\ (id < 2 ^ 64)%N /\ l <> [] /\ Forall goodMember l /\ goodTags ts.
  (** At most one bounds, then nodes, ways with nodes and relations with members, and bounds or a node is there. *)
  Definition tellable (es : list (xevent T)) : Prop :=
    exists eb en ew er, es = eb ++ en ++ ew ++ er /\ (List.length eb <= 1)%nat /\ Forall goodBounds eb /\ Forall goodNode en /\
      Forall goodWay ew /\ Forall goodRelation er /\ eb ++ en <> [].
End Tellable.
