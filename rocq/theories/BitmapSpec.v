(** Specification for properties C08, C09 and C44: which documents a query asks for. *)
From Verif Require Import Base Bytes StreamModel EwahModel BitmapModel.
From Coq Require Import NArith Sorted.
Local Open Scope N_scope.

(** [t] is one of the words of [s]: a non-empty run of characters that are not delimiters, with
    delimiters or the ends of the string around it. *)
Definition wordOf (s t : bytes) : Prop :=
  t <> [] /\ Forall (fun c => isDelimiter c = false) t /\
  exists a b, s = a ++ t ++ b /\
    (a = [] \/ exists a' c, a = a' ++ [c] /\ isDelimiter c = true) /\
    (b = [] \/ exists c b', b = c :: b' /\ isDelimiter c = true).

(** A document has a term when it is a word of one of its tags' keys or values. *)
Definition hasTerm (d : document) (t : bytes) : Prop :=
  exists k v, In (k, v) d /\ (wordOf k t \/ wordOf v t).

Definition hasSome (d : document) (terms : bytes) : Prop := exists t, wordOf terms t /\ hasTerm d t.
Definition hasAll (d : document) (terms : bytes) : Prop := forall t, wordOf terms t -> hasTerm d t.

(** What the search answers.  The or-terms are a condition of their own only when there are no
    and-terms or when at least one or-term occurs somewhere in the tile. *)
Definition matches (ds : list document) (q : query) (d : document) : Prop :=
  hasAll d (andTerms q) /\
  ~ hasSome d (notTerms q) /\
  ((exists t, wordOf (andTerms q) t) /\ (forall d', In d' ds -> ~ hasSome d' (orTerms q)) \/ hasSome d (orTerms q)).

(** The answer to a query over the documents of a tile: positions, ascending. *)
Definition answers (ds : list document) (q : query) (l : list N) : Prop :=
  StronglySorted N.lt l /\
  forall p, In p l <-> exists d, nth_error ds (N.to_nat p) = Some d /\ matches ds q d.

(** The strings that ids are asked for, and distinct ids for them (property C01). *)
Definition usedBy (ds : list document) (q : query) (t : bytes) : Prop :=
  (exists d, In d ds /\ hasTerm d t) \/ wordOf (orTerms q) t \/ wordOf (andTerms q) t \/ wordOf (notTerms q) t.
Definition injectiveOn (getId : bytes -> N) (used : bytes -> Prop) : Prop :=
  forall a b, used a -> used b -> getId a = getId b -> a = b.

(** What of a bitmap is kept in a file. *)
Definition fileable (m : bitmap) : Prop :=
  NoDup (map fst m) /\
  Forall (fun kv => fst kv < 2 ^ 32 /\ bits (snd kv) < 2 ^ 64 /\
    N.of_nat (length (buf (snd kv))) < 2 ^ 64 /\ Forall (fun w => w < 2 ^ 32) (buf (snd kv))) m.
