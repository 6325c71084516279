(** What tag lookup means: a tag list is a finite map. *)
From Verif Require Import Base Bytes ElementModel.
From Coq Require Import Permutation Sorted.

(** Tags in ascending order of keys, no key twice. *)
Definition ascending (tags : list tag) : Prop :=
  StronglySorted (fun a b => (tkey a < tkey b)%N) tags.

(** What the standard promises about std::sort with Tag::operator< (Element.hpp:26): the
    same elements, none before a smaller one. *)
Definition isSort (sort : list tag -> list tag) : Prop :=
  forall l, Permutation (sort l) l /\
            StronglySorted (fun a b => (tkey a <= tkey b)%N) (sort l).

(** The ids of the given strings are distinct and below [2^32 - 1]; the string table
    guarantees it for strings without embedded NUL as long as it holds fewer than [2^32]
    bytes (C02, C03). *)
Definition goodIds (intern : bytes -> N) (strings : list bytes) : Prop :=
  (forall a b, In a strings -> In b strings -> intern a = intern b -> a = b) /\
  (forall a, In a strings -> (intern a < 4294967295)%N).

(** The strings of a list of key-value pairs. *)
Definition stringsOf (kvs : list (bytes * bytes)) : list bytes :=
  map fst kvs ++ map snd kvs.

(** A sort that satisfies [isSort]: insertion. *)
Fixpoint insertTag (t : tag) (l : list tag) : list tag :=
  match l with
  | [] => [t]
  | t' :: l' => if N.leb (tkey t) (tkey t') then t :: l else t' :: insertTag t l'
  end.
Definition insertionSort (l : list tag) : list tag := fold_right insertTag [] l.
