(** Shared vocabulary of the model: outcomes of a C++ call, association lists
    (std::map / std::unordered_map used by key only) and a few list helpers. *)
From Coq Require Export List Arith ZArith NArith Lia Bool.
From Coq Require Export ZifyBool ZifyNat ZifyN.
Export ListNotations.

(** The exceptions the modelled code throws explicitly (e.g. LruCache.hpp:84). *)
Inductive exn : Type :=
| RangeError        (* std::range_error, e.g. core/src/utils/LruCache.hpp:84 *)
| DomainError       (* std::domain_error, e.g. core/src/LodRange.hpp:22 *)
| InvalidArgument   (* std::invalid_argument *)
| OutOfRange        (* std::out_of_range, thrown by std::vector::at and map::at *)
| LengthError       (* std::length_error, e.g. std::string::reserve of too much *)
| MapcssError.      (* utymap::mapcss::MapCssParserException and relatives *)

(** Result of a C++ call: a value, an exception, or undefined behaviour
    (out of bounds access, dangling iterator, read of an uninitialised variable) (e.g. LruCache.hpp:42-47). *)
Inductive outcome (A : Type) : Type :=
| Ok (a : A)
| Throw (e : exn)
| UB.
Arguments Ok {A} a.
Arguments Throw {A} e.
Arguments UB {A}.

(** Sequencing of statements: an exception or undefined behaviour ends it (e.g. StringTable.cpp:80-83). *)
Definition bind {A B} (o : outcome A) (f : A -> outcome B) : outcome B :=
  match o with Ok a => f a | Throw e => Throw e | UB => UB end.

(** A value computed from the result of a call (e.g. StringTable.cpp:71). *)
Definition omap {A B} (f : A -> B) (o : outcome A) : outcome B :=
  bind o (fun a => Ok (f a)).

Section Assoc.
  Context {K V : Type} (keqb : K -> K -> bool).

  (** [find] of a std::map / std::unordered_map (e.g. LruCache.hpp:26). *)
  Fixpoint alookup (k : K) (m : list (K * V)) : option V :=
    match m with
    | [] => None
    | (k', v) :: m' => if keqb k k' then Some v else alookup k m'
    end.

  (** [erase] by key (e.g. LruCache.hpp:29). *)
  Fixpoint aremove (k : K) (m : list (K * V)) : list (K * V) :=
    match m with
    | [] => []
    | (k', v) :: m' => if keqb k k' then aremove k m' else (k', v) :: aremove k m'
    end.

  (** [operator[] =] (e.g. LruCache.hpp:31). *)
  Definition aset (k : K) (v : V) (m : list (K * V)) : list (K * V) :=
    (k, v) :: aremove k m.
End Assoc.
