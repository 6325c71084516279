(** Model of how core/src/index/GeoStore.cpp chooses the parser of a data file by the name of the file, with endsWith of
    core/src/utils/CoreUtils.hpp.  What the parsers hand to the store is a parameter ([import] of TileStoreModel). *)
From Coq Require Import String.
From Verif Require Import Base Bytes ElementModel GeoModel StoreModel TileStoreModel JsonModel.
Local Open Scope nat_scope.

(** std::equal over reverse iterators (CoreUtils.hpp:52): as many characters as the first range has are read from the
    second; reading behind its end is undefined. *)
Fixpoint sameFront (a b : bytes) : outcome bool :=
  match a, b with
  | [], _ => Ok true
  | _ :: _, [] => UB
  | x :: a', y :: b' => if N.eqb x y then sameFront a' b' else Ok false
  end.

(** CoreUtils.hpp:49-53, endsWith. *)
Definition endsWith (value ending : bytes) : outcome bool :=
  if length value <? length ending then Ok false else sameFront (rev ending) (rev value).

(** FormatType (core/src/formats/FormatTypes.hpp:13-18). *)
Inductive format := Shape | Xml | Pbf | Json.

(** GeoStore.cpp:153-162, getFormatTypeFromPath. *)
Definition formatOf (path : bytes) : outcome format :=
  bind (endsWith path (str "pbf")) (fun p => if p then Ok Pbf else
  bind (endsWith path (str "xml")) (fun x => if x then Ok Xml else
  bind (endsWith path (str "json")) (fun j => if j then Ok Json else Ok Shape))).

(** The parsers with their visitors (GeoStore.cpp:85-113).  That of shapes is given the path and opens several files; the
    others are given the stream of the file; [C] is what a stream has, of a missing file too. *)
Record readers (C : Type) := mkReaders {
  readShape : bytes -> import; readXml : C -> import; readPbf : C -> import; readJson : C -> import }.
Arguments mkReaders {C}.
Arguments readShape {C}.
Arguments readXml {C}.
Arguments readPbf {C}.
Arguments readJson {C}.

Section Import.
  Context {C : Type} (pbf : bool) (rs : readers C) (files : bytes -> C).

  (** GeoStore.cpp:81-116; [pbf] is whether PBF_SUPPORTED_ENABLED is defined (core/src/CMakeLists.txt:4). *)
  Definition importOf (path : bytes) : outcome import :=
    bind (formatOf path) (fun f =>
    match f with
    | Shape => Ok (readShape rs path)
    | Xml => Ok (readXml rs (files path))
    | Pbf => if pbf then Ok (readPbf rs (files path)) else Throw DomainError
    | Json => Ok (readJson rs (files path))
    end).

  (** What a store receives from add, given what it does with an import (GeoStore.cpp:38-50, 52-64 and 66-79). *)
  Definition addFile (add : import -> list call * outcome unit) (path : bytes) : list call * outcome unit :=
    match importOf path with
    | Ok i => add i
    | Throw x => ([], Throw x)
    | UB => ([], UB)
    end.

  (** The same through the null pointer of a name which is not registered (GeoStore.cpp:43-49, 57-63 and 72-78): the first
      element and the erasing after a cancellation call a method of it. *)
  Definition addNull (path : bytes) : list call * outcome unit :=
    addFile (fun i =>
      match parsed i, thrown i with
      | _ :: _, _ => ([], UB)
      | [], Some x => ([], Throw x)
      | [], None => if cancelled i then ([], UB) else ([], Ok tt)
      end) path.

  (** add of a file by the name of a store (GeoStore.cpp:38-79): what the store receives, how add ends and the stores after
      it. *)
  Definition addNamed {S} (add : import -> list call * outcome unit) (name path : bytes) (m : storeMap S)
    : list call * outcome unit * storeMap S :=
    let '(s, m') := lookupStore name m in
    (match s with Some _ => addFile add path | None => addNull path end, m').
End Import.
