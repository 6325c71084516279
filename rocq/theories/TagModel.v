(** Model of core/src/utils/ElementUtils.hpp (tags of an element) and of the element built by
    the raw element API, core/shared/Storage.hpp:61-112.
    The string table is seen through two parameters: [intern] is StringTable::getId and
    [text] is StringTable::getString (both modelled in StringModel.v).  std::sort is a
    parameter [sort]: with equal keys the order of its result is unspecified. *)
From Verif Require Import Base Bytes ElementModel.

(** std::numeric_limits<std::uint32_t>::max(), ElementUtils.hpp:67, 74, 84. *)
Definition noId : N := 4294967295.

Section Convert.
  Variable intern : bytes -> N.
  Variable sort : list tag -> list tag.

  (** core/src/formats/FormatTypes.hpp:20-31: a tag of an input format, key and value. *)
  Definition rawTag : Type := (bytes * bytes)%type.

  (** ElementUtils.hpp:20-22 and 33: one tag. *)
  Definition convertTag (t : rawTag) : tag := mkTag (intern (fst t)) (intern (snd t)).

  (** ElementUtils.hpp:16-26, setTags on an element which has the tags [old]. *)
  Definition setTags (old : list tag) (ts : list rawTag) : list tag :=
    sort (old ++ map convertTag ts).

  (** ElementUtils.hpp:29-39, convertTags. *)
  Definition convertTags (ts : list rawTag) : list tag := sort (map convertTag ts).
End Convert.

(** ElementUtils.hpp:46-57: binary search on the positions [begin, end).  [None] means that
    the fuel ran out, [Some None] that the loop ended without a match. *)
Fixpoint searchTag (fuel : nat) (key : N) (tags : list tag) (b e : nat) : option (option tag) :=
  match fuel with
  | O => None
  | S fuel' =>
      if b <? e then
        let middle := b + (e - b) / 2 in
        match nth_error tags middle with
        | None => None
        | Some t =>
            if N.eqb (tkey t) key then Some (Some t)
            else if N.ltb key (tkey t) then searchTag fuel' key tags b middle
            else searchTag fuel' key tags (middle + 1) e
        end
      else Some None
  end.

(** ElementUtils.hpp:41-60, getTagValue with the transformation [f] of a found value.
    [UB] would be a search that runs off the vector or does not end; it never happens
    (TagProofs.searchTag_total). *)
Definition getTagValue (key : N) (tags : list tag) (default : N) (f : N -> outcome N) : outcome N :=
  match searchTag (S (length tags)) key tags 0 (length tags) with
  | None => UB
  | Some None => Ok default
  | Some (Some t) => f (tvalue t)
  end.

(** ElementUtils.hpp:62-71, hasTag. *)
Definition hasTag (key value : N) (tags : list tag) : outcome bool :=
  omap (N.eqb value) (getTagValue key tags noId (fun v => Ok v)).

(** ElementUtils.hpp:73-77, hasIgnore. *)
Definition hasIgnore (tags : list tag) : outcome bool := hasTag noId 0 tags.

(** ElementUtils.hpp:79-92, getTagValue returning the string. *)
Definition getTagString (text : N -> outcome bytes) (key : N) (tags : list tag) : outcome bytes :=
  bind (getTagValue key tags noId
          (fun v => if N.eqb v noId then bind (text key) (fun _ => Throw DomainError) else Ok v))
       text.

Section Raw.
  Variable intern : bytes -> N.

  (** GeoCoordinate.hpp:26-29, operator== of two coordinates (both differences below
      epsilon); a parameter. *)
  Variable same : coord -> coord -> bool.

  (** Storage.hpp:73-79: consecutive entries of the tag array; reading past the end of an
      array of odd length is undefined. *)
  Fixpoint pairTags (ts : list bytes) : outcome (list tag) :=
    match ts with
    | [] => Ok []
    | [_] => UB
    | k :: v :: ts' => omap (cons (mkTag (intern k) (intern v))) (pairTags ts')
    end.

  (** Storage.hpp:91-95: consecutive entries of the vertex array. *)
  Fixpoint pairCoords (vs : list N) : outcome (list coord) :=
    match vs with
    | [] => Ok []
    | [_] => UB
    | a :: b :: vs' => omap (cons (mkCoord a b)) (pairCoords vs')
    end.

  (** Storage.hpp:61-112: the element handed to the store.  Without vertices,
      coordinates[0] is out of bounds. *)
  Definition rawElement (id : N) (vertices : list N) (tags : list bytes) : outcome element :=
    bind (pairTags tags) (fun ts =>
    match vertices with
    | [a; b] | [a; b; _] => Ok (Node id ts (mkCoord a b))
    | _ =>
      bind (pairCoords vertices) (fun cs =>
      match cs with
      | [] => UB
      | c :: _ => if same c (last cs c) then Ok (Area id ts cs) else Ok (Way id ts cs)
      end)
    end).
End Raw.
