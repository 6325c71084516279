(** Model of core/src/QuadKey.hpp, core/src/LodRange.hpp, core/src/BoundingBox.hpp and of
    the tile functions of core/src/utils/GeoUtils.hpp. *)
From Verif Require Import Base ElementModel.
Open Scope Z_scope.

(** * Numbers that are only compared *)

(** What the comparisons of a C++ arithmetic type can see: core/src/BoundingBox.hpp and
    core/src/utils/MathUtils.hpp:20-22 use nothing but [<] and [<=] on their doubles. *)
Record ord (A : Type) := mkOrd { ltb : A -> A -> bool; leb : A -> A -> bool }.
Arguments mkOrd {A}. Arguments ltb {A}. Arguments leb {A}.

(** std::min(a, b) and std::max(a, b) as the C++ standard defines them (used in
    BoundingBox.hpp:38-53, 76-79 and MathUtils.hpp:21): the first argument wins unless the
    second is strictly better, which matters for NaN. *)
Definition stdMin {A} (o : ord A) (a b : A) : A := if ltb o b a then b else a.
(** std::max (BoundingBox.hpp:38-53, MathUtils.hpp:21). *)
Definition stdMax {A} (o : ord A) (a b : A) : A := if ltb o a b then b else a.

(** core/src/utils/MathUtils.hpp:20-22. *)
Definition clamp {A} (o : ord A) (n minValue maxValue : A) : A :=
  stdMax o minValue (stdMin o n maxValue).

(** A double as its comparisons see it (the fields of core/src/GeoCoordinate.hpp:10-14):
    NaN, an infinity, or m * 2^-1074; every finite double is of the last form.  Both zeros
    are [Fin 0]: no comparison tells them apart. *)
Inductive dbl := NaN | Inf (negative : bool) | Fin (m : Z).

(** IEEE 754 [<] and [<=] (GeoCoordinate.hpp:31-34, BoundingBox.hpp): false as soon as a NaN
    is involved. *)
Definition dltb (a b : dbl) : bool :=
  match a, b with
  | NaN, _ | _, NaN => false
  | Fin x, Fin y => x <? y
  | Inf true, Inf n => negb n
  | Inf true, Fin _ => true
  | Inf false, _ => false
  | Fin _, Inf n => negb n
  end.
(** IEEE 754 [<=] (BoundingBox.hpp:69-79). *)
Definition dleb (a b : dbl) : bool :=
  match a, b with
  | NaN, _ | _, NaN => false
  | Fin x, Fin y => x <=? y
  | Inf true, _ => true
  | Inf false, Inf n => negb n
  | Inf false, Fin _ => false
  | Fin _, Inf n => negb n
  end.
(** Both comparisons of doubles (BoundingBox.hpp:38-79). *)
Definition dord : ord dbl := mkOrd dltb dleb.

(** The double with a given 64 bit pattern (GeoCoordinate.hpp:10-14; sign, 11 bit exponent,
    52 bit fraction). *)
Definition dblOf (bits : N) : dbl :=
  let b := Z.of_N bits in
  let frac := b mod 2 ^ 52 in
  let e := (b / 2 ^ 52) mod 2 ^ 11 in
  let neg := Z.odd (b / 2 ^ 63) in
  if e =? 2047 then (if frac =? 0 then Inf neg else NaN)
  else
    let m := if e =? 0 then frac else (2 ^ 52 + frac) * 2 ^ (e - 1) in
    Fin (if neg then - m else m).

(** The double m * 2^e, -1074 <= e, for literals in the source (e.g. BoundingBox.hpp:18). *)
Definition dlit (m e : Z) : dbl := Fin (m * 2 ^ (e + 1074)).

(** * core/src/GeoCoordinate.hpp and core/src/BoundingBox.hpp *)

(** GeoCoordinate.hpp:10-24. *)
Record point (A : Type) := mkPoint { plat : A; plon : A }.
Arguments mkPoint {A}. Arguments plat {A}. Arguments plon {A}.

(** BoundingBox.hpp:11-15, 21-23. *)
Record box (A : Type) := mkBox { bmin : point A; bmax : point A }.
Arguments mkBox {A}. Arguments bmin {A}. Arguments bmax {A}.

(** BoundingBox.hpp:17-19. *)
Definition emptyBox : box dbl :=
  mkBox (mkPoint (dlit 90 0) (dlit 180 0)) (mkPoint (dlit (-90) 0) (dlit (-180) 0)).

(** GeoCoordinate.hpp:31-34. *)
Definition validPoint (p : point dbl) : bool :=
  dltb (dlit (-90) 0) (plat p) && dltb (plat p) (dlit 90 0) &&
  dltb (dlit (-180) 0) (plon p) && dltb (plon p) (dlit 180 0).

Section Box.
  Context {A : Type} (o : ord A).

  (** BoundingBox.hpp:30-34. *)
  Definition isValid (b : box A) : bool :=
    leb o (plat (bmin b)) (plat (bmax b)) && leb o (plon (bmin b)) (plon (bmax b)).

  (** BoundingBox.hpp:37-43 (and operator+=, 25-28). *)
  Definition expandBox (b r : box A) : box A :=
    mkBox (mkPoint (stdMin o (plat (bmin b)) (plat (bmin r))) (stdMin o (plon (bmin b)) (plon (bmin r))))
          (mkPoint (stdMax o (plat (bmax b)) (plat (bmax r))) (stdMax o (plon (bmax b)) (plon (bmax r)))).

  (** BoundingBox.hpp:46-54. *)
  Definition expand (b : box A) (c : point A) : box A :=
    mkBox (mkPoint (stdMin o (plat (bmin b)) (plat c)) (stdMin o (plon (bmin b)) (plon c)))
          (mkPoint (stdMax o (plat (bmax b)) (plat c)) (stdMax o (plon (bmax b)) (plon c))).

  (** BoundingBox.hpp:57-61. *)
  Definition expandAll (b : box A) (cs : list (point A)) : box A := fold_left expand cs b.

  (** BoundingBox.hpp:69-72. *)
  Definition containsPoint (b : box A) (c : point A) : bool :=
    ltb o (plat (bmin b)) (plat c) && ltb o (plon (bmin b)) (plon c) &&
    ltb o (plat c) (plat (bmax b)) && ltb o (plon c) (plon (bmax b)).

  (** BoundingBox.hpp:64-66. *)
  Definition containsBox (b c : box A) : bool :=
    containsPoint b (bmin c) && containsPoint b (bmax c).

  (** BoundingBox.hpp:75-82. *)
  Definition intersects (b r : box A) : bool :=
    leb o (stdMax o (plat (bmin r)) (plat (bmin b))) (stdMin o (plat (bmax r)) (plat (bmax b))) &&
    leb o (stdMax o (plon (bmin r)) (plon (bmin b))) (stdMin o (plon (bmax r)) (plon (bmax b))).
End Box.

(** A stored coordinate (64 bit patterns, ElementModel.v) as its comparisons see it,
    GeoCoordinate.hpp:10-14. *)
Definition pointOf (c : coord) : point dbl := mkPoint (dblOf (clat c)) (dblOf (clon c)).

(** core/src/index/ElementGeometryVisitor.hpp:20-36. *)
Fixpoint geometryVisit (b : box dbl) (e : element) : box dbl :=
  match e with
  | Node _ _ c => expand dord b (pointOf c)
  | Way _ _ cs | Area _ _ cs => expandAll dord b (map pointOf cs)
  | Relation _ _ es => fold_left geometryVisit es b
  end.
(** ElementGeometryVisitor.hpp:41-42 (and ElementStore.cpp:75-76): the visitor starts from a
    default box. *)
Definition elementBox (e : element) : box dbl := geometryVisit emptyBox e.

(** * core/src/QuadKey.hpp *)

(** QuadKey.hpp:20-32; the fields are ints. *)
Record quadKey := mkKey { lod : Z; tileX : Z; tileY : Z }.

(** QuadKey.hpp:8-18, the Comparator. *)
Definition keyLess (l r : quadKey) : bool :=
  if lod l =? lod r then
    if tileX l =? tileX r then tileY l <? tileY r else tileX l <? tileX r
  else lod l <? lod r.

(** QuadKey.hpp:34-37. *)
Definition keyEqb (l r : quadKey) : bool :=
  (lod l =? lod r) && (tileX l =? tileX r) && (tileY l =? tileY r).

(** One iteration of GeoUtils.hpp:57-66: '0', plus one for the x bit, plus two for the y
    bit.  The fields are ints, [mask] is a single bit below the sign. *)
Definition keyDigit (k : quadKey) (i : Z) : N :=
  (48 + (if Z.testbit (tileX k) (i - 1) then 1 else 0)
      + (if Z.testbit (tileY k) (i - 1) then 2 else 0))%N.

(** GeoUtils.hpp:54-69; the loop for (i = n; i > 0; --i).  For more than 31 levels
    the mask [1 << (i - 1)] is not an int any more. *)
Fixpoint keyDigits (k : quadKey) (n : nat) : list N :=
  match n with
  | O => []
  | S n' => keyDigit k (Z.of_nat n) :: keyDigits k n'
  end.
(** GeoUtils.hpp:54-69, quadKeyToString. *)
Definition keyString (k : quadKey) : outcome (list N) :=
  if lod k <=? 31 then
    (* GeoUtils.hpp:56: a negative size_t makes reserve throw std::length_error *)
    if lod k <? 0 then Throw LengthError else Ok (keyDigits k (Z.to_nat (lod k)))
  else UB.

(** * core/src/LodRange.hpp *)

(** LodRange.hpp:12-14. *)
Record lodRange := mkRange { rstart : Z; rend : Z }.

(** GeoUtils.hpp:22-23. *)
Definition MinLod : Z := 1.
(** GeoUtils.hpp:23. *)
Definition MaxLod : Z := 19.

(** LodRange.hpp:17-24. *)
Definition newRange (s e : Z) : outcome lodRange :=
  if (s <? MinLod) || (s >? MaxLod) || (e <? MinLod) || (e >? MaxLod)
  then Throw DomainError else Ok (mkRange s e).
(** LodRange.hpp:15. *)
Definition defaultRange : outcome lodRange := newRange 0 0.

(** for (int v = a; v <= b; ++v), the shape of the loops in GeoUtils.hpp:79-80 and
    ElementStore.cpp:69. *)
Definition interval (a b : Z) : list Z :=
  map (fun i => a + Z.of_nat i) (seq 0 (Z.to_nat (b - a + 1))).

(** ElementStore.cpp:69 and every other loop over a range: the levels visited. *)
Definition levels (r : lodRange) : list Z := interval (rstart r) (rend r).

(** * core/src/utils/GeoUtils.hpp: visitTileRange *)

Section Tiles.
  Context {A : Type} (o : ord A).
  (** GeoUtils.hpp:26-30 and 43-52; given by [ProjectionModel.v]. *)
  Variable tileOf : point A -> Z -> quadKey.
  Variable tileBox : quadKey -> box A.

  (** GeoUtils.hpp:73-88: the visits, in order, with the arguments of the visitor. *)
  Definition visitTileRange (b : box A) (l : Z) : list (quadKey * box A) :=
    if isValid o b then
      let start := tileOf (bmin b) l in
      let stop := tileOf (bmax b) l in
      flat_map (fun y =>
        flat_map (fun x =>
          let k := mkKey l x y in
          let kb := tileBox k in
          if intersects o b kb then [(k, kb)] else [])
        (interval (tileX start) (tileX stop)))
      (interval (tileY stop) (tileY start))
    else [].
End Tiles.
