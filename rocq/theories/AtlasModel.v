(** Model of core/src/mapcss/TextureAtlasParser.cpp with the semantics of Boost.Spirit of Peg.v, and of the conversions of
    core/src/mapcss/StyleSheet.hpp on the way.  All line numbers are of the former unless said otherwise. *)
From Coq Require Import String.
From Verif Require Import Base Bytes JsonModel Peg StyleModel LsysParseModel.
Local Open Scope list_scope.

(** TextureAtlasParser.cpp:19-25, Region as it is read. *)
Record wregion := mkWregion { wname : bytes; wleft : Z; wtop : Z; wwidth : Z; wheight : Z }.
(** TextureAtlasParser.cpp:27-32, Atlas as it is read. *)
Record watlas := mkWatlas { wid : Z; wwide : Z; whigh : Z; wregions : list wregion }.

(** qi::int_ behind qi::space (e.g. TextureAtlasParser.cpp:57). *)
Definition pintS : parser Z := pskip skipSpaces pint.
(** A comma behind qi::space (e.g. TextureAtlasParser.cpp:56). *)
Definition pcomma : parser unit := pskip skipSpaces (plit (str ",")).
(** ascii::char_ - ',' (TextureAtlasParser.cpp:56). *)
Definition inName (c : N) : bool := isAscii c && negb (N.eqb c 44).
(** TextureAtlasParser.cpp:55-60; qi::lexeme skips in front of the name only. *)
Definition pregion : parser wregion :=
  pbind (pskip skipSpaces (pchars1 inName)) (fun n => pbind pcomma (fun _ =>
  pbind pintS (fun x => pbind pcomma (fun _ => pbind pintS (fun y => pbind pcomma (fun _ =>
  pbind pintS (fun w => pbind pcomma (fun _ => pbind pintS (fun h => preturn (mkWregion n x y w h)))))))))).
(** TextureAtlasParser.cpp:71-75. *)
Definition patlas : parser watlas :=
  pbind pintS (fun i => pbind pcomma (fun _ => pbind pintS (fun w => pbind pcomma (fun _ => pbind pintS (fun h =>
  pbind (pmany1 pregion) (fun rs => preturn (mkWatlas i w h rs))))))).

(** static_cast<std::uint16_t> of an int (TextureAtlasParser.cpp:93-94 and 101): the low 16 bits. *)
Definition cast16 (z : Z) : N := Z.to_N (z mod 65536).
(** TextureAtlasParser.cpp:97-98: a sum of ints; overflow is undefined. *)
Definition intSum (a b : Z) : outcome Z :=
  if ((-2147483648 <=? a + b) && (a + b <=? 2147483647))%Z then Ok (a + b)%Z else UB.
(** std::numeric_limits<double>::max() (Rectangle.hpp:20-21). *)
Definition doubleMax : Z := ((2 ^ 53 - 1) * 2 ^ 971)%Z.

(** The conversion of a double to std::uint16_t as the standard has it: undefined if the number does not fit (StyleSheet.hpp:21-27). *)
Definition strict16 (z : Z) : outcome N := if ((0 <=? z) && (z <? 65536))%Z then Ok (Z.to_N z) else UB.

Section Conversion.
  (** static_cast<std::uint16_t> of a double, given by its integral part. *)
  Variable convert : Z -> outcome N.

  (** StyleSheet.hpp:39-47, TextureGroup::add: the region of a rectangle given by its corners (whole numbers here, so that
      Rectangle::width and Rectangle::height, Rectangle.hpp:61-67, are exact). *)
  Definition regionOf (aw ah : N) (xmin ymin xmax ymax : Z) : outcome region :=
    bind (convert xmin) (fun x => bind (convert ymin) (fun y => bind (convert (xmax - xmin)%Z) (fun w => bind (convert (ymax - ymin)%Z) (fun h =>
    Ok (aw, ah, x, y, w, h))))).
  (** groups[name].add (TextureAtlasParser.cpp:92). *)
  Fixpoint addTo (name : bytes) (r : region) (m : list (bytes * textureGroup)) : list (bytes * textureGroup) :=
    match m with
    | [] => [(name, [r])]
    | (k, g) :: m' => if beqb name k then (k, g ++ [r]) :: m' else (k, g) :: addTo name r m'
    end.
  (** TextureAtlasParser.cpp:91-99: one turn of the loop. *)
  Definition addRegion (a : watlas) (m : list (bytes * textureGroup)) (r : wregion) : outcome (list (bytes * textureGroup)) :=
    bind (intSum (wleft r) (wwidth r)) (fun xm => bind (intSum (wtop r) (wheight r)) (fun ym =>
    bind (regionOf (cast16 (wwide a)) (cast16 (whigh a)) (wleft r) (wtop r) xm ym) (fun g => Ok (addTo (wname r) g m)))).
  (** TextureAtlasParser.cpp:91-99, the loop. *)
  Fixpoint addRegions (a : watlas) (rs : list wregion) (m : list (bytes * textureGroup)) : outcome (list (bytes * textureGroup)) :=
    match rs with [] => Ok m | r :: rs' => bind (addRegion a m r) (fun m' => addRegions a rs' m') end.
  (** StyleSheet.hpp:65-70 with Rectangle.hpp:19-24: the empty group gets the region of a default rectangle; the smallest
      positive double, which is its other corner, is nothing against the largest one. *)
  Definition emptyRegionOf : outcome region :=
    bind (convert doubleMax) (fun x => bind (convert doubleMax) (fun y => bind (convert (- doubleMax)%Z) (fun w => bind (convert (- doubleMax)%Z) (fun h =>
    Ok (0, 0, x, y, w, h)%N)))).
  (** TextureAtlasParser.cpp:82-102; text behind the match does not matter. *)
  Definition parseAtlas (s : bytes) : outcome atlas :=
    match patlas s with
    | Parsed a _ => bind (addRegions a (wregions a) []) (fun m => bind emptyRegionOf (fun _ => Ok (mkAtlas (cast16 (wid a)) m)))
    | _ => Throw MapcssError
    end.
End Conversion.
