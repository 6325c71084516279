(** Model of setDirection of core/src/builders/buildings/roofs/SkillionRoofBuilder.hpp and of RoundRoofBuilder.hpp, over any
    operations on double: what RoofModel takes as degrees, and whether a round roof is across. *)
From Coq Require Import String.
From Verif Require Import Base Bytes RingModel EvalModel JsonModel.
Local Open Scope Z_scope.

(** SkillionRoofBuilder.hpp:26-30, directions_; the numbers are whole. *)
Definition directions : list (bytes * Z) :=
  [(str "N", 0); (str "NNE", 22); (str "NE", 45); (str "ENE", 67);
   (str "E", 90); (str "ESE", 112); (str "SE", 135); (str "SSE", 157);
   (str "S", 180); (str "SSW", 202); (str "SW", 225); (str "WSW", 247);
   (str "W", 270); (str "WNW", 292); (str "NW", 315); (str "NNW", 337)].

Section Direction.
  (** [whole] is a whole number as a double; [cast] is boost::lexical_cast (CoreUtils.hpp:57). *)
  Context {T : Type} (n : nums T) (whole : Z -> T) (cast : bytes -> option T).

  (** SkillionRoofBuilder.hpp:31-34, setDirection. *)
  Definition skillionDirection (direction : bytes) : T :=
    match alookup beqb direction directions with
    | Some d => whole d
    | None => parseDouble n cast direction
    end.
End Direction.

(** RoundRoofBuilder.hpp:27-29, setDirection: across. *)
Definition roundAcross (direction : bytes) : bool := beqb direction (str "across").
