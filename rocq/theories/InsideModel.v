(** Model of isPointInPolygon of core/src/utils/GeometryUtils.hpp.  Those of
    core/src/math/Polygon.hpp and core/src/utils/GeoUtils.hpp are in MeshBuildModel and RingModel. *)
From Verif Require Import Base GeoModel RingModel QuatModel MeshBuildModel.

Section Inside.
  Context {T : Type} (n : nums T).
  (** [<=] of double; [x >= y] is [le y x]. *)
  Variable le : T -> T -> bool.

  (** GeometryUtils.hpp:171-172: whether the edge from [i] to [j] is crossed. *)
  Definition rightEdge (p i j : vec2 T) : bool :=
    xorb (le (v2y p) (v2y i)) (le (v2y p) (v2y j)) &&
    le (v2x p)
      (nadd n (ndiv n (nmul n (nsub n (v2x j) (v2x i)) (nsub n (v2y p) (v2y i)))
                      (nsub n (v2y j) (v2y i))) (v2x i)).
  (** GeometryUtils.hpp:170-174: the loop from the edge between [j] and the head of the list on. *)
  Fixpoint rightLoop (p j : vec2 T) (result : bool) (l : list (vec2 T)) : bool :=
    match l with
    | [] => result
    | i :: l' => rightLoop p i (if rightEdge p i j then negb result else result) l'
    end.
  (** GeometryUtils.hpp:165-177, isPointInPolygon. *)
  Definition insidePoints (p : vec2 T) (points : list (vec2 T)) : bool :=
    match points with [] => false | v :: _ => rightLoop p (last points v) false points end.
End Inside.
