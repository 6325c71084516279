(** Model of core/src/math/LineLinear.hpp, of the border of core/src/math/Rectangle.hpp and of the walls of raised regions
    (core/src/builders/terrain/TerraGenerator.cpp:70-84), over any operations on double.  The collision point of two lines
    (LineLinear.hpp:31-48) and expand, contains, width and height of rectangles have no callers here and are left out. *)
From Coq Require Import Reals.
From Verif Require Import Base RingModel MeshBuildModel.
Local Open Scope nat_scope.

(** LineLinear.hpp:12-15. *)
Record line T := mkLine { lnA : T; lnB : T; lnC : T }.
Arguments mkLine {T}. Arguments lnA {T}. Arguments lnB {T}. Arguments lnC {T}.
(** Rectangle.hpp:15-17. *)
Record rect T := mkRect { rcLeft : line T; rcRight : line T; rcBottom : line T; rcTop : line T }.
Arguments mkRect {T}. Arguments rcLeft {T}. Arguments rcRight {T}. Arguments rcBottom {T}. Arguments rcTop {T}.

Section Border.
  Context {T : Type} (n : nums T) (env : builderEnv T).
  (** 1E-8 of LineLinear.hpp:52. *)
  Context (tol : T).

  (** LineLinear.hpp:18-22. *)
  Definition lineOf (p1 p2 : vec2 T) : line T :=
    mkLine (nsub n (v2y p1) (v2y p2)) (nsub n (v2x p2) (v2x p1)) (nsub n (nmul n (v2x p1) (v2y p2)) (nmul n (v2x p2) (v2y p1))).
  (** LineLinear.hpp:51-53, contains. *)
  Definition onLine (l : line T) (p : vec2 T) : bool :=
    nlt n (nabs n (nadd n (nadd n (nmul n (v2x p) (lnA l)) (nmul n (v2y p) (lnB l))) (lnC l))) tol.
  (** Rectangle.hpp:26-32. *)
  Definition rectOf (xMin yMin xMax yMax : T) : rect T :=
    mkRect (lineOf (mkV2 xMin yMin) (mkV2 xMin yMax)) (lineOf (mkV2 xMax yMin) (mkV2 xMax yMax))
           (lineOf (mkV2 xMin yMin) (mkV2 xMax yMin)) (lineOf (mkV2 xMin yMax) (mkV2 xMax yMax)).
  (** Rectangle.hpp:52-55, called by TerraGenerator.hpp:53. *)
  Definition isOnBorder (r : rect T) (p : vec2 T) : bool :=
    onLine (rcLeft r) p || onLine (rcRight r) p || onLine (rcBottom r) p || onLine (rcTop r) p.

  (** TerraGenerator.cpp:72-73: the options without elevation noise. *)
  Definition noNoise (geo : geomOptions T) : geomOptions T :=
    mkGeom (garea geo) (nzero n) (gele geo) (gheight geo) (gflip geo) (gback geo) (gsplit geo).
  (** The loop of TerraGenerator.cpp:75-83 from the point [i] on. *)
  Fixpoint wallLoop (r : rect T) (points : list (vec2 T)) (geo : geomOptions T) (look : lookOptions T) (fuel i : nat) (m : bmesh T)
    : outcome (bmesh T) :=
    match fuel with
    | O => Ok m
    | Datatypes.S fuel =>
        match nth_error points i, nth_error points (if i =? length points - 1 then 0 else Datatypes.S i) with
        | Some p1, Some p2 =>
            if isOnBorder r p1 && isOnBorder r p2 then wallLoop r points geo look fuel (Datatypes.S i) m
            else bind (addPlane2 n env m p1 p2 geo look) (wallLoop r points geo look fuel (Datatypes.S i))
        | _, _ => UB
        end
    end.
  (** TerraGenerator.cpp:70-84, buildHeightOffset on mesh_. *)
  Definition buildHeightOffset (r : rect T) (points : list (vec2 T)) (geo : geomOptions T) (look : lookOptions T) (m : bmesh T)
    : outcome (bmesh T) :=
    wallLoop r points (noNoise geo) look (length points) 0 m.
End Border.

(** 1E-8 (LineLinear.hpp:52) of exact real arithmetic. *)
Definition realTol : R := (/ 10 ^ 8)%R.
