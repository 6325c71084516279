(** Area of rings of doubles, in exact arithmetic, and how far the rounded sum may be from it. *)
From Coq Require Import Reals ZArith.
From Flocq Require Import Core.Core IEEE754.Binary IEEE754.Bits.
From Verif Require Import Base GeoModel.
Local Open Scope R_scope.

(** The number which a double is. *)
Definition valueOf (x : binary64) : R := B2R 53 1024 x.
Definition placeOf (p : point binary64) : point R := mkPoint (valueOf (plat p)) (valueOf (plon p)).
(** Places on the map. *)
Definition onMap (p : point binary64) : Prop :=
  is_finite 53 1024 (plat p) = true /\ is_finite 53 1024 (plon p) = true /\
  Rabs (valueOf (plat p)) <= 90 /\ Rabs (valueOf (plon p)) <= 180.

(** Twice the signed area of a polygon: triangles with the first corner; positive if counter-clockwise with longitude to the
    right and latitude up. *)
Definition corner (o a b : point R) : R :=
  (plon a - plon o) * (plat b - plat o) - (plon b - plon o) * (plat a - plat o).
Fixpoint fanOf (o a : point R) (l : list (point R)) : R :=
  match l with [] => 0 | b :: l' => corner o a b + fanOf o b l' end.
Definition areaOf (l : list (point R)) : R :=
  match l with o :: a :: l' => fanOf o a l' | _ => 0 end.

(** The sides of a ring, with the last to the first. *)
Fixpoint sidesFrom {A} (p : A) (l : list A) : list (A * A) := match l with [] => [] | q :: l' => (p, q) :: sidesFrom q l' end.
Definition ringOf {A} (l : list A) : list (A * A) := match l with [] => [] | c :: _ => sidesFrom (last l c) l end.
(** The areas of the parallelograms which the sides span with the place (0, 0), all counted positive. *)
Definition sumOf (l : list R) : R := fold_right Rplus 0 l.
Definition swing (l : list (point R)) : R :=
  sumOf (map (fun '(p, q) => Rabs (plon p * plat q - plon q * plat p)) (ringOf l)).
(** How far the computed area may be off. *)
Definition tolerance (l : list (point R)) : R :=
  IZR (Z.of_nat (length l)) * (3 / 2 ^ 40 + swing l / 2 ^ 51).
(** Both coordinates of neighbours differ by no more than [d] degrees. *)
Definition shortSides (d : R) (l : list (point R)) : Prop :=
  List.Forall (fun '(p, q) => Rabs (plat q - plat p) <= d /\ Rabs (plon q - plon p) <= d) (ringOf l).

(** The double nearest to a number of ten-millionths of a degree, as OSM keeps coordinates. *)
Definition nearestTo (k : Z) (x : binary64) : Prop :=
  is_finite 53 1024 x = true /\ valueOf x = round radix2 (FLT_exp (-1074) 53) ZnearestE (IZR k / 10000000).
Definition nearestPlace (lat lon : Z) (p : point binary64) : Prop := nearestTo lat (plat p) /\ nearestTo lon (plon p).
