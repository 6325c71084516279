(** Places on a sphere, without the formulas of the code. *)
From Coq Require Import Reals.
From Verif Require Import GeoModel MeshBuildModel.
Local Open Scope R_scope.

(** Degrees in radians. *)
Definition rad (d : R) : R := d * (PI / 180).
(** The direction from the centre of the earth to a place. *)
Definition unitOf (p : point R) : vec3 R :=
  mkV3 (cos (rad (plat p)) * cos (rad (plon p))) (cos (rad (plat p)) * sin (rad (plon p))) (sin (rad (plat p))).
Definition dot (u v : vec3 R) : R := v3x u * v3x v + v3y u * v3y v + v3z u * v3z v.
(** The angle at the centre of the earth between two places. *)
Definition angleIs (p q : point R) (t : R) : Prop := 0 <= t <= PI /\ cos t = dot (unitOf p) (unitOf q).
(** Between the poles. *)
Definition onEarth (p : point R) : Prop := -90 <= plat p <= 90.
Definition north (p : point R) (d : R) : point R := mkPoint (plat p + d) (plon p).
Definition east (p : point R) (d : R) : point R := mkPoint (plat p) (plon p + d).
(** The smallest and the greatest radius of the earth. *)
Definition polar : R := 63567523 / 10.
Definition equatorial : R := 6378137.
(** The point of a section of the earth, an ellipse through the poles, where the ground is inclined as at the latitude
    [lat] (in radians). *)
Definition groundPoint (lat x y : R) : Prop :=
  let u := x / (equatorial * equatorial) in let v := y / (polar * polar) in
  x * u + y * v = 1 /\ u * sin lat = v * cos lat /\ 0 < u * cos lat + v * sin lat.
