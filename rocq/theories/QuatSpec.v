(** Rotations of space in exact real arithmetic, by the formula of Rodrigues. *)
From Coq Require Import Reals.
From Verif Require Import Base MeshBuildModel QuatModel.
Local Open Scope R_scope.

Definition dot3 (a b : vec3 R) : R := v3x a * v3x b + v3y a * v3y b + v3z a * v3z b.
Definition cross3 (a b : vec3 R) : vec3 R :=
  mkV3 (v3y a * v3z b - v3z a * v3y b) (v3z a * v3x b - v3x a * v3z b) (v3x a * v3y b - v3y a * v3x b).
(** The combination of three vectors. *)
Definition comb3 (p : R) (a : vec3 R) (q : R) (b : vec3 R) (r : R) (c : vec3 R) : vec3 R :=
  mkV3 (p * v3x a + q * v3x b + r * v3x c) (p * v3y a + q * v3y b + r * v3y c)
       (p * v3z a + q * v3z b + r * v3z c).
(** [v] turned by [angle] around the unit vector [u]. *)
Definition turned (angle : R) (u v : vec3 R) : vec3 R :=
  comb3 (cos angle) v (sin angle) (cross3 u v) ((1 - cos angle) * dot3 u v) u.
(** Scalar product in four dimensions. *)
Definition dot4 (p q : quat R) : R := qx p * qx q + qy p * qy q + qz p * qz q + qw p * qw q.
(** Not the zero quaternion. *)
Definition nonzero (p : quat R) : Prop := p <> mkQuat 0 0 0 0.
Definition unitAxis (u : vec3 R) : Prop := dot3 u u = 1.
(** The axes of coordinates. *)
Definition axisX : vec3 R := mkV3 1 0 0.
Definition axisY : vec3 R := mkV3 0 1 0.
Definition axisZ : vec3 R := mkV3 0 0 1.
