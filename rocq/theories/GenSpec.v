(** Surfaces made of triangles, without the model of the code. *)
From Coq Require Import Reals Permutation.
From Verif Require Import Base MeshBuildModel.
Local Open Scope R_scope.

(** The directed sides of a triangle. *)
Definition sides {P} (t : P * P * P) : list (P * P) := let '(a, b, c) := t in [(a, b); (b, c); (c, a)].
Definition allSides {P} (ts : list (P * P * P)) : list (P * P) := flat_map sides ts.
Definition flipped {P} (s : P * P) : P * P := (snd s, fst s).
(** No holes: every side is met by sides in the other direction, as many of them as there are of it. *)
Definition watertight {P} (ts : list (P * P * P)) : Prop := Permutation (allSides ts) (map flipped (allSides ts)).
(** Every side is met by exactly one other triangle: no directed side comes twice. *)
Definition manifold {P} (ts : list (P * P * P)) : Prop := watertight ts /\ NoDup (allSides ts).

Definition vsub (a b : vec3 R) : vec3 R := mkV3 (v3x a - v3x b) (v3y a - v3y b) (v3z a - v3z b).
Definition det3 (a b c : vec3 R) : R :=
  v3x a * (v3y b * v3z c - v3z b * v3y c) - v3y a * (v3x b * v3z c - v3z b * v3x c) + v3z a * (v3x b * v3y c - v3y b * v3x c).
(** Seen from outside of a body with [m] inside, the corners go round counter-clockwise. *)
Definition outward (m : vec3 R) (t : vec3 R * vec3 R * vec3 R) : Prop :=
  let '(a, b, c) := t in 0 < det3 (vsub a m) (vsub b m) (vsub c m).
Definition cornersOf {P} (t : P * P * P) : list P := let '(a, b, c) := t in [a; b; c].
(** On the ellipsoid around [c] with half axes [s]. *)
Definition onEllipsoid (c s v : vec3 R) : Prop :=
  ((v3x v - v3x c) / v3x s) ^ 2 + ((v3y v - v3y c) / v3y s) ^ 2 + ((v3z v - v3z c) / v3z s) ^ 2 = 1.
Definition positive (s : vec3 R) : Prop := 0 < v3x s /\ 0 < v3y s /\ 0 < v3z s.
(** On the wall of an upright body which stands on [c], has half axes [s1] below and [s2] above and the height of [s1]. *)
Definition wallPoint (c s1 s2 : vec3 R) (f angle : R) : vec3 R :=
  mkV3 (v3x c + ((1 - f) * v3x s1 + f * v3x s2) * cos angle) (v3y c + f * v3y s1) (v3z c - ((1 - f) * v3z s1 + f * v3z s2) * sin angle).
Definition onWall (c s1 s2 p : vec3 R) : Prop := exists f angle, 0 <= f <= 1 /\ p = wallPoint c s1 s2 f angle.
Definition above (c : vec3 R) (d : R) : vec3 R := mkV3 (v3x c) (v3y c + d) (v3z c).
