(** Attitudes of the turtle, in exact real arithmetic. *)
From Coq Require Import Reals.
From Verif Require Import Base MeshBuildModel QuatModel QuatSpec LsysModel.
Local Open Scope R_scope.

(** Direction and right hand are perpendicular unit vectors. *)
Definition upright (s : tstate R) : Prop :=
  dot3 (tdir s) (tdir s) = 1 /\ dot3 (tright s) (tright s) = 1 /\ dot3 (tdir s) (tright s) = 0.

(** A direction parallel to the right hand: the axis is zero and nothing turns any more. *)
Definition locked (s : tstate R) : Prop := cross3 (tdir s) (tright s) = mkV3 0 0 0.

(** The state after a number of steps straight ahead: [m] times the length along the direction. *)
Definition ahead (m : nat) (s : tstate R) : tstate R :=
  mkState (tlength s) (twidth s) (ttexture s)
    (comb3 1 (tpos s) (INR m * tlength s) (tdir s) 0 (tpos s)) (tdir s) (tright s).
