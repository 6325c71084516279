(** Positions on the map in exact arithmetic. *)
From Coq Require Import Reals ZArith.
From Flocq Require Import Core.Core.
From Verif Require Import Base GeoModel ProjectionModel.
Open Scope R_scope.

(** A closed box of real numbers. *)
Definition inside (b : box R) (p : point R) : Prop :=
  plat (bmin b) <= plat p <= plat (bmax b) /\ plon (bmin b) <= plon p <= plon (bmax b).

(** A box without its southern and eastern borders, which belong to the neighbours. *)
Definition insideHalfOpen (b : box R) (p : point R) : Prop :=
  plat (bmin b) < plat p <= plat (bmax b) /\ plon (bmin b) <= plon p < plon (bmax b).

(** A box without its borders. *)
Definition strictlyInside (b : box R) (p : point R) : Prop :=
  plat (bmin b) < plat p < plat (bmax b) /\ plon (bmin b) < plon p < plon (bmax b).

(** Coordinates the projection does not clamp. *)
Definition withinLimits (p : point R) : Prop :=
  toR minLat <= plat p <= toR maxLat /\ toR minLon <= plon p <= toR maxLon.

(** The finite doubles. *)
Definition double (x : R) : Prop := generic_format radix2 (FLT_exp (-1074) 53) x.

(** On doubles satisfying [P] the library function [f] computes [g] with a relative error of
    at most 2^-50 (a few units in the last place; glibc and the Microsoft runtime promise
    one), or an absolute one of at most 2^-1074. *)
Definition accurate (P : R -> Prop) (f g : R -> R) : Prop :=
  forall x, double x -> P x ->
    Rabs (f x - g x) <= bpow radix2 (-50) * Rabs (g x) + bpow radix2 (-1074).

(** The code as it runs: binary64 rounding to nearest and a decent mathematical library. *)
Definition binary64 (a : arith) : Prop :=
  rnd a = rnd64 /\ fpi a = pi64 /\
  accurate (fun x => Rabs x < PI / 2) (ftan a) tan /\
  accurate (fun x => Rabs x < PI / 2) (fcos a) cos /\
  accurate (fun x => 0 < x) (flog a) ln.
