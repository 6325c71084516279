(** The projection of core/src/utils/GeoUtils.hpp.  Every floating point operation of the
    source appears as the exact operation followed by [rnd]; the functions of the C library
    are parameters.  The instance with no rounding and the exact functions is the code in
    exact arithmetic, the one with binary64 rounding is the code as it runs. *)
From Coq Require Import Reals ZArith.
From Flocq Require Import Core.Core.
From Verif Require Import Base GeoModel.
Open Scope R_scope.

(** Rounding, the library functions and the constant of MathUtils.hpp:10-14. *)
Record arith := mkArith {
  rnd : R -> R;
  ftan : R -> R;
  fcos : R -> R;
  flog : R -> R;
  fexp : R -> R;
  fatan : R -> R;
  fpi : R
}.

(** pow(2.0, levelOfDetail), exact for every level an int tile coordinate can have
    (GeoUtils.hpp:145, 150, 154, 158). *)
Definition pow2 (l : Z) : R := bpow radix2 l.

(** [<] and [<=] on numbers (BoundingBox.hpp) when no NaN can occur (lines 38-79). *)
Definition rord : ord R := mkOrd Rlt_bool Rle_bool.

Section Projection.
  Variable a : arith.

  (** GeoUtils.hpp:144-146. *)
  Definition lonToTileX (lon : R) (l : Z) : Z :=
    Zfloor (rnd a (rnd a (rnd a (lon + 180) / 360) * pow2 l)).

  (** GeoUtils.hpp:148-151: lat*pi/180.0 in radians. *)
  Definition radians (lat : R) : R := rnd a (rnd a (lat * fpi a) / 180).
  (** GeoUtils.hpp:148-151. *)
  Definition latToTileY (lat : R) (l : Z) : Z :=
    Zfloor
      (rnd a (rnd a (rnd a (1 - rnd a (flog a (rnd a (ftan a (radians lat) + rnd a (1 / fcos a (radians lat)))) / fpi a))
              / 2) * pow2 l)).

  (** GeoUtils.hpp:153-155. *)
  Definition tileXToLon (x : Z) (l : Z) : R :=
    rnd a (rnd a (rnd a (IZR x / pow2 l) * 360) - 180).

  (** GeoUtils.hpp:157-160. *)
  Definition tileYToLat (y : Z) (l : Z) : R :=
    let n := rnd a (fpi a - rnd a (rnd a (rnd a (2 * fpi a) * IZR y) / pow2 l)) in
    rnd a (rnd a (180 / fpi a) * fatan a (rnd a (1 / 2 * rnd a (fexp a n - fexp a (- n))))).

  (** GeoUtils.hpp:43-52. *)
  Definition tileBoxOf (k : quadKey) : box R :=
    mkBox (mkPoint (tileYToLat (tileY k + 1) (lod k)) (tileXToLon (tileX k) (lod k)))
          (mkPoint (tileYToLat (tileY k) (lod k)) (tileXToLon (tileX k + 1) (lod k))).

  (** GeoUtils.hpp:26-30 after the clamping; [maxLon] and [maxLat] are the values of the
      literals 179.9999999 and 85.05112877. *)
  Definition tileOfClamped (p : point R) (l : Z) : quadKey :=
    mkKey l (lonToTileX (plon p) l) (latToTileY (plat p) l).
End Projection.

(** The doubles nearest to the literals 179.9999999 and 85.05112877 of GeoUtils.hpp:28-29. *)
Definition maxLon : dbl := dlit 6333186972471323 (-45).
(** GeoUtils.hpp:28-29. *)
Definition maxLat : dbl := dlit 5984941122437689 (-46).
(** GeoUtils.hpp:28-29. *)
Definition minLon : dbl := dlit (-6333186972471323) (-45).
(** GeoUtils.hpp:28-29. *)
Definition minLat : dbl := dlit (-5984941122437689) (-46).

(** The real number a finite double stands for (GeoCoordinate.hpp:10-14). *)
Definition toR (d : dbl) : R :=
  match d with Fin m => IZR m * bpow radix2 (-1074) | _ => 0 end.

(** GeoUtils.hpp:26-30 on doubles: what is clamped may be infinite or NaN. *)
Definition tileOfDouble (a : arith) (p : point dbl) (l : Z) : quadKey :=
  mkKey l (lonToTileX a (toR (clamp dord (plon p) minLon maxLon)) l)
          (latToTileY a (toR (clamp dord (plat p) minLat maxLat)) l).

(** GeoUtils.hpp:26-30 on exact numbers, where no NaN exists. *)
Definition tileOfReal (a : arith) (p : point R) (l : Z) : quadKey :=
  tileOfClamped a (mkPoint (clamp rord (plat p) (toR minLat) (toR maxLat))
                           (clamp rord (plon p) (toR minLon) (toR maxLon))) l.

(** The code without rounding errors (GeoUtils.hpp:144-160). *)
Definition exact : arith := mkArith (fun x => x) tan cos ln exp atan PI.

(** Round to nearest, ties to even, in binary64 (no overflow occurs in GeoUtils.hpp:144-160
    on clamped arguments). *)
Definition rnd64 : R -> R := round radix2 (FLT_exp (-1074) 53) ZnearestE.
(** The double nearest to pi, MathUtils.hpp:10-14. *)
Definition pi64 : R := F2R (Float radix2 7074237752028440 (-51)).

(** BoundingBox.hpp:85-89. *)
Definition center (a : arith) (b : box R) : point R :=
  mkPoint (rnd a (plat (bmin b) + rnd a (rnd a (plat (bmax b) - plat (bmin b)) / 2)))
          (rnd a (plon (bmin b) + rnd a (rnd a (plon (bmax b) - plon (bmin b)) / 2))).

(** GeoCoordinate.hpp:26-29; std::numeric_limits<double>::epsilon() is 2^-52. *)
Definition samePoint (a : arith) (p q : point R) : bool :=
  Rlt_bool (Rabs (rnd a (plat p - plat q))) (bpow radix2 (-52)) &&
  Rlt_bool (Rabs (rnd a (plon p - plon q))) (bpow radix2 (-52)).
