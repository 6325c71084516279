(** Models of the functions of core/src/utils/GeoUtils.hpp which convert between degrees and metres, and of
    core/src/utils/MathUtils.hpp, over any operations on double. *)
From Coq Require Import Reals.
From Verif Require Import Base GeoModel RingModel QuatModel.

(** Constants: pi (MathUtils.hpp:10-14), 180 (MathUtils.hpp:26, 31), 360 (GeoUtils.hpp:36-37), 2 (GeoUtils.hpp:124-127), the
    circumferences LatitudeEquator and CircleDistance (GeoUtils.hpp:17-19) and the semi-axes (GeoUtils.hpp:165-166). *)
Record metres (T : Type) := mkMetres { mpi : T; m180 : T; m360 : T; m2 : T; mequator : T; mcircle : T; mmajor : T; mminor : T }.
Arguments mkMetres {T}. Arguments mpi {T}. Arguments m180 {T}. Arguments m360 {T}. Arguments m2 {T}.
Arguments mequator {T}. Arguments mcircle {T}. Arguments mmajor {T}. Arguments mminor {T}.

Section Metres.
  Context {T : Type} (n : nums T) (k : trig T) (c : metres T).
  Local Notation "a + b" := (nadd n a b).
  Local Notation "a - b" := (nsub n a b).
  Local Notation "a * b" := (nmul n a b).
  Local Notation "a / b" := (ndiv n a b).

  (** MathUtils.hpp:25-27. *)
  Definition deg2Rad (degrees : T) : T := mpi c * degrees / m180 c.
  (** MathUtils.hpp:30-32. *)
  Definition rad2Deg (radians : T) : T := m180 c * radians / mpi c.

  (** GeoUtils.hpp:163-174. *)
  Definition earthRadius (lat : T) : T :=
    let an := mmajor c * mmajor c * kcos k lat in
    let bn := mminor c * mminor c * ksin k lat in
    let ad := mmajor c * kcos k lat in
    let bd := mminor c * ksin k lat in
    ksqrt k ((an * an + bn * bn) / (ad * ad + bd * bd)).

  (** GeoUtils.hpp:104-109. *)
  Definition getOffset (p : point T) (offsetInMeters : T) : T :=
    rad2Deg (offsetInMeters / earthRadius (deg2Rad (plat p))).
  (** BoundingBox.hpp:85-89. *)
  Definition boxCenter (lo hi : point T) : point T :=
    mkPoint (plat lo + (plat hi - plat lo) / m2 c) (plon lo + (plon hi - plon lo) / m2 c).
  (** GeoUtils.hpp:112-114 with BoundingBox.hpp:92-94; the box is given by its two corners. *)
  Definition getScaled (lo hi : point T) (scale value : T) : T :=
    getOffset (boxCenter lo hi) value * scale / (plon hi - plon lo).

  (** GeoUtils.hpp:124-125. *)
  Definition haversine (p1 p2 : point T) : T :=
    let dLat := deg2Rad (plat p1 - plat p2) in
    let dLon := deg2Rad (plon p1 - plon p2) in
    ksin k (dLat / m2 c) * ksin k (dLat / m2 c) +
    ksin k (dLon / m2 c) * ksin k (dLon / m2 c) * kcos k (deg2Rad (plat p1)) * kcos k (deg2Rad (plat p2)).
  (** GeoUtils.hpp:117-132, distance. *)
  Definition distance (p1 p2 : point T) : T :=
    let dLat := deg2Rad (plat p1 - plat p2) in
    let a := haversine p1 p2 in
    let angle := m2 c * katan2 k (ksqrt k a) (ksqrt k (kone k - a)) in
    earthRadius dLat * angle.

  (** GeoUtils.hpp:33-40. *)
  Definition worldToGeo (zero : point T) (x y : T) : point T :=
    let latitudeCircumference := mequator c * kcos k (deg2Rad (plat zero)) in
    mkPoint (plat zero + y * m360 c / mcircle c) (plon zero + x * m360 c / latitudeCircumference).
End Metres.

(** The constants as exact numbers (GeoUtils.hpp:17-19, 165-166). *)
Definition realMetres : metres R :=
  mkMetres PI 180%R 360%R 2%R 40075160%R 40008000%R 6378137%R (63567523 / 10)%R.
