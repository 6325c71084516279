(** Models of core/src/math/Vector3.hpp and core/src/math/Quaternion.hpp over the operations of
    [nums T]; sine, cosine, square root and arc tangent are parameters. *)
From Coq Require Import Reals.
From Verif Require Import Base RingModel MeshBuildModel.
Local Open Scope nat_scope.

(** Constants and functions used beside [nums]: 1, 0.5, 0.9999 (Quaternion.hpp:52,72,105) and
    the calls of the C library (lines 73, 111-118). *)
Record trig (T : Type) := mkTrig {
  kone : T; khalf : T; kclose : T; ksin : T -> T; kcos : T -> T; ksqrt : T -> T; katan2 : T -> T -> T }.
Arguments mkTrig {T}. Arguments kone {T}. Arguments khalf {T}. Arguments kclose {T}.
Arguments ksin {T}. Arguments kcos {T}. Arguments ksqrt {T}. Arguments katan2 {T}.

(** Quaternion.hpp:13. *)
Record quat (T : Type) := mkQuat { qx : T; qy : T; qz : T; qw : T }.
Arguments mkQuat {T}. Arguments qx {T}. Arguments qy {T}. Arguments qz {T}. Arguments qw {T}.

Section Quat.
  Context {T : Type} (n : nums T) (k : trig T).
  Local Notation "a + b" := (nadd n a b).
  Local Notation "a - b" := (nsub n a b).
  Local Notation "a * b" := (nmul n a b).
  Local Notation "a / b" := (ndiv n a b).
  (** Unary minus. *)
  Local Notation "- a" := (nsub n (nzero n) a).

  (** Vector3.hpp:32-34. *)
  Definition vadd (a b : vec3 T) : vec3 T := mkV3 (v3x a + v3x b) (v3y a + v3y b) (v3z a + v3z b).
  (** Vector3.hpp:24-26. *)
  Definition vscale (v : vec3 T) (s : T) : vec3 T := mkV3 (v3x v * s) (v3y v * s) (v3z v * s).
  (** Vector3.hpp:80-82. *)
  Definition vdot (a b : vec3 T) : T := v3x a * v3x b + v3y a * v3y b + v3z a * v3z b.
  (** Vector3.hpp:84-88. *)
  Definition vcross (a b : vec3 T) : vec3 T :=
    mkV3 (v3y a * v3z b - v3z a * v3y b) (v3z a * v3x b - v3x a * v3z b)
         (v3x a * v3y b - v3y a * v3x b).

  (** Quaternion.hpp:55-57. *)
  Definition qnorm (p : quat T) : T := qx p * qx p + qy p * qy p + qz p * qz p + qw p * qw p.

  (** Quaternion.hpp:35-40. *)
  Definition qmul (p q : quat T) : quat T :=
    mkQuat (qw p * qx q + qx p * qw q + qy p * qz q - qz p * qy q)
           (qw p * qy q + qy p * qw q + qz p * qx q - qx p * qz q)
           (qw p * qz q + qz p * qw q + qx p * qy q - qy p * qx q)
           (qw p * qw q - qx p * qx q - qy p * qy q - qz p * qz q).

  (** Quaternion.hpp:26-31: the components are replaced one after the other. *)
  Definition qrotate (p q : quat T) : quat T :=
    let x := qw p * qx q + qx p * qw q + qy p * qz q - qz p * qy q in
    let y := qw p * qy q + qy p * qw q + qz p * qx q - x * qz q in
    let z := qw p * qz q + qz p * qw q + x * qy q - y * qx q in
    let w := qw p * qw q - x * qx q - y * qy q - z * qz q in
    mkQuat x y z w.

  (** Quaternion.hpp:44-53. *)
  Definition qapply (p : quat T) (v : vec3 T) : vec3 T :=
    let a := v3x v * qw p + v3z v * qy p - v3y v * qz p in
    let b := v3y v * qw p + v3x v * qz p - v3z v * qx p in
    let c := v3z v * qw p + v3y v * qx p - v3x v * qy p in
    let d := v3x v * qx p + v3y v * qy p + v3z v * qz p in
    vscale (mkV3 (qw p * a + qx p * d + qy p * c - qz p * b)
                 (qw p * b + qy p * d + qz p * a - qx p * c)
                 (qw p * c + qz p * d + qx p * b - qy p * a))
           (kone k / qnorm p).

  (** Quaternion.hpp:60-63. *)
  Definition qinverse (p : quat T) : quat T :=
    let i := kone k / qnorm p in mkQuat (- qx p * i) (- qy p * i) (- qz p * i) (qw p * i).

  (** Quaternion.hpp:71-74. *)
  Definition fromAngleAxis (angle : T) (v : vec3 T) : quat T :=
    let h := angle * khalf k in
    let u := vscale v (ksin k h) in mkQuat (v3x u) (v3y u) (v3z u) (kcos k h).

  (** Quaternion.hpp:77-89. *)
  Definition fromEulerAngles (v : vec3 T) : quat T :=
    let h := khalf k in
    let t0 := kcos k (v3x v * h) in let t1 := ksin k (v3x v * h) in
    let t2 := kcos k (v3y v * h) in let t3 := ksin k (v3y v * h) in
    let t4 := kcos k (v3z v * h) in let t5 := ksin k (v3z v * h) in
    mkQuat (t0 * t3 * t4 - t1 * t2 * t5) (t0 * t2 * t5 + t1 * t3 * t4)
           (t1 * t2 * t4 - t0 * t3 * t5) (t0 * t2 * t4 + t1 * t3 * t5).

  (** Quaternion.hpp:121-124. *)
  Definition qmix (p q : quat T) (a b : T) : quat T :=
    mkQuat (qx p * a + qx q * b) (qy p * a + qy q * b) (qz p * a + qz q * b) (qw p * a + qw q * b).

  (** Quaternion.hpp:92-125. *)
  Definition slerp (p q : quat T) (t : T) : quat T :=
    let c0 := qw p * qw q + qx p * qx q + qy p * qy q + qz p * qz q in
    let neg := nlt n c0 (nzero n) in
    let c := if neg then - c0 else c0 in
    if nlt n (kclose k) c then qmix p q (kone k - t) t
    else
      let s := ksqrt k (kone k - c * c) in
      let omega := katan2 k s c in
      let i := kone k / s in
      let sign := if neg then - kone k else kone k in
      qmix p q (ksin k ((kone k - t) * omega) * i * sign) (ksin k (t * omega) * i * sign).
End Quat.

(** Exact real arithmetic, for the properties of the formulas themselves (the operations of Quaternion.hpp:20-130). *)
Definition realNums : nums R :=
  mkNums 0%R Rplus Rminus Rmult Rdiv Rabs (fun x y => if Rlt_dec x y then true else false).
(** Exact functions; atan2 for a non-negative first argument, as at Quaternion.hpp:113. *)
Definition realTrig : trig R :=
  mkTrig 1%R (/ 2)%R (9999 / 10000)%R sin cos sqrt
    (fun s c => if Rlt_dec 0 c then atan (s / c) else if Rlt_dec c 0 then (atan (s / c) + PI)%R else (PI / 2)%R).
