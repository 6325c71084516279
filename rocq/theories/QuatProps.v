(** C38, C50: rotations and interpolation of quaternions in exact real arithmetic. *)
From Coq Require Import Reals Lra Lia.
From Verif Require Import Base RingModel MeshBuildModel QuatModel QuatSpec QuatProofs.
Local Open Scope R_scope.

(** C38: rotating by a quaternion other than zero preserves lengths and angles. *)
Theorem C38_length : forall p u v, nonzero p ->
  dot3 (qapply realNums realTrig p v) (qapply realNums realTrig p v) = dot3 v v /\
  dot3 (qapply realNums realTrig p u) (qapply realNums realTrig p v) = dot3 u v.
Proof. intros p u v H. apply norm_zero in H. split; now apply apply_dot. Qed.

(** Rotating by one quaternion and then by another is rotating by their product; the inverse undoes a
    rotation. *)
Theorem C38_product : forall p q v, nonzero p -> nonzero q ->
  qapply realNums realTrig (qmul realNums p q) v = qapply realNums realTrig p (qapply realNums realTrig q v) /\
  qapply realNums realTrig (qinverse realNums realTrig p) (qapply realNums realTrig p v) = v.
Proof.
  intros p q v Hp Hq. apply norm_zero in Hp, Hq. split; [now apply apply_mul|now apply apply_inverse].
Qed.

(** The quaternion made of an angle and a unit axis turns by that angle around that axis. *)
Theorem C38_axis : forall angle u v, unitAxis u ->
  qapply realNums realTrig (fromAngleAxis realNums realTrig angle u) v = turned angle u v.
Proof. exact axis_turned. Qed.

(** Euler angles: y turns around the x axis, then z around the y axis, then x around the z axis. *)
Theorem C38_euler : forall a v,
  qapply realNums realTrig (fromEulerAngles realNums realTrig a) v =
  turned (v3x a) axisZ (turned (v3z a) axisY (turned (v3y a) axisX v)).
Proof.
  assert (U : unitAxis axisX /\ unitAxis axisY /\ unitAxis axisZ).
  { unfold unitAxis, dot3, axisX, axisY, axisZ; cbn; repeat split; ring. }
  destruct U as (U1 & U2 & U3). intros a v.
  rewrite euler_product, apply_mul, apply_mul, !axis_turned; auto.
  all: rewrite ?norm_mul, !axis_norm by assumption; lra.
Qed.

Example C38_case :
  nonzero (mkQuat 1 2 3 4) /\ unitAxis (mkV3 (3 / 5) 0 (4 / 5)) /\
  qapply realNums realTrig (mkQuat 0 0 1 1) (mkV3 2 0 5) = mkV3 0 2 5.
Proof.
  split; [intros H; injection H; lra|]. split; [unfold unitAxis, dot3; cbn; lra|].
  apply vec3_eq; unfold qapply, qnorm; cbn; field.
Qed.

(** The method which should multiply in place computes something else. *)
Theorem C38_rotate_refuted : exists p q v,
  nonzero p /\ nonzero q /\
  qrotate realNums p q <> qmul realNums p q /\
  qapply realNums realTrig (qrotate realNums p q) v <>
  qapply realNums realTrig p (qapply realNums realTrig q v).
Proof.
  exists (mkQuat 0 0 0 1), (mkQuat 1 1 0 0), (mkV3 1 0 0).
  split; [intros H; injection H; lra|]. split; [intros H; injection H; lra|].
  unfold qrotate, qmul, qapply, qnorm, vscale; cbn. split.
  - intros H. injection H. intros. lra.
  - intros H. injection H. intros. lra.
Qed.

(** C50: interpolating between unit quaternions at most a right angle apart (in four dimensions) gives
    unit quaternions which move along the arc with constant speed, from the first to the second. *)
Theorem C50_arc : forall p q t,
  dot4 p p = 1 -> dot4 q q = 1 -> 0 <= dot4 p q <= 9999 / 10000 ->
  exists omega, cos omega = dot4 p q /\ 0 < sin omega /\
    dot4 (slerp realNums realTrig p q t) (slerp realNums realTrig p q t) = 1 /\
    dot4 p (slerp realNums realTrig p q t) = cos (t * omega) /\
    dot4 (slerp realNums realTrig p q t) q = cos ((1 - t) * omega).
Proof.
  intros p q t Hp Hq H. destruct (slerp_forward p q t H) as (o & O1 & O2 & _ & E).
  exists o. split; [exact O2|]. split; [exact O1|]. rewrite E.
  assert (C : dot4 (qmix realNums p q (sin ((1 - t) * o) / sin o) (sin (t * o) / sin o)) q =
              dot4 q (qmix realNums p q (sin ((1 - t) * o) / sin o) (sin (t * o) / sin o)))
    by (unfold dot4; ring).
  assert (C2 : dot4 q p = dot4 p q) by (unfold dot4; ring).
  rewrite C, mix_norm, !mix_dot, C2, Hp, Hq, <- O2.
  assert (SO : sin o = sin ((1 - t) * o + t * o)) by (f_equal; ring).
  assert (CO : cos o = cos ((1 - t) * o + t * o)) by (f_equal; ring).
  assert (NZ : sin o <> 0) by lra.
  split; [|split].
  - pose proof (sin_sum_square ((1 - t) * o) (t * o)) as S. rewrite <- SO, <- CO in S.
    transitivity ((sin ((1 - t) * o) * sin ((1 - t) * o) + sin (t * o) * sin (t * o)
      + 2 * (sin ((1 - t) * o) * sin (t * o)) * cos o) / (sin o * sin o)); [field; exact NZ|].
    rewrite S. field. exact NZ.
  - transitivity ((sin ((1 - t) * o) + sin (t * o) * cos o) / sin o); [field; exact NZ|].
    replace (sin ((1 - t) * o)) with (sin (o - t * o)) by (f_equal; ring).
    rewrite sin_minus. field. exact NZ.
  - transitivity ((sin ((1 - t) * o) * cos o + sin (t * o)) / sin o); [field; exact NZ|].
    replace (sin (t * o)) with (sin (o - (1 - t) * o)) by (f_equal; ring).
    rewrite sin_minus. field. exact NZ.
Qed.

(** The ends are met exactly. *)
Theorem C50_ends : forall p q, 0 <= dot4 p q <= 9999 / 10000 ->
  slerp realNums realTrig p q 0 = p /\ slerp realNums realTrig p q 1 = q.
Proof.
  intros p q H. split.
  - destruct (slerp_forward p q 0 H) as (o & O1 & _ & _ & ->).
    replace ((1 - 0) * o) with o by ring. rewrite Rmult_0_l, sin_0.
    apply quat_eq; cbn; field; lra.
  - destruct (slerp_forward p q 1 H) as (o & O1 & _ & _ & ->).
    replace ((1 - 1) * o) with 0 by ring. rewrite Rmult_1_l, sin_0.
    apply quat_eq; cbn; field; lra.
Qed.

(** The call of RoundRoofBuilder.hpp:104-109: between no turn and a half turn, interpolation at [t]
    turns by that part of the half turn, so the points of a round roof lie on a half circle. *)
Theorem C50_roof : forall u v t, unitAxis u ->
  qapply realNums realTrig
    (slerp realNums realTrig (fromAngleAxis realNums realTrig 0 u) (fromAngleAxis realNums realTrig (- PI) u) t) v
  = turned (- (t * PI)) u v.
Proof.
  intros u v t U. rewrite <- axis_turned by assumption. f_equal.
  set (p := fromAngleAxis realNums realTrig 0 u). set (q := fromAngleAxis realNums realTrig (- PI) u).
  assert (P : p = mkQuat 0 0 0 1).
  { apply quat_eq; cbn; rewrite ?Rmult_0_l, ?sin_0, ?cos_0; ring. }
  assert (S2 : sin (- PI * / 2) = -1).
  { replace (- PI * / 2) with (- (PI / 2)) by field. rewrite sin_neg, sin_PI2. reflexivity. }
  assert (C2 : cos (- PI * / 2) = 0).
  { replace (- PI * / 2) with (- (PI / 2)) by field. rewrite cos_neg, cos_PI2. reflexivity. }
  assert (Q : q = mkQuat (- v3x u) (- v3y u) (- v3z u) 0).
  { apply quat_eq; cbn; rewrite ?S2, ?C2; ring. }
  assert (D : dot4 p q = 0) by (rewrite P, Q; unfold dot4; cbn; ring).
  unfold slerp. cbn [nadd nmul nlt nzero nsub ndiv realNums kclose kone ksin ksqrt katan2 realTrig].
  rewrite dot4_slerp, D. destruct (Rlt_dec 0 0); [lra|]. destruct (Rlt_dec (9999 / 10000) 0); [lra|].
  replace (1 - 0 * 0) with 1 by ring. rewrite sqrt_1, P, Q.
  destruct (Rlt_dec 0 0); [lra|].
  replace ((1 - t) * (PI / 2)) with (PI / 2 - t * PI / 2) by field. rewrite sin_shift.
  replace (t * (PI / 2)) with (t * PI / 2) by field.
  assert (A : - (t * PI) * / 2 = - (t * PI / 2)) by field.
  apply quat_eq; cbn; rewrite A, ?sin_neg, ?cos_neg; field.
Qed.

Example C50_case : exists p q, dot4 p p = 1 /\ dot4 q q = 1 /\ dot4 p q = 3 / 5.
Proof. exists (mkQuat 0 0 0 1), (mkQuat 0 (4 / 5) 0 (3 / 5)). unfold dot4; cbn. repeat split; lra. Qed.

(** More than a right angle apart both factors are negated, not one: halfway the result is never of unit
    length, although the shorter arc was asked for. *)
Theorem C50_far_refuted : forall p q,
  dot4 p p = 1 -> dot4 q q = 1 -> - (9999 / 10000) <= dot4 p q < 0 ->
  dot4 (slerp realNums realTrig p q (1 / 2)) (slerp realNums realTrig p q (1 / 2))
    = (1 + dot4 p q) / (1 - dot4 p q) /\
  dot4 (slerp realNums realTrig p q (1 / 2)) (slerp realNums realTrig p q (1 / 2)) < 1.
Proof.
  intros p q Hp Hq H. destruct (slerp_backward p q (1 / 2) H) as (o & O1 & O2 & ->).
  rewrite mix_norm, Hp, Hq. replace ((1 - 1 / 2) * o) with (1 / 2 * o) by field.
  assert (CO : cos o = 1 - 2 * (sin (1 / 2 * o) * sin (1 / 2 * o))).
  { replace (cos o) with (cos (2 * (1 / 2 * o))) by (f_equal; field). rewrite cos_2a_sin. ring. }
  pose proof (sin_cos o) as S. set (s := sin (1 / 2 * o)) in *. set (d := dot4 p q) in *.
  assert (SS : s * s = (1 + d) / 2) by lra.
  assert (O3 : sin o * sin o = (1 - d) * (1 + d)) by (rewrite O2 in S; lra).
  assert (V : - (s / sin o) * - (s / sin o) * 1 + - (s / sin o) * - (s / sin o) * 1 +
     2 * (- (s / sin o) * - (s / sin o)) * d = (1 + d) / (1 - d)).
  { transitivity (2 * (s * s) * (1 + d) / (sin o * sin o)); [field; lra|]. rewrite SS, O3. field. lra. }
  rewrite V. split; [reflexivity|].
  apply (Rmult_lt_reg_r (1 - d)); [lra|]. unfold Rdiv. rewrite Rmult_assoc, Rinv_l by lra. lra.
Qed.
Example C50_far_case : exists p q, dot4 p p = 1 /\ dot4 q q = 1 /\ dot4 p q = - (3 / 5).
Proof. exists (mkQuat 0 0 0 1), (mkQuat 0 (4 / 5) 0 (- (3 / 5))). unfold dot4; cbn. repeat split; lra. Qed.

(** Between a quaternion and its opposite, which are the same rotation, the middle is the zero quaternion. *)
Theorem C50_opposite_refuted : exists p q,
  dot4 p p = 1 /\ dot4 q q = 1 /\ (forall v, qapply realNums realTrig p v = qapply realNums realTrig q v) /\
  ~ nonzero (slerp realNums realTrig p q (1 / 2)).
Proof.
  exists (mkQuat 0 0 0 1), (mkQuat 0 0 0 (-1)). split; [unfold dot4; cbn; ring|].
  split; [unfold dot4; cbn; ring|]. split.
  - intros v. apply vec3_eq; unfold qapply, qnorm; cbn; field.
  - intros H. apply H. unfold slerp. cbn [nadd nmul nlt nzero nsub ndiv realNums kclose kone ksin ksqrt katan2 realTrig].
    rewrite dot4_slerp. unfold dot4. cbn [qx qy qz qw].
    destruct (Rlt_dec (0 * 0 + 0 * 0 + 0 * 0 + 1 * -1) 0); [|lra].
    destruct (Rlt_dec (9999 / 10000) (0 - (0 * 0 + 0 * 0 + 0 * 0 + 1 * -1))); [|lra].
    apply quat_eq; cbn; field.
Qed.

Print Assumptions C38_length.
Print Assumptions C38_product.
Print Assumptions C38_axis.
Print Assumptions C38_euler.
Print Assumptions C38_rotate_refuted.
Print Assumptions C50_arc.
Print Assumptions C50_ends.
Print Assumptions C50_roof.
Print Assumptions C50_far_refuted.
Print Assumptions C50_opposite_refuted.
