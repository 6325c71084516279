From Coq Require Import Reals Lra Lia Psatz.
From Verif Require Import Base RingModel MeshBuildModel QuatModel QuatSpec.
Local Open Scope R_scope.

Notation rnorm := (qnorm realNums).
Notation rmul := (qmul realNums).
Notation rapply := (qapply realNums realTrig).

Lemma norm_dot4 p : rnorm p = dot4 p p.
Proof. reflexivity. Qed.

Lemma norm_zero p : nonzero p -> rnorm p <> 0.
Proof.
  intros H E. apply H. destruct p as [x y z w]. unfold qnorm in E. cbn in E.
  assert (x = 0) by nra. assert (y = 0) by nra. assert (z = 0) by nra. assert (w = 0) by nra. congruence.
Qed.

Lemma vec3_eq (a b : vec3 R) : v3x a = v3x b -> v3y a = v3y b -> v3z a = v3z b -> a = b.
Proof. destruct a, b. cbn. congruence. Qed.
Lemma quat_eq (a b : quat R) : qx a = qx b -> qy a = qy b -> qz a = qz b -> qw a = qw b -> a = b.
Proof. destruct a, b. cbn. congruence. Qed.

Lemma norm_mul p q : rnorm (rmul p q) = rnorm p * rnorm q.
Proof. unfold qnorm, qmul. cbn. ring. Qed.

Lemma apply_length p v : rnorm p <> 0 -> dot3 (rapply p v) (rapply p v) = dot3 v v.
Proof. unfold dot3, qapply, qnorm. cbn. intros. field. exact H. Qed.

Lemma apply_dot p u v : rnorm p <> 0 -> dot3 (rapply p u) (rapply p v) = dot3 u v.
Proof. unfold dot3, qapply, qnorm. cbn. intros. field. exact H. Qed.

Lemma apply_mul p q v : rnorm p <> 0 -> rnorm q <> 0 -> rapply (rmul p q) v = rapply p (rapply q v).
Proof.
  intros Hp Hq. pose proof (norm_mul p q) as HM.
  assert (Hm : rnorm (rmul p q) <> 0) by (rewrite HM; now apply Rmult_integral_contrapositive).
  unfold qapply. rewrite HM. unfold qnorm, qmul in *. cbn in *.
  apply vec3_eq; cbn; field; split; assumption.
Qed.

Lemma apply_inverse p v : rnorm p <> 0 -> rapply (qinverse realNums realTrig p) (rapply p v) = v.
Proof.
  intros H.
  assert (E : rnorm (qinverse realNums realTrig p) = 1 / rnorm p).
  { unfold qinverse. unfold qnorm in *. cbn in *. field. exact H. }
  unfold qapply. rewrite E. unfold qinverse. unfold qnorm in *. cbn in *.
  apply vec3_eq; cbn; field; exact H.
Qed.

Lemma cos_half a : cos a = cos (a * / 2) * cos (a * / 2) - sin (a * / 2) * sin (a * / 2).
Proof. rewrite <- cos_plus. f_equal. lra. Qed.
Lemma sin_half a : sin a = 2 * sin (a * / 2) * cos (a * / 2).
Proof. rewrite <- sin_2a. f_equal. lra. Qed.
Lemma sin_cos a : sin a * sin a + cos a * cos a = 1.
Proof. exact (sin2_cos2 a). Qed.

Lemma axis_norm a u : unitAxis u -> rnorm (fromAngleAxis realNums realTrig a u) = 1.
Proof.
  unfold unitAxis, dot3. intros H. unfold qnorm, fromAngleAxis. cbn.
  pose proof (sin_cos (a * / 2)) as S.
  set (s := sin _) in *; set (c := cos _) in *.
  transitivity (s * s * (v3x u * v3x u + v3y u * v3y u + v3z u * v3z u) + c * c); [ring|].
  rewrite H. lra.
Qed.

Lemma axis_turned a u v : unitAxis u -> rapply (fromAngleAxis realNums realTrig a u) v = turned a u v.
Proof.
  intros H. pose proof (axis_norm a u H) as N1. unfold qapply. rewrite N1.
  unfold turned, comb3, cross3, dot3. rewrite (cos_half a), (sin_half a).
  unfold unitAxis, dot3 in H. unfold fromAngleAxis. cbn.
  pose proof (sin_cos (a * / 2)) as S.
  set (s := sin _) in *; set (c := cos _) in *.
  destruct u as [ux uy uz], v as [x y z]. cbn in *.
  assert (C : c * c = 1 - s * s) by lra.
  assert (UZ : uz * uz = 1 - ux * ux - uy * uy) by lra.
  apply vec3_eq; cbn.
  - transitivity (c*c*x + 2*s*c*(uy*z-uz*y) + s*s*(2*(ux*x+uy*y+uz*z)*ux - (ux*ux+uy*uy+uz*uz)*x)); [field|].
    rewrite H. transitivity ((c * c - s * s) * x + 2 * s * c * (uy * z - uz * y) + ((s*s + s*s) * (ux * x + uy * y + uz * z)) * ux); [ring|].
    replace (s*s+s*s) with (1 - (c*c - s*s)) by lra. ring.
  - transitivity (c*c*y + 2*s*c*(uz*x-ux*z) + s*s*(2*(ux*x+uy*y+uz*z)*uy - (ux*ux+uy*uy+uz*uz)*y)); [field|].
    rewrite H. transitivity ((c * c - s * s) * y + 2 * s * c * (uz * x - ux * z) + ((s*s + s*s) * (ux * x + uy * y + uz * z)) * uy); [ring|].
    replace (s*s+s*s) with (1 - (c*c - s*s)) by lra. ring.
  - transitivity (c*c*z + 2*s*c*(ux*y-uy*x) + s*s*(2*(ux*x+uy*y+uz*z)*uz - (ux*ux+uy*uy+uz*uz)*z)); [field|].
    rewrite H. transitivity ((c * c - s * s) * z + 2 * s * c * (ux * y - uy * x) + ((s*s + s*s) * (ux * x + uy * y + uz * z)) * uz); [ring|].
    replace (s*s+s*s) with (1 - (c*c - s*s)) by lra. ring.
Qed.

Lemma euler_product v :
  fromEulerAngles realNums realTrig v =
  rmul (rmul (fromAngleAxis realNums realTrig (v3x v) axisZ) (fromAngleAxis realNums realTrig (v3z v) axisY))
       (fromAngleAxis realNums realTrig (v3y v) axisX).
Proof. apply quat_eq; cbn; ring. Qed.

(** Spherical interpolation *)
Lemma angle_of s c : 0 <= c -> 0 < s -> s * s + c * c = 1 ->
  let o := katan2 realTrig s c in sin o = s /\ cos o = c.
Proof.
  intros Hc Hs E. cbn. destruct (Rlt_dec 0 c) as [L|L].
  - assert (Q : sqrt (1 + Rsqr (s / c)) = 1 / c).
    { replace (1 + Rsqr (s / c)) with (Rsqr (1 / c)).
      - apply sqrt_Rsqr. apply Rlt_le, Rdiv_lt_0_compat; lra.
      - unfold Rsqr. field_simplify; [|lra|lra]. f_equal. nra. }
    rewrite sin_atan, cos_atan, Q. split; field; lra.
  - assert (c = 0) by lra. subst c. destruct (Rlt_dec 0 0); [lra|].
    rewrite sin_PI2, cos_PI2. split; [nra|reflexivity].
Qed.

Lemma sin_sum_square a b :
  sin a * sin a + sin b * sin b + 2 * (sin a * sin b) * cos (a + b) = sin (a + b) * sin (a + b).
Proof.
  rewrite sin_plus, cos_plus. pose proof (sin_cos a) as A. pose proof (sin_cos b) as B.
  set (x := sin a) in *; set (y := cos a) in *; set (p := sin b) in *; set (q := cos b) in *.
  assert (A' : y * y = 1 - x * x) by lra. assert (B' : q * q = 1 - p * p) by lra.
  transitivity (x*x + p*p - 2*(x*x)*(p*p) + 2*(x*p)*(y*q)); [ring|].
  transitivity (x*x*(q*q) + 2*(x*p)*(y*q) + (y*y)*(p*p)); [rewrite A', B'; ring|ring].
Qed.

Lemma mix_dot p q a b r :
  dot4 r (qmix realNums p q a b) = a * dot4 r p + b * dot4 r q.
Proof. unfold dot4, qmix. cbn. ring. Qed.
Lemma mix_norm p q a b :
  dot4 (qmix realNums p q a b) (qmix realNums p q a b) =
  a * a * dot4 p p + b * b * dot4 q q + 2 * (a * b) * dot4 p q.
Proof. unfold dot4, qmix. cbn. ring. Qed.

Lemma dot4_slerp p q : qw p * qw q + qx p * qx q + qy p * qy q + qz p * qz q = dot4 p q.
Proof. unfold dot4. ring. Qed.

Lemma slerp_forward p q t : 0 <= dot4 p q <= 9999 / 10000 ->
  exists o, 0 < sin o /\ cos o = dot4 p q /\ sin o = sqrt (1 - dot4 p q * dot4 p q) /\
  slerp realNums realTrig p q t =
  qmix realNums p q (sin ((1 - t) * o) / sin o) (sin (t * o) / sin o).
Proof.
  intros H. set (c := dot4 p q) in *. set (s := sqrt (1 - c * c)).
  assert (S0 : 0 < 1 - c * c) by nra.
  assert (S1 : 0 < s) by (apply sqrt_lt_R0; lra).
  assert (S2 : s * s = 1 - c * c) by (apply sqrt_sqrt; lra).
  destruct (angle_of s c) as [A1 A2]; [lra|lra|lra|].
  exists (katan2 realTrig s c). rewrite A1, A2. split; [exact S1|]. split; [reflexivity|]. split; [reflexivity|].
  unfold slerp. cbn [nadd nmul nlt nzero nsub ndiv realNums kclose kone ksin ksqrt realTrig].
  rewrite dot4_slerp. fold c.
  destruct (Rlt_dec c 0); [lra|]. destruct (Rlt_dec (9999 / 10000) c); [lra|].
  fold s. fold (katan2 realTrig s c).
  unfold Rdiv. rewrite Rmult_1_l, !Rmult_1_r. reflexivity.
Qed.

Lemma slerp_backward p q t : - (9999 / 10000) <= dot4 p q < 0 ->
  exists o, 0 < sin o /\ cos o = - dot4 p q /\
  slerp realNums realTrig p q t =
  qmix realNums p q (- (sin ((1 - t) * o) / sin o)) (- (sin (t * o) / sin o)).
Proof.
  intros H. set (c := - dot4 p q) in *. set (s := sqrt (1 - c * c)).
  assert (C : 0 < c <= 9999/10000) by (unfold c; lra).
  assert (S0 : 0 < 1 - c * c) by nra.
  assert (S1 : 0 < s) by (apply sqrt_lt_R0; lra).
  assert (S2 : s * s = 1 - c * c) by (apply sqrt_sqrt; lra).
  destruct (angle_of s c) as [A1 A2]; [lra|lra|lra|].
  exists (katan2 realTrig s c). rewrite A1, A2. split; [exact S1|]. split; [reflexivity|].
  unfold slerp. cbn [nadd nmul nlt nzero nsub ndiv realNums kclose kone ksin ksqrt realTrig].
  rewrite dot4_slerp.
  destruct (Rlt_dec (dot4 p q) 0); [|lra].
  replace (0 - dot4 p q) with c by (unfold c; lra).
  destruct (Rlt_dec (9999 / 10000) c); [lra|].
  fold s. fold (katan2 realTrig s c).
  f_equal; unfold Rdiv; rewrite Rmult_1_l; ring.
Qed.
