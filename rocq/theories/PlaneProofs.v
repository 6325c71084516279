From Coq Require Import Reals Lra Lia.
From Verif Require Import Base Bytes RingModel MeshBuildModel QuatModel QuatSpec QuatProofs LsysModel LsysSpec LsysProofs PlaneSpec.
Local Open Scope R_scope.

(** Position, direction and right hand of a state lie in the plane z = 0. *)
Definition planar (s : tstate R) : Prop := v3z (tpos s) = 0 /\ v3z (tdir s) = 0 /\ v3z (tright s) = 0.

Lemma apply_axis_z a b v : v3z v = 0 ->
  v3z (qapply realNums realTrig (mkQuat 0 0 a b) v) = 0.
Proof. intros H. unfold qapply, vscale. cbn. rewrite H. ring. Qed.

Lemma rotation_planar s a : planar s ->
  exists x y, rotation realNums realTrig s a = mkQuat 0 0 x y.
Proof.
  intros (_ & D & R). unfold rotation, fromAngleAxis, vcross, vscale. cbn. rewrite D, R.
  eexists _, _. f_equal; ring.
Qed.

Lemma turn_planar a s : planar s -> planar (turn realNums realTrig a s).
Proof.
  intros P. pose proof P as (P1 & P2 & P3). destruct (rotation_planar s a P) as (x & y & E).
  unfold turn. rewrite E. repeat split; cbn [tpos tdir tright]; auto using apply_axis_z.
Qed.
Lemma pitch_planar a s : planar s -> planar (pitch realNums realTrig a s).
Proof.
  intros P. pose proof P as (P1 & P2 & P3). destruct (rotation_planar s a P) as (x & y & E).
  unfold pitch. rewrite E. repeat split; cbn [tpos tdir tright]; auto using apply_axis_z.
Qed.
Lemma roll_planar a s : planar s -> planar (roll realNums realTrig a s).
Proof.
  intros P. pose proof P as (P1 & P2 & P3). destruct (rotation_planar s a P) as (x & y & E).
  unfold roll. rewrite E. repeat split; cbn [tpos tdir tright]; auto using apply_axis_z.
Qed.
Lemma jump_planar s : planar s -> planar (jump realNums s).
Proof. intros (P1 & P2 & P3). repeat split; auto. cbn. rewrite P1, P2. ring. Qed.

Definition planarTurtle (t : turtle R) : Prop :=
  planar (cur t) /\ Forall planar (stack t) /\ Forall (fun d => planar (dstate d)) (drawn t).

Lemma draw_planar sh t : planarTurtle t -> planarTurtle (draw realNums sh t).
Proof.
  intros (A & B & C). repeat split; try apply jump_planar; auto; try apply A.
  cbn. apply Forall_app. split; [exact C|]. constructor; [exact A|constructor].
Qed.

Lemma exec_planar angle scale around w t t' :
  exec realNums realTrig angle scale around w t = Ok t' -> planarTurtle t -> planarTurtle t'.
Proof.
  revert t; induction w as [|r w IH]; cbn [exec]; intros t E P; [injection E as <-; exact P|].
  destruct (apply realNums realTrig angle scale around r t) as [t1| |] eqn:E1; cbn in E; try discriminate.
  apply (IH t1 E). clear IH E.
  pose proof P as (A & B & C).
  destruct r; cbn [apply] in E1;
    try (injection E1 as <-; unfold setState; split; [|split]; cbn [cur stack drawn];
         first [exact B | exact C | apply jump_planar, A | apply turn_planar, A | apply pitch_planar, A
               | apply roll_planar, A | exact A | idtac]).
  - apply Forall_app; split; [exact C|]. constructor; [exact A|constructor].
  - constructor; assumption.
  - destruct (stack t) as [|s st] eqn:Es; [discriminate|]. injection E1 as <-. inversion B; subst.
    split; [|split]; assumption.
  - repeat match type of E1 with (if ?b then _ else _) = _ => destruct b end;
      try discriminate; injection E1 as <-; apply draw_planar; exact P.
Qed.

Lemma upright_axis s : upright s -> unitAxis (cross3 (tdir s) (tright s)).
Proof.
  intros (A & B & C). unfold unitAxis. unfold dot3, cross3 in *. cbn in *.
  destruct (tdir s) as [a b c], (tright s) as [x y z]. cbn in *.
  transitivity ((a*a+b*b+c*c)*(x*x+y*y+z*z) - (a*x+b*y+c*z)*(a*x+b*y+c*z)); [ring|].
  rewrite A, B, C. ring.
Qed.

Lemma turned_dir a s : upright s ->
  turned a (cross3 (tdir s) (tright s)) (tdir s) = comb3 (cos a) (tdir s) (sin a) (tright s) 0 (tdir s) /\
  turned a (cross3 (tdir s) (tright s)) (tright s) = comb3 (cos a) (tright s) (- sin a) (tdir s) 0 (tdir s).
Proof.
  intros (A & B & C). unfold turned. unfold dot3, cross3, comb3 in *. cbn in *.
  destruct (tdir s) as [p q r], (tright s) as [x y z]. cbn in *. split.
  - apply vec3_eq; cbn;
      match goal with |- ?l = ?k * ?m + ?s * ?n + 0 * _ =>
        transitivity (k * m + s * (n * (p*p+q*q+r*r) - m * (p*x+q*y+r*z))); [ring|rewrite A, C; ring] end.
  - apply vec3_eq; cbn;
      match goal with |- ?l = ?k * ?m + - ?s * ?n + 0 * _ =>
        transitivity (k * m + s * (m * (p*x+q*y+r*z) - n * (x*x+y*y+z*z))); [ring|rewrite B, C; ring] end.
Qed.

Lemma turn_upright a s : upright s ->
  turn realNums realTrig a s =
  mkState (tlength s) (twidth s) (ttexture s) (tpos s)
    (comb3 (cos a) (tdir s) (sin a) (tright s) 0 (tdir s))
    (comb3 (cos a) (tright s) (- sin a) (tdir s) 0 (tdir s)).
Proof.
  intros U. destruct (turned_dir a s U) as [E1 E2]. rewrite <- E1, <- E2.
  unfold turn, rotation. change (vcross realNums (tdir s) (tright s)) with (cross3 (tdir s) (tright s)).
  rewrite !axis_turned by (apply upright_axis; exact U). reflexivity.
Qed.

Lemma turn_keeps_upright a s : upright s -> upright (turn realNums realTrig a s).
Proof.
  intros U. rewrite (turn_upright a s U). destruct U as (A & B & C). pose proof (sin_cos a) as S.
  unfold upright, dot3, comb3 in *. cbn in *.
  destruct (tdir s) as [p q r], (tright s) as [x y z]. cbn in *.
  set (k := cos a) in *. set (h := sin a) in *. repeat split.
  - transitivity (k*k*(p*p+q*q+r*r) + h*h*(x*x+y*y+z*z) + 2*(k*h)*(p*x+q*y+r*z)); [ring|]. rewrite A, B, C. lra.
  - transitivity (k*k*(x*x+y*y+z*z) + h*h*(p*p+q*q+r*r) - 2*(k*h)*(p*x+q*y+r*z)); [ring|]. rewrite A, B, C. lra.
  - transitivity ((k*k-h*h)*(p*x+q*y+r*z) + k*h*(x*x+y*y+z*z) - k*h*(p*p+q*q+r*r)); [ring|]. rewrite A, B, C. lra.
Qed.

Lemma turn_turn a b s : upright s ->
  turn realNums realTrig a (turn realNums realTrig b s) = turn realNums realTrig (a + b) s.
Proof.
  intros U. rewrite (turn_upright a) by now apply turn_keeps_upright.
  rewrite !turn_upright by exact U. cbn [tlength twidth ttexture tpos tdir tright].
  rewrite cos_plus, sin_plus. f_equal; apply vec3_eq; cbn; ring.
Qed.

Lemma turn_zero s : upright s -> turn realNums realTrig 0 s = s.
Proof.
  intros U. rewrite turn_upright by exact U. rewrite cos_0, sin_0. destruct s as [l w t p d r].
  cbn. f_equal; apply vec3_eq; cbn; ring.
Qed.

Lemma locked_rotation a s v : locked s -> cos (a * / 2) <> 0 ->
  qapply realNums realTrig (rotation realNums realTrig s a) v = v.
Proof.
  intros L N0. unfold rotation. change (vcross realNums (tdir s) (tright s)) with (cross3 (tdir s) (tright s)).
  rewrite L. unfold fromAngleAxis, qapply, qnorm, vscale. cbn. destruct v as [x y z].
  apply vec3_eq; cbn; field; nra.
Qed.
