(** C51: where the turtle of an L-system moves (exact real arithmetic). *)
From Coq Require Import Reals Lra Lia.
From Verif Require Import Base Bytes RingModel MeshBuildModel QuatModel QuatSpec QuatProofs LsysModel LsysSpec LsysProofs PlaneSpec PlaneProofs.
Local Open Scope R_scope.

Lemma jump_ahead m s : jump realNums (ahead m s) = ahead (S m) s.
Proof.
  unfold jump, ahead. cbn [tlength twidth ttexture tpos tdir tright]. f_equal.
  apply vec3_eq; cbn [v3x v3y v3z vadd vscale comb3 nadd nmul realNums]; rewrite S_INR; ring.
Qed.
Lemma ahead_zero s : ahead 0 s = s.
Proof. destruct s. unfold ahead. cbn. f_equal. apply vec3_eq; cbn; ring. Qed.

(** C51: moving forward [m] times draws [m] cylinders one length apart along the direction, and ends at
    the end of the last one. *)
Theorem C51_forward : forall angle scale around m (t : turtle R),
  exec realNums realTrig angle scale around (repeat Forward m) t =
  Ok (mkTurtle (ahead m (cur t)) (stack t) (cylStyle t) (sphStyle t)
       (drawn t ++ map (fun i => mkDrawing Cylinder (ahead i (cur t)) (cylStyle t)) (seq 0 m))).
Proof.
  intros angle scale around m t.
  assert (G : forall i d, exec realNums realTrig angle scale around (repeat Forward m)
      (mkTurtle (ahead i (cur t)) (stack t) (cylStyle t) (sphStyle t) d) =
    Ok (mkTurtle (ahead (i + m) (cur t)) (stack t) (cylStyle t) (sphStyle t)
       (d ++ map (fun i => mkDrawing Cylinder (ahead i (cur t)) (cylStyle t)) (seq i m)))).
  { induction m as [|m IH]; intros i d; cbn [repeat exec seq map].
    - rewrite Nat.add_0_r, app_nil_r. reflexivity.
    - cbn [apply bind]. unfold draw. cbn [cur stack cylStyle sphStyle drawn].
      rewrite jump_ahead, IH. rewrite <- app_assoc, Nat.add_succ_r. reflexivity. }
  specialize (G 0%nat (drawn t)). rewrite ahead_zero in G. destruct t. exact G.
Qed.

(** Scaling [m] times multiplies the length, or the width, by the power of the scale and nothing else;
    scaling down undoes scaling up when the scale is not zero. *)
Theorem C51_scale : forall angle scale around m (t : turtle R),
  let sized l w := Ok (mkTurtle (mkState l w (ttexture (cur t)) (tpos (cur t)) (tdir (cur t)) (tright (cur t)))
                               (stack t) (cylStyle t) (sphStyle t) (drawn t)) in
  let run w := exec realNums realTrig angle scale around w t in
  let l := tlength (cur t) in let w := twidth (cur t) in
  run (repeat ScaleUp m) = sized (l * scale ^ m) w /\
  run (repeat Increment m) = sized l (w * scale ^ m) /\
  (scale <> 0 -> run (repeat ScaleUp m ++ repeat ScaleDown m) = Ok t /\
                 run (repeat Increment m ++ repeat Decrement m) = Ok t).
Proof.
  intros angle scale around m t. cbn zeta.
  assert (U : forall m (t : turtle R), exec realNums realTrig angle scale around (repeat ScaleUp m) t =
    Ok (setState t (mkState (tlength (cur t) * scale ^ m) (twidth (cur t)) (ttexture (cur t)) (tpos (cur t)) (tdir (cur t)) (tright (cur t))))).
  { clear. induction m as [|m IH]; intros t; cbn [repeat exec].
    - destruct t as [[] ? ? ? ?]. cbn. rewrite Rmult_1_r. reflexivity.
    - cbn [apply bind]. rewrite IH. destruct t as [[] ? ? ? ?]. unfold setState; cbn; f_equal; f_equal; f_equal. ring. }
  assert (V : forall m (t : turtle R), exec realNums realTrig angle scale around (repeat Increment m) t =
    Ok (setState t (mkState (tlength (cur t)) (twidth (cur t) * scale ^ m) (ttexture (cur t)) (tpos (cur t)) (tdir (cur t)) (tright (cur t))))).
  { clear. induction m as [|m IH]; intros t; cbn [repeat exec].
    - destruct t as [[] ? ? ? ?]. cbn. rewrite Rmult_1_r. reflexivity.
    - cbn [apply bind]. rewrite IH. destruct t as [[] ? ? ? ?]. unfold setState; cbn; f_equal; f_equal; f_equal. ring. }
  split; [apply U|]. split; [apply V|]. intros NZ. rewrite !exec_app, U, V. cbn [bind].
  assert (U' : forall m (t : turtle R), exec realNums realTrig angle scale around (repeat ScaleDown m) t =
    Ok (setState t (mkState (tlength (cur t) / scale ^ m) (twidth (cur t)) (ttexture (cur t)) (tpos (cur t)) (tdir (cur t)) (tright (cur t))))).
  { clear - NZ. induction m as [|m IH]; intros t; cbn [repeat exec].
    - destruct t as [[] ? ? ? ?]. cbn. unfold Rdiv. rewrite Rinv_1, Rmult_1_r. reflexivity.
    - cbn [apply bind]. rewrite IH. destruct t as [[] ? ? ? ?]. unfold setState; cbn; f_equal; f_equal; f_equal. field. split; [apply pow_nonzero|]; exact NZ. }
  assert (V' : forall m (t : turtle R), exec realNums realTrig angle scale around (repeat Decrement m) t =
    Ok (setState t (mkState (tlength (cur t)) (twidth (cur t) / scale ^ m) (ttexture (cur t)) (tpos (cur t)) (tdir (cur t)) (tright (cur t))))).
  { clear - NZ. induction m as [|m IH]; intros t; cbn [repeat exec].
    - destruct t as [[] ? ? ? ?]. cbn. unfold Rdiv. rewrite Rinv_1, Rmult_1_r. reflexivity.
    - cbn [apply bind]. rewrite IH. destruct t as [[] ? ? ? ?]. unfold setState; cbn; f_equal; f_equal; f_equal. field. split; [apply pow_nonzero|]; exact NZ. }
  rewrite U', V'. assert (P : scale ^ m <> 0) by now apply pow_nonzero.
  destruct t as [[] ? ? ? ?]. cbn. unfold setState; cbn; split; f_equal; f_equal; f_equal; field; exact P.
Qed.

(** Turns by the angles of left, right and around: the direction moves towards or away from the right
    hand by that angle, both stay perpendicular unit vectors, and turns add up. *)
Theorem C51_turns : forall a b (s : tstate R), upright s ->
  turn realNums realTrig a s =
    mkState (tlength s) (twidth s) (ttexture s) (tpos s)
      (comb3 (cos a) (tdir s) (sin a) (tright s) 0 (tdir s))
      (comb3 (cos a) (tright s) (- sin a) (tdir s) 0 (tdir s)) /\
  upright (turn realNums realTrig a s) /\
  turn realNums realTrig a (turn realNums realTrig b s) = turn realNums realTrig (a + b) s /\
  turn realNums realTrig 0 s = s.
Proof.
  intros a b s U. split; [exact (turn_upright a s U)|]. split; [exact (turn_keeps_upright a s U)|].
  split; [exact (turn_turn a b s U)|exact (turn_zero s U)].
Qed.

(** So turning left and then right, or around twice, is no turn; the turtle starts upright. *)
Theorem C51_undo : forall angle scale (t : turtle R), upright (cur t) ->
  exec realNums realTrig angle scale PI [TurnLeft; TurnRight] t = Ok t /\
  exec realNums realTrig angle scale PI [TurnRight; TurnLeft] t = Ok t /\
  exec realNums realTrig angle scale PI [TurnAround; TurnAround] t = Ok t.
Proof.
  intros angle scale t U. cbn [exec apply bind setState cur stack cylStyle sphStyle drawn].
  unfold minus. cbn [nsub nzero realNums].
  rewrite !turn_turn by exact U.
  replace (angle + (0 - angle)) with 0 by ring. replace (0 - angle + angle) with 0 by ring.
  rewrite turn_zero by exact U.
  assert (E : turn realNums realTrig (PI + PI) (cur t) = cur t).
  { rewrite <- (turn_zero (cur t) U) at 2. rewrite !turn_upright by exact U.
    replace (PI + PI) with (2 * PI) by ring. rewrite cos_2PI, sin_2PI, cos_0, sin_0. reflexivity. }
  rewrite E. unfold setState. destruct t. auto.
Qed.
Example C51_upright_case : forall size, upright (initState realNums realTrig size).
Proof. intros. unfold upright, dot3; cbn; repeat split; ring. Qed.

(** Whatever the rules, the words drawn and the angles, everything is drawn in the plane of the start:
    pitch and roll never leave it. *)
Theorem C51_plane_refuted : forall angle scale around size w t,
  exec realNums realTrig angle scale around w (initTurtle realNums realTrig size) = Ok t ->
  Forall (fun d => v3z (tpos (dstate d)) = 0 /\ v3z (tdir (dstate d)) = 0 /\ v3z (tright (dstate d)) = 0) (drawn t) /\
  v3z (tpos (cur t)) = 0.
Proof.
  intros angle scale around size w t E.
  apply exec_planar in E as (A & B & C).
  - split; [|apply A]. eapply Forall_impl; [|exact C]. intros d (X & Y & Z). auto.
  - repeat split; constructor.
Qed.
Example C51_plane_case : exists t,
  exec realNums realTrig (PI / 2) 2 PI [PitchUp; Forward; RollLeft; Forward] (initTurtle realNums realTrig 1) = Ok t /\
  length (drawn t) = 2%nat.
Proof. eexists. split; reflexivity. Qed.

(** Pitching by a right angle makes the direction parallel to the right hand, and from then on no rule
    changes the direction or the right hand. *)
Theorem C51_locked_refuted :
  (forall size, locked (pitch realNums realTrig (PI / 2) (initState realNums realTrig size))) /\
  (forall a s, locked s -> cos (a * / 2) <> 0 ->
    tdir (turn realNums realTrig a s) = tdir s /\ tright (turn realNums realTrig a s) = tright s /\
    tdir (pitch realNums realTrig a s) = tdir s /\ tright (roll realNums realTrig a s) = tright s).
Proof.
  split.
  - intros size. unfold locked, pitch, rotation.
    change (vcross realNums _ _) with
      (cross3 (tdir (initState realNums realTrig size)) (tright (initState realNums realTrig size))).
    cbn [tdir tright]. rewrite axis_turned by (apply upright_axis; apply (C51_upright_case size)).
    destruct (turned_dir (PI / 2) _ (C51_upright_case size)) as [E _]. cbn [tdir tright] in E. rewrite E.
    rewrite cos_PI2, sin_PI2. unfold cross3, comb3. cbn. f_equal; ring.
  - intros a s L N0. unfold turn, pitch, roll. cbn [tdir tright]. repeat split; now apply locked_rotation.
Qed.
Example C51_locked_case : cos (PI / 2 * / 2) <> 0.
Proof. replace (PI / 2 * / 2) with (PI / 4) by field. rewrite cos_PI4. apply Rgt_not_eq, Rdiv_lt_0_compat; [lra|]. apply sqrt_lt_R0. lra. Qed.

Print Assumptions C51_forward.
Print Assumptions C51_scale.
Print Assumptions C51_turns.
Print Assumptions C51_undo.
Print Assumptions C51_plane_refuted.
Print Assumptions C51_locked_refuted.
