(** Theorems about distances and conversions between degrees and metres (exact real arithmetic). *)
From Coq Require Import Reals Lra Lia.
From Verif Require Import Base GeoModel RingModel MeshBuildModel QuatModel ProjectionNumeric RowModel RowSpec MetreModel MetreSpec MetreProofs.
Local Open Scope R_scope.

Local Notation dist := (distance realNums realTrig realMetres).
Local Notation offset := (getOffset realNums realTrig realMetres).
Local Notation world := (worldToGeo realNums realTrig realMetres).

(** The distance is the length of the arc of a great circle through the two places, for a radius between those of the
    earth: the angle between any two places exists, and only one. *)
Theorem C67_distance : forall p q, exists t, angleIs p q t /\ (forall s, angleIs p q s -> s = t) /\
  polar * t <= dist p q <= equatorial * t.
Proof.
  intros p q. exists (angleOf (haversine realNums realTrig realMetres p q)). pose proof (angle_is p q) as H. split; [exact H|]. split.
  - intros s S. eapply angle_unique; eassumption.
  - rewrite dist_unfold. destruct H as (A & _). pose proof (radius_bounds (rad (plat p - plat q))) as (B & C). split; apply Rmult_le_compat_r; lra.
Qed.
Print Assumptions C67_distance.

(** It does not depend on the order, is never negative and is zero for the same place only: longitudes may differ by
    full turns, or by anything at a pole. *)
Theorem C67_metric : forall p q, dist p q = dist q p /\ 0 <= dist p q /\ (dist p q = 0 <-> unitOf p = unitOf q).
Proof.
  intros p q. destruct (C67_distance p q) as (t & H & _ & L & _). pose proof polar_pos as P. pose proof (proj1 H) as (T & _).
  assert (T0 : 0 <= polar * t) by (apply Rmult_le_pos; lra). split; [|split; [lra|]].
  - rewrite (dist_angle p q t H), (dist_angle q p t (angle_sym _ _ _ H)). f_equal.
    replace (rad (plat p - plat q)) with (- rad (plat q - plat p)) by (unfold rad; ring). apply radius_even.
  - rewrite <- angle_zero. split.
    + intros D. replace 0 with t; [exact H|]. nra.
    + intros Z. rewrite (dist_angle p q 0 Z). ring.
Qed.
Print Assumptions C67_metric.

(** A detour is not shorter, but for the ratio of the radii (0.34 percent). *)
Theorem C67_triangle_partial : forall p q r, dist p r <= equatorial / polar * (dist p q + dist q r).
Proof.
  intros p q r. destruct (C67_distance p q) as (a & A & _ & LA & _). destruct (C67_distance q r) as (b & B & _ & LB & _).
  destruct (C67_distance p r) as (c & C & _ & _ & UC). pose proof (angle_triangle p q r a b c A B C) as T.
  pose proof polar_pos. pose proof polar_less. eapply Rle_trans; [exact UC|].
  apply Rle_trans with (equatorial / polar * (polar * (a + b))).
  - replace (equatorial / polar * (polar * (a + b))) with (equatorial * (a + b)) by (field; lra). apply Rmult_le_compat_l; lra.
  - apply Rmult_le_compat_l; [apply Rmult_le_pos; [lra|]; apply Rlt_le, Rinv_0_lt_compat; lra|lra].
Qed.
Print Assumptions C67_triangle_partial.
(** Without that it is: over the pole the two halves are shorter than the whole. *)
Theorem C67_triangle_refuted : exists p q r, onEarth p /\ onEarth q /\ onEarth r /\ dist p q + dist q r < dist p r.
Proof.
  exists (mkPoint 0 0), (mkPoint 90 0), (mkPoint 0 180). unfold onEarth. cbn [plat]. split; [lra|]. split; [lra|]. split; [lra|].
  pose proof PI_RGT_0.
  assert (Z : rad 0 = 0) by (unfold rad; ring). assert (Q : rad 90 = PI / 2) by (unfold rad; field). assert (Hf : rad 180 = PI) by (unfold rad; field).
  rewrite (dist_angle (mkPoint 0 0) (mkPoint 90 0) (PI / 2)), (dist_angle (mkPoint 90 0) (mkPoint 0 180) (PI / 2)),
    (dist_angle (mkPoint 0 0) (mkPoint 0 180) PI); cbn [plat].
  - replace (rad (0 - 90)) with (- (PI / 2)) by (unfold rad; field). replace (rad (90 - 0)) with (PI / 2) by (unfold rad; field).
    replace (rad (0 - 0)) with 0 by (unfold rad; ring). rewrite radius_even, radius_pole, radius_zero.
    unfold polar, equatorial. lra.
  - split; [lra|]. unfold dot, unitOf. cbn [plat plon v3x v3y v3z]. rewrite Z, Hf, cos_PI, cos_0, sin_0, sin_PI. ring.
  - split; [lra|]. unfold dot, unitOf. cbn [plat plon v3x v3y v3z]. rewrite Z, Hf, Q, cos_PI, cos_0, sin_0, sin_PI, cos_PI2, sin_PI2. ring.
  - split; [lra|]. unfold dot, unitOf. cbn [plat plon v3x v3y v3z]. rewrite Z, Q, cos_0, sin_0, cos_PI2, sin_PI2. ring.
Qed.
Print Assumptions C67_triangle_refuted.

(** The radius of a latitude is the distance from the centre of the earth to its surface, where the ground is inclined as
    at that latitude. *)
Theorem C67_radius : forall lat, (exists x y, groundPoint lat x y) /\
  forall x y, groundPoint lat x y -> earthRadius realNums realTrig realMetres lat = sqrt (x * x + y * y).
Proof. intros lat. split; [apply ground_exists|]. intros x y. apply ground_radius. Qed.
Print Assumptions C67_radius.
(** But a distance does not use the radius of the latitude of the places: on a parallel it is that of the equator, which
    is too long everywhere else. *)
Theorem C67_parallel_refuted : forall p q t x y, plat p = plat q -> onEarth p -> plat p <> 0 -> angleIs p q t -> 0 < t ->
  groundPoint (rad (plat p)) x y -> dist p q = equatorial * t /\ sqrt (x * x + y * y) * t < dist p q.
Proof.
  intros p q t x y E (L & U) N A T G.
  assert (D : dist p q = equatorial * t).
  { rewrite (dist_angle _ _ _ A). rewrite E, Rminus_diag_eq by reflexivity. replace (rad 0) with 0 by (unfold rad; ring). now rewrite radius_zero. }
  split; [exact D|]. rewrite D. apply Rmult_lt_compat_r; [exact T|]. rewrite <- (ground_radius _ _ _ G). apply radius_less.
  intros S. pose proof PI_RGT_0. unfold rad in S. destruct (Rlt_dec 0 (plat p)).
  - assert (0 < sin (plat p * (PI / 180))) by (apply sin_gt_0; nra). lra.
  - assert (sin (plat p * (PI / 180)) < 0) by (apply sin_lt_0_var; nra). lra.
Qed.
Print Assumptions C67_parallel_refuted.

(** An offset in metres is converted to degrees along a meridian: going north by it is that far, up to the ratio of the
    radii. *)
Theorem C67_offset : forall p m, 0 <= m <= PI * polar ->
  polar / equatorial * m <= dist p (north p (offset p m)) <= equatorial / polar * m.
Proof.
  intros p m M. pose proof polar_pos. pose proof polar_less. pose proof PI_RGT_0.
  set (r := earthRadius realNums realTrig realMetres (deg2Rad realNums realMetres (plat p))).
  pose proof (radius_bounds (deg2Rad realNums realMetres (plat p))) as (L & U). fold r in L, U.
  assert (O : rad (offset p m) = m / r).
  { unfold getOffset, rad2Deg. fold r. cbn [realNums realMetres nmul ndiv m180 mpi]. unfold rad. field. lra. }
  assert (I : 0 < / r) by (apply Rinv_0_lt_compat; lra).
  assert (B : 0 <= m / r <= PI).
  { split; [apply Rmult_le_pos; lra|]. apply Rmult_le_reg_r with r; [lra|]. unfold Rdiv. rewrite Rmult_assoc, Rinv_l by lra. nra. }
  rewrite (dist_angle _ _ (m / r)) by (rewrite <- O; apply angle_north; rewrite O; exact B).
  cbn [north plat]. pose proof (radius_bounds (rad (plat p - (plat p + offset p m)))) as (A & C). set (s := earthRadius _ _ _ _) in A, C |- *.
  assert (K1 : / equatorial <= / r) by (apply Rinv_le_contravar; lra).
  assert (K2 : / r <= / polar) by (apply Rinv_le_contravar; lra). split.
  - apply Rle_trans with (polar * (m / r)); [|apply Rmult_le_compat_r; lra].
    replace (polar / equatorial * m) with (polar * m * / equatorial) by (unfold Rdiv; ring). replace (polar * (m / r)) with (polar * m * / r) by (unfold Rdiv; ring).
    apply Rmult_le_compat_l; [apply Rmult_le_pos; lra|exact K1].
  - apply Rle_trans with (equatorial * (m / r)); [apply Rmult_le_compat_r; lra|].
    replace (equatorial / polar * m) with (equatorial * m * / polar) by (unfold Rdiv; ring). replace (equatorial * (m / r)) with (equatorial * m * / r) by (unfold Rdiv; ring).
    apply Rmult_le_compat_l; [apply Rmult_le_pos; lra|exact K2].
Qed.
Print Assumptions C67_offset.
(** At the equator it is exact to the east. *)
Theorem C67_offset_equator : forall p m, plat p = 0 -> 0 <= m <= PI * polar -> dist p (east p (offset p m)) = m.
Proof.
  intros p m E M. pose proof polar_pos. pose proof polar_less. pose proof PI_RGT_0.
  assert (O : rad (offset p m) = m / equatorial).
  { unfold getOffset, rad2Deg. rewrite d2r_rad, E. replace (rad 0) with 0 by (unfold rad; ring). rewrite radius_zero.
    cbn [realNums realMetres nmul ndiv m180 mpi]. unfold rad. field. lra. }
  assert (B : 0 <= m / equatorial <= PI).
  { split; [apply Rmult_le_pos; [lra|]; apply Rlt_le, Rinv_0_lt_compat; lra|]. apply Rmult_le_reg_r with equatorial; [lra|].
    unfold Rdiv. rewrite Rmult_assoc, Rinv_l by lra. nra. }
  rewrite (dist_angle _ _ (m / equatorial)).
  - cbn [east plat]. rewrite Rminus_diag_eq by reflexivity. replace (rad 0) with 0 by (unfold rad; ring). rewrite radius_zero. field. lra.
  - apply angle_east; [exact B|]. rewrite E, O. replace (rad 0) with 0 by (unfold rad; ring). rewrite cos_0. ring.
Qed.
Print Assumptions C67_offset_equator.
(** At a latitude of 60 degrees an offset is applied to longitudes as well, by widths of ways and walls: there it is only
    half as far to the east. *)
Theorem C67_east_refuted : forall p m, plat p = 60 -> 0 <= m <= PI * polar ->
  dist p (east p (offset p m)) <= equatorial / polar * (m / 2).
Proof.
  intros p m E M. pose proof polar_pos. pose proof polar_less. pose proof PI_RGT_0.
  set (r := earthRadius realNums realTrig realMetres (deg2Rad realNums realMetres (plat p))).
  pose proof (radius_bounds (deg2Rad realNums realMetres (plat p))) as (L & U). fold r in L, U.
  assert (O : rad (offset p m) = m / r).
  { unfold getOffset, rad2Deg. fold r. cbn [realNums realMetres nmul ndiv m180 mpi]. unfold rad. field. lra. }
  assert (I : 0 < / r) by (apply Rinv_0_lt_compat; lra).
  assert (B : 0 <= m / r <= PI).
  { split; [apply Rmult_le_pos; lra|]. apply Rmult_le_reg_r with r; [lra|]. unfold Rdiv. rewrite Rmult_assoc, Rinv_l by lra. nra. }
  assert (C : cos (rad (plat p)) = 1 / 2) by (rewrite E; replace (rad 60) with (PI / 3) by (unfold rad; field); apply cos_PI3).
  destruct (east_angle p (offset p m)) as (t & A & T & S); [rewrite C; lra|rewrite O; exact B|].
  rewrite (dist_angle _ _ _ A). cbn [east plat]. rewrite Rminus_diag_eq by reflexivity. replace (rad 0) with 0 by (unfold rad; ring). rewrite radius_zero.
  assert (Ht : t / 2 <= 1 / 2 * (m / r / 2)).
  { apply sin_order; [exact T|lra|]. rewrite S, C, O. apply sin_concave; lra. }
  replace (equatorial / polar * (m / 2)) with (equatorial * (m / polar / 2)) by (field; lra). apply Rmult_le_compat_l; [lra|].
  assert (m / r <= m / polar); [|lra]. apply Rmult_le_compat_l; [lra|]. apply Rinv_le_contravar; lra.
Qed.
Print Assumptions C67_east_refuted.

(** Metres of a world around a place: to the north exact up to 0.17 percent. *)
Theorem C67_world_north : forall zero y, 0 <= y <= 20004000 ->
  0.9983 * y <= dist zero (world zero 0 y) <= 1.0017 * y.
Proof.
  intros zero y Y. pose proof pi_low. pose proof pi_high.
  set (d := y * 360 / 40008000). assert (W : world zero 0 y = north zero d).
  { unfold worldToGeo, north, d. cbn [realNums realTrig realMetres nadd nmul ndiv m360 mcircle mequator kcos]. f_equal. unfold Rdiv. ring. }
  rewrite W. assert (R : rad d = y * PI / 20004000) by (unfold d, rad; field).
  assert (B : 0 <= rad d <= PI) by (rewrite R; split; [apply Rmult_le_pos; [nra|lra]|]; apply Rmult_le_reg_r with 20004000; [lra|]; unfold Rdiv; rewrite Rmult_assoc, Rinv_l by lra; nra).
  rewrite (dist_angle _ _ _ (angle_north zero d B)). cbn [north plat].
  pose proof (radius_bounds (rad (plat zero - (plat zero + d)))) as (L & U). set (r := earthRadius _ _ _ _) in L, U |- *.
  rewrite R. unfold polar, equatorial in *. split.
  - apply Rle_trans with (63567523 / 10 * (y * PI / 20004000)); [|apply Rmult_le_compat_r; lra].
    replace (63567523 / 10 * (y * PI / 20004000)) with (y * (63567523 / 10 * PI / 20004000)) by field. rewrite Rmult_comm. apply Rmult_le_compat_l; lra.
  - apply Rle_trans with (6378137 * (y * PI / 20004000)); [apply Rmult_le_compat_r; lra|].
    replace (6378137 * (y * PI / 20004000)) with (y * (6378137 * PI / 20004000)) by field. rewrite (Rmult_comm 1.0017). apply Rmult_le_compat_l; lra.
Qed.
Print Assumptions C67_world_north.
(** To the east, not beyond half of the parallel: never further than asked for, and as far up to the square of half of the
    angle of the longitude. *)
Theorem C67_world_east : forall zero x, -90 < plat zero < 90 -> let c := cos (rad (plat zero)) in
  0 <= x <= 20037580 * c -> let h := x * PI / (40075160 * c) in
  0.999995 * x * (1 - h * h / 6) <= dist zero (world zero x 0) <= x.
Proof.
  intros zero x Lt c X h. pose proof pi_low. pose proof pi_high.
  assert (C : 0 < c) by (unfold c; apply cos_gt_0; unfold rad; nra). pose proof (COS_bound (rad (plat zero))) as (_ & C1). fold c in C1.
  set (d := x * 360 / (40075160 * c)). assert (W : world zero x 0 = east zero d).
  { unfold worldToGeo, east, d. rewrite d2r_rad. cbn [realNums realTrig realMetres nadd nmul ndiv m360 mcircle mequator kcos]. fold c. f_equal. unfold Rdiv. ring. }
  rewrite W. assert (R : rad d = 2 * h) by (unfold d, h, rad; field; lra).
  assert (Hh : 0 <= h <= PI / 2).
  { unfold h. split; [apply Rmult_le_pos; [nra|]; apply Rlt_le, Rinv_0_lt_compat; lra|]. apply Rmult_le_reg_r with (40075160 * c); [lra|].
    unfold Rdiv. rewrite Rmult_assoc, Rinv_l by lra. nra. }
  assert (CH : c * h = x * PI / 40075160) by (unfold h; field; lra).
  destruct (east_angle zero d) as (t & A & T & S); [fold c; lra|rewrite R; lra|]. fold c in S. rewrite R in S. replace (2 * h / 2) with h in S by field.
  rewrite (dist_angle _ _ _ A). cbn [east plat]. replace (plat zero - plat zero) with 0 by ring. replace (rad 0) with 0 by (unfold rad; ring). rewrite radius_zero.
  assert (Up : t / 2 <= c * h) by (apply sin_order; [exact T|nra|]; rewrite S; apply sin_concave; lra).
  assert (Lo : c * (h - h * h * h / 6) <= t / 2).
  { apply Rle_trans with (sin (t / 2)); [|apply sin_le_x; lra]. rewrite S. apply Rmult_le_compat_l; [lra|]. apply sin_cubic. lra. }
  unfold equatorial. split.
  - apply Rle_trans with (6378137 * (2 * (c * (h - h * h * h / 6)))); [|lra].
    replace (6378137 * (2 * (c * (h - h * h * h / 6)))) with (6378137 * 2 * (c * h) * (1 - h * h / 6)) by field. rewrite CH.
    apply Rmult_le_compat_r; [nra|]. replace (6378137 * 2 * (x * PI / 40075160)) with (x * (6378137 * 2 * PI / 40075160)) by field.
    rewrite Rmult_comm. apply Rmult_le_compat_l; lra.
  - apply Rle_trans with (6378137 * (2 * (c * h))); [lra|]. rewrite CH.
    replace (6378137 * (2 * (x * PI / 40075160))) with (x * (6378137 * 2 * PI / 40075160)) by field.
    rewrite <- (Rmult_1_r x) at 2. apply Rmult_le_compat_l; lra.
Qed.
Print Assumptions C67_world_east.

(** On the equator distances grow evenly, as C66 expects them. *)
Theorem C67_evenly : forall p q, plat p = 0 -> plat q = 0 -> Rabs (plon p - plon q) <= 180 -> evenly dist p q.
Proof.
  intros p q Ep Eq L s t Hs Ht. pose proof PI_RGT_0.
  assert (G : forall u v, plat u = 0 -> plat v = 0 -> Rabs (plon u - plon v) <= 180 -> dist u v = equatorial * rad (Rabs (plon u - plon v))).
  { intros u v Eu Ev Lu. rewrite (dist_angle u v (rad (Rabs (plon u - plon v)))).
    - rewrite Eu, Ev, Rminus_diag_eq by reflexivity. replace (rad 0) with 0 by (unfold rad; ring). now rewrite radius_zero.
    - split.
      + pose proof (Rabs_pos (plon u - plon v)). unfold rad. split; [apply Rmult_le_pos; lra|]. nra.
      + unfold dot, unitOf. rewrite Eu, Ev. cbn [v3x v3y v3z]. replace (rad 0) with 0 by (unfold rad; ring). rewrite cos_0, sin_0.
        replace (_ + _) with (cos (rad (plon u) - rad (plon v))) by (rewrite cos_minus; ring).
        replace (rad (plon u) - rad (plon v)) with (rad (plon u - plon v)) by (unfold rad; ring).
        unfold Rabs. destruct (Rcase_abs (plon u - plon v)); [|reflexivity].
        replace (rad (- (plon u - plon v))) with (- rad (plon u - plon v)) by (unfold rad; ring). apply cos_neg. }
  assert (F : plon (along p q s) - plon (along p q t) = - (s - t) * (plon p - plon q)) by (cbn [along plon]; ring).
  rewrite (G (along p q s) (along p q t)), (G p q); try assumption.
  - rewrite F, Rabs_mult, Rabs_Ropp. unfold rad. ring.
  - cbn [along plat]. rewrite Ep, Eq. ring.
  - cbn [along plat]. rewrite Ep, Eq. ring.
  - rewrite F, Rabs_mult, Rabs_Ropp. assert (Rabs (s - t) <= 1) by (apply Rabs_le; lra). pose proof (Rabs_pos (s - t)). pose proof (Rabs_pos (plon p - plon q)). nra.
Qed.
Print Assumptions C67_evenly.

(** Metres scaled to a box around the equator: its own width in metres becomes the scale. *)
Theorem C67_scaled : forall h l w scale, 0 < w <= 180 ->
  getScaled realNums realTrig realMetres (mkPoint (- h) l) (mkPoint h (l + w)) scale (dist (mkPoint 0 l) (east (mkPoint 0 l) w)) = scale.
Proof.
  intros h l w scale W. pose proof PI_RGT_0. pose proof polar_pos. pose proof polar_less.
  assert (D : dist (mkPoint 0 l) (east (mkPoint 0 l) w) = equatorial * rad w).
  { rewrite (dist_angle _ _ (rad w)).
    - cbn [east plat]. replace (rad (0 - 0)) with 0 by (unfold rad; ring). now rewrite radius_zero.
    - assert (0 <= rad w <= PI) by (unfold rad; nra). apply angle_east; [assumption|]. cbn [plat]. replace (rad 0) with 0 by (unfold rad; ring). rewrite cos_0. ring. }
  rewrite D. unfold getScaled, boxCenter, getOffset, rad2Deg. rewrite d2r_rad. cbn [plat plon realNums realMetres nadd nsub nmul ndiv m2 m180 mpi].
  replace (rad (- h + (h - - h) / 2)) with 0 by (unfold rad; field). rewrite radius_zero. unfold rad. field. lra.
Qed.
Print Assumptions C67_scaled.

(** Berlin and a place 100 metres north of it: the bounds of the theorems are less than a metre apart. *)
Example C67_case : let p := mkPoint 52.5 13.4 in
  99 <= dist p (north p (offset p 100)) <= 101 /\ 99.8 <= dist p (world p 0 100) <= 100.2 /\
  (exists x y, groundPoint (rad (plat p)) x y) /\ exists q t, plat p = plat q /\ 0 < t /\ angleIs p q t.
Proof.
  intros p. pose proof pi_low. pose proof pi_high. split; [|split; [|split]].
  - pose proof (C67_offset p 100) as H1. unfold polar, equatorial in H1. specialize (H1 ltac:(lra)). lra.
  - pose proof (C67_world_north p 100 ltac:(lra)). lra.
  - apply ground_exists.
  - assert (L : rad 52.5 < PI / 2) by (unfold rad; lra). assert (C : 0 < cos (rad (plat p))) by (apply cos_gt_0; cbn [p plat]; [unfold rad; lra|exact L]).
    destruct (east_angle p 10) as (t & A & T & S); [lra|unfold rad; lra|].
    exists (east p 10), t. split; [reflexivity|]. split; [|exact A].
    destruct (Req_dec t 0) as [->|N]; [|lra]. exfalso. replace (0 / 2) with 0 in S by field. rewrite sin_0 in S.
    assert (0 < sin (rad 10 / 2)) by (apply sin_gt_0; unfold rad; lra). nra.
Qed.
