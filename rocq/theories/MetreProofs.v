(** Proofs about distances (used by MetreProps). *)
From Coq Require Import Reals Lra Lia.
From Verif Require Import Base GeoModel RingModel MeshBuildModel QuatModel MetreModel MetreSpec.
Local Open Scope R_scope.

Local Notation radius := (earthRadius realNums realTrig realMetres).
Local Notation hav := (haversine realNums realTrig realMetres).
Local Notation dist := (distance realNums realTrig realMetres).
Local Notation d2r := (deg2Rad realNums realMetres).

Lemma d2r_rad x : d2r x = rad x.
Proof. unfold deg2Rad, rad. cbn. field. Qed.
Lemma sc1 x : sin x * sin x + cos x * cos x = 1.
Proof. pose proof (sin2_cos2 x) as H. unfold Rsqr in H. exact H. Qed.

Lemma polar_pos : 0 < polar. Proof. unfold polar. lra. Qed.
Lemma polar_less : polar < equatorial. Proof. unfold polar, equatorial. lra. Qed.

(** * The radius *)
Definition radiusSq (lat : R) : R :=
  ((equatorial * equatorial * cos lat) * (equatorial * equatorial * cos lat) + (polar * polar * sin lat) * (polar * polar * sin lat)) /
  ((equatorial * cos lat) * (equatorial * cos lat) + (polar * sin lat) * (polar * sin lat)).
Lemma radius_sqrt lat : radius lat = sqrt (radiusSq lat).
Proof. reflexivity. Qed.
Lemma radius_den lat : 0 < (equatorial * cos lat) * (equatorial * cos lat) + (polar * sin lat) * (polar * sin lat).
Proof.
  pose proof (sc1 lat). pose proof polar_pos. pose proof polar_less.
  pose proof (Rle_0_sqr (sin lat)) as A. pose proof (Rle_0_sqr (cos lat)) as B. unfold Rsqr in A, B.
  apply Rlt_le_trans with (polar * polar); [now apply Rmult_lt_0_compat|].
  replace (_ + _) with (equatorial * equatorial * (cos lat * cos lat) + polar * polar * (sin lat * sin lat)) by ring.
  replace (cos lat * cos lat) with (1 - sin lat * sin lat) in * by lra. set (s := sin lat * sin lat) in *.
  assert (polar * polar <= equatorial * equatorial) by nra. nra.
Qed.
Lemma radius_sq_bounds lat : polar * polar <= radiusSq lat <= equatorial * equatorial.
Proof.
  pose proof (sc1 lat). pose proof polar_pos. pose proof polar_less. pose proof (radius_den lat) as D.
  pose proof (Rle_0_sqr (sin lat)) as A. pose proof (Rle_0_sqr (cos lat)) as B. unfold Rsqr in A, B.
  unfold radiusSq. set (den := _ + _) in D. assert (Q : polar * polar <= equatorial * equatorial) by nra.
  assert (P2 : 0 < polar * polar) by now apply Rmult_lt_0_compat. set (a2 := equatorial * equatorial) in *. set (b2 := polar * polar) in *.
  assert (E : den = a2 * (cos lat * cos lat) + b2 * (sin lat * sin lat)) by (unfold den, a2, b2; ring).
  replace (a2 * cos lat * (a2 * cos lat) + b2 * sin lat * (b2 * sin lat))
    with (a2 * a2 * (cos lat * cos lat) + b2 * b2 * (sin lat * sin lat)) by ring.
  fold den. set (x := cos lat * cos lat) in *. set (y := sin lat * sin lat) in *.
  split; (apply Rmult_le_reg_r with den; [exact D|]); unfold Rdiv; rewrite ?Rmult_assoc, ?Rinv_l by lra; rewrite E.
  - assert (0 <= (a2 - b2) * a2 * x) by (apply Rmult_le_pos; [apply Rmult_le_pos; lra|exact B]). nra.
  - assert (0 <= (a2 - b2) * b2 * y) by (apply Rmult_le_pos; [apply Rmult_le_pos; lra|exact A]). nra.
Qed.
Lemma radius_bounds lat : polar <= radius lat <= equatorial.
Proof.
  pose proof (radius_sq_bounds lat) as (A & B). rewrite radius_sqrt. pose proof polar_pos. pose proof polar_less. split.
  - rewrite <- (sqrt_square polar) by lra. now apply sqrt_le_1_alt.
  - rewrite <- (sqrt_square equatorial) by lra. now apply sqrt_le_1_alt.
Qed.
Lemma radius_zero : radius 0 = equatorial.
Proof.
  rewrite radius_sqrt. pose proof polar_pos. pose proof polar_less. rewrite <- (sqrt_square equatorial) by lra. f_equal.
  unfold radiusSq. rewrite sin_0, cos_0. field. lra.
Qed.
Lemma radius_pole : radius (PI / 2) = polar.
Proof.
  rewrite radius_sqrt. pose proof polar_pos. rewrite <- (sqrt_square polar) by lra. f_equal.
  unfold radiusSq. rewrite sin_PI2, cos_PI2. field. lra.
Qed.
Lemma radius_even x : radius (- x) = radius x.
Proof. rewrite !radius_sqrt. f_equal. unfold radiusSq. rewrite sin_neg, cos_neg. f_equal; ring. Qed.

(** * The angle *)
Lemma half_angle x : sin (x / 2) * sin (x / 2) = (1 - cos x) / 2.
Proof. replace x with (2 * (x / 2)) at 3 by field. rewrite cos_2a_sin. field. Qed.
Lemma hav_dot p q : hav p q = (1 - dot (unitOf p) (unitOf q)) / 2.
Proof.
  unfold haversine. rewrite !d2r_rad. cbn [realNums realTrig realMetres nadd nsub nmul ndiv ksin kcos m2].
  rewrite !half_angle.
  replace (rad (plat p - plat q)) with (rad (plat p) - rad (plat q)) by (unfold rad; ring).
  replace (rad (plon p - plon q)) with (rad (plon p) - rad (plon q)) by (unfold rad; ring).
  rewrite !cos_minus. unfold dot, unitOf. cbn [v3x v3y v3z]. field.
Qed.
Lemma dot_unit p : dot (unitOf p) (unitOf p) = 1.
Proof.
  unfold dot, unitOf. cbn [v3x v3y v3z]. pose proof (sc1 (rad (plat p))) as A. pose proof (sc1 (rad (plon p))) as B.
  set (c := cos (rad (plat p))) in *. set (s := sin (rad (plat p))) in *. set (x := cos (rad (plon p))) in *. set (y := sin (rad (plon p))) in *.
  replace (c * x * (c * x) + c * y * (c * y) + s * s) with (c * c * (y * y + x * x) + s * s) by ring. rewrite B. lra.
Qed.
Lemma cauchy u v : dot u v * dot u v <= dot u u * dot v v.
Proof.
  destruct u as [a b c], v as [x y z]. unfold dot. cbn [v3x v3y v3z].
  pose proof (Rle_0_sqr (a * y - b * x)) as A. pose proof (Rle_0_sqr (a * z - c * x)) as B. pose proof (Rle_0_sqr (b * z - c * y)) as C.
  unfold Rsqr in *. nra.
Qed.
Lemma dot_bounds p q : -1 <= dot (unitOf p) (unitOf q) <= 1.
Proof. pose proof (cauchy (unitOf p) (unitOf q)) as H. rewrite !dot_unit in H. split; nra. Qed.
Lemma dot_sym u v : dot u v = dot v u.
Proof. unfold dot. ring. Qed.

(** The angle as the code has it. *)
Definition angleOf (a : R) : R := 2 * katan2 realTrig (sqrt a) (sqrt (1 - a)).
Lemma angle_ok a : 0 <= a <= 1 -> 0 <= angleOf a <= PI /\ cos (angleOf a) = 1 - 2 * a.
Proof.
  intros H. unfold angleOf. cbn [realTrig katan2]. pose proof PI_RGT_0. destruct (Rlt_dec 0 (sqrt (1 - a))) as [P|P].
  - assert (A1 : 0 < 1 - a) by (apply Rnot_le_lt; intros C; rewrite sqrt_neg_0 in P by exact C; lra).
    assert (Q : 0 <= sqrt a / sqrt (1 - a)) by (apply Rmult_le_pos; [apply sqrt_pos|]; apply Rlt_le, Rinv_0_lt_compat, P).
    pose proof (atan_bound (sqrt a / sqrt (1 - a))) as B. split.
    + split; [|lra]. apply Rmult_le_pos; [lra|]. destruct Q as [Q|Q]; [|rewrite <- Q, atan_0; lra].
      rewrite <- atan_0. left. now apply atan_increasing.
    + rewrite cos_2a_cos. rewrite cos_atan. set (t := sqrt a / sqrt (1 - a)) in *.
      assert (T2 : 1 + t² = / (1 - a)).
      { unfold t, Rsqr. replace (sqrt a / sqrt (1 - a) * (sqrt a / sqrt (1 - a))) with ((sqrt a * sqrt a) / (sqrt (1 - a) * sqrt (1 - a))) by (field; lra).
        rewrite !sqrt_sqrt by lra. field. lra. }
      rewrite T2. assert (I : 0 < / (1 - a)) by now apply Rinv_0_lt_compat.
      replace (2 * (1 / sqrt (/ (1 - a))) * (1 / sqrt (/ (1 - a)))) with (2 / (sqrt (/ (1 - a)) * sqrt (/ (1 - a)))) by (field; pose proof (sqrt_lt_R0 _ I); lra).
      rewrite sqrt_sqrt by lra. field. lra.
  - assert (A1 : a = 1).
    { destruct (Req_dec a 1); [assumption|]. exfalso. apply P. apply sqrt_lt_R0. lra. }
    destruct (Rlt_dec (sqrt (1 - a)) 0) as [N|N]; [pose proof (sqrt_pos (1 - a)); lra|].
    replace (2 * (PI / 2)) with PI by field. rewrite cos_PI. subst a. split; lra.
Qed.
Lemma dist_unfold p q : dist p q = radius (rad (plat p - plat q)) * angleOf (hav p q).
Proof. unfold distance. rewrite d2r_rad. reflexivity. Qed.
Lemma hav_bounds p q : 0 <= hav p q <= 1.
Proof. rewrite hav_dot. pose proof (dot_bounds p q). lra. Qed.
Lemma angle_is p q : angleIs p q (angleOf (hav p q)).
Proof.
  destruct (angle_ok _ (hav_bounds p q)) as (A & B). split; [exact A|]. rewrite B, hav_dot. field.
Qed.
Lemma cos_same x y : 0 <= x <= PI -> 0 <= y <= PI -> cos x = cos y -> x = y.
Proof.
  intros X Y E. destruct (Rtotal_order x y) as [L|[L|L]]; [|exact L|]; exfalso.
  - pose proof (cos_decreasing_1 x y ltac:(lra) ltac:(lra) ltac:(lra) ltac:(lra) L). lra.
  - pose proof (cos_decreasing_1 y x ltac:(lra) ltac:(lra) ltac:(lra) ltac:(lra) L). lra.
Qed.
Lemma cos_order x y : 0 <= x <= PI -> 0 <= y <= PI -> cos y <= cos x -> x <= y.
Proof.
  intros X Y E. destruct (Rle_dec x y) as [L|L]; [exact L|]. exfalso.
  pose proof (cos_decreasing_1 y x ltac:(lra) ltac:(lra) ltac:(lra) ltac:(lra) ltac:(lra)). lra.
Qed.
Lemma angle_unique p q s t : angleIs p q s -> angleIs p q t -> s = t.
Proof. intros (A & B) (C & D). apply cos_same; congruence. Qed.
Lemma dist_angle p q t : angleIs p q t -> dist p q = radius (rad (plat p - plat q)) * t.
Proof. intros H. rewrite dist_unfold. f_equal. eapply angle_unique; [apply angle_is|exact H]. Qed.
Lemma angle_sym p q t : angleIs p q t -> angleIs q p t.
Proof. intros (A & B). split; [exact A|]. now rewrite dot_sym. Qed.
Lemma angle_zero p q : angleIs p q 0 <-> unitOf p = unitOf q.
Proof.
  split.
  - intros (_ & H). rewrite cos_0 in H. pose proof (dot_unit p) as A. pose proof (dot_unit q) as B.
    destruct (unitOf p) as [a b c], (unitOf q) as [x y z]. unfold dot in *. cbn [v3x v3y v3z] in *.
    assert (S : (a - x) * (a - x) + (b - y) * (b - y) + (c - z) * (c - z) = 0) by lra.
    pose proof (Rle_0_sqr (a - x)) as P. pose proof (Rle_0_sqr (b - y)) as Q. pose proof (Rle_0_sqr (c - z)) as U. unfold Rsqr in *.
    assert (a - x = 0) by (apply Rsqr_0_uniq; unfold Rsqr; lra).
    assert (b - y = 0) by (apply Rsqr_0_uniq; unfold Rsqr; lra).
    assert (c - z = 0) by (apply Rsqr_0_uniq; unfold Rsqr; lra). f_equal; lra.
  - intros H. pose proof PI_RGT_0. split; [lra|]. rewrite cos_0, H. now rewrite dot_unit.
Qed.

(** The triangle inequality of angles. *)
Lemma angle_triangle p q r a b c : angleIs p q a -> angleIs q r b -> angleIs p r c -> c <= a + b.
Proof.
  intros (A & CA) (B & CB) (C & CC). destruct (Rle_dec (a + b) PI) as [L|L]; [|lra].
  apply cos_order; [exact C|lra|]. rewrite cos_plus, CC. rewrite CA, CB.
  pose proof (dot_unit p) as U. pose proof (dot_unit q) as V. pose proof (dot_unit r) as W.
  assert (SA : 0 <= sin a) by (apply sin_ge_0; lra). assert (SB : 0 <= sin b) by (apply sin_ge_0; lra).
  pose proof (sc1 a) as Ea. pose proof (sc1 b) as Eb. rewrite CA in Ea. rewrite CB in Eb.
  set (u := unitOf p) in *. set (v := unitOf q) in *. set (w := unitOf r) in *.
  (* the parts of u and w orthogonal to v *)
  set (x := mkV3 (v3x u - dot u v * v3x v) (v3y u - dot u v * v3y v) (v3z u - dot u v * v3z v)).
  set (y := mkV3 (v3x w - dot v w * v3x v) (v3y w - dot v w * v3y v) (v3z w - dot v w * v3z v)).
  assert (XX : dot x x = sin a * sin a).
  { transitivity (dot u u - 2 * (dot u v * dot u v) + dot u v * dot u v * dot v v); [unfold x, dot; cbn [v3x v3y v3z]; ring|]. rewrite U, V. lra. }
  assert (YY : dot y y = sin b * sin b).
  { transitivity (dot w w - 2 * (dot v w * dot v w) + dot v w * dot v w * dot v v); [unfold y, dot; cbn [v3x v3y v3z]; ring|]. rewrite W, V. lra. }
  assert (XY : dot x y = dot u w - dot u v * dot v w).
  { transitivity (dot u w - 2 * (dot u v * dot v w) + dot u v * dot v w * dot v v); [unfold x, y, dot; cbn [v3x v3y v3z]; ring|]. rewrite V. ring. }
  pose proof (cauchy x y) as K. rewrite XX, YY, XY in K.
  assert (SS : 0 <= sin a * sin b) by now apply Rmult_le_pos.
  set (z := dot u w - dot u v * dot v w) in *. assert (- (sin a * sin b) <= z); [|unfold z in *; lra].
  assert (z * z <= (sin a * sin b) * (sin a * sin b)) by (eapply Rle_trans; [exact K|]; apply Req_le; ring). nra.
Qed.

(** * Particular angles *)
Lemma rad_mul x : rad (180 / PI * x) = x.
Proof. unfold rad. field. pose proof PI_RGT_0. lra. Qed.
Lemma rad_add x y : rad (x + y) = rad x + rad y.
Proof. unfold rad. ring. Qed.
Lemma angle_north p d : 0 <= rad d <= PI -> angleIs p (north p d) (rad d).
Proof.
  intros H. split; [exact H|]. unfold dot, unitOf, north. cbn [plat plon v3x v3y v3z]. rewrite rad_add.
  set (x := rad (plat p)). set (d' := rad d). pose proof (sc1 (rad (plon p))) as S. replace d' with ((x + d') - x) at 1 by ring. rewrite cos_minus.
  replace (cos x * cos (rad (plon p)) * (cos (x + d') * cos (rad (plon p))) + cos x * sin (rad (plon p)) * (cos (x + d') * sin (rad (plon p))))
    with (cos x * cos (x + d') * (sin (rad (plon p)) * sin (rad (plon p)) + cos (rad (plon p)) * cos (rad (plon p)))) by ring.
  rewrite S. ring.
Qed.
(** To the east the angle is that of the sine scaled by the cosine of the latitude. *)
Lemma dot_east p d : dot (unitOf p) (unitOf (east p d)) = 1 - 2 * (Rsqr (cos (rad (plat p)) * sin (rad d / 2))).
Proof.
  unfold dot, unitOf, east. cbn [plat plon v3x v3y v3z]. rewrite rad_add.
  unfold Rsqr. set (x := rad (plat p)). set (y := rad (plon p)). set (z := rad d).
  replace (cos x * sin (z / 2) * (cos x * sin (z / 2))) with (cos x * cos x * (sin (z / 2) * sin (z / 2))) by ring.
  rewrite half_angle. replace (cos z) with (cos ((y + z) - y)) by (f_equal; ring). rewrite cos_minus. pose proof (sc1 x). nra.
Qed.
Lemma angle_east p d t : 0 <= t <= PI -> sin (t / 2) = cos (rad (plat p)) * sin (rad d / 2) -> angleIs p (east p d) t.
Proof.
  intros H S. split; [exact H|]. rewrite dot_east, <- S. unfold Rsqr. rewrite half_angle. field.
Qed.

(** * The ellipse *)
Lemma ground_kappa lat x y : groundPoint lat x y -> exists k, 0 < k /\ x = equatorial * equatorial * k * cos lat /\ y = polar * polar * k * sin lat /\
  k * k * ((equatorial * cos lat) * (equatorial * cos lat) + (polar * sin lat) * (polar * sin lat)) = 1.
Proof.
  unfold groundPoint. pose proof polar_pos. pose proof polar_less. set (u := x / _). set (v := y / _). intros (A & B & C).
  assert (X : x = equatorial * equatorial * u) by (unfold u; field; lra). assert (Y : y = polar * polar * v) by (unfold v; field; lra).
  exists (u * cos lat + v * sin lat). pose proof (sc1 lat) as S.
  assert (U : u = (u * cos lat + v * sin lat) * cos lat).
  { replace ((u * cos lat + v * sin lat) * cos lat) with (u * (cos lat * cos lat) + (v * cos lat) * sin lat) by ring. rewrite <- B. transitivity (u * 1); [ring|]. rewrite <- S. ring. }
  assert (V : v = (u * cos lat + v * sin lat) * sin lat).
  { replace ((u * cos lat + v * sin lat) * sin lat) with ((u * sin lat) * cos lat + v * (sin lat * sin lat)) by ring. rewrite B. transitivity (v * 1); [ring|]. rewrite <- S. ring. }
  set (k := u * cos lat + v * sin lat) in *. split; [exact C|]. split; [rewrite X, U; ring|]. split; [rewrite Y, V; ring|].
  rewrite X, Y in A. rewrite U, V in A. rewrite <- A. ring.
Qed.
Lemma ground_radius lat x y : groundPoint lat x y -> radius lat = sqrt (x * x + y * y).
Proof.
  intros H. destruct (ground_kappa lat x y H) as (k & K & X & Y & E). rewrite radius_sqrt. f_equal. unfold radiusSq.
  pose proof (radius_den lat) as D. set (den := _ + _) in E, D |- *.
  apply Rmult_eq_reg_r with den; [|lra]. unfold Rdiv. rewrite Rmult_assoc, Rinv_l by lra. rewrite X, Y.
  rewrite Rmult_1_r.
  transitivity ((k * k * den) * (equatorial * equatorial * cos lat * (equatorial * equatorial * cos lat) + polar * polar * sin lat * (polar * polar * sin lat)));
    [rewrite E; ring|ring].
Qed.
Lemma ground_exists lat : exists x y, groundPoint lat x y.
Proof.
  pose proof polar_pos. pose proof polar_less. pose proof (radius_den lat) as D. set (den := _ + _) in D.
  set (k := / sqrt den). assert (K : 0 < k) by (apply Rinv_0_lt_compat, sqrt_lt_R0, D).
  assert (KK : k * k * den = 1).
  { unfold k. rewrite <- (sqrt_sqrt den) at 3 by lra. field. pose proof (sqrt_lt_R0 _ D). lra. }
  exists (equatorial * equatorial * k * cos lat), (polar * polar * k * sin lat). unfold groundPoint.
  replace (equatorial * equatorial * k * cos lat / (equatorial * equatorial)) with (k * cos lat) by (field; lra).
  replace (polar * polar * k * sin lat / (polar * polar)) with (k * sin lat) by (field; lra).
  split; [|split].
  - rewrite <- KK. unfold den. ring.
  - ring.
  - pose proof (sc1 lat). replace (_ + _) with (k * (sin lat * sin lat + cos lat * cos lat)) by ring. rewrite H1. lra.
Qed.
(** Not at the equator the radius is less. *)
Lemma radius_less lat : sin lat <> 0 -> radius lat < equatorial.
Proof.
  intros N. rewrite radius_sqrt. pose proof polar_pos. pose proof polar_less. rewrite <- (sqrt_square equatorial) by lra.
  apply sqrt_lt_1_alt. pose proof (radius_sq_bounds lat) as (A & _). split; [eapply Rle_trans; [|exact A]; apply Rlt_le, Rmult_lt_0_compat; assumption|].
  unfold radiusSq. pose proof (radius_den lat) as D. set (den := equatorial * cos lat * (equatorial * cos lat) + _) in D |- *.
  apply Rmult_lt_reg_r with den; [exact D|]. unfold Rdiv. rewrite Rmult_assoc, Rinv_l by lra. rewrite Rmult_1_r.
  assert (P : 0 < sin lat * sin lat) by (apply Rlt_0_sqr; exact N). unfold den.
  assert (0 < (equatorial * equatorial - polar * polar) * (polar * polar) * (sin lat * sin lat)).
  { apply Rmult_lt_0_compat; [|exact P]. apply Rmult_lt_0_compat; [|now apply Rmult_lt_0_compat]. nra. }
  nra.
Qed.

(** * Sines *)
Lemma sin_concave l u : 0 <= l <= 1 -> 0 <= u <= PI -> l * sin u <= sin (l * u).
Proof.
  intros Hl Hu. destruct (Req_dec u 0) as [->|N]; [rewrite Rmult_0_r, sin_0; lra|].
  destruct (MVT_cor2 (fun x => sin (l * x) - l * sin x) (fun x => l * cos (l * x) - l * cos x) 0 u) as (c & E & C).
  - lra.
  - intros c _. apply derivable_pt_lim_minus.
    + replace (l * cos (l * c)) with (cos (l * c) * (l * 1)) by ring.
      apply (derivable_pt_lim_comp (fun x => l * x) sin).
      * apply derivable_pt_lim_scal, derivable_pt_lim_id.
      * apply derivable_pt_lim_sin.
    + apply derivable_pt_lim_scal, derivable_pt_lim_sin.
  - rewrite Rmult_0_r, sin_0, Rmult_0_r in E.
    assert (D : cos c <= cos (l * c)).
    { apply cos_decr_1; nra. }
    assert (0 <= l * (cos (l * c) - cos c) * u) by (apply Rmult_le_pos; [apply Rmult_le_pos|]; lra). nra.
Qed.
Lemma sin_cubic u : 0 <= u <= 4 -> u - u * u * u / 6 <= sin u.
Proof.
  intros H. destruct (pre_sin_bound u 0 ltac:(lra) ltac:(lra)) as (A & _). eapply Rle_trans; [|exact A].
  unfold sin_approx, sin_term. cbn. apply Req_le. field.
Qed.
Lemma sin_le_x x : 0 <= x -> sin x <= x.
Proof. intros [H|<-]; [left; now apply sin_lt_x|rewrite sin_0; lra]. Qed.
(** The angle to the east. *)
Lemma east_angle p d : 0 <= cos (rad (plat p)) -> 0 <= rad d <= PI -> exists t, angleIs p (east p d) t /\ 0 <= t / 2 <= PI / 2 /\
  sin (t / 2) = cos (rad (plat p)) * sin (rad d / 2).
Proof.
  intros C D. pose proof (COS_bound (rad (plat p))) as (_ & C1). pose proof PI_RGT_0.
  assert (S : 0 <= sin (rad d / 2)) by (apply sin_ge_0; lra). pose proof (SIN_bound (rad d / 2)) as (_ & S1).
  set (x := cos (rad (plat p)) * sin (rad d / 2)). assert (X : 0 <= x <= 1) by (unfold x; split; [now apply Rmult_le_pos|nra]).
  exists (2 * asin x). replace (2 * asin x / 2) with (asin x) by field.
  assert (A : 0 <= asin x <= PI / 2).
  { pose proof (asin_bound x) as B. split; [|lra]. destruct (Rle_dec 0 (asin x)) as [L|L]; [exact L|]. exfalso.
    assert (sin (asin x) < 0) by (apply sin_lt_0_var; lra). rewrite sin_asin in H0 by lra. lra. }
  split; [|split; [exact A|]].
  - apply angle_east; [lra|]. replace (2 * asin x / 2) with (asin x) by field. rewrite sin_asin by lra. reflexivity.
  - rewrite sin_asin by lra. reflexivity.
Qed.
Lemma sin_order x y : 0 <= x <= PI / 2 -> 0 <= y <= PI / 2 -> sin x <= sin y -> x <= y.
Proof. intros X Y H. apply sin_incr_0; lra. Qed.
