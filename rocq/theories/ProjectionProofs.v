From Coq Require Import Reals ZArith Lra Lia Psatz.
From Flocq Require Import Core.Core.
From Verif Require Import Base GeoModel GeoSpec GeoProofs ProjectionModel ProjectionSpec.
Open Scope R_scope.

Lemma pow2_pos : forall l, 0 < pow2 l.
Proof. intro. apply bpow_gt_0. Qed.

(** * Longitude *)

Lemma lon_exact : forall lon l x,
  lonToTileX exact lon l = x <-> tileXToLon exact x l <= lon < tileXToLon exact (x + 1) l.
Proof.
  intros lon l x. unfold lonToTileX, tileXToLon; cbn [rnd exact].
  assert (P := pow2_pos l). rewrite plus_IZR.
  assert (S : forall z, IZR z / pow2 l * 360 - 180 <= lon <-> IZR z <= (lon + 180) / 360 * pow2 l).
  { intro z. split; intro H.
    - apply Rmult_le_reg_r with (/ pow2 l); [apply Rinv_0_lt_compat; auto|].
      rewrite Rmult_assoc, Rinv_r by lra. unfold Rdiv in H. lra.
    - unfold Rdiv. apply Rmult_le_compat_r with (r := / pow2 l) in H; [|left; apply Rinv_0_lt_compat; auto].
      rewrite Rmult_assoc, Rinv_r in H by lra. unfold Rdiv in H. lra. }
  split.
  - intros <-. split.
    + apply S, Zfloor_lb.
    + apply Rnot_le_lt. intro H. rewrite <- plus_IZR in H. apply S in H.
      pose proof (Zfloor_ub ((lon + 180) / 360 * pow2 l)) as U.
      rewrite plus_IZR in H. lra.
  - intros [H1 H2]. apply Zfloor_imp. split; [apply S; auto|].
    apply Rnot_le_lt. intro H. apply S in H. rewrite plus_IZR in H. lra.
Qed.

(** * Latitude *)

Definition sinh (x : R) : R := 1 / 2 * (exp x - exp (- x)).

Lemma sinh_lt : forall x y, x < y -> sinh x < sinh y.
Proof.
  intros x y H. unfold sinh. assert (exp x < exp y) by (apply exp_increasing; auto).
  assert (exp (- y) < exp (- x)) by (apply exp_increasing; lra). lra.
Qed.

Lemma sinh_lt_iff : forall x y, sinh x < sinh y <-> x < y.
Proof.
  intros x y. split; [|apply sinh_lt]. intro H.
  destruct (Rtotal_order x y) as [|[->|E]]; auto; [lra|]. apply sinh_lt in E. lra.
Qed.

(** Inverse Gudermannian function. *)
Definition mercator (p : R) : R := ln (tan p + 1 / cos p).

Lemma tan_sec_pos : forall p, - (PI / 2) < p < PI / 2 ->
  0 < cos p /\ 0 < tan p + 1 / cos p /\ (tan p + 1 / cos p) * (1 / cos p - tan p) = 1.
Proof.
  intros p Hp. assert (C : 0 < cos p) by (apply cos_gt_0; lra).
  assert (E : (tan p + 1 / cos p) * (1 / cos p - tan p) = 1).
  { unfold tan. pose proof (sin2_cos2 p) as Q. unfold Rsqr in Q.
    replace ((sin p / cos p + 1 / cos p) * (1 / cos p - sin p / cos p))
      with ((1 - sin p * sin p) / (cos p * cos p)) by (field; lra).
    replace (1 - sin p * sin p) with (cos p * cos p) by lra. field. lra. }
  split; auto. split; auto.
  assert (S := SIN_bound p).
  assert (0 <= tan p + 1 / cos p).
  { unfold tan. replace (sin p / cos p + 1 / cos p) with ((1 + sin p) * / cos p) by (field; lra).
    apply Rmult_le_pos; [lra|left; apply Rinv_0_lt_compat; auto]. }
  destruct (Req_dec (tan p + 1 / cos p) 0) as [Z|]; [rewrite Z in E; lra|lra].
Qed.

Lemma sinh_mercator : forall p, - (PI / 2) < p < PI / 2 -> sinh (mercator p) = tan p.
Proof.
  intros p Hp. destruct (tan_sec_pos p Hp) as (C & P & E). unfold sinh, mercator.
  rewrite exp_Ropp, exp_ln by assumption.
  replace (/ (tan p + 1 / cos p)) with (1 / cos p - tan p); [lra|].
  apply Rmult_eq_reg_l with (tan p + 1 / cos p); [|lra]. rewrite E, Rinv_r; lra.
Qed.

Lemma mercator_lt : forall p n, - (PI / 2) < p < PI / 2 ->
  mercator p < n <-> p < atan (sinh n).
Proof.
  intros p n Hp. rewrite <- sinh_lt_iff, sinh_mercator by assumption. split; intro H.
  - rewrite <- (atan_tan p) by lra. apply atan_increasing; auto.
  - rewrite <- (tan_atan (sinh n)). pose proof (atan_bound (sinh n)). apply tan_increasing; lra.
Qed.

Lemma lat_exact : forall lat l y, -90 < lat < 90 ->
  latToTileY exact lat l = y <-> tileYToLat exact (y + 1) l < lat <= tileYToLat exact y l.
Proof.
  intros lat l y Hlat. unfold latToTileY, tileYToLat, radians; cbn [rnd exact ftan fcos flog fexp fatan fpi].
  cbn zeta. assert (P := pow2_pos l). assert (Pi := PI_RGT_0).
  set (p := lat * PI / 180). fold (mercator p).
  assert (Hp : - (PI / 2) < p < PI / 2) by (unfold p; split; nra).
  set (n := fun z => PI - 2 * PI * IZR z / pow2 l).
  change (1 / 2 * (exp ?a - exp (- ?a))) with (sinh a).
  assert (S : forall z, IZR z <= (1 - mercator p / PI) / 2 * pow2 l <-> mercator p <= n z).
  { intro z. unfold n.
    assert (D : (1 - mercator p / PI) / 2 * pow2 l - IZR z
                = (PI - 2 * PI * IZR z / pow2 l - mercator p) * (pow2 l / (2 * PI))) by (field; lra).
    assert (Q : 0 < pow2 l / (2 * PI)) by (apply Rdiv_lt_0_compat; lra).
    split; intro K; [|nra].
    apply Rnot_lt_le. intro. nra. }
  assert (T : forall z, mercator p <= n z <-> lat <= 180 / PI * atan (sinh (n z))).
  { intro z. pose proof (mercator_lt p (n z) Hp) as M.
    assert (E : lat = 180 / PI * p) by (unfold p; field; lra).
    assert (K : 0 < 180 / PI) by (apply Rdiv_lt_0_compat; lra).
    split; intro H.
    - assert (p <= atan (sinh (n z))).
      { destruct (Rle_lt_or_eq_dec _ _ H) as [L|L]; [left; apply M; auto|].
        rewrite <- L, sinh_mercator, atan_tan by lra. lra. }
      rewrite E. apply Rmult_le_compat_l; lra.
    - rewrite E in H. apply Rmult_le_reg_l in H; auto.
      destruct (Rle_lt_or_eq_dec _ _ H) as [L|L]; [left; apply M; auto|].
      right. apply (f_equal tan) in L. rewrite tan_atan, <- sinh_mercator in L by assumption.
      destruct (Rtotal_order (mercator p) (n z)) as [Q|[Q|Q]]; auto; apply sinh_lt in Q; lra. }
  assert (ST : forall z, IZR z <= (1 - mercator p / PI) / 2 * pow2 l <-> lat <= 180 / PI * atan (sinh (n z)))
    by (intro z; rewrite S; apply T).
  split.
  - intros <-. split.
    + apply Rnot_le_lt. intro H. apply ST in H.
      pose proof (Zfloor_ub ((1 - mercator p / PI) / 2 * pow2 l)). rewrite plus_IZR in H. lra.
    + apply ST, Zfloor_lb.
  - intros [H1 H2]. apply Zfloor_imp. split; [apply ST; auto|].
    apply Rnot_le_lt. intro H. apply ST in H. unfold n in H. lra.
Qed.

(** * Tiles in exact arithmetic *)

Lemma toR_max : toR maxLat < 86 /\ toR maxLon < 180 /\ -86 < toR minLat /\ -180 < toR minLon /\
  toR minLat < toR maxLat /\ toR minLon < toR maxLon.
Proof.
  assert (E : forall m e, (0 <= e + 1074)%Z -> toR (dlit m e) = IZR m * bpow radix2 e).
  { intros m e He. unfold toR, dlit. rewrite mult_IZR. change 2%Z with (radix_val radix2) at 1.
    rewrite IZR_Zpower by auto. rewrite Rmult_assoc, <- bpow_plus. do 2 f_equal. lia. }
  unfold maxLat, maxLon, minLat, minLon. rewrite !E by lia. cbn -[IZR]. lra.
Qed.

Lemma clamp_id : forall x lo hi : R, lo <= x <= hi -> clamp rord x lo hi = x.
Proof.
  intros x lo hi H. unfold clamp, stdMax, stdMin; cbn [ltb rord].
  destruct (Rlt_bool_spec hi x); [lra|]. destruct (Rlt_bool_spec lo x); lra.
Qed.

Lemma tile_half_open : forall p l k, withinLimits p ->
  tileOfReal exact p l = k <-> lod k = l /\ insideHalfOpen (tileBoxOf exact k) p.
Proof.
  intros [la lo] l [l' x y] [H1 H2]. cbn [plat plon] in *. unfold tileOfReal, tileOfClamped.
  cbn [plat plon]. rewrite !clamp_id by assumption.
  pose proof toR_max. assert (-90 < la < 90) by lra.
  unfold insideHalfOpen, tileBoxOf; cbn [plat plon bmin bmax lod tileX tileY].
  split.
  - intro E. injection E as <- <- <-. split; auto. split; [apply lat_exact|apply lon_exact]; auto.
  - intros (-> & A & B). f_equal; [apply lon_exact|apply lat_exact]; auto.
Qed.

Lemma tile_interior : forall p k, withinLimits p -> strictlyInside (tileBoxOf exact k) p ->
  tileOfReal exact p (lod k) = k.
Proof.
  intros p k W [H1 H2]. apply tile_half_open; auto. split; auto. split; lra.
Qed.

(** * Enumeration in exact arithmetic *)

Lemma r_meet : forall lo hi lo' hi',
  Rle_bool (stdMax rord lo' lo) (stdMin rord hi' hi) = true <->
  exists x, lo <= x <= hi /\ lo' <= x <= hi'.
Proof.
  intros. unfold stdMax, stdMin; cbn [ltb rord].
  destruct (Rlt_bool_spec lo' lo), (Rlt_bool_spec hi hi');
    match goal with |- Rle_bool ?a ?b = true <-> _ => destruct (Rle_bool_spec a b) end;
    split; try discriminate; auto;
    try (intros (x & ? & ?); lra);
    intros _;
    match goal with H : ?a <= ?b |- _ => exists a; lra end.
Qed.

Lemma intersects_real : forall b c, intersects rord b c = true <-> exists p, inside b p /\ inside c p.
Proof.
  intros b c. unfold intersects, inside. rewrite andb_true_iff. change (leb rord) with Rle_bool.
  rewrite !r_meet. split.
  - intros [(x & ?) (y & ?)]. exists (mkPoint x y). cbn. tauto.
  - intros ([x y] & ? & ?). cbn in *. split; [exists x|exists y]; tauto.
Qed.

Lemma tileX_mono : forall lon lon' l, lon <= lon' -> (lonToTileX exact lon l <= lonToTileX exact lon' l)%Z.
Proof.
  intros. unfold lonToTileX; cbn [rnd exact]. apply Zfloor_le.
  assert (P := pow2_pos l). apply Rmult_le_compat_r; lra.
Qed.

Lemma tileY_mono : forall lat lat' l, -90 < lat -> lat' < 90 -> lat <= lat' ->
  (latToTileY exact lat' l <= latToTileY exact lat l)%Z.
Proof.
  intros lat lat' l H H' L.
  destruct (proj1 (lat_exact lat' l _ ltac:(lra)) eq_refl) as [_ A].
  apply Znot_gt_le. intro G.
  destruct (proj1 (lat_exact lat l _ ltac:(lra)) eq_refl) as [B _].
  assert (C : tileYToLat exact (latToTileY exact lat' l) l <= tileYToLat exact (latToTileY exact lat l + 1) l).
  { assert (Pi := PI_RGT_0). assert (P := pow2_pos l).
    unfold tileYToLat; cbn [rnd exact fpi fexp fatan]; cbn zeta.
    change (1 / 2 * (exp ?a - exp (- ?a))) with (sinh a).
    set (n := PI - 2 * PI * IZR (latToTileY exact lat' l) / pow2 l).
    set (m := PI - 2 * PI * IZR (latToTileY exact lat l + 1) / pow2 l).
    assert (n <= m).
    { unfold n, m. assert (IZR (latToTileY exact lat l + 1) <= IZR (latToTileY exact lat' l)) by (apply IZR_le; lia).
      assert (2 * PI * IZR (latToTileY exact lat l + 1) / pow2 l <= 2 * PI * IZR (latToTileY exact lat' l) / pow2 l).
      { apply Rmult_le_compat_r; [left; apply Rinv_0_lt_compat; auto|]. apply Rmult_le_compat_l; lra. }
      lra. }
    assert (0 < 180 / PI) by (apply Rdiv_lt_0_compat; lra).
    apply Rmult_le_compat_l; [lra|].
    destruct (Rle_lt_or_eq_dec _ _ H0) as [Q| ->]; [|lra].
    left. apply atan_increasing, sinh_lt. auto. }
  lra.
Qed.

Lemma isValid_real : forall b, isValid rord b = true <->
  plat (bmin b) <= plat (bmax b) /\ plon (bmin b) <= plon (bmax b).
Proof.
  intro b. unfold isValid; cbn [leb rord]. rewrite andb_true_iff.
  destruct (Rle_bool_spec (plat (bmin b)) (plat (bmax b))),
    (Rle_bool_spec (plon (bmin b)) (plon (bmax b))); split; intros; try tauto; try lra;
    destruct H1; discriminate.
Qed.

Lemma lat_between : forall lo hi l y, -90 < lo -> hi < 90 -> lo <= hi ->
  (latToTileY exact hi l <= y <= latToTileY exact lo l)%Z ->
  exists lat, lo <= lat <= hi /\ latToTileY exact lat l = y.
Proof.
  intros lo hi l y H1 H2 H3 [A B].
  destruct (Z.eq_dec (latToTileY exact lo l) y) as [E|E]; [exists lo; split; auto; lra|].
  exists (Rmin hi (tileYToLat exact y l)).
  destruct (proj1 (lat_exact hi l _ ltac:(lra)) eq_refl) as [C D].
  destruct (proj1 (lat_exact lo l _ ltac:(lra)) eq_refl) as [C' D'].
  assert (M : forall a b, (a < b)%Z -> tileYToLat exact b l < tileYToLat exact a l).
  { intros a b Hab. assert (Pi := PI_RGT_0). assert (P := pow2_pos l).
    unfold tileYToLat; cbn [rnd exact fpi fexp fatan]; cbn zeta.
    change (1 / 2 * (exp ?u - exp (- ?u))) with (sinh u).
    apply Rmult_lt_compat_l; [apply Rdiv_lt_0_compat; lra|].
    apply atan_increasing, sinh_lt.
    assert (IZR a < IZR b) by (apply IZR_lt; auto).
    assert (2 * PI * IZR a / pow2 l < 2 * PI * IZR b / pow2 l); [|lra].
    apply Rmult_lt_compat_r; [apply Rinv_0_lt_compat; auto|]. apply Rmult_lt_compat_l; lra. }
  assert (Q : lo <= tileYToLat exact y l).
  { apply Rle_trans with (1 := D'). 
    assert (Hlt : (y < latToTileY exact lo l)%Z) by lia. left. apply M; auto. }
  assert (W : tileYToLat exact (y + 1) l < Rmin hi (tileYToLat exact y l)).
  { apply Rmin_glb_lt; [|apply M; lia].
    destruct (Z.eq_dec y (latToTileY exact hi l)) as [->|]; auto.
    apply Rlt_trans with (2 := C). apply M. lia. }
  assert (R1 := Rmin_l hi (tileYToLat exact y l)). assert (R2 := Rmin_r hi (tileYToLat exact y l)).
  split; [split; auto; apply Rmin_glb; auto|].
  apply lat_exact; [|split; auto]. split; [apply Rmin_case; lra|lra].
Qed.

Lemma lon_between : forall lo hi l x, lo <= hi ->
  (lonToTileX exact lo l <= x <= lonToTileX exact hi l)%Z ->
  exists lon, lo <= lon <= hi /\ lonToTileX exact lon l = x.
Proof.
  intros lo hi l x H [A B].
  destruct (Z.eq_dec (lonToTileX exact lo l) x) as [E|E]; [exists lo; split; auto; lra|].
  exists (tileXToLon exact x l).
  destruct (proj1 (lon_exact hi l _) eq_refl) as [C D].
  destruct (proj1 (lon_exact lo l _) eq_refl) as [C' D'].
  assert (M : forall a b, (a < b)%Z -> tileXToLon exact a l < tileXToLon exact b l).
  { intros a b Hab. assert (P := pow2_pos l). unfold tileXToLon; cbn [rnd exact].
    assert (IZR a < IZR b) by (apply IZR_lt; auto).
    assert (IZR a / pow2 l < IZR b / pow2 l); [|lra].
    apply Rmult_lt_compat_r; auto. apply Rinv_0_lt_compat; auto. }
  split; [|apply lon_exact; split; [lra|apply M; lia]].
  split.
  - destruct (Z.eq_dec (lonToTileX exact lo l + 1) x) as [<-|]; [lra|].
    apply Rlt_le, Rlt_trans with (1 := D'). apply M; lia.
  - destruct (Z.eq_dec x (lonToTileX exact hi l)) as [->|]; [lra|].
    apply Rlt_le, Rlt_le_trans with (2 := C). apply M; lia.
Qed.

Lemma visit_exact : forall b l k,
  withinLimits (bmin b) -> withinLimits (bmax b) ->
  In k (map fst (visitTileRange rord (tileOfReal exact) (tileBoxOf exact) b l)) <->
  exists p, inside b p /\ tileOfReal exact p l = k.
Proof.
  intros b l k [L1 L2] [L3 L4]. pose proof toR_max as TM.
  assert (T : forall la lo, toR minLat <= la <= toR maxLat -> toR minLon <= lo <= toR maxLon ->
    tileOfReal exact (mkPoint la lo) l = mkKey l (lonToTileX exact lo l) (latToTileY exact la l)).
  { intros. unfold tileOfReal, tileOfClamped; cbn [plat plon]. rewrite !clamp_id by assumption. reflexivity. }
  destruct b as [[la lo] [la' lo']]; cbn [bmin bmax plat plon] in *.
  rewrite in_map_iff. split.
  - intros ([k' kb] & <- & H). apply in_visit in H. cbn [bmin bmax fst] in *.
    destruct H as (V & _ & L & X & Y & _). apply isValid_real in V. cbn [bmin bmax plat plon] in V.
    rewrite !T in X, Y by auto. cbn [tileX tileY] in *.
    destruct (lat_between la la' l (tileY k')) as (u & U1 & U2); try lra; auto.
    destruct (lon_between lo lo' l (tileX k')) as (v & V1 & V2); try lra; auto.
    exists (mkPoint u v). split; [split; cbn [bmin bmax plat plon]; lra|].
    rewrite T by lra. rewrite U2, V2. rewrite <- L. destruct k'; reflexivity.
  - intros ([u v] & [I1 I2] & E). cbn [bmin bmax plat plon] in *.
    exists (k, tileBoxOf exact k). split; [reflexivity|].
    apply in_visit. cbn [bmin bmax].
    assert (HH := proj1 (tile_half_open (mkPoint u v) l k
             (conj (conj (Rle_trans _ _ _ (proj1 L1) (proj1 I1)) (Rle_trans _ _ _ (proj2 I1) (proj2 L3)))
                   (conj (Rle_trans _ _ _ (proj1 L2) (proj1 I2)) (Rle_trans _ _ _ (proj2 I2) (proj2 L4))))) E).
    destruct HH as [HL HO].
    rewrite !T by auto. rewrite T in E by lra. subst k. cbn [tileX tileY lod].
    split; [apply isValid_real; cbn [bmin bmax plat plon]; lra|].
    split; [reflexivity|]. split; [reflexivity|].
    split; [split; apply tileX_mono; lra|].
    split; [split; apply tileY_mono; lra|].
    apply intersects_real. exists (mkPoint u v). split; [split; cbn [bmin bmax plat plon]; lra|].
    destruct HO as [O1 O2]. split; lra.
Qed.
