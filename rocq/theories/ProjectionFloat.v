(** Tile coordinates computed with binary64 rounding stay inside the pyramid. *)
From Coq Require Import Reals ZArith Lra Lia Psatz.
From Flocq Require Import Core.Core Relative.
From Verif Require Import Base GeoModel GeoSpec GeoProofs ProjectionModel ProjectionSpec ProjectionProofs ProjectionNumeric.
Open Scope R_scope.

Local Notation fexp64 := (FLT_exp (-1074) 53).

Local Instance prec53 : Prec_gt_0 53. Proof. reflexivity. Qed.

(** * Rounding *)

Lemma rnd64_mono : forall x y, x <= y -> rnd64 x <= rnd64 y.
Proof. intros. unfold rnd64. apply round_le; auto with typeclass_instances. Qed.

Lemma rnd64_0 : rnd64 0 = 0.
Proof. apply round_0; auto with typeclass_instances. Qed.

Lemma rnd64_double : forall x, double (rnd64 x).
Proof. intro. apply generic_format_round; auto with typeclass_instances. Qed.

Lemma rnd64_opp : forall x, rnd64 (- x) = - rnd64 x.
Proof. intro. apply round_NE_opp. Qed.

Definition eta : R := bpow radix2 (-1074).

Lemma eta_small : 0 < eta < 0.0000000000000000000000001.
Proof.
  split; [apply bpow_gt_0|]. apply Rle_lt_trans with (bpow radix2 (-90)).
  - apply bpow_le. lia.
  - cbn -[IZR]. lra.
Qed.

Lemma bpow50 : bpow radix2 (-50) = 1 / 1125899906842624.
Proof. cbn -[IZR]. lra. Qed.

Lemma rnd64_error : forall x, Rabs (rnd64 x - x) <= 1 / 9007199254740992 * Rabs x + eta.
Proof.
  intro x.
  destruct (error_N_FLT radix2 (-1074) 53 eq_refl (fun n => negb (Z.even n)) x)
    as (e & h & He & Hh & _ & E).
  unfold rnd64. rewrite E.
  replace (x * (1 + e) + h - x) with (x * e + h) by ring.
  eapply Rle_trans; [apply Rabs_triang|]. rewrite Rabs_mult, Rmult_comm.
  assert (u_ro radix2 53 = 1 / 9007199254740992).
  { unfold u_ro. cbn -[IZR]. lra. }
  apply Rplus_le_compat.
  - apply Rmult_le_compat_r; [apply Rabs_pos|]. eapply Rle_trans; [exact He|].
    cbn -[IZR]. lra.
  - eapply Rle_trans; [exact Hh|]. unfold eta. assert (0 < bpow radix2 (-1074)) by apply bpow_gt_0. lra.
Qed.

(** A handy form: the rounding of a bounded number. *)
Lemma rnd64_bounded : forall x m, Rabs x <= m -> Rabs (rnd64 x - x) <= 1 / 9007199254740992 * m + eta.
Proof.
  intros x m H. eapply Rle_trans; [apply rnd64_error|].
  apply Rplus_le_compat_r. apply Rmult_le_compat_l; lra.
Qed.

Lemma rnd64_abs : forall x m, Rabs x <= m -> Rabs (rnd64 x) <= m + 1 / 9007199254740992 * m + eta.
Proof.
  intros x m H. assert (B := rnd64_bounded x m H).
  replace (rnd64 x) with (x + (rnd64 x - x)) by ring.
  eapply Rle_trans; [apply Rabs_triang|]. lra.
Qed.

(** The final step of both functions: scale a fraction and truncate. *)
Lemma scaled_floor : forall h l, (0 <= l)%Z -> 0 <= h <= 1 - 0.00000000001 ->
  (0 <= Zfloor (rnd64 (h * pow2 l)) < 2 ^ l)%Z.
Proof.
  intros h l Hl [H0 H1]. assert (P := pow2_pos l).
  assert (P1 : 1 <= pow2 l) by (change 1 with (bpow radix2 0); apply bpow_le; auto).
  split.
  - apply Zfloor_lub. rewrite <- rnd64_0. apply rnd64_mono. apply Rmult_le_pos; lra.
  - apply lt_IZR. apply Rle_lt_trans with (1 := Zfloor_lb _).
    change (2 ^ l)%Z with (radix_val radix2 ^ l)%Z. rewrite IZR_Zpower by auto.
    assert (B := rnd64_bounded (h * pow2 l) (pow2 l)).
    assert (E := eta_small). fold (pow2 l).
    assert (A : Rabs (h * pow2 l) <= pow2 l).
    { rewrite Rabs_pos_eq by (apply Rmult_le_pos; lra). nra. }
    specialize (B A). apply Rabs_le_inv in B. nra.
Qed.

(** * Longitude *)

Lemma toR_lon : toR maxLon <= 179.99999990001 /\ -179.99999990001 <= toR minLon.
Proof.
  assert (E : forall m e, (0 <= e + 1074)%Z -> toR (dlit m e) = IZR m * bpow radix2 e).
  { intros m e He. unfold toR, dlit. rewrite mult_IZR. change 2%Z with (radix_val radix2) at 1.
    rewrite IZR_Zpower by auto. rewrite Rmult_assoc, <- bpow_plus. do 2 f_equal. lia. }
  unfold maxLon, minLon. rewrite !E by lia. cbn -[IZR]. lra.
Qed.

Lemma toR_lat : toR maxLat = 5984941122437689 / 70368744177664 /\
                toR minLat = - (5984941122437689 / 70368744177664).
Proof.
  assert (E : forall m e, (0 <= e + 1074)%Z -> toR (dlit m e) = IZR m * bpow radix2 e).
  { intros m e He. unfold toR, dlit. rewrite mult_IZR. change 2%Z with (radix_val radix2) at 1.
    rewrite IZR_Zpower by auto. rewrite Rmult_assoc, <- bpow_plus. do 2 f_equal. lia. }
  unfold maxLat, minLat. rewrite !E by lia. cbn -[IZR]. lra.
Qed.

Lemma lon_float : forall a lon l, rnd a = rnd64 -> (0 <= l)%Z ->
  toR minLon <= lon <= toR maxLon -> (0 <= lonToTileX a lon l < 2 ^ l)%Z.
Proof.
  intros a lon l Ha Hl H. unfold lonToTileX. rewrite Ha. assert (T := toR_lon). assert (E := eta_small).
  apply scaled_floor; auto.
  assert (B : Rabs (rnd64 (lon + 180) - (lon + 180)) <= 1 / 9007199254740992 * 360 + eta).
  { apply rnd64_bounded. apply Rabs_le. lra. }
  apply Rabs_le_inv in B.
  assert (0 <= rnd64 (lon + 180)).
  { rewrite <- rnd64_0. apply rnd64_mono. lra. }
  split.
  - rewrite <- rnd64_0. apply rnd64_mono. lra.
  - assert (B' : Rabs (rnd64 (rnd64 (lon + 180) / 360) - rnd64 (lon + 180) / 360) <= 1 / 9007199254740992 * 1 + eta).
    { apply rnd64_bounded. apply Rabs_le. lra. }
    apply Rabs_le_inv in B'. lra.
Qed.

(** * Latitude *)

Lemma pi64_near : PI * (1 - 0.000000000001) <= pi64 <= PI * (1 + 0.0000000000005).
Proof.
  assert (P := pi_low). assert (P' := pi_high). unfold pi64, F2R. cbn -[IZR]. lra.
Qed.

Lemma radians_bound : forall a lat, rnd a = rnd64 -> fpi a = pi64 ->
  toR minLat <= lat <= toR maxLat -> Rabs (radians a lat) <= limitRadians.
Proof.
  intros a lat Ha Hp H. unfold radians. rewrite Ha, Hp.
  destruct toR_lat as [E1 E2]. assert (N := pi64_near). assert (P := pi_low). assert (P' := pi_high).
  assert (E := eta_small).
  set (M := 5984941122437689 / 70368744177664) in *. assert (HM : 85 < M < 86) by (unfold M; lra).
  assert (A : Rabs (lat * pi64) <= M * pi64).
  { rewrite Rabs_mult, (Rabs_pos_eq pi64) by lra. apply Rmult_le_compat_r; [lra|]. apply Rabs_le. lra. }
  apply rnd64_abs in A.
  assert (A' : Rabs (rnd64 (lat * pi64) / 180) <= (M * pi64 + 1 / 9007199254740992 * (M * pi64) + eta) / 180).
  { unfold Rdiv at 1. rewrite Rabs_mult, (Rabs_pos_eq (/ 180)) by lra. unfold Rdiv.
    apply Rmult_le_compat_r; lra. }
  apply rnd64_abs in A'. eapply Rle_trans; [exact A'|].
  unfold limitRadians. fold M.
  assert (M * pi64 <= M * (PI * (1 + 0.0000000000005))) by (apply Rmult_le_compat_l; lra).
  assert (267 < M * PI) by nra.
  lra.
Qed.

Lemma exp4 : exp 4 <= 81.
Proof.
  replace 4 with (1 + 1 + 1 + 1) by ring. rewrite !exp_plus. assert (E := exp_le_3).
  assert (P := exp_pos 1). 
  assert (exp 1 * exp 1 <= 9) by nra. assert (0 <= exp 1 * exp 1) by nra. nra.
Qed.

(** The argument of the logarithm and its logarithm. *)
Lemma log_argument : forall a b, binary64 a -> double b -> Rabs b <= limitRadians ->
  let u := rnd64 (ftan a b + rnd64 (1 / fcos a b)) in
  double u /\ 0 < u /\ Rabs (ln u) <= PI - 0.0000000008.
Proof.
  intros a b (Hr & Hpi & Ht & Hc & Hl) Db Hb u.
  split; [apply rnd64_double|].
  assert (P := pi_low). assert (P' := pi_high). assert (L := limitRadians_small).
  assert (M := mercator_limit b Hb).
  assert (E := eta_small).
  assert (Hb2 : Rabs b < PI / 2) by lra.
  specialize (Ht b Db Hb2). specialize (Hc b Db Hb2).
  rewrite bpow50 in Ht, Hc. fold eta in Ht, Hc.
  assert (Ib : - (PI / 2) < b < PI / 2) by (apply Rabs_def2 in Hb2; lra).
  destruct (tan_sec_pos b Ib) as (C & G & Q).
  set (g := tan b + 1 / cos b) in *.
  assert (Hm : g = exp (mercator b)) by (unfold mercator; rewrite exp_ln; auto).
  apply Rabs_def2 in M.
  assert (E4 := exp4).
  assert (G1 : g <= 81).
  { rewrite Hm. apply Rle_trans with (2 := E4). left. apply exp_increasing. lra. }
  assert (G2 : 1 / cos b - tan b <= 81).
  { replace (1 / cos b - tan b) with (exp (- mercator b)).
    - apply Rle_trans with (2 := E4). left. apply exp_increasing. lra.
    - rewrite exp_Ropp, <- Hm. apply Rmult_eq_reg_l with g; [|lra]. rewrite Rinv_r; lra. }
  assert (G2' : 0 < 1 / cos b - tan b).
  { destruct (Rle_lt_dec (1 / cos b - tan b) 0); auto. nra. }
  assert (G3 : 1 / 81 <= g) by nra.
  assert (S1 : 1 / cos b <= 81) by (unfold g in *; lra).
  assert (T1 : Rabs (tan b) <= 81) by (apply Rabs_le; unfold g in *; lra).
  assert (C1 : 1 / 81 <= cos b).
  { assert (1 <= 81 * cos b); [|lra].
    apply Rmult_le_reg_r with (/ cos b); [apply Rinv_0_lt_compat; auto|].
    rewrite Rmult_assoc, Rinv_r by lra. lra. }
  assert (C2 : cos b <= 1) by apply COS_bound.
  (* tangent *)
  assert (Et : Rabs (ftan a b - tan b) <= 0.0000000000001).
  { eapply Rle_trans; [exact Ht|]. nra. }
  (* cosine *)
  rewrite (Rabs_pos_eq (cos b)) in Hc by lra.
  set (c := fcos a b) in *.
  assert (Ec : Rabs (c - cos b) <= 0.000000000000002).
  { eapply Rle_trans; [exact Hc|]. nra. }
  assert (Hc' : Rabs (c - cos b) <= cos b * 0.000000000000001).
  { eapply Rle_trans; [exact Hc|]. nra. }
  clear Hc.
  apply Rabs_le_inv in Ec. apply Rabs_le_inv in Hc'.
  assert (C3 : 0.0123 < c) by lra.
  assert (Es : Rabs (1 / c - 1 / cos b) <= 0.0000000000001).
  { replace (1 / c - 1 / cos b) with ((cos b - c) / cos b * / c) by (field; lra).
    rewrite Rabs_mult.
    assert (R1 : Rabs ((cos b - c) / cos b) <= 0.000000000000001).
    { unfold Rdiv. rewrite Rabs_mult, (Rabs_pos_eq (/ cos b)) by (left; apply Rinv_0_lt_compat; auto).
      apply Rmult_le_reg_r with (cos b); auto. rewrite Rmult_assoc, Rinv_l by lra.
      rewrite Rmult_1_r, Rabs_minus_sym. rewrite Rmult_comm. apply Rabs_le. lra. }
    assert (R2 : 0 < / c <= 82).
    { split; [apply Rinv_0_lt_compat; lra|]. apply Rmult_le_reg_l with c; [lra|]. rewrite Rinv_r by lra. lra. }
    rewrite (Rabs_pos_eq (/ c)) by lra.
    assert (0 <= Rabs ((cos b - c) / cos b)) by apply Rabs_pos. nra. }
  apply Rabs_le_inv in Es. apply Rabs_le_inv in Et. apply Rabs_le_inv in T1.
  assert (Rs : Rabs (rnd64 (1 / c) - 1 / c) <= 1 / 9007199254740992 * 82 + eta).
  { apply rnd64_bounded. apply Rabs_le. assert (0 < 1 / cos b) by (apply Rdiv_lt_0_compat; lra). lra. }
  apply Rabs_le_inv in Rs.
  assert (Ru : Rabs (u - (ftan a b + rnd64 (1 / c))) <= 1 / 9007199254740992 * 170 + eta).
  { apply rnd64_bounded. apply Rabs_le. assert (0 < 1 / cos b) by (apply Rdiv_lt_0_compat; lra). lra. }
  apply Rabs_le_inv in Ru.
  assert (U : Rabs (u - g) <= 0.000000000001).
  { apply Rabs_le. unfold g. lra. }
  apply Rabs_le_inv in U.
  assert (U0 : 0 < u) by lra. split; auto.
  (* logarithm *)
  assert (D : Rabs (u / g - 1) <= 0.0000000001).
  { replace (u / g - 1) with ((u - g) * / g) by (field; lra).
    rewrite Rabs_mult. assert (R2 : 0 < / g <= 81).
    { split; [apply Rinv_0_lt_compat; lra|]. apply Rmult_le_reg_l with g; [lra|]. rewrite Rinv_r by lra. lra. }
    rewrite (Rabs_pos_eq (/ g)) by lra.
    assert (Rabs (u - g) <= 0.000000000001) by (apply Rabs_le; lra).
    assert (0 <= Rabs (u - g)) by apply Rabs_pos. nra. }
  apply Rabs_le_inv in D.
  assert (Y : 0 < u / g) by (apply Rdiv_lt_0_compat; lra).
  assert (Lu : ln u = mercator b + ln (u / g)).
  { unfold mercator. fold g. rewrite <- ln_mult by assumption. f_equal. field. lra. }
  assert (Up : forall y, 0 < y -> ln y <= y - 1).
  { intros y Hy. apply Rnot_lt_le. intro K. apply exp_increasing in K. rewrite exp_ln in K by assumption.
    assert (H1 := exp_ineq1_le (y - 1)). lra. }
  assert (L1 := Up _ Y).
  assert (L2 : - ln (u / g) <= / (u / g) - 1).
  { rewrite <- ln_Rinv by assumption. apply Up. apply Rinv_0_lt_compat; auto. }
  assert (L3 : / (u / g) <= 1 + 0.00000000011).
  { apply Rmult_le_reg_l with (u / g); auto. rewrite Rinv_r by lra. nra. }
  rewrite Lu. apply Rabs_le. lra.
Qed.

Lemma lat_float : forall a lat l, binary64 a -> (0 <= l)%Z ->
  toR minLat <= lat <= toR maxLat -> (0 <= latToTileY a lat l < 2 ^ l)%Z.
Proof.
  intros a lat l Ha Hl H. assert (HB := Ha). destruct Ha as (Hr & Hpi & _ & _ & Hlog).
  assert (B := radians_bound a lat Hr Hpi H).
  assert (D : double (radians a lat)) by (unfold radians; rewrite Hr; apply rnd64_double).
  destruct (log_argument a (radians a lat) HB D B) as (Du & Pu & Lu).
  unfold latToTileY. rewrite Hr, Hpi in *. apply scaled_floor; auto.
  set (u := rnd64 (ftan a (radians a lat) + rnd64 (1 / fcos a (radians a lat)))) in *.
  assert (P := pi_low). assert (P' := pi_high). assert (E := eta_small). assert (N := pi64_near).
  specialize (Hlog u Du Pu). rewrite bpow50 in Hlog. fold eta in Hlog.
  set (v := flog a u) in *. clearbody v u.
  assert (V : Rabs v <= PI - 0.0000000007).
  { replace v with (ln u + (v - ln u)) by ring. eapply Rle_trans; [apply Rabs_triang|]. lra. }
  assert (Q : Rabs (v / pi64) <= 1 - 0.0000000002).
  { unfold Rdiv. assert (0 < pi64) by lra.
    rewrite Rabs_mult, (Rabs_pos_eq (/ pi64)) by (left; apply Rinv_0_lt_compat; auto).
    apply Rmult_le_reg_r with pi64; auto. rewrite Rmult_assoc, Rinv_l by lra. nra. }
  apply rnd64_abs in Q. apply Rabs_le_inv in Q.
  set (q := rnd64 (v / pi64)) in *. clearbody q.
  assert (R1 : Rabs (rnd64 (1 - q) - (1 - q)) <= 1 / 9007199254740992 * 2 + eta).
  { apply rnd64_bounded. apply Rabs_le. lra. }
  apply Rabs_le_inv in R1.
  assert (R2 : Rabs (rnd64 (rnd64 (1 - q) / 2) - rnd64 (1 - q) / 2) <= 1 / 9007199254740992 * 2 + eta).
  { apply rnd64_bounded. apply Rabs_le. lra. }
  apply Rabs_le_inv in R2. lra.
Qed.

(** * All doubles *)

Lemma clamp_dbl : forall d lo hi, (lo <= hi)%Z ->
  exists m, clamp dord d (Fin lo) (Fin hi) = Fin m /\ (lo <= m <= hi)%Z.
Proof.
  intros d lo hi H. unfold clamp, stdMax, stdMin; cbn [ltb dord].
  destruct d as [|[]|x]; cbn [dltb negb].
  - exists lo; split; [reflexivity|lia].
  - exists lo; split; [reflexivity|lia].
  - destruct (Z.ltb_spec lo hi); eexists; (split; [reflexivity|lia]).
  - destruct (Z.ltb_spec hi x); cbn [dltb].
    + destruct (Z.ltb_spec lo hi); eexists; (split; [reflexivity|lia]).
    + destruct (Z.ltb_spec lo x); eexists; (split; [reflexivity|lia]).
Qed.

Lemma clamp_toR : forall d lo hi, (lo <= hi)%Z ->
  toR (Fin lo) <= toR (clamp dord d (Fin lo) (Fin hi)) <= toR (Fin hi).
Proof.
  intros d lo hi H. destruct (clamp_dbl d lo hi H) as (m & -> & M). unfold toR.
  assert (0 < bpow radix2 (-1074)) by apply bpow_gt_0.
  split; apply Rmult_le_compat_r; try lra; apply IZR_le; lia.
Qed.

Lemma tile_float : forall a p l, binary64 a -> (0 <= l)%Z -> tile (tileOfDouble a p l).
Proof.
  intros a p l Ha Hl. unfold tileOfDouble. split; [exact Hl|]. cbn [lod tileX tileY]. split.
  - apply lon_float; auto; [apply Ha|]. apply clamp_toR.
    apply Z.mul_le_mono_nonneg_r; [apply Z.pow_nonneg; lia|lia].
  - apply lat_float; auto. apply clamp_toR.
    apply Z.mul_le_mono_nonneg_r; [apply Z.pow_nonneg; lia|lia].
Qed.

(** A library that rounds the exact value correctly is accurate. *)
Definition roundedLibrary : arith :=
  mkArith rnd64 (fun x => rnd64 (tan x)) (fun x => rnd64 (cos x)) (fun x => rnd64 (ln x))
          (fun x => rnd64 (exp x)) (fun x => rnd64 (atan x)) pi64.

Lemma roundedLibrary_binary64 : binary64 roundedLibrary.
Proof.
  assert (A : forall P g, accurate P (fun x => rnd64 (g x)) g).
  { intros P g x _ _. eapply Rle_trans; [apply rnd64_error|]. rewrite bpow50. fold eta.
    assert (0 <= Rabs (g x)) by apply Rabs_pos. lra. }
  repeat split; apply A.
Qed.

(** The same in exact arithmetic. *)
Lemma mercator_limit_exact : forall lat, toR minLat <= lat <= toR maxLat ->
  Rabs (mercator (lat * PI / 180)) < PI.
Proof.
  intros lat H. destruct toR_lat as [E1 E2]. assert (P := pi_low).
  eapply Rlt_trans; [apply mercator_limit|lra].
  unfold limitRadians. apply Rabs_le. rewrite E1, E2 in H. nra.
Qed.

Lemma tile_exact : forall p l, (0 <= l)%Z -> tile (tileOfReal exact p l).
Proof.
  intros p l Hl. assert (C : forall x lo hi : R, lo < hi -> lo <= clamp rord x lo hi <= hi).
  { intros x lo hi H. unfold clamp, stdMax, stdMin; cbn [ltb rord].
    destruct (Rlt_bool_spec hi x); [destruct (Rlt_bool_spec lo hi)|destruct (Rlt_bool_spec lo x)]; lra. }
  pose proof toR_max as T. assert (P := pow2_pos l).
  assert (F : forall f, 0 <= f < 1 -> (0 <= Zfloor (f * pow2 l) < 2 ^ l)%Z).
  { intros f Hf. split.
    - apply Zfloor_lub. apply Rmult_le_pos; lra.
    - apply lt_IZR. apply Rle_lt_trans with (1 := Zfloor_lb _).
      change (2 ^ l)%Z with (radix_val radix2 ^ l)%Z. rewrite IZR_Zpower by auto. fold (pow2 l). nra. }
  unfold tileOfReal, tileOfClamped. split; [exact Hl|]. cbn [lod tileX tileY plat plon]. split.
  - unfold lonToTileX; cbn [rnd exact]. apply F.
    assert (Q := C (plon p) (toR minLon) (toR maxLon)). lra.
  - unfold latToTileY, radians; cbn [rnd exact ftan fcos flog fpi]. apply F.
    set (la := clamp rord (plat p) _ _).
    assert (Q := C (plat p) (toR minLat) (toR maxLat)). fold la in Q.
    assert (M := mercator_limit_exact la ltac:(lra)). apply Rabs_def2 in M.
    fold (mercator (la * PI / 180)). assert (Pi := PI_RGT_0).
    assert (-1 < mercator (la * PI / 180) / PI < 1); [|lra].
    split; apply Rmult_lt_reg_r with PI; auto; unfold Rdiv; rewrite Rmult_assoc, Rinv_l by lra; lra.
Qed.
