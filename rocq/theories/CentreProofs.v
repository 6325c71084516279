(** Centres of distinct tiles are further apart than the tolerance of the comparison. *)
From Coq Require Import Reals ZArith Lia Lra.
From Flocq Require Import Core.Core.
From Verif Require Import Base GeoModel GeoSpec ProjectionModel ProjectionProofs.
Open Scope R_scope.

Lemma gd_deriv : forall n, derivable_pt_lim (fun x => atan (Rtrigo_def.sinh x)) n (1 / (1 + (Rtrigo_def.sinh n) ^ 2) * cosh n).
Proof.
  intros n. apply (derivable_pt_lim_comp Rtrigo_def.sinh atan n (cosh n) (1 / (1 + (Rtrigo_def.sinh n) ^ 2))).
  - apply derivable_pt_lim_sinh.
  - replace (1 / (1 + (Rtrigo_def.sinh n) ^ 2)) with (/ (1 + (Rtrigo_def.sinh n) ^ 2)) by (unfold Rdiv; ring).
    apply derivable_pt_lim_atan.
Qed.

Lemma cosh_bound : forall n, -4 <= n <= 4 -> 0 < cosh n <= 81.
Proof.
  intros n H. unfold cosh.
  assert (E4 : exp 4 <= 81).
  { replace 4 with (1 + (1 + (1 + 1))) by ring. rewrite !exp_plus. pose proof exp_le_3 as E. pose proof (exp_pos 1).
    assert (exp 1 * exp 1 <= 9) by nra. nra. }
  assert (exp n <= exp 4) by (destruct (Req_dec n 4) as [->|]; [lra|left; apply exp_increasing; lra]).
  assert (exp (- n) <= exp 4) by (destruct (Req_dec (- n) 4) as [->|]; [lra|left; apply exp_increasing; lra]).
  pose proof (exp_pos n). pose proof (exp_pos (- n)). lra.
Qed.

Lemma gd_gap : forall a b, -4 <= a -> b <= 4 -> a < b -> (b - a) / 81 <= atan (Rtrigo_def.sinh b) - atan (Rtrigo_def.sinh a).
Proof.
  intros a b Ha Hb Hab.
  destruct (MVT_cor2 (fun x => atan (Rtrigo_def.sinh x)) (fun n => 1 / (1 + (Rtrigo_def.sinh n) ^ 2) * cosh n) a b Hab) as (c & E & Hc).
  { intros c _. apply gd_deriv. }
  rewrite E. pose proof (cosh_bound c) as Bc. destruct Bc as [C0 C1]; [lra|].
  assert (S : (1 + (Rtrigo_def.sinh c) ^ 2) = cosh c * cosh c).
  { unfold Rtrigo_def.sinh, cosh. assert (X : exp c * exp (- c) = 1) by (rewrite <- exp_plus, Rplus_opp_r; apply exp_0). nra. }
  rewrite S. replace (1 / (cosh c * cosh c) * cosh c) with (/ cosh c) by (field; lra).
  assert (/ 81 <= / cosh c) by (apply Rinv_le; lra). nra.
Qed.

(** PI is below 4. *)
Lemma lat_gap : forall l y y', (0 <= l <= 19)%Z -> (0 <= y < y')%Z -> (y' <= 2 ^ l)%Z ->
  bpow radix2 (-51) <= tileYToLat exact y l - tileYToLat exact y' l.
Proof.
  intros l y y' Hl Hy Hy'. unfold tileYToLat, exact. cbn [rnd fpi fatan fexp].
  assert (P : 0 < PI <= 4) by (pose proof PI_RGT_0; pose proof PI_4; lra).
  set (n := PI - 2 * PI * IZR y / pow2 l). set (n' := PI - 2 * PI * IZR y' / pow2 l).
  replace (1 / 2 * (exp n - exp (- n))) with (Rtrigo_def.sinh n) by (unfold Rtrigo_def.sinh; lra).
  replace (1 / 2 * (exp n' - exp (- n'))) with (Rtrigo_def.sinh n') by (unfold Rtrigo_def.sinh; lra).
  assert (Q : 0 < pow2 l <= 524288).
  { split; [apply pow2_pos|]. unfold pow2. replace 524288 with (bpow radix2 19) by (cbn; lra). apply bpow_le. lia. }
  assert (Y : IZR y + 1 <= IZR y').
  { rewrite <- plus_IZR. apply IZR_le. lia. }
  assert (Y0 : 0 <= IZR y) by (apply IZR_le; lia).
  assert (Y1 : IZR y' <= pow2 l).
  { unfold pow2. rewrite <- (IZR_Zpower radix2) by lia. apply IZR_le. exact Hy'. }
  assert (D : n - n' = 2 * PI * (IZR y' - IZR y) / pow2 l) by (unfold n, n'; field; lra).
  assert (D1 : 2 * PI / 524288 <= n - n').
  { rewrite D. unfold Rdiv. assert (/ 524288 <= / pow2 l) by (apply Rinv_le; lra).
    apply Rmult_le_compat; [nra|lra|nra|assumption]. }
  assert (N0 : n <= 4).
  { unfold n. assert (0 <= 2 * PI * IZR y / pow2 l); [|lra]. apply Rmult_le_pos; [nra|]. left. apply Rinv_0_lt_compat. lra. }
  assert (N1 : -4 <= n').
  { unfold n'. assert (2 * PI * IZR y' / pow2 l <= 2 * PI); [|lra].
    apply Rmult_le_reg_r with (pow2 l); [lra|]. unfold Rdiv. rewrite Rmult_assoc, Rinv_l, Rmult_1_r by lra. nra. }
  pose proof (gd_gap n' n N1 N0) as G. assert (n' < n) by lra. specialize (G H).
  assert (T : 180 / PI * ((2 * PI / 524288) / 81) <= 180 / PI * (atan (Rtrigo_def.sinh n) - atan (Rtrigo_def.sinh n'))).
  { apply Rmult_le_compat_l; [|lra]. apply Rmult_le_pos; [lra|]. left. apply Rinv_0_lt_compat. lra. }
  replace (180 / PI * ((2 * PI / 524288) / 81)) with (360 / (524288 * 81)) in T by (field; lra).
  rewrite <- Rmult_minus_distr_l. eapply Rle_trans; [|exact T].
  replace (bpow radix2 (-51)) with (/ 2251799813685248) by (cbn; lra). lra.
Qed.

Lemma lon_gap : forall l x x', (0 <= l <= 19)%Z -> (x < x')%Z ->
  bpow radix2 (-51) <= tileXToLon exact x' l - tileXToLon exact x l.
Proof.
  intros l x x' Hl Hx. unfold tileXToLon, exact. cbn [rnd].
  assert (Q : 0 < pow2 l <= 524288).
  { split; [apply pow2_pos|]. unfold pow2. replace 524288 with (bpow radix2 19) by (cbn; lra). apply bpow_le. lia. }
  assert (Y : IZR x + 1 <= IZR x').
  { rewrite <- plus_IZR. apply IZR_le. lia. }
  replace (IZR x' / pow2 l * 360 - 180 - (IZR x / pow2 l * 360 - 180)) with (360 * (IZR x' - IZR x) * / pow2 l) by (field; lra).
  assert (/ 524288 <= / pow2 l) by (apply Rinv_le; lra).
  assert (360 * / 524288 <= 360 * (IZR x' - IZR x) * / pow2 l).
  { apply Rmult_le_compat; [nra|lra|nra|assumption]. }
  replace (bpow radix2 (-51)) with (/ 2251799813685248) by (cbn; lra). lra.
Qed.

Lemma bpow_half : bpow radix2 (-51) = 2 * bpow radix2 (-52).
Proof. cbn. lra. Qed.

Lemma centre_lat : forall k k', tile k -> tile k' -> lod k = lod k' -> (lod k <= 19)%Z -> (tileY k < tileY k')%Z ->
  bpow radix2 (-52) <= plat (center exact (tileBoxOf exact k)) - plat (center exact (tileBoxOf exact k')).
Proof.
  intros k k' Hk Hk' El Hl Hlt. destruct Hk as (L & X & Y), Hk' as (L' & X' & Y').
  unfold center, tileBoxOf. cbn [plat plon bmin bmax]. change (rnd exact) with (fun x : R => x). cbn beta. rewrite <- El in *.
  pose proof (lat_gap (lod k) (tileY k) (tileY k')) as G1.
  pose proof (lat_gap (lod k) (tileY k + 1) (tileY k' + 1)) as G2.
  rewrite bpow_half in *. pose proof (bpow_gt_0 radix2 (-52)).
  assert (G1' := G1 ltac:(lia) ltac:(lia) ltac:(lia)).
  assert (G2' := G2 ltac:(lia) ltac:(lia) ltac:(lia)). lra.
Qed.

Lemma centre_lon : forall k k', tile k -> tile k' -> lod k = lod k' -> (lod k <= 19)%Z -> (tileX k < tileX k')%Z ->
  bpow radix2 (-52) <= plon (center exact (tileBoxOf exact k')) - plon (center exact (tileBoxOf exact k)).
Proof.
  intros k k' Hk Hk' El Hl Hlt. destruct Hk as (L & X & Y), Hk' as (L' & X' & Y').
  unfold center, tileBoxOf. cbn [plat plon bmin bmax]. change (rnd exact) with (fun x : R => x). cbn beta. rewrite <- El in *.
  pose proof (lon_gap (lod k) (tileX k) (tileX k')) as G1.
  pose proof (lon_gap (lod k) (tileX k + 1) (tileX k' + 1)) as G2.
  rewrite bpow_half in *. pose proof (bpow_gt_0 radix2 (-52)).
  assert (G1' := G1 ltac:(lia) ltac:(lia)). assert (G2' := G2 ltac:(lia) ltac:(lia)). lra.
Qed.

Lemma centres_differ : forall k k', tile k -> tile k' -> lod k = lod k' -> (lod k <= 19)%Z ->
  (samePoint exact (center exact (tileBoxOf exact k)) (center exact (tileBoxOf exact k')) = true <-> k = k').
Proof.
  intros k k' Hk Hk' El Hl. unfold samePoint. change (rnd exact) with (fun x : R => x). cbn beta. split.
  - intros H. apply andb_true_iff in H as [H1 H2].
    destruct (Rlt_bool_spec (Rabs (plat (center exact (tileBoxOf exact k)) - plat (center exact (tileBoxOf exact k')))) (bpow radix2 (-52))) as [A|]; [|discriminate].
    destruct (Rlt_bool_spec (Rabs (plon (center exact (tileBoxOf exact k)) - plon (center exact (tileBoxOf exact k')))) (bpow radix2 (-52))) as [B|]; [|discriminate].
    apply Rabs_def2 in A, B.
    destruct (Z.lt_trichotomy (tileY k) (tileY k')) as [C|[C|C]].
    + pose proof (centre_lat k k' Hk Hk' El Hl C). lra.
    + destruct (Z.lt_trichotomy (tileX k) (tileX k')) as [D|[D|D]].
      * pose proof (centre_lon k k' Hk Hk' El Hl D). lra.
      * destruct k, k'. cbn in *. congruence.
      * pose proof (centre_lon k' k Hk' Hk (eq_sym El)) as G. rewrite <- El in G. specialize (G Hl D). lra.
    + pose proof (centre_lat k' k Hk' Hk (eq_sym El)) as G. rewrite <- El in G. specialize (G Hl C). lra.
  - intros ->. unfold Rminus; rewrite !Rplus_opp_r, Rabs_R0.
    rewrite Rlt_bool_true; [reflexivity|]. apply bpow_gt_0.
Qed.
