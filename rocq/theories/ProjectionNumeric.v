(** The projection limit 85.05112877 degrees of GeoUtils.hpp:29 lies strictly below the
    latitude atan (sinh pi) where the map ends, with room for rounding errors. *)
From Coq Require Import Reals ZArith Lra Lia Psatz Machin Ratan.
From Flocq Require Import Core.Core.
From Verif Require Import Base GeoModel ProjectionModel ProjectionSpec ProjectionProofs.
Open Scope R_scope.

Lemma pi_low : 3.141592653589 < PI.
Proof.
  destruct (PI_2_3_7_ineq 6) as [H _].
  unfold sum_f_R0, tg_alt, PI_2_3_7_tg, Ratan_seq in H.
  cbn [Nat.mul Nat.add INR pow] in H. lra.
Qed.

Lemma pi_high : PI < 3.141592653590.
Proof.
  destruct (PI_2_3_7_ineq 6) as [_ H].
  unfold sum_f_R0, tg_alt, PI_2_3_7_tg, Ratan_seq in H.
  cbn [Nat.mul Nat.add INR pow] in H. lra.
Qed.

(** Partial sums of the exponential series without factorials: [t] is the current term. *)
Fixpoint expSum (x t : R) (k : Z) (n : nat) : R :=
  match n with
  | O => t
  | S n' => t + expSum x (t * x / IZR k) (k + 1) n'
  end.

Lemma expSum_spec : forall x n j,
  expSum x (/ INR (fact j) * x ^ j) (Z.of_nat j + 1) n
  = sum_f_R0 (fun k => / INR (fact (j + k)) * x ^ (j + k)) n.
Proof.
  intros x n. induction n as [|n IH]; intro j.
  - cbn [expSum sum_f_R0]. rewrite Nat.add_0_r. reflexivity.
  - cbn [expSum]. rewrite (tech2 _ 0 (S n)) by lia.
    cbn [sum_f_R0]. rewrite Nat.add_0_r. f_equal.
    replace (S n - 1)%nat with n by lia.
    specialize (IH (S j)).
    replace (Z.of_nat j + 1 + 1)%Z with (Z.of_nat (S j) + 1)%Z by lia.
    replace (/ INR (fact j) * x ^ j * x / IZR (Z.of_nat j + 1)) with (/ INR (fact (S j)) * x ^ S j).
    + rewrite IH. replace (S n - 1)%nat with n by lia.
      apply sum_eq. intros i _. replace (j + (1 + i))%nat with (S j + i)%nat by lia. reflexivity.
    + rewrite fact_simpl, mult_INR, <- tech_pow_Rmult.
      replace (IZR (Z.of_nat j + 1)) with (INR (S j)) by (rewrite INR_IZR_INZ; f_equal; lia).
      field. split; [apply INR_fact_neq_0|apply not_0_INR; lia].
Qed.

Lemma expSum_le : forall x n, 0 <= x -> expSum x 1 1 n <= exp x.
Proof.
  intros x n Hx.
  replace (expSum x 1 1 n) with (expSum x (/ INR (fact 0) * x ^ 0) (Z.of_nat 0 + 1) n)
    by (cbn [fact pow INR Z.of_nat Z.add]; f_equal; field).
  rewrite expSum_spec. cbn [Nat.add]. apply sum_incr.
  - unfold exp. destruct (exist_exp x) as [l Hl]. cbn [proj1_sig]. unfold exp_in, infinite_sum in Hl.
    exact Hl.
  - intro k. apply Rmult_le_pos; [left; apply Rinv_0_lt_compat, INR_fact_lt_0|apply pow_le; auto].
Qed.

(** The same sum in fixed point arithmetic with [sc] as one, rounded down. *)
Fixpoint expFixed (sc x t k : Z) (n : nat) : Z :=
  match n with
  | O => t
  | S n' => t + expFixed sc x (t * x / (sc * k)) (k + 1) n'
  end.

Lemma expFixed_le : forall sc x n t k (r : R), (0 < sc)%Z -> (0 <= x)%Z -> (0 <= t)%Z -> (0 < k)%Z ->
  IZR t / IZR sc <= r ->
  IZR (expFixed sc x t k n) / IZR sc <= expSum (IZR x / IZR sc) r k n.
Proof.
  intros sc x n. induction n as [|n IH]; intros t k r Hs Hx Ht Hk Hr; cbn [expFixed expSum]; auto.
  assert (S : 0 < IZR sc) by (apply IZR_lt; auto).
  assert (K : 0 < IZR k) by (apply IZR_lt; auto).
  rewrite plus_IZR. unfold Rdiv. rewrite Rmult_plus_distr_r. apply Rplus_le_compat; auto.
  apply IH; auto; try lia.
  - apply Z.div_pos; nia.
  - assert (D : IZR (t * x / (sc * k)) * IZR (sc * k) <= IZR (t * x)).
    { rewrite <- mult_IZR. apply IZR_le. rewrite Z.mul_comm. apply Z.mul_div_le. nia. }
    rewrite !mult_IZR in D. fold (IZR x / IZR sc).
    apply Rle_trans with (IZR t / IZR sc * (IZR x / IZR sc) / IZR k).
    + apply Rmult_le_reg_r with (IZR sc * (IZR sc * IZR k)); [apply Rmult_lt_0_compat; nra|].
      replace (IZR t / IZR sc * (IZR x / IZR sc) / IZR k * (IZR sc * (IZR sc * IZR k)))
        with (IZR t * IZR x) by (field; lra).
      replace (IZR (t * x / (sc * k)) / IZR sc * (IZR sc * (IZR sc * IZR k)))
        with (IZR (t * x / (sc * k)) * (IZR sc * IZR k)) by (field; lra). exact D.
    + unfold Rdiv. apply Rmult_le_compat_r; [left; apply Rinv_0_lt_compat; auto|].
      apply Rmult_le_compat_r; [|exact Hr].
      apply Rmult_le_pos; [apply IZR_le; auto|left; apply Rinv_0_lt_compat; auto].
Qed.

Definition limitExp : R := 3.141592652589.

Definition limitTheta : R := 0.0431870486096.

Lemma exp_limit : 23.140692609 <= exp limitExp.
Proof.
  assert (E : limitExp = IZR (3141592652589 * 1000000) / IZR (10 ^ 18)).
  { unfold limitExp. rewrite mult_IZR. change (10 ^ 18)%Z with (1000000000000 * 1000000)%Z.
    rewrite mult_IZR. lra. }
  eapply Rle_trans; [|apply (expSum_le limitExp 24); unfold limitExp; lra].
  rewrite E. eapply Rle_trans; [|apply expFixed_le with (t := (10 ^ 18)%Z)].
  - apply Rle_trans with (IZR (23140692609 * 10 ^ 9) / IZR (10 ^ 18)).
    + rewrite mult_IZR. change (10 ^ 18)%Z with (1000000000 * 1000000000)%Z. rewrite mult_IZR.
      change (10 ^ 9)%Z with 1000000000%Z. lra.
    + unfold Rdiv. apply Rmult_le_compat_r; [left; apply Rinv_0_lt_compat, IZR_lt; reflexivity|].
      apply IZR_le. vm_compute. discriminate.
  - reflexivity.
  - discriminate.
  - discriminate.
  - reflexivity.
  - right. field. apply IZR_neq. discriminate.
Qed.

Lemma cot_limit : cos limitTheta / sin limitTheta < 23.140692609.
Proof.
  assert (P := pi_low). assert (P' := pi_high).
  assert (T : 0.0431 < limitTheta < 0.0432) by (unfold limitTheta; lra).
  destruct (SIN limitTheta) as [S _]; [lra|lra|].
  destruct (COS limitTheta) as [_ C]; [lra|lra|].
  unfold sin_lb, sin_approx, sin_term in S. unfold cos_ub, cos_approx, cos_term in C.
  cbn [sum_f_R0 pow Nat.mul Nat.add] in S, C.
  replace (INR (fact 0)) with 1 in * by (rewrite INR_IZR_INZ; reflexivity).
  replace (INR (fact 1)) with 1 in * by (rewrite INR_IZR_INZ; reflexivity).
  replace (INR (fact 2)) with 2 in * by (rewrite INR_IZR_INZ; reflexivity).
  replace (INR (fact 3)) with 6 in * by (rewrite INR_IZR_INZ; reflexivity).
  replace (INR (fact 4)) with 24 in * by (rewrite INR_IZR_INZ; reflexivity).
  replace (INR (fact 5)) with 120 in * by (rewrite INR_IZR_INZ; reflexivity).
  replace (INR (fact 6)) with 720 in * by (rewrite INR_IZR_INZ; reflexivity).
  replace (INR (fact 7)) with 5040 in * by (rewrite INR_IZR_INZ; f_equal; vm_compute; reflexivity).
  replace (INR (fact 8)) with 40320 in * by (rewrite INR_IZR_INZ; f_equal; vm_compute; reflexivity).
  set (q := limitTheta * limitTheta).
  assert (Q : 0.0018651211676079 <= q <= 0.0018651211676080) by (unfold q, limitTheta; lra).
  assert (Q2 : 0.0000034786769698 <= q * q <= 0.0000034786769699) by nra.
  assert (Q3 : 0 <= q * q * q <= 0.0000000065) by nra.
  assert (Q4 : 0 <= q * q * q * q <= 0.0000000000122) by nra.
  assert (C' : cos limitTheta <= 1 - q / 2 + (q * q) / 24 - q * q * q / 720 + q * q * q * q / 40320)
    by (unfold q; lra).
  assert (S' : limitTheta * (1 - q / 6 + (q * q) / 120 - q * q * q / 5040) <= sin limitTheta)
    by (unfold q; lra).
  clear S C.
  assert (L : 0 < sin limitTheta) by (apply sin_gt_0; lra).
  apply Rmult_lt_reg_r with (sin limitTheta); auto.
  unfold Rdiv at 1. rewrite Rmult_assoc, Rinv_l, Rmult_1_r by lra.
  eapply Rle_lt_trans; [exact C'|].
  apply Rlt_le_trans with (23.140692609 * (limitTheta * (1 - q / 6 + (q * q) / 120 - q * q * q / 5040))).
  - set (q2 := q * q) in *. set (q3 := q2 * q) in *. set (q4 := q3 * q) in *. clearbody q4 q3 q2 q.
    unfold limitTheta. lra.
  - apply Rmult_le_compat_l; lra.
Qed.

(** The mercator function near the limit. *)
Lemma mercator_cot : forall t, 0 < t < PI / 2 -> mercator (PI / 2 - 2 * t) = ln (cos t / sin t).
Proof.
  intros t Ht. unfold mercator. f_equal.
  assert (0 < sin t) by (apply sin_gt_0; lra). assert (0 < cos t) by (apply cos_gt_0; lra).
  unfold tan. rewrite sin_shift, cos_shift, cos_2a_cos, sin_2a. field. split; lra.
Qed.

Lemma mercator_odd : forall b, - (PI / 2) < b < PI / 2 -> mercator (- b) = - mercator b.
Proof.
  intros b Hb. unfold mercator. destruct (tan_sec_pos b Hb) as (C & P & E).
  rewrite <- ln_Rinv by assumption. f_equal. rewrite tan_neg, cos_neg.
  apply Rmult_eq_reg_l with (tan b + 1 / cos b); [|lra]. rewrite Rinv_r by lra. lra.
Qed.

Lemma mercator_mono : forall b c, - (PI / 2) < b -> b <= c -> c < PI / 2 -> mercator b <= mercator c.
Proof.
  intros b c H1 H2 H3. apply Rnot_lt_le. intro H.
  apply mercator_lt in H; [|lra]. rewrite sinh_mercator, atan_tan in H by lra. lra.
Qed.

(** 85.05112877 degrees in radians, slightly enlarged. *)
Definition limitRadians : R := 5984941122437689 / 70368744177664 * PI / 180 * (1 + 0.000000000001).

Lemma limitRadians_small : 1.4 < limitRadians < PI / 2 - 0.08.
Proof. assert (P := pi_low). assert (P' := pi_high). unfold limitRadians. lra. Qed.

Lemma mercator_limit_radians : mercator limitRadians < PI - 0.000000001.
Proof.
  assert (P := pi_low). assert (P' := pi_high).
  set (t := PI * (1 / 4 - 5984941122437689 / 70368744177664 * (1 + 0.000000000001) / 360)).
  replace limitRadians with (PI / 2 - 2 * t) by (unfold t, limitRadians; field).
  assert (T : limitTheta <= t).
  { unfold t, limitTheta. lra. }
  assert (T1 : t < 0.0432) by (unfold t; lra).
  assert (T2 : 0.0431 < limitTheta) by (unfold limitTheta; lra).
  rewrite mercator_cot by lra.
  assert (S1 : sin limitTheta <= sin t) by (apply sin_incr_1; lra).
  assert (C1 : cos t <= cos limitTheta) by (apply cos_decr_1; lra).
  assert (S0 : 0 < sin limitTheta) by (apply sin_gt_0; lra).
  assert (C0 : 0 < cos t) by (apply cos_gt_0; lra).
  assert (Q : cos t / sin t < 23.140692609).
  { eapply Rle_lt_trans; [|exact cot_limit]. unfold Rdiv.
    apply Rmult_le_compat; try lra; [left; apply Rinv_0_lt_compat; lra|].
    apply Rinv_le_contravar; lra. }
  assert (0 < cos t / sin t) by (apply Rdiv_lt_0_compat; lra).
  apply Rlt_le_trans with limitExp; [|unfold limitExp; lra].
  rewrite <- (ln_exp limitExp). apply ln_increasing; auto.
  apply Rlt_le_trans with (1 := Q). apply exp_limit.
Qed.

Lemma mercator_limit : forall b, Rabs b <= limitRadians -> Rabs (mercator b) < PI - 0.000000001.
Proof.
  intros b Hb. assert (L := limitRadians_small). assert (M := mercator_limit_radians).
  apply Rabs_def2b in Hb || apply Rabs_le_inv in Hb.
  apply Rabs_def1.
  - eapply Rle_lt_trans; [apply (mercator_mono b limitRadians); lra|lra].
  - assert (mercator (- limitRadians) <= mercator b) by (apply mercator_mono; lra).
    rewrite mercator_odd in H by lra. lra.
Qed.
