(** Arithmetic of marker words. *)
From Verif Require Import Base Bytes StreamModel EwahModel.
From Coq Require Import NArith.
Local Open Scope N_scope.

Lemma testbit_join k lo hi n : lo < 2 ^ k ->
  N.testbit (lo + 2 ^ k * hi) n = if n <? k then N.testbit lo n else N.testbit hi (n - k).
Proof.
  intros H. rewrite N.mul_comm. destruct (N.ltb_spec n k) as [L|L].
  - rewrite <- (N.mod_pow2_bits_low (lo + hi * 2 ^ k) k n L).
    rewrite N.mod_add by (apply N.pow_nonzero; lia). rewrite N.mod_small by exact H. reflexivity.
  - replace n with (n - k + k) at 1 by lia. rewrite <- N.div_pow2_bits.
    rewrite N.div_add by (apply N.pow_nonzero; lia). rewrite N.div_small by exact H. reflexivity.
Qed.

Lemma bound_bits a k : (forall n, k <= n -> N.testbit a n = false) -> a < 2 ^ k.
Proof.
  intros H. destruct (N.lt_ge_cases a (2 ^ k)) as [L|L]; [exact L|]. exfalso.
  assert (Ha : a <> 0) by (pose proof (N.pow_nonzero 2 k); lia).
  assert (k <= N.log2 a) by (rewrite <- (N.log2_pow2 k) by lia; apply N.log2_le_mono; exact L).
  pose proof (N.bit_log2 a Ha). rewrite H in H1 by assumption. discriminate.
Qed.

Lemma bits_bound a k n : a < 2 ^ k -> k <= n -> N.testbit a n = false.
Proof.
  intros H L. destruct (N.eq_dec a 0) as [->|Ha]; [apply N.bits_0|].
  apply N.bits_above_log2. apply N.log2_lt_pow2 in H; lia.
Qed.

Lemma land_bound a b k : a < 2 ^ k -> N.land a b < 2 ^ k.
Proof. intros H. apply bound_bits. intros n L. rewrite N.land_spec, (bits_bound a k n H L). reflexivity. Qed.
Lemma lor_bound a b k : a < 2 ^ k -> b < 2 ^ k -> N.lor a b < 2 ^ k.
Proof.
  intros Ha Hb. apply bound_bits. intros n L.
  rewrite N.lor_spec, (bits_bound a k n Ha L), (bits_bound b k n Hb L). reflexivity.
Qed.
Lemma lxor_bound a b k : a < 2 ^ k -> b < 2 ^ k -> N.lxor a b < 2 ^ k.
Proof.
  intros Ha Hb. apply bound_bits. intros n L.
  rewrite N.lxor_spec, (bits_bound a k n Ha L), (bits_bound b k n Hb L). reflexivity.
Qed.

Lemma lor_join k a b c d : a < 2 ^ k -> c < 2 ^ k ->
  N.lor (a + 2 ^ k * b) (c + 2 ^ k * d) = N.lor a c + 2 ^ k * N.lor b d.
Proof.
  intros Ha Hc. apply N.bits_inj. intros n.
  rewrite N.lor_spec, !testbit_join by (try assumption; apply lor_bound; assumption).
  destruct (n <? k); rewrite N.lor_spec; reflexivity.
Qed.
Lemma land_join k a b c d : a < 2 ^ k -> c < 2 ^ k ->
  N.land (a + 2 ^ k * b) (c + 2 ^ k * d) = N.land a c + 2 ^ k * N.land b d.
Proof.
  intros Ha Hc. apply N.bits_inj. intros n.
  rewrite N.land_spec, !testbit_join by (try assumption; apply land_bound; assumption).
  destruct (n <? k); rewrite N.land_spec; reflexivity.
Qed.

(** A marker from its fields. *)
Definition mk (b : bool) (r n : N) : N := N.b2n b + 2 ^ 1 * (r + 2 ^ 16 * n).

Lemma mk_bound b r n : r <= 65535 -> n <= 32767 -> mk b r n < 2 ^ 32.
Proof. unfold mk. destruct b; cbn [N.b2n]; lia. Qed.

Lemma ones_lor a k : a < 2 ^ k -> N.lor a (N.ones k) = N.ones k.
Proof.
  intros H. apply N.bits_inj. intros n. rewrite N.lor_spec.
  destruct (N.lt_ge_cases n k).
  - rewrite N.ones_spec_low by assumption. apply orb_true_r.
  - rewrite N.ones_spec_high by assumption. rewrite (bits_bound a k n) by assumption. reflexivity.
Qed.
Lemma ones_land a k : a < 2 ^ k -> N.land a (N.ones k) = a.
Proof. intros H. rewrite N.land_ones. apply N.mod_small. exact H. Qed.
Lemma ones_land' a k : a < 2 ^ k -> N.land (N.ones k) a = a.
Proof. intros H. rewrite N.land_comm. apply ones_land. exact H. Qed.

Lemma b2n_lt b : N.b2n b < 2 ^ 1.
Proof. destruct b; reflexivity. Qed.

Lemma runBit_mk b r n : r <= 65535 -> runBit (mk b r n) = b.
Proof.
  intros _. unfold runBit, mk. rewrite testbit_join by apply b2n_lt.
  destruct b; reflexivity.
Qed.
Lemma runLen_mk b r n : r <= 65535 -> runLen (mk b r n) = r.
Proof.
  intros H. unfold runLen, mk. rewrite N.shiftr_div_pow2, N.mul_comm, N.div_add by discriminate.
  rewrite (N.div_small (N.b2n b)) by apply b2n_lt. cbn [N.add].
  change 65535 with (N.ones 16). rewrite N.land_ones, N.mul_comm, N.mod_add by discriminate.
  apply N.mod_small. lia.
Qed.
Lemma litCount_mk b r n : r <= 65535 -> litCount (mk b r n) = n.
Proof.
  intros H. unfold litCount, mk. change 17 with (1 + 16). rewrite <- N.shiftr_shiftr.
  rewrite !N.shiftr_div_pow2, (N.mul_comm (2 ^ 1)), N.div_add by discriminate.
  rewrite (N.div_small (N.b2n b)) by apply b2n_lt. cbn [N.add].
  rewrite N.mul_comm, N.div_add by discriminate. rewrite N.div_small by lia. reflexivity.
Qed.

Lemma setRunBit_mk b b' r n : r <= 65535 -> n <= 32767 -> setRunBit (mk b r n) b' = mk b' r n.
Proof.
  intros Hr Hn. unfold setRunBit, mk. destruct b'.
  - change 1 with (1 + 2 ^ 1 * 0) at 2. rewrite lor_join by (apply b2n_lt || reflexivity).
    rewrite N.lor_0_r. destruct b; reflexivity.
  - change 4294967294 with (0 + 2 ^ 1 * N.ones 31). rewrite land_join by (apply b2n_lt || reflexivity).
    rewrite N.land_0_r, ones_land by lia. reflexivity.
Qed.

Lemma setRunLen_mk b r n l : r <= 65535 -> n <= 32767 -> l <= 65535 -> setRunLen (mk b r n) l = mk b l n.
Proof.
  intros Hr Hn Hl. unfold setRunLen, mk.
  change 131070 with (0 + 2 ^ 1 * (N.ones 16 + 2 ^ 16 * 0)).
  rewrite lor_join, lor_join by (apply b2n_lt || reflexivity || lia).
  rewrite !N.lor_0_r, ones_lor by lia.
  unfold u32. rewrite N.shiftl_mul_pow2, (N.mul_comm l), N.mod_small by lia.
  change 4294836225 with (1 + 2 ^ 1 * (0 + 2 ^ 16 * N.ones 15)).
  replace (2 ^ 1 * l) with (0 + 2 ^ 1 * (l + 2 ^ 16 * 0)) by lia.
  rewrite lor_join, lor_join by (reflexivity || lia).
  rewrite !N.lor_0_r, !N.lor_0_l.
  rewrite land_join, land_join by (apply b2n_lt || reflexivity || lia).
  rewrite ones_land' by lia. rewrite ones_land by lia.
  change 1 with (N.ones 1) at 1. rewrite ones_land by apply b2n_lt. reflexivity.
Qed.

Lemma setLitCount_mk b r n l : r <= 65535 -> n <= 32767 -> l <= 32767 -> setLitCount (mk b r n) l = mk b r l.
Proof.
  intros Hr Hn Hl. unfold setLitCount, mk.
  change 4294836224 with (0 + 2 ^ 1 * (0 + 2 ^ 16 * N.ones 15)).
  rewrite lor_join, lor_join by (apply b2n_lt || reflexivity || lia).
  rewrite !N.lor_0_r, ones_lor by lia.
  unfold u32. rewrite N.shiftl_mul_pow2, (N.mul_comm l), N.mod_small by lia.
  change 131071 with (1 + 2 ^ 1 * (N.ones 16 + 2 ^ 16 * 0)).
  replace (2 ^ 17 * l) with (0 + 2 ^ 1 * (0 + 2 ^ 16 * l)) by lia.
  rewrite lor_join, lor_join by (reflexivity || lia).
  rewrite !N.lor_0_r, !N.lor_0_l.
  rewrite land_join, land_join by (apply b2n_lt || reflexivity || lia).
  rewrite ones_land' by lia. rewrite ones_land by lia.
  change 1 with (N.ones 1) at 1. rewrite ones_land by apply b2n_lt. reflexivity.
Qed.

Lemma mk_zero : 0 = mk false 0 0.
Proof. reflexivity. Qed.
