From Coq Require Import ZArith Reals Lia Lra Bool.
From Flocq Require Import Core.Core IEEE754.Binary IEEE754.Bits.
From Verif Require Import FloatModel.
Open Scope Z_scope.

Local Notation fe32 := (SpecFloat.fexp 24 128).
Local Notation fe64 := (SpecFloat.fexp 53 1024).

Lemma F2R_sign s m e : Rcompare (F2R (Float radix2 (cond_Zopp s (Zpos m)) e)) 0 = if s then Lt else Gt.
Proof.
  destruct s; cbn [cond_Zopp].
  - apply Rcompare_Lt. apply F2R_lt_0. reflexivity.
  - apply Rcompare_Gt. apply F2R_gt_0. reflexivity.
Qed.

(** Rounding to single. *)
Lemma toSingle_correct x : is_finite 53 1024 x = true ->
  is_nan 24 128 (toSingle x) = false /\
  Bsign 24 128 (toSingle x) = Bsign 53 1024 x /\
  ((Rabs (round radix2 fe32 ZnearestE (B2R 53 1024 x)) < bpow radix2 128)%R ->
     is_finite 24 128 (toSingle x) = true /\
     B2R 24 128 (toSingle x) = round radix2 fe32 ZnearestE (B2R 53 1024 x)) /\
  ((bpow radix2 128 <= Rabs (round radix2 fe32 ZnearestE (B2R 53 1024 x)))%R ->
     toSingle x = B754_infinity 24 128 (Bsign 53 1024 x)).
Proof.
  destruct x as [s|s|s pl Hpl|s m e Hb]; try discriminate; intros _; cbn [toSingle].
  - cbn [is_nan Bsign B2R]. rewrite round_0 by apply valid_rnd_N. rewrite Rabs_R0.
    split; [reflexivity|]. split; [reflexivity|]. split; [auto|].
    intros H. exfalso. pose proof (bpow_gt_0 radix2 128). lra.
  - pose proof (binary_normalize_correct 24 128 prec32 emax32 BinarySingleNaN.mode_NE (cond_Zopp s (Zpos m)) e s) as H.
    cbn [BinarySingleNaN.round_mode] in H. rewrite F2R_sign in H.
    change (B2R 53 1024 (B754_finite 53 1024 s m e Hb)) with (F2R (Float radix2 (cond_Zopp s (Zpos m)) e)).
    change (Bsign 53 1024 (B754_finite 53 1024 s m e Hb)) with s.
    set (y := binary_normalize 24 128 prec32 emax32 BinarySingleNaN.mode_NE (cond_Zopp s (Z.pos m)) e s) in *.
    destruct (Rlt_bool_spec (Rabs (round radix2 fe32 ZnearestE (F2R (Float radix2 (cond_Zopp s (Z.pos m)) e)))) (bpow radix2 128)) as [L|L].
    + destruct H as (H1 & H2 & H3). split; [destruct y; try discriminate; reflexivity|].
      split; [rewrite H3; destruct s; reflexivity|]. split; [auto|]. intros G. exfalso. lra.
    + assert (Hs : Rlt_bool (F2R (Float radix2 (cond_Zopp s (Z.pos m)) e)) 0 = s).
      { destruct s; cbn [cond_Zopp].
        - apply Rlt_bool_true. apply F2R_lt_0. reflexivity.
        - apply Rlt_bool_false. apply Rlt_le. apply F2R_gt_0. reflexivity. }
      rewrite Hs in H.
      assert (E : y = B754_infinity 24 128 s).
      { apply (B2FF_inj 24 128). rewrite H. reflexivity. }
      rewrite E. split; [reflexivity|]. split; [reflexivity|]. split; [intros G; exfalso; lra|reflexivity].
Qed.

(** The way back is exact. *)
Lemma fmt_32_64 x : generic_format radix2 fe32 x -> generic_format radix2 fe64 x.
Proof.
  apply generic_inclusion_mag. intros _. unfold SpecFloat.fexp, SpecFloat.emin. lia.
Qed.

Lemma toDouble_correct y : is_finite 24 128 y = true ->
  is_finite 53 1024 (toDouble y) = true /\
  Bsign 53 1024 (toDouble y) = Bsign 24 128 y /\
  B2R 53 1024 (toDouble y) = B2R 24 128 y.
Proof.
  destruct y as [s|s|s pl Hpl|s m e Hb] eqn:Ey; try discriminate; intros _; cbn [toDouble]; [repeat split|].
  pose proof (binary_normalize_correct 53 1024 prec64 emax64 BinarySingleNaN.mode_NE (cond_Zopp s (Zpos m)) e s) as H.
  cbn [BinarySingleNaN.round_mode] in H. rewrite F2R_sign in H.
  change (F2R (Float radix2 (cond_Zopp s (Zpos m)) e)) with (B2R 24 128 (B754_finite 24 128 s m e Hb)) in H.
  rewrite <- Ey in *.
  rewrite (round_generic radix2 fe64 ZnearestE) in H; [|apply fmt_32_64; apply generic_format_B2R; apply prec32].
  rewrite Rlt_bool_true in H.
  - destruct H as (H1 & H2 & H3). split; [exact H2|]. split; [rewrite H3, Ey; destruct s; reflexivity|exact H1].
  - eapply Rlt_trans; [apply (abs_B2R_lt_emax 24 128)|]. apply bpow_lt. reflexivity.
Qed.

Lemma toSingle_toDouble y : is_nan 24 128 y = false -> toSingle (toDouble y) = y.
Proof.
  intros Hn. destruct (is_finite 24 128 y) eqn:Hf.
  - destruct (toDouble_correct y Hf) as (F & S & R).
    destruct (toSingle_correct (toDouble y) F) as (N2 & S2 & R2 & _).
    rewrite R, (round_generic radix2 fe32 ZnearestE) in R2 by (apply generic_format_B2R; apply prec32).
    destruct (R2 (abs_B2R_lt_emax 24 128 y)) as [F3 R3].
    apply B2R_Bsign_inj; auto. rewrite S2. exact S.
  - destruct y; try discriminate. reflexivity.
Qed.

Lemma toDouble_nan y : is_nan 24 128 y = false -> is_nan 53 1024 (toDouble y) = false.
Proof.
  intros Hn. destruct (is_finite 24 128 y) eqn:Hf.
  - destruct (toDouble_correct y Hf) as (F & _). destruct (toDouble y); try discriminate; reflexivity.
  - destruct y; try discriminate. reflexivity.
Qed.

Lemma toSingle_nan x : is_nan 53 1024 x = false -> is_nan 24 128 (toSingle x) = false.
Proof.
  intros Hn. destruct (is_finite 53 1024 x) eqn:Hf.
  - apply toSingle_correct; auto.
  - destruct x; try discriminate. reflexivity.
Qed.

(** Bit patterns. *)
Lemma of_bits32 y : b32_of_bits (bits_of_b32 y) = y.
Proof. exact (binary_float_of_bits_of_binary_float 23 8 eq_refl eq_refl eq_refl y). Qed.
Lemma of_bits64 y : b64_of_bits (bits_of_b64 y) = y.
Proof. exact (binary_float_of_bits_of_binary_float 52 11 eq_refl eq_refl eq_refl y). Qed.
Lemma range32 y : 0 <= bits_of_b32 y < 2 ^ 32.
Proof. exact (bits_of_binary_float_range 23 8 eq_refl eq_refl y). Qed.
Lemma range64 y : 0 <= bits_of_b64 y < 2 ^ 64.
Proof. exact (bits_of_binary_float_range 52 11 eq_refl eq_refl y). Qed.

Lemma nan_join64 s m : 0 < m < 2 ^ 52 -> is_nan 53 1024 (b64_of_bits (join_bits 52 11 s m 2047)) = true.
Proof.
  intros H. unfold b64_of_bits, binary_float_of_bits. rewrite is_nan_FF2B.
  unfold binary_float_of_bits_aux. rewrite split_join_bits by (cbn; lia).
  cbn [Zeq_bool Z.compare]. destruct m; try lia. reflexivity.
Qed.
Lemma nan_join32 s m : 0 < m < 2 ^ 23 -> is_nan 24 128 (b32_of_bits (join_bits 23 8 s m 255)) = true.
Proof.
  intros H. unfold b32_of_bits, binary_float_of_bits. rewrite is_nan_FF2B.
  unfold binary_float_of_bits_aux. rewrite split_join_bits by (cbn; lia).
  cbn [Zeq_bool Z.compare]. destruct m; try lia. reflexivity.
Qed.

Lemma quiet_range m : 0 <= m < 2 ^ 23 -> 2 ^ 22 <= quiet (2 ^ 22) m < 2 ^ 23.
Proof. unfold quiet. intros H. destruct (Z.ltb_spec m (2 ^ 22)); cbn in *; lia. Qed.

Lemma split64 z : 0 <= snd (fst (split_bits 52 11 z)) < 2 ^ 52.
Proof. cbn [split_bits fst snd]. apply Z.mod_pos_bound. reflexivity. Qed.
Lemma split32 z : 0 <= snd (fst (split_bits 23 8 z)) < 2 ^ 23.
Proof. cbn [split_bits fst snd]. apply Z.mod_pos_bound. reflexivity. Qed.

Lemma f32_bound x : (f32of64 x < 2 ^ 32)%N.
Proof.
  unfold f32of64. destruct (is_nan 53 1024 (b64_of_bits (Z.of_N x))).
  - pose proof (split64 (Z.of_N x)) as H. destruct (split_bits 52 11 (Z.of_N x)) as [[s m] e]. cbn [fst snd] in H.
    assert (B : 0 <= m / 2 ^ 29 < 2 ^ 23).
    { split; [apply Z.div_pos; lia|]. apply Z.div_lt_upper_bound; [lia|]. exact (proj2 H). }
    pose proof (join_bits_range 23 8 s (quiet (2 ^ 22) (m / 2 ^ 29)) 255) as J.
    pose proof (quiet_range _ B) as Q.
    destruct J as [J1 J2]; [lia|cbn; lia|]. change (2 ^ (23 + 8 + 1)) with (2 ^ 32) in J2. lia.
  - pose proof (range32 (toSingle (b64_of_bits (Z.of_N x)))). lia.
Qed.

Lemma f64_bound x : (f64of32 x < 2 ^ 64)%N.
Proof.
  unfold f64of32. destruct (is_nan 24 128 (b32_of_bits (Z.of_N x))).
  - pose proof (split32 (Z.of_N x)) as H. destruct (split_bits 23 8 (Z.of_N x)) as [[s m] e]. cbn [fst snd] in H.
    pose proof (join_bits_range 52 11 s (quiet (2 ^ 22) m * 2 ^ 29) 2047) as J.
    pose proof (quiet_range _ H) as Q.
    destruct J as [J1 J2]; [lia|cbn; lia|]. change (2 ^ (52 + 11 + 1)) with (2 ^ 64) in J2. lia.
  - pose proof (range64 (toDouble (b32_of_bits (Z.of_N x)))). lia.
Qed.

(** One write/read cycle: NaNs. *)
Lemma nan_payload d : 
  is_nan 53 1024 (b64_of_bits (Z.of_N d)) = true ->
  exists s q, 2 ^ 22 <= q < 2 ^ 23 /\ f32of64 d = Z.to_N (join_bits 23 8 s q 255) /\
    is_nan 24 128 (b32_of_bits (Z.of_N (f32of64 d))) = true /\
    f64of32 (f32of64 d) = Z.to_N (join_bits 52 11 s (q * 2 ^ 29) 2047).
Proof.
  intros Hn. unfold f32of64. rewrite Hn. pose proof (split64 (Z.of_N d)) as H.
  destruct (split_bits 52 11 (Z.of_N d)) as [[s m] e]. cbn [fst snd] in H.
  assert (B : 0 <= m / 2 ^ 29 < 2 ^ 23).
  { split; [apply Z.div_pos; lia|]. apply Z.div_lt_upper_bound; [lia|]. exact (proj2 H). }
  pose proof (quiet_range _ B) as Q. set (q := quiet (2 ^ 22) (m / 2 ^ 29)) in *. clearbody q.
  exists s, q. split; [exact Q|]. split; [reflexivity|].
  destruct (join_bits_range 23 8 s q 255) as [J1 J2]; [lia|cbn; lia|].
  rewrite Z2N.id by lia. split; [apply nan_join32; lia|].
  unfold f64of32. rewrite Z2N.id by lia. rewrite nan_join32 by lia.
  rewrite split_join_bits by (try (cbn; lia); lia).
  unfold quiet. destruct (Z.ltb_spec q (2 ^ 22)); [lia|]. reflexivity.
Qed.

Lemma f32_idem d : f32of64 (f64of32 (f32of64 d)) = f32of64 d.
Proof.
  destruct (is_nan 53 1024 (b64_of_bits (Z.of_N d))) eqn:Hn.
  - destruct (nan_payload d Hn) as (s & q & Q & E1 & _ & E3). rewrite E3, E1.
    destruct (join_bits_range 52 11 s (q * 2 ^ 29) 2047) as [J1 J2]; [lia|cbn; lia|].
    unfold f32of64. rewrite Z2N.id by lia. rewrite nan_join64 by lia.
    rewrite split_join_bits by (try (cbn; lia); lia).
    rewrite Z.div_mul by lia. unfold quiet. destruct (Z.ltb_spec q (2 ^ 22)); [lia|]. reflexivity.
  - pose proof (toSingle_nan _ Hn) as N1. unfold f32of64 at 2 3. rewrite Hn.
    set (y := toSingle (b64_of_bits (Z.of_N d))) in *. clearbody y. clear Hn d.
    pose proof (range32 y). unfold f64of32. rewrite Z2N.id by lia. rewrite of_bits32, N1.
    pose proof (range64 (toDouble y)). unfold f32of64. rewrite Z2N.id by lia.
    rewrite of_bits64, toDouble_nan by exact N1. rewrite toSingle_toDouble by exact N1. reflexivity.
Qed.
