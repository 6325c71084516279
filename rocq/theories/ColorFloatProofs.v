(** Colors and gradients with doubles. *)
From Coq Require Import Reals ZArith List Lra Lia Psatz. Import ListNotations.
From Flocq Require Import Core.Core Relative Plus_error IEEE754.Binary IEEE754.Bits.
From Flocq Require IEEE754.BinarySingleNaN.
From Verif Require Import Base GeoModel RingModel ProjectionModel ProjectionFloat RowModel ColorModel ColorSpec NoiseSpec Noise3Proofs
  RingFloatModel RingFloatSpec RingFloatProofs InsideFloatModel InsideFloatSpec InsideFloatProofs LineFloatModel LineFloatProofs NoiseFloatModel NoiseFloatProofs
  ColorFloatModel.
Local Open Scope R_scope.

Local Instance prec53c : Prec_gt_0 53. Proof. reflexivity. Qed.

(** * Conversion to int *)
Lemma trunc_floor x : finite x -> 0 <= valueOf x -> doubleTrunc x = Zfloor (valueOf x).
Proof.
  intros F P. rewrite <- floor_value by exact F. destruct x as [s| | |s m e w]; try discriminate F; [reflexivity|]. destruct s.
  - exfalso. unfold valueOf in P. cbn [B2R] in P. assert (N := F2R_lt_0 radix2 (Float radix2 (Zneg m) e) eq_refl). cbn in N, P. lra.
  - cbn [doubleTrunc doubleFloor cond_Zopp]. destruct (Z.leb_spec 0 e) as [L|L]; [reflexivity|]. apply Z.quot_div_nonneg; [lia|].
    apply Z.pow_pos_nonneg; lia.
Qed.
Lemma trunc_zero x : finite x -> -1 < valueOf x <= 0 -> doubleTrunc x = 0%Z.
Proof.
  intros F (P & Q). destruct x as [s| | |s m e w]; try discriminate F; [reflexivity|]. unfold valueOf in P, Q. cbn [B2R] in P, Q. destruct s.
  - cbn [doubleTrunc cond_Zopp] in *. destruct (Z.leb_spec 0 e) as [L|L].
    + exfalso. assert (B := bpow_le radix2 0 e L). change (bpow radix2 0) with 1 in B. unfold F2R in P. cbn [Fnum Fexp] in P.
      assert (M : IZR (Zneg m) <= -1) by (apply IZR_le; lia).
      assert (G := Rmult_le_compat_r (bpow radix2 e) _ _ ltac:(lra) M). change (- Z.pos m)%Z with (Z.neg m) in P. lra.
    + change (Zneg m) with (- Zpos m)%Z. rewrite Z.quot_opp_l by (apply Z.pow_nonzero; lia). rewrite Z.quot_small; [reflexivity|]. split; [lia|].
      apply lt_IZR. unfold F2R in P. cbn [Fnum Fexp] in P. change (Zneg m) with (- Zpos m)%Z in P. rewrite opp_IZR in P.
      rewrite (IZR_Zpower radix2) by lia. assert (B := bpow_gt_0 radix2 (- e)).
      assert (E : bpow radix2 e * bpow radix2 (- e) = 1) by (rewrite <- bpow_plus; replace (e + - e)%Z with 0%Z by lia; reflexivity).
      assert (G := Rmult_lt_compat_r _ _ _ B P). rewrite Rmult_assoc, E in G. lra.
  - exfalso. assert (N := F2R_gt_0 radix2 (Float radix2 (Zpos m) e) eq_refl). cbn in N, Q. lra.
Qed.

(** * Whole numbers and rounding *)
Definition nudge (n : Z) : binary64 := binary_normalize 53 1024 eq_refl eq_refl BinarySingleNaN.mode_NE n (-54) false.
Notation tiny54 := (1 / 18014398509481984).
Lemma nudge_value n : (0 <= n <= 256)%Z -> valueOf (nudge n) = IZR n * tiny54 /\ finite (nudge n).
Proof.
  intros K. assert (C := binary_normalize_correct 53 1024 eq_refl eq_refl BinarySingleNaN.mode_NE n (-54) false).
  assert (E : F2R (Float radix2 n (-54)) = IZR n * tiny54) by (unfold F2R; cbn -[IZR]; lra).
  assert (K1 : 0 <= IZR n <= 256) by (split; apply IZR_le; lia).
  rewrite E in C. change (round radix2 _ _ (IZR n * tiny54)) with (rnd64 (IZR n * tiny54)) in C. rewrite no_overflow in C by (apply Rabs_le; lra).
  destruct C as (V & F & _). split; [|exact F]. unfold valueOf, nudge. rewrite V. apply round_generic; [apply valid_rnd_N|].
  rewrite <- E. apply generic_format_F2R. intros N. unfold cexp, FLT_exp. rewrite mag_F2R_Zdigits by exact N.
  assert (D : (Zdigits radix2 n <= 9)%Z) by (apply Zdigits_le_Zpower; cbn; lia). lia.
Qed.
Definition numbers (m : nat) : list Z := map Z.of_nat (seq 0 m).
Lemma nudged : forallb (fun n => doubleLe (doubleInt n) (nsub doubleNums (doubleInt n) (nudge n))) (numbers 257) = true.
Proof. vm_compute. reflexivity. Qed.
(** Half a unit below a whole number is rounded up to it. *)
Lemma whole_up n x : (0 <= n <= 256)%Z -> IZR n - IZR n * tiny54 <= x -> IZR n <= rnd64 x.
Proof.
  intros H L. assert (N := nudged). rewrite forallb_forall in N. specialize (N n). cbv beta in N.
  assert (I : In n (numbers 257)) by (apply in_map_iff; exists (Z.to_nat n); split; [lia|apply in_seq; lia]). specialize (N I).
  destruct (nudge_value n H) as (V & F), (wide_int n ltac:(cbn; lia)) as (W & G). assert (K : 0 <= IZR n <= 256) by (split; apply IZR_le; lia).
  destruct (sub_value (doubleInt n) (nudge n) G F) as (S & FS); [rewrite V, W; apply Rabs_le; lra|].
  apply le_value in N; [|assumption..]. rewrite S, V, W in N. eapply Rle_trans; [exact N|]. apply rnd64_mono, L.
Qed.
(** The complement of a part. *)
Lemma complement r : 0 <= r <= 1 -> Rabs (rnd64 (1 - r) - (1 - r)) <= tiny54.
Proof.
  intros H. assert (O : rnd64 1 = 1) by (apply (rnd64_whole 1); cbn; lia).
  destruct (Req_dec r 0) as [->|N0]; [replace (1 - 0) with 1 by ring; rewrite O, Rminus_diag_eq, Rabs_R0 by reflexivity; lra|].
  destruct (Req_dec r 1) as [->|N1]; [replace (1 - 1) with 0 by ring; rewrite rnd64_0, Rminus_diag_eq, Rabs_R0 by reflexivity; lra|].
  assert (E := error_le_half_ulp radix2 (FLT_exp (-1074) 53) (fun x => negb (Z.even x)) (1 - r)).
  change (round radix2 (FLT_exp (-1074) 53) (Znearest (fun x => negb (Z.even x))) (1 - r)) with (rnd64 (1 - r)) in E.
  eapply Rle_trans; [exact E|]. rewrite ulp_neq_0 by lra. unfold cexp.
  assert (M : (mag radix2 (1 - r) <= 0)%Z) by (apply mag_le_bpow; [lra|]; rewrite Rabs_pos_eq by lra; cbn [bpow]; lra).
  assert (B := bpow_le radix2 (FLT_exp (-1074) 53 (mag radix2 (1 - r))) (-53)). assert (B' := B ltac:(unfold FLT_exp; lia)). cbn -[IZR] in B'. lra.
Qed.
Lemma floor_nonneg x : 0 <= x -> (0 <= Zfloor (rnd64 x))%Z.
Proof. intros H. apply Zfloor_lub. assert (M := rnd64_mono _ _ H). rewrite rnd64_0 in M. exact M. Qed.
Lemma parts_low c r s : (0 <= c < 256)%Z -> 0 <= r -> 0 <= s -> 1 - tiny54 <= r + s -> (c - 1 <= Zfloor (rnd64 (IZR c * s)) + Zfloor (rnd64 (IZR c * r)))%Z.
Proof.
  intros C R S T. assert (K : 0 <= IZR c < 256) by (split; [apply IZR_le|apply IZR_lt]; lia).
  assert (A := floor_nonneg (IZR c * s) ltac:(apply Rmult_le_pos; lra)). assert (B := floor_nonneg (IZR c * r) ltac:(apply Rmult_le_pos; lra)).
  assert (UA := Zfloor_ub (rnd64 (IZR c * s))). assert (UB' := Zfloor_ub (rnd64 (IZR c * r))).
  set (p := Zfloor (rnd64 (IZR c * s))) in *. set (q := Zfloor (rnd64 (IZR c * r))) in *.
  destruct (Z_le_dec (c - 1) (p + q)) as [L|L]; [exact L|exfalso].
  assert (N1 := whole_up (p + 1) (IZR c * s) ltac:(lia)). assert (N2 := whole_up (c - (p + 1)) (IZR c * r) ltac:(lia)).
  assert (Q : IZR (q + 1) <= IZR (c - (p + 1))) by (apply IZR_le; lia). rewrite minus_IZR in *. rewrite !plus_IZR in *.
  destruct (Rle_dec (IZR p + 1 - (IZR p + 1) * tiny54) (IZR c * s)) as [D|D]; [specialize (N1 D); lra|].
  destruct (Rle_dec (IZR c - (IZR p + 1) - (IZR c - (IZR p + 1)) * tiny54) (IZR c * r)) as [D'|D']; [specialize (N2 D'); lra|].
  assert (G := Rmult_le_compat_l (IZR c) _ _ (proj1 K) T). lra.
Qed.
Lemma parts_high c r s : (0 <= c < 256)%Z -> 0 <= r <= 1 -> 0 <= s <= 1 -> r + s <= 1 + tiny54 -> (Zfloor (rnd64 (IZR c * s)) + Zfloor (rnd64 (IZR c * r)) <= c)%Z.
Proof.
  intros C R S T. assert (K : 0 <= IZR c <= 255) by (split; apply IZR_le; lia).
  assert (B1 : Rabs (IZR c * s) <= 255) by (rewrite Rabs_pos_eq by (apply Rmult_le_pos; lra); replace 255 with (255 * 1) by ring; apply Rmult_le_compat; lra).
  assert (B2 : Rabs (IZR c * r) <= 255) by (rewrite Rabs_pos_eq by (apply Rmult_le_pos; lra); replace 255 with (255 * 1) by ring; apply Rmult_le_compat; lra).
  assert (E1 := rnd64_bounded _ _ B1). assert (E2 := rnd64_bounded _ _ B2). apply abs_bounds in E1, E2. assert (E := eta_unit).
  assert (L1 := Zfloor_lb (rnd64 (IZR c * s))). assert (L2 := Zfloor_lb (rnd64 (IZR c * r))).
  assert (G := Rmult_le_compat_l (IZR c) _ _ (proj1 K) T). apply Z.lt_succ_r, lt_IZR. rewrite succ_IZR, plus_IZR. lra.
Qed.

(** * Channels *)
Lemma channel_product v f : (0 <= v < 256)%Z -> finite f -> Rabs (valueOf f) <= 2 ->
  let p := nmul doubleNums (doubleInt v) f in finite p /\ valueOf p = rnd64 (IZR v * valueOf f).
Proof.
  intros V F B. destruct (wide_int v ltac:(cbn; lia)) as (W & G). assert (K : 0 <= IZR v <= 256) by (split; apply IZR_le; lia).
  destruct (mul_value (doubleInt v) f G F) as (M & FM); [rewrite W, Rabs_mult, (Rabs_pos_eq (IZR v)) by lra; nra|]. rewrite W in M. split; assumption.
Qed.
Lemma channel_scaled v f : (0 <= v < 256)%Z -> finite f -> 0 <= valueOf f <= 2 ->
  scaleChannel v f = Ok (Zfloor (rnd64 (IZR v * valueOf f))) /\ (0 <= Zfloor (rnd64 (IZR v * valueOf f)))%Z.
Proof.
  intros V F B. destruct (channel_product v f V F) as (FP & VP); [apply Rabs_le; lra|]. cbv zeta in FP, VP.
  assert (K : 0 <= IZR v <= 255) by (split; apply IZR_le; lia).
  assert (N := floor_nonneg (IZR v * valueOf f) ltac:(apply Rmult_le_pos; lra)). split; [|exact N]. unfold scaleChannel.
  assert (M := rnd64_mono 0 (IZR v * valueOf f) ltac:(apply Rmult_le_pos; lra)). rewrite rnd64_0 in M.
  rewrite trunc_floor by (try assumption; rewrite VP; exact M). rewrite VP. apply cast_fit. unfold fits. split; [lia|].
  assert (B1 : Rabs (IZR v * valueOf f) <= 510) by (rewrite Rabs_pos_eq by (apply Rmult_le_pos; lra); replace 510 with (255 * 2) by ring; apply Rmult_le_compat; lra).
  assert (E1 := rnd64_bounded _ _ B1). apply abs_bounds in E1, B1. assert (E := eta_unit). assert (L := Zfloor_lb (rnd64 (IZR v * valueOf f))).
  apply lt_IZR. change (2 ^ 31)%Z with 2147483648%Z. lra.
Qed.
Lemma rest_value r : finite r -> 0 <= valueOf r <= 1 ->
  let s := nsub doubleNums (doubleInt 1) r in finite s /\ valueOf s = rnd64 (1 - valueOf r) /\ 0 <= valueOf s <= 1.
Proof.
  intros F B. destruct (wide_int 1 ltac:(cbn; lia)) as (W & G). destruct (sub_value (doubleInt 1) r G F) as (S & FS); [rewrite W; apply Rabs_le; lra|].
  rewrite W in S. cbv zeta. split; [exact FS|]. split; [exact S|]. rewrite S.
  assert (M0 := rnd64_mono 0 (1 - valueOf r) ltac:(lra)). rewrite rnd64_0 in M0.
  assert (M1 := rnd64_mono (1 - valueOf r) 1 ltac:(lra)). rewrite (rnd64_whole 1) in M1 by (cbn; lia). lra.
Qed.
(** One channel of a mixture. *)
Definition mixed (x y : Z) (s r : R) : Z := channel (channel (Zfloor (rnd64 (IZR x * s))) + channel (Zfloor (rnd64 (IZR y * r)))).
Lemma part_bound x s : (0 <= x < 256)%Z -> 0 <= s <= 1 -> (0 <= Zfloor (rnd64 (IZR x * s)) <= x)%Z.
Proof.
  intros X S. assert (K : 0 <= IZR x) by (apply IZR_le; lia). split; [apply floor_nonneg, Rmult_le_pos; lra|].
  assert (M := rnd64_mono (IZR x * s) (IZR x)). rewrite (rnd64_whole x) in M by lia. apply le_IZR. eapply Rle_trans; [apply Zfloor_lb|]. apply M. nra.
Qed.
Lemma mixed_near x y s r : (0 <= x < 256)%Z -> (0 <= y < 256)%Z -> 0 <= r <= 1 -> 0 <= s <= 1 -> Rabs (s - (1 - r)) <= tiny54 -> near x y (mixed x y s r).
Proof.
  intros X Y R S T. apply abs_bounds in T. assert (A := part_bound x s X S). assert (B := part_bound y r Y R). unfold near, mixed.
  assert (Mono : forall a b t, (0 <= a)%Z -> (a <= b)%Z -> 0 <= t -> (Zfloor (rnd64 (IZR a * t)) <= Zfloor (rnd64 (IZR b * t)))%Z).
  { intros a b t P Q U. apply Zfloor_le, rnd64_mono, Rmult_le_compat_r; [exact U|]. apply IZR_le, Q. }
  assert (Lo := parts_low (Z.min x y) r s ltac:(lia) ltac:(lra) ltac:(lra) ltac:(lra)).
  assert (Hi := parts_high (Z.max x y) r s ltac:(lia) R S ltac:(lra)).
  assert (L1 := Mono (Z.min x y) x s ltac:(lia) ltac:(lia) ltac:(lra)). assert (L2 := Mono (Z.min x y) y r ltac:(lia) ltac:(lia) ltac:(lra)).
  assert (H1 := Mono x (Z.max x y) s ltac:(lia) ltac:(lia) ltac:(lra)). assert (H2 := Mono y (Z.max x y) r ltac:(lia) ltac:(lia) ltac:(lra)).
  unfold channel. lia.
Qed.
Lemma scaled_color c f : validColor c -> finite f -> 0 <= valueOf f <= 2 ->
  scaleColorD c f = Ok (colorOf (Zfloor (rnd64 (IZR (red c) * valueOf f))) (Zfloor (rnd64 (IZR (green c) * valueOf f)))
                                (Zfloor (rnd64 (IZR (blue c) * valueOf f))) (Zfloor (rnd64 (IZR (alpha c) * valueOf f)))).
Proof.
  intros (V1 & V2 & V3 & V4) F B. unfold scaleColorD.
  rewrite (proj1 (channel_scaled _ f V1 F B)), (proj1 (channel_scaled _ f V2 F B)), (proj1 (channel_scaled _ f V3 F B)), (proj1 (channel_scaled _ f V4 F B)). reflexivity.
Qed.
Lemma mixed_ok a b r : validColor a -> validColor b -> finite r -> 0 <= valueOf r <= 1 ->
  let s := rnd64 (1 - valueOf r) in
  mixColorsD a b r = Ok (mkColor (mixed (red a) (red b) s (valueOf r)) (mixed (green a) (green b) s (valueOf r))
                                 (mixed (blue a) (blue b) s (valueOf r)) (mixed (alpha a) (alpha b) s (valueOf r))).
Proof.
  intros A B F R. destruct (rest_value r F R) as (FS & VS & BS). cbv zeta in *. unfold mixColorsD. rewrite (scaled_color a _ A FS) by lra. cbn [bind].
  rewrite (scaled_color b r B F) by lra. cbn [bind]. rewrite VS. reflexivity.
Qed.
Lemma mixed_valid x y s r : (0 <= mixed x y s r < 256)%Z.
Proof. unfold mixed, channel. lia. Qed.
Lemma mixed_zero x y s r : (0 <= x < 256)%Z -> r = 0 -> s = 1 -> mixed x y s r = x.
Proof.
  intros X -> ->. unfold mixed. rewrite Rmult_0_r, Rmult_1_r, rnd64_0, (rnd64_whole x) by lia. rewrite !Zfloor_IZR. unfold channel. lia.
Qed.
Lemma mixed_one x y s r : (0 <= y < 256)%Z -> r = 1 -> s = 0 -> mixed x y s r = y.
Proof.
  intros Y -> ->. unfold mixed. rewrite Rmult_0_r, Rmult_1_r, rnd64_0, (rnd64_whole y) by lia. rewrite !Zfloor_IZR. unfold channel. lia.
Qed.

(** * A little beyond the end *)
Lemma over_channels x y r : (0 <= x < 256)%Z -> (0 <= y < 256)%Z -> finite r -> 1 <= valueOf r <= 1 + 1 / 300 ->
  scaleChannel x (nsub doubleNums (doubleInt 1) r) = Ok 0%Z /\ scaleChannel y r = Ok y.
Proof.
  intros X Y F B. destruct (wide_int 1 ltac:(cbn; lia)) as (W & G). destruct (sub_value (doubleInt 1) r G F) as (S & FS); [rewrite W; apply Rabs_le; lra|]. rewrite W in S.
  set (s := nsub doubleNums (doubleInt 1) r) in *. assert (E := eta_unit).
  assert (M0 := rnd64_mono (1 - valueOf r) 0 ltac:(lra)). rewrite rnd64_0, <- S in M0.
  assert (ES := rnd64_bounded (1 - valueOf r) 1 ltac:(apply Rabs_le; lra)). rewrite <- S in ES. apply abs_bounds in ES.
  assert (KX : 0 <= IZR x <= 255) by (split; apply IZR_le; lia). assert (KY : 0 <= IZR y <= 255) by (split; apply IZR_le; lia). split.
  - destruct (channel_product x s X FS) as (FP & VP); [apply Rabs_le; lra|]. cbv zeta in FP, VP. unfold scaleChannel.
    assert (P : -(9 / 10) <= IZR x * valueOf s <= 0).
    { split; [|apply Ropp_le_cancel; rewrite Ropp_0, Ropp_mult_distr_r; apply Rmult_le_pos; lra].
      apply Ropp_le_cancel. rewrite Ropp_mult_distr_r, Ropp_involutive. apply Rle_trans with (255 * (1 / 290)); [apply Rmult_le_compat; lra|lra]. }
    rewrite trunc_zero; [reflexivity|exact FP|]. rewrite VP. assert (EP := rnd64_bounded (IZR x * valueOf s) 1 ltac:(apply Rabs_le; lra)). apply abs_bounds in EP.
    assert (M1 := rnd64_mono (IZR x * valueOf s) 0 ltac:(lra)). rewrite rnd64_0 in M1. lra.
  - destruct (channel_scaled y r Y F ltac:(lra)) as (E1 & _). rewrite E1. f_equal. apply Zfloor_imp. rewrite plus_IZR.
    assert (P : IZR y <= IZR y * valueOf r <= IZR y + 9 / 10).
    { split; [rewrite <- (Rmult_1_r (IZR y)) at 1; apply Rmult_le_compat_l; lra|]. replace (valueOf r) with (1 + (valueOf r - 1)) by ring.
      assert (IZR y * (valueOf r - 1) <= 255 * (1 / 300)) by (apply Rmult_le_compat; lra). lra. }
    assert (M1 := rnd64_mono (IZR y) (IZR y * valueOf r) ltac:(lra)). rewrite (rnd64_whole y) in M1 by lia.
    assert (EP := rnd64_bounded (IZR y * valueOf r) 256 ltac:(apply Rabs_le; lra)). apply abs_bounds in EP. lra.
Qed.
Lemma over_color a b r : validColor a -> validColor b -> finite r -> 1 <= valueOf r <= 1 + 1 / 300 -> mixColorsD a b r = Ok b.
Proof.
  intros (A1 & A2 & A3 & A4) (B1 & B2 & B3 & B4) F R. unfold mixColorsD, scaleColorD.
  destruct (over_channels _ _ r A1 B1 F R) as (-> & ->), (over_channels _ _ r A2 B2 F R) as (-> & ->),
    (over_channels _ _ r A3 B3 F R) as (-> & ->), (over_channels _ _ r A4 B4 F R) as (-> & ->). cbn [bind].
  destruct b as [b1 b2 b3 b4]. cbn [red green blue alpha] in *. unfold addColor, colorOf, channel. cbn [red green blue alpha]. do 2 f_equal; lia.
Qed.

(** * Parts of times *)
Lemma difference_pos x y : finite x -> finite y -> valueOf y < valueOf x -> Rabs (valueOf x) <= 1000000000 -> Rabs (valueOf y) <= 1000000000 ->
  finite (nsub doubleNums x y) /\ valueOf (nsub doubleNums x y) = rnd64 (valueOf x - valueOf y) /\ 0 < valueOf (nsub doubleNums x y).
Proof.
  intros FX FY L BX BY. apply abs_bounds in BX, BY. destruct (sub_value x y FX FY) as (V & F); [apply Rabs_le; lra|].
  split; [exact F|]. split; [exact V|]. rewrite V. assert (M := rnd64_mono 0 (valueOf x - valueOf y) ltac:(lra)). rewrite rnd64_0 in M.
  assert (N : rnd64 (valueOf x + - valueOf y) <> 0).
  { apply (round_plus_neq_0 radix2 (FLT_exp (-1074) 53) ZnearestE); [apply (generic_format_B2R 53 1024)|apply generic_format_opp, (generic_format_B2R 53 1024)|lra]. }
  change (valueOf x + - valueOf y) with (valueOf x - valueOf y) in N. lra.
Qed.
Lemma part_value t ta tb : finite t -> finite ta -> finite tb -> Rabs (valueOf t) <= 1000000000 -> Rabs (valueOf ta) <= 1000000000 -> Rabs (valueOf tb) <= 1000000000 ->
  valueOf ta < valueOf t <= valueOf tb ->
  let r := ndiv doubleNums (nsub doubleNums t ta) (nsub doubleNums tb ta) in finite r /\ 0 <= valueOf r <= 1 /\ (valueOf t = valueOf tb -> valueOf r = 1).
Proof.
  intros F FA FB T A B (L1 & L2). destruct (difference_pos t ta F FA L1 T A) as (FD & VD & PD), (difference_pos tb ta FB FA ltac:(lra) B A) as (FE & VE & PE).
  set (d := nsub doubleNums t ta) in *. set (e := nsub doubleNums tb ta) in *. cbv zeta.
  assert (M : valueOf d <= valueOf e) by (rewrite VD, VE; apply rnd64_mono; lra).
  assert (Q : 0 <= valueOf d / valueOf e <= 1).
  { split; [apply Rlt_le, Rdiv_lt_0_compat; assumption|]. apply Rmult_le_reg_r with (valueOf e); [exact PE|]. unfold Rdiv. rewrite Rmult_assoc, Rinv_l by lra. lra. }
  destruct (div_value d e FD) as (V & FV); [lra|apply Rabs_le; lra|]. split; [exact FV|]. rewrite V.
  assert (M0 := rnd64_mono _ _ (proj1 Q)). assert (M1 := rnd64_mono _ _ (proj2 Q)). rewrite rnd64_0 in M0. rewrite (rnd64_whole 1) in M1 by (cbn; lia).
  split; [lra|]. intros E. assert (D : valueOf d = valueOf e) by (rewrite VD, VE, E; reflexivity). rewrite D. unfold Rdiv. rewrite Rinv_r by lra. apply (rnd64_whole 1). cbn. lia.
Qed.
Lemma part_over t ta tb : finite t -> finite ta -> finite tb -> Rabs (valueOf t) <= 1000000000 -> Rabs (valueOf ta) <= 1000000000 -> Rabs (valueOf tb) <= 1000000000 ->
  valueOf ta + 1 / 1000000 <= valueOf tb <= valueOf t -> valueOf t <= valueOf tb + 1 / 1000 * (valueOf tb - valueOf ta) ->
  let r := ndiv doubleNums (nsub doubleNums t ta) (nsub doubleNums tb ta) in finite r /\ 1 <= valueOf r <= 1 + 1 / 300.
Proof.
  intros F FA FB T A B (L1 & L2) U. destruct (difference_pos t ta F FA ltac:(lra) T A) as (FD & VD & PD), (difference_pos tb ta FB FA ltac:(lra) B A) as (FE & VE & PE).
  set (d := nsub doubleNums t ta) in *. set (e := nsub doubleNums tb ta) in *. cbv zeta. apply abs_bounds in T, A, B. assert (ET := eta_tiny (1 / 1000000) ltac:(lra)).
  assert (M : valueOf e <= valueOf d) by (rewrite VD, VE; apply rnd64_mono; lra).
  assert (E1 := rnd64_error (valueOf t - valueOf ta)). assert (E2 := rnd64_error (valueOf tb - valueOf ta)). rewrite <- VD, (Rabs_pos_eq (valueOf t - valueOf ta)) in E1 by lra. rewrite <- VE, (Rabs_pos_eq (valueOf tb - valueOf ta)) in E2 by lra.
  apply abs_bounds in E1, E2.
  assert (Q : 1 <= valueOf d / valueOf e <= 1 + 1 / 500).
  { split; apply Rmult_le_reg_r with (valueOf e); try exact PE; unfold Rdiv; rewrite Rmult_assoc, Rinv_l by lra; lra. }
  destruct (div_value d e FD) as (V & FV); [lra|apply Rabs_le; lra|]. split; [exact FV|]. rewrite V.
  assert (M1 := rnd64_mono _ _ (proj1 Q)). rewrite (rnd64_whole 1) in M1 by (cbn; lia).
  assert (E3 := rnd64_bounded (valueOf d / valueOf e) 2 ltac:(apply Rabs_le; lra)). apply abs_bounds in E3. assert (E := eta_unit). lra.
Qed.

(** * The loop *)
Lemma seekD l time i : finite time -> List.Forall (fun p => is_finite 53 1024 (fst p) = true) l -> (i < length l)%nat ->
  (forall j t c, (j < i)%nat -> nth_error l j = Some (t, c) -> valueOf t < valueOf time) ->
  (forall t c, nth_error l i = Some (t, c) -> valueOf time <= valueOf t \/ Datatypes.S i = length l) -> seekStopD l time = i.
Proof.
  intros FT. revert i. induction l as [|[t c] l IH]; intros i Fl Hi Hlt Hge; [cbn in Hi; lia|].
  assert (Ft : finite t) by (now inversion Fl). assert (Fr : List.Forall (fun p => is_finite 53 1024 (fst p) = true) l) by (now inversion Fl).
  cbn [seekStopD]. destruct l as [|q l].
  - cbn in Hi. lia.
  - destruct i as [|i].
    + destruct (Hge t c eq_refl) as [H|H]; [|cbn in H; lia]. destruct (nlt doubleNums t time) eqn:L; [|reflexivity]. apply lt_value in L; [lra|assumption..].
    + pose proof (Hlt O t c ltac:(lia) eq_refl) as H. rewrite (proj2 (lt_value t time Ft FT) H). f_equal. apply IH.
      * exact Fr.
      * cbn in *. lia.
      * intros j t' c' Hj E. apply (Hlt (Datatypes.S j) t' c'); [lia|exact E].
      * intros t' c' E. destruct (Hge t' c' E) as [|H']; [auto|]. right. cbn in *. lia.
Qed.
