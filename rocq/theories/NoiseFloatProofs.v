(** Noise computed with doubles. *)
From Coq Require Import Reals ZArith Lra Lia Psatz.
From Flocq Require Import Core.Core Relative IEEE754.Binary IEEE754.Bits.
From Flocq Require IEEE754.BinarySingleNaN.
From Verif Require Import Base GeoModel RingModel MeshBuildModel ProjectionModel ProjectionFloat QuatModel GenModel RowModel NoiseModel NoiseSpec NoiseProofs
  RingFloatModel RingFloatSpec RingFloatProofs InsideFloatModel InsideFloatSpec InsideFloatProofs LineFloatModel LineFloatProofs NoiseFloatModel NoiseFloatSpec.
Local Open Scope R_scope.

Local Instance prec53n : Prec_gt_0 53. Proof. reflexivity. Qed.

(** * Numbers with an error *)
(** [x] is within [e] units of 2^-53 of [X], and that within [b]. *)
Definition ap (x : binary64) (X b e : R) : Prop := finite x /\ Rabs (valueOf x - X) <= e * ulp1 /\ Rabs X <= b.
(** Sizes for which the errors of second order are small. *)
Definition small (b e : R) : Prop := 0 <= b <= 100 /\ 0 <= e <= 100000.
Lemma ap_weaken x X b e b' e' : ap x X b e -> Rabs X <= b' -> e <= e' -> ap x X b' e'.
Proof. intros (F & E & B) B' L. split; [exact F|]. split; [lra|exact B']. Qed.
Lemma ap_value x X b e : ap x X b e -> small b e -> Rabs (valueOf x) <= b + e * ulp1.
Proof. intros (F & E & B) (S1 & S2). assert (W := close_abs _ _ _ _ E B). lra. Qed.
Lemma eta_unit : eta <= 1 / 1000 * ulp1.
Proof. assert (E := eta_tiny 1 ltac:(lra)). lra. Qed.
Lemma ap_add x y X Y b c e f : ap x X b e -> ap y Y c f -> small b e -> small c f ->
  ap (nadd doubleNums x y) (X + Y) (b + c) (e + f + b + c + 1).
Proof.
  intros A B SA SB. assert (VA := ap_value _ _ _ _ A SA). assert (VB := ap_value _ _ _ _ B SB). destruct A as (FA & EA & BA), B as (FB & EB & BB), SA as (SA1 & SA2), SB as (SB1 & SB2).
  assert (T : Rabs (valueOf x + valueOf y) <= b + c + (e + f) * ulp1) by (eapply Rle_trans; [apply Rabs_triang|]; lra).
  destruct (add_value x y FA FB) as (V & F); [lra|]. split; [exact F|]. rewrite V. assert (R := rnd64_bounded _ _ T). assert (E1 := eta_unit). split.
  - replace (rnd64 (valueOf x + valueOf y) - (X + Y)) with ((rnd64 (valueOf x + valueOf y) - (valueOf x + valueOf y)) + ((valueOf x - X) + (valueOf y - Y))) by ring.
    eapply Rle_trans; [apply Rabs_triang|]. assert (T2 := Rabs_triang (valueOf x - X) (valueOf y - Y)). lra.
  - eapply Rle_trans; [apply Rabs_triang|]. lra.
Qed.
Lemma ap_sub x y X Y b c e f : ap x X b e -> ap y Y c f -> small b e -> small c f ->
  ap (nsub doubleNums x y) (X - Y) (b + c) (e + f + b + c + 1).
Proof.
  intros A B SA SB. assert (VA := ap_value _ _ _ _ A SA). assert (VB := ap_value _ _ _ _ B SB). destruct A as (FA & EA & BA), B as (FB & EB & BB), SA as (SA1 & SA2), SB as (SB1 & SB2).
  assert (T : Rabs (valueOf x - valueOf y) <= b + c + (e + f) * ulp1) by (unfold Rminus; eapply Rle_trans; [apply Rabs_triang|]; rewrite Rabs_Ropp; lra).
  destruct (sub_value x y FA FB) as (V & F); [lra|]. split; [exact F|]. rewrite V. assert (R := rnd64_bounded _ _ T). assert (E1 := eta_unit). split.
  - replace (rnd64 (valueOf x - valueOf y) - (X - Y)) with ((rnd64 (valueOf x - valueOf y) - (valueOf x - valueOf y)) + ((valueOf x - X) + - (valueOf y - Y))) by ring.
    eapply Rle_trans; [apply Rabs_triang|]. assert (T2 := Rabs_triang (valueOf x - X) (- (valueOf y - Y))). rewrite (Rabs_Ropp (valueOf y - Y)) in T2. lra.
  - unfold Rminus. eapply Rle_trans; [apply Rabs_triang|]. rewrite Rabs_Ropp. lra.
Qed.
Lemma ap_mul x y X Y b c e f : ap x X b e -> ap y Y c f -> small b e -> small c f ->
  ap (nmul doubleNums x y) (X * Y) (b * c) (e * c + f * b + b * c + 1).
Proof.
  intros (FA & EA & BA) (FB & EB & BB) (SA1 & SA2) (SB1 & SB2).
  assert (P := product_close _ _ _ _ _ _ _ _ EA EB BA BB).
  assert (XY : Rabs (X * Y) <= b * c) by (rewrite Rabs_mult; apply Rmult_le_compat; try apply Rabs_pos; lra).
  assert (EF : e * f <= 100000 * 100000) by (apply Rmult_le_compat; lra). assert (EF0 : 0 <= e * f) by (apply Rmult_le_pos; lra).
  assert (EC : 0 <= e * c <= 100000 * 100) by (split; [apply Rmult_le_pos; lra|apply Rmult_le_compat; lra]).
  assert (BF : 0 <= b * f <= 100 * 100000) by (split; [apply Rmult_le_pos; lra|apply Rmult_le_compat; lra]).
  assert (BC : 0 <= b * c <= 100 * 100) by (split; [apply Rmult_le_pos; lra|apply Rmult_le_compat; lra]).
  assert (P' : Rabs (valueOf x * valueOf y - X * Y) <= (e * c + f * b + 1 / 10000) * ulp1).
  { eapply Rle_trans; [exact P|]. replace (e * ulp1 * (c + f * ulp1) + b * (f * ulp1)) with ((e * c + f * b + e * f * ulp1) * ulp1) by ring. lra. }
  assert (T := close_abs _ _ _ _ P' XY).
  destruct (mul_value x y FA FB) as (V & F); [lra|]. split; [exact F|]. rewrite V. split; [|exact XY].
  assert (R := round_close _ _ _ _ P' XY). assert (E1 := eta_unit). lra.
Qed.
Lemma wide_int k : (Z.abs k <= 2 ^ 31)%Z -> valueOf (doubleInt k) = IZR k /\ finite (doubleInt k).
Proof.
  intros K. assert (C := binary_normalize_correct 53 1024 eq_refl eq_refl BinarySingleNaN.mode_NE k 0 false).
  assert (E : F2R (Float radix2 k 0) = IZR k) by (unfold F2R; cbn; lra). change (2 ^ 31)%Z with 2147483648%Z in K.
  assert (K1 : (-2147483648 <= k)%Z) by lia. assert (K2 : (k <= 2147483648)%Z) by lia. apply IZR_le in K1, K2.
  rewrite E in C. change (round radix2 _ _ (IZR k)) with (rnd64 (IZR k)) in C. rewrite no_overflow in C by (apply Rabs_le; lra).
  destruct C as (V & F & _). split; [|exact F]. unfold valueOf, doubleInt. rewrite V. apply round_generic; [apply valid_rnd_N|].
  rewrite <- E. apply generic_format_F2R. intros N. unfold cexp, FLT_exp. rewrite mag_F2R_Zdigits by exact N.
  assert (D : (Zdigits radix2 k <= 32)%Z) by (apply Zdigits_le_Zpower; cbn; lia). lia.
Qed.
Lemma ap_int k : (Z.abs k <= 100)%Z -> ap (doubleInt k) (IZR k) (IZR (Z.abs k)) 0.
Proof.
  intros K. destruct (wide_int k ltac:(lia)) as (V & F). split; [exact F|]. rewrite V, Rminus_diag_eq, Rabs_R0 by reflexivity. split; [lra|].
  rewrite abs_IZR. lra.
Qed.

(** * Pieces of the noise *)
Lemma sqrt_ap : ap (doubleSqrt (doubleInt 2)) (sqrt 2) (3 / 2) 2.
Proof.
  destruct (wide_int 2 ltac:(cbn; lia)) as (V & F).
  destruct (Bsqrt_correct 53 1024 eq_refl eq_refl unop_nan_pl64 BinarySingleNaN.mode_NE (doubleInt 2)) as (S & G & _).
  fold (valueOf (doubleInt 2)) in S. rewrite V in S. change (round radix2 _ _ (sqrt 2)) with (rnd64 (sqrt 2)) in S.
  assert (Q : 0 < sqrt 2 <= 3 / 2) by (split; [apply sqrt2_pos|pose proof sqrt2_small; lra]).
  assert (A : Rabs (sqrt 2) <= 3 / 2) by (rewrite Rabs_pos_eq; lra). split.
  - unfold doubleSqrt, b64_sqrt. rewrite G. destruct (doubleInt 2) as [| | |s m e w] eqn:E; try reflexivity; try discriminate F.
    destruct s; [|reflexivity]. exfalso. cbn [valueOf B2R] in V. assert (N : F2R (Float radix2 (cond_Zopp true (Zpos m)) e) < 0) by (apply F2R_lt_0; cbn; lia). lra.
  - change (valueOf (doubleSqrt (doubleInt 2))) with (B2R 53 1024 (Bsqrt 53 1024 eq_refl eq_refl unop_nan_pl64 BinarySingleNaN.mode_NE (doubleInt 2))).
    rewrite S. split; [|exact A]. assert (R := rnd64_bounded _ _ A). assert (E1 := eta_unit). lra.
Qed.
Lemma root_bounds : 14 / 10 <= sqrt 2 <= 15 / 10.
Proof.
  assert (P := sqrt2_pos). assert (Q := sqrt2_sq). split.
  - destruct (Rle_dec (14 / 10) (sqrt 2)) as [L|L]; [exact L|exfalso]. assert (sqrt 2 * sqrt 2 < 14 / 10 * (14 / 10)) by (apply Rmult_le_0_lt_compat; lra). lra.
  - pose proof sqrt2_small. lra.
Qed.
Lemma inverse_ap k : (k = 1 \/ k = -1)%Z -> ap (ndiv doubleNums (doubleInt k) (doubleSqrt (doubleInt 2))) (IZR k / sqrt 2) 1 4.
Proof.
  intros K. destruct sqrt_ap as (F & E & _). set (r := doubleSqrt (doubleInt 2)) in *. assert (RB := root_bounds).
  destruct (wide_int k) as (VK & FK); [destruct K as [-> | ->]; cbn; lia|]. assert (E' := abs_bounds _ _ E).
  assert (R0 : valueOf r <> 0) by lra. assert (AK : Rabs (IZR k) = 1) by (destruct K as [-> | ->]; [apply Rabs_R1|rewrite Rabs_left; lra]).
  assert (IV : 0 < / valueOf r <= 1) by (split; [apply Rinv_0_lt_compat; lra|rewrite <- Rinv_1; apply Rinv_le_contravar; lra]).
  assert (IS : 0 < / sqrt 2 <= 1) by (split; [apply Rinv_0_lt_compat; lra|rewrite <- Rinv_1; apply Rinv_le_contravar; lra]).
  assert (Q : Rabs (IZR k / valueOf r - IZR k / sqrt 2) <= 2 * ulp1).
  { replace (IZR k / valueOf r - IZR k / sqrt 2) with (- (IZR k * ((valueOf r - sqrt 2) * (/ valueOf r * / sqrt 2)))) by (field; lra).
    rewrite Rabs_Ropp, !Rabs_mult, AK, (Rabs_pos_eq (/ valueOf r)), (Rabs_pos_eq (/ sqrt 2)) by lra.
    assert (W : 0 <= / valueOf r * / sqrt 2 <= 1 * 1) by (split; [apply Rmult_le_pos; lra|apply Rmult_le_compat; lra]).
    assert (Rabs (valueOf r - sqrt 2) * (/ valueOf r * / sqrt 2) <= Rabs (valueOf r - sqrt 2) * 1) by (apply Rmult_le_compat_l; [apply Rabs_pos|lra]). lra. }
  assert (B : Rabs (IZR k / sqrt 2) <= 1) by (unfold Rdiv; rewrite Rabs_mult, AK, (Rabs_pos_eq (/ sqrt 2)) by lra; lra).
  assert (T := close_abs _ _ _ _ Q B).
  destruct (div_value (doubleInt k) r FK R0) as (V & FD); [rewrite VK; lra|]. rewrite VK in V.
  split; [exact FD|]. rewrite V. split; [|exact B]. assert (R := round_close _ _ _ _ Q B). assert (E1 := eta_unit). lra.
Qed.

Ltac sm := unfold small; lra.
Section Pieces.
  Variables (k : trig binary64) (g : gens binary64).
  Hypothesis K : ksqrt k = doubleSqrt.
  Hypothesis I : gint g = doubleInt.

  Lemma gradient_ap h : (0 <= h < 8)%Z -> exists v, entryAt (gradients2D doubleNums k g) h = Ok v /\
    ap (v2x v) (fst (compass h)) 1 4 /\ ap (v2y v) (snd (compass h)) 1 4.
  Proof.
    intros H. assert (P1 := inverse_ap 1 (or_introl eq_refl)). assert (M1 := inverse_ap (-1) (or_intror eq_refl)).
    assert (T : - (1 / sqrt 2) = -1 / sqrt 2) by (unfold Rdiv; lra).
    assert (O : ap (doubleInt 0) 0 1 4) by (apply ap_weaken with (1 := ap_int 0 ltac:(lia)); [rewrite Rabs_R0; lra|lra]).
    assert (E : ap (doubleInt 1) 1 1 4) by (apply ap_weaken with (1 := ap_int 1 ltac:(lia)); [rewrite Rabs_R1; lra|lra]).
    assert (W : ap (doubleInt (-1)) (-1) 1 4) by (apply ap_weaken with (1 := ap_int (-1) ltac:(lia)); [rewrite Rabs_left; lra|lra]).
    assert (h = 0 \/ h = 1 \/ h = 2 \/ h = 3 \/ h = 4 \/ h = 5 \/ h = 6 \/ h = 7)%Z as [->|[->|[->|[->|[->|[->|[->| ->]]]]]]] by lia;
      unfold gradients2D, sqr2; rewrite K, I; eexists; (split; [reflexivity|]); unfold compass; cbn [v2x v2y fst snd]; rewrite ?T; auto.
  Qed.
  Lemma corner_ap h y : (0 <= h < 256)%Z -> (0 <= y <= 256)%Z -> exists v, cornerGradient doubleNums k g h y = Ok v /\
    ap (v2x v) (fst (compass (hashOf ((h + y) mod 256) mod 8)%Z)) 1 4 /\ ap (v2y v) (snd (compass (hashOf ((h + y) mod 256) mod 8)%Z)) 1 4.
  Proof.
    intros H Y. unfold cornerGradient. change (Z.add h y) with (h + y)%Z. rewrite table_entry by lia. cbn [bind]. rewrite mask7_mod.
    apply gradient_ap, Z.mod_pos_bound. lia.
  Qed.
  Lemma dot_ap v d x y X Y : ap (v2x v) (fst d) 1 4 -> ap (v2y v) (snd d) 1 4 -> ap x X 1 3 -> ap y Y 1 3 ->
    ap (dotG doubleNums v x y) (fst d * X + snd d * Y) 2 21.
  Proof.
    intros A B C D. unfold dotG.
    assert (P := ap_mul _ _ _ _ _ _ _ _ A C ltac:(sm) ltac:(sm)). assert (Q := ap_mul _ _ _ _ _ _ _ _ B D ltac:(sm) ltac:(sm)).
    assert (S := ap_add _ _ _ _ _ _ _ _ P Q ltac:(sm) ltac:(sm)). apply ap_weaken with (1 := S); [destruct S as (_ & _ & S); lra|lra].
  Qed.
  Lemma smooth_ap t T : ap t T 1 0 -> 0 <= T <= 1 -> ap (smooth doubleNums g t) (fade T) 1 122.
  Proof.
    intros A H. unfold smooth. rewrite I.
    assert (A2 := ap_mul _ _ _ _ _ _ _ _ A A ltac:(sm) ltac:(sm)). assert (A3 := ap_mul _ _ _ _ _ _ _ _ A2 A ltac:(sm) ltac:(sm)).
    assert (C6 : ap (doubleInt 6) 6 6 0) by (apply (ap_int 6); lia). assert (C15 : ap (doubleInt 15) 15 15 0) by (apply (ap_int 15); lia).
    assert (C10 : ap (doubleInt 10) 10 10 0) by (apply (ap_int 10); lia).
    assert (B1 := ap_mul _ _ _ _ _ _ _ _ A C6 ltac:(sm) ltac:(sm)). assert (B2 := ap_sub _ _ _ _ _ _ _ _ B1 C15 ltac:(sm) ltac:(sm)).
    apply ap_weaken with (b' := 15) (e' := 29) in B2; [|apply Rabs_le; lra|lra].
    assert (B3 := ap_mul _ _ _ _ _ _ _ _ A B2 ltac:(sm) ltac:(sm)). assert (B4 := ap_add _ _ _ _ _ _ _ _ B3 C10 ltac:(sm) ltac:(sm)).
    apply ap_weaken with (b' := 10) (e' := 71) in B4; [|apply Rabs_le; nra|lra].
    assert (B5 := ap_mul _ _ _ _ _ _ _ _ A3 B4 ltac:(sm) ltac:(sm)).
    replace (T * T * T * (T * (T * 6 - 15) + 10)) with (fade T) in B5 by (unfold fade; ring).
    apply ap_weaken with (1 := B5); [assert (Q := fade_range T H); apply Rabs_le; lra|lra].
  Qed.
  Lemma value_ap v00 v10 v01 v11 A B C D tx ty X Y : ap v00 A 2 21 -> ap v10 B 2 21 -> ap v01 C 2 21 -> ap v11 D 2 21 -> ap tx X 1 122 -> ap ty Y 1 122 ->
    ap (nmul doubleNums (nadd doubleNums (nadd doubleNums v00 (nmul doubleNums (nsub doubleNums v10 v00) tx))
         (nmul doubleNums (nadd doubleNums (nsub doubleNums v01 v00) (nmul doubleNums (nadd doubleNums (nsub doubleNums (nsub doubleNums v11 v01) v10) v00) tx)) ty))
         (sqr2 k g))
       ((A + (B - A) * X + (C - A + (D - C - B + A) * X) * Y) * sqrt 2) 27 4885.
  Proof.
    intros HA HB HC HD HX HY. unfold sqr2. rewrite K, I.
    assert (b := ap_sub _ _ _ _ _ _ _ _ HB HA ltac:(sm) ltac:(sm)). assert (c := ap_sub _ _ _ _ _ _ _ _ HC HA ltac:(sm) ltac:(sm)).
    assert (d1 := ap_sub _ _ _ _ _ _ _ _ HD HC ltac:(sm) ltac:(sm)). assert (d2 := ap_sub _ _ _ _ _ _ _ _ d1 HB ltac:(sm) ltac:(sm)).
    assert (d := ap_add _ _ _ _ _ _ _ _ d2 HA ltac:(sm) ltac:(sm)).
    assert (p := ap_mul _ _ _ _ _ _ _ _ b HX ltac:(sm) ltac:(sm)). assert (q := ap_add _ _ _ _ _ _ _ _ HA p ltac:(sm) ltac:(sm)).
    assert (r := ap_mul _ _ _ _ _ _ _ _ d HX ltac:(sm) ltac:(sm)). assert (s := ap_add _ _ _ _ _ _ _ _ c r ltac:(sm) ltac:(sm)).
    assert (t := ap_mul _ _ _ _ _ _ _ _ s HY ltac:(sm) ltac:(sm)). assert (u := ap_add _ _ _ _ _ _ _ _ q t ltac:(sm) ltac:(sm)).
    assert (w := ap_mul _ _ _ _ _ _ _ _ u sqrt_ap ltac:(sm) ltac:(sm)). apply ap_weaken with (1 := w); [destruct w as (_ & _ & w); lra|lra].
  Qed.
End Pieces.

(** * The function *)
Lemma floor_value x : finite x -> doubleFloor x = Zfloor (valueOf x).
Proof.
  intros F. destruct x as [s| | |s m e w]; try discriminate F; cbn [doubleFloor valueOf B2R].
  - symmetry. apply (Zfloor_IZR 0).
  - unfold F2R. cbn [Fnum Fexp]. set (z := cond_Zopp s (Zpos m)). destruct (Z.leb_spec 0 e) as [L|L].
    + replace (IZR z * bpow radix2 e) with (IZR (z * 2 ^ e)); [symmetry; apply Zfloor_IZR|]. rewrite mult_IZR. f_equal. rewrite <- IZR_Zpower by exact L. reflexivity.
    + rewrite <- (Zfloor_div z (2 ^ (- e))) by (apply Z.pow_nonzero; lia). f_equal. unfold Rdiv. f_equal.
      replace e with (- (- e))%Z at 2 by lia. rewrite bpow_opp. f_equal. rewrite <- IZR_Zpower by lia. reflexivity.
Qed.
Lemma floor_same u : Zfloor u = realFloor u.
Proof. symmetry. apply floor_is. split; [apply Zfloor_lb|apply Zfloor_ub]. Qed.
Lemma reach_value x f : reachable x f -> finite (nmul doubleNums x f) /\ valueOf (nmul doubleNums x f) = rounded x f /\ Rabs (rounded x f) <= 2147483649.
Proof.
  intros (FX & FF & Z). change (rounded x f) with (rnd64 (valueOf x * valueOf f)) in *.
  assert (L := Zfloor_lb (rnd64 (valueOf x * valueOf f))). assert (U := Zfloor_ub (rnd64 (valueOf x * valueOf f))).
  unfold fits in Z. change (- 2 ^ 31 <= Zfloor (rnd64 (valueOf x * valueOf f)) < 2147483648)%Z in Z. change (- 2 ^ 31)%Z with (-2147483648)%Z in Z. destruct Z as (Z1 & Z2). apply IZR_le in Z1. apply IZR_lt in Z2.
  assert (B : Rabs (rnd64 (valueOf x * valueOf f)) <= 2147483649) by (apply Rabs_le; lra).
  assert (R := rnd64_error (valueOf x * valueOf f)). assert (E := eta_small).
  assert (T := Rabs_triang (rnd64 (valueOf x * valueOf f)) (- (rnd64 (valueOf x * valueOf f) - valueOf x * valueOf f))).
  replace (rnd64 (valueOf x * valueOf f) + - (rnd64 (valueOf x * valueOf f) - valueOf x * valueOf f)) with (valueOf x * valueOf f) in T by ring. rewrite Rabs_Ropp in T.
  destruct (mul_value x f FX FF) as (V & F); [lra|]. split; [exact F|]. split; [exact V|exact B].
Qed.
Lemma offset_in_cell p : finite p -> fits (Zfloor (valueOf p)) ->
  let t := nsub doubleNums p (doubleInt (Zfloor (valueOf p))) in
  finite t /\ 0 <= valueOf t <= 1 /\ Rabs (valueOf t - (valueOf p - IZR (Zfloor (valueOf p)))) <= 2 * ulp1.
Proof.
  intros F Z t. unfold fits in Z. destruct (wide_int (Zfloor (valueOf p)) ltac:(lia)) as (VI & FI).
  assert (L := Zfloor_lb (valueOf p)). assert (U := Zfloor_ub (valueOf p)).
  assert (A : Rabs (valueOf p - IZR (Zfloor (valueOf p))) <= 1) by (apply Rabs_le; lra).
  destruct (sub_value p (doubleInt (Zfloor (valueOf p))) F FI) as (V & FT); [rewrite VI; lra|]. rewrite VI in V. fold t in V, FT.
  split; [exact FT|]. rewrite V. split.
  - split; [rewrite <- rnd64_0 at 1|rewrite <- (rnd64_whole 1) by lia]; apply rnd64_mono; lra.
  - assert (R := rnd64_bounded _ _ A). assert (E := eta_unit). lra.
Qed.
Lemma cast_fits i : fits i -> castInt i = Ok i.
Proof. unfold fits, castInt. intros H. destruct (Z.leb_spec (- 2 ^ 31) i), (Z.ltb_spec i (2 ^ 31)); try lia; reflexivity. Qed.

Section Function.
  Variables (k : trig binary64) (g : gens binary64).
  Hypothesis K : ksqrt k = doubleSqrt.
  Hypothesis I : gint g = doubleInt.
  Notation perlinD := (perlin2D doubleNums k g doubleFloor doubleTiny).

  Theorem noise_close x y f : nlt doubleNums f doubleTiny = false -> reachable x f -> reachable y f ->
    exists v, perlinD x y f = Ok v /\ finite v /\
      Rabs (valueOf v - noise (gradientsOf hashOf) (rounded x f) (rounded y f)) <= 1 / 1000000000000.
  Proof.
    intros F X Y. destruct (reach_value x f X) as (FX & VX & _), (reach_value y f Y) as (FY & VY & _).
    destruct X as (_ & _ & ZX), Y as (_ & _ & ZY). unfold perlin2D. rewrite F. cbv zeta. rewrite !floor_value by assumption. rewrite !VX, !VY.
    rewrite <- VX in ZX. rewrite <- VY in ZY.
    assert (OX := offset_in_cell _ FX ZX). assert (OY := offset_in_cell _ FY ZY). cbv zeta in OX, OY. rewrite VX in OX, ZX. rewrite VY in OY, ZY.
    set (ix := Zfloor (rounded x f)) in *. set (iy := Zfloor (rounded y f)) in *. rewrite !cast_fits by assumption. cbn [bind]. rewrite I.
    set (tx := nsub doubleNums (nmul doubleNums x f) (doubleInt ix)) in *. set (ty := nsub doubleNums (nmul doubleNums y f) (doubleInt iy)) in *.
    destruct OX as (FTX & TX & EX), OY as (FTY & TY & EY).
    rewrite !mask_mod. assert (Mx := Z.mod_pos_bound ix 256 ltac:(lia)). assert (My := Z.mod_pos_bound iy 256 ltac:(lia)).
    rewrite !table_entry by lia. cbn [bind]. rewrite mod_next, Z.mod_mod by lia.
    assert (Hx := hash_range (ix mod 256) Mx). assert (Hx1 := hash_range ((ix + 1) mod 256) (Z.mod_pos_bound _ 256 ltac:(lia))).
    destruct (corner_ap k g K I (hashOf (ix mod 256)) (iy mod 256) Hx ltac:(lia)) as (g00 & -> & A00 & B00).
    destruct (corner_ap k g K I (hashOf ((ix + 1) mod 256)) (iy mod 256) Hx1 ltac:(lia)) as (g10 & -> & A10 & B10).
    destruct (corner_ap k g K I (hashOf (ix mod 256)) (iy mod 256 + 1)%Z Hx ltac:(lia)) as (g01 & -> & A01 & B01).
    destruct (corner_ap k g K I (hashOf ((ix + 1) mod 256)) (iy mod 256 + 1)%Z Hx1 ltac:(lia)) as (g11 & -> & A11 & B11).
    cbn [bind].
    assert (Q : forall h : Z, ((h + (iy mod 256 + 1)) mod 256 = (h + (iy + 1)) mod 256)%Z).
    { intros h. rewrite <- (Z.add_mod_idemp_r h (iy mod 256 + 1)), mod_next, Z.add_mod_idemp_r by lia. reflexivity. }
    rewrite Q in A01, B01. rewrite Q in A11, B11. rewrite (Z.add_mod_idemp_r _ iy) in A00, B00 by lia. rewrite (Z.add_mod_idemp_r _ iy) in A10, B10 by lia.
    change (compass (hashOf ((hashOf (ix mod 256) + iy) mod 256) mod 8)) with (gradientsOf hashOf ix iy) in A00, B00.
    change (compass (hashOf ((hashOf ((ix + 1) mod 256) + iy) mod 256) mod 8)) with (gradientsOf hashOf (ix + 1) iy) in A10, B10.
    change (compass (hashOf ((hashOf (ix mod 256) + (iy + 1)) mod 256) mod 8)) with (gradientsOf hashOf ix (iy + 1)) in A01, B01.
    change (compass (hashOf ((hashOf ((ix + 1) mod 256) + (iy + 1)) mod 256) mod 8)) with (gradientsOf hashOf (ix + 1) (iy + 1)) in A11, B11.
    set (X := valueOf tx) in *. set (Y := valueOf ty) in *.
    assert (PX : ap tx X 1 0) by (split; [exact FTX|]; fold X; rewrite Rminus_diag_eq, Rabs_R0 by reflexivity; split; [lra|apply Rabs_le; lra]).
    assert (PY : ap ty Y 1 0) by (split; [exact FTY|]; fold Y; rewrite Rminus_diag_eq, Rabs_R0 by reflexivity; split; [lra|apply Rabs_le; lra]).
    assert (One : ap (doubleInt 1) 1 1 0) by (apply (ap_int 1); lia).
    assert (PX1 := ap_sub _ _ _ _ _ _ _ _ PX One ltac:(sm) ltac:(sm)). assert (PY1 := ap_sub _ _ _ _ _ _ _ _ PY One ltac:(sm) ltac:(sm)).
    apply ap_weaken with (b' := 1) (e' := 3) in PX1; [|apply Rabs_le; lra|lra]. apply ap_weaken with (b' := 1) (e' := 3) in PY1; [|apply Rabs_le; lra|lra].
    assert (PX0 : ap tx X 1 3) by (apply ap_weaken with (1 := PX); [apply PX|lra]). assert (PY0 : ap ty Y 1 3) by (apply ap_weaken with (1 := PY); [apply PY|lra]).
    assert (V := value_ap k g K I _ _ _ _ _ _ _ _ _ _ _ _ (dot_ap _ _ _ _ _ _ A00 B00 PX0 PY0) (dot_ap _ _ _ _ _ _ A10 B10 PX1 PY0)
      (dot_ap _ _ _ _ _ _ A01 B01 PX0 PY1) (dot_ap _ _ _ _ _ _ A11 B11 PX1 PY1) (smooth_ap g I _ _ PX TX) (smooth_ap g I _ _ PY TY)).
    eexists. split; [reflexivity|]. destruct V as (FV & EV & _). split; [exact FV|].
    assert (N : noise (gradientsOf hashOf) (IZR ix + X) (IZR iy + Y) = sqrt 2 * blend (gradientsOf hashOf ix iy) (gradientsOf hashOf (ix + 1) iy)
      (gradientsOf hashOf ix (iy + 1)) (gradientsOf hashOf (ix + 1) (iy + 1)) X Y).
    { rewrite <- (any_cell _ ix iy) by (unfold inCell; lra). rewrite noise_blend by (unfold inCell; lra).
      replace (IZR ix + X - IZR ix) with X by ring. replace (IZR iy + Y - IZR iy) with Y by ring. reflexivity. }
    match type of EV with Rabs (valueOf ?v - ?e) <= _ => set (vv := valueOf v) in *; assert (EQ : e = noise (gradientsOf hashOf) (IZR ix + X) (IZR iy + Y)) end.
    { rewrite N. unfold blend. ring. }
    rewrite EQ in EV. assert (S := noise_slope (gradientsOf hashOf) (IZR ix + X) (IZR iy + Y) (rounded x f) (rounded y f) (gradients_unit hashOf)).
    replace (IZR ix + X - rounded x f) with (X - (rounded x f - IZR ix)) in S by ring. replace (IZR iy + Y - rounded y f) with (Y - (rounded y f - IZR iy)) in S by ring.
    assert (T := Rabs_triang (vv - noise (gradientsOf hashOf) (IZR ix + X) (IZR iy + Y)) (noise (gradientsOf hashOf) (IZR ix + X) (IZR iy + Y) - noise (gradientsOf hashOf) (rounded x f) (rounded y f))).
    replace (vv - noise (gradientsOf hashOf) (IZR ix + X) (IZR iy + Y) + (noise (gradientsOf hashOf) (IZR ix + X) (IZR iy + Y) - noise (gradientsOf hashOf) (rounded x f) (rounded y f)))
      with (vv - noise (gradientsOf hashOf) (rounded x f) (rounded y f)) in T by ring.
    clear - EV S T EX EY. lra.
  Qed.
End Function.

(** * Where it is defined *)
Lemma unreachable x f : finite x -> finite f -> ~ fits (Zfloor (rounded x f)) -> ~ fits (doubleFloor (nmul doubleNums x f)).
Proof.
  intros FX FF N. assert (C := Bmult_correct 53 1024 eq_refl eq_refl binop_nan_pl64 BinarySingleNaN.mode_NE x f).
  change (Bmult 53 1024 eq_refl eq_refl binop_nan_pl64 BinarySingleNaN.mode_NE x f) with (nmul doubleNums x f) in C.
  change (round radix2 _ _ (B2R 53 1024 x * B2R 53 1024 f)) with (rounded x f) in C.
  destruct (Rlt_bool (Rabs (rounded x f)) (bpow radix2 1024)).
  - destruct C as (V & F & _). fold (valueOf (nmul doubleNums x f)) in V. rewrite FX, FF in F. rewrite floor_value by exact F. rewrite V. exact N.
  - destruct (nmul doubleNums x f) as [s|s|s pl w|s m e w].
    + exfalso. cbn in C. destruct (xorb (Bsign 53 1024 x) (Bsign 53 1024 f)); discriminate C.
    + cbn [doubleFloor]. unfold fits. lia.
    + cbn [doubleFloor]. unfold fits. lia.
    + exfalso. cbn in C. destruct (xorb (Bsign 53 1024 x) (Bsign 53 1024 f)); discriminate C.
Qed.
Lemma cast_not i : ~ fits i -> castInt i = UB.
Proof. unfold fits, castInt. intros H. destruct (Z.leb_spec (- 2 ^ 31) i), (Z.ltb_spec i (2 ^ 31)); try reflexivity; exfalso; apply H; lia. Qed.
Lemma noise_undefined k g x y f : finite x -> finite y -> finite f -> nlt doubleNums f doubleTiny = false -> ~ (reachable x f /\ reachable y f) ->
  perlin2D doubleNums k g doubleFloor doubleTiny x y f = UB.
Proof.
  intros FX FY FF L N. unfold perlin2D. rewrite L. cbv zeta.
  destruct (fits_dec (Zfloor (rounded x f))) as [A|A]; [|rewrite (cast_not _ (unreachable x f FX FF A)); reflexivity].
  destruct (fits_dec (Zfloor (rounded y f))) as [B|B]; [exfalso; apply N; split; split; auto|].
  rewrite (cast_not _ (unreachable y f FY FF B)). destruct (castInt (doubleFloor (nmul doubleNums x f))) as [i|e|] eqn:E; cbn [bind]; try reflexivity.
  unfold castInt in E. destruct (_ && _)%bool in E; discriminate.
Qed.
