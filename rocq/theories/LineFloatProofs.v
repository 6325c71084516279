(** Lines of a grid and points on a side computed with doubles. *)
From Coq Require Import Reals ZArith Lra Lia Psatz Permutation.
From Flocq Require Import Core.Core Relative IEEE754.Binary IEEE754.Bits.
From Flocq Require IEEE754.BinarySingleNaN.
From Verif Require Import Base GeoModel RingModel MeshBuildModel ProjectionModel ProjectionFloat LineGridModel
  RingFloatModel RingFloatSpec RingFloatProofs InsideSpec InsideFloatModel InsideFloatSpec InsideFloatProofs LineFloatModel LineGridSpec LineFloatSpec.
Local Open Scope R_scope.

Local Instance prec53''' : Prec_gt_0 53. Proof. reflexivity. Qed.
(** The largest error of a sum below 281. *)
Notation tau := (282 * ulp1).

(** * Lines *)
Lemma ceil_value x : finite x -> valueOf (doubleCeil x) = IZR (Zceil (valueOf x)) /\ finite (doubleCeil x).
Proof.
  intros F. destruct (Bnearbyint_correct 53 1024 eq_refl unop_nan_pl64 BinarySingleNaN.mode_UP x) as (V & G & _). split.
  - unfold valueOf, doubleCeil. rewrite V. unfold round, scaled_mantissa, cexp, FIX_exp, F2R. cbn -[Zceil]. rewrite !Rmult_1_r. reflexivity.
  - unfold doubleCeil. rewrite G. exact F.
Qed.
Lemma int_value k : (Z.abs k <= 1800000000)%Z -> valueOf (doubleInt k) = IZR k /\ finite (doubleInt k).
Proof.
  intros K. assert (C := binary_normalize_correct 53 1024 eq_refl eq_refl BinarySingleNaN.mode_NE k 0 false).
  assert (E : F2R (Float radix2 k 0) = IZR k) by (unfold F2R; cbn; lra).
  assert (K1 : (-1800000000 <= k)%Z) by lia. assert (K2 : (k <= 1800000000)%Z) by lia. apply IZR_le in K1, K2.
  rewrite E in C. change (round radix2 _ _ (IZR k)) with (rnd64 (IZR k)) in C. rewrite no_overflow in C by (apply Rabs_le; lra).
  destruct C as (V & F & _). split; [|exact F]. unfold valueOf, doubleInt. rewrite V. apply round_generic; [apply valid_rnd_N|].
  rewrite <- E. apply generic_format_F2R. intros N. unfold cexp, FLT_exp. rewrite mag_F2R_Zdigits by exact N.
  assert (D : (Zdigits radix2 k <= 31)%Z) by (apply Zdigits_le_Zpower; cbn; lia). lia.
Qed.

Section Lines.
  Variable step : binary64.
  Hypothesis G : goodStep step.
  Notation st := (valueOf step).

  Lemma first_line a : goodNumber a -> exists c : Z, finite (gridCeil doubleNums doubleGrids step a) /\
    Rabs (valueOf (gridCeil doubleNums doubleGrids step a) - IZR c * st) <= tau /\
    - (1 / 1000000000000) <= IZR c * st - valueOf a < st + 1 / 1000000000000.
  Proof.
    intros (F & A). destruct G as (FS & S). assert (S0 : st <> 0) by lra. assert (E1 := eta_tiny 1 ltac:(lra)). assert (E0 := eta_small).
    assert (I : 0 < / st <= 1000000).
    { split; [apply Rinv_0_lt_compat; lra|]. replace 1000000 with (/ (1 / 1000000)) by lra. apply Rinv_le_contravar; lra. }
    assert (Q : Rabs (valueOf a / st) <= 180 * 1000000).
    { unfold Rdiv. rewrite Rabs_mult, (Rabs_pos_eq (/ st)) by lra. apply Rmult_le_compat; try apply Rabs_pos; lra. }
    destruct (div_value a step F S0) as (V & FQ); [lra|]. destruct (ceil_value _ FQ) as (VC & FC).
    exists (Zceil (valueOf (ndiv doubleNums a step))). set (q := valueOf (ndiv doubleNums a step)) in *. set (c := Zceil q) in *.
    assert (R := rnd64_error (valueOf a / st)). rewrite <- V in R.
    assert (RS : Rabs (q * st - valueOf a) <= 181 * ulp1).
    { replace (q * st - valueOf a) with ((q - valueOf a / st) * st) by (field; exact S0). rewrite Rabs_mult, (Rabs_pos_eq st) by lra.
      apply Rle_trans with ((1 / 9007199254740992 * Rabs (valueOf a / st) + eta) * st); [apply Rmult_le_compat_r; lra|].
      replace ((1 / 9007199254740992 * Rabs (valueOf a / st) + eta) * st) with (1 / 9007199254740992 * (Rabs (valueOf a / st) * st) + eta * st) by ring.
      rewrite <- (Rabs_pos_eq st) at 2 by lra. rewrite <- Rabs_mult. replace (valueOf a / st * st) with (valueOf a) by (field; exact S0).
      assert (X : eta * st <= eta * 100) by (apply Rmult_le_compat_l; lra). lra. }
    assert (CU := Zceil_ub q). assert (CL := Zceil_lb q). fold c in CU, CL.
    assert (B1 : q * st <= IZR c * st) by (apply Rmult_le_compat_r; lra).
    assert (B2 : IZR c * st < q * st + st) by (replace (q * st + st) with ((q + 1) * st) by ring; apply Rmult_lt_compat_r; lra).
    assert (AB := abs_bounds _ _ A). apply abs_bounds in RS.
    assert (CB : Rabs (IZR c * st) <= 281) by (apply Rabs_le; lra).
    destruct (mul_value (doubleCeil (ndiv doubleNums a step)) step FC FS) as (VM & FM).
    { rewrite VC. fold c. lra. }
    unfold gridCeil. cbn [doubleGrids dceil]. rewrite VM, VC. fold c. split; [exact FM|]. split.
    - assert (X := rnd64_bounded _ _ CB). lra.
    - lra.
  Qed.

  Lemma loop_lines stop fuel : goodNumber stop -> forall v z e l, finite v -> -182 <= valueOf v -> Rabs (valueOf v - IZR z * st) <= e ->
    gridLoop doubleNums step fuel v stop = Some l ->
    (forall k x, nth_error l k = Some x -> finite x /\ -182 <= valueOf x < valueOf stop /\ Rabs (valueOf x - IZR (z + Z.of_nat k) * st) <= e + IZR (Z.of_nat k) * tau) /\
    valueOf stop <= IZR (z + Z.of_nat (length l)) * st + (e + IZR (Z.of_nat (length l)) * tau).
  Proof.
    intros (FP & P). destruct G as (FS & S). assert (E1 := eta_tiny 1 ltac:(lra)). assert (E0 := eta_small). assert (PB := abs_bounds _ _ P).
    induction fuel as [|fuel IH]; intros v z e l F L E H; cbn [gridLoop] in H; destruct (nlt doubleNums v stop) eqn:C; try discriminate.
    1, 3: assert (C' : ~ valueOf v < valueOf stop) by (intros X; apply lt_value in X; auto; congruence); injection H as <-;
      (split; [intros [|k] x X; discriminate|]); cbn [length]; rewrite Z.add_0_r, Rmult_0_l; apply abs_bounds in E; lra.
    apply lt_value in C; auto. destruct (gridLoop doubleNums step fuel (nadd doubleNums v step) stop) as [l'|] eqn:H'; [|discriminate]. injection H as <-.
    assert (AB : Rabs (valueOf v + st) <= 281) by (apply Rabs_le; lra).
    destruct (add_value v step F FS) as (V & FA); [lra|]. assert (R := rnd64_bounded _ _ AB). rewrite <- V in R.
    destruct (IH (nadd doubleNums v step) (z + 1)%Z (e + tau) l' FA) as (I1 & I2).
    - apply abs_bounds in R. lra.
    - rewrite plus_IZR, Rmult_plus_distr_r, Rmult_1_l. set (s := valueOf (nadd doubleNums v step)) in *.
      replace (s - (IZR z * st + st)) with ((s - (valueOf v + st)) + (valueOf v - IZR z * st)) by ring.
      eapply Rle_trans; [apply Rabs_triang|]. lra.
    - exact H'.
    - split.
      + intros [|k] x X.
        * injection X as <-. split; [exact F|]. split; [lra|]. cbn [Z.of_nat]. rewrite Z.add_0_r, Rmult_0_l, Rplus_0_r. exact E.
        * cbn [nth_error] in X. destruct (I1 k x X) as (A1 & A2 & A3). split; [exact A1|]. split; [exact A2|].
          rewrite Nat2Z.inj_succ. replace (z + Z.succ (Z.of_nat k))%Z with (z + 1 + Z.of_nat k)%Z by lia. rewrite succ_IZR. lra.
      + cbn [length]. rewrite Nat2Z.inj_succ. replace (z + Z.succ (Z.of_nat (length l')))%Z with (z + 1 + Z.of_nat (length l'))%Z by lia. rewrite succ_IZR. lra.
  Qed.
  Lemma loop_ends stop : goodNumber stop -> forall fuel v, finite v -> -182 <= valueOf v -> valueOf stop - valueOf v <= IZR (Z.of_nat fuel) * (st / 2) ->
    gridLoop doubleNums step fuel v stop <> None.
  Proof.
    intros (FP & P). destruct G as (FS & S). assert (E1 := eta_tiny 1 ltac:(lra)). assert (E0 := eta_small). assert (PB := abs_bounds _ _ P).
    induction fuel as [|fuel IH]; intros v F L B; cbn [gridLoop]; destruct (nlt doubleNums v stop) eqn:C; try discriminate.
    - apply lt_value in C; auto. change (IZR (Z.of_nat 0)) with 0 in B. lra.
    - apply lt_value in C; auto. assert (AB : Rabs (valueOf v + st) <= 281) by (apply Rabs_le; lra).
      destruct (add_value v step F FS) as (V & FA); [lra|]. assert (R := rnd64_bounded _ _ AB). rewrite <- V in R. apply abs_bounds in R.
      assert (H := IH (nadd doubleNums v step) FA). rewrite Nat2Z.inj_succ, succ_IZR in B.
      destruct (gridLoop doubleNums step fuel (nadd doubleNums v step) stop); [discriminate|]. exfalso. apply H; [lra|lra|reflexivity].
  Qed.
  Lemma step_positive : isZero doubleNums step = false.
  Proof.
    destruct G as (FS & S). unfold isZero. assert (L : nlt doubleNums (nzero doubleNums) step = true) by (apply lt_value; auto; cbn [nzero doubleNums valueOf B2R]; fold st; lra).
    rewrite L. apply andb_false_r.
  Qed.
  Theorem lines a b fuel l : goodNumber a -> goodNumber b -> gridLines doubleNums doubleGrids step fuel a b = Some l ->
    exists c : Z, - (1 / 1000000000000) <= IZR c * st - valueOf a < st + 1 / 1000000000000 /\
    (forall k x, nth_error l k = Some x -> finite x /\ -182 <= valueOf x < valueOf b /\
      Rabs (valueOf x - IZR (c + Z.of_nat k) * st) <= IZR (Z.of_nat k + 1) * tau) /\
    valueOf b <= IZR (c + Z.of_nat (length l)) * st + IZR (Z.of_nat (length l) + 1) * tau.
  Proof.
    intros A B H. unfold gridLines in H. rewrite step_positive in H. destruct (first_line a A) as (c & F & E & W).
    assert (L : -182 <= valueOf (gridCeil doubleNums doubleGrids step a)).
    { destruct A as (_ & A). apply abs_bounds in A, E. lra. }
    exists c. split; [exact W|]. destruct (loop_lines b fuel B _ c tau l F L E H) as (L1 & L2). split.
    - intros k x X. destruct (L1 k x X) as (X1 & X2 & X3). split; [exact X1|]. split; [exact X2|]. rewrite (plus_IZR (Z.of_nat k) 1). lra.
    - rewrite (plus_IZR (Z.of_nat (length l)) 1). lra.
  Qed.
  Theorem ends a b fuel : goodNumber a -> goodNumber b -> (730000000 <= Z.of_nat fuel)%Z -> gridLines doubleNums doubleGrids step fuel a b <> None.
  Proof.
    intros A B H. unfold gridLines. rewrite step_positive. destruct (first_line a A) as (c & F & E & W).
    assert (L : -182 <= valueOf (gridCeil doubleNums doubleGrids step a)).
    { destruct A as (_ & A). apply abs_bounds in A, E. lra. }
    apply loop_ends; auto. destruct B as (_ & B). apply abs_bounds in B. apply IZR_le in H.
    destruct G as (_ & S). assert (Y : 730000000 * (1 / 1000000 / 2) <= IZR (Z.of_nat fuel) * (st / 2)) by (apply Rmult_le_compat; lra). lra.
  Qed.
  Lemma lines_bound a b fuel l x : goodNumber a -> goodNumber b -> gridLines doubleNums doubleGrids step fuel a b = Some l -> In x l ->
    finite x /\ Rabs (valueOf x) <= 182.
  Proof.
    intros A B H X. destruct (lines a b fuel l A B H) as (c & _ & L & _). apply In_nth_error in X as (k & X). destruct (L k x X) as (F & R & _).
    split; [exact F|]. destruct B as (_ & B). apply abs_bounds in B. apply Rabs_le. lra.
  Qed.
End Lines.

(** * Points of slanted sides *)
Definition residual (s : pt) (M : R) (p : pt) : R := (v2x p - v2x s) * M - (v2y p - v2y s).
Lemma residual_near s e p : v2x s <> v2x e -> v2y s <> v2y e ->
  let M := (v2y e - v2y s) / (v2x e - v2x s) in
  Rabs (residual s M p) <= 4000 * ulp1 * (1 + Rabs M) -> nearLine (1 / 1000000000000) s e p.
Proof.
  intros NX NY M R. assert (DX : v2x e - v2x s <> 0) by lra. assert (DY : v2y e - v2y s <> 0) by lra.
  assert (M0 : M <> 0) by (unfold M; intros Z; apply Rmult_integral in Z as [Z|Z]; [lra|]; apply Rinv_neq_0_compat in Z; auto).
  destruct (Rle_dec (Rabs M) 1) as [L|L].
  - exists ((v2x p - v2x s) / (v2x e - v2x s)). unfold between. cbn [v2x v2y]. split.
    + replace (v2x p - (v2x s + (v2x p - v2x s) / (v2x e - v2x s) * (v2x e - v2x s))) with 0 by (field; exact DX). rewrite Rabs_R0. lra.
    + replace (v2y p - (v2y s + (v2x p - v2x s) / (v2x e - v2x s) * (v2y e - v2y s))) with (- residual s M p) by (unfold residual, M; field; exact DX).
      rewrite Rabs_Ropp. lra.
  - exists ((v2y p - v2y s) / (v2y e - v2y s)). unfold between. cbn [v2x v2y]. split.
    + replace (v2x p - (v2x s + (v2y p - v2y s) / (v2y e - v2y s) * (v2x e - v2x s))) with (residual s M p / M)
        by (unfold residual, M; field; repeat split; lra).
      unfold Rdiv. rewrite Rabs_mult, Rabs_inv. apply Rle_trans with (4000 * ulp1 * (1 + Rabs M) * / Rabs M).
      * apply Rmult_le_compat_r; [apply Rlt_le, Rinv_0_lt_compat; lra|exact R].
      * replace (4000 * ulp1 * (1 + Rabs M) * / Rabs M) with (4000 * ulp1 * (/ Rabs M + 1)) by (field; lra).
        assert (/ Rabs M <= 1) by (rewrite <- Rinv_1; apply Rinv_le_contravar; lra). lra.
    + replace (v2y p - (v2y s + (v2y p - v2y s) / (v2y e - v2y s) * (v2y e - v2y s))) with 0 by (field; exact DY). rewrite Rabs_R0. lra.
Qed.

Section Slanted.
  Variables s e : vec2 binary64.
  Hypothesis FS : finite (v2x s) /\ finite (v2y s) /\ finite (v2x e) /\ finite (v2y e).
  Hypothesis BS : Rabs (valueOf (v2x s)) <= 180 /\ Rabs (valueOf (v2y s)) <= 180 /\ Rabs (valueOf (v2x e)) <= 180 /\ Rabs (valueOf (v2y e)) <= 180.
  Notation DX := (valueOf (v2x e) - valueOf (v2x s)).
  Notation DY := (valueOf (v2y e) - valueOf (v2y s)).
  Hypothesis LX : 1 / 100000000 <= Rabs DX.
  Hypothesis LY : 1 / 100000000 <= Rabs DY.
  Notation M := (DY / DX).
  Definition slopeOf : binary64 := ndiv doubleNums (nsub doubleNums (v2y e) (v2y s)) (nsub doubleNums (v2x e) (v2x s)).
  Definition offsetOf : binary64 := nsub doubleNums (v2y s) (nmul doubleNums slopeOf (v2x s)).
  Notation m := (valueOf slopeOf).

  Lemma slope_bounds : 1 / 40000000000 <= Rabs M <= 40000000000.
  Proof.
    destruct BS as (B1 & B2 & B3 & B4). apply abs_bounds in B1, B2, B3, B4.
    assert (UX : Rabs DX <= 360) by (apply Rabs_le; lra). assert (UY : Rabs DY <= 360) by (apply Rabs_le; lra).
    replace (Rabs M) with (Rabs DY * / Rabs DX) by (unfold Rdiv; rewrite Rabs_mult, Rabs_inv; reflexivity).
    assert (I : / 360 <= / Rabs DX <= 100000000).
    { split; [apply Rinv_le_contravar; lra|]. replace 100000000 with (/ (1 / 100000000)) by lra. apply Rinv_le_contravar; lra. }
    split.
    - apply Rle_trans with (1 / 100000000 * / 360); [lra|]. apply Rmult_le_compat; lra.
    - apply Rle_trans with (360 * 100000000); [|lra]. apply Rmult_le_compat; lra || apply Rabs_pos.
  Qed.
  Lemma slope_close : finite slopeOf /\ Rabs (m - M) <= 31 / 10 * ulp1 * Rabs M /\ m <> 0.
  Proof.
    destruct FS as (F1 & F2 & F3 & F4). destruct BS as (B1 & B2 & B3 & B4). apply abs_bounds in B1, B2, B3, B4.
    assert (UX : Rabs DX <= 360) by (apply Rabs_le; lra). assert (UY : Rabs DY <= 360) by (apply Rabs_le; lra).
    assert (X0 : DX <> 0) by (intros Z; rewrite Z, Rabs_R0 in LX; lra). assert (Y0 : DY <> 0) by (intros Z; rewrite Z, Rabs_R0 in LY; lra).
    destruct (sub_value (v2x e) (v2x s) F3 F1) as (VX & FX); [lra|]. destruct (sub_value (v2y e) (v2y s) F4 F2) as (VY & FY); [lra|].
    set (dx := nsub doubleNums (v2x e) (v2x s)) in *. set (dy := nsub doubleNums (v2y e) (v2y s)) in *.
    assert (rel : forall D d, 1 / 100000000 <= Rabs D -> d = rnd64 D -> Rabs (d / D - 1) <= ulp1 + tiny).
    { intros D d L ->. assert (D0 : D <> 0) by (intros Z; rewrite Z, Rabs_R0 in L; lra). apply Rmult_le_reg_r with (Rabs D); [lra|]. rewrite <- Rabs_mult.
      replace ((rnd64 D / D - 1) * D) with (rnd64 D - D) by (field; exact D0). assert (T := eta_tiny (Rabs D) ltac:(lra)). assert (R := rnd64_error D). lra. }
    assert (RX := rel _ _ LX VX). assert (RY := rel _ _ LY VY).
    assert (Q := quotient_close _ _ 1 _ 1 RY RX ltac:(rewrite Rabs_R1; lra)).
    assert (dx0 : valueOf dx <> 0).
    { intros Z. rewrite Z in RX. replace (0 / DX - 1) with (-1) in RX by (field; exact X0). rewrite Rabs_left in RX by lra. lra. }
    assert (SB := slope_bounds). assert (M0 : M <> 0) by (intros Z; rewrite Z, Rabs_R0 in SB; lra).
    assert (QM : valueOf dy / valueOf dx = valueOf dy / DY / (valueOf dx / DX) * M) by (field; auto).
    set (w := valueOf dy / DY / (valueOf dx / DX)) in *.
    assert (W : Rabs (valueOf dy / valueOf dx - M) <= 101 / 100 * 2 * (ulp1 + tiny) * Rabs M).
    { rewrite QM. replace (w * M - M) with ((w - 1) * M) by ring. rewrite Rabs_mult. apply Rmult_le_compat_r; [lra|]. lra. }
    destruct (div_value dy dx FY dx0) as (V & F); [assert (Z := close_abs _ _ _ _ W (Rle_refl _)); lra|].
    assert (R := round_close _ _ _ _ W (Rle_refl _)). rewrite <- V in R. change (ndiv doubleNums dy dx) with slopeOf in R, F.
    assert (T := eta_tiny (Rabs M) ltac:(lra)).
    assert (K : Rabs (m - M) <= 31 / 10 * ulp1 * Rabs M) by lra.
    split; [exact F|]. split; [exact K|]. intros Z. rewrite Z in K. replace (0 - M) with (- M) in K by ring. rewrite Rabs_Ropp in K. lra.
  Qed.
  Lemma slope_abs : 99 / 100 * Rabs M <= Rabs m <= 101 / 100 * Rabs M.
  Proof.
    destruct slope_close as (_ & K & _). assert (SB := slope_bounds). split.
    - assert (Z := Rabs_triang m (- (m - M))). replace (m + - (m - M)) with M in Z by ring. rewrite Rabs_Ropp in Z. lra.
    - assert (Z := close_abs _ _ _ _ K (Rle_refl _)). lra.
  Qed.
  Lemma offset_close : finite offsetOf /\ Rabs (valueOf offsetOf - (valueOf (v2y s) - m * valueOf (v2x s))) <= ulp1 * (362 * Rabs m + 181) /\
    Rabs (valueOf offsetOf) <= 181 * Rabs m + 181.
  Proof.
    destruct FS as (F1 & F2 & F3 & F4). destruct BS as (B1 & B2 & B3 & B4). destruct slope_close as (F & K & _). assert (SA := slope_abs). assert (SB := slope_bounds).
    assert (E1 := eta_tiny 1 ltac:(lra)). assert (E0 := eta_small). assert (EM := eta_tiny (Rabs m) ltac:(lra)).
    assert (P : Rabs (m * valueOf (v2x s)) <= 180 * Rabs m) by (rewrite Rabs_mult, Rmult_comm; apply Rmult_le_compat_r; [apply Rabs_pos|exact B1]).
    destruct (mul_value slopeOf (v2x s) F F1) as (V & FM); [lra|]. assert (R := rnd64_bounded _ _ P). rewrite <- V in R.
    set (p := nmul doubleNums slopeOf (v2x s)) in *. assert (PA := close_abs _ _ _ _ R P).
    assert (DA : Rabs (valueOf (v2y s) - valueOf p) <= 180 + (180 * Rabs m + (1 / 9007199254740992 * (180 * Rabs m) + eta))).
    { unfold Rminus at 1. eapply Rle_trans; [apply Rabs_triang|]. rewrite Rabs_Ropp. lra. }
    destruct (sub_value (v2y s) p F2 FM) as (VS & FSU); [lra|]. assert (RS := rnd64_bounded _ _ DA). rewrite <- VS in RS. change (nsub doubleNums (v2y s) p) with offsetOf in RS, FSU.
    split; [exact FSU|].
    assert (Z : Rabs (valueOf offsetOf - (valueOf (v2y s) - m * valueOf (v2x s))) <= ulp1 * (362 * Rabs m + 181)).
    { replace (valueOf offsetOf - (valueOf (v2y s) - m * valueOf (v2x s))) with
        ((valueOf offsetOf - (valueOf (v2y s) - valueOf p)) + - (valueOf p - m * valueOf (v2x s))) by ring.
      eapply Rle_trans; [apply Rabs_triang|]. rewrite Rabs_Ropp. lra. }
    split; [exact Z|].
    assert (Y : Rabs (valueOf (v2y s) - m * valueOf (v2x s)) <= 180 + 180 * Rabs m).
    { unfold Rminus. eapply Rle_trans; [apply Rabs_triang|]. rewrite Rabs_Ropp. lra. }
    assert (W := close_abs _ _ _ _ Z Y). lra.
  Qed.

  Lemma on_line_x x : finite x -> Rabs (valueOf x) <= 182 ->
    let y := nadd doubleNums (nmul doubleNums slopeOf x) offsetOf in
    finite y /\ Rabs (residual (spotOf s) M (spotOf (mkV2 x y))) <= 4000 * ulp1 * (1 + Rabs M).
  Proof.
    intros FX BX y. destruct BS as (B1 & _). destruct slope_close as (F & K & _). assert (SA := slope_abs). assert (SB := slope_bounds).
    destruct offset_close as (FO & CO & BO). assert (E1 := eta_tiny 1 ltac:(lra)). assert (E0 := eta_small).
    assert (P : Rabs (m * valueOf x) <= 182 * Rabs m) by (rewrite Rabs_mult, Rmult_comm; apply Rmult_le_compat_r; [apply Rabs_pos|exact BX]).
    destruct (mul_value slopeOf x F FX) as (V & FM); [lra|]. assert (R := rnd64_bounded _ _ P). rewrite <- V in R.
    unfold y. set (p := nmul doubleNums slopeOf x) in *. assert (PA := close_abs _ _ _ _ R P).
    assert (DA : Rabs (valueOf p + valueOf offsetOf) <= 182 * Rabs m + (1 / 9007199254740992 * (182 * Rabs m) + eta) + (181 * Rabs m + 181)).
    { eapply Rle_trans; [apply Rabs_triang|]. lra. }
    destruct (add_value p offsetOf FM FO) as (VS & FY); [lra|]. assert (RS := rnd64_bounded _ _ DA). rewrite <- VS in RS.
    split; [exact FY|]. unfold residual, spotOf. cbn [v2x v2y]. set (yv := valueOf (nadd doubleNums p offsetOf)) in *.
    assert (XS : Rabs (valueOf x - valueOf (v2x s)) <= 362) by (unfold Rminus; eapply Rle_trans; [apply Rabs_triang|]; rewrite Rabs_Ropp; lra).
    replace ((valueOf x - valueOf (v2x s)) * M - (yv - valueOf (v2y s))) with
      (- ((valueOf x - valueOf (v2x s)) * (m - M)) + (- (yv - (valueOf p + valueOf offsetOf)) + (- (valueOf p - m * valueOf x) + - (valueOf offsetOf - (valueOf (v2y s) - m * valueOf (v2x s)))))) by ring.
    assert (X1 : Rabs ((valueOf x - valueOf (v2x s)) * (m - M)) <= 362 * (31 / 10 * ulp1 * Rabs M)).
    { rewrite Rabs_mult. apply Rmult_le_compat; try apply Rabs_pos; lra. }
    eapply Rle_trans; [apply Rabs_triang|]. rewrite Rabs_Ropp.
    assert (T1 := Rabs_triang (- (yv - (valueOf p + valueOf offsetOf))) (- (valueOf p - m * valueOf x) + - (valueOf offsetOf - (valueOf (v2y s) - m * valueOf (v2x s))))).
    assert (T2 := Rabs_triang (- (valueOf p - m * valueOf x)) (- (valueOf offsetOf - (valueOf (v2y s) - m * valueOf (v2x s))))).
    rewrite (Rabs_Ropp (yv - (valueOf p + valueOf offsetOf))) in T1.
    rewrite (Rabs_Ropp (valueOf p - m * valueOf x)), (Rabs_Ropp (valueOf offsetOf - (valueOf (v2y s) - m * valueOf (v2x s)))) in T2.
    clear - T1 T2 X1 R RS CO SA SB E1 E0. lra.
  Qed.

  Lemma on_line_y y : finite y -> Rabs (valueOf y) <= 182 ->
    let x := nmul doubleNums (nsub doubleNums y offsetOf) (ndiv doubleNums (doubleInt 1) slopeOf) in
    finite x /\ Rabs (residual (spotOf s) M (spotOf (mkV2 x y))) <= 4000 * ulp1 * (1 + Rabs M).
  Proof.
    intros FY BY x. destruct BS as (B1 & B2 & _). destruct slope_close as (F & K & m0). assert (SA := slope_abs). assert (SB := slope_bounds).
    destruct offset_close as (FO & CO & BO). assert (E1 := eta_tiny 1 ltac:(lra)). assert (E0 := eta_small).
    destruct (int_value 1 ltac:(lia)) as (V1 & F1).
    assert (mp : 0 < Rabs m) by lra. set (w := / Rabs m). assert (WM : Rabs m * w = 1) by (apply Rinv_r; lra).
    assert (W0 : 0 < w) by (apply Rinv_0_lt_compat; lra).
    assert (W1 : w <= 50000000000) by (unfold w; replace 50000000000 with (/ (1 / 50000000000)) by lra; apply Rinv_le_contravar; lra).
    assert (W2 : 1 / 50000000000 <= w) by (unfold w; replace (1 / 50000000000) with (/ 50000000000) by lra; apply Rinv_le_contravar; lra).
    assert (IA : Rabs (/ m) = w) by (unfold w; apply Rabs_inv).
    (** The inverse of the slope. *)
    assert (EI : valueOf (doubleInt 1) / m = / m) by (rewrite V1; unfold Rdiv; apply Rmult_1_l).
    destruct (div_value (doubleInt 1) slopeOf F1 m0) as (VI & FI); [rewrite EI, IA; lra|]. rewrite EI in VI.
    assert (RI := rnd64_bounded (/ m) w ltac:(rewrite IA; lra)). rewrite <- VI in RI. set (i := ndiv doubleNums (doubleInt 1) slopeOf) in *.
    assert (EW := eta_tiny w ltac:(lra)).
    (** The difference. *)
    assert (DA : Rabs (valueOf y - valueOf offsetOf) <= 363 + 181 * Rabs m).
    { unfold Rminus. eapply Rle_trans; [apply Rabs_triang|]. rewrite Rabs_Ropp. lra. }
    destruct (sub_value y offsetOf FY FO) as (VD & FD); [lra|]. assert (RD := rnd64_bounded _ _ DA). rewrite <- VD in RD.
    unfold x. set (d := nsub doubleNums y offsetOf) in *. set (Y := valueOf y - valueOf offsetOf) in *.
    assert (EM := eta_tiny (Rabs m) ltac:(lra)).
    assert (RD2 : Rabs (valueOf d - Y) <= ulp1 * (364 + 181 * Rabs m)) by lra.
    assert (RI2 : Rabs (valueOf i - / m) <= 101 / 100 * ulp1 * w) by lra.
    (** The product. *)
    assert (PC := product_close _ _ _ _ _ _ _ _ RD2 RI2 DA (Req_le _ _ IA)).
    assert (PC2 : Rabs (valueOf d * valueOf i - Y * / m) <= ulp1 * (734 * w + 366)).
    { eapply Rle_trans; [exact PC|]. 
      replace (ulp1 * (364 + 181 * Rabs m) * (w + 101 / 100 * ulp1 * w) + (363 + 181 * Rabs m) * (101 / 100 * ulp1 * w)) with
        (ulp1 * ((364 * (1 + 101 / 100 * ulp1) + 363 * (101 / 100)) * w + (181 * (1 + 101 / 100 * ulp1) + 181 * (101 / 100)) * (Rabs m * w))) by ring.
      rewrite WM. lra. }
    assert (YB : Rabs (Y * / m) <= 363 * w + 181).
    { rewrite Rabs_mult, IA. apply Rle_trans with ((363 + 181 * Rabs m) * w); [apply Rmult_le_compat_r; lra|].
      replace ((363 + 181 * Rabs m) * w) with (363 * w + 181 * (Rabs m * w)) by ring. rewrite WM. lra. }
    assert (PB := close_abs _ _ _ _ PC2 YB). destruct (mul_value d i FD FI) as (VX & FX); [lra|].
    assert (RX := round_close _ _ _ _ PC2 YB). rewrite <- VX in RX. split; [exact FX|].
    unfold residual, spotOf. cbn [v2x v2y]. set (xv := valueOf (nmul doubleNums d i)) in *.
    assert (RX2 : Rabs (xv - Y * / m) <= ulp1 * (1100 * w + 549)) by lra.
    (** Back to the side. *)
    assert (RM : Rabs (xv * m - Y) <= ulp1 * (1100 + 549 * Rabs m)).
    { replace (xv * m - Y) with ((xv - Y * / m) * m) by (field; exact m0). rewrite Rabs_mult.
      apply Rle_trans with (ulp1 * (1100 * w + 549) * Rabs m); [apply Rmult_le_compat_r; lra|].
      replace (ulp1 * (1100 * w + 549) * Rabs m) with (ulp1 * (1100 * (Rabs m * w) + 549 * Rabs m)) by ring. rewrite WM. lra. }
    assert (XB := close_abs _ _ _ _ RX2 YB).
    assert (XS : Rabs (xv - valueOf (v2x s)) <= 364 * w + 362) by (unfold Rminus; eapply Rle_trans; [apply Rabs_triang|]; rewrite Rabs_Ropp; lra).
    replace ((xv - valueOf (v2x s)) * M - (valueOf y - valueOf (v2y s))) with
      (- ((xv - valueOf (v2x s)) * (m - M)) + ((xv * m - Y) + - (valueOf offsetOf - (valueOf (v2y s) - m * valueOf (v2x s))))) by (unfold Y; ring).
    assert (X1 : Rabs ((xv - valueOf (v2x s)) * (m - M)) <= (364 * w + 362) * (32 / 10 * ulp1 * Rabs m)).
    { rewrite Rabs_mult. apply Rmult_le_compat; try apply Rabs_pos; lra. }
    replace ((364 * w + 362) * (32 / 10 * ulp1 * Rabs m)) with (32 / 10 * ulp1 * (364 * (Rabs m * w) + 362 * Rabs m)) in X1 by ring. rewrite WM in X1.
    eapply Rle_trans; [apply Rabs_triang|]. rewrite Rabs_Ropp.
    assert (T := Rabs_triang (xv * m - Y) (- (valueOf offsetOf - (valueOf (v2y s) - m * valueOf (v2x s))))). rewrite Rabs_Ropp in T. lra.
  Qed.
End Slanted.

Lemma option_map_none {A B} (f : A -> B) x : option_map f x = None -> x = None.
Proof. destruct x; [discriminate|reflexivity]. Qed.

(** * Corners *)
Notation scale7 := (doubleInt 10000000).
Notation corner := (cornerOf doubleNums doubleGrids scale7).
Lemma corner_number k : (Z.abs k <= 1800000000)%Z -> nearestTo k (ndiv doubleNums (doubleInt k) scale7) /\ goodNumber (ndiv doubleNums (doubleInt k) scale7) /\
  Rabs (valueOf (ndiv doubleNums (doubleInt k) scale7) - IZR k / 10000000) <= 181 * ulp1.
Proof.
  intros K. destruct (int_value k K) as (VK & FK). destruct (int_value 10000000 ltac:(lia)) as (VS & FS).
  assert (K1 : (-1800000000 <= k)%Z) by lia. assert (K2 : (k <= 1800000000)%Z) by lia. apply IZR_le in K1, K2.
  assert (A : Rabs (IZR k / 10000000) <= 180) by (apply Rabs_le; lra).
  destruct (div_value (doubleInt k) scale7 FK) as (V & F); [rewrite VS; lra|rewrite VK, VS; lra|]. rewrite VK, VS in V.
  split; [split; [exact F|exact V]|]. split.
  - destruct (near_tight k 180 (ndiv doubleNums (doubleInt k) scale7) ltac:(lia) ltac:(lia) (conj F V)) as (_ & X & _). split; [exact F|exact X].
  - rewrite V. assert (R := rnd64_bounded _ _ A). assert (E1 := eta_tiny 1 ltac:(lra)). lra.
Qed.
Lemma corner_apart k l : (Z.abs k <= 1800000000)%Z -> (Z.abs l <= 1800000000)%Z -> k <> l ->
  1 / 100000000 <= Rabs (valueOf (ndiv doubleNums (doubleInt l) scale7) - valueOf (ndiv doubleNums (doubleInt k) scale7)).
Proof.
  intros K L N. destruct (corner_number k K) as (_ & _ & A), (corner_number l L) as (_ & _ & B).
  apply abs_bounds in A, B. destruct (Z_lt_le_dec k l) as [Q|Q].
  - assert (Q' : (k + 1 <= l)%Z) by lia. apply IZR_le in Q'. rewrite plus_IZR in Q'. rewrite Rabs_right; lra.
  - assert (Q' : (l + 1 <= k)%Z) by lia. apply IZR_le in Q'. rewrite plus_IZR in Q'. rewrite Rabs_left; lra.
Qed.
Lemma difference_zero x y : finite x -> finite y -> valueOf x = valueOf y -> isZero doubleNums (nsub doubleNums x y) = true.
Proof.
  intros X Y E. destruct (sub_value x y X Y) as (V & F); [rewrite E, Rminus_diag_eq, Rabs_R0 by reflexivity; lra|].
  rewrite Rminus_diag_eq, rnd64_0 in V by exact E.
  assert (Z0 : finite (nzero doubleNums)) by reflexivity. assert (ZV : valueOf (nzero doubleNums) = 0) by reflexivity.
  unfold isZero. apply andb_true_iff. split; apply negb_true_iff, not_true_iff_false; intros L; apply lt_value in L; auto; lra.
Qed.
Lemma difference_apart x y : finite x -> finite y -> Rabs (valueOf x) <= 180 -> Rabs (valueOf y) <= 180 -> 1 / 100000000 <= Rabs (valueOf x - valueOf y) ->
  isZero doubleNums (nsub doubleNums x y) = false.
Proof.
  intros X Y BX BY D. apply abs_bounds in BX, BY. destruct (sub_value x y X Y) as (V & F); [assert (Rabs (valueOf x - valueOf y) <= 360) by (apply Rabs_le; lra); lra|].
  assert (R := rnd64_error (valueOf x - valueOf y)). rewrite <- V in R. assert (E1 := eta_tiny (Rabs (valueOf x - valueOf y)) ltac:(lra)).
  assert (Z0 : finite (nzero doubleNums)) by reflexivity. assert (ZV : valueOf (nzero doubleNums) = 0) by reflexivity.
  set (d := nsub doubleNums x y) in *. assert (N : valueOf d <> 0).
  { intros Z. rewrite Z in R. replace (0 - (valueOf x - valueOf y)) with (- (valueOf x - valueOf y)) in R by ring. rewrite Rabs_Ropp in R. lra. }
  unfold isZero. apply andb_false_iff. destruct (Rdichotomy _ _ N) as [L|L]; [left|right]; apply negb_false_iff, lt_value; auto; lra.
Qed.

(** * Points of a side *)
Lemma merge_in {T} (n : nums T) g pts : forall r p, In p (mergeResults n g pts r) -> In p r \/ In p pts.
Proof.
  induction pts as [|c pts IH]; intros r p H; [left; exact H|]. cbn [mergeResults] in H. apply IH in H as [H|H]; [|right; right; exact H].
  destruct r as [|h r]; [destruct H as [H|[]]; right; left; exact H|]. destruct (tooClose _ _ _ _); [left; exact H|].
  apply in_app_or in H as [H|[H|[]]]; [left; exact H|right; left; exact H].
Qed.
Lemma near_self_start d s e : 0 <= d -> nearLine d s e s.
Proof. intros D. exists 0. unfold between. cbn [v2x v2y]. split; match goal with |- Rabs ?x <= _ => replace x with 0 by ring end; rewrite Rabs_R0; exact D. Qed.
Lemma near_self_end d s e : 0 <= d -> nearLine d s e e.
Proof. intros D. exists 1. unfold between. cbn [v2x v2y]. split; match goal with |- Rabs ?x <= _ => replace x with 0 by ring end; rewrite Rabs_R0; exact D. Qed.
Lemma near_upright d s e p : 0 <= d -> v2x s = v2x e -> v2y s <> v2y e -> v2x p = v2x s -> nearLine d s e p.
Proof.
  intros D X Y P. exists ((v2y p - v2y s) / (v2y e - v2y s)). unfold between. cbn [v2x v2y].
  split; match goal with |- Rabs ?x <= _ => replace x with 0 end; try (rewrite Rabs_R0; exact D).
  - rewrite P, X. ring.
  - field. lra.
Qed.
Lemma near_level d s e p : 0 <= d -> v2y s = v2y e -> v2x s <> v2x e -> v2y p = v2y s -> nearLine d s e p.
Proof.
  intros D Y X P. exists ((v2x p - v2x s) / (v2x e - v2x s)). unfold between. cbn [v2x v2y].
  split; match goal with |- Rabs ?x <= _ => replace x with 0 end; try (rewrite Rabs_R0; exact D).
  - field. lra.
  - rewrite P, Y. ring.
Qed.

Section Side.
  Variable srt : (vec2 binary64 -> vec2 binary64 -> bool) -> list (vec2 binary64) -> list (vec2 binary64).
  Hypothesis P : permutes srt.
  Variable step : binary64.
  Hypothesis G : goodStep step.
  Variables a b : Z * Z.
  Hypothesis A : goodCorner a.
  Hypothesis B : goodCorner b.
  Notation s := (corner a).
  Notation e := (corner b).
  Notation d12 := (1 / 1000000000000).
  Definition fine (p : vec2 binary64) : Prop := finite (v2x p) /\ finite (v2y p) /\ nearLine d12 (spotOf s) (spotOf e) (spotOf p).

  Lemma good_start : goodNumber (v2x s) /\ goodNumber (v2y s).
  Proof. split; apply corner_number; apply A. Qed.
  Lemma good_end : goodNumber (v2x e) /\ goodNumber (v2y e).
  Proof. split; apply corner_number; apply B. Qed.
  Lemma fine_start : fine s.
  Proof. destruct good_start as ((F & _) & (F' & _)). split; [exact F|]. split; [exact F'|]. apply near_self_start. lra. Qed.
  Lemma fine_end : fine e.
  Proof. destruct good_end as ((F & _) & (F' & _)). split; [exact F|]. split; [exact F'|]. apply near_self_end. lra. Qed.
  Lemma sorted_in lt l p : In p (srt lt l) -> In p l.
  Proof. intros H. apply (Permutation_in p (Permutation_sym (P lt l)) H). Qed.

  Lemma zero_fine fuel pts p : (fst a = fst b /\ snd a <> snd b) \/ (fst a <> fst b /\ snd a = snd b) ->
    zeroSlope doubleNums doubleGrids srt step fuel s e [s] = Some pts -> In p pts -> fine p.
  Proof.
    intros C H I. destruct good_start as (SX & SY), good_end as (EX & EY). unfold zeroSlope in H. destruct C as [(X & Y)|(X & Y)].
    - assert (EqX : v2x s = v2x e) by (cbn [cornerOf v2x]; rewrite X; reflexivity).
      rewrite difference_zero in H by (try apply SX; try apply EX; rewrite EqX; reflexivity).
      assert (NY : v2y (spotOf s) <> v2y (spotOf e)).
      { assert (Q := corner_apart _ _ (proj2 A) (proj2 B) Y). intros Z. cbn [spotOf cornerOf v2y] in Z. cbn [doubleGrids dint] in Z. rewrite Z in Q. rewrite Rminus_diag_eq, Rabs_R0 in Q by reflexivity. lra. }
      destruct (nlt doubleNums (v2y s) (v2y e)); (destruct (gridLines _ _ _ _ _ _) as [ys|] eqn:L in H; [|discriminate]); cbn [option_map] in H; injection H as <-;
        apply sorted_in in I; destruct I as [<-|I]; try apply fine_start; apply in_map_iff in I as (y & <- & I);
        assert (LB := fun U V => lines_bound step G _ _ _ _ _ U V L I);
        (destruct (LB ltac:(assumption) ltac:(assumption)) as (F & _));
        (split; [cbn [v2x]; apply SX || apply EX|]; split; [exact F|]; apply near_upright; [lra|change (valueOf (v2x s) = valueOf (v2x e)); rewrite EqX; reflexivity|exact NY|(change (valueOf (v2x s) = valueOf (v2x s)) || change (valueOf (v2x e) = valueOf (v2x s))); rewrite EqX; reflexivity]).
    - assert (EqY : v2y s = v2y e) by (cbn [cornerOf v2y]; rewrite Y; reflexivity).
      assert (Q := corner_apart _ _ (proj1 B) (proj1 A) (not_eq_sym X)).
      rewrite difference_apart in H by (try apply SX; try apply EX; exact Q).
      assert (NX : v2x (spotOf s) <> v2x (spotOf e)).
      { intros Z. cbn [spotOf cornerOf v2x] in Z. cbn [doubleGrids dint] in Z. rewrite Z in Q. rewrite Rminus_diag_eq, Rabs_R0 in Q by reflexivity. lra. }
      destruct (nlt doubleNums (v2x s) (v2x e)); (destruct (gridLines _ _ _ _ _ _) as [xs|] eqn:L in H; [|discriminate]); cbn [option_map] in H; injection H as <-;
        apply sorted_in in I; destruct I as [<-|I]; try apply fine_start; apply in_map_iff in I as (x & <- & I);
        assert (LB := fun U V => lines_bound step G _ _ _ _ _ U V L I);
        (destruct (LB ltac:(assumption) ltac:(assumption)) as (F & _));
        (split; [exact F|]; split; [cbn [v2y]; apply SY || apply EY|]; apply near_level; [lra|change (valueOf (v2y s) = valueOf (v2y e)); rewrite EqY; reflexivity|exact NX|(change (valueOf (v2y s) = valueOf (v2y s)) || change (valueOf (v2y e) = valueOf (v2y s))); rewrite EqY; reflexivity]).
  Qed.
  Lemma normal_fine fuel pts p : fst a <> fst b -> snd a <> snd b ->
    normalCase doubleNums doubleGrids srt step fuel s e (slopeOf s e) [s] = Some pts -> In p pts -> fine p.
  Proof.
    intros X Y H I. destruct good_start as (SX & SY), good_end as (EX & EY).
    assert (QX := corner_apart _ _ (proj1 A) (proj1 B) X). assert (QY := corner_apart _ _ (proj2 A) (proj2 B) Y).
    assert (FS : finite (v2x s) /\ finite (v2y s) /\ finite (v2x e) /\ finite (v2y e)) by (repeat split; (apply SX || apply SY || apply EX || apply EY)).
    assert (BS : Rabs (valueOf (v2x s)) <= 180 /\ Rabs (valueOf (v2y s)) <= 180 /\ Rabs (valueOf (v2x e)) <= 180 /\ Rabs (valueOf (v2y e)) <= 180)
      by (repeat split; (apply SX || apply SY || apply EX || apply EY)).
    assert (NX : v2x (spotOf s) <> v2x (spotOf e)).
    { intros Z. cbn [spotOf cornerOf v2x] in Z. cbn [doubleGrids dint] in Z. rewrite Z in QX. rewrite Rminus_diag_eq, Rabs_R0 in QX by reflexivity. lra. }
    assert (NY : v2y (spotOf s) <> v2y (spotOf e)).
    { intros Z. cbn [spotOf cornerOf v2y] in Z. cbn [doubleGrids dint] in Z. rewrite Z in QY. rewrite Rminus_diag_eq, Rabs_R0 in QY by reflexivity. lra. }
    unfold normalCase in H.
    assert (K : exists xs ys lt x1 x2 y1 y2, goodNumber x1 /\ goodNumber x2 /\ goodNumber y1 /\ goodNumber y2 /\
      gridLines doubleNums doubleGrids step fuel x1 x2 = Some xs /\ gridLines doubleNums doubleGrids step fuel y1 y2 = Some ys /\
      pts = srt lt ([s] ++ map (fun x => mkV2 x (nadd doubleNums (nmul doubleNums (slopeOf s e) x) (offsetOf s e))) xs ++
        map (fun y => mkV2 (nmul doubleNums (nsub doubleNums y (offsetOf s e)) (ndiv doubleNums (doubleInt 1) (slopeOf s e))) y) ys)).
    { change (nsub doubleNums (v2y s) (nmul doubleNums (slopeOf s e) (v2x s))) with (offsetOf s e) in H. cbn [doubleGrids done] in H.
      destruct (nlt doubleNums (v2x s) (v2x e));
        (match type of H with match ?g with _ => _ end = _ => destruct g as [xs|] eqn:LX end; [|discriminate]);
        (match type of H with context [nlt doubleNums ?x ?y] => destruct (nlt doubleNums x y) end);
        (match type of H with match ?g with _ => _ end = _ => destruct g as [ys|] eqn:LY end; [|discriminate]);
        injection H as <-; eexists xs, ys, _, _, _, _, _; (split; [|split; [|split; [|split; [|split; [exact LX|split; [exact LY|reflexivity]]]]]]); assumption. }
    destruct K as (xs & ys & lt & x1 & x2 & y1 & y2 & G1 & G2 & G3 & G4 & LX & LY & ->). apply sorted_in in I. cbn [app] in I.
    destruct I as [<-|I]; [apply fine_start|]. apply in_app_or in I as [I|I]; apply in_map_iff in I as (v & <- & I).
    - destruct (lines_bound step G _ _ _ _ _ G1 G2 LX I) as (F & V). destruct (on_line_x s e FS BS QX QY v F V) as (F' & R).
      split; [exact F|]. split; [exact F'|]. apply residual_near; auto.
    - destruct (lines_bound step G _ _ _ _ _ G3 G4 LY I) as (F & V). destruct (on_line_y s e FS BS QX QY v F V) as (F' & R).
      split; [exact F'|]. split; [exact F|]. apply residual_near; auto.
  Qed.
  Lemma slope_tiny : fst a <> fst b -> (nlt doubleNums (nabs doubleNums (slopeOf s e)) doubleEpsilon = true <-> snd a = snd b).
  Proof.
    intros X. destruct good_start as (SX & SY), good_end as (EX & EY).
    assert (QX := corner_apart _ _ (proj1 A) (proj1 B) X). destruct epsilon_value as (VE & FE).
    assert (FS : finite (v2x s) /\ finite (v2y s) /\ finite (v2x e) /\ finite (v2y e)) by (repeat split; (apply SX || apply SY || apply EX || apply EY)).
    assert (BS : Rabs (valueOf (v2x s)) <= 180 /\ Rabs (valueOf (v2y s)) <= 180 /\ Rabs (valueOf (v2x e)) <= 180 /\ Rabs (valueOf (v2y e)) <= 180)
      by (repeat split; (apply SX || apply SY || apply EX || apply EY)).
    split.
    - intros L. destruct (Z.eq_dec (snd a) (snd b)) as [Y|Y]; [exact Y|exfalso].
      assert (QY := corner_apart _ _ (proj2 A) (proj2 B) Y). destruct (slope_close s e FS BS QX QY) as (F & _). destruct (abs_value _ F) as (VA & FA).
      apply lt_value in L; auto. rewrite VA, VE in L. assert (SA := slope_abs s e FS BS QX QY). assert (SB := slope_bounds s e BS QX QY). lra.
    - intros Y. assert (EqY : v2y s = v2y e) by (cbn [cornerOf v2y]; rewrite Y; reflexivity).
      destruct FS as (F1 & F2 & F3 & F4). destruct (sub_value (v2y e) (v2y s) F4 F2) as (VY & FY); [rewrite EqY, Rminus_diag_eq, Rabs_R0 by reflexivity; lra|].
      rewrite EqY, Rminus_diag_eq, rnd64_0 in VY by reflexivity.
      destruct BS as (B1 & _ & B3 & _). apply abs_bounds in B1, B3.
      change (1 / 100000000 <= Rabs (valueOf (v2x e) - valueOf (v2x s))) in QX.
      destruct (sub_value (v2x e) (v2x s) F3 F1) as (VX & FX); [assert (Rabs (valueOf (v2x e) - valueOf (v2x s)) <= 360) by (apply Rabs_le; lra); lra|].
      assert (N : valueOf (nsub doubleNums (v2x e) (v2x s)) <> 0).
      { intros Z. assert (R := rnd64_error (valueOf (v2x e) - valueOf (v2x s))). rewrite <- VX, Z in R.
        replace (0 - (valueOf (v2x e) - valueOf (v2x s))) with (- (valueOf (v2x e) - valueOf (v2x s))) in R by ring. rewrite Rabs_Ropp in R.
        assert (E1 := eta_tiny (Rabs (valueOf (v2x e) - valueOf (v2x s))) ltac:(lra)). lra. }
      rewrite <- EqY in VY, FY.
      destruct (div_value (nsub doubleNums (v2y s) (v2y s)) (nsub doubleNums (v2x e) (v2x s)) FY N) as (V & F);
        [rewrite VY; unfold Rdiv; rewrite Rmult_0_l, Rabs_R0; lra|].
      rewrite VY in V. unfold Rdiv in V. rewrite Rmult_0_l, rnd64_0 in V.
      unfold slopeOf. rewrite <- EqY. destruct (abs_value _ F) as (VA & FA). apply lt_value; auto. rewrite VA, V, VE, Rabs_R0. lra.
  Qed.
  Theorem side_fine fuel out p : split doubleNums doubleGrids srt scale7 step fuel a b [] = Some out -> In p out -> fine p.
  Proof.
    intros H I. destruct good_start as (SX & SY), good_end as (EX & EY). unfold split in H.
    match type of H with option_map _ ?q = _ => destruct q as [pts|] eqn:H' end; [|discriminate]. cbn [option_map] in H. injection H as <-.
    apply merge_in in I as [[]|I]. apply in_app_or in I as [I|[<-|[]]]; [|apply fine_end].
    destruct (Z.eq_dec (fst a) (fst b)) as [X|X].
    - assert (EqX : v2x e = v2x s) by (cbn [cornerOf v2x]; rewrite X; reflexivity).
      rewrite (difference_zero (v2x e) (v2x s)) in H' by (try apply SX; try apply EX; rewrite EqX; reflexivity).
      destruct (Z.eq_dec (snd a) (snd b)) as [Y|Y].
      + assert (EqY : v2y e = v2y s) by (cbn [cornerOf v2y]; rewrite Y; reflexivity).
        rewrite (difference_zero (v2y e) (v2y s)) in H' by (try apply SY; try apply EY; rewrite EqY; reflexivity).
        injection H' as <-. destruct I as [<-|[]]. apply fine_start.
      + rewrite (difference_apart (v2y e) (v2y s)) in H' by (try apply SY; try apply EY; apply (corner_apart _ _ (proj2 A) (proj2 B) Y)).
        eapply zero_fine; eauto.
    - rewrite (difference_apart (v2x e) (v2x s)) in H' by (try apply SX; try apply EX; apply (corner_apart _ _ (proj1 A) (proj1 B) X)).
      change (ndiv doubleNums (nsub doubleNums (v2y e) (v2y s)) (nsub doubleNums (v2x e) (v2x s))) with (slopeOf s e) in H'.
      cbn [doubleGrids deps] in H'.
      destruct (nlt doubleNums (nabs doubleNums (slopeOf s e)) doubleEpsilon) eqn:S.
      + apply slope_tiny in S; [|exact X]. eapply zero_fine; eauto.
      + assert (Y : snd a <> snd b) by (intros Y; apply slope_tiny in Y; [congruence|exact X]). eapply normal_fine; eauto.
  Qed.
  (** With enough fuel there is a result. *)
  Theorem side_ends fuel : (730000000 <= Z.of_nat fuel)%Z -> split doubleNums doubleGrids srt scale7 step fuel a b [] <> None.
  Proof.
    intros F. destruct good_start as (SX & SY), good_end as (EX & EY).
    assert (GL : forall x y, goodNumber x -> goodNumber y -> exists l, gridLines doubleNums doubleGrids step fuel x y = Some l).
    { intros x y X Y. assert (N := ends step G x y fuel X Y F). destruct (gridLines doubleNums doubleGrids step fuel x y) as [l|]; [eauto|contradiction]. }
    assert (ZS : zeroSlope doubleNums doubleGrids srt step fuel s e [s] <> None).
    { unfold zeroSlope. destruct (isZero doubleNums (nsub doubleNums (v2x s) (v2x e))).
      - destruct (nlt doubleNums (v2y s) (v2y e)).
        + destruct (GL _ _ SY EY) as (l & ->). discriminate.
        + destruct (GL _ _ EY SY) as (l & ->). discriminate.
      - destruct (nlt doubleNums (v2x s) (v2x e)).
        + destruct (GL _ _ SX EX) as (l & ->). discriminate.
        + destruct (GL _ _ EX SX) as (l & ->). discriminate. }
    assert (NC : normalCase doubleNums doubleGrids srt step fuel s e (slopeOf s e) [s] <> None).
    { unfold normalCase. destruct (nlt doubleNums (v2x s) (v2x e)).
      - destruct (GL _ _ SX EX) as (l & ->). destruct (nlt doubleNums (v2y s) (v2y e)).
        + destruct (GL _ _ SY EY) as (l' & ->). discriminate.
        + destruct (GL _ _ EY SY) as (l' & ->). discriminate.
      - destruct (GL _ _ EX SX) as (l & ->). destruct (nlt doubleNums (v2y e) (v2y s)).
        + destruct (GL _ _ EY SY) as (l' & ->). discriminate.
        + destruct (GL _ _ SY EY) as (l' & ->). discriminate. }
    unfold split. intros H. apply option_map_none in H.
    destruct (isZero doubleNums (nsub doubleNums (v2x e) (v2x s))).
    - destruct (isZero doubleNums (nsub doubleNums (v2y e) (v2y s))); [discriminate|contradiction].
    - change (ndiv doubleNums (nsub doubleNums (v2y e) (v2y s)) (nsub doubleNums (v2x e) (v2x s))) with (slopeOf s e) in H.
      destruct (nlt doubleNums (nabs doubleNums (slopeOf s e)) (deps doubleGrids)); contradiction.
  Qed.
End Side.

(** The lines as a set. *)
Theorem lines_set step a b fuel l : goodStep step -> goodNumber a -> goodNumber b -> gridLines doubleNums doubleGrids step fuel a b = Some l ->
  (forall x, In x l -> finite x /\ valueOf x < valueOf b /\
    exists z : Z, valueOf a - 1 / 1000000000000 <= IZR z * valueOf step /\ Rabs (valueOf x - IZR z * valueOf step) <= drift (length l)) /\
  (forall z : Z, valueOf a + 1 / 1000000000000 <= IZR z * valueOf step -> IZR z * valueOf step < valueOf b - drift (length l) ->
    exists x, In x l /\ Rabs (valueOf x - IZR z * valueOf step) <= drift (length l)).
Proof.
  intros G A B H. destruct (lines step G a b fuel l A B H) as (c & C & L & E). destruct G as (_ & S).
  assert (D : forall k x, nth_error l k = Some x -> IZR (Z.of_nat k + 1) * tau <= drift (length l)).
  { intros k x X. unfold drift. assert (K : (k < length l)%nat) by (apply nth_error_Some; congruence).
    assert (Q : (Z.of_nat k + 1 <= Z.of_nat (length l) + 1)%Z) by lia. apply IZR_le in Q. lra. }
  split.
  - intros x X. apply In_nth_error in X as (k & X). destruct (L k x X) as (F & R & V). split; [exact F|]. split; [apply R|].
    exists (c + Z.of_nat k)%Z. assert (DK := D k x X). split; [|lra]. rewrite plus_IZR, Rmult_plus_distr_r.
    assert (K : 0 <= IZR (Z.of_nat k)) by (apply IZR_le; lia). assert (0 <= IZR (Z.of_nat k) * valueOf step) by (apply Rmult_le_pos; lra). lra.
  - intros z Z1 Z2. assert (Q1 : (c <= z)%Z).
    { destruct (Z_le_gt_dec c z) as [Q|Q]; [exact Q|exfalso]. assert (Q' : (z <= c - 1)%Z) by lia. apply IZR_le in Q'. rewrite minus_IZR in Q'.
      assert (IZR z * valueOf step <= (IZR c - 1) * valueOf step) by (apply Rmult_le_compat_r; lra). lra. }
    assert (Q2 : (z < c + Z.of_nat (length l))%Z).
    { destruct (Z_lt_le_dec z (c + Z.of_nat (length l))) as [Q|Q]; [exact Q|exfalso]. apply IZR_le in Q.
      assert (IZR (c + Z.of_nat (length l)) * valueOf step <= IZR z * valueOf step) by (apply Rmult_le_compat_r; lra). unfold drift in Z2. lra. }
    destruct (nth_error l (Z.to_nat (z - c))) as [x|] eqn:X.
    + exists x. split; [apply (nth_error_In _ _ X)|]. destruct (L _ x X) as (_ & _ & V). assert (DK := D _ x X).
      replace (c + Z.of_nat (Z.to_nat (z - c)))%Z with z in V by lia. lra.
    + apply nth_error_None in X. lia.
Qed.

(** Values of computed points. *)
Definition shown (p : vec2 binary64) : full_float * full_float := (B2FF 53 1024 (v2x p), B2FF 53 1024 (v2y p)).
Definition spotShown (f : full_float * full_float) : pt := mkV2 (FF2R radix2 (fst f)) (FF2R radix2 (snd f)).
Lemma shown_spot p : spotOf p = spotShown (shown p).
Proof. destruct p as [x y]. unfold spotOf, spotShown, shown, valueOf. cbn [v2x v2y fst snd]. now rewrite !FF2R_B2FF. Qed.
Lemma shown_spots l : map spotOf l = map spotShown (map shown l).
Proof. rewrite map_map. apply map_ext. intros p. apply shown_spot. Qed.
