(** The error of the area of a ring computed with doubles. *)
From Coq Require Import Reals ZArith Lra Lia.
From Flocq Require Import Core.Core Relative IEEE754.Binary IEEE754.Bits.
From Flocq Require IEEE754.BinarySingleNaN.
From Verif Require Import Base GeoModel RingModel ProjectionModel ProjectionFloat RingFloatModel RingFloatSpec.
Local Open Scope R_scope.

Local Instance prec53' : Prec_gt_0 53. Proof. reflexivity. Qed.
Notation ulp1 := (1 / 9007199254740992).
Notation half := (1 / 1099511627776).
Notation finite x := (is_finite 53 1024 x = true).

(** * Single operations *)
Lemma no_overflow x : Rabs x <= 1152921504606846976 -> Rlt_bool (Rabs (rnd64 x)) (bpow radix2 1024) = true.
Proof.
  intros H. apply Rlt_bool_true. apply Rle_lt_trans with (bpow radix2 61).
  - apply rnd64_abs in H. assert (E := eta_small). eapply Rle_trans; [exact H|].
    replace (bpow radix2 61) with 2305843009213693952 by (cbn -[IZR]; lra). lra.
  - apply bpow_lt. lia.
Qed.
Lemma mul_value x y : finite x -> finite y -> Rabs (valueOf x * valueOf y) <= 1152921504606846976 ->
  valueOf (nmul doubleNums x y) = rnd64 (valueOf x * valueOf y) /\ finite (nmul doubleNums x y).
Proof.
  intros X Y H. assert (C := Bmult_correct 53 1024 eq_refl eq_refl binop_nan_pl64 BinarySingleNaN.mode_NE x y).
  change (round radix2 _ _ (B2R 53 1024 x * B2R 53 1024 y)) with (rnd64 (valueOf x * valueOf y)) in C.
  rewrite (no_overflow _ H) in C. destruct C as (V & F & _). split; [exact V|]. rewrite X, Y in F. exact F.
Qed.
Lemma sub_value x y : finite x -> finite y -> Rabs (valueOf x - valueOf y) <= 1152921504606846976 ->
  valueOf (nsub doubleNums x y) = rnd64 (valueOf x - valueOf y) /\ finite (nsub doubleNums x y).
Proof.
  intros X Y H. assert (C := Bminus_correct 53 1024 eq_refl eq_refl binop_nan_pl64 BinarySingleNaN.mode_NE x y X Y).
  change (round radix2 _ _ (B2R 53 1024 x - B2R 53 1024 y)) with (rnd64 (valueOf x - valueOf y)) in C.
  rewrite (no_overflow _ H) in C. destruct C as (V & F & _). split; [exact V|exact F].
Qed.
Lemma add_value x y : finite x -> finite y -> Rabs (valueOf x + valueOf y) <= 1152921504606846976 ->
  valueOf (nadd doubleNums x y) = rnd64 (valueOf x + valueOf y) /\ finite (nadd doubleNums x y).
Proof.
  intros X Y H. assert (C := Bplus_correct 53 1024 eq_refl eq_refl binop_nan_pl64 BinarySingleNaN.mode_NE x y X Y).
  change (round radix2 _ _ (B2R 53 1024 x + B2R 53 1024 y)) with (rnd64 (valueOf x + valueOf y)) in C.
  rewrite (no_overflow _ H) in C. destruct C as (V & F & _). split; [exact V|exact F].
Qed.
Lemma lt_value x y : finite x -> finite y -> nlt doubleNums x y = true <-> valueOf x < valueOf y.
Proof.
  intros X Y. cbn [nlt doubleNums]. unfold doubleLt, b64_compare. rewrite (Bcompare_correct 53 1024 x y X Y).
  fold (valueOf x) (valueOf y). destruct (Rcompare_spec (valueOf x) (valueOf y)); split; intros; try discriminate; try reflexivity; lra.
Qed.
(** Products of coordinates are rounded by no more than half of the last place of numbers below 16384. *)
Lemma product_error x : Rabs x <= 16200 -> Rabs (rnd64 x - x) <= half.
Proof.
  intros H. unfold rnd64. eapply Rle_trans; [apply error_le_half_ulp; auto with typeclass_instances|].
  assert (U : ulp radix2 (FLT_exp (-1074) 53) x <= ulp radix2 (FLT_exp (-1074) 53) 16200).
  { apply ulp_le; auto with typeclass_instances. rewrite (Rabs_pos_eq 16200) by lra. exact H. }
  assert (V : ulp radix2 (FLT_exp (-1074) 53) 16200 = bpow radix2 (-39)).
  { rewrite ulp_neq_0 by lra. unfold cexp. rewrite (mag_unique_pos radix2 16200 14).
    - reflexivity.
    - cbn -[IZR]. lra. }
  rewrite V in U. replace (bpow radix2 (-39)) with (1 / 549755813888) in U by (cbn -[IZR]; lra). lra.
Qed.

(** * Terms and sums *)
Definition wedgeOf (p q : point R) : R := plon p * plat q - plon q * plat p.
Fixpoint chainOf (p : point R) (l : list (point R)) : R := match l with [] => 0 | q :: l' => wedgeOf p q + chainOf q l' end.
Fixpoint chainAbs (p : point R) (l : list (point R)) : R := match l with [] => 0 | q :: l' => Rabs (wedgeOf p q) + chainAbs q l' end.
Definition term (p q : point binary64) : binary64 :=
  nsub doubleNums (nmul doubleNums (plon p) (plat q)) (nmul doubleNums (plon q) (plat p)).
Definition unit (W : R) : R := 3 * half + 4 * ulp1 * W.

Lemma product_bound x y : Rabs x <= 180 -> Rabs y <= 90 -> Rabs (x * y) <= 16200.
Proof.
  intros X Y. rewrite Rabs_mult. replace 16200 with (180 * 90) by lra. apply Rmult_le_compat; auto using Rabs_pos.
Qed.
Lemma abs_bounds x m : Rabs x <= m -> - m <= x <= m.
Proof. intros H. assert (A := Rle_abs x). assert (B := Rle_abs (- x)). rewrite Rabs_Ropp in B. lra. Qed.
Lemma term_error p q : onMap p -> onMap q ->
  finite (term p q) /\
  Rabs (valueOf (term p q) - wedgeOf (placeOf p) (placeOf q)) <= 2 * half + ulp1 * (Rabs (wedgeOf (placeOf p) (placeOf q)) + 2 * half) + eta.
Proof.
  intros (F1 & F2 & A1 & A2) (G1 & G2 & B1 & B2).
  assert (P1 := product_bound _ _ A2 B1). assert (P2 := product_bound _ _ B2 A1).
  destruct (mul_value (plon p) (plat q) F2 G1) as (V1 & W1); [lra|]. destruct (mul_value (plon q) (plat p) G2 F1) as (V2 & W2); [lra|].
  assert (E1 := product_error _ P1). assert (E2 := product_error _ P2). rewrite <- V1 in E1. rewrite <- V2 in E2.
  apply abs_bounds in E1, E2, P1, P2. unfold wedgeOf, placeOf. cbn [plat plon].
  destruct (sub_value _ _ W1 W2) as (V & W); [apply Rabs_le; lra|].
  split; [exact W|]. unfold term. rewrite V.
  set (d := valueOf _ - valueOf _) in *. set (w := valueOf (plon p) * valueOf (plat q) - valueOf (plon q) * valueOf (plat p)) in *.
  assert (D : Rabs (d - w) <= 2 * half) by (unfold d, w; apply Rabs_le; lra).
  assert (D2 : Rabs d <= Rabs w + 2 * half).
  { replace d with (w + (d - w)) by ring. eapply Rle_trans; [apply Rabs_triang|]. lra. }
  assert (R := rnd64_bounded d _ D2).
  replace (rnd64 d - w) with ((rnd64 d - d) + (d - w)) by ring. eapply Rle_trans; [apply Rabs_triang|]. lra.
Qed.

Lemma chain_nonneg l : forall p, 0 <= chainAbs p l.
Proof. induction l as [|q l IH]; intros p; cbn [chainAbs]; [lra|]. specialize (IH q). assert (A := Rabs_pos (wedgeOf p q)). lra. Qed.
Lemma area_from W l : forall p acc s k,
  onMap p -> List.Forall onMap l -> finite acc -> 0 <= W <= 70368744177664 -> 0 <= k ->
  k + IZR (Z.of_nat (length l)) <= 1073741824 ->
  Rabs (valueOf acc - s) <= k * unit W -> Rabs s + chainAbs (placeOf p) (map placeOf l) <= W ->
  finite (areaFrom doubleNums p acc l) /\
  Rabs (valueOf (areaFrom doubleNums p acc l) - (s + chainOf (placeOf p) (map placeOf l))) <= (k + IZR (Z.of_nat (length l))) * unit W.
Proof.
  induction l as [|q l IH]; intros p acc s k P L F HW K0 K A S.
  - cbn [areaFrom chainOf map length]. split; [exact F|]. rewrite !Rplus_0_r. exact A.
  - inversion L as [|x y Q L']; subst x y.
    cbn [areaFrom map chainOf chainAbs]. fold (term p q). change (length (q :: l)) with (Datatypes.S (length l)) in *.
    rewrite Nat2Z.inj_succ, succ_IZR in K |- *.
    destruct (term_error p q P Q) as (FT & ET). cbn [map chainAbs] in S.
    assert (CN := chain_nonneg (map placeOf l) (placeOf q)).
    set (w := wedgeOf (placeOf p) (placeOf q)) in *. assert (EE := eta_small). assert (WN := Rabs_pos w). assert (SN := Rabs_pos s).
    assert (LN : 0 <= IZR (Z.of_nat (length l))) by (apply IZR_le; lia).
    assert (U0 : 0 <= unit W) by (unfold unit; lra).
    assert (X : k * unit W <= 1073741824 * unit W) by (apply Rmult_le_compat_r; lra).
    assert (B : Rabs (valueOf acc + valueOf (term p q)) <= Rabs s + k * unit W + Rabs w + (2 * half + ulp1 * (Rabs w + 2 * half) + eta)).
    { replace (valueOf acc + valueOf (term p q)) with ((s + (valueOf acc - s)) + (w + (valueOf (term p q) - w))) by ring.
      eapply Rle_trans; [apply Rabs_triang|]. assert (T1 := Rabs_triang s (valueOf acc - s)). assert (T2 := Rabs_triang w (valueOf (term p q) - w)). lra. }
    destruct (add_value acc (term p q) F FT) as (V & FA).
    { unfold unit in *. lra. }
    assert (R := rnd64_bounded _ _ B). rewrite <- V in R.
    assert (N : Rabs (valueOf (nadd doubleNums acc (term p q)) - (s + w)) <= (k + 1) * unit W).
    { replace (valueOf (nadd doubleNums acc (term p q)) - (s + w)) with
        ((valueOf (nadd doubleNums acc (term p q)) - (valueOf acc + valueOf (term p q))) + ((valueOf acc - s) + (valueOf (term p q) - w))) by ring.
      eapply Rle_trans; [apply Rabs_triang|]. assert (T := Rabs_triang (valueOf acc - s) (valueOf (term p q) - w)).
      rewrite Rmult_plus_distr_r, Rmult_1_l. set (X0 := k * unit W) in *. unfold unit in *. lra. }
    destruct (IH q (nadd doubleNums acc (term p q)) (s + w) (k + 1) Q L' FA HW) as (FF & E); [lra|lra|exact N| |].
    { assert (T := Rabs_triang s w). lra. }
    split; [exact FF|]. rewrite <- Rplus_assoc. eapply Rle_trans; [exact E|]. apply Req_le. ring.
Qed.

(** * Exact areas *)
Lemma chain_fan o l : forall a, chainOf a l + wedgeOf (last l a) o = fanOf o a l + wedgeOf a o.
Proof.
  induction l as [|b l IH]; intros a; [cbn; lra|]. cbn [chainOf fanOf].
  replace (last (b :: l) a) with (last l b) by (destruct l; [reflexivity|cbn [last]; clear; revert p; induction l; intros; [reflexivity|cbn [last] in *; auto]]).
  specialize (IH b). unfold corner, wedgeOf in *. lra.
Qed.
Lemma last_place {A} (l : list A) c d : l <> [] -> last l c = last l d.
Proof. induction l as [|x l IH]; [congruence|]. intros _. destruct l; [reflexivity|]. apply IH. discriminate. Qed.
Lemma area_chain l o : chainOf (last (o :: l) o) (o :: l) = areaOf (o :: l).
Proof.
  destruct l as [|a l].
  - cbn. unfold wedgeOf. lra.
  - cbn [areaOf chainOf]. assert (E := chain_fan o l a).
    assert (L : last (o :: a :: l) o = last l a).
    { change (last (o :: a :: l) o) with (last (a :: l) o). destruct l as [|b l]; [reflexivity|]. change (last (a :: b :: l) o) with (last (b :: l) o). apply last_place. discriminate. }
    rewrite L. unfold wedgeOf in *. lra.
Qed.
Lemma swing_chain l : forall p, sumOf (map (fun '(p, q) => Rabs (plon p * plat q - plon q * plat p)) (sidesFrom p l)) = chainAbs p l.
Proof. induction l as [|q l IH]; intros p; [reflexivity|]. cbn [sidesFrom map]. unfold sumOf in *. cbn [fold_right]. rewrite IH. reflexivity. Qed.
Lemma chain_bound l : forall p, onMap p -> List.Forall onMap l -> chainAbs (placeOf p) (map placeOf l) <= 32400 * IZR (Z.of_nat (length l)).
Proof.
  induction l as [|q l IH]; intros p P L; [cbn; lra|]. inversion L as [|x y Q L']; subst x y.
  cbn [map chainAbs]. change (length (q :: l)) with (Datatypes.S (length l)). rewrite Nat2Z.inj_succ, succ_IZR. specialize (IH q Q L').
  destruct P as (_ & _ & A1 & A2), Q as (_ & _ & B1 & B2). assert (P1 := product_bound _ _ A2 B1). assert (P2 := product_bound _ _ B2 A1).
  apply abs_bounds in P1, P2. assert (X : Rabs (wedgeOf (placeOf p) (placeOf q)) <= 32400) by (unfold wedgeOf, placeOf; cbn [plat plon]; apply Rabs_le; lra). lra.
Qed.
Lemma last_map {A B} (f : A -> B) l c : last (map f l) (f c) = f (last l c).
Proof. induction l as [|x l IH]; [reflexivity|]. destruct l; [reflexivity|]. exact IH. Qed.
Lemma last_In {A} (l : list A) c : last (c :: l) c = c \/ In (last (c :: l) c) l.
Proof.
  destruct l as [|x l]; [left; reflexivity|right]. change (last (c :: x :: l) c) with (last (x :: l) c).
  rewrite <- (last_place (x :: l) x c) by discriminate. revert x. induction l as [|y l IH]; intros x; [left; reflexivity|].
  right. change (last (x :: y :: l) x) with (last (y :: l) x). rewrite (last_place (y :: l) x y) by discriminate. apply IH.
Qed.

Theorem area_error l : List.Forall onMap l -> (Z.of_nat (length l) <= 2 ^ 30)%Z ->
  finite (getArea doubleNums l) /\
  Rabs (valueOf (getArea doubleNums l) - areaOf (map placeOf l)) <= tolerance (map placeOf l).
Proof.
  intros M N. destruct l as [|c l].
  - cbn. split; [reflexivity|]. unfold tolerance. cbn. rewrite Rmult_0_l, Rminus_0_r, Rabs_R0. lra.
  - set (p := last (c :: l) c). assert (P : onMap p).
    { destruct (last_In l c) as [E|I]; unfold p; [rewrite E; inversion M; assumption|]. rewrite List.Forall_forall in M. apply M. right. exact I. }
    assert (NZ : IZR (Z.of_nat (length (c :: l))) <= 1073741824) by (apply IZR_le in N; exact N).
    assert (N0 : 0 <= IZR (Z.of_nat (length (c :: l)))) by (apply IZR_le; lia).
    set (W := chainAbs (placeOf p) (map placeOf (c :: l))).
    assert (HW : 0 <= W <= 70368744177664).
    { split; [apply chain_nonneg|]. eapply Rle_trans; [apply chain_bound; assumption|]. lra. }
    destruct (area_from W (c :: l) p (Binary.B754_zero 53 1024 false) 0 0 P M eq_refl HW) as (F & E).
    + lra.
    + lra.
    + cbn [valueOf B2R]. rewrite Rminus_0_r, Rabs_R0. lra.
    + rewrite Rabs_R0. unfold W. lra.
    + split; [exact F|]. rewrite !Rplus_0_l in E.
      assert (LP : placeOf p = last (map placeOf (c :: l)) (placeOf c)) by (unfold p; symmetry; apply last_map).
      assert (Sw : swing (map placeOf (c :: l)) = W).
      { unfold swing, ringOf, W. cbn [map]. change (placeOf c :: map placeOf l) with (map placeOf (c :: l)). rewrite <- LP. apply swing_chain. }
      unfold tolerance. rewrite map_length, Sw. change (map placeOf (c :: l)) with (placeOf c :: map placeOf l) in *.
      rewrite <- area_chain, <- LP. eapply Rle_trans; [exact E|]. apply Req_le. f_equal. unfold unit. lra.
Qed.

(** * Directions *)
Definition pathOf (l : list (point R)) : R := match l with [] => 0 | a :: r => chainOf a r end.
Lemma chain_snoc m : forall x b, chainOf x (m ++ [b]) = chainOf x m + wedgeOf (last m x) b.
Proof.
  induction m as [|y m IH]; intros x b; cbn [app chainOf]; [cbn; lra|]. rewrite IH.
  replace (last (y :: m) x) with (last m y); [lra|]. destruct m as [|z m]; [reflexivity|]. change (last (y :: z :: m) x) with (last (z :: m) x). apply last_place. discriminate.
Qed.
Lemma path_snoc l b d : l <> [] -> pathOf (l ++ [b]) = pathOf l + wedgeOf (last l d) b.
Proof.
  destruct l as [|a l]; [congruence|]. intros _. cbn [app pathOf]. rewrite chain_snoc. f_equal. f_equal.
  destruct l as [|z l]; [reflexivity|]. change (last (a :: z :: l) d) with (last (z :: l) d). apply last_place. discriminate.
Qed.
Lemma path_rev l : pathOf (rev l) = - pathOf l.
Proof.
  induction l as [|a l IH]; [cbn; lra|]. cbn [rev]. destruct l as [|b l]; [cbn; lra|].
  rewrite (path_snoc _ _ a) by (cbn [rev]; destruct (rev l); discriminate). rewrite IH. cbn [rev]. rewrite last_last. cbn [pathOf chainOf].
  unfold wedgeOf. lra.
Qed.
Lemma area_path l d : l <> [] -> areaOf l = pathOf l + wedgeOf (last l d) (hd d l).
Proof.
  destruct l as [|o l]; [congruence|]. intros _. rewrite <- area_chain. cbn [chainOf pathOf hd].
  rewrite (last_place (o :: l) o d) by discriminate. lra.
Qed.
Lemma area_of_rev l : areaOf (rev l) = - areaOf l.
Proof.
  destruct l as [|o l]; [cbn; lra|].
  assert (N : rev (o :: l) <> []) by (cbn [rev]; destruct (rev l); discriminate).
  rewrite (area_path _ o N), (area_path (o :: l) o) by discriminate. rewrite path_rev.
  cbn [rev hd]. rewrite last_last.
  assert (H : hd o (rev l ++ [o]) = last (o :: l) o).
  { destruct l as [|b l]; [reflexivity|]. change (last (o :: b :: l) o) with (last (b :: l) o).
    destruct (exists_last (l := b :: l) ltac:(discriminate)) as (m & z & ->). rewrite rev_app_distr, last_last. reflexivity. }
  rewrite H. unfold wedgeOf. lra.
Qed.
Lemma area_of_closed f m : areaOf (f :: m ++ [f]) = areaOf (f :: m).
Proof.
  rewrite (area_path (f :: m ++ [f]) f), (area_path (f :: m) f) by discriminate. change (f :: m ++ [f]) with ((f :: m) ++ [f]).
  rewrite (path_snoc _ _ f) by discriminate. rewrite last_last. cbn [app hd]. unfold wedgeOf. lra.
Qed.
Lemma direction l : List.Forall onMap l -> (Z.of_nat (length l) <= 2 ^ 30)%Z -> tolerance (map placeOf l) < Rabs (areaOf (map placeOf l)) ->
  isClockwise doubleNums l = true <-> areaOf (map placeOf l) < 0.
Proof.
  intros M N T. destruct (area_error l M N) as (F & E). unfold isClockwise. rewrite lt_value by (exact F || reflexivity).
  cbn [nzero doubleNums valueOf B2R]. unfold Rabs in *. destruct (Rcase_abs _), (Rcase_abs _); lra.
Qed.

(** * Bounds of the tolerance *)
Lemma side_bound d p q : onMap p -> onMap q -> Rabs (plat (placeOf q) - plat (placeOf p)) <= d -> Rabs (plon (placeOf q) - plon (placeOf p)) <= d ->
  Rabs (plon (placeOf p) * plat (placeOf q) - plon (placeOf q) * plat (placeOf p)) <= 270 * d.
Proof.
  intros (_ & _ & A1 & A2) _ D1 D2. cbn [placeOf plat plon] in *.
  replace (valueOf (plon p) * valueOf (plat q) - valueOf (plon q) * valueOf (plat p)) with
    (valueOf (plon p) * (valueOf (plat q) - valueOf (plat p)) + - ((valueOf (plon q) - valueOf (plon p)) * valueOf (plat p))) by ring.
  eapply Rle_trans; [apply Rabs_triang|]. rewrite Rabs_Ropp, !Rabs_mult.
  assert (X := Rmult_le_compat _ _ _ _ (Rabs_pos (valueOf (plon p))) (Rabs_pos (valueOf (plat q) - valueOf (plat p))) A2 D1).
  assert (Y := Rmult_le_compat _ _ _ _ (Rabs_pos (valueOf (plon q) - valueOf (plon p))) (Rabs_pos (valueOf (plat p))) D2 A1). lra.
Qed.
Lemma swing_from d l : forall p, onMap p -> List.Forall onMap l ->
  List.Forall (fun '(p, q) => Rabs (plat q - plat p) <= d /\ Rabs (plon q - plon p) <= d) (sidesFrom (placeOf p) (map placeOf l)) ->
  chainAbs (placeOf p) (map placeOf l) <= IZR (Z.of_nat (length l)) * (270 * d).
Proof.
  induction l as [|q l IH]; intros p P L S; [cbn; lra|]. inversion L as [|x y Q L']; subst x y. cbn [map sidesFrom] in S.
  inversion S as [|x y S0 S']; subst x y. cbn beta iota in S0. destruct S0 as (S1 & S2). cbn [map chainAbs]. change (length (q :: l)) with (Datatypes.S (length l)).
  rewrite Nat2Z.inj_succ, succ_IZR. assert (B := side_bound d p q P Q S1 S2). specialize (IH q Q L' S'). unfold wedgeOf. lra.
Qed.
Lemma swing_bound d l : List.Forall onMap l -> shortSides d (map placeOf l) -> swing (map placeOf l) <= IZR (Z.of_nat (length l)) * (270 * d).
Proof.
  intros M S. destruct l as [|c l]; [cbn; lra|].
  assert (P : onMap (last (c :: l) c)).
  { destruct (last_In l c) as [E|I]; [rewrite E; inversion M; assumption|]. rewrite List.Forall_forall in M. apply M. right. exact I. }
  unfold shortSides, swing, ringOf in *. cbn [map] in *. change (placeOf c :: map placeOf l) with (map placeOf (c :: l)) in *.
  rewrite last_map in *. rewrite swing_chain. apply swing_from; auto.
Qed.

(** * Equality of coordinates *)
Lemma abs_value x : finite x -> valueOf (nabs doubleNums x) = Rabs (valueOf x) /\ finite (nabs doubleNums x).
Proof.
  intros F. cbn [nabs doubleNums]. unfold valueOf, b64_abs. split; [apply B2R_Babs|].
  rewrite is_finite_Babs. exact F.
Qed.
Lemma epsilon_value : valueOf doubleEpsilon = 1 / 4503599627370496 /\ finite doubleEpsilon.
Proof.
  split; [|vm_compute; reflexivity]. unfold valueOf. rewrite <- FF2R_B2FF.
  replace (B2FF 53 1024 doubleEpsilon) with (F754_finite false 4503599627370496 (-104)) by (vm_compute; reflexivity).
  unfold FF2R, F2R. cbn -[IZR]. lra.
Qed.
Lemma near_value k x : (Z.abs k <= 1800000000)%Z -> nearestTo k x -> finite x /\ Rabs (valueOf x - IZR k / 10000000) <= 1 / 10000000000000.
Proof.
  intros K (F & V). split; [exact F|]. rewrite V. change (round _ _ _ _) with (rnd64 (IZR k / 10000000)).
  assert (B : Rabs (IZR k / 10000000) <= 180).
  { assert (K1 : (-1800000000 <= k)%Z) by lia. assert (K2 : (k <= 1800000000)%Z) by lia. apply IZR_le in K1, K2. apply Rabs_le. lra. }
  apply rnd64_bounded in B. assert (E := eta_small). eapply Rle_trans; [exact B|]. lra.
Qed.
Lemma epsilon_round : rnd64 (1 / 4503599627370496) = 1 / 4503599627370496.
Proof.
  unfold rnd64. apply round_generic; auto with typeclass_instances. replace (1 / 4503599627370496) with (bpow radix2 (-52)) by (cbn -[IZR]; lra).
  apply generic_format_bpow. unfold FLT_exp. lia.
Qed.
Lemma near_coordinate a b x y : (Z.abs a <= 1800000000)%Z -> (Z.abs b <= 1800000000)%Z -> nearestTo a x -> nearestTo b y ->
  nlt doubleNums (nabs doubleNums (nsub doubleNums x y)) doubleEpsilon = true <-> a = b.
Proof.
  intros A B NA NB. destruct (near_value a x A NA) as (FX & X), (near_value b y B NB) as (FY & Y). apply abs_bounds in X, Y.
  assert (A1 : (-1800000000 <= a)%Z) by lia. assert (A2 : (a <= 1800000000)%Z) by lia. assert (B1 : (-1800000000 <= b)%Z) by lia. assert (B2 : (b <= 1800000000)%Z) by lia.
  apply IZR_le in A1, A2, B1, B2.
  destruct (sub_value x y FX FY) as (V & F); [apply Rabs_le; lra|].
  destruct (abs_value _ F) as (V2 & F2). destruct epsilon_value as (EV & EF). rewrite lt_value, V2, V, EV by assumption. split.
  - intros L. destruct (Z.eq_dec a b) as [E|N]; [exact E|exfalso]. assert (G : 1 / 4503599627370496 <= Rabs (valueOf x - valueOf y)).
    { destruct (Z_lt_le_dec a b).
      - assert (Q : (a + 1 <= b)%Z) by lia. apply IZR_le in Q. rewrite plus_IZR in Q. rewrite Rabs_left by lra. lra.
      - assert (Q : (b + 1 <= a)%Z) by lia. apply IZR_le in Q. rewrite plus_IZR in Q. rewrite Rabs_right by lra. lra. }
    apply rnd64_mono in G. rewrite epsilon_round in G. unfold Rabs in L, G.
    destruct (Rcase_abs (valueOf x - valueOf y)) as [C|C].
    + assert (NG : rnd64 (valueOf x - valueOf y) <= 0) by (rewrite <- rnd64_0; apply rnd64_mono; lra). rewrite rnd64_opp in G.
      destruct (Rcase_abs (rnd64 (valueOf x - valueOf y))); lra.
    + destruct (Rcase_abs (rnd64 (valueOf x - valueOf y))); lra.
  - intros <-. replace (valueOf x - valueOf y) with 0.
    + rewrite rnd64_0, Rabs_R0. lra.
    + destruct NA as (_ & ->), NB as (_ & ->). lra.
Qed.
