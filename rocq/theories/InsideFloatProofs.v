(** Tests for a point in a polygon computed with doubles. *)
From Coq Require Import Reals ZArith Lra Lia Psatz.
From Flocq Require Import Core.Core Relative IEEE754.Binary IEEE754.Bits.
From Flocq Require IEEE754.BinarySingleNaN.
From Verif Require Import Base GeoModel RingModel QuatModel MeshBuildModel InsideModel InsideSpec ProjectionModel ProjectionFloat
  RingFloatModel RingFloatSpec RingFloatProofs InsideFloatModel InsideFloatSpec.
Local Open Scope R_scope.

Local Instance prec53'' : Prec_gt_0 53. Proof. reflexivity. Qed.
Notation tiny := (1 / 10000000000000000000000000000).

(** * Single operations *)
Lemma eta_tiny d : 1 / 1000000000000 <= d -> eta <= tiny * d.
Proof.
  intros D. apply Rle_trans with (bpow radix2 (-140)); [apply bpow_le; lia|]. replace (bpow radix2 (-140)) with (1 / 1393796574908163946345982392040522594123776) by (cbn -[IZR]; lra). lra.
Qed.
Lemma div_value x y : finite x -> valueOf y <> 0 -> Rabs (valueOf x / valueOf y) <= 1152921504606846976 ->
  valueOf (ndiv doubleNums x y) = rnd64 (valueOf x / valueOf y) /\ finite (ndiv doubleNums x y).
Proof.
  intros X Y H. assert (C := Bdiv_correct 53 1024 eq_refl eq_refl binop_nan_pl64 BinarySingleNaN.mode_NE x y Y).
  change (round radix2 _ _ (B2R 53 1024 x / B2R 53 1024 y)) with (rnd64 (valueOf x / valueOf y)) in C.
  rewrite (no_overflow _ H) in C. destruct C as (V & F & _). split; [exact V|]. rewrite X in F. exact F.
Qed.
Lemma le_value x y : finite x -> finite y -> doubleLe x y = true <-> valueOf x <= valueOf y.
Proof.
  intros X Y. unfold doubleLe, b64_compare. rewrite (Bcompare_correct 53 1024 x y X Y).
  fold (valueOf x) (valueOf y). destruct (Rcompare_spec (valueOf x) (valueOf y)); split; intros; try discriminate; try reflexivity; lra.
Qed.
Lemma product_close x y X Y e f M N : Rabs (x - X) <= e -> Rabs (y - Y) <= f -> Rabs X <= M -> Rabs Y <= N ->
  Rabs (x * y - X * Y) <= e * (N + f) + M * f.
Proof.
  intros E F HM HN. replace (x * y - X * Y) with ((x - X) * (Y + (y - Y)) + X * (y - Y)) by ring.
  eapply Rle_trans; [apply Rabs_triang|]. rewrite !Rabs_mult. assert (T := Rabs_triang Y (y - Y)).
  apply Rplus_le_compat; apply Rmult_le_compat; try apply Rabs_pos; lra.
Qed.
Lemma close_abs x X e M : Rabs (x - X) <= e -> Rabs X <= M -> Rabs x <= M + e.
Proof. intros E H. replace x with (X + (x - X)) by ring. eapply Rle_trans; [apply Rabs_triang|]. lra. Qed.
Lemma round_close x X e M : Rabs (x - X) <= e -> Rabs X <= M -> Rabs (rnd64 x - X) <= e + ulp1 * (M + e) + eta.
Proof.
  intros E H. assert (B := rnd64_bounded x _ (close_abs _ _ _ _ E H)). replace (rnd64 x - X) with ((rnd64 x - x) + (x - X)) by ring.
  eapply Rle_trans; [apply Rabs_triang|]. lra.
Qed.
(** A quotient whose divisor is near to one. *)
Lemma quotient_close m d X e M : Rabs (m - X) <= e -> Rabs (d - 1) <= ulp1 + tiny -> Rabs X <= M ->
  Rabs (m / d - X) <= 101 / 100 * e + 101 / 100 * (ulp1 + tiny) * M.
Proof.
  intros E D H. assert (D' := D). apply abs_bounds in D'.
  assert (I : 0 < / d <= 101 / 100).
  { split; [apply Rinv_0_lt_compat; lra|]. replace (101 / 100) with (/ (100 / 101)) by lra. apply Rinv_le_contravar; lra. }
  replace (m / d - X) with ((m - X) * / d + X * ((1 - d) * / d)) by (field; lra).
  eapply Rle_trans; [apply Rabs_triang|]. rewrite !Rabs_mult, (Rabs_pos_eq (/ d)) by lra. rewrite (Rabs_minus_sym 1 d).
  assert (E0 := Rabs_pos (m - X)). assert (D0 := Rabs_pos (d - 1)). assert (X0 := Rabs_pos X).
  apply Rplus_le_compat.
  - rewrite (Rmult_comm (101 / 100) e). apply Rmult_le_compat; lra.
  - rewrite (Rmult_comm _ M). apply Rmult_le_compat; try lra; [apply Rmult_le_pos; lra|].
    rewrite (Rmult_comm (101 / 100)). apply Rmult_le_compat; lra.
Qed.

(** * The place where a side is crossed *)
Definition crossFirst (p i j : vec2 binary64) : binary64 :=
  nadd doubleNums (ndiv doubleNums (nmul doubleNums (nsub doubleNums (v2x j) (v2x i)) (nsub doubleNums (v2y p) (v2y i)))
    (nsub doubleNums (v2y j) (v2y i))) (v2x i).
Definition crossLast (p i j : vec2 binary64) : binary64 :=
  nadd doubleNums (v2x i) (nmul doubleNums (ndiv doubleNums (nsub doubleNums (v2y p) (v2y i)) (nsub doubleNums (v2y j) (v2y i)))
    (nsub doubleNums (v2x j) (v2x i))).
Definition crossAt (p i j : pt) : R := (v2x j - v2x i) * (v2y p - v2y i) / (v2y j - v2y i) + v2x i.
Definition between (p i j : pt) : Prop := v2y i <> v2y j /\ (v2y i <= v2y p <= v2y j \/ v2y j <= v2y p <= v2y i).

Lemma between_part p i j : between p i j -> 0 <= (v2y p - v2y i) / (v2y j - v2y i) <= 1.
Proof.
  intros (N & B). split.
  - destruct B; [apply Rmult_le_pos; [lra|]; apply Rlt_le, Rinv_0_lt_compat; lra|].
    replace ((v2y p - v2y i) / (v2y j - v2y i)) with ((v2y i - v2y p) / (v2y i - v2y j)) by (field; lra).
    apply Rmult_le_pos; [lra|]. apply Rlt_le, Rinv_0_lt_compat. lra.
  - destruct B; [apply Rmult_le_reg_r with (v2y j - v2y i); [lra|]; unfold Rdiv; rewrite Rmult_assoc, Rinv_l; lra|].
    replace ((v2y p - v2y i) / (v2y j - v2y i)) with ((v2y i - v2y p) / (v2y i - v2y j)) by (field; lra).
    apply Rmult_le_reg_r with (v2y i - v2y j); [lra|]. unfold Rdiv. rewrite Rmult_assoc, Rinv_l; lra.
Qed.
Lemma cross_part p i j : v2y i <> v2y j -> crossAt p i j = v2x i + (v2y p - v2y i) / (v2y j - v2y i) * (v2x j - v2x i).
Proof. intros N. unfold crossAt. field. lra. Qed.
Lemma cross_segment p i j : between p i j -> onSegment (mkV2 (crossAt p i j) (v2y p)) i j.
Proof.
  intros B. exists ((v2y p - v2y i) / (v2y j - v2y i)). split; [apply between_part, B|]. unfold along. rewrite <- cross_part by apply B.
  f_equal. field. destruct B. lra.
Qed.

Lemma cross_error p i j : onChart p -> onChart i -> onChart j -> between (spotOf p) (spotOf i) (spotOf j) ->
  1 / 1000000000000 <= Rabs (valueOf (v2y j) - valueOf (v2y i)) ->
  let e := ulp1 * (6 * Rabs (valueOf (v2x j) - valueOf (v2x i)) + 182) in
  (finite (crossFirst p i j) /\ Rabs (valueOf (crossFirst p i j) - crossAt (spotOf p) (spotOf i) (spotOf j)) <= e) /\
  (finite (crossLast p i j) /\ Rabs (valueOf (crossLast p i j) - crossAt (spotOf p) (spotOf i) (spotOf j)) <= e).
Proof.
  intros (P1 & P2 & P3 & P4) (I1 & I2 & I3 & I4) (J1 & J2 & J3 & J4) B T e.
  unfold coordinate in *. cbn [plat plon] in *.
  assert (U := between_part _ _ _ B). assert (CP := cross_part (spotOf p) _ _ (proj1 B)). rewrite CP.
  cbn [spotOf v2x v2y] in *. set (A := valueOf (v2x j) - valueOf (v2x i)) in *. set (Bd := valueOf (v2y p) - valueOf (v2y i)) in *.
  set (D := valueOf (v2y j) - valueOf (v2y i)) in *. set (t := Bd / D) in *.
  assert (D0 : D <> 0) by (unfold D; destruct B as (N & _); cbn [spotOf v2x v2y] in N; lra).
  assert (DP : 0 < Rabs D) by (apply Rabs_pos_lt; exact D0).
  assert (AI := abs_bounds _ _ I4). assert (AJ := abs_bounds _ _ J4). assert (AP := abs_bounds _ _ P3). assert (BI := abs_bounds _ _ I3). assert (BJ := abs_bounds _ _ J3).
  assert (A360 : Rabs A <= 360) by (unfold A; apply Rabs_le; lra).
  assert (ET := eta_tiny _ T). assert (E1 := eta_tiny 1 ltac:(lra)). assert (E0 := eta_small).
  assert (D180 : Rabs D <= 180) by (unfold D; apply Rabs_le; lra).
  assert (T1 : Rabs t <= 1) by (apply Rabs_le; lra).
  assert (BD : Bd = t * D) by (unfold t; field; exact D0).
  assert (LB : Rabs Bd <= Rabs D) by (rewrite BD, Rabs_mult; assert (Z := Rabs_pos D); nra).
  destruct (sub_value (v2x j) (v2x i) J2 I2) as (VA & FA); [fold A; lra|]. fold A in VA.
  destruct (sub_value (v2y p) (v2y i) P1 I1) as (VB & FB); [fold Bd; lra|]. fold Bd in VB.
  destruct (sub_value (v2y j) (v2y i) J1 I1) as (VD & FD); [fold D; lra|]. fold D in VD.
  set (a := nsub doubleNums (v2x j) (v2x i)) in *. set (b := nsub doubleNums (v2y p) (v2y i)) in *. set (d := nsub doubleNums (v2y j) (v2y i)) in *.
  assert (Ea : Rabs (valueOf a - A) <= ulp1 * Rabs A + eta) by (rewrite VA; apply rnd64_error).
  assert (Eb : Rabs (valueOf b - Bd) <= (ulp1 + tiny) * Rabs D) by (rewrite VB; assert (Q := rnd64_bounded _ _ LB); lra).
  assert (Ed : Rabs (valueOf d - D) <= (ulp1 + tiny) * Rabs D) by (rewrite VD; assert (Q := rnd64_error D); lra).
  assert (scale : forall x y c, Rabs (x - y * D) <= c * Rabs D -> Rabs (x / D - y) <= c).
  { intros x y c H. apply Rmult_le_reg_r with (Rabs D); [exact DP|]. rewrite <- Rabs_mult.
    replace ((x / D - y) * D) with (x - y * D) by (field; exact D0). exact H. }
  assert (Sb : Rabs (valueOf b / D - t) <= ulp1 + tiny) by (apply scale; rewrite <- BD; exact Eb).
  assert (Sd : Rabs (valueOf d / D - 1) <= ulp1 + tiny) by (apply scale; rewrite Rmult_1_l; exact Ed).
  assert (d0 : valueOf d <> 0).
  { intros Z. rewrite Z in Sd. replace (0 / D - 1) with (-1) in Sd by (field; exact D0). rewrite Rabs_left in Sd by lra. lra. }
  assert (quot : forall x, (x / D) / (valueOf d / D) = x / valueOf d) by (intros; field; auto).
  assert (TA : Rabs (t * A) <= Rabs A) by (rewrite Rabs_mult; assert (Z := Rabs_pos A); nra).
  assert (A0 := Rabs_pos A).
  assert (S180 : Rabs (valueOf (v2x i) + t * A) <= 180).
  { replace (valueOf (v2x i) + t * A) with ((1 - t) * valueOf (v2x i) + t * valueOf (v2x j)) by (unfold A; ring). apply Rabs_le. split; nra. }
  assert (sum : forall q, finite q -> Rabs (valueOf q - t * A) <= 11 / 2 * ulp1 * Rabs A + 1 / 100000000000000000000 ->
    Rabs (valueOf q + valueOf (v2x i)) <= 1152921504606846976 /\
    Rabs (rnd64 (valueOf q + valueOf (v2x i)) - (valueOf (v2x i) + t * A)) <= e).
  { intros q Fq Q. assert (H : Rabs ((valueOf q + valueOf (v2x i)) - (valueOf (v2x i) + t * A)) <= 11 / 2 * ulp1 * Rabs A + 1 / 100000000000000000000).
    { replace ((valueOf q + valueOf (v2x i)) - (valueOf (v2x i) + t * A)) with (valueOf q - t * A) by ring. exact Q. }
    split; [assert (Z := close_abs _ _ _ _ H S180); lra|].
    assert (Z := round_close _ _ _ _ H S180). unfold e. lra. }
  split.
  - assert (Pm : Rabs (valueOf a * (valueOf b / D) - A * t) <= (ulp1 * Rabs A + eta) * (1 + (ulp1 + tiny)) + Rabs A * (ulp1 + tiny)).
    { apply product_close; auto; lra. }
    assert (Pb : Rabs (valueOf a * valueOf b) <= (101 / 100 * Rabs A + 1) * Rabs D).
    { replace (valueOf a * valueOf b) with (valueOf a * (valueOf b / D) * D) by (field; exact D0). rewrite Rabs_mult. apply Rmult_le_compat_r; [lra|].
      assert (Z := close_abs _ _ _ _ Pm (eq_ind _ (fun x => Rabs x <= Rabs A) TA _ (Rmult_comm t A))). lra. }
    destruct (mul_value a b FA FB) as (Vm & Fm).
    { eapply Rle_trans; [exact Pb|]. assert (Z := Rmult_le_compat (101 / 100 * Rabs A + 1) 400 (Rabs D) 180). lra. }
    set (m := nmul doubleNums a b) in *.
    assert (Sm : Rabs (valueOf m / D - A * t) <= 31 / 10 * ulp1 * Rabs A + 4 * tiny).
    { assert (R := rnd64_error (valueOf a * valueOf b)). rewrite <- Vm in R.
      assert (R2 : Rabs (valueOf m / D - valueOf a * (valueOf b / D)) <= ulp1 * (Rabs (valueOf a * (valueOf b / D))) + tiny).
      { apply scale. replace (valueOf a * (valueOf b / D) * D) with (valueOf a * valueOf b) by (field; exact D0).
        rewrite (Rmult_plus_distr_r _ _ (Rabs D)), Rmult_assoc, <- Rabs_mult. replace (valueOf a * (valueOf b / D) * D) with (valueOf a * valueOf b) by (field; exact D0). lra. }
      assert (Z := close_abs _ _ _ _ Pm (eq_ind _ (fun x => Rabs x <= Rabs A) TA _ (Rmult_comm t A))).
      replace (valueOf m / D - A * t) with ((valueOf m / D - valueOf a * (valueOf b / D)) + (valueOf a * (valueOf b / D) - A * t)) by ring.
      eapply Rle_trans; [apply Rabs_triang|]. lra. }
    rewrite (Rmult_comm A t) in Sm.
    assert (Q := quotient_close _ _ _ _ _ Sm Sd TA). rewrite quot in Q.
    destruct (div_value m d Fm d0) as (Vq & Fq); [assert (Z := close_abs _ _ _ _ Q TA); lra|].
    assert (Rq := round_close _ _ _ _ Q TA). rewrite <- Vq in Rq. set (q := ndiv doubleNums m d) in *.
    destruct (sum q Fq) as (O & S); [lra|].
    destruct (add_value q (v2x i) Fq I2 O) as (Vs & Fs). unfold crossFirst. fold a b d m q. split; [exact Fs|]. rewrite Vs. exact S.
  - assert (Q := quotient_close _ _ _ _ _ Sb Sd T1). rewrite quot in Q.
    destruct (div_value b d FB d0) as (Vq & Fq); [assert (Z := close_abs _ _ _ _ Q T1); lra|].
    assert (Rq := round_close _ _ _ _ Q T1). rewrite <- Vq in Rq. set (q := ndiv doubleNums b d) in *.
    assert (Rq2 : Rabs (valueOf q - t) <= 32 / 10 * ulp1) by lra.
    assert (Pm := product_close _ _ _ _ _ _ _ _ Rq2 Ea T1 (Rle_refl (Rabs A))).
    assert (Z := close_abs _ _ _ _ Pm TA).
    destruct (mul_value q a Fq FA) as (Vm & Fm); [lra|].
    assert (Rm := round_close _ _ _ _ Pm TA). rewrite <- Vm in Rm. set (m := nmul doubleNums q a) in *.
    destruct (sum m Fm) as (O & S); [lra|].
    rewrite Rplus_comm in O, S. destruct (add_value (v2x i) m I2 Fm O) as (Vs & Fs). unfold crossLast. fold a b d q m. split; [exact Fs|]. rewrite Vs. exact S.
Qed.

(** * Sides *)
(** Two doubles compare as two numbers do. *)
Definition follows (x y : binary64) (X Y : R) : Prop :=
  finite x /\ finite y /\ (valueOf x < valueOf y <-> X < Y) /\ (valueOf y < valueOf x <-> Y < X).
Lemma follows_lt x y X Y : follows x y X Y -> nlt doubleNums x y = nlt realNums X Y.
Proof.
  intros (F & G & H & _). cbn [realNums nlt]. destruct (Rlt_dec X Y) as [L|L].
  - apply lt_value; auto. apply H, L.
  - apply not_true_is_false. intros E. apply lt_value in E; auto. apply L, H, E.
Qed.
Lemma follows_le x y X Y : follows x y X Y -> doubleLe x y = Rleb X Y.
Proof.
  intros (F & G & _ & H). unfold Rleb. destruct (Rle_dec X Y) as [L|L].
  - apply le_value; auto. apply Rnot_lt_le. intros Z. apply H in Z. lra.
  - apply not_true_is_false. intros E. apply le_value in E; auto. assert (Z : Y < X) by lra. apply H in Z. lra.
Qed.
Lemma follows_swap x y X Y : follows x y X Y -> follows y x Y X.
Proof. intros (F & G & H & K). repeat split; auto; apply H || apply K. Qed.
Definition sideAgrees (p : vec2 binary64) (P : pt) (e : (vec2 binary64 * pt) * (vec2 binary64 * pt)) : Prop :=
  let '((j, J), (i, Q)) := e in
  follows (v2y p) (v2y i) (v2y P) (v2y Q) /\ follows (v2y p) (v2y j) (v2y P) (v2y J) /\
  follows (v2x p) (v2x i) (v2x P) (v2x Q) /\ follows (v2x p) (v2x j) (v2x P) (v2x J) /\
  (between P Q J -> follows (v2x p) (crossFirst p i j) (v2x P) (crossAt P Q J) /\ follows (v2x p) (crossLast p i j) (v2x P) (crossAt P Q J)).

Ltac decided := repeat match goal with |- context [Rle_dec ?x ?y] => destruct (Rle_dec x y) | |- context [Rlt_dec ?x ?y] => destruct (Rlt_dec x y) end.
Lemma right_side p P j J i Q : sideAgrees p P ((j, J), (i, Q)) -> rightEdge doubleNums doubleLe p i j = rightEdge realNums Rleb P Q J.
Proof.
  intros (Y1 & Y2 & _ & _ & C). unfold rightEdge. rewrite (follows_le _ _ _ _ Y1), (follows_le _ _ _ _ Y2).
  destruct (xorb (Rleb (v2y P) (v2y Q)) (Rleb (v2y P) (v2y J))) eqn:X; [|reflexivity]. cbn [andb].
  destruct C as (C & _).
  - revert X. unfold Rleb, between. decided; cbn [xorb]; intros; try discriminate; lra.
  - apply (follows_le _ _ _ _ C).
Qed.
Lemma geo_side p P j J i Q : sideAgrees p P ((j, J), (i, Q)) ->
  crosses doubleNums (coordinate p) (coordinate i) (coordinate j) = crosses realNums (coordinate P) (coordinate Q) (coordinate J).
Proof.
  intros (Y1 & Y2 & _ & _ & C). unfold crosses, coordinate. cbn [plat plon]. rewrite (follows_lt _ _ _ _ Y1), (follows_lt _ _ _ _ Y2).
  destruct (xorb (nlt realNums (v2y P) (v2y Q)) (nlt realNums (v2y P) (v2y J))) eqn:X; [|reflexivity]. cbn [andb].
  destruct C as (C & _).
  - revert X. cbn [realNums nlt]. unfold between. decided; cbn [xorb]; intros; try discriminate; lra.
  - apply (follows_lt _ _ _ _ C).
Qed.
Lemma ray_side p P j J i Q acc : sideAgrees p P ((j, J), (i, Q)) -> rayEdge doubleNums doubleLe p i j acc = rayEdge realNums Rleb P Q J acc.
Proof.
  intros (Y1 & Y2 & X1 & X2 & C). unfold rayEdge.
  rewrite (follows_le _ _ _ _ Y1), (follows_le _ _ _ _ Y2), (follows_le _ _ _ _ (follows_swap _ _ _ _ X1)), (follows_le _ _ _ _ (follows_swap _ _ _ _ X2)),
    (follows_lt _ _ _ _ (follows_swap _ _ _ _ Y1)), (follows_lt _ _ _ _ (follows_swap _ _ _ _ Y2)).
  destruct (nlt realNums (v2y Q) (v2y P) && Rleb (v2y P) (v2y J) || nlt realNums (v2y J) (v2y P) && Rleb (v2y P) (v2y Q)) eqn:X; [|reflexivity].
  assert (B : between P Q J).
  { revert X. cbn [realNums nlt]. unfold Rleb, between. decided; cbn [orb andb]; intros; try discriminate; lra. }
  destruct (C B) as (_ & L). apply follows_swap, follows_lt in L. unfold crossLast in L. rewrite L.
  cbn [realNums nadd nmul ndiv nsub]. rewrite <- cross_part by apply B. reflexivity.
Qed.

Section Loops.
  Variables (p : vec2 binary64) (P : pt).
  Lemma loops g : forall j J acc, (forall e, In e (combine ((j, J) :: g) g) -> sideAgrees p P e) ->
    rayLoop doubleNums doubleLe p j acc (map fst g) = rayLoop realNums Rleb P J acc (map snd g) /\
    rightLoop doubleNums doubleLe p j acc (map fst g) = rightLoop realNums Rleb P J acc (map snd g) /\
    crossings doubleNums (coordinate p) (coordinate j) acc (map coordinate (map fst g)) =
      crossings realNums (coordinate P) (coordinate J) acc (map coordinate (map snd g)).
  Proof.
    induction g as [|(i, Q) g IH]; intros j J acc H; [auto|]. cbn [map fst snd rayLoop rightLoop crossings].
    assert (S : sideAgrees p P ((j, J), (i, Q))) by (apply H; left; reflexivity).
    rewrite (ray_side _ _ _ _ _ _ _ S), (right_side _ _ _ _ _ _ S), (geo_side _ _ _ _ _ _ S).
    assert (IH' := fun acc => IH i Q acc (fun e E => H e (or_intror E))).
    split; [apply IH'|]. split; [apply (IH' _)|apply (IH' _)].
  Qed.
End Loops.
Lemma rings p P g f h : (forall e, In e (edges g) -> sideAgrees p P e) -> In (f, h) (combine doubleTests exactTests) -> f p (map fst g) = h P (map snd g).
Proof.
  intros H T. unfold doubleTests, exactTests in T. cbn [combine In] in T. destruct g as [|x g].
  - destruct T as [T|[T|[T|[]]]]; injection T as <- <-; reflexivity.
  - unfold edges in H. destruct (last (x :: g) x) as (j, J) eqn:E. assert (L := fun acc => loops p P (x :: g) j J acc H).
    assert (L1 : last (map fst (x :: g)) (fst x) = j) by (rewrite last_map, E; reflexivity).
    assert (L2 : last (map snd (x :: g)) (snd x) = J) by (rewrite last_map, E; reflexivity).
    destruct (L false) as (A1 & A2 & A3). rewrite <- L1, <- L2 in A1, A2, A3. rewrite <- (last_map (@coordinate binary64)), <- (last_map (@coordinate R)) in A3. cbn [map] in *.
    destruct T as [T|[T|[T|[]]]]; injection T as <- <-.
    + exact A1.
    + exact A2.
    + exact A3.
Qed.
Lemma edges_map {A B} (f : A -> B) l : edges (map f l) = map (fun '(a, b) => (f a, f b)) (edges l).
Proof.
  destruct l as [|v l]; [reflexivity|]. unfold edges. cbn [map]. change (f v :: map f l) with (map f (v :: l)). rewrite last_map.
  generalize (last (v :: l) v) as c. generalize (v :: l) as r. clear. induction r as [|x r IH]; intros c; [reflexivity|].
  cbn [map combine]. f_equal. apply IH.
Qed.
Lemma edges_in {A} (l : list A) a b : In (a, b) (edges l) -> In a l /\ In b l.
Proof.
  destruct l as [|v l]; [intros []|]. unfold edges. intros H. split; [|apply in_combine_r in H; exact H].
  apply in_combine_l in H. destruct H as [<-|H]; [|exact H]. destruct (last_In l v) as [E|E]; [rewrite E; left; reflexivity|right; exact E].
Qed.

(** * Rounding alone *)
Theorem clear_exact f h p ring : In (f, h) (combine doubleTests exactTests) -> onChart p -> List.Forall onChart ring ->
  tallSides (map spotOf ring) -> clearance (1 / 1000000000000) (spotOf p) (map spotOf ring) -> f p ring = h (spotOf p) (map spotOf ring).
Proof.
  intros T P R S C. rewrite List.Forall_forall in R.
  assert (E1 : map fst (map (fun v => (v, spotOf v)) ring) = ring) by (rewrite map_map; apply map_id).
  assert (E2 : map snd (map (fun v => (v, spotOf v)) ring) = map spotOf ring) by (rewrite map_map; reflexivity).
  rewrite <- E1 at 1. rewrite <- E2. apply rings; [|exact T]. intros e H. rewrite edges_map in H. apply in_map_iff in H as ((j, i) & <- & H).
  assert (HS : In (spotOf j, spotOf i) (edges (map spotOf ring))) by (rewrite edges_map; apply in_map_iff; exists (j, i); auto).
  destruct (edges_in _ _ _ H) as (J & Q). apply R in J, Q. assert (P' := P). assert (J' := J). assert (Q' := Q).
  destruct P' as (P1 & P2 & P3 & P4), Q' as (I1 & I2 & I3 & I4), J' as (J1 & J2 & J3 & J4).
  unfold coordinate in *. cbn [plat plon] in *.
  split; [repeat split; auto; tauto|]. split; [repeat split; auto; tauto|]. split; [repeat split; auto; tauto|]. split; [repeat split; auto; tauto|].
  intros B. specialize (S _ _ HS). cbn [spotOf v2x v2y] in S. assert (B' := B). destruct B' as (N & _). cbn [spotOf v2x v2y] in N.
  destruct S as [S|S]; [lra|]. rewrite Rabs_minus_sym in S.
  assert (CR := cross_error p i j P Q J B S). cbv zeta in CR.
  assert (OS : onSegment (mkV2 (crossAt (spotOf p) (spotOf i) (spotOf j)) (v2y (spotOf p))) (spotOf j) (spotOf i)).
  { destruct (cross_segment _ _ _ B) as (t & T1 & T2). exists (1 - t). split; [lra|]. rewrite T2. unfold along. f_equal; ring. }
  specialize (C _ _ _ HS OS eq_refl). cbn [v2x] in C. cbn [spotOf v2x v2y] in C. fold (spotOf p) (spotOf i) (spotOf j) in C.
  assert (A360 : Rabs (valueOf (v2x j) - valueOf (v2x i)) <= 360).
  { assert (X := abs_bounds _ _ I4). assert (Y := abs_bounds _ _ J4). apply Rabs_le. lra. }
  set (x := crossAt _ _ _) in *. destruct CR as ((F1 & C1) & (F2 & C2)).
  assert (G : forall c, finite c -> Rabs (valueOf c - x) <= ulp1 * (6 * Rabs (valueOf (v2x j) - valueOf (v2x i)) + 182) -> follows (v2x p) c (v2x (spotOf p)) x).
  { intros c Fc Cc. cbn [spotOf v2x]. assert (D : Rabs (valueOf c - x) <= 1 / 1000000000000) by lra. split; [exact P2|]. split; [exact Fc|].
    unfold Rabs in C, D. destruct (Rcase_abs _) in C; destruct (Rcase_abs _) in D; lra. }
  split; apply G; auto.
Qed.

(** * Seven digits *)
Lemma rnd64_whole k : (Z.abs k <= 1000)%Z -> rnd64 (IZR k) = IZR k.
Proof.
  intros K. unfold rnd64. apply round_generic; [apply valid_rnd_N|]. replace (IZR k) with (F2R (Float radix2 k 0)) by (unfold F2R; cbn; lra).
  apply generic_format_F2R. intros N. unfold cexp, FLT_exp. rewrite mag_F2R_Zdigits by exact N.
  assert (D : (Zdigits radix2 k <= 10)%Z) by (apply Zdigits_le_Zpower; cbn; lia). lia.
Qed.
Lemma near_tight k b x : (Z.abs k <= b * 10000000)%Z -> (0 <= b <= 180)%Z -> nearestTo k x ->
  finite x /\ Rabs (valueOf x) <= IZR b /\ Rabs (valueOf x - IZR k / 10000000) <= ulp1 * IZR b + tiny.
Proof.
  intros K B (F & V). split; [exact F|]. rewrite V. change (round _ _ _ _) with (rnd64 (IZR k / 10000000)).
  assert (K1 : (- (b * 10000000) <= k)%Z) by lia. assert (K2 : (k <= b * 10000000)%Z) by lia. apply IZR_le in K1, K2.
  rewrite opp_IZR in K1. rewrite mult_IZR in K1, K2. split.
  - apply Rabs_le. rewrite <- (rnd64_whole b) by lia. rewrite <- rnd64_opp. split; apply rnd64_mono; lra.
  - assert (X : Rabs (IZR k / 10000000) <= IZR b) by (apply Rabs_le; lra). apply rnd64_bounded in X. assert (E := eta_tiny 1 ltac:(lra)). lra.
Qed.
Lemma near_follows a b x y : (Z.abs a <= 1800000000)%Z -> (Z.abs b <= 1800000000)%Z -> nearestTo a x -> nearestTo b y -> follows x y (IZR a) (IZR b).
Proof.
  intros A B NA NB. destruct (near_value a x A NA) as (FX & X), (near_value b y B NB) as (FY & Y). apply abs_bounds in X, Y.
  split; [exact FX|]. split; [exact FY|]. destruct (Z.lt_trichotomy a b) as [L|[L|L]].
  - assert (G := IZR_lt _ _ L). assert (Q : (a + 1 <= b)%Z) by lia. apply IZR_le in Q. rewrite plus_IZR in Q. split; split; lra.
  - subst b. assert (E : valueOf x = valueOf y) by (destruct NA as (_ & ->), NB as (_ & ->); reflexivity). split; split; lra.
  - assert (G := IZR_lt _ _ L). assert (Q : (b + 1 <= a)%Z) by lia. apply IZR_le in Q. rewrite plus_IZR in Q. split; split; lra.
Qed.
Lemma read_chart k v : inRange k -> readAs k v -> onChart v.
Proof.
  intros (K1 & K2) (N1 & N2). destruct (near_tight _ 90 _ K2 ltac:(lia) N1) as (F1 & B1 & _), (near_tight _ 180 _ K1 ltac:(lia) N2) as (F2 & B2 & _).
  repeat split; auto.
Qed.
Lemma read_follows k v l w : inRange k -> inRange l -> readAs k v -> readAs l w ->
  follows (v2x v) (v2x w) (v2x (unitSpot k)) (v2x (unitSpot l)) /\ follows (v2y v) (v2y w) (v2y (unitSpot k)) (v2y (unitSpot l)).
Proof. intros (K1 & K2) (L1 & L2) (N1 & N2) (M1 & M2). split; apply near_follows; auto; lia. Qed.

(** Places which are not the same are not too near. *)
Lemma gap p i j : between (unitSpot p) (unitSpot i) (unitSpot j) -> crossAt (unitSpot p) (unitSpot i) (unitSpot j) <> IZR (v2x p) ->
  1 <= Rabs (crossAt (unitSpot p) (unitSpot i) (unitSpot j) - IZR (v2x p)) * Rabs (IZR (v2y j - v2y i)).
Proof.
  intros (N & _) C. cbn [unitSpot v2x v2y] in N.
  assert (D0 : IZR (v2y j) - IZR (v2y i) <> 0) by lra.
  rewrite <- Rabs_mult. set (n := ((v2x j - v2x i) * (v2y p - v2y i) - (v2x p - v2x i) * (v2y j - v2y i))%Z).
  assert (E : (crossAt (unitSpot p) (unitSpot i) (unitSpot j) - IZR (v2x p)) * IZR (v2y j - v2y i) = IZR n).
  { unfold crossAt, n. cbn [unitSpot v2x v2y]. rewrite !minus_IZR, !mult_IZR, !minus_IZR. field. exact D0. }
  rewrite E. assert (n <> 0%Z).
  { intros Z. rewrite Z in E. apply Rmult_integral in E as [E|E]; [lra|]. rewrite minus_IZR in E. lra. }
  rewrite <- abs_IZR. apply IZR_le. lia.
Qed.
(** Reading the coordinates moves the crossing by little. *)
Lemma read_cross p i j p' i' j' : inRange p -> inRange i -> inRange j -> readAs p p' -> readAs i i' -> readAs j j' ->
  between (unitSpot p) (unitSpot i) (unitSpot j) -> between (spotOf p') (spotOf i') (spotOf j') ->
  let w := / Rabs (IZR (v2y j - v2y i) / 10000000) in
  1 / 1000000000000 <= Rabs (valueOf (v2y j') - valueOf (v2y i')) /\
  Rabs (valueOf (v2x j') - valueOf (v2x i')) <= Rabs (IZR (v2x j - v2x i) / 10000000) + 1 / 1000000000000 /\
  Rabs (crossAt (spotOf p') (spotOf i') (spotOf j') - crossAt (unitSpot p) (unitSpot i) (unitSpot j) / 10000000) <=
    541 * ulp1 + 361 * ulp1 * (Rabs (IZR (v2x j - v2x i) / 10000000) * w).
Proof.
  intros (P1 & P2) (I1 & I2) (J1 & J2) (NP1 & NP2) (NI1 & NI2) (NJ1 & NJ2) B B' w. unfold coordinate in *. cbn [plat plon] in *.
  destruct (near_tight _ 90 _ P2 ltac:(lia) NP1) as (_ & _ & EPy). destruct (near_tight _ 90 _ I2 ltac:(lia) NI1) as (_ & _ & EIy). destruct (near_tight _ 90 _ J2 ltac:(lia) NJ1) as (_ & _ & EJy).
  destruct (near_tight _ 180 _ P1 ltac:(lia) NP2) as (_ & _ & EPx). destruct (near_tight _ 180 _ I1 ltac:(lia) NI2) as (_ & _ & EIx). destruct (near_tight _ 180 _ J1 ltac:(lia) NJ2) as (_ & _ & EJx).
  assert (U := between_part _ _ _ B). assert (U' := between_part _ _ _ B'). rewrite (cross_part _ _ _ (proj1 B)), (cross_part _ _ _ (proj1 B')).
  assert (N := proj1 B). cbn [unitSpot spotOf v2x v2y] in *. assert (WE : w = / Rabs ((IZR (v2y j) - IZR (v2y i)) / 10000000)) by (unfold w; rewrite minus_IZR; reflexivity). clearbody w. rewrite !minus_IZR in *.
  assert (D0 : IZR (v2y j) - IZR (v2y i) <> 0) by lra.
  assert (DM : 1 / 10000000 <= Rabs ((IZR (v2y j) - IZR (v2y i)) / 10000000)).
  { unfold Rdiv. rewrite Rabs_mult, (Rabs_pos_eq (/ 10000000)) by lra. apply Rmult_le_compat_r; [lra|]. rewrite <- minus_IZR, <- abs_IZR. apply IZR_le.
    assert (v2y j <> v2y i) by (intros Z; rewrite Z in N; lra). lia. }
  set (t := (IZR (v2y p) - IZR (v2y i)) / (IZR (v2y j) - IZR (v2y i))) in *.
  set (D := (IZR (v2y j) - IZR (v2y i)) / 10000000) in *. set (A := (IZR (v2x j) - IZR (v2x i)) / 10000000) in *.
  set (A' := valueOf (v2x j') - valueOf (v2x i')) in *. set (D' := valueOf (v2y j') - valueOf (v2y i')) in *. set (B1 := valueOf (v2y p') - valueOf (v2y i')) in *.
  apply abs_bounds in EPy, EIy, EJy, EPx, EIx, EJx.
  assert (ED : Rabs (D' - D) <= 2 * (ulp1 * 90 + tiny)) by (unfold D, D'; apply Rabs_le; lra).
  assert (EA : Rabs (A' - A) <= 2 * (ulp1 * 180 + tiny)) by (unfold A, A'; apply Rabs_le; lra).
  assert (EB : Rabs (B1 - t * D) <= 2 * (ulp1 * 90 + tiny)).
  { replace (t * D) with ((IZR (v2y p) - IZR (v2y i)) / 10000000) by (unfold t, D; field; exact D0). unfold B1. apply Rabs_le. lra. }
  assert (DL : 999 / 1000 * Rabs D <= Rabs D').
  { assert (Z := Rabs_triang D' (- (D' - D))). replace (D' + - (D' - D)) with D in Z by ring. rewrite Rabs_Ropp in Z. lra. }
  split; [lra|]. split.
  { replace A' with (A + (A' - A)) at 1 by ring. eapply Rle_trans; [apply Rabs_triang|]. lra. }
  assert (D'0 : D' <> 0) by (intros Z; rewrite Z, Rabs_R0 in DL; lra).
  assert (W0 : 0 < w) by (rewrite WE; apply Rinv_0_lt_compat; lra).
  assert (WD : Rabs D * w = 1) by (rewrite WE; apply Rinv_r; lra).
  set (t' := B1 / D') in *.
  assert (ETD : Rabs (t' - t) * Rabs D' <= 4 * (ulp1 * 90 + tiny)).
  { rewrite <- Rabs_mult. replace ((t' - t) * D') with ((B1 - t * D) + - (t * (D' - D))) by (unfold t'; field; exact D'0).
    eapply Rle_trans; [apply Rabs_triang|]. rewrite Rabs_Ropp, Rabs_mult.
    assert (Z : Rabs t * Rabs (D' - D) <= 1 * Rabs (D' - D)) by (apply Rmult_le_compat_r; [apply Rabs_pos|apply Rabs_le; lra]). lra. }
  assert (ET : Rabs (t' - t) <= 361 * ulp1 * w).
  { assert (T0 := Rabs_pos (t' - t)). assert (X : Rabs (t' - t) * (999 / 1000 * Rabs D) <= 4 * (ulp1 * 90 + tiny)).
    { eapply Rle_trans; [|exact ETD]. apply Rmult_le_compat_l; [exact T0|exact DL]. }
    apply Rmult_le_compat_r with (r := w) in X; [|lra].
    replace (Rabs (t' - t) * (999 / 1000 * Rabs D) * w) with (999 / 1000 * Rabs (t' - t) * (Rabs D * w)) in X by ring. rewrite WD in X. lra. }
  replace ((IZR (v2x i) + t * (IZR (v2x j) - IZR (v2x i))) / 10000000) with (IZR (v2x i) / 10000000 + t * A) by (unfold A; field).
  replace (valueOf (v2x i') + t' * A' - (IZR (v2x i) / 10000000 + t * A)) with
    ((valueOf (v2x i') - IZR (v2x i) / 10000000) + (t' * (A' - A) + A * (t' - t))) by ring.
  eapply Rle_trans; [apply Rabs_triang|]. assert (Z := Rabs_triang (t' * (A' - A)) (A * (t' - t))). rewrite !Rabs_mult in Z.
  assert (Z1 : Rabs t' * Rabs (A' - A) <= 1 * Rabs (A' - A)) by (apply Rmult_le_compat_r; [apply Rabs_pos|apply Rabs_le; lra]).
  assert (Z2 : Rabs A * Rabs (t' - t) <= Rabs A * (361 * ulp1 * w)) by (apply Rmult_le_compat_l; [apply Rabs_pos|exact ET]).
  assert (Z3 : Rabs (valueOf (v2x i') - IZR (v2x i) / 10000000) <= ulp1 * 180 + tiny) by (apply Rabs_le; lra). lra.
Qed.

Lemma decimal_side p i j p' i' j' : inRange p -> inRange i -> inRange j -> readAs p p' -> readAs i i' -> readAs j j' ->
  (Z.abs (v2x i - v2x j) <= 500000 /\ Z.abs (v2y i - v2y j) <= 500000)%Z ->
  ~ onSegment (unitSpot p) (unitSpot j) (unitSpot i) ->
  sideAgrees p' (unitSpot p) ((j', unitSpot j), (i', unitSpot i)).
Proof.
  intros RP RI RJ NP NI NJ (SX & SY) OS.
  destruct (read_follows p p' i i' RP RI NP NI) as (X1 & Y1). destruct (read_follows p p' j j' RP RJ NP NJ) as (X2 & Y2).
  destruct (read_follows i i' j j' RI RJ NI NJ) as (_ & Y3).
  split; [exact Y1|]. split; [exact Y2|]. split; [exact X1|]. split; [exact X2|]. intros B.
  assert (B' : between (spotOf p') (spotOf i') (spotOf j')).
  { destruct Y1 as (_ & _ & Y11 & Y12), Y2 as (_ & _ & Y21 & Y22), Y3 as (_ & _ & Y31 & Y32), B as (N & B). unfold between. cbn [spotOf v2x v2y].
    split; [intros E; destruct (Rtotal_order (v2y (unitSpot i)) (v2y (unitSpot j))) as [L|[L|L]]; [apply Y31 in L; lra|lra|apply Y32 in L; lra]|].
    destruct B as [B|B]; [left|right]; split; apply Rnot_lt_le; intros L; (apply Y11 in L || apply Y12 in L || apply Y21 in L || apply Y22 in L); lra. }
  assert (NC : crossAt (unitSpot p) (unitSpot i) (unitSpot j) <> IZR (v2x p)).
  { intros E. apply OS. destruct (cross_segment _ _ _ B) as (t & T1 & T2). rewrite E in T2. exists (1 - t). split; [lra|].
    change (unitSpot p) with (mkV2 (IZR (v2x p)) (v2y (unitSpot p))). rewrite T2. unfold along. f_equal; ring. }
  assert (G := gap p i j B NC). destruct (read_cross p i j p' i' j' RP RI RJ NP NI NJ B B') as (T & LA & RC).
  assert (CR := cross_error p' i' j' (read_chart _ _ RP NP) (read_chart _ _ RI NI) (read_chart _ _ RJ NJ) B' T). cbv zeta in CR.
  assert (EP : finite (v2x p') /\ Rabs (valueOf (v2x p') - IZR (v2x p) / 10000000) <= ulp1 * 180 + tiny).
  { destruct RP as (RP & _), NP as (_ & NP). destruct (near_tight _ 180 _ RP ltac:(lia) NP) as (F & _ & E). auto. }
  destruct EP as (FP & EP).
  assert (S1 : Rabs (IZR (v2x j - v2x i) / 10000000) <= 1 / 20).
  { unfold Rdiv at 1. rewrite Rabs_mult, (Rabs_pos_eq (/ 10000000)) by lra. rewrite <- abs_IZR. assert (Z : (Z.abs (v2x j - v2x i) <= 500000)%Z) by lia. apply IZR_le in Z. lra. }
  assert (S2 : Rabs (IZR (v2y j - v2y i) / 10000000) <= 1 / 20).
  { unfold Rdiv at 1. rewrite Rabs_mult, (Rabs_pos_eq (/ 10000000)) by lra. rewrite <- abs_IZR. assert (Z : (Z.abs (v2y j - v2y i) <= 500000)%Z) by lia. apply IZR_le in Z. lra. }
  assert (DP : 0 < Rabs (IZR (v2y j - v2y i) / 10000000)).
  { apply Rabs_pos_lt. destruct B as (N & _). cbn [unitSpot v2y] in N. rewrite minus_IZR. lra. }
  set (D := Rabs (IZR (v2y j - v2y i) / 10000000)) in *. set (A := Rabs (IZR (v2x j - v2x i) / 10000000)) in *. set (w := / D) in *.
  assert (ED : Rabs (IZR (v2y j - v2y i)) = 10000000 * D).
  { unfold D, Rdiv. rewrite Rabs_mult, (Rabs_pos_eq (/ 10000000)) by lra. lra. }
  assert (W0 : 0 < w) by (apply Rinv_0_lt_compat; lra). assert (WD : D * w = 1) by (apply Rinv_r; lra).
  assert (W20 : 20 <= w) by nra. assert (AW : A * w <= 1 / 20 * w) by (apply Rmult_le_compat_r; lra).
  rewrite ED in G. set (x := crossAt (unitSpot p) (unitSpot i) (unitSpot j)) in *. set (x' := crossAt (spotOf p') (spotOf i') (spotOf j')) in *.
  assert (GW : w / 10000000 <= Rabs (x - IZR (v2x p))).
  { apply Rmult_le_compat_r with (r := w) in G; [|lra]. replace (Rabs (x - IZR (v2x p)) * (10000000 * D) * w) with (10000000 * Rabs (x - IZR (v2x p)) * (D * w)) in G by ring.
    rewrite WD in G. lra. }
  assert (H : forall c, finite c -> Rabs (valueOf c - x') <= ulp1 * (6 * Rabs (valueOf (v2x j') - valueOf (v2x i')) + 182) ->
    follows (v2x p') c (v2x (unitSpot p)) x).
  { intros c Fc Cc. split; [exact FP|]. split; [exact Fc|]. cbn [unitSpot v2x].
    assert (EC : Rabs (valueOf c - x / 10000000) <= 725 * ulp1 + 361 * ulp1 * (1 / 20 * w)).
    { replace (valueOf c - x / 10000000) with ((valueOf c - x') + (x' - x / 10000000)) by ring. eapply Rle_trans; [apply Rabs_triang|]. lra. }
    apply abs_bounds in EC, EP. unfold Rabs in GW. destruct (Rcase_abs _) in GW; split; split; lra. }
  destruct CR as ((F1 & C1) & (F2 & C2)). split; apply H; assumption.
Qed.

Theorem digits_exact f h p p' ring ring' : In (f, h) (combine doubleTests exactTests) -> inRange p -> List.Forall inRange ring ->
  readAs p p' -> Forall2 readAs ring ring' -> sidesWithin 500000 ring -> ~ onRing (unitSpot p) (map unitSpot ring) ->
  f p' ring' = h (unitSpot p) (map unitSpot ring).
Proof.
  intros T RP R NP NR S O. rewrite List.Forall_forall in R.
  assert (G : exists g, map fst g = ring /\ map snd g = ring' /\ List.Forall (fun '(k, v) => readAs k v) g).
  { clear - NR. induction NR as [|k v l m H NR (g & E1 & E2 & F)]; [exists []; repeat split; constructor|]. exists ((k, v) :: g). cbn [map fst snd]. rewrite E1, E2. repeat split. constructor; auto. }
  destruct G as (g & E1 & E2 & F). rewrite List.Forall_forall in F.
  assert (G1 : map fst (map (fun '(k, v) => (v, unitSpot k)) g) = ring') by (rewrite <- E2, map_map; apply map_ext; intros (k, v); reflexivity).
  assert (G2 : map snd (map (fun '(k, v) => (v, unitSpot k)) g) = map unitSpot ring) by (rewrite <- E1, !map_map; apply map_ext; intros (k, v); reflexivity).
  rewrite <- G1, <- G2. apply rings; [|exact T]. intros e H. rewrite edges_map in H. apply in_map_iff in H as (((j, j'), (i, i')) & <- & H).
  assert (HR : In (j, i) (edges ring)) by (rewrite <- E1, edges_map; apply in_map_iff; exists ((j, j'), (i, i')); auto).
  destruct (edges_in _ _ _ H) as (Hj & Hi). apply F in Hj, Hi. destruct (edges_in _ _ _ HR) as (Rj & Ri).
  apply decimal_side; auto.
  intros OS. apply O. exists (unitSpot j), (unitSpot i). split; [|exact OS]. rewrite edges_map. apply in_map_iff. exists (j, i). auto.
Qed.
