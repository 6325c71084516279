(** C80: directions of rings in the arithmetic of double. *)
From Coq Require Import Reals ZArith Lra Lia.
From Flocq Require Import Core.Core IEEE754.Binary IEEE754.Bits.
From Flocq Require IEEE754.BinarySingleNaN.
From Verif Require Import Base Bytes TagModel TagSpec GeoModel RingModel RingSpec RingProofs OsmModel OsmProps ProjectionModel
  RingFloatModel RingFloatSpec RingFloatProofs.
Local Open Scope R_scope.

(** The computed area is finite and near to the area of the ring. *)
Theorem C80_area : forall l, List.Forall onMap l -> (Z.of_nat (length l) <= 2 ^ 30)%Z ->
  is_finite 53 1024 (getArea doubleNums l) = true /\
  Rabs (valueOf (getArea doubleNums l) - areaOf (map placeOf l)) <= tolerance (map placeOf l).
Proof. exact area_error. Qed.
(** So the direction is right for all rings with more area than the tolerance. *)
Theorem C80_direction : forall l, List.Forall onMap l -> (Z.of_nat (length l) <= 2 ^ 30)%Z ->
  tolerance (map placeOf l) < Rabs (areaOf (map placeOf l)) ->
  isClockwise doubleNums l = true <-> areaOf (map placeOf l) < 0.
Proof. exact direction. Qed.
(** The tolerance of a ring with short sides. *)
Theorem C80_tolerance : forall l d, List.Forall onMap l -> shortSides d (map placeOf l) ->
  tolerance (map placeOf l) <= IZR (Z.of_nat (length l)) * (3 / 2 ^ 40 + IZR (Z.of_nat (length l)) * (270 * d) / 2 ^ 51).
Proof.
  intros l d M S. assert (B := swing_bound d l M S). unfold tolerance. rewrite map_length.
  assert (N : 0 <= IZR (Z.of_nat (length l))) by (apply IZR_le; lia).
  apply Rmult_le_compat_l; [exact N|]. lra.
Qed.
(** Rings of up to a thousand points whose sides are no longer than a hundredth of a degree, which is about a kilometre: their
    area must be above 2E-12 square degrees for each point, at the equator 250 square centimetres. *)
Theorem C80_buildings : forall l, List.Forall onMap l -> (length l <= Z.to_nat 1000)%nat -> shortSides (1 / 100) (map placeOf l) ->
  IZR (Z.of_nat (length l)) * 4 / 1000000000000 < Rabs (areaOf (map placeOf l)) ->
  isClockwise doubleNums l = true <-> areaOf (map placeOf l) < 0.
Proof.
  intros l M N S A. assert (NZ : (Z.of_nat (length l) <= 1000)%Z) by lia. apply direction; [exact M|lia|].
  eapply Rle_lt_trans; [apply (C80_tolerance l (1 / 100) M S)|]. eapply Rle_lt_trans; [|exact A].
  assert (N0 : 0 <= IZR (Z.of_nat (length l))) by (apply IZR_le; lia). apply IZR_le in NZ.
  replace (IZR (Z.of_nat (length l)) * 4 / 1000000000000) with (IZR (Z.of_nat (length l)) * (4 / 1000000000000)) by lra. apply Rmult_le_compat_l; [exact N0|]. lra.
Qed.

(** Imported closed ways become areas which go round counter-clockwise. *)
Theorem C80_way : forall same intern sort id ids tags (st : octx binary64) f m e,
  Forall2 (fun i c => exists nd, alookup N.eqb i (nodes st) = Some nd /\ ncoord nd = c) ids (f :: m ++ [e]) ->
  (2 <= length m)%nat -> same f e = true ->
  List.Forall onMap (f :: m) -> (Z.of_nat (length (f :: m)) <= 2 ^ 30)%Z ->
  tolerance (map placeOf (f :: m)) < Rabs (areaOf (map placeOf (f :: m))) ->
  exists st' ring, visitWay doubleNums same intern sort id ids tags st = Ok st' /\
    alookup N.eqb id (areas st') = Some (mkLine ring (setTags intern sort [] tags)) /\
    (ring = f :: m \/ ring = rev (f :: m)) /\ 0 < areaOf (map placeOf ring).
Proof.
  intros same intern sort id ids tags st f m e H L S M N T.
  destruct (C33_points doubleNums same intern sort id ids tags st f m e H L S) as (st' & ring & V & K & R).
  exists st', ring. split; [exact V|]. split; [exact K|]. split; [subst ring; destruct (isClockwise _ _); auto|].
  assert (D := direction (f :: m) M N T). assert (P : 0 <= tolerance (map placeOf (f :: m))).
  { eapply Rle_trans; [apply Rabs_pos|]. apply (area_error (f :: m) M N). }
  subst ring. destruct (isClockwise doubleNums (f :: m)) eqn:C.
  - apply (proj1 D) in C || (assert (C' := proj1 D eq_refl)); rewrite map_rev, area_of_rev; lra.
  - assert (C' : ~ areaOf (map placeOf (f :: m)) < 0) by (intros X; apply (proj2 D) in X; congruence).
    unfold Rabs in T. destruct (Rcase_abs _); lra.
Qed.
(** Outer rings of multipolygons go round counter-clockwise, inner rings clockwise. *)
Theorem C80_multipolygon : forall (same : point binary64 -> point binary64 -> bool) f m outer, same f f = true ->
  List.Forall onMap (f :: m) -> (Z.of_nat (length (f :: m ++ [f])) <= 2 ^ 30)%Z ->
  tolerance (map placeOf (f :: m ++ [f])) < Rabs (areaOf (map placeOf (f :: m))) ->
  exists l, insertCoordinates same (isClockwise doubleNums) (f :: m ++ [f]) outer = Ok l /\
    (l = f :: m \/ l = rev (f :: m)) /\
    (if outer then 0 < areaOf (map placeOf l) else areaOf (map placeOf l) < 0).
Proof.
  intros same f m outer S M N T. rewrite insert_closed by exact S. eexists. split; [reflexivity|].
  split; [destruct (Bool.eqb _ _); auto|].
  assert (M' : List.Forall onMap (f :: m ++ [f])).
  { inversion M; subst. constructor; auto. apply Forall_app. split; auto. }
  assert (E : areaOf (map placeOf (f :: m ++ [f])) = areaOf (map placeOf (f :: m))).
  { cbn [map]. rewrite map_app. apply area_of_closed. }
  rewrite <- E in T. assert (D := direction _ M' N T). assert (P : 0 <= tolerance (map placeOf (f :: m ++ [f]))).
  { eapply Rle_trans; [apply Rabs_pos|]. apply (area_error _ M' N). }
  rewrite E in *. destruct (isClockwise doubleNums (f :: m ++ [f])).
  - assert (C := proj1 D eq_refl). destruct outer; cbn [negb Bool.eqb]; [rewrite map_rev, area_of_rev|]; lra.
  - assert (C : ~ areaOf (map placeOf (f :: m)) < 0) by (intros X; apply (proj2 D) in X; discriminate).
    assert (G : 0 < areaOf (map placeOf (f :: m))) by (unfold Rabs in T; destruct (Rcase_abs _); lra).
    destruct outer; cbn [negb Bool.eqb]; [|rewrite map_rev, area_of_rev]; lra.
Qed.

(** Coordinates of seven digits are the same exactly if their numbers are: the epsilon does not join different places, and the
    comparison is an equivalence as the assembly of rings needs it. *)
Theorem C80_same : forall lat lon lat' lon' p q,
  (Z.abs lat <= 900000000)%Z -> (Z.abs lon <= 1800000000)%Z -> (Z.abs lat' <= 900000000)%Z -> (Z.abs lon' <= 1800000000)%Z ->
  nearestPlace lat lon p -> nearestPlace lat' lon' q ->
  sameCoord doubleNums doubleEpsilon p q = true <-> lat = lat' /\ lon = lon'.
Proof.
  intros lat lon lat' lon' p q A B A' B' (P1 & P2) (Q1 & Q2). unfold sameCoord. rewrite andb_true_iff.
  rewrite (near_coordinate lat lat' _ _), (near_coordinate lon lon' _ _) by (assumption || lia). reflexivity.
Qed.

(** * Doubles of decimal numbers *)
Definition ofInt (k : Z) : binary64 := binary_normalize 53 1024 eq_refl eq_refl BinarySingleNaN.mode_NE k 0 false.
Definition decimal (k : Z) : binary64 := b64_div BinarySingleNaN.mode_NE (ofInt k) (ofInt 10000000).
Lemma ofInt_value k : (Z.abs k <= 1800000000)%Z -> valueOf (ofInt k) = IZR k /\ is_finite 53 1024 (ofInt k) = true.
Proof.
  intros K. assert (C := binary_normalize_correct 53 1024 eq_refl eq_refl BinarySingleNaN.mode_NE k 0 false).
  assert (E : F2R (Float radix2 k 0) = IZR k) by (unfold F2R; cbn; lra).
  assert (K1 : (-1800000000 <= k)%Z) by lia. assert (K2 : (k <= 1800000000)%Z) by lia. apply IZR_le in K1, K2.
  rewrite E in C. change (round radix2 _ _ (IZR k)) with (rnd64 (IZR k)) in C. rewrite no_overflow in C by (apply Rabs_le; lra).
  destruct C as (V & F & _). split; [|exact F]. unfold valueOf, ofInt. rewrite V. apply round_generic; [apply valid_rnd_N|].
  rewrite <- E. apply generic_format_F2R. intros N. unfold cexp, FLT_exp. rewrite mag_F2R_Zdigits by exact N.
  assert (D : (Zdigits radix2 k <= 31)%Z) by (apply Zdigits_le_Zpower; cbn; lia). lia.
Qed.
Lemma decimal_nearest k : (Z.abs k <= 1800000000)%Z -> nearestTo k (decimal k).
Proof.
  intros K. destruct (ofInt_value k K) as (V & F). destruct (ofInt_value 10000000 ltac:(lia)) as (V1 & F1).
  assert (C := Bdiv_correct 53 1024 eq_refl eq_refl binop_nan_pl64 BinarySingleNaN.mode_NE (ofInt k) (ofInt 10000000)).
  fold (valueOf (ofInt k)) (valueOf (ofInt 10000000)) in C. rewrite V, V1 in C. specialize (C ltac:(lra)).
  change (round radix2 _ _ (IZR k / 10000000)) with (rnd64 (IZR k / 10000000)) in C.
  assert (K1 : (-1800000000 <= k)%Z) by lia. assert (K2 : (k <= 1800000000)%Z) by lia. apply IZR_le in K1, K2.
  rewrite no_overflow in C by (apply Rabs_le; lra). destruct C as (VV & FF & _). split; [rewrite <- F; exact FF|exact VV].
Qed.
Definition decimalPlace (lat lon : Z) : point binary64 := mkPoint (decimal lat) (decimal lon).
Lemma decimal_place lat lon : (Z.abs lat <= 900000000)%Z -> (Z.abs lon <= 1800000000)%Z -> nearestPlace lat lon (decimalPlace lat lon).
Proof. intros A B. split; apply decimal_nearest; cbn [decimalPlace plat plon]; lia. Qed.
Lemma decimal_map lat lon : (Z.abs lat < 900000000)%Z -> (Z.abs lon < 1800000000)%Z -> onMap (decimalPlace lat lon).
Proof.
  intros A B. assert (F : forall k, (Z.abs k <= 1800000000)%Z -> is_finite 53 1024 (decimal k) = true) by (intros k K; apply (decimal_nearest k K)).
  assert (G : forall k b, (Z.abs k < b <= 1800000000)%Z -> Rabs (valueOf (decimal k)) <= IZR b / 10000000).
  { intros k b K. destruct (near_value k (decimal k) ltac:(lia) (decimal_nearest k ltac:(lia))) as (_ & E). apply abs_bounds in E.
    assert (K1 : (1 - b <= k)%Z) by lia. assert (K2 : (k + 1 <= b)%Z) by lia. apply IZR_le in K1, K2. rewrite minus_IZR in K1. rewrite plus_IZR in K2. apply Rabs_le. lra. }
  split; [apply F; lia|]. split; [apply F; lia|]. cbn [decimalPlace plat plon]. split.
  - replace 90 with (900000000 / 10000000) by lra. apply G. lia.
  - replace 180 with (1800000000 / 10000000) by lra. apply G. lia.
Qed.
(** The square with sides of [s] ten-millionths of a degree, counter-clockwise from its south-western corner. *)
Definition squareAt (lat lon s : Z) : list (point binary64) :=
  [decimalPlace lat lon; decimalPlace lat (lon + s); decimalPlace (lat + s) (lon + s); decimalPlace (lat + s) lon].
Lemma explicit k s m e : B2FF 53 1024 (decimal k) = F754_finite s m (Zneg e) ->
  valueOf (decimal k) = IZR (cond_Zopp s (Zpos m)) / IZR (Zpower_pos 2 e).
Proof. intros E. unfold valueOf. rewrite <- FF2R_B2FF, E. reflexivity. Qed.
Ltac explicit k :=
  let v := eval vm_compute in (B2FF 53 1024 (decimal k)) in
  match v with F754_finite ?s ?m (Zneg ?e) =>
    let a := eval vm_compute in (cond_Zopp s (Zpos m)) in let b := eval vm_compute in (Zpower_pos 2 e) in
    let H := fresh "V" in assert (H : valueOf (decimal k) = IZR a / IZR b) by exact (explicit k s m e ltac:(vm_compute; reflexivity)) end.

(** The house of ten metres in Berlin. *)
Example C80_buildings_case :
  let l := squareAt 525000000 134000000 1000 in
  List.Forall onMap l /\ (length l <= Z.to_nat 1000)%nat /\ shortSides (1 / 100) (map placeOf l) /\
  IZR (Z.of_nat (length l)) * 4 / 1000000000000 < Rabs (areaOf (map placeOf l)) /\ isClockwise doubleNums l = false /\ isClockwise doubleNums (rev l) = true.
Proof.
  cbv zeta. split; [repeat (apply Forall_cons; [apply decimal_map; lia|]); apply Forall_nil|]. split; [cbn [length squareAt]; lia|].
  unfold squareAt. change (525000000 + 1000)%Z with 525001000%Z. change (134000000 + 1000)%Z with 134001000%Z.
  explicit 525000000%Z. explicit 525001000%Z. explicit 134000000%Z. explicit 134001000%Z.
  split; [|split].
  - unfold shortSides. cbn [map ringOf sidesFrom last]. unfold placeOf, decimalPlace. cbn [plat plon]. rewrite V, V0, V1, V2.
    repeat (apply Forall_cons; [cbn [plat plon]; split; apply Rabs_le; lra|]). apply Forall_nil.
  - cbn [map areaOf fanOf length]. unfold corner, placeOf, decimalPlace. cbn [plat plon]. rewrite V, V0, V1, V2. cbn [Z.of_nat Pos.of_succ_nat Pos.succ]. rewrite Rabs_right; lra.
  - vm_compute. auto.
Qed.

(** A square of seven by nine centimetres in Wellington, whose corners have seven digits: it goes round counter-clockwise and is
    taken for clockwise, so the import turns it the wrong way. *)
Theorem C80_small_refuted : forall intern sort id tags (st : octx binary64) i1 i2 i3 i4 e,
  let l := squareAt (-412059395) 1748211760 8 in
  Forall2 (fun i c => exists nd, alookup N.eqb i (nodes st) = Some nd /\ ncoord nd = c) [i1; i2; i3; i4; i1] (l ++ [e]) ->
  e = hd e l ->
  List.Forall onMap l /\ 0 < areaOf (map placeOf l) /\ isClockwise doubleNums l = true /\
  exists st', visitWay doubleNums (sameCoord doubleNums doubleEpsilon) intern sort id [i1; i2; i3; i4; i1] tags st = Ok st' /\
    alookup N.eqb id (areas st') = Some (mkLine (rev l) (setTags intern sort [] tags)) /\ areaOf (map placeOf (rev l)) < 0.
Proof.
  intros intern sort id tags st i1 i2 i3 i4 e l H E.
  assert (A : 0 < areaOf (map placeOf l)).
  { unfold l, squareAt. change (-412059395 + 8)%Z with (-412059387)%Z. change (1748211760 + 8)%Z with 1748211768%Z.
    explicit (-412059395)%Z. explicit (-412059387)%Z. explicit 1748211760%Z. explicit 1748211768%Z.
    cbn [map areaOf fanOf]. unfold corner, placeOf, decimalPlace. cbn [plat plon]. rewrite V, V0, V1, V2. lra. }
  assert (C : isClockwise doubleNums l = true) by (vm_compute; reflexivity).
  split; [unfold l, squareAt; repeat (apply Forall_cons; [apply decimal_map; lia|]); apply Forall_nil|]. split; [exact A|]. split; [exact C|].
  unfold l, squareAt in H, E. cbn [hd] in E.
  destruct (C33_points doubleNums (sameCoord doubleNums doubleEpsilon) intern sort id [i1; i2; i3; i4; i1] tags st
    (decimalPlace (-412059395) 1748211760) [decimalPlace (-412059395) (1748211760 + 8); decimalPlace (-412059395 + 8) (1748211760 + 8);
     decimalPlace (-412059395 + 8) 1748211760] e H) as (st' & ring & V & K & R).
  - cbn [length]. lia.
  - subst e. apply (C80_same (-412059395) 1748211760 (-412059395) 1748211760); try lia; try (apply decimal_place; lia).
  - exists st'. split; [exact V|]. fold (squareAt (-412059395) 1748211760 8) in R. fold l in R. rewrite C in R. subst ring. split; [exact K|].
    rewrite map_rev, area_of_rev. lra.
Qed.
(** Its nodes in a context, the first one again at the end. *)
Example C80_small_case :
  Forall2 (fun i c => exists nd, alookup N.eqb i (nodes (mkCtx [(1%N, mkNode (decimalPlace (-412059395) 1748211760) []);
      (2%N, mkNode (decimalPlace (-412059395) (1748211760 + 8)) []); (3%N, mkNode (decimalPlace (-412059395 + 8) (1748211760 + 8)) []);
      (4%N, mkNode (decimalPlace (-412059395 + 8) 1748211760) [])] [] [] [] [])) = Some nd /\ ncoord nd = c)
    [1; 2; 3; 4; 1]%N (squareAt (-412059395) 1748211760 8 ++ [decimalPlace (-412059395) 1748211760]).
Proof. cbn [squareAt app]. repeat (apply Forall2_cons; [eexists; split; reflexivity|]). apply Forall2_nil. Qed.
(** The ten metres of Berlin as a way and as a ring of a multipolygon. *)
Example C80_way_case : let l := squareAt 525000000 134000000 1000 in
  List.Forall onMap l /\ (Z.of_nat (length l) <= 2 ^ 30)%Z /\ tolerance (map placeOf l) < Rabs (areaOf (map placeOf l)) /\
  tolerance (map placeOf (l ++ [decimalPlace 525000000 134000000])) < Rabs (areaOf (map placeOf l)).
Proof.
  cbv zeta. split; [apply C80_buildings_case|]. split; [cbn; lia|].
  unfold squareAt. change (525000000 + 1000)%Z with 525001000%Z. change (134000000 + 1000)%Z with 134001000%Z.
  explicit 525000000%Z. explicit 525001000%Z. explicit 134000000%Z. explicit 134001000%Z.
  assert (A : 1 / 1000000000 < Rabs (areaOf (map placeOf (squareAt 525000000 134000000 1000)))).
  { unfold squareAt. change (525000000 + 1000)%Z with 525001000%Z. change (134000000 + 1000)%Z with 134001000%Z.
    cbn [map areaOf fanOf]. unfold corner, placeOf, decimalPlace. cbn [plat plon]. rewrite V, V0, V1, V2. rewrite Rabs_right; lra. }
  unfold squareAt in A. change (525000000 + 1000)%Z with 525001000%Z in A. change (134000000 + 1000)%Z with 134001000%Z in A.
  split; (eapply Rle_lt_trans; [apply (C80_tolerance _ (1 / 100))|eapply Rlt_trans; [|exact A]]).
  - repeat (apply Forall_cons; [apply decimal_map; lia|]); apply Forall_nil.
  - unfold shortSides. cbn [map ringOf sidesFrom last]. unfold placeOf, decimalPlace. cbn [plat plon]. rewrite V, V0, V1, V2.
    repeat (apply Forall_cons; [cbn [plat plon]; split; apply Rabs_le; lra|]). apply Forall_nil.
  - cbn [length Z.of_nat Pos.of_succ_nat Pos.succ]. lra.
  - cbn [app]. repeat (apply Forall_cons; [apply decimal_map; lia|]); apply Forall_nil.
  - unfold shortSides. cbn [app map ringOf sidesFrom last]. unfold placeOf, decimalPlace. cbn [plat plon]. rewrite V, V0, V1, V2.
    repeat (apply Forall_cons; [cbn [plat plon]; split; apply Rabs_le; lra|]). apply Forall_nil.
  - cbn [app length Z.of_nat Pos.of_succ_nat Pos.succ]. lra.
Qed.
(** Neighbouring places of seven digits are different. *)
Example C80_same_case :
  sameCoord doubleNums doubleEpsilon (decimalPlace 1 0) (decimalPlace 2 0) = false /\ sameCoord doubleNums doubleEpsilon (decimalPlace 1 0) (decimalPlace 1 0) = true /\
  nearestPlace 1 0 (decimalPlace 1 0).
Proof. split; [vm_compute; reflexivity|]. split; [vm_compute; reflexivity|]. apply decimal_place; lia. Qed.

Print Assumptions C80_area.
Print Assumptions C80_direction.
Print Assumptions C80_tolerance.
Print Assumptions C80_buildings.
Print Assumptions C80_way.
Print Assumptions C80_multipolygon.
Print Assumptions C80_same.
Print Assumptions C80_small_refuted.
