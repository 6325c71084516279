(** Theorems about mansard, round and skillion roofs (exact real arithmetic). *)
From Coq Require Import Reals Lra Lia Permutation.
From Verif Require Import Base GeoModel RingModel MeshBuildModel MeshBuildSpec MeshBuildProofs QuatModel GenModel GenSpec GenProofs RowSpec
  RowProofs HouseModel HouseSpec HouseProofs HouseProps RoofModel RoofSpec RoofProofs.
Local Open Scope R_scope.

Section Roofs.
  Context {E : Type} (env : builderEnv R) (ele scaled : R -> R -> R) (inside : list (vec2 R) -> option (vec2 R)).
  Context (shrink : list (vec2 R) -> R -> list (list (vec2 R))) (counter : list (vec2 R) -> bool) (styleOf : E -> houseStyle R).
  Local Notation w := (realHouse ele scaled inside).
  Local Notation f := (realRoof shrink counter).
  Local Notation drawn := (drawnBy env).
  Local Notation verts := (vertsOf env).
  Local Notation draws := (partDraws env w styleOf).
  Local Notation pathOf := (fun p : part E => concat (map fst (ringsOf env w p))).
  Local Notation mansard := (mansardRoof realNums realTrig env w f).
  Local Notation round := (roundRoof realNums realTrig realGens env w f).
  Local Notation skillion := (skillionRoof realNums realTrig realGens env w f).

  (** * Mansard *)
  (** The outline is moved inwards by a tenth of its shortest side.  If one contour with as many points comes out of that, it
      is drawn as a flat roof at the top, and every side of it is joined to a side of the outline, the first one to the side
      which begins at the nearest point of the first half of the outline; otherwise the roof is flat. *)
  Theorem C69_mansard : (forall x y, ePerlin env x y 0 = 0) -> 0 < eEps env -> forall look (p : part E) h low, let path := pathOf p in
    let io := eTriangulate env (planOf env w p) in
    path <> [] -> (Z.of_nat (length path) < 2 ^ 31)%Z -> eLowest env < low -> eLowest env < h -> goodTri io ->
    exists d, shortestSide path d /\
    ((exists q shape j, shrink path (d / 10) = [q :: shape] /\ length (q :: shape) = length path /\ nearestInHalf q path j /\
        let upper := if counter (q :: shape) then q :: shape else rev (q :: shape) in
        let top := eTriangulate env (planOf env w (shapePart upper)) in
        (openContour (sameVec realNums env) upper = upper -> goodTri top ->
         exists ops, mansard look (planOf env w p) h low = Ok ops /\ Forall (goodOp realNums env) ops /\
           drawn ops = fromAbove top (low + h) ++ slopes low (low + h) (beginAt j path) upper /\
           verts ops = (length (tpoints top) + 6 * length path)%nat)) \/
     ((forall shape, shrink path (d / 10) = [shape] -> length shape <> length path) /\
      exists ops, mansard look (planOf env w p) h low = Ok ops /\ Forall (goodOp realNums env) ops /\
        drawn ops = fromAbove io low /\ verts ops = length (tpoints io))).
  Proof.
    intros Quiet Eps look p h low path io Ne Lm Ll Lh G.
    exact (mansard_ok env ele scaled inside shrink counter Quiet Eps look p h low path eq_refl Ne Lm Ll Lh G).
  Qed.

  (** A part of one outline with flat walls is closed by a mansard roof, whatever comes out of moving the outline, if Triangle
      fills the plan and the shape at the top. *)
  Theorem C69_mansard_closed : (forall x y, ePerlin env x y 0 = 0) -> 0 < eEps env -> forall id (p : part E) ts k ring, draws id p ts k ->
    hFacade (styleOf (pOwner p)) = Some FacadeFlat -> hRoof (styleOf (pOwner p)) = Some (RoofOther mansard) ->
    ringsOf env w p = [(ring, false)] -> (Z.of_nat (length ring) < 2 ^ 31)%Z ->
    eLowest env < hRoofHeight (styleOf (pOwner p)) -> (forall low top, standsAt env w styleOf p low top -> eLowest env < top) ->
    let io := eTriangulate env (planOf env w p) in goodTri io -> fills io (planOf env w p) ->
    (forall d shape, shrink ring d = [shape] -> length shape = length ring ->
       let upper := if counter shape then shape else rev shape in
       let plan := planOf env w (shapePart upper) in
       openContour (sameVec realNums env) upper = upper /\ goodTri (eTriangulate env plan) /\ fills (eTriangulate env plan) plan) ->
    exists low top, standsAt env w styleOf p low top /\ watertight (ts ++ openFloor env w styleOf p low).
  Proof.
    intros Quiet Eps id p ts k ring D Fa Ro Rg Lm Lh Lt io G Fi Sh.
    apply (closed_with env w styleOf (fun _ => []) id p ts k D Fa Fi). intros low top roof kr Co St Rf. rewrite app_nil_r.
    unfold roofDraws in Rf. rewrite Ro in Rf. destruct Rf as (ops & Eo & _ & -> & _).
    assert (Pa : ring = concat (map fst (ringsOf env w p))) by (rewrite Rg; cbn; now rewrite app_nil_r).
    assert (Ne : ring <> []).
    { intros Q. unfold standsAt in St. rewrite <- Pa, Q in St. exact St. }
    assert (Al : allRings env w p = [ring]) by (unfold allRings, ringsOnly; rewrite Rg; reflexivity). rewrite Al. cbn [flat_map]. rewrite app_nil_r.
    destruct (mansard_ok env ele scaled inside shrink counter Quiet Eps (noNoise realNums (hRoofLook (styleOf (pOwner p)) id)) p _ top ring Pa Ne Lm (Lt low top St) Lh G)
      as (d & _ & [(q & shape & j & Sk & Ln & _ & H)|(_ & ops' & E' & _ & D' & _)]).
    - destruct (Sh _ _ Sk Ln) as (Op & Gt & Ft). cbn zeta in H. destruct (H Op Gt) as (ops' & E' & _ & D' & _). rewrite E' in Eo. injection Eo as <-. rewrite D'.
      apply (mansard_border env ele scaled inside); try assumption. destruct (counter (q :: shape)); [exact Ln|rewrite rev_length; exact Ln].
    - rewrite E' in Eo. injection Eo as <-. rewrite D'. pose proof (above_border env w p io top Fi) as B. rewrite Al in B. cbn [flat_map] in B. now rewrite app_nil_r in B.
  Qed.

  (** The point the sides are joined from is not always the nearest one of the outline: one of the second half is not
      considered.  Then a slope is seen from below. *)
  Theorem C69_nearest_refuted : forall low h, exists path q shape, length (q :: shape) = length path /\
    forall j, nearestInHalf q path j ->
      (exists i, (i < length path)%nat /\ length2 q (nth i path q) < length2 q (nth j path q)) /\
      exists t, In t (slopes low (low + h) (beginAt j path) (q :: shape)) /\ facesUp (let '(a, b, c) := t in (b, a, c)).
  Proof.
    intros low h. exists [mkV2 0 0; mkV2 10 0; mkV2 10 10; mkV2 0 10], (mkV2 9 9), [mkV2 1 9; mkV2 1 1; mkV2 9 1]. split; [reflexivity|].
    intros j (J & N). cbn [length] in J. assert (j = 0 \/ j = 1)%nat as [-> | ->] by lia.
    - exfalso. specialize (N 1%nat). cbn [length nth] in N. specialize (N ltac:(lia)). revert N. apply Rlt_not_le. unfold length2. cbn [v2x v2y]. apply sqrt_lt_1; lra.
    - split.
      + exists 2%nat. cbn [length nth]. split; [lia|]. unfold length2. cbn [v2x v2y]. apply sqrt_lt_1; lra.
      + exists (at_ (low + h) (mkV2 1 9), at_ low (mkV2 10 0), at_ (low + h) (mkV2 9 9)). split; [left; reflexivity|]. unfold facesUp, at_. cbn [v3x v3z v2x v2y]. lra.
  Qed.

  (** * Round *)
  (** Every outline becomes a barrel over four of its points, from the longest side on (or, across, from the next one on), if
      the ends of the barrel are parallel. *)
  Theorem C69_round : forall across look (p : part E) h low, ringsOnly env w true p = [] ->
    Forall (fun ring => ring <> [] /\ forall j, longestSide ring j -> wideEnds (fourFrom across ring j) /\ parallelEnds (fourFrom across ring j)) (ringsOnly env w false p) ->
    exists ops tss, round across look (planOf env w p) h low = Ok ops /\
      Forall (goodOp realNums env) ops /\ drawn ops = concat tss /\ verts ops = (84 * length (ringsOnly env w false p))%nat /\
      Forall2 (fun ring ts => exists j, longestSide ring j /\ ts = barrelOn low h (fourFrom across ring j)) (ringsOnly env w false p) tss.
  Proof. intros across look p h low. apply round_ok. Qed.
  (** A part with a hole has a flat roof instead. *)
  Theorem C69_round_hole : forall across look (p : part E) h low, ringsOnly env w true p <> [] ->
    round across look (planOf env w p) h low = Ok (flatRoof realNums look (planOf env w p) low false).
  Proof.
    intros across look p h low H. unfold roundRoof. destruct (pinners (planOf env w p)) as [|r l] eqn:Q; [|reflexivity]. exfalso. apply H.
    pose proof (over_plan env w (fun _ : nat * nat => Ok tt) (fun _ => tt) p true (fun _ _ _ _ => eq_refl)) as O. rewrite Q in O. cbn [overAll] in O. injection O as O.
    destruct (ringsOnly env w true p); [reflexivity|discriminate O].
  Qed.

  (** A part of four points with flat walls and parallel ends is closed by a round roof but for two triangles without area, one
      at each end. *)
  Theorem C69_round_closed : forall across id (p : part E) ts k ring, draws id p ts k ->
    hFacade (styleOf (pOwner p)) = Some FacadeFlat -> hRoof (styleOf (pOwner p)) = Some (RoofOther (round across)) ->
    ringsOf env w p = [(ring, false)] -> length ring = 4%nat ->
    (forall j, longestSide ring j -> wideEnds (fourFrom across ring j) /\ parallelEnds (fourFrom across ring j)) ->
    fills (eTriangulate env (planOf env w p)) (planOf env w p) ->
    exists j low top, longestSide ring j /\ standsAt env w styleOf p low top /\
      watertight (ts ++ sliversOn top (fourFrom across ring j) ++ openFloor env w styleOf p low).
  Proof.
    intros across id p ts k ring D Fa Ro Rg Ln Ends Fi.
    assert (Ne : ring <> []) by (destruct ring; [discriminate Ln|discriminate]).
    assert (R0 : ringsOnly env w true p = []) by (unfold ringsOnly; rewrite Rg; reflexivity).
    assert (R1 : ringsOnly env w false p = [ring]) by (unfold ringsOnly; rewrite Rg; reflexivity).
    assert (Al : allRings env w p = [ring]) by (unfold allRings; rewrite R0, R1; reflexivity).
    assert (H : forall look h low, exists ops j, round across look (planOf env w p) h low = Ok ops /\ longestSide ring j /\ drawn ops = barrelOn low h (fourFrom across ring j)).
    { intros look h low. destruct (C69_round across look p h low R0) as (ops & tss & Eo & _ & Do & _ & F).
      - rewrite R1. apply Forall_cons; [now split|constructor].
      - rewrite R1 in F. inversion F as [|? ts0 ? tss' (j & L & ->) F']; subst. inversion F'; subst. exists ops, j. split; [exact Eo|]. split; [exact L|].
        rewrite Do. cbn [concat]. apply app_nil_r. }
    destruct (H (noNoise realNums (hRoofLook (styleOf (pOwner p)) id)) 0 0) as (_ & j & _ & Lj & _). exists j.
    destruct (closed_with env w styleOf (fun top => sliversOn top (fourFrom across ring j)) id p ts k D Fa Fi) as (low & top & St & W).
    { intros low top roof kr Co St Rf. unfold roofDraws in Rf. rewrite Ro in Rf. destruct Rf as (ops & Eo & _ & -> & _).
      destruct (H (noNoise realNums (hRoofLook (styleOf (pOwner p)) id)) (hRoofHeight (styleOf (pOwner p))) top) as (ops' & j' & E' & L' & D').
      rewrite E' in Eo. injection Eo as <-. rewrite D', (longest_unique ring j' j L' Lj). rewrite Al. cbn [flat_map]. rewrite app_nil_r.
      apply (four_border ele scaled shrink); [exact Ln|]. rewrite <- Ln. now apply longest_lt. }
    exists low, top. auto.
  Qed.

  (** The corners of a triangle. *)
  Definition touches (v : vec3 R) (t : tri3) : Prop := let '(a, b, c) := t in v = a \/ v = b \/ v = c.
  Lemma barrel_touch v mf mk F K t : In t (barrelOf mf mk F K) -> touches v t ->
    v = mf \/ v = mk \/ exists j, (j <= 7)%nat /\ (v = F j \/ v = K j).
  Proof.
    intros I T. unfold barrelOf in I. apply in_flat_map in I. destruct I as (j & J & I). apply in_seq in J. cbn [In] in I.
    destruct I as [<-|[<-|[<-|[<-|[]]]]]; cbn [touches] in T; destruct T as [-> |[-> | ->]]; auto; right; right;
      first [exists j; split; [lia|now auto]|exists (S j); split; [lia|now auto]].
  Qed.
  Lemma arc_low low h a d j v : h <> 0 -> (j <= 7)%nat -> at_ low v = arcPoint low h a d j -> v = a \/ v = d.
  Proof.
    intros H J Q. assert (j = 0 \/ j = 7 \/ 0 < j < 7)%nat as [-> |[-> |L]] by lia.
    - rewrite arc_first in Q. unfold at_ in Q. injection Q as X Y. left. destruct v, a; cbn in *; now subst.
    - rewrite arc_last in Q. unfold at_ in Q. injection Q as X Y. right. destruct v, d; cbn in *; now subst.
    - exfalso. unfold at_, arcPoint in Q. injection Q as _ Y _. assert (Sn : 0 < sin (INR j * PI / 7)).
      { assert (1 <= INR j <= 6) by (destruct L as (L1 & L2); apply le_INR in L1; assert (L3 : (j <= 6)%nat) by lia; apply le_INR in L3; cbn in L1, L3; lra).
        pose proof PI_RGT_0. apply sin_gt_0; nra. }
      assert (Z : h * sin (INR j * PI / 7) = 0) by lra. apply Rmult_integral in Z. destruct Z; lra.
  Qed.
  Lemma mid_low low a d v : at_ low v = midway low a d -> v = mkV2 ((v2x a + v2x d) / 2) ((v2y a + v2y d) / 2).
  Proof. unfold at_, midway. intros Q. injection Q as X Y. destruct v; cbn in *. now rewrite X, Y. Qed.
  Lemma one_ring across look (p : part E) h low ring : ringsOf env w p = [(ring, false)] -> ring <> [] -> exists j, longestSide ring j /\
    round across look (planOf env w p) h low = Ok (shapeOn env ele scaled inside shrink counter look h low (fourFrom across ring j) ++ [OpTexture look]).
  Proof.
    intros Rg Ne. unfold roundRoof.
    assert (Pi : pinners (planOf env w p) = []) by (unfold planOf; rewrite Rg; reflexivity).
    assert (Po : pouters (planOf env w p) = [(@length R [], (@length R [] + 2 * length ring)%nat)]) by (unfold planOf; rewrite Rg; reflexivity).
    rewrite Pi, Po. destruct (range_ok env ele scaled inside shrink counter across look (planOf env w p) h low [] ring []) as (j & L & Q).
    - cbn [planOf ppoints]. rewrite Rg. cbn [map fst concat app]. now rewrite !app_nil_r.
    - exact Ne.
    - exists j. split; [exact L|]. cbn [overAll]. rewrite Q. cbn [bind concat]. now rewrite app_nil_r.
  Qed.

  (** A ring of more than four points: the others are not joined to anything, the wall below them stays open. *)
  Theorem C69_more_points_refuted : forall across look (p : part E) h low ring q, ringsOf env w p = [(ring, false)] -> In q ring -> h <> 0 ->
    (forall j, longestSide ring j -> let '(a, b, c, d) := fourFrom across ring j in
       wideEnds (a, b, c, d) /\ parallelEnds (a, b, c, d) /\ q <> a /\ q <> b /\ q <> c /\ q <> d /\
       q <> mkV2 ((v2x a + v2x d) / 2) ((v2y a + v2y d) / 2) /\ q <> mkV2 ((v2x b + v2x c) / 2) ((v2y b + v2y c) / 2)) ->
    exists ops, round across look (planOf env w p) h low = Ok ops /\ Forall (fun t => ~ touches (at_ low q) t) (drawn ops).
  Proof.
    intros across look p h low ring q Rg Iq H Ds. assert (Ne : ring <> []) by (intros Q; rewrite Q in Iq; exact Iq).
    destruct (one_ring across look p h low ring Rg Ne) as (j & L & Eo). eexists. split; [exact Eo|]. rewrite drawn_app. cbn [drawnBy flat_map newFaces].
    change (drawn [OpTexture look]) with (@nil tri3). rewrite app_nil_r. specialize (Ds j L). destruct (fourFrom across ring j) as [[[a b] c] d].
    destruct Ds as (Wd & Pl & Na & Nb & Nc & Nd & Nf & Nk). destruct (shape_parallel env ele scaled inside shrink counter look h low _ Wd Pl) as (D & _ & _). rewrite D.
    apply Forall_forall. intros t I T. destruct (barrel_touch (at_ low q) _ _ _ _ t I T) as [Q|[Q|(i & Li & [Q|Q])]].
    - apply mid_low in Q. contradiction.
    - apply mid_low in Q. contradiction.
    - apply arc_low in Q; [|exact H|exact Li]. destruct Q; contradiction.
    - apply arc_low in Q; [|exact H|exact Li]. destruct Q; contradiction.
  Qed.

  (** Ends which are not parallel, here at a right angle: the barrel does not reach the third point; all of its far end is at
      the second one. *)
  Theorem C69_ends_refuted : forall across look (p : part E) h low ring, ringsOf env w p = [(ring, false)] -> ring <> [] -> h <> 0 ->
    (forall j, longestSide ring j -> let '(a, b, c, d) := fourFrom across ring j in
       wideEnds (a, b, c, d) /\ (v2x b - v2x c) * (v2x a - v2x d) + (v2y b - v2y c) * (v2y a - v2y d) = 0 /\
       c <> a /\ c <> d /\ c <> mkV2 ((v2x a + v2x d) / 2) ((v2y a + v2y d) / 2)) ->
    exists ops j, round across look (planOf env w p) h low = Ok ops /\ longestSide ring j /\
      let '(a, b, c, d) := fourFrom across ring j in Forall (fun t => ~ touches (at_ low c) t) (drawn ops).
  Proof.
    intros across look p h low ring Rg Ne H Ds. destruct (one_ring across look p h low ring Rg Ne) as (j & L & Eo).
    exists (shapeOn env ele scaled inside shrink counter look h low (fourFrom across ring j) ++ [OpTexture look]), j. split; [exact Eo|]. split; [exact L|].
    specialize (Ds j L). destruct (fourFrom across ring j) as [[[a b] c] d]. destruct Ds as ((Wa & Wb) & O & Na & Nd & Nf). rewrite drawn_app.
    change (drawn [OpTexture look]) with (@nil tri3). rewrite app_nil_r. assert (P : 0 < / 2 ^ 52) by (apply Rinv_0_lt_compat, pow_lt; lra).
    assert (Nb : c <> b).
    { intros ->. assert (Z : length2 b b = 0) by (unfold length2; replace (_ + _) with 0 by ring; apply sqrt_0). lra. }
    unfold shapeOn. rewrite shape_round by assumption. rewrite (proj1 (barrel_drawn env look _ _ _ _)).
    apply Forall_forall. intros t I T. destruct (barrel_touch (at_ low c) _ _ _ _ t I T) as [Q|[Q|(i & Li & [Q|Q])]].
    - apply mid_low in Q. contradiction.
    - apply mid_low in Q. apply Nb. destruct b as [bx by_], c as [cx cy]. cbn [v2x v2y] in Q. injection Q as X Y. f_equal; lra.
    - rewrite arc_front in Q by lra. apply arc_low in Q; [|exact H|exact Li]. destruct Q; contradiction.
    - rewrite arc_flat in Q by (assumption || lra). unfold at_ in Q. injection Q as X Y. apply Nb. destruct b, c; cbn in *; now subst.
  Qed.

  (** * Skillion *)
  (** The slope rises from the front, the side met farthest in the direction, to the peak; the faces below it are closed.  The roof is flat if
      there is no front, or the peak is its first point. *)
  Theorem C69_skillion : (forall x y, ePerlin env x y 0 = 0) -> 0 < eEps env -> forall degrees look (p : part E) h low,
    let plan := planOf env w p in let io := eTriangulate env plan in let path := pathOf p in
    eLowest env < 0 -> eLowest env < low -> goodTri io -> tpoints io = twos (ppoints plan) -> (Z.of_nat (length path) < 2 ^ 31)%Z ->
    exists ops, skillion degrees look plan h low = Ok ops /\ Forall (goodOp realNums env) ops /\
      skillionDraws io low h degrees path (ringsOnly env w false p) (drawn ops) /\
      (verts ops <= 7 * length path * length (ringsOnly env w false p) + length path)%nat.
  Proof. intros Quiet Eps degrees look p h low. now apply skillion_ok. Qed.

  (** Front and peak are determined by the outline and the direction. *)
  Theorem C69_front_unique : forall ring mid degrees front peak front' peak',
    frontAndPeak ring mid degrees front peak -> frontAndPeak ring mid degrees front' peak' -> front = front' /\ peak = peak'.
  Proof.
    intros ring mid degrees front peak front' peak' ((s & A & B & C & D) & (i & u & F & G & H & P)) ((s' & A' & B' & C' & D') & (i' & u' & F' & G' & H' & P')). split.
    - destruct (Nat.lt_trichotomy front front') as [L|[Q|L]]; [|exact Q|].
      + specialize (D' _ _ L A). specialize (C _ _ A'). lra.
      + specialize (D _ _ L A'). specialize (C' _ _ A). lra.
    - assert (i = i').
      { destruct (Nat.lt_trichotomy i i') as [L|[Q|L]]; [|exact Q|].
        - specialize (H' _ _ L F). specialize (G _ _ F'). lra.
        - specialize (H _ _ L F'). specialize (G' _ _ F). lra. }
      subst i'. assert (u' = u) by (specialize (G _ _ F'); specialize (G' _ _ F); lra). subst u'. cbn zeta in P, P'. now rewrite P, P'.
  Qed.

  (** All of the slope is between the bottom and the top of the roof; it is at the bottom at the ends of the front and at the top at
      the peak, unless the peak is in line with the front. *)
  Theorem C69_heights : forall low h ring front peak, 0 <= h -> let next := after (length ring) front in let top := topOf low h ring front peak in
    (forall i, low <= top i <= low + h) /\ top front = low /\ top next = low /\
    (peak <> front -> peak <> next -> area2 (pointOf ring front) (pointOf ring next) (pointOf ring peak) <> 0 -> top peak = low + h).
  Proof.
    intros low h ring front peak H next top. split; [|split; [|split]].
    - intros i. unfold top, topOf. destruct (_ || _); [lra|]. unfold slopeAt, between. set (v := if Req_EM_T _ _ then _ else _). split; [apply Rmax_l|].
      apply Rmax_lub; [lra|apply Rmin_r].
    - unfold top, topOf. now rewrite Nat.eqb_refl.
    - unfold top, topOf. fold next. rewrite (Nat.eqb_refl next), Bool.orb_true_r. reflexivity.
    - intros Nf Nn A. unfold top, topOf. fold next. apply Nat.eqb_neq in Nf, Nn. rewrite Nf, Nn. cbn [orb]. unfold slopeAt, between.
      destruct (Req_EM_T _ 0) as [Z|Z]; [contradiction|]. replace (low + h * _) with (low + h) by (field; exact A).
      rewrite Rmin_left by lra. apply Rmax_right. lra.
  Qed.

  (** A part of one outline with flat walls is closed by a skillion roof, in any direction. *)
  Theorem C69_skillion_closed : (forall x y, ePerlin env x y 0 = 0) -> 0 < eEps env -> forall degrees id (p : part E) ts k ring, draws id p ts k ->
    hFacade (styleOf (pOwner p)) = Some FacadeFlat -> hRoof (styleOf (pOwner p)) = Some (RoofOther (skillion degrees)) ->
    ringsOf env w p = [(ring, false)] -> (Z.of_nat (length ring) < 2 ^ 31)%Z ->
    eLowest env < 0 -> (forall low top, standsAt env w styleOf p low top -> eLowest env < top) ->
    let io := eTriangulate env (planOf env w p) in goodTri io -> fills io (planOf env w p) ->
    exists low top, standsAt env w styleOf p low top /\ watertight (ts ++ openFloor env w styleOf p low).
  Proof.
    intros Quiet Eps degrees id p ts k ring D Fa Ro Rg Lm Lz Lt io G Fi.
    apply (closed_with env w styleOf (fun _ => []) id p ts k D Fa Fi). intros low top roof kr Co St Rf. rewrite app_nil_r.
    unfold roofDraws in Rf. rewrite Ro in Rf. destruct Rf as (ops & Eo & _ & -> & _).
    assert (Pa : concat (map fst (ringsOf env w p)) = ring) by (rewrite Rg; cbn; now rewrite app_nil_r).
    assert (R1 : ringsOnly env w false p = [ring]) by (unfold ringsOnly; rewrite Rg; reflexivity).
    assert (Al : allRings env w p = [ring]) by (unfold allRings, ringsOnly; rewrite Rg; reflexivity). rewrite Al. cbn [flat_map]. rewrite app_nil_r.
    destruct (C69_skillion Quiet Eps degrees (noNoise realNums (hRoofLook (styleOf (pOwner p)) id)) p (hRoofHeight (styleOf (pOwner p))) top Lz (Lt low top St) G (proj1 Fi))
      as (ops' & E' & _ & S & _); [rewrite Pa; exact Lm|].
    rewrite E' in Eo. injection Eo as <-. rewrite Pa, R1 in S. cbn [skillionDraws] in S.
    destruct S as [(front & peak & ts' & _ & _ & Q & ->)|(_ & Q)]; rewrite Q.
    - rewrite app_nil_r. now apply (slope_border env w p).
    - pose proof (above_border env w p io top Fi) as B. rewrite Al in B. cbn [flat_map] in B. now rewrite app_nil_r in B.
  Qed.

  (** A part with several outlines: the slope over all of them is drawn once for each. *)
  Theorem C69_outlines_refuted : (forall x y, ePerlin env x y 0 = 0) -> 0 < eEps env -> forall degrees look (p : part E) h low mid mid',
    let plan := planOf env w p in let io := eTriangulate env plan in let path := pathOf p in
    eLowest env < 0 -> eLowest env < low -> goodTri io -> tpoints io = twos (ppoints plan) -> (Z.of_nat (length path) < 2 ^ 31)%Z ->
    ringsOnly env w false p = [mid; mid'] -> ~ noSlope path mid degrees ->
    exists ops, skillion degrees look plan h low = Ok ops /\ (2 * length (triples io) <= length (drawn ops))%nat.
  Proof.
    intros Quiet Eps degrees look p h low mid mid' plan io path Lz Ll G Tp Lm R1 Ns.
    destruct (C69_skillion Quiet Eps degrees look p h low Lz Ll G Tp Lm) as (ops & Eo & _ & S & _). exists ops. split; [exact Eo|].
    rewrite R1 in S. cbn [skillionDraws] in S. destruct S as [(front & peak & ts & _ & _ & -> & S)|(N & _)]; [|contradiction].
    rewrite !app_length. unfold slopeTris at 1. rewrite map_length. fold plan io.
    destruct S as [(front' & peak' & ts' & _ & _ & -> & _)|(_ & ->)].
    - rewrite !app_length. unfold slopeTris. rewrite map_length. fold plan io. lia.
    - unfold fromAbove. rewrite map_length. fold plan io. lia.
  Qed.
End Roofs.

Print Assumptions C69_mansard.
Print Assumptions C69_mansard_closed.
Print Assumptions C69_nearest_refuted.
Print Assumptions C69_round.
Print Assumptions C69_round_hole.
Print Assumptions C69_round_closed.
Print Assumptions C69_more_points_refuted.
Print Assumptions C69_ends_refuted.
Print Assumptions C69_skillion.
Print Assumptions C69_front_unique.
Print Assumptions C69_heights.
Print Assumptions C69_skillion_closed.
Print Assumptions C69_outlines_refuted.

(** * Houses of four points under each of the roofs *)
Local Notation ele := (fun _ _ : R => 100).
Local Notation scaled := (fun _ s : R => s).
Local Notation inside := (fun _ : list (vec2 R) => Some (mkV2 2 2)).
Definition moved (path : list (vec2 R)) (d : R) : list (list (vec2 R)) :=
  [[mkV2 (2 / 5) (2 / 5); mkV2 (18 / 5) (2 / 5); mkV2 (18 / 5) (18 / 5); mkV2 (2 / 5) (18 / 5)]].
Definition anyTurn (path : list (vec2 R)) : bool := true.
Local Notation cityRoof := (realRoof moved anyTurn).
Local Notation mansards := (mansardRoof realNums realTrig townEnv town cityRoof).
Local Notation rounds := (roundRoof realNums realTrig realGens townEnv town cityRoof).
Local Notation skillions := (skillionRoof realNums realTrig realGens townEnv town cityRoof).
Definition roofStyles (e : nat) : houseStyle R :=
  match e with
  | 0%nat => mkHouse true false 12 2 (Some (RoofOther mansards)) 3 looks (Some FacadeFlat) looks
  | 1%nat => mkHouse true false 12 2 (Some (RoofOther (rounds false))) 3 looks (Some FacadeFlat) looks
  | _ => mkHouse true false 12 2 (Some (RoofOther (skillions 0))) 3 looks (Some FacadeFlat) looks
  end.
Lemma quiet : forall x y, ePerlin townEnv x y 0 = 0. Proof. reflexivity. Qed.
Lemma positive : 0 < eEps townEnv. Proof. cbn. lra. Qed.
(** A shed of 0.04 degrees, and two of them side by side. *)
Definition shed : list (point R) := [mkPoint 0 0; mkPoint 0 (1 / 25); mkPoint (1 / 25) (1 / 25); mkPoint (1 / 25) 0].
Definition shed2 : list (point R) := [mkPoint 0 (3 / 50); mkPoint 0 (1 / 10); mkPoint (1 / 25) (1 / 10); mkPoint (1 / 25) (3 / 50)].
Definition flatPart (e : nat) (line : list (point R)) : part nat := mkPart e [(line, false)].
Lemma apart' a b : / 100 <= Rabs (v2x a - v2x b) \/ / 100 <= Rabs (v2y a - v2y b) -> sameVec realNums townEnv a b = false.
Proof.
  intros H. unfold sameVec. change (eEps townEnv) with (/ 1000). change (nabs realNums) with Rabs. change (nsub realNums) with Rminus.
  destruct H; [rewrite rnlt_false by lra; reflexivity|]. rewrite (rnlt_false (Rabs (v2y a - v2y b))) by lra. apply andb_false_r.
Qed.
Ltac ringsOne := unfold ringsOf; cbn [flatPart shapePart pOutlines List.filter isKept town kInside realHouse map fst snd]; unfold openContour; cbn [lineOf map last plon plat];
  rewrite apart'; [reflexivity|]; first [left; cbn; unfold Rabs; destruct (Rcase_abs _); lra|right; cbn; unfold Rabs; destruct (Rcase_abs _); lra].
Lemma rings_quarter e : ringsOf townEnv town (flatPart e quarter) = [(lineOf quarter, false)].
Proof. unfold quarter at 1. ringsOne. Qed.
Lemma rings_shed e : ringsOf townEnv town (flatPart e shed) = [(lineOf shed, false)].
Proof. unfold shed at 1. ringsOne. Qed.
Lemma four_good (E : Type) (p : part E) ring : ringsOf townEnv town p = [(ring, false)] -> length ring = 4%nat ->
  goodTri (eTriangulate townEnv (planOf townEnv town p)) /\ fills (eTriangulate townEnv (planOf townEnv town p)) (planOf townEnv town p) /\
  length (tpoints (eTriangulate townEnv (planOf townEnv town p))) = 4%nat.
Proof.
  intros Rg L. destruct ring as [|a [|b [|c [|d [|? ?]]]]]; try discriminate L. unfold planOf. rewrite Rg. split; [|split; [|reflexivity]].
  - split; [exact I|]. cbn. repeat first [apply Forall_cons|apply Forall_nil|apply conj]; first [lia|apply le_n].
  - split; [reflexivity|]. cbn [map fst]. change (eTriangulate townEnv) with houseTri. apply (permb_ok sideb sideb_ok). reflexivity.
Qed.
(** A part is drawn if its roof is. *)
Lemma part_draws id e line f' ops : ringsOf townEnv town (flatPart e line) = [(lineOf line, false)] -> length line = 4%nat ->
  hRoof (roofStyles e) = Some (RoofOther f') -> f' (noNoise realNums (looks id)) (planOf townEnv town (flatPart e line)) 3 112 = Ok ops ->
  Forall (goodOp realNums townEnv) ops ->
  exists ts, length ts = (length (drawnBy townEnv ops) + 10)%nat /\ partDraws townEnv town roofStyles id (flatPart e line) ts (vertsOf townEnv ops + 28).
Proof.
  intros Rg Ln Ro Eo Go. assert (Lr : length (lineOf line) = 4%nat) by (unfold lineOf; rewrite map_length; exact Ln).
  destruct (four_good nat (flatPart e line) (lineOf line) Rg Lr) as (G & _ & L). assert (St : hMin (roofStyles e) = 2 /\ hHeight (roofStyles e) = 12 /\ hRoofHeight (roofStyles e) = 3 /\
    hFacade (roofStyles e) = Some FacadeFlat /\ hRoofLook (roofStyles e) = looks) by (destruct e as [|[|e]]; repeat split; reflexivity).
  destruct St as (S1 & S2 & S3 & S4 & S5). destruct line as [|p0 [|p1 [|p2 [|p3 [|? ?]]]]]; try discriminate Ln.
  set (line := [p0; p1; p2; p3]) in *.
  eexists. split; cycle 1.
  - split.
    + split; [|reflexivity]. apply Forall_cons; [discriminate|constructor].
    + exists 102, 112, (drawnBy townEnv ops), (vertsOf townEnv ops),
        (fromBelow (eTriangulate townEnv (planOf townEnv town (flatPart e line))) 102), 4%nat, (walls 102 112 (lineOf line)), 24%nat.
      split; [|split; [|split; [|split; [|split; [reflexivity|lia]]]]].
      * unfold standsAt. rewrite Rg. cbn [flatPart pOwner]. unfold line at 1. cbn [lineOf map concat fst app kEle town realHouse]. unfold heightOf. rewrite S1, S2.
        destruct (Req_EM_T 12 0); [lra|]. split; lra.
      * unfold roofDraws. cbn [flatPart pOwner]. rewrite Ro, S3, S5. exists ops. auto.
      * unfold floorDraws. cbn [flatPart pOwner]. rewrite S1. destruct (Rlt_dec 0 2); [|lra]. split; [exact G|]. split; [cbn; lra|]. split; [reflexivity|]. now symmetry.
      * unfold facadeDraws. cbn [flatPart pOwner]. rewrite S4. split; [cbn; lra|]. unfold ringsOnly. rewrite Rg. split; [|reflexivity].
        cbn [List.filter map fst snd Bool.eqb app flat_map]. now rewrite app_nil_r.
  - rewrite !app_length. f_equal. unfold planOf. rewrite Rg. reflexivity.
Qed.
Lemma no_floor e line low : openFloor townEnv town roofStyles (flatPart e line) low = [].
Proof. unfold openFloor. cbn [flatPart pOwner]. replace (hMin (roofStyles e)) with 2 by (destruct e as [|[|e]]; reflexivity). destruct (Rlt_dec 0 2); [reflexivity|lra]. Qed.
Lemma above_ground e line : ringsOf townEnv town (flatPart e line) = [(lineOf line, false)] -> forall low top, standsAt townEnv town roofStyles (flatPart e line) low top -> eLowest townEnv < top.
Proof.
  intros Rg low top S. unfold standsAt in S. rewrite Rg in S. destruct line as [|q line]; [destruct S|]. destruct S as (_ & ->). cbn [flatPart pOwner kEle town realHouse].
  replace (heightOf (roofStyles e)) with 12; [cbn; lra|]. unfold heightOf. replace (hHeight (roofStyles e)) with 12 by (destruct e as [|[|e]]; reflexivity). destruct (Req_EM_T 12 0); lra.
Qed.

Local Notation shape := (hd [] (moved [] 0)).
Lemma rings_moved : ringsOf townEnv town (shapePart shape) = [(shape, false)].
Proof. unfold moved, hd. ringsOne. Qed.
Lemma moved_open : openContour (sameVec realNums townEnv) shape = shape.
Proof. unfold moved, hd, openContour. cbn [last]. rewrite apart'; [reflexivity|]. right. cbn. unfold Rabs. destruct (Rcase_abs _); lra. Qed.
Example C69_mansard_case : exists ts, length ts = 20%nat /\ partDraws townEnv town roofStyles 7 (flatPart 0 quarter) ts 56 /\ watertight ts.
Proof.
  destruct (four_good nat (flatPart 0 quarter) _ (rings_quarter 0) eq_refl) as (G & Fi & Lp).
  destruct (four_good unit (shapePart shape) _ rings_moved eq_refl) as (Gs & Fs & Ls).
  assert (H : exists ops, mansards (noNoise realNums (looks 7)) (planOf townEnv town (flatPart 0 quarter)) 3 112 = Ok ops /\ Forall (goodOp realNums townEnv) ops /\
    length (drawnBy townEnv ops) = 10%nat /\ vertsOf townEnv ops = 28%nat).
  { destruct (C69_mansard townEnv ele scaled inside moved anyTurn quiet positive (noNoise realNums (looks 7)) (flatPart 0 quarter) 3 112) as (d & _ & H);
      [rewrite rings_quarter; discriminate|rewrite rings_quarter; reflexivity|cbn; lra|cbn; lra|exact G|].
    rewrite rings_quarter in H. destruct H as [(q & sh & j & M & Ln & (J & _) & H)|(H & _)].
    - cbn [anyTurn] in H. injection M as <- <-. destruct (H moved_open Gs) as (ops & Eo & Go & Do & Vo). exists ops. split; [exact Eo|]. split; [exact Go|]. split.
      + rewrite Do, app_length. unfold fromAbove. rewrite map_length.
        assert (Tl : length (triples (eTriangulate townEnv (planOf townEnv town (shapePart shape)))) = 2%nat) by (unfold planOf; rewrite rings_moved; reflexivity).
        etransitivity; [apply (f_equal2 Nat.add); [exact Tl|reflexivity]|].
        cbn [map fst concat app lineOf quarter length] in J. assert (j = 0 \/ j = 1)%nat as [-> | ->] by lia; reflexivity.
      + rewrite Vo. etransitivity; [apply (f_equal2 Nat.add); [exact Ls|reflexivity]|]. reflexivity.
    - exfalso. exact (H _ eq_refl eq_refl). }
  destruct H as (ops & Eo & Go & Lo & Vo). destruct (part_draws 7 0 quarter mansards ops (rings_quarter 0) eq_refl eq_refl Eo Go) as (ts & Lt & D). rewrite Lo in Lt. rewrite Vo in D.
  exists ts. split; [exact Lt|]. split; [exact D|].
  destruct (C69_mansard_closed townEnv ele scaled inside moved anyTurn roofStyles quiet positive 7 (flatPart 0 quarter) ts _ (lineOf quarter) D eq_refl eq_refl (rings_quarter 0))
    as (low & top & _ & W); [reflexivity|cbn; lra|apply above_ground, rings_quarter|exact G|exact Fi| |].
  - intros d sh M _. cbn [anyTurn]. injection M as <-. split; [exact moved_open|]. now split.
  - now rewrite no_floor, app_nil_r in W.
Qed.

Ltac side_cases := repeat match goal with H : In _ (_ :: _) |- _ => destruct H as [H|H] | H : In _ [] |- _ => destruct H | H : (_, _) = (_, _) |- _ => injection H as <- <- end.
Lemma quarter_longest j : longestSide (lineOf quarter) j -> j = 0%nat.
Proof.
  intros L. apply (longest_unique (lineOf quarter)); [exact L|]. exists (mkV2 0 0), (mkV2 4 0). split; [reflexivity|]. split; [|intros i c d H; lia].
  intros c d I. unfold length2. apply sqrt_le_1_alt. cbn [ringSides lineOf quarter map combine app plon plat] in I. side_cases; cbn [v2x v2y]; lra.
Qed.
Lemma long_enough x : 1 <= x -> 2 * / 2 ^ 52 < sqrt x.
Proof.
  intros H. apply Rlt_le_trans with 1; [|rewrite <- sqrt_1; now apply sqrt_le_1_alt].
  assert (P : 2 ^ 1 < 2 ^ 52) by (apply Rlt_pow; [lra|lia]). rewrite pow_1 in P.
  assert (/ 2 ^ 52 < / 2) by (apply Rinv_lt_contravar; [|exact P]; apply Rmult_lt_0_compat; lra). lra.
Qed.
Lemma quarter_ends : wideEnds (fourFrom false (lineOf quarter) 0) /\ parallelEnds (fourFrom false (lineOf quarter) 0).
Proof.
  cbn. split; [unfold length2; cbn [v2x v2y]; split; apply long_enough; lra|]. exists 1. lra.
Qed.
Example C69_round_case : exists ts, length ts = 38%nat /\ partDraws townEnv town roofStyles 7 (flatPart 1 quarter) ts 112 /\
  watertight (ts ++ slivers 112 (mkV2 0 0) (mkV2 4 0) (mkV2 4 4) (mkV2 0 4)).
Proof.
  destruct (four_good nat (flatPart 1 quarter) _ (rings_quarter 1) eq_refl) as (_ & Fi & _).
  destruct (C69_round townEnv ele scaled inside moved anyTurn false (noNoise realNums (looks 7)) (flatPart 1 quarter) 3 112) as (ops & tss & Eo & Go & Do & Vo & F).
  - unfold ringsOnly. rewrite rings_quarter. reflexivity.
  - unfold ringsOnly. rewrite rings_quarter. cbn [List.filter map fst snd Bool.eqb]. apply Forall_cons; [|constructor]. split; [discriminate|].
    intros j L. rewrite (quarter_longest j L). exact quarter_ends.
  - unfold ringsOnly in Vo, F. rewrite rings_quarter in Vo, F. inversion F as [|? ts0 ? tss' (j & L & Q) F']; subst. inversion F'; subst.
    destruct (part_draws 7 1 quarter (rounds false) ops (rings_quarter 1) eq_refl eq_refl Eo Go) as (ts & Lt & D). rewrite Vo in D. exists ts.
    split; [rewrite Lt, Do, (quarter_longest j L); reflexivity|]. split; [exact D|].
    destruct (C69_round_closed townEnv ele scaled inside moved anyTurn roofStyles false 7 (flatPart 1 quarter) ts _ (lineOf quarter) D eq_refl eq_refl (rings_quarter 1) eq_refl)
      as (j' & low & top & L' & St & W); [intros j' L'; rewrite (quarter_longest j' L'); exact quarter_ends|exact Fi|].
    rewrite no_floor, app_nil_r, (quarter_longest j' L') in W. unfold standsAt in St. rewrite rings_quarter in St. destruct St as (_ & St).
    cbn [flatPart pOwner kEle town realHouse] in St. unfold heightOf in St. cbn [roofStyles hHeight] in St. destruct (Req_EM_T 12 0); [lra|].
    replace top with 112 in W by lra. exact W.
Qed.
Example C69_round_hole_case : rounds false (looks 7) (planOf townEnv town palacePart) 3 112 = Ok (flatRoof realNums (looks 7) (planOf townEnv town palacePart) 112 false).
Proof. apply (C69_round_hole townEnv ele scaled inside). change (realHouse ele scaled inside) with town. unfold ringsOnly. rewrite rings_palace. discriminate. Qed.
(** A house with a bay, and a house narrower at the back. *)
Definition bay : list (point R) := [mkPoint 0 0; mkPoint 0 6; mkPoint 4 6; mkPoint 4 0; mkPoint 2 (-1)].
Definition wedge : list (point R) := [mkPoint 0 0; mkPoint 0 6; mkPoint 2 4; mkPoint 2 2].
Lemma first_longest ring a b : nth_error (ringSides ring) 0 = Some (a, b) -> (forall c d, In (c, d) (ringSides ring) -> length2 c d <= length2 a b) ->
  forall j, longestSide ring j -> j = 0%nat.
Proof. intros N M j L. apply (longest_unique ring); [exact L|]. exists a, b. split; [exact N|]. split; [exact M|]. intros i c d H. lia. Qed.
Example C69_more_points_case : exists ops, rounds false (looks 7) (planOf townEnv town (flatPart 1 bay)) 3 112 = Ok ops /\
  Forall (fun t => ~ touches (mkV3 (-1) 112 2) t) (drawnBy townEnv ops).
Proof.
  apply (C69_more_points_refuted townEnv ele scaled inside moved anyTurn false (looks 7) (flatPart 1 bay) 3 112 (lineOf bay) (mkV2 (-1) 2)).
  - unfold bay at 1. ringsOne.
  - do 4 right. left. reflexivity.
  - lra.
  - intros j L. rewrite (first_longest (lineOf bay) (mkV2 0 0) (mkV2 6 0) eq_refl) with (j := j); [|clear j L|exact L].
    + cbn. split; [unfold length2; cbn [v2x v2y]; split; apply long_enough; lra|]. split; [exists 1; lra|]. repeat split; intros Q; injection Q; lra.
    + intros c d I. unfold length2. apply sqrt_le_1_alt. cbn [ringSides lineOf bay map combine app plon plat] in I. side_cases; cbn [v2x v2y]; lra.
Qed.
Example C69_ends_case : exists ops, rounds false (looks 7) (planOf townEnv town (flatPart 1 wedge)) 3 112 = Ok ops /\
  Forall (fun t => ~ touches (mkV3 4 112 2) t) (drawnBy townEnv ops).
Proof.
  assert (F : forall j, longestSide (lineOf wedge) j -> j = 0%nat).
  { apply (first_longest (lineOf wedge) (mkV2 0 0) (mkV2 6 0) eq_refl). intros c d I. unfold length2. apply sqrt_le_1_alt.
    cbn [ringSides lineOf wedge map combine app plon plat] in I. side_cases; cbn [v2x v2y]; lra. }
  destruct (C69_ends_refuted townEnv ele scaled inside moved anyTurn false (looks 7) (flatPart 1 wedge) 3 112 (lineOf wedge)) as (ops & j & Eo & L & H).
  - unfold wedge at 1. ringsOne.
  - discriminate.
  - lra.
  - intros j L. rewrite (F j L). cbn. split; [unfold length2; cbn [v2x v2y]; split; apply long_enough; lra|]. split; [lra|]. repeat split; intros Q; injection Q; lra.
  - exists ops. split; [exact Eo|]. rewrite (F j L) in H. exact H.
Qed.

(** To the north only latitudes count. *)
Lemma meets_north ring mid i s : meets ring mid 0 i s <->
  let a := pointOf ring i in let b := pointOf ring (after (length ring) i) in
  (i < length ring)%nat /\ - (1 / 10) <= s <= 1 / 10 /\ v2x b <> v2x a /\
  exists r, 0 <= r <= 1 /\ v2x a + r * (v2x b - v2x a) = v2x (middle mid) /\ v2y a + r * (v2y b - v2y a) = v2y (middle mid) + s.
Proof.
  unfold meets. cbv zeta. replace (PI * 0 / 180) with 0 by field. rewrite sin_0, cos_0. split.
  - intros (L & S & D & r & R & X & Y). split; [exact L|]. split; [exact S|]. split; [lra|]. exists r. split; [exact R|]. split; lra.
  - intros (L & S & D & r & R & X & Y). split; [exact L|]. split; [exact S|]. split; [lra|]. exists r. split; [exact R|]. split; lra.
Qed.
Lemma shed_middle : middle (lineOf shed) = mkV2 (1 / 50) (1 / 50).
Proof. unfold middle, lineOf, shed. cbn. f_equal; lra. Qed.
Definition sheds : list (vec2 R) := lineOf shed ++ lineOf shed2.
Lemma shed_meets i s : meets (lineOf shed) (lineOf shed) 0 i s -> (i = 0%nat /\ s = - (1 / 50)) \/ (i = 2%nat /\ s = 1 / 50).
Proof.
  rewrite meets_north, shed_middle. cbv zeta. intros (L & _ & D & r & Rr & X & Y). change (length (lineOf shed)) with 4%nat in *.
  destruct i as [|[|[|[|i]]]]; [left|exfalso|right|exfalso|lia]; cbn in D, X, Y; try lra; (split; [reflexivity|lra]).
Qed.
Lemma shed_faces : frontAndPeak (lineOf shed) (lineOf shed) 0 2 1.
Proof.
  assert (A : meets (lineOf shed) (lineOf shed) 0 2 (1 / 50)).
  { rewrite meets_north, shed_middle. cbn. split; [lia|]. split; [lra|]. split; [lra|]. exists (1 / 2). lra. }
  assert (B : meets (lineOf shed) (lineOf shed) 0 0 (- (1 / 50))).
  { rewrite meets_north, shed_middle. cbn. split; [lia|]. split; [lra|]. split; [lra|]. exists (1 / 2). lra. }
  split.
  - exists (1 / 50). split; [exact A|]. split; [lra|]. split; intros i s; [|intros L]; intros M; apply shed_meets in M; destruct M as [(-> & ->)|(-> & ->)]; try lra; lia.
  - exists 0%nat, (- (1 / 50)). split; [exact B|]. split; [|split].
    + intros i s M. apply shed_meets in M. destruct M as [(_ & ->)|(_ & ->)]; lra.
    + intros i s L. lia.
    + cbv zeta. replace (PI * 0 / 180) with 0 by field. rewrite sin_0, cos_0, shed_middle. cbn. destruct (Rlt_dec _ _) as [Q|Q]; [|reflexivity]. exfalso. revert Q. apply Rle_not_lt.
      unfold length2. apply sqrt_le_1_alt. cbn [v2x v2y]. lra.
Qed.
Lemma sloped ring mid degrees front peak : frontAndPeak ring mid degrees front peak -> front <> peak -> ~ noSlope ring mid degrees.
Proof.
  intros F Ne [N|(i & G)].
  - exact (N front (proj1 F)).
  - destruct (C69_front_unique _ _ _ _ _ _ _ F G) as (-> & ->). now apply Ne.
Qed.
Example C69_skillion_case : exists ts, length ts = 16%nat /\ (exists k, partDraws townEnv town roofStyles 7 (flatPart 2 shed) ts k) /\ watertight ts.
Proof.
  destruct (four_good nat (flatPart 2 shed) _ (rings_shed 2) eq_refl) as (G & Fi & Lp).
  destruct (C69_skillion townEnv ele scaled inside moved anyTurn quiet positive 0 (noNoise realNums (looks 7)) (flatPart 2 shed) 3 112) as (ops & Eo & Go & S & _);
    [cbn; lra|cbn; lra|exact G|exact (proj1 Fi)|rewrite rings_shed; reflexivity|].
  unfold ringsOnly in S. rewrite rings_shed in S. cbn [List.filter map fst snd Bool.eqb concat skillionDraws] in S. rewrite app_nil_r in S.
  destruct S as [(front & peak & ts' & F & _ & Q & ->)|(N & _)]; [|exfalso; exact (sloped _ _ _ _ _ shed_faces ltac:(lia) N)].
  destruct (C69_front_unique _ _ _ _ _ _ _ F shed_faces) as (-> & ->).
  destruct (part_draws 7 2 shed (skillions 0) ops (rings_shed 2) eq_refl eq_refl Eo Go) as (ts & Lt & D). exists ts.
  split; [rewrite Lt, Q, app_nil_r, app_length; unfold slopeTris, planOf; rewrite rings_shed, map_length; reflexivity|]. split; [eexists; exact D|].
  destruct (C69_skillion_closed townEnv ele scaled inside moved anyTurn roofStyles quiet positive 0 7 (flatPart 2 shed) ts _ (lineOf shed) D eq_refl eq_refl (rings_shed 2))
    as (low & top & _ & W); [reflexivity|cbn; lra|apply above_ground, rings_shed|exact G|exact Fi|].
  now rewrite no_floor, app_nil_r in W.
Qed.
Example C69_heights_case : let top := topOf 112 3 (lineOf shed) 2 1 in top 2%nat = 112 /\ top 3%nat = 112 /\ top 1%nat = 115 /\ top 0%nat = 115.
Proof.
  destruct (C69_heights 112 3 (lineOf shed) 2 1 ltac:(lra)) as (B & F & Nx & P). cbv zeta. split; [exact F|]. split; [exact Nx|]. split.
  - rewrite P; [lra|lia|discriminate|]. cbn. unfold area2. cbn [v2x v2y]. lra.
  - unfold topOf. cbn. unfold slopeAt, between, area2. cbn [v2x v2y]. destruct (Req_EM_T _ 0); [lra|]. rewrite Rmin_right by lra. rewrite Rmax_right; lra.
Qed.
Definition shedsPart : part nat := mkPart 2%nat [(shed, false); (shed2, false)].
Lemma rings_sheds : ringsOf townEnv town shedsPart = [(lineOf shed, false); (lineOf shed2, false)].
Proof.
  unfold ringsOf. cbn [shedsPart pOutlines List.filter isKept town kInside realHouse map fst snd]. unfold openContour, shed at 1, shed2 at 1. cbn [lineOf map last plon plat].
  rewrite !apart'; [reflexivity| |]; right; cbn; unfold Rabs; destruct (Rcase_abs _); lra.
Qed.
Lemma sheds_meets i s : meets sheds (lineOf shed) 0 i s -> (i = 0%nat /\ s = - (1 / 50)) \/ (i = 2%nat /\ s = 1 / 50) \/ ((i = 3 \/ i = 7)%nat /\ - (1 / 50) < s < 1 / 50).
Proof.
  rewrite meets_north, shed_middle. cbv zeta. intros (L & _ & D & r & Rr & X & Y). change (length sheds) with 8%nat in *.
  destruct i as [|[|[|[|[|[|[|[|i]]]]]]]]; [left| |right; left|right; right| | | |right; right|lia]; cbn in D, X, Y; try (exfalso; lra); (split; [auto|lra]).
Qed.
Lemma sheds_faces : frontAndPeak sheds (lineOf shed) 0 2 1.
Proof.
  assert (A : meets sheds (lineOf shed) 0 2 (1 / 50)).
  { rewrite meets_north, shed_middle. cbn. split; [lia|]. split; [lra|]. split; [lra|]. exists (1 / 2). lra. }
  assert (B : meets sheds (lineOf shed) 0 0 (- (1 / 50))).
  { rewrite meets_north, shed_middle. cbn. split; [lia|]. split; [lra|]. split; [lra|]. exists (1 / 2). lra. }
  split.
  - exists (1 / 50). split; [exact A|]. split; [lra|]. split; intros i s; [|intros L]; intros M; apply sheds_meets in M; destruct M as [(-> & ->)|[(-> & ->)|(I & H)]]; try lra; lia.
  - exists 0%nat, (- (1 / 50)). split; [exact B|]. split; [|split].
    + intros i s M. apply sheds_meets in M. destruct M as [(_ & ->)|[(_ & ->)|(_ & H)]]; lra.
    + intros i s L. lia.
    + cbv zeta. replace (PI * 0 / 180) with 0 by field. rewrite sin_0, cos_0, shed_middle. cbn. destruct (Rlt_dec _ _) as [Q|Q]; [|reflexivity]. exfalso. revert Q. apply Rle_not_lt.
      unfold length2. apply sqrt_le_1_alt. cbn [v2x v2y]. lra.
Qed.
Example C69_outlines_case : exists ops, skillions 0 (looks 7) (planOf townEnv town shedsPart) 3 112 = Ok ops /\ (16 <= length (drawnBy townEnv ops))%nat.
Proof.
  assert (G : goodTri (eTriangulate townEnv (planOf townEnv town shedsPart)) /\ tpoints (eTriangulate townEnv (planOf townEnv town shedsPart)) = twos (ppoints (planOf townEnv town shedsPart))
    /\ length (triples (eTriangulate townEnv (planOf townEnv town shedsPart))) = 8%nat).
  { unfold planOf. rewrite rings_sheds. split; [|split; reflexivity]. split; [exact I|]. cbn. repeat first [apply Forall_cons|apply Forall_nil|apply conj]; first [lia|apply le_n]. }
  destruct G as (G & Tp & L).
  destruct (C69_outlines_refuted townEnv ele scaled inside moved anyTurn quiet positive 0 (looks 7) shedsPart 3 112 (lineOf shed) (lineOf shed2)) as (ops & Eo & H);
    [cbn; lra|cbn; lra|exact G|exact Tp|change (realHouse ele scaled inside) with town; rewrite rings_sheds; reflexivity|change (realHouse ele scaled inside) with town; unfold ringsOnly; rewrite rings_sheds; reflexivity| |].
  - change (realHouse ele scaled inside) with town. rewrite rings_sheds. exact (sloped _ _ _ _ _ sheds_faces ltac:(lia)).
  - exists ops. split; [exact Eo|]. change (realHouse ele scaled inside) with town in H. rewrite L in H. exact H.
Qed.
