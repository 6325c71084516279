(** Theorems about buildings (exact real arithmetic). *)
From Coq Require Import Reals Lra Lia Permutation.
From Verif Require Import Base GeoModel RingModel MeshBuildModel MeshBuildSpec MeshBuildProofs QuatModel GenSpec GenProofs RowSpec
  RowProofs HouseModel HouseSpec HouseProofs.
Local Open Scope R_scope.

Section Houses.
  Context {E : Type} (env : builderEnv R) (ele scaled : R -> R -> R) (inside : list (vec2 R) -> option (vec2 R)).
  Context (idOf : E -> N) (ignored : E -> bool) (styleOf : E -> houseStyle R).
  Local Notation w := (realHouse ele scaled inside).
  Local Notation visit := (visitTop realNums env w idOf ignored styleOf).
  Local Notation visits := (visitTops realNums env w idOf ignored styleOf).
  Local Notation parts := (partsOf styleOf).
  Local Notation draws := (partDraws env w styleOf).
  (** Elements for which a mesh is made. *)
  Definition isDrawn (h : house E R) : bool := hasMesh styleOf h && negb (ignored (ownerOf h)).

  Lemma visit_drawn h s : clean s -> sound styleOf h = true -> isDrawn h = true ->
    exists sp', cleanPoly sp' /\ visit h s =
      bind (drawParts env w styleOf (idOf (ownerOf h)) (parts h) emptyMesh) (fun m => Ok (mkSite sp' None, [(ownerOf h, m)])).
  Proof.
    intros C S D. apply andb_true_iff in D. destruct D as (D & I). apply negb_true_iff in I.
    destruct (outer_ok env w idOf styleOf h s C S D) as (sp' & C' & V). exists sp'. split; [exact C'|]. rewrite <- V.
    destruct h; cbn [visitTop ownerOf hasMesh] in *; try discriminate D; now rewrite I.
  Qed.
  Lemma visit_other h s : isDrawn h = false -> visit h s = Ok (s, []).
  Proof.
    intros D. destruct (hasMesh styleOf h) eqn:H; [|now apply no_mesh]. unfold isDrawn in D. rewrite H in D. cbn in D. apply negb_false_iff in D.
    destruct h; cbn [visitTop ownerOf] in *; try reflexivity; now rewrite D.
  Qed.
  Lemma first_unknown id st plan : hRoof st = None -> buildOps realNums env w id st plan = UB.
  Proof. intros H. unfold buildOps. destruct (pointAt plan 0) eqn:P; try reflexivity; [|unfold pointAt in P; destruct (nth_error (ppoints plan) 0), (nth_error (ppoints plan) 1); discriminate P].
    cbn [bind]. unfold attachRoof. rewrite H. reflexivity. Qed.
  Lemma walls_unknown id st plan : hRoof st = Some RoofFlat -> hFacade st = None -> buildOps realNums env w id st plan = UB.
  Proof. intros H F. unfold buildOps. destruct (pointAt plan 0) eqn:P; try reflexivity; [|unfold pointAt in P; destruct (nth_error (ppoints plan) 0), (nth_error (ppoints plan) 1); discriminate P].
    cbn [bind]. unfold attachRoof, attachFacade. rewrite H, F. reflexivity. Qed.
  Lemma contours_never l : forall p, (exists q, addContours realNums env p l = Ok q) \/ addContours realNums env p l = UB.
  Proof.
    induction l as [|[[c b] i] l IH]; intros p; [left; exists p; reflexivity|]. cbn [addContours].
    destruct c as [|v c]; [now right|]. cbn [addContour]. destruct b; [destruct i|]; cbn [bind]; apply IH.
  Qed.
  Lemma draw_fails id p l m : (forall plan, buildOps realNums env w id (styleOf (pOwner p)) plan = UB) -> drawParts env w styleOf id (p :: l) m = UB.
  Proof.
    intros H. cbn [drawParts]. destruct (contours_never (contoursOf w p) emptyPolygon) as [(q & ->)| ->]; [|reflexivity]. cbn [bind]. now rewrite H.
  Qed.

  (** The elements of a tile, one after the other: for every area with a style of a building and every relation with members
      which is not tagged to be ignored exactly one mesh is handed out, in order, and it holds the triangles of the parts of
      that element in the order of the parts and nothing else; nothing is handed out for other elements, and nothing is kept for
      the next tile.  Relations drawn by the outlines of their members have areas only; the vertices can be counted by an int. *)
  Theorem C68_tile : (forall x y, ePerlin env x y 0 = 0) -> 0 < eEps env -> forall hs tkss s, clean s ->
    Forall (fun h => sound styleOf h = true) (List.filter isDrawn hs) ->
    Forall2 (fun h tks =>
      Forall2 (fun p tk => draws (idOf (ownerOf h)) p (fst tk) (snd tk)) (parts h) tks /\
      (2 * Z.of_nat (fold_right Nat.add 0%nat (map snd tks)) < 2 ^ 31)%Z) (List.filter isDrawn hs) tkss ->
    exists s' ms, visits hs s = Ok (s', ms) /\ clean s' /\ map fst ms = map ownerOf (List.filter isDrawn hs) /\
      Forall2 (fun em tks => wellFormed (snd em) (fold_right Nat.add 0%nat (map snd tks)) /\ goodMap (snd em) /\
                 drawnIn (snd em) = concat (map fst tks)) ms tkss.
  Proof.
    intros Quiet Eps hs. induction hs as [|h hs IH]; intros tkss s C S F.
    - inversion F; subst. exists s, []. split; [reflexivity|]. split; [exact C|]. split; [reflexivity|]. constructor.
    - cbn [List.filter] in *. destruct (isDrawn h) eqn:D.
      + inversion S as [|? ? S1 S2]; subst. inversion F as [|? tks ? tkss' (F1 & B1) F2]; subst.
        destruct (visit_drawn h s C S1 D) as (sp' & C' & V).
        destruct (draw_ok env ele scaled inside styleOf Quiet Eps (idOf (ownerOf h)) (parts h) tks emptyMesh 0 (proj1 empty_wf) (proj2 empty_wf) F1)
          as (m & Em & Wm & Gm & Dm); [exact B1|]. rewrite Em in V. cbn [bind] in V.
        destruct (IH tkss' (mkSite sp' None) (conj eq_refl C') S2 F2) as (s' & ms & Es & Cs & O & Q).
        exists s', ((ownerOf h, m) :: ms). cbn [visitTops]. rewrite V. cbn [bind]. rewrite Es. cbn [bind app]. split; [reflexivity|]. split; [exact Cs|].
        split; [cbn [map fst]; now rewrite O|]. constructor; [|exact Q]. cbn [snd]. auto.
      + destruct (IH tkss s C S F) as (s' & ms & Es & Cs & O & Q). exists s', ms. cbn [visitTops]. rewrite (visit_other h s D). cbn [bind].
        rewrite Es. cbn [bind app]. auto.
  Qed.

  (** A part with flat walls and a flat roof, or with a pyramidal roof and no holes, is a closed body when it has a floor;
      without one (it stands on the ground) nothing but the floor is missing.  Triangle is trusted to fill the plan. *)
  Theorem C68_closed : forall id p ts k, draws id p ts k -> hFacade (styleOf (pOwner p)) = Some FacadeFlat ->
    hRoof (styleOf (pOwner p)) = Some RoofFlat \/
    (hRoof (styleOf (pOwner p)) = Some RoofPyramidal /\ ringsOnly env w true p = []) ->
    fills (eTriangulate env (planOf env w p)) (planOf env w p) ->
    exists low, standsAt env w styleOf p low (low - hMin (styleOf (pOwner p)) + heightOf (styleOf (pOwner p))) /\
      watertight (ts ++ openFloor env w styleOf p low).
  Proof.
    intros id p ts k (_ & low & top & roof & kr & floor & kf & facade & kw & St & Rf & Fl & Fc & -> & _) Fa Ro Fi.
    exists low. split.
    { clear - St. unfold standsAt in *. destruct (concat (map fst (ringsOf env w p))); [exact St|]. destruct St as (-> & ->). split; [reflexivity|ring]. }
    unfold facadeDraws in Fc. rewrite Fa in Fc. destruct Fc as (_ & -> & _). fold (allRings env w p).
    set (io := eTriangulate env (planOf env w p)) in *.
    assert (Fl' : Permutation (floor ++ openFloor env w styleOf p low) (fromBelow io low)).
    { unfold floorDraws, openFloor in *. fold io in Fl |- *. destruct (Rlt_dec 0 (hMin (styleOf (pOwner p)))).
      - destruct Fl as (_ & _ & -> & _). now rewrite app_nil_r.
      - destruct Fl as (-> & _). reflexivity. }
    assert (Bd : bordered roof (map flipped (map (lift (at_ top)) (flat_map onward (allRings env w p))))).
    { unfold roofDraws in Rf. destruct Ro as [Ro|(Ro & Hl)]; rewrite Ro in Rf.
      - fold io in Rf. destruct Rf as (_ & _ & -> & _). now apply above_border.
      - destruct Rf as (-> & _). unfold allRings. rewrite Hl, app_nil_r. apply tents_border. }
    pose proof (body_closed env w p io roof low top Fi Bd) as W. apply bordered_nil. apply bordered_nil in W.
    refine (bordered_tris _ _ _ _ W). rewrite <- Fl'. rewrite <- !app_assoc. apply Permutation_app_head. apply Permutation_app_head.
    apply Permutation_app_comm.
  Qed.

  (** A mesh of such parts, all of them above the ground, is closed. *)
  Theorem C68_element_closed : (forall x y, ePerlin env x y 0 = 0) -> 0 < eEps env -> forall h tks s, clean s -> sound styleOf h = true ->
    isDrawn h = true ->
    Forall2 (fun p tk => draws (idOf (ownerOf h)) p (fst tk) (snd tk)) (parts h) tks ->
    (2 * Z.of_nat (fold_right Nat.add 0%nat (map snd tks)) < 2 ^ 31)%Z ->
    Forall (fun p => let st := styleOf (pOwner p) in 0 < hMin st /\ hFacade st = Some FacadeFlat /\ hRoof st = Some RoofFlat /\
                     fills (eTriangulate env (planOf env w p)) (planOf env w p)) (parts h) ->
    exists s' m, visit h s = Ok (s', [(ownerOf h, m)]) /\ watertight (drawnIn m).
  Proof.
    intros Quiet Eps h tks s C S D F B P. destruct (visit_drawn h s C S D) as (sp' & C' & V).
    destruct (draw_ok env ele scaled inside styleOf Quiet Eps (idOf (ownerOf h)) (parts h) tks emptyMesh 0 (proj1 empty_wf) (proj2 empty_wf) F)
      as (m & Em & _ & _ & Dm); [exact B|]. rewrite Em in V. exists (mkSite sp' None), m. split; [exact V|]. rewrite Dm. change (drawnIn emptyMesh) with (@nil tri3). cbn [app].
    clear - F P. revert P. induction F as [|p [t k] l tks H F IH]; intros P; [constructor|]. inversion P as [|? ? (M & Fa & Ro & Fi) P']; subst.
    cbn [map concat fst]. apply watertight_app; [|exact (IH P')]. cbn [fst snd] in H.
    destruct (C68_closed _ _ _ _ H Fa (or_introl Ro) Fi) as (low & _ & W). unfold openFloor in W. destruct (Rlt_dec 0 (hMin (styleOf (pOwner p)))); [|contradiction].
    now rewrite app_nil_r in W.
  Qed.

  (** The walls of a ring which goes round a place counter-clockwise face away from it, the roof is seen from above and the
      floor from below, when the height is above the height the part begins at and the triangles go round counter-clockwise. *)
  Theorem C68_faces : forall low top y m ring io, low < top ->
    Forall (fun '(a, b) => leftTurn a b m) (around ring) ->
    Forall (fun '(a, b, c) => leftTurn (corner2 io a) (corner2 io b) (corner2 io c)) (triples io) ->
    Forall (outward (at_ y m)) (walls low top ring) /\ Forall facesUp (fromAbove io top) /\
    Forall (fun '(a, b, c) => facesUp (b, a, c)) (fromBelow io low).
  Proof.
    intros low top y m ring io L A T. split; [|split; [now apply above_faces|now apply below_faces]].
    unfold walls. apply Forall_flat_map. apply Forall_rev. eapply Forall_impl; [|exact A]. intros [a b] H. now apply wall_faces.
  Qed.

  (** Otherwise the walls face inwards: nothing is done about a height which is less than the height the part begins at. *)
  Theorem C68_upside_down_refuted : forall low top y m ring, top < low -> Forall (fun '(a, b) => leftTurn a b m) (around ring) ->
    Forall (fun '(u, v, t) => outward (at_ y m) (v, u, t)) (walls low top ring).
  Proof.
    intros low top y m ring L A. unfold walls. apply Forall_flat_map. apply Forall_rev. eapply Forall_impl; [|exact A]. intros [a b] H. now apply wall_turned.
  Qed.

  (** Nor about an area which goes round the other way. *)
  Theorem C68_clockwise_refuted : forall low top y m ring, low < top -> Forall (fun '(a, b) => leftTurn b a m) (around ring) ->
    Forall (fun '(u, v, t) => outward (at_ y m) (v, u, t)) (walls low top ring).
  Proof.
    intros low top y m ring L A. unfold walls. apply Forall_flat_map. apply Forall_rev. eapply Forall_impl; [|exact A]. intros [a b] H.
    assert (P : 0 < (top - low) * ((v2x a - v2x b) * (v2y m - v2y b) - (v2y a - v2y b) * (v2x m - v2x b))) by (apply Rmult_lt_0_compat; [lra|exact H]).
    apply Forall_cons; [|apply Forall_cons; [|apply Forall_nil]]; unfold outward, det3, vsub, above, at_; cbn [v3x v3y v3z];
      (eapply Rlt_le_trans; [exact P|]); apply Req_le; ring.
  Qed.

  (** A pyramidal roof does not close a part with a courtyard: the upper side of the walls of the courtyard stays open. *)
  Theorem C68_courtyard_refuted : forall id p ts k a b c rest, draws id p ts k -> hFacade (styleOf (pOwner p)) = Some FacadeFlat ->
    hRoof (styleOf (pOwner p)) = Some RoofPyramidal -> ringsOnly env w true p = [a :: b :: c :: rest] -> NoDup (a :: b :: c :: rest) ->
    fills (eTriangulate env (planOf env w p)) (planOf env w p) ->
    forall low, standsAt env w styleOf p low (low - hMin (styleOf (pOwner p)) + heightOf (styleOf (pOwner p))) ->
      ~ watertight (ts ++ openFloor env w styleOf p low).
  Proof.
    intros id p ts k a b c rest (_ & low & top & roof & kr & floor & kf & facade & kw & St & Rf & Fl & Fc & -> & _) Fa Ro Hl Nd Fi low' St' W.
    assert (low' = low).
    { clear - St St'. unfold standsAt in *. destruct (concat (map fst (ringsOf env w p))); [contradiction|]. destruct St as (-> & _), St' as (-> & _). reflexivity. }
    subst low'. clear St'.
    unfold facadeDraws in Fc. rewrite Fa in Fc. destruct Fc as (_ & -> & _). fold (allRings env w p) in *.
    set (io := eTriangulate env (planOf env w p)) in *.
    assert (Fl' : Permutation (floor ++ openFloor env w styleOf p low) (fromBelow io low)).
    { unfold floorDraws, openFloor in *. fold io in Fl |- *. destruct (Rlt_dec 0 (hMin (styleOf (pOwner p)))).
      - destruct Fl as (_ & _ & -> & _). now rewrite app_nil_r.
      - destruct Fl as (-> & _). reflexivity. }
    unfold roofDraws in Rf. rewrite Ro in Rf. destruct Rf as (-> & _).
    set (roof := flat_map (tent top (top + hRoofHeight (styleOf (pOwner p)))) (ringsOnly env w false p)) in *.
    set (hole := a :: b :: c :: rest) in *.
    assert (Bd : bordered (roof ++ fromBelow io low ++ flat_map (walls low top) (allRings env w p)) (map (lift (at_ top)) (onward hole))).
    { set (g := flat_map onward (allRings env w p)) in *.
      assert (G : g = flat_map onward (ringsOnly env w false p) ++ onward hole).
      { unfold g, allRings. rewrite Hl, flat_map_app. cbn [flat_map]. now rewrite app_nil_r. }
      pose proof (tents_border top (top + hRoofHeight (styleOf (pOwner p))) (ringsOnly env w false p)) as T. fold roof in T.
      pose proof (bordered_app _ _ _ _ T (bordered_app _ _ _ _ (below_border env w p io low Fi) (walls_border env w p low top))) as B. fold g in B.
      set (o := flat_map onward (ringsOnly env w false p)) in *.
      apply (bordered_cancel _ _ (map (lift (at_ top)) o ++ map (lift (at_ low)) g)). refine (bordered_perm _ _ _ _ B). rewrite !map_app.
      replace (map (lift (at_ top)) g) with (map (lift (at_ top)) o ++ map (lift (at_ top)) (onward hole)) by (rewrite G, map_app; reflexivity).
      rewrite <- !app_assoc.
      pieces [map (lift (at_ top)) o; map (lift (at_ low)) g; map flipped (map (lift (at_ top)) o); map flipped (map (lift (at_ low)) g); map (lift (at_ top)) (onward hole)]
        [2; 1; 0; 4; 3]%nat [4; 0; 1; 2; 3]%nat. }
    assert (W' : watertight (roof ++ fromBelow io low ++ flat_map (walls low top) (allRings env w p))).
    { apply bordered_nil. apply bordered_nil in W. refine (bordered_tris _ _ _ _ W). rewrite <- Fl'. rewrite <- !app_assoc.
      apply Permutation_app_head. apply Permutation_app_head. apply Permutation_app_comm. }
    unfold bordered in Bd. unfold watertight in W'. rewrite <- W' in Bd. apply Permutation_app_inv_l in Bd.
    assert (I : In (at_ top b, at_ top a) (map flipped (map (lift (at_ top)) (onward hole)))) by (left; reflexivity).
    eapply Permutation_in in I; [|exact Bd]. apply in_map_iff in I. destruct I as ([x y] & Q & I). unfold lift, at_ in Q. cbn [fst snd] in Q.
    injection Q as Qx Qy Qx' Qy'.
    assert (x = b) by (destruct x, b; cbn in *; congruence). assert (y = a) by (destruct y, a; cbn in *; congruence). subst x y. clear - I Nd.
    unfold hole, onward in I. cbn [app combine In] in I. inversion Nd as [|? ? N1 Nd1]; subst. inversion Nd1 as [|? ? N2 _]; subst.
    destruct I as [I|[I|I]].
    - injection I as Q _. apply N1. left. now symmetry.
    - injection I as Q. apply N1. right. now left.
    - apply (in_combine_l (c :: rest) (rest ++ [a])) in I. now apply N2.
  Qed.

  (** A roof type or facade type which is not known (also a misspelt one): the end of a map is dereferenced. *)
  Theorem C68_type_refuted : forall e cs s, clean s -> ignored e = false -> let st := styleOf e in hBuilding st = true ->
    hRoof st = None \/ (hRoof st = Some RoofFlat /\ hFacade st = None) -> visit (HArea e cs) s = UB.
  Proof.
    intros e cs s C I st B U. destruct (visit_drawn (HArea e cs) s C eq_refl) as (sp' & _ & V); [unfold isDrawn; cbn [hasMesh ownerOf]; fold st; now rewrite B, I|].
    rewrite V. cbn [partsOf]. fold st. rewrite B. rewrite draw_fails; [reflexivity|]. intros plan. cbn [pOwner]. fold st.
    destruct U as [U|(U & F)]; [now apply first_unknown|now apply walls_unknown].
  Qed.

  (** A part of which no point is left (no areas at all in a multipolygon, or holes only without a point inside, or areas of
      one place): the polygon is read out of bounds. *)
  Theorem C68_nothing_refuted : forall h s p, clean s -> sound styleOf h = true -> isDrawn h = true -> parts h = [p] -> countable p ->
    concat (map fst (ringsOf env w p)) = [] -> visit h s = UB.
  Proof.
    intros h s p C S D P Cn N. destruct (visit_drawn h s C S D) as (sp' & _ & V). rewrite V, P. cbn [drawParts].
    rewrite (plan_ok env w p Cn). cbn [bind]. unfold buildOps, pointAt. cbn [planOf ppoints]. rewrite N. reflexivity.
  Qed.

  (** A node or a way among the members of a multipolygon throws. *)
  Theorem C68_member_refuted : forall e ms m ms' s, ignored e = false -> outlinesOf styleOf e = true ->
    clean s -> forallb (@onlyAreas E) ms = true -> Forall (fun cs => cs <> []) (flat_map (@areasIn E) ms) -> (exists e', m = HNode e' \/ m = HWay e') ->
    visit (HRelation e (ms ++ m :: ms')) s = Throw DomainError.
  Proof.
    intros e ms m ms' s I O (M & C) A Ne (e' & Hm). cbn [visitTop]. rewrite I. destruct s as [sp sm]. cbn [sMesh sPoly] in *. subst sm.
    destruct (ms ++ m :: ms') as [|m0 l] eqn:L; [now destruct ms|]. rewrite visit_relation. cbn [ensureContext sPoly sMesh].
    fold (poly0 sp). rewrite (poly0_clean _ C). fold (outlinesOf styleOf e). rewrite O. unfold buildWith. cbn [sPoly sMesh].
    rewrite multi_relation, <- L.
    assert (Q : forall p, multiAll env w (ms ++ m :: ms') p = Throw DomainError).
    { intros p. assert (X : forall l1 l2 q, multiAll env w (l1 ++ l2) q = bind (@multiAll E env w l1 q) (multiAll env w l2)).
      { induction l1 as [|x l1 IH]; intros l2 q; [reflexivity|]. cbn [app]. rewrite !multi_cons, bind_assoc. apply bind_ext. intros q'. apply IH. }
      rewrite X. pose proof (multi_ok env w (HRelation e ms) A p) as K. rewrite multi_relation in K. rewrite K.
      destruct (contours_never (markedAll w (areasIn (HRelation e ms))) p) as [(q & Eq)|Eq].
      - rewrite Eq. cbn [bind]. rewrite multi_cons. destruct Hm as [-> | ->]; reflexivity.
      - exfalso. cbn [areasIn] in Eq. unfold markedAll in Eq. clear - Eq Ne. revert p Eq. induction Ne as [|cs l N Ne IH]; intros p Eq; [discriminate Eq|].
        cbn [map addContours] in Eq. destruct cs as [|c cs]; [contradiction|]. cbn [lineOf map addContour] in Eq.
        destruct (isClockwise realNums (c :: cs)); [destruct (kInside w _)|]; cbn [bind] in Eq; exact (IH _ Eq). }
    rewrite Q. reflexivity.
  Qed.

  (** A relation of other things (all relations with members which are not tagged to be ignored and match a style with this
      builder): an empty mesh is handed out for it. *)
  Theorem C68_empty_refuted : forall h s, clean s -> sound styleOf h = true -> isDrawn h = true -> parts h = [] ->
    exists s', visit h s = Ok (s', [(ownerOf h, emptyMesh)]).
  Proof.
    intros h s C S D P. destruct (visit_drawn h s C S D) as (sp' & _ & V). exists (mkSite sp' None). rewrite V, P. reflexivity.
  Qed.
End Houses.
Print Assumptions C68_tile.
Print Assumptions C68_closed.
Print Assumptions C68_element_closed.
Print Assumptions C68_faces.
Print Assumptions C68_upside_down_refuted.
Print Assumptions C68_clockwise_refuted.
Print Assumptions C68_courtyard_refuted.
Print Assumptions C68_type_refuted.
Print Assumptions C68_nothing_refuted.
Print Assumptions C68_member_refuted.
Print Assumptions C68_empty_refuted.

(** * A tile with a house above the ground and a house round a courtyard *)
Definition looks : N -> lookOptions R := fun _ => mkLook (fun _ => 0%Z) 0 0 (mkRegion 0 0 0 0 0 0)%Z 1.
Definition houseStyles (e : nat) : houseStyle R :=
  match e with
  | 0%nat => mkHouse true false 12 2 (Some RoofFlat) 3 looks (Some FacadeFlat) looks
  | 1%nat => mkHouse true true 0 0 (Some RoofPyramidal) 3 looks (Some FacadeFlat) looks
  | 2%nat => mkHouse false false 0 0 None 0 looks None looks
  | 3%nat => mkHouse true false 12 2 None 3 looks (Some FacadeFlat) looks
  | _ => mkHouse true true 12 20 (Some RoofFlat) 3 looks (Some FacadeFlat) looks
  end.
Definition houseTri (p : polygon R) : triio R :=
  mkTri (twos (ppoints p)) None 3
    (if (length (ppoints p) =? 8)%nat then [[0; 1; 2]; [0; 2; 3]]%Z
     else [[0; 1; 7]; [0; 7; 4]; [1; 2; 6]; [1; 6; 7]; [2; 3; 5]; [2; 5; 6]; [3; 0; 4]; [3; 4; 5]]%Z).
Definition townEnv : builderEnv R :=
  mkEnv (-1000) (/ 1000) (fun _ _ => 100) (fun _ _ _ => 0) (fun _ _ h => h) (fun a b => Rabs (v2x a - v2x b)) 1 1 0 0
    houseTri (fun _ _ t => t).
Definition town : houseEnv R := realHouse (fun _ _ => 100) (fun _ s => s) (fun _ => Some (mkV2 2 2)).
Definition quarter : list (point R) := [mkPoint 0 0; mkPoint 0 4; mkPoint 4 4; mkPoint 4 0].
Definition yard : list (point R) := [mkPoint 1 1; mkPoint 3 1; mkPoint 3 3; mkPoint 1 3].
Definition tower : house nat R := HArea 0%nat quarter.
Definition palace : house nat R := HRelation 1%nat [HArea 2%nat quarter; HArea 2%nat yard].
Definition tile : list (house nat R) := [HNode 2%nat; tower; HRelation 0%nat []; palace; HArea 2%nat quarter].
Definition towerPart : part nat := mkPart 0%nat [(quarter, false)].
Definition palacePart : part nat := mkPart 1%nat [(quarter, false); (yard, true)].
Lemma turns : isClockwise realNums quarter = false /\ isClockwise realNums yard = true.
Proof.
  unfold isClockwise, getArea, quarter, yard. cbn. split; match goal with |- context [Rlt_dec ?a ?b] => destruct (Rlt_dec a b) end; try reflexivity; exfalso; lra.
Qed.
Lemma apart a b : 1 <= Rabs (v2x a - v2x b) \/ 1 <= Rabs (v2y a - v2y b) -> sameVec realNums townEnv a b = false.
Proof.
  intros H. unfold sameVec. change (eEps townEnv) with (/ 1000). change (nabs realNums) with Rabs. change (nsub realNums) with Rminus.
  destruct H; [rewrite rnlt_false by lra; reflexivity|]. rewrite (rnlt_false (Rabs (v2y a - v2y b))) by lra. apply andb_false_r.
Qed.
Lemma rings_tower : ringsOf townEnv town towerPart = [(lineOf quarter, false)].
Proof.
  unfold ringsOf. cbn [towerPart pOutlines List.filter isKept town kInside realHouse map fst snd]. unfold openContour, quarter at 1. cbn [lineOf map last plon plat].
  rewrite apart; [reflexivity|]. right. cbn. unfold Rabs. destruct (Rcase_abs _); lra.
Qed.
Lemma rings_palace : ringsOf townEnv town palacePart = [(lineOf quarter, false); (lineOf yard, true)].
Proof.
  unfold ringsOf. cbn [palacePart pOutlines List.filter isKept town kInside realHouse map fst snd]. unfold openContour, quarter at 1, yard at 1. cbn [lineOf map last plon plat].
  rewrite !apart; [reflexivity| |].
  - left. cbn. unfold Rabs. destruct (Rcase_abs _); lra.
  - right. cbn. unfold Rabs. destruct (Rcase_abs _); lra.
Qed.
Lemma palace_parts : partsOf houseStyles palace = [palacePart].
Proof. cbn [palace partsOf outlinesOf houseStyles hMulti hBuilding andb flat_map areasIn app map]. now rewrite (proj1 turns), (proj2 turns). Qed.
Definition sideb (a b : Z * Z) : bool := (fst a =? fst b)%Z && (snd a =? snd b)%Z.
Lemma sideb_ok a b : sideb a b = true -> a = b.
Proof. destruct a, b. unfold sideb. cbn. rewrite andb_true_iff, !Z.eqb_eq. now intros (-> & ->). Qed.
Lemma tower_fills : fills (eTriangulate townEnv (planOf townEnv town towerPart)) (planOf townEnv town towerPart).
Proof.
  split; [reflexivity|]. unfold planOf. rewrite rings_tower. cbn [map fst]. change (eTriangulate townEnv) with houseTri.
  apply (permb_ok sideb sideb_ok). reflexivity.
Qed.
Lemma palace_fills : fills (eTriangulate townEnv (planOf townEnv town palacePart)) (planOf townEnv town palacePart).
Proof.
  split; [reflexivity|]. unfold planOf. rewrite rings_palace. cbn [map fst]. change (eTriangulate townEnv) with houseTri.
  apply (permb_ok sideb sideb_ok). reflexivity.
Qed.
Lemma tower_draws id : exists ts, length ts = 12%nat /\ partDraws townEnv town houseStyles id towerPart ts 32.
Proof.
  eexists. split; cycle 1.
  - split.
    + split; [|reflexivity]. apply Forall_cons; [discriminate|constructor].
    + exists 102, 112, (fromAbove (eTriangulate townEnv (planOf townEnv town towerPart)) 112), 4%nat,
        (fromBelow (eTriangulate townEnv (planOf townEnv town towerPart)) 102), 4%nat, (walls 102 112 (lineOf quarter)), 24%nat.
      assert (G : goodTri (eTriangulate townEnv (planOf townEnv town towerPart)) /\ length (tpoints (eTriangulate townEnv (planOf townEnv town towerPart))) = 4%nat).
      { unfold planOf. rewrite rings_tower. split; [|reflexivity]. split; [exact I|]. cbn. repeat first [apply Forall_cons|apply Forall_nil|apply conj]; first [lia|apply le_n]. }
      destruct G as (G & L). split; [|split; [|split; [|split; [|split; reflexivity]]]].
      * unfold standsAt. rewrite rings_tower. cbn [lineOf quarter map concat fst app towerPart pOwner houseStyles hMin kEle town realHouse heightOf hHeight].
        unfold heightOf. cbn [hHeight]. destruct (Req_EM_T 12 0); [lra|]. split; lra.
      * unfold roofDraws. cbn [towerPart pOwner houseStyles hRoof]. split; [exact G|]. split; [cbn; lra|]. split; [reflexivity|]. now symmetry.
      * unfold floorDraws. cbn [towerPart pOwner houseStyles hMin]. destruct (Rlt_dec 0 2); [|lra]. split; [exact G|]. split; [cbn; lra|]. split; [reflexivity|]. now symmetry.
      * unfold facadeDraws. cbn [towerPart pOwner houseStyles hFacade]. split; [cbn; lra|]. unfold ringsOnly. rewrite rings_tower. split; [|reflexivity].
        cbn [List.filter map fst snd Bool.eqb app flat_map]. now rewrite app_nil_r.
  - unfold planOf. rewrite rings_tower. reflexivity.
Qed.
Lemma palace_draws id : exists ts, length ts = 20%nat /\ partDraws townEnv town houseStyles id palacePart ts 60.
Proof.
  eexists. split; cycle 1.
  - split.
    + split; [|reflexivity]. apply Forall_cons; [discriminate|]. apply Forall_cons; [discriminate|constructor].
    + exists 100, 110, (tent 110 113 (lineOf quarter)), 12%nat, [], 0%nat, (walls 100 110 (lineOf quarter) ++ walls 100 110 (lineOf yard)), 48%nat.
      split; [|split; [|split; [|split; [|split; reflexivity]]]].
      * unfold standsAt. rewrite rings_palace. cbn [lineOf quarter map concat fst app palacePart pOwner houseStyles hMin kEle town realHouse heightOf hHeight].
        unfold heightOf. cbn [hHeight]. destruct (Req_EM_T 0 0); [|lra]. split; lra.
      * unfold roofDraws. cbn [palacePart pOwner houseStyles hRoof hRoofHeight]. unfold ringsOnly. rewrite rings_palace. split; [|reflexivity].
        cbn [List.filter map fst snd Bool.eqb app flat_map]. rewrite app_nil_r. f_equal. lra.
      * unfold floorDraws. cbn [palacePart pOwner houseStyles hMin]. destruct (Rlt_dec 0 0); [lra|]. split; reflexivity.
      * unfold facadeDraws. cbn [palacePart pOwner houseStyles hFacade]. split; [cbn; lra|]. unfold ringsOnly. rewrite rings_palace. split; [|reflexivity].
        cbn [List.filter map fst snd Bool.eqb app flat_map]. now rewrite app_nil_r.
  - reflexivity.
Qed.
Definition townVisits := visitTops realNums townEnv town N.of_nat (fun _ => false) houseStyles.
Example C68_case : exists s m m', townVisits tile newSite = Ok (s, [(0%nat, m); (1%nat, m')]) /\
  length (drawnIn m) = 12%nat /\ length (drawnIn m') = 20%nat /\ watertight (drawnIn m).
Proof.
  destruct (tower_draws 0) as (ts & L & D). destruct (palace_draws 1) as (ts' & L' & D').
  destruct (C68_tile townEnv (fun _ _ => 100) (fun _ s => s) (fun _ => Some (mkV2 2 2)) N.of_nat (fun _ => false) houseStyles
    ltac:(reflexivity) ltac:(cbn; lra) tile [[(ts, 32%nat)]; [(ts', 60%nat)]] newSite) as (s & ms & V & _ & O & F).
  - split; [reflexivity|]. now left.
  - repeat constructor.
  - change (List.filter _ tile) with [tower; palace]. constructor; [|constructor; [|constructor]].
    + split; [|reflexivity]. constructor; [exact D|constructor].
    + split; [|reflexivity]. rewrite palace_parts. constructor; [exact D'|constructor].
  - change (List.filter _ tile) with [tower; palace] in O. destruct ms as [|[e m] [|[e' m'] [|]]]; try discriminate O. cbn in O. injection O as -> ->.
    inversion F as [|? ? ? ? (_ & _ & K) F']; subst. inversion F' as [|? ? ? ? (_ & _ & K') _]; subst. cbn [map concat fst app snd] in K, K'. rewrite app_nil_r in *.
    exists s, m, m'. split; [exact V|]. rewrite K, K'. split; [exact L|]. split; [exact L'|].
    destruct (C68_closed townEnv (fun _ _ => 100) (fun _ s => s) (fun _ => Some (mkV2 2 2)) houseStyles 0 towerPart ts 32 D eq_refl (or_introl eq_refl) tower_fills)
      as (low & _ & W). unfold openFloor in W. cbn [towerPart pOwner houseStyles hMin] in W. destruct (Rlt_dec 0 2); [|lra]. now rewrite app_nil_r in W.
Qed.
(** Walls, roof and floor of the tower face outwards; those of a house which begins at 20 and has the height 12 do not. *)
Lemma quarter_left : Forall (fun '(a, b) => leftTurn a b (mkV2 2 2)) (around (lineOf quarter)).
Proof. unfold quarter, lineOf, around. cbn [map last combine plon plat]. repeat (apply Forall_cons; [unfold leftTurn; cbn [v2x v2y]; lra|]). constructor. Qed.
Example C68_faces_case : let io := eTriangulate townEnv (planOf townEnv town towerPart) in
  Forall (outward (mkV3 2 105 2)) (walls 102 112 (lineOf quarter)) /\ Forall facesUp (fromAbove io 112) /\ length (fromAbove io 112) = 2%nat /\
  Forall (fun '(u, v, t) => outward (mkV3 2 105 2) (v, u, t)) (walls 120 112 (lineOf quarter)) /\
  Forall (fun '(u, v, t) => outward (mkV3 2 105 2) (v, u, t)) (walls 102 112 (rev (lineOf quarter))).
Proof.
  intros io.
  assert (T : Forall (fun '(a, b, c) => leftTurn (corner2 io a) (corner2 io b) (corner2 io c)) (triples io)).
  { unfold io, planOf. rewrite rings_tower. cbn. repeat first [apply Forall_cons|apply Forall_nil]; unfold leftTurn, corner2; simpl; lra. }
  destruct (C68_faces 102 112 105 (mkV2 2 2) (lineOf quarter) io ltac:(lra) quarter_left T) as (A & B & _).
  split; [exact A|]. split; [exact B|]. split; [unfold io, planOf; rewrite rings_tower; reflexivity|]. split.
  - apply (C68_upside_down_refuted 120 112 105 (mkV2 2 2)); [lra|exact quarter_left].
  - apply (C68_clockwise_refuted 102 112 105 (mkV2 2 2)); [lra|].
    unfold quarter, lineOf, around. cbn [map rev app last combine plon plat]. repeat (apply Forall_cons; [unfold leftTurn; cbn [v2x v2y]; lra|]). constructor.
Qed.
Example C68_courtyard_case : exists ts, partDraws townEnv town houseStyles 1 palacePart ts 60 /\
  ~ watertight (ts ++ openFloor townEnv town houseStyles palacePart 100).
Proof.
  destruct (palace_draws 1) as (ts & _ & D). exists ts. split; [exact D|].
  pose proof rings_palace as RP. unfold town in RP.
  eapply C68_courtyard_refuted; [exact D|reflexivity|reflexivity| | |exact palace_fills|].
  - unfold ringsOnly. rewrite RP. reflexivity.
  - repeat constructor; cbn; intuition; match goal with H : mkV2 _ _ = mkV2 _ _ |- _ => injection H; intros; lra end.
  - unfold standsAt. rewrite RP. cbn [lineOf quarter map concat fst app palacePart pOwner houseStyles hMin kEle town realHouse hHeight].
    unfold heightOf. cbn [hHeight]. destruct (Req_EM_T 0 0); [|lra]. split; lra.
Qed.
Local Notation townVisit := (visitTop realNums townEnv town N.of_nat (fun _ => false) houseStyles).
(** No roof type; a multipolygon of empty relations; one with a way; a relation of nodes. *)
Example C68_refuted_case :
  townVisit (HArea 3%nat quarter) newSite = UB /\
  townVisit (HRelation 1%nat [HRelation 2%nat []]) newSite = UB /\
  townVisit (HRelation 1%nat [HArea 2%nat quarter; HWay 2%nat]) newSite = Throw DomainError /\
  exists s, townVisit (HRelation 2%nat [HNode 2%nat]) newSite = Ok (s, [(2%nat, emptyMesh)]).
Proof.
  assert (C : clean (@newSite R nat)) by (split; [reflexivity|now left]).
  split; [|split; [|split]].
  - apply C68_type_refuted; auto.
  - apply (C68_nothing_refuted _ _ _ _ _ _ _ _ _ (mkPart 1%nat [])); auto. split; [constructor|reflexivity].
  - apply (C68_member_refuted _ _ _ _ _ _ _ 1%nat [HArea 2%nat quarter] (HWay 2%nat) []); auto.
    + repeat constructor. discriminate.
    + exists 2%nat. now right.
  - apply (C68_empty_refuted townEnv (fun _ _ => 100) (fun _ s => s) (fun _ => Some (mkV2 2 2)) N.of_nat (fun _ => false) houseStyles (HRelation 2%nat [HNode 2%nat]) newSite C); reflexivity.
Qed.
