(** C65: the terrain of a tile.  Elements ask for points (TerraSpec.v), the layer with the highest sort order gets
    them and the background gets the rest. *)
From Coq Require Import Sorted Permutation.
From Verif Require Import Base LineGridSpec LineGridProps TerraModel TerraSpec TerraProofs.
Local Open Scope Z_scope.

Section Statements.
  Context {P W G X : Type} (wind : P -> X -> Z).
  Local Notation region := (TerraModel.region (P := P)).
  Context (execute : clipType -> fillType -> fillType -> list P -> list P -> list P) (clean : list P -> list P)
          (widen : W -> list P -> list P) (area2 : P -> Z).
  Context (noTags : G -> bool) (styleOf : kind -> G -> style (W := W)) (hasStyle : kind -> G -> bool).
  Context (canvasContext : name -> context) (canvasOrder : name -> Z) (tile : P).
  Context (sortRegions : (region -> region -> bool) -> list (region) -> list (region))
          (sortLayers : (Z * list (region) -> Z * list (region) -> bool) ->
                        list (Z * list (region)) -> list (Z * list (region))).
  Local Notation covers := (covers wind).
  Local Notation oriented := (oriented wind).
  Local Notation proper := (proper wind noTags hasStyle).
  Local Notation claims := (claims wind widen noTags styleOf hasStyle tile).
  Local Notation claimed := (claimed wind widen noTags styleOf hasStyle tile canvasOrder).
  Local Notation buildTerrain :=
    (buildTerrain execute clean widen area2 noTags styleOf hasStyle canvasContext canvasOrder tile sortRegions sortLayers).
  (** The library works without rounding and std::sort sorts. *)
  Definition exactLibrary : Prop :=
    exactClipper wind execute /\ keepsWinding wind clean /\ sorts sortRegions /\ sorts sortLayers.

  (** A point is in the surface of exactly the highest of the sort orders it is asked for.  Missing: areas which run
      the wrong way round, see [C65_orientation_refuted] and [C65_layer_refuted]. *)
  Theorem C65_highest_partial es t : exactLibrary -> (forall e, In e es -> proper (tagsOf e) e) -> buildTerrain false es = Ok (Some t) ->
    forall o x, (exists s, In s (teSurfaces t) /\ sfOrder s = o /\ covers (sfAll s) x) <->
                (claimed es o x /\ forall o', claimed es o' x -> o' <= o).
  Proof.
    intros (EX & CL & SR & SL) H E. exact (highest wind execute clean widen area2 noTags styleOf hasStyle canvasContext canvasOrder tile sortRegions sortLayers EX CL SR SL es t H E).
  Qed.
  (** No point is in two surfaces. *)
  Theorem C65_alone_partial es t : exactLibrary -> (forall e, In e es -> proper (tagsOf e) e) -> buildTerrain false es = Ok (Some t) ->
    forall s1 s s2 s' x, teSurfaces t = s1 ++ s :: s2 -> In s' s2 -> covers (sfAll s) x -> ~ covers (sfAll s') x.
  Proof.
    intros (EX & CL & SR & SL) H E. exact (alone wind execute clean widen area2 noTags styleOf hasStyle canvasContext canvasOrder tile sortRegions sortLayers EX CL SR SL es t H E).
  Qed.
  (** Paths smaller than 1000 units are not drawn; the background has the points of the tile in no surface drawn, so
      it fills the small ones. *)
  Theorem C65_background_partial es t : exactLibrary -> buildTerrain false es = Ok (Some t) ->
    (forall s, In s (teSurfaces t) -> sfKept s = filter (fun p => 2000 <=? Z.abs (area2 p)) (sfAll s)) /\
    teKept t = filter (fun p => 2000 <=? Z.abs (area2 p)) (teAll t) /\
    ((forall s, In s (teSurfaces t) -> oriented (sfKept s)) ->
     forall x, covers (teAll t) x <-> covers [tile] x /\ forall s, In s (teSurfaces t) -> ~ covers (sfKept s) x).
  Proof.
    intros (EX & CL & SR & SL) E.
    assert (K : forall l : list P, filter (kept area2) l = filter (fun p => 2000 <=? Z.abs (area2 p)) l).
    { intros l. apply filter_ext. intros p. unfold kept. rewrite Z.ltb_antisym. now rewrite negb_involutive. }
    destruct (terrain_drawn wind execute clean widen area2 noTags styleOf hasStyle canvasContext canvasOrder tile sortRegions sortLayers EX CL es t E) as (D & _ & B).
    split; [|split].
    - intros s I. rewrite <- K. exact (drawn_kept execute clean area2 _ _ D s I).
    - now rewrite <- K.
    - exact (background wind execute clean widen area2 noTags styleOf hasStyle canvasContext canvasOrder tile sortRegions sortLayers EX CL es t E).
  Qed.
  (** Without small paths every point of the tile is drawn once: in one surface or in the background. *)
  Theorem C65_once_partial es t : exactLibrary -> (forall e, In e es -> proper (tagsOf e) e) -> buildTerrain false es = Ok (Some t) ->
    (forall s p, In s (teSurfaces t) -> In p (sfAll s) -> 2000 <= Z.abs (area2 p)) -> (forall p, In p (teAll t) -> 2000 <= Z.abs (area2 p)) ->
    forall x, covers [tile] x ->
    (covers (teKept t) x /\ forall s, In s (teSurfaces t) -> ~ covers (sfKept s) x) \/
    (~ covers (teKept t) x /\ exists s1 s s2, teSurfaces t = s1 ++ s :: s2 /\ covers (sfKept s) x /\ forall s', In s' (s1 ++ s2) -> ~ covers (sfKept s') x).
  Proof.
    intros L H E Sm Sb x T. destruct (C65_background_partial es t L E) as (B1 & B2 & B3).
    assert (All : forall l, (forall p, In p l -> 2000 <= Z.abs (area2 p)) -> filter (fun p => 2000 <=? Z.abs (area2 p)) l = l).
    { intros l. induction l as [|p l IH]; intros F; [reflexivity|]. cbn [filter].
      rewrite (proj2 (Z.leb_le _ _) (F p (or_introl eq_refl))), IH; [reflexivity|]. intros q I. apply F. now right. }
    assert (K : forall s, In s (teSurfaces t) -> sfKept s = sfAll s) by (intros s I; rewrite (B1 s I); apply All; intros p; now apply Sm).
    rewrite B2, (All _ Sb).
    assert (O : forall s, In s (teSurfaces t) -> oriented (sfKept s)).
    { intros s I y. rewrite (K s I). destruct L as (EX & CL & SR & SL).
      destruct (terrain_drawn wind execute clean widen area2 noTags styleOf hasStyle canvasContext canvasOrder tile sortRegions sortLayers EX CL es t E) as (D & _ & _).
      clear - EX CL I D. revert I D. generalize (@nil P). induction (teSurfaces t) as [|s0 ss IH]; [intros ? []|]. intros D0 [<- | I] (D1 & _ & D2); [|now apply (IH _ I D2)].
      rewrite D1. rewrite (winding_tidy wind execute clean EX CL _ y _ (winding_difference wind execute EX _ _ y)). destruct (_ && _); cbn; lia. }
    specialize (B3 O x). destruct (covers_dec wind (teAll t) x) as [C | C].
    - left. split; [exact C|]. now apply B3.
    - right. split; [exact C|]. assert (Ex : exists s, In s (teSurfaces t) /\ covers (sfKept s) x).
      { clear - B3 T C. destruct (Exists_dec (fun s => covers (sfKept s) x) (teSurfaces t) (fun s => covers_dec wind (sfKept s) x)) as [Y | N].
        - apply Exists_exists in Y as (s & I & Y). now exists s.
        - exfalso. apply C, B3. split; [exact T|]. intros s I Y. apply N, Exists_exists. now exists s. }
      destruct Ex as (s & I & Cs). apply in_split in I as (s1 & s2 & Es). exists s1, s, s2. split; [exact Es|]. split; [exact Cs|].
      assert (Is : In s (teSurfaces t)) by (rewrite Es; apply in_or_app; right; now left). rewrite (K s Is) in Cs.
      intros s' I C'. assert (Is' : In s' (teSurfaces t)) by (rewrite Es; apply in_app_or in I as [I | I]; apply in_or_app; [left|right; right]; exact I).
      rewrite (K s' Is') in C'. apply in_app_or in I as [I | I].
      + apply in_split in I as (a & b & Ea). revert Cs.
        apply (C65_alone_partial es t L H E a s' (b ++ s :: s2) s x); [rewrite Es, Ea, <- app_assoc; reflexivity|apply in_or_app; right; now left|exact C'].
      + revert C'. exact (C65_alone_partial es t L H E s1 s s2 s' x Es I Cs).
  Qed.
  (** The layers of one sort order: a point claimed once for an order is in a region of a layer with it.  What is
      drawn is total when no style has an empty terrain-layer and all extras are known. *)
  Theorem C65_total_partial es : exactLibrary -> (forall k g, sLayer (styleOf k g) <> Some []) ->
    (forall k, (exists q g, k = sContext (styleOf q g)) \/ (exists n, k = canvasContext n) ->
               cExtras k = [] \/ cExtras k = forestName \/ cExtras k = waterName) ->
    exists t, buildTerrain false es = Ok (Some t).
  Proof.
    intros (EX & CL & SR & SL) L K. apply (terrain_total wind execute clean widen area2 noTags styleOf hasStyle canvasContext canvasOrder tile sortRegions sortLayers EX SR SL es L).
    - intros k g. apply K. left. now exists k, g.
    - intros n. apply K. right. now exists n.
  Qed.
  (** Every surface drawn is one polygon in the mesh its style names; walls of a height offset are in the mesh of the
      terrain (the empty name) whatever the style names. *)
  Theorem C65_parts es t : buildTerrain false es = Ok (Some t) ->
    (forall s, In s (teSurfaces t) -> exists k, rContext (sfRegion s) = Some k /\
       filter (fun p => negb (pWalls p)) (sfParts s) = match sfKept s with [] => [] | _ => [mkPart (cMesh k) false (sfKept s)] end /\
       filter pWalls (sfParts s) = (if cRaised k then map (fun p => mkPart [] true [p]) (sfKept s) else [])) /\
    exists back, teParts t = flat_map sfParts (teSurfaces t) ++ back /\
       filter (fun p => negb (pWalls p)) back = match teKept t with [] => [] | _ => [mkPart (cMesh (canvasContext [])) false (teKept t)] end.
  Proof.
    intros E. destruct (terrain_parts execute clean widen area2 noTags styleOf hasStyle canvasContext canvasOrder tile sortRegions sortLayers es t E) as (F & B).
    assert (W1 : forall ps : list P, filter pWalls (map (fun p => mkPart [] true [p]) ps) = map (fun p => mkPart [] true [p]) ps /\
                                     filter (fun p => negb (pWalls p)) (map (fun p => mkPart [] true [p]) ps) = []).
    { induction ps as [|p ps (I1 & I2)]; cbn; [now split|]. rewrite I1, I2. now split. }
    split.
    - intros s I. rewrite Forall_forall in F. destruct (F s I) as (k & R & ->). exists k. split; [exact R|]. rewrite !filter_app.
      destruct (W1 (sfKept s)) as (E1 & E2). destruct (cRaised k); rewrite ?E1, ?E2; destruct (sfKept s); cbn; split; try reflexivity; now rewrite ?app_nil_r.
    - eexists. split; [exact B|]. cbv zeta. rewrite filter_app. destruct (W1 (teKept t)) as (_ & E2).
      destruct (cRaised (canvasContext [])); rewrite ?E2; destruct (teKept t); reflexivity.
  Qed.
  (** terrain-layer with an empty value (as of a tag with an empty value) gives a region without context: a null pointer is read. *)
  Theorem C65_null_refuted g p : exactLibrary -> sLayer (styleOf KArea g) = Some [] -> buildTerrain false [Area g p] = UB.
  Proof.
    intros (EX & CL & SR & SL) L. set (r := mkRegion (sLevel (styleOf KArea g)) 0 None [p]).
    assert (V : bLayers (fold_left (visit execute widen noTags styleOf hasStyle) [Area g p] (newBuilder tile)) = [([], [r])]).
    { cbn [fold_left]. unfold visit. cbn [visitAs tagsOf]. unfold visitArea, addRegion, createRegion, isLayer, contextOf. cbn [rContext].
      rewrite L. reflexivity. }
    unfold TerraModel.buildTerrain, complete, finishLayers. rewrite V. cbn [map].
    assert (El : finishLayer execute area2 canvasContext canvasOrder sortRegions ([], [r]) = (0, [r])).
    { unfold finishLayer. cbn [fst snd]. destruct (SR lessThanByArea [r] weak_area) as (Pm & _).
      apply Permutation_length_1_inv in Pm. now rewrite Pm. }
    rewrite El. destruct (SL moreThanSortOrder [(0, [r])] weak_order) as (Pm & _). apply Permutation_length_1_inv in Pm. rewrite Pm. reflexivity.
  Qed.
End Statements.
Print Assumptions C65_highest_partial.
Print Assumptions C65_alone_partial.
Print Assumptions C65_background_partial.
Print Assumptions C65_once_partial.
Print Assumptions C65_total_partial.
Print Assumptions C65_parts.
Print Assumptions C65_null_refuted.

(** A library for rows of cells: a path is a direction and the cells inside, a cell has the area 400. *)
Definition cellPath : Type := Z * list Z.
Definition cellWind (p : cellPath) (x : Z) : Z := fst p * Z.of_nat (count_occ Z.eq_dec (snd p) x).
Definition cellArea2 (p : cellPath) : Z := fst p * 800 * Z.of_nat (List.length (snd p)).
Definition cellExecute (op : clipType) (fs fc : fillType) (s c : list cellPath) : list cellPath :=
  match filter (fun x => operate op (filled fs (winding cellWind s x)) (filled fc (winding cellWind c x)))
               (nodup Z.eq_dec (flat_map snd (s ++ c))) with
  | [] => []
  | l => [(1, l)]
  end.
Lemma cell_outside (s : list cellPath) x : ~ In x (flat_map snd s) -> winding cellWind s x = 0.
Proof.
  induction s as [|p s IH]; intros H; [reflexivity|]. cbn in H |- *. rewrite in_app_iff in H. rewrite IH by tauto.
  unfold cellWind. rewrite (proj1 (count_occ_not_In Z.eq_dec (snd p) x)) by tauto. lia.
Qed.
Lemma cell_exact : exactClipper cellWind cellExecute.
Proof.
  intros op fs fc s c x. unfold cellExecute.
  set (f := fun x => operate op (filled fs (winding cellWind s x)) (filled fc (winding cellWind c x))).
  change (operate op (filled fs (winding cellWind s x)) (filled fc (winding cellWind c x))) with (f x).
  set (l := nodup Z.eq_dec (flat_map snd (s ++ c))).
  assert (H : winding cellWind (match filter f l with [] => [] | l => [(1, l)] end) x = Z.of_nat (count_occ Z.eq_dec (filter f l) x)).
  { destruct (filter f l) eqn:E; [reflexivity|]. cbn [winding]. unfold cellWind. cbn [fst snd]. lia. }
  rewrite H. clear H.
  assert (N : NoDup (filter f l)) by (apply NoDup_filter, NoDup_nodup).
  destruct (f x) eqn:F.
  - assert (I : In x (filter f l)).
    { apply filter_In. split; [|exact F]. apply nodup_In. destruct (in_dec Z.eq_dec x (flat_map snd (s ++ c))) as [I | I]; [exact I|].
      rewrite flat_map_app, in_app_iff in I. unfold f in F. rewrite (cell_outside s), (cell_outside c) in F by tauto.
      destruct op, fs, fc; discriminate F. }
    rewrite (proj1 (NoDup_count_occ' Z.eq_dec _) N x I). reflexivity.
  - rewrite (proj1 (count_occ_not_In Z.eq_dec _ _)); [reflexivity|]. intros I. apply filter_In in I as (_ & I). congruence.
Qed.
(** Tags are the number of a rule: 0 no tags, 1 and 2 layers "a" and "b", 3 a surface of its own, 4 the same with a mesh
    and a height offset, 5 unknown extras, 6 an empty layer. *)
Definition cellStyle (k : kind) (g : N) : style :=
  mkStyle (if (g =? 1)%N then Some [97%N] else if (g =? 2)%N then Some [98%N] else if (g =? 6)%N then Some [] else None) 0 1
    (if (g =? 4)%N then mkContext [109%N] [] true else if (g =? 5)%N then mkContext [] [120%N] false else mkContext [] [] false).
Definition cellWiden (w : Z) (ps : list cellPath) : list cellPath :=
  map (fun p => (1, nodup Z.eq_dec (flat_map (fun x => [x - w; x; x + w]) (snd p)))) ps.
Definition cellTile : cellPath := (1, [0; 1; 2; 3; 4; 5; 6; 7; 8; 9; 10; 11; 12; 13]).
Definition cellOrder (n : name) : Z := if name_eqb n [97%N] then 7 else 5.
Definition cellTerrain (es : list (element (P := cellPath) (G := N))) : outcome (option terrain) :=
  buildTerrain cellExecute (fun ps => ps) cellWiden cellArea2 (fun g => (g =? 0)%N) cellStyle (fun _ g => negb (g =? 9)%N)
    (fun _ => mkContext [] [] false) cellOrder cellTile insertionSort insertionSort false es.
Lemma cell_library : exactLibrary cellWind cellExecute (fun ps => ps) insertionSort insertionSort.
Proof. split; [exact cell_exact|]. split; [intros ps x; reflexivity|]. split; apply insertion_sorts. Qed.

(** Who gets the cells: by sort order and path, and the background. *)
Definition drawnBy (t : outcome (option (terrain (P := cellPath)))) : list (Z * list Z) * list Z :=
  match t with
  | Ok (Some t) => (map (fun s => (sfOrder s, flat_map snd (sfKept s))) (teSurfaces t), flat_map snd (teKept t))
  | _ => ([], [])
  end.
Local Notation cellProper := (proper cellWind (fun g => (g =? 0)%N) (fun _ g => negb (g =? 9)%N)).
Lemma cell_nonneg l : oriented cellWind [(1, l)].
Proof. intros x. cbn [winding]. unfold cellWind. cbn [fst]. lia. Qed.
(** An area of its own, a relation of the layer "a" with a hole, and a way of the layer "b" wider than it is drawn. *)
Definition cellElements : list (element (P := cellPath) (G := N)) :=
  [ Area 3%N (1, [3; 4; 5; 6; 7; 8; 9; 10; 11; 12]); Relation 1%N [Area 0%N (1, [1; 2; 3; 4; 5]); Area 0%N (-1, [2]); Area 9%N (1, [8])];
    Way 2%N (1, [6; 8]) ].
Example C65_case :
  exactLibrary cellWind cellExecute (fun ps => ps) insertionSort insertionSort /\
  (forall e, In e cellElements -> cellProper (tagsOf e) e) /\
  (exists t, cellTerrain cellElements = Ok (Some t) /\ (forall s, In s (teSurfaces t) -> oriented cellWind (sfKept s)) /\
    (forall s p, In s (teSurfaces t) -> In p (sfAll s) -> 2000 <= Z.abs (cellArea2 p)) /\ (forall p, In p (teAll t) -> 2000 <= Z.abs (cellArea2 p))) /\
  drawnBy (cellTerrain cellElements) = ([(7, [1; 3; 4; 5]); (5, [6; 7; 8; 9]); (0, [10; 11; 12])], [0; 2; 13]) /\
  (** with an area of the layer "b" too small to be drawn *)
  drawnBy (cellTerrain (firstn 2 cellElements ++ [Area 2%N (1, [6; 7])])) = ([(7, [1; 3; 4; 5]); (5, []); (0, [8; 9; 10; 11; 12])], [0; 2; 6; 7; 13]).
Proof.
  split; [exact cell_library|]. split; [|split; [|split; vm_compute; reflexivity]].
  - intros e [<- | [<- | [<- | []]]]; constructor; try apply cell_nonneg.
    + intros x. change (0 <= winding cellWind [(1, [1; 2; 3; 4; 5]); (-1, [2])] x). cbn [winding]. unfold cellWind. cbn [fst snd count_occ].
      destruct (Z.eq_dec 1 x), (Z.eq_dec 2 x), (Z.eq_dec 3 x), (Z.eq_dec 4 x), (Z.eq_dec 5 x); lia.
    + intros m [<- | [<- | [<- | []]]]; now cbn.
  - eexists. split; [vm_compute; reflexivity|]. cbn [teSurfaces teAll]. split; [|split].
    + intros s [<- | [<- | [<- | []]]]; apply cell_nonneg.
    + intros s p [<- | [<- | [<- | []]]] [<- | []]; vm_compute; discriminate.
    + intros p [<- | []]; vm_compute; discriminate.
Qed.
(** Areas that run in opposite directions: where two of them overlap the clip of the foreground cancels out and a third
    one is drawn on top of the first. *)
Theorem C65_orientation_refuted : exists es t x s1 s2 s3,
  exactLibrary cellWind cellExecute (fun ps => ps) insertionSort insertionSort /\ cellTerrain es = Ok (Some t) /\
  teSurfaces t = [s1; s2; s3] /\ covers cellWind (sfKept s1) x /\ covers cellWind (sfKept s3) x.
Proof.
  exists [Area 3%N (1, [0; 1; 2; 3; 4; 5]); Area 3%N (-1, [3; 4; 5; 6; 7; 8]); Area 3%N (1, [3; 4; 5])].
  do 5 eexists. split; [exact cell_library|]. split; [vm_compute; reflexivity|]. split; [reflexivity|].
  instantiate (1 := 4). split; vm_compute; discriminate.
Qed.
Print Assumptions C65_orientation_refuted.
(** Two overlapping areas of one layer that run in opposite directions: their overlap is background. *)
Theorem C65_layer_refuted : exists p q t x,
  exactLibrary cellWind cellExecute (fun ps => ps) insertionSort insertionSort /\ cellTerrain [Area 1%N p; Area 1%N q] = Ok (Some t) /\
  covers cellWind [p] x /\ covers cellWind [q] x /\ covers cellWind (teKept t) x /\ forall s, In s (teSurfaces t) -> ~ covers cellWind (sfAll s) x.
Proof.
  exists (1, [0; 1; 2; 3; 4; 5]), (-1, [3; 4; 5; 6; 7; 8]). eexists. exists 4. split; [exact cell_library|].
  split; [vm_compute; reflexivity|]. repeat split; try (vm_compute; discriminate).
  intros s [<- | []] C. apply C. vm_compute. reflexivity.
Qed.
Print Assumptions C65_layer_refuted.
(** Regions outside of layers are to be sorted by area, but theirs is never computed: a large one before a small one
    hides it. *)
Theorem C65_area_refuted : exists big small t s1 s2,
  exactLibrary cellWind cellExecute (fun ps => ps) insertionSort insertionSort /\
  cellTerrain [Area 3%N big; Area 3%N small] = Ok (Some t) /\ teSurfaces t = [s1; s2] /\
  2000 <= cellArea2 small < cellArea2 big /\ sfKept s1 = [big] /\ sfAll s2 = [].
Proof.
  exists (1, [0; 1; 2; 3; 4; 5]), (1, [3; 4; 5]). do 3 eexists. split; [exact cell_library|]. split; [vm_compute; reflexivity|].
  repeat split; vm_compute; congruence.
Qed.
Print Assumptions C65_area_refuted.
(** Unknown extras end the building of the tile, walls of a region with a mesh are in the mesh of the terrain. *)
Theorem C65_extras_refuted : exists p, cellTerrain [Area 5%N p] = Throw OutOfRange.
Proof. exists (1, [0; 1; 2]). vm_compute. reflexivity. Qed.
Print Assumptions C65_extras_refuted.
Theorem C65_walls_refuted : exists p t s k,
  cellTerrain [Area 4%N p] = Ok (Some t) /\ teSurfaces t = [s] /\ rContext (sfRegion s) = Some k /\ cMesh k <> [] /\
  sfParts s = [mkPart [] true [p]; mkPart (cMesh k) false [p]].
Proof. exists (1, [0; 1; 2]). do 3 eexists. repeat split; try (vm_compute; reflexivity). discriminate. Qed.
Print Assumptions C65_walls_refuted.
