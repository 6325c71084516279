(** Theorems about trees made by L-systems: their appearances, what is put into the mesh and its shape. *)
From Coq Require Import Reals Lra Lia Permutation.
From Verif Require Import Base Bytes GeoModel RingModel MeshBuildModel MeshBuildSpec QuatModel QuatSpec
  GenModel GenSpec GenCylinderProofs MetreModel LsysModel LsysParseModel PlaneSpec RowModel RowSpec TreeModel TreeSpec
  RowProofs TreeProofs TreeShapes.
Local Open Scope nat_scope.

(** A text is split into the parts between its separators: they are the only parts without a separator which give the text
    when put together. *)
Theorem C72_split : forall c s l, splitBy c s = l <-> partsOf c s l.
Proof. intros c s l. rewrite parts_iff. split; congruence. Qed.
Print Assumptions C72_split.
Example C72_split_case : splitBy 44 [49; 44; 44; 50; 44]%N = [[49]; []; [50]; []]%N /\ splitBy 44 [] = [[]].
Proof. now split. Qed.

(** A texture index is a number below 2^16 in digits with an optional sign; a negative number counts down from 2^16. *)
Theorem C72_short : forall bs v, castShort bs = Some v <-> shortText bs v.
Proof. exact cast_short. Qed.
Print Assumptions C72_short.
Example C72_short_case : castShort [48; 49; 50]%N = Some 12%N /\ castShort [45; 49]%N = Some 65535%N /\
  castShort [54; 53; 53; 51; 54]%N = None /\ castShort [32; 49]%N = None.
Proof. repeat split. Qed.

Section Looks.
  Context {T : Type} (n : nums T) (te : treeEnv T).

  (** The appearances of a tree are exactly those of its colors, each with the texture index, type and scale in the same
      place of the other lists. *)
  Theorem C72_looks : forall st colors indices types scales looks,
    partsOf 44 (tsColors st) colors -> partsOf 44 (tsIndices st) indices -> partsOf 44 (tsTypes st) types ->
    partsOf 44 (tsScales st) scales ->
    createAppearances n te st = Ok looks <-> looksFrom n te colors indices types scales looks.
  Proof. exact (appearances_ok n te). Qed.
  (** There is at least one. *)
  Theorem C72_looks_some : forall st looks, createAppearances n te st = Ok looks -> looks <> [].
  Proof. exact (appearances_some n te). Qed.
  (** Otherwise an exception is thrown. *)
  Theorem C72_looks_throws : forall st,
    (forall b, teGradient te b <> UB) -> (forall i b, teTexture te i b <> UB) ->
    (exists looks, createAppearances n te st = Ok looks) \/ exists e, createAppearances n te st = Throw e.
  Proof.
    intros st Dg Dt. assert (D : createAppearances n te st <> UB) by (apply looks_defined; assumption).
    destruct (createAppearances n te st); [left|right|contradiction]; eauto.
  Qed.

  (** A shorter list of indices, types or scales is not enough: there are no appearances at all, even if the missing ones would
      never be used. *)
  Theorem C72_missing_refuted : forall st colors indices types scales looks,
    partsOf 44 (tsColors st) colors -> partsOf 44 (tsIndices st) indices -> partsOf 44 (tsTypes st) types ->
    partsOf 44 (tsScales st) scales ->
    length indices < length colors \/ length types < length colors \/ length scales < length colors ->
    createAppearances n te st <> Ok looks.
  Proof.
    intros st colors indices types scales looks P1 P2 P3 P4 S E. apply (appearances_ok n te st _ _ _ _ _ P1 P2 P3 P4) in E.
    destruct E as (L & H). assert (Short : exists i, i < length colors /\ (length indices <= i \/ length types <= i \/ length scales <= i)).
    { exists (length colors - 1). lia. }
    destruct Short as (i & I & Short). rewrite <- L in I. apply nth_error_Some in I.
    destruct (nth_error looks i) as [look|] eqn:N; [|contradiction].
    destruct (H i look N) as (color & index & type & scale & N1 & N2 & N3 & N4 & _).
    assert (B : forall (l : list bytes) x, nth_error l i = Some x -> i < length l) by (intros l x Q; apply nth_error_Some; congruence).
    apply B in N2, N3, N4. lia.
  Qed.
End Looks.
Print Assumptions C72_looks.
Print Assumptions C72_looks_some.
Print Assumptions C72_looks_throws.
Print Assumptions C72_missing_refuted.

(** Colors of several stops, gradient(a, b), cannot be given: no text with a comma is ever looked up as a gradient or type of
    texture, so what these are does not matter. *)
Theorem C72_gradient_refuted : forall T (n : nums T) te te' st,
  (forall b, ~ In 44%N b -> teGradient te b = teGradient te' b) ->
  (forall i b, ~ In 44%N b -> teTexture te i b = teTexture te' i b) ->
  (forall b, ~ In 44%N b -> teDouble te b = teDouble te' b) ->
  createAppearances n te st = createAppearances n te' st.
Proof.
  intros T n te te' st Hg Ht Hd. unfold createAppearances. generalize (seq 0 (length (splitBy 44 (tsColors st)))). intros l.
  assert (P : forall s i p, nth_error (splitBy 44 s) i = Some p -> ~ In 44%N p).
  { intros s i p E. destruct (split_parts 44 s) as (_ & _ & F). apply nth_error_In in E. exact (proj1 (Forall_forall _ _) F p E). }
  assert (Q : forall i, lookNo n te (splitBy 44 (tsColors st)) (splitBy 44 (tsIndices st)) (splitBy 44 (tsTypes st)) (splitBy 44 (tsScales st)) i =
    lookNo n te' (splitBy 44 (tsColors st)) (splitBy 44 (tsIndices st)) (splitBy 44 (tsTypes st)) (splitBy 44 (tsScales st)) i).
  { intros i. unfold lookNo, atOf. destruct (nth_error (splitBy 44 (tsIndices st)) i); [cbn [bind]|reflexivity].
    destruct (castOf _); [cbn [bind]|reflexivity|reflexivity].
    destruct (nth_error (splitBy 44 (tsColors st)) i) as [c|] eqn:E; [cbn [bind]|reflexivity]. rewrite (Hg c) by exact (P _ _ _ E).
    destruct (teGradient te' c); [cbn [bind]|reflexivity|reflexivity].
    destruct (nth_error (splitBy 44 (tsTypes st)) i) as [t|] eqn:E2; [cbn [bind]|reflexivity]. rewrite (Ht _ t) by exact (P _ _ _ E2).
    destruct (teTexture te' _ t); [cbn [bind]|reflexivity|reflexivity].
    destruct (nth_error (splitBy 44 (tsScales st)) i) as [s|] eqn:E3; [cbn [bind]|reflexivity]. now rewrite (Hd s) by exact (P _ _ _ E3). }
  induction l as [|i l IH]; [reflexivity|]. cbn [looksOf]. now rewrite Q, IH.
Qed.
Print Assumptions C72_gradient_refuted.

(** The style switched to inside of brackets stays in use behind them, though the state is put back. *)
Theorem C72_brackets_refuted : forall T (n : nums T) (k : trig T) angle scale around t,
  exists t', exec n k angle scale around [Save; SwitchStyle; Restore; Forward] t = Ok t' /\
    drawn t' = drawn t ++ [mkDrawing Cylinder (cur t) (S (ttexture (cur t)))].
Proof. intros. eexists. now split. Qed.
Print Assumptions C72_brackets_refuted.

(** * The mesh *)
Section Tree.
  Context {T : Type} (n : nums T) (k : trig T) (g : gens T) (c : metres T) (env : builderEnv T) (te : treeEnv T).
  (** What the turtle draws for a system. *)
  Local Notation growing rank sys pick size := (run n k (deg2Rad n c (angleOf sys)) (scaleOf sys) (deg2Rad n c (m180 c)) rank
    (productionsOf sys) pick (generationsOf sys) (axiomOf sys) (initTurtle n k size)).

  Lemma drawing_count tr d ts : (forall x, nlt n x x = false) -> drawingTriangles n k g tr d = Ok ts -> length ts <= 80.
  Proof.
    intros I. unfold drawingTriangles. destruct (dshape d).
    - rewrite (cylinder_grid n k g _ 1%Z) by (apply segments_one; [reflexivity|exact I]). intros E. apply ok_inj in E. rewrite <- E. eapply Nat.le_trans; [apply Nat.eq_le_incl, grid_count; lia|].
      cbn [cradial]. destruct (capped _ _ _); cbn; lia.
    - rewrite (cylinder_grid n k g _ 1%Z) by (apply segments_one; [reflexivity|exact I]). intros E. apply ok_inj in E. rewrite <- E. eapply Nat.le_trans; [apply Nat.eq_le_incl, grid_count; lia|].
      cbn [cradial]. destruct (capped _ _ _); cbn; lia.
    - intros E. destruct (GenProps.C63_sphere_closed T n k g tr (tpos (dstate d)) (treeSize (dstate d)) 1) as (ts' & E' & N & _); [lia|].
      rewrite E in E'. apply ok_inj in E'. rewrite E', N. cbn. lia.
  Qed.

  (** A tree is added to a mesh: for every drawing of the turtle, in order, its triangles with the color of the appearance
      used in turn, and the texture of it; what was in the mesh before stays. *)
  Theorem C72_tree : forall rank sys pick st looks position elevation (m : bmesh T) q t,
    (forall x, nlt n x x = false) -> wellFormed m q -> goodMap m -> covered m = Z.of_nat (length (buvs m)) ->
    createAppearances n te st = Ok looks -> growing rank sys pick (tsSize st) = Ok t ->
    (2 * Z.of_nat (q + 240 * length (drawn t)) < 2 ^ 31)%Z ->
    exists ps m', addTree n k g c env te rank sys pick st position elevation m = Ok m' /\
      Forall2 (fun d p => inTurnOf looks (dstyle d) (fst p) /\
        drawingTriangles n k g (treeTranslate n k c position elevation) d = Ok (snd p)) (drawn t) ps /\
      wellFormed m' (q + cornersIn ps) /\ goodMap m' /\ covered m' = Z.of_nat (length (buvs m')) /\
      faces m' = faces m ++ flat_map (facesIn n k env) ps /\
      (forall i, (0 <= i < 2 * Z.of_nat q)%Z -> textureAt m' i = textureAt m i) /\
      (forall ps1 p ps2 i, ps = ps1 ++ p :: ps2 ->
         (2 * Z.of_nat (q + cornersIn ps1) <= i < 2 * Z.of_nat (q + cornersIn (ps1 ++ [p])))%Z ->
         textureAt m' i = Some (textureOf (fst p))).
  Proof.
    intros rank sys pick st looks position elevation m q t I W G C El Er B.
    pose proof (appearances_some n te st looks El) as Ne.
    destruct (parts_exist n k g (treeTranslate n k c position elevation) looks (drawn t) Ne I) as (ps & F).
    assert (Cn : cornersIn ps <= 240 * length (drawn t)).
    { clear -F I. unfold cornersIn. induction F as [|d p ds ps (_ & E) F IH]; [cbn; lia|]. cbn [flat_map length]. rewrite app_length.
      apply (drawing_count _ _ _ I) in E. lia. }
    destruct (parts_run n k env ps m q W G C) as (m' & E & H); [lia|].
    exists ps, m'. split; [|split; [exact F|exact H]].
    unfold addTree. rewrite El. cbn [bind].
    destruct (by_index looks 0 Ne) as (l0 & -> & _). destruct (by_index looks 1 Ne) as (l1 & -> & _). cbn [bind].
    rewrite Er. cbn [bind]. rewrite (drawings_ops n k g env _ looks (drawn t) ps F). cbn [bind]. exact E.
  Qed.
  (** Nothing is added if the appearances are wrong or the system cannot be run. *)
  Theorem C72_tree_only : forall rank sys pick st position elevation (m m' : bmesh T),
    addTree n k g c env te rank sys pick st position elevation m = Ok m' ->
    (exists looks, createAppearances n te st = Ok looks) /\ exists t, growing rank sys pick (tsSize st) = Ok t.
  Proof.
    intros rank sys pick st position elevation m m'. unfold addTree. destruct (createAppearances n te st) as [looks| |]; [cbn [bind]|discriminate|discriminate].
    destruct (lookByIndex looks 0); [cbn [bind]|discriminate|discriminate]. destruct (lookByIndex looks 1); [cbn [bind]|discriminate|discriminate].
    destruct (run n k _ _ _ _ _ _ _ _ _) as [t| |]; [|discriminate|discriminate]. eauto.
  Qed.
  (** The tree of a node stands on the ground below it; a system which is not known is an error of the stylesheet. *)
  Theorem C72_node : forall rank sys pick st p,
    treeNode n k g c env te rank (Some sys) pick st p = addTree n k g c env te rank sys pick st p (eElevation env (plat p) (plon p)) emptyMesh /\
    treeNode n k g c env te rank None pick st p = Throw MapcssError.
  Proof. now split. Qed.
End Tree.
Print Assumptions C72_tree.
Print Assumptions C72_tree_only.
Print Assumptions C72_node.

(** * The shape *)
Local Open Scope R_scope.
Local Notation placed p h := (treeTranslate realNums realTrig realMetres p h).
Local Notation shapeAt tr d := (drawingTriangles realNums realTrig realGens tr d).

(** What a reader of the mesh sees is what was in it and the triangles of the parts. *)
Theorem C72_seen : forall env (m m' : bmesh R) ps, faces m' = faces m ++ flat_map (facesIn realNums realTrig env) ps ->
  drawnIn m' = drawnIn m ++ flat_map snd ps.
Proof. intros env m m' ps E. unfold drawnIn. now rewrite E, flat_map_app, seen_parts. Qed.
Print Assumptions C72_seen.

(** Everything drawn where direction and right hand are perpendicular is closed and seen from outside, in any direction and
    anywhere but at the poles: 28 triangles of a cylinder, 21 of a cone (some of them without area at the tip) and 80 of a
    sphere. *)
Theorem C72_solid : forall p h d, 0 < cos (PI * plat p / 180) -> sizedState (dstate d) ->
  (dshape d = Cylinder -> / 2 ^ 52 <= twidth (dstate d) \/ / 2 ^ 52 <= tlength (dstate d)) ->
  exists ts, shapeAt (placed p h) d = Ok ts /\ length ts = trianglesOf (dshape d) /\ watertight ts /\
    Forall (fun t => outward (placed p h (middleAt d)) t \/ dshape d = Cone /\ let '(_, p, q) := t in p = q) ts.
Proof. intros p h d C S E. apply drawing_solid; [exact S|now apply translate_keeps|exact E]. Qed.
Print Assumptions C72_solid.

(** All drawings of a system which never pitches nor rolls are such drawings. *)
Theorem C72_reachable : forall W angle scale around rank (ps : productions W) pick gens axiom size t, 0 < scale -> 0 < size ->
  Forall noPitch axiom -> Forall (fun p => Forall (fun s => Forall noPitch (snd s)) (snd p)) ps ->
  run realNums realTrig angle scale around rank ps pick gens axiom (initTurtle realNums realTrig size) = Ok t ->
  Forall (fun d => sizedState (dstate d)) (drawn t).
Proof.
  intros W angle scale around rank ps pick gens axiom size t Sc Sz Fa Fp R.
  apply (run_sized angle scale around rank ps pick gens axiom _ t Sc Fa Fp (init_sized size Sz)) in R. apply R.
Qed.
Print Assumptions C72_reachable.

(** After pitching by [a] a cylinder is not as wide as it should be: its corners are at the distance |cos a| * width of its
    axis (or on it), and its rings are moved by sin a * width along the axis.  At a right angle it has no width at all. *)
Theorem C72_pitched_refuted : forall a s, upright s -> let p := pitch realNums realTrig a s in
  exists ts, shapeAt (fun v => v) (mkDrawing Cylinder p 0) = Ok ts /\
    Forall (fun t => Forall (fun v =>
      exists l r, (l = 0 \/ l = tlength s) /\ (r = 0 \/ r = twidth s) /\
        dot3 (vsub v (tpos p)) (tdir p) = l + sin a * r /\
        dot3 (vsub v (tpos p)) (vsub v (tpos p)) = (l + sin a * r) * (l + sin a * r) + (cos a * r) * (cos a * r)) (cornersOf t)) ts.
Proof. exact pitched_corners. Qed.
Print Assumptions C72_pitched_refuted.
Example C72_pitched_case : forall size, upright (initState realNums realTrig size) /\ cos (PI / 2) = 0.
Proof. intros size. split; [|apply cos_PI2]. unfold upright, dot3. cbn. repeat split; ring. Qed.

(** A tree elsewhere is the same tree as many metres away: the longitudes are stretched if the latitude is another one. *)
Theorem C72_place : forall p h p' h' d, cos (PI * plat p / 180) <> 0 -> cos (PI * plat p' / 180) <> 0 ->
  exists ts, shapeAt (placed p h) d = Ok ts /\ shapeAt (placed p' h') d = Ok (map (mapTri (elsewhere p h p' h')) ts).
Proof.
  intros p h p' h' d A B. destruct (drawing_map (placed p h) d) as (ts & E0 & E). exists (map (mapTri (placed p h)) ts). split; [exact E|].
  destruct (drawing_map (placed p' h') d) as (ts' & E0' & E'). rewrite E0 in E0'. apply ok_inj in E0'. rewrite E', <- E0', map_map.
  apply (f_equal Ok), map_ext. intros [[x y] z]. cbn [mapTri]. now rewrite <- !translate_twice.
Qed.
Print Assumptions C72_place.

(** The colors a and b with textures. *)
Definition exTrees : treeEnv R := mkTreeEnv (fun b => if Nat.eqb (length b) 1 then Ok (fun _ => 7%Z) else Throw MapcssError)
  (fun i b => Ok (mkRegion 100 100 (Z.of_N i) 0 10 10)) (fun b => match b with [49%N] => Some 1 | [50%N] => Some 2 | _ => None end).
Definition exTreeStyle : treeStyle R := mkTreeStyle [97; 44; 98]%N [48; 44; 49]%N [120; 44; 121]%N [49; 44; 50]%N 3.
Example C72_looks_case : exists a b, createAppearances realNums exTrees exTreeStyle = Ok [a; b] /\ lscale b = 2 /\ rx (lregion b) = 1%Z /\
  createAppearances realNums exTrees (mkTreeStyle [97; 44; 98]%N [48]%N [120; 44; 121]%N [49; 44; 50]%N 3) = Throw OutOfRange.
Proof. eexists _, _. repeat split. Qed.
(** A trunk, a branch with a sphere at its end and a cone on top, at the equator. *)
Definition exPlant : @lsystem R := mkLsystem 0 30 2 [Forward; Save; TurnLeft; Forward; Word sphereWord; Restore; Word coneWord] [].
Definition exSpot : point R := mkPoint 0 10.
Example C72_case : forall env, exists (ps : list (@part R)) (m' : bmesh R),
  addTree realNums realTrig realGens realMetres env exTrees (fun x => x) exPlant (fun _ _ => O) exTreeStyle exSpot 5 emptyMesh = Ok m' /\
  length ps = 4%nat /\ drawnIn m' = flat_map snd ps /\ Forall (fun p => watertight (snd p)) ps /\ length (drawnIn m') = 157%nat.
Proof.
  intros env. assert (Cs : 0 < cos (PI * plat exSpot / 180)).
  { cbn [exSpot plat]. replace (PI * 0 / 180) with 0 by field. rewrite cos_0. lra. }
  destruct (run realNums realTrig (deg2Rad realNums realMetres (angleOf exPlant)) (scaleOf exPlant) (deg2Rad realNums realMetres (m180 realMetres)) (fun x => x)
    (productionsOf exPlant) (fun _ _ => O) (generationsOf exPlant) (axiomOf exPlant) (initTurtle realNums realTrig (tsSize exTreeStyle))) as [t| |] eqn:Er;
    [|discriminate|discriminate].
  assert (Len : map (@dshape R) (drawn t) = [Cylinder; Cylinder; Sphere; Cone] /\ Forall (fun d => tlength (dstate d) = 3) (drawn t))
    by (injection Er as <-; split; [reflexivity|repeat constructor]).
  destruct Len as (Ls & L3).
  assert (Ln : length (drawn t) = 4%nat) by (rewrite <- (map_length (@dshape R)), Ls; reflexivity).
  destruct (C72_looks_case) as (a & b & El & _).
  destruct (C72_tree realNums realTrig realGens realMetres env exTrees (fun x => x) exPlant (fun _ _ => O) exTreeStyle [a; b] exSpot 5 emptyMesh 0 t)
    as (ps & m' & E & F & _ & _ & _ & Fc & _); [exact real_irrefl|apply empty_wf|apply empty_wf|reflexivity|exact El|exact Er|rewrite Ln; reflexivity|].
  exists ps, m'. split; [exact E|]. split; [rewrite <- Ln; clear -F; induction F; cbn [length]; congruence|].
  pose proof (C72_seen env emptyMesh m' ps Fc) as D. rewrite D. split; [reflexivity|].
  apply (C72_reachable R _ (scaleOf exPlant)) in Er; [|cbn; lra|cbn; lra|repeat constructor|constructor].
  assert (Each : Forall2 (fun d p => watertight (snd p) /\ length (snd p) = trianglesOf (dshape d)) (drawn t) ps).
  { clear -F Er L3 Cs. induction F as [|d p ds ps (_ & E) F IH]; constructor.
    - inversion_clear Er as [|? ? S _]. inversion_clear L3 as [|? ? Q _].
      destruct (C72_solid exSpot 5 d Cs S) as (ts & E' & N & W & _); [right; rewrite Q; lra|]. rewrite E in E'. apply ok_inj in E'. destruct p as [look l]. cbn [snd] in *. subst ts. now split.
    - inversion_clear Er. inversion_clear L3. now apply IH. }
  split.
  - clear -Each. induction Each as [|d p ds ps (W & _) F IH]; constructor; assumption.
  - assert (Sum : length (flat_map snd ps) = fold_right (fun s a => trianglesOf s + a)%nat 0%nat (map (@dshape R) (drawn t))).
    { clear -Each. induction Each as [|d p ds ps (_ & N) F IH]; [reflexivity|]. cbn [flat_map map fold_right]. rewrite app_length, IH, <- N. reflexivity. }
    rewrite Ls in Sum. exact Sum.
Qed.
