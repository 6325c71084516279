(** Proofs about the shapes drawn for trees (exact real arithmetic). *)
From Coq Require Import Reals Lra Lia Permutation.
From Verif Require Import Base Bytes GeoModel RingModel MeshBuildModel MeshBuildSpec QuatModel QuatSpec QuatProofs
  GenModel GenSpec GenProofs GenCylinderProofs GenProps MetreModel LsysModel LsysParseModel PlaneSpec PlaneProofs RowModel RowSpec TreeModel TreeSpec
  TreeProofs.
Local Open Scope R_scope.

Lemma ok_inj {A} (x y : A) : Ok x = Ok y -> x = y.
Proof. now intros [= <-]. Qed.
Lemma grid_map {P Q} (f : P -> Q) A low high n h top :
  map (mapTri f) (gridOf A low high n h top) = gridOf (fun j i => f (A j i)) (f low) (f high) n h top.
Proof.
  unfold gridOf. rewrite map_flat_map. apply flat_map_ext. intros j. rewrite map_flat_map. apply flat_map_ext. intros i.
  unfold cell, quad. cbn [map app mapTri]. do 2 f_equal. rewrite map_app. f_equal; [destruct (i =? 0)%Z|destruct (_ && _)%bool]; reflexivity.
Qed.
Lemma grid_ext {P} (A B : Z -> Z -> P) low low' high high' n h top : (forall j i, A j i = B j i) -> low = low' -> high = high' ->
  gridOf A low high n h top = gridOf B low' high' n h top.
Proof.
  intros E -> ->. unfold gridOf. apply flat_map_ext. intros j. apply flat_map_ext. intros i. unfold cell, quad. now rewrite !E.
Qed.

(** A cylinder in any attitude is an upright one in another frame. *)
Definition plain (s1 s2 : vec3 R) : @cylinder R := mkCylinder (mkV3 0 0 0) axisY axisX s1 s2 0 7 (fun v => v).
Lemma plain_upright s1 s2 : GenCylinderProofs.upright (plain s1 s2).
Proof. repeat split. Qed.
Lemma real_irrefl x : nlt realNums x x = false.
Proof. cbn. destruct (Rlt_dec x x); [lra|reflexivity]. Qed.
Lemma frame_cylinder s s1 s2 tr : upright s -> v3z s1 = v3x s1 -> v3z s2 = v3x s2 ->
  exists ts, realCylinder (plain s1 s2) = Ok ts /\
    realCylinder (mkCylinder (tpos s) (tdir s) (tright s) s1 s2 0 7 tr) =
    Ok (map (mapTri (fun v => tr (inFrame (tpos s) (tdir s) (tright s) v))) ts).
Proof.
  intros U Z1 Z2. set (c := mkCylinder (tpos s) (tdir s) (tright s) s1 s2 0 7 tr).
  assert (S1 : heightSegments realNums realGens c = Some 1%Z) by (apply segments_one; [reflexivity|exact real_irrefl]).
  assert (S2 : heightSegments realNums realGens (plain s1 s2) = Some 1%Z) by (apply segments_one; [reflexivity|exact real_irrefl]).
  rewrite (cylinder_grid _ _ _ _ _ S1), (cylinder_grid _ _ _ _ _ S2). eexists. split; [reflexivity|]. f_equal.
  rewrite grid_map. destruct U as (A & B & C).
  assert (Ce : forall i, ringCenter realNums realGens c 1 i =
    inFrame (tpos s) (tdir s) (tright s) (ringCenter realNums realGens (plain s1 s2) 1 i)).
  { intros i. unfold ringCenter, inFrame, vadd, vscale, c, plain, axisY.
    cbn [ccenter cdirection csize1 realNums realGens gint nadd nmul ndiv v3x v3y v3z].
    apply vec3_eq; cbn [v3x v3y v3z]; field. }
  apply grid_ext; [|cbn [ctranslate c plain]; now rewrite Ce|cbn [ctranslate c plain]; now rewrite Ce].
  intros j i. unfold ringPoint. cbn [ctranslate c plain]. f_equal. fold c. rewrite Ce. cbn [cdirection cright csize1 csize2 cradial c plain].
  rewrite axis_turned by exact A. rewrite (axis_turned _ axisY) by (unfold unitAxis, dot3; cbn; ring).
  set (a := nmul realNums _ _). fold (plain s1 s2). generalize (ringCenter realNums realGens (plain s1 s2) 1 i). intros o.
  assert (Q : v3z (radiusAt realNums realTrig s1 s2 (ndiv realNums (gint realGens (1 - i)) (gint realGens 1))) =
              v3x (radiusAt realNums realTrig s1 s2 (ndiv realNums (gint realGens (1 - i)) (gint realGens 1)))).
  { unfold radiusAt, lerp. cbn [v3x v3z]. now rewrite Z1, Z2. }
  set (r := radiusAt _ _ _ _ _) in *. unfold scaleBy. rewrite Q. generalize (v3x r). clear -C. intros w.
  unfold turned, inFrame, comb3, cross3, vadd. rewrite C. clear C. unfold dot3, axisX, axisY.
  cbn [realNums nadd nmul v3x v3y v3z]. apply vec3_eq; cbn [v3x v3y v3z]; ring.
Qed.

(** Maps of space which keep the orientation. *)
Definition keeps (f : vec3 R -> vec3 R) : Prop :=
  exists e, 0 < e /\ forall m a b c, det3 (vsub (f a) (f m)) (vsub (f b) (f m)) (vsub (f c) (f m)) = e * det3 (vsub a m) (vsub b m) (vsub c m).
Lemma keeps_outward f m t : keeps f -> outward m t -> outward (f m) (mapTri f t).
Proof. intros (e & P & H). destruct t as [[a b] c]. cbn [mapTri outward]. rewrite H. intros O. now apply Rmult_lt_0_compat. Qed.
Lemma keeps_comp f h : keeps f -> keeps h -> keeps (fun v => f (h v)).
Proof.
  intros (e & P & H) (e' & P' & H'). exists (e * e'). split; [now apply Rmult_lt_0_compat|]. intros. rewrite H, H'. ring.
Qed.
Lemma frame_keeps o d r : dot3 d d = 1 -> dot3 r r = 1 -> dot3 d r = 0 -> keeps (inFrame o d r).
Proof.
  intros A B C. exists 1. split; [lra|]. intros m a b c.
  transitivity ((dot3 d d * dot3 r r - dot3 d r * dot3 d r) * det3 (vsub a m) (vsub b m) (vsub c m)).
  - unfold inFrame, det3, vsub, cross3, dot3. cbn [v3x v3y v3z]. ring.
  - rewrite A, B, C. ring.
Qed.
Lemma translate_real p h v : treeTranslate realNums realTrig realMetres p h v =
  mkV3 (plon p + v3x v * (360 / (40075160 * cos (PI * plat p / 180)))) (v3y v + h) (plat p + v3z v * (360 / 40008000)).
Proof.
  unfold treeTranslate, worldToGeo, deg2Rad. cbn [realNums realTrig realMetres nadd nmul ndiv m360 mcircle mequator kcos mpi m180 plat plon].
  apply vec3_eq; cbn [v3x v3y v3z]; unfold Rdiv; ring.
Qed.
Lemma translate_keeps p h : 0 < cos (PI * plat p / 180) -> keeps (treeTranslate realNums realTrig realMetres p h).
Proof.
  intros C. exists ((360 / (40075160 * cos (PI * plat p / 180))) * (360 / 40008000)). split.
  - apply Rmult_lt_0_compat; [|lra]. apply Rdiv_lt_0_compat; lra.
  - intros m a b c. rewrite !translate_real. generalize (360 / (40075160 * cos (PI * plat p / 180))), (360 / 40008000). intros e f.
    unfold det3, vsub. cbn [v3x v3y v3z]. ring.
Qed.

Lemma frame_middle d : inFrame (tpos (dstate d)) (tdir (dstate d)) (tright (dstate d)) (above (mkV3 0 0 0) (tlength (dstate d) / 2)) =
  comb3 1 (tpos (dstate d)) (tlength (dstate d) / 2) (tdir (dstate d)) 0 (tpos (dstate d)).
Proof. unfold inFrame, above, comb3, cross3. cbn [v3x v3y v3z]. apply vec3_eq; cbn [v3x v3y v3z]; ring. Qed.
Lemma mapTri_twice {P Q S} (f : Q -> S) (h : P -> Q) t : mapTri f (mapTri h t) = mapTri (fun v => f (h v)) t.
Proof. now destruct t as [[a b] c]. Qed.
Lemma watertight_tri {P Q} (f : P -> Q) ts : watertight ts -> watertight (map (mapTri f) ts).
Proof. intros H. apply (watertight_map f) in H. erewrite map_ext; [exact H|]. now intros [[a b] c]. Qed.

Lemma drawing_solid tr d : sizedState (dstate d) -> keeps tr ->
  (dshape d = Cylinder -> / 2 ^ 52 <= twidth (dstate d) \/ / 2 ^ 52 <= tlength (dstate d)) ->
  exists ts, drawingTriangles realNums realTrig realGens tr d = Ok ts /\ length ts = trianglesOf (dshape d) /\ watertight ts /\
    Forall (fun t => outward (tr (middleAt d)) t \/ dshape d = Cone /\ let '(_, p, q) := t in p = q) ts.
Proof.
  intros (U & W & L) K E. unfold drawingTriangles, middleAt. destruct d as [sh s st]. cbn [dshape dstate] in *.
  assert (Pos : positive (treeSize s)) by (repeat split; assumption).
  assert (Up : forall s2 l, v3z s2 = v3x s2 -> 0 <= l -> v3x s2 = l * twidth s ->
    exists ts0 ts, realCylinder (plain (treeSize s) s2) = Ok ts0 /\
      realCylinder (mkCylinder (tpos s) (tdir s) (tright s) (treeSize s) s2 0 7 tr) = Ok ts /\ length ts = length ts0 /\
      (watertight ts0 -> watertight ts) /\
      Forall (fun t => outward (tr (comb3 1 (tpos s) (tlength s / 2) (tdir s) 0 (tpos s))) t \/ l = 0 /\ let '(_, p, q) := t in p = q) ts).
  { intros s2 l Z2 Pl X2. destruct (frame_cylinder s (treeSize s) s2 tr U eq_refl Z2) as (ts0 & E0 & E1).
    exists ts0. eexists. split; [exact E0|]. split; [exact E1|]. split; [apply map_length|]. split; [apply watertight_tri|].
    pose proof (C63_cylinder_outward _ ts0 l (plain_upright _ _) E0 Pos Pl) as O.
    cbn [csize1 csize2 plain treeSize v3x v3y v3z cradial ccenter] in O.
    specialize (O X2). rewrite Z2 in O. specialize (O X2). assert (3 <= 7)%Z by lia. specialize (O H).
    apply Forall_map. eapply Forall_impl; [|exact O]. intros t [Ht|(Ht & Hq)].
    - left. pose proof (frame_middle (mkDrawing Cylinder s st)) as M. cbn [dstate] in M. rewrite <- M.
      apply (keeps_outward (fun v => tr (inFrame (tpos s) (tdir s) (tright s) v))); [|exact Ht].
      apply keeps_comp; [exact K|]. destruct U as (A & B & C). now apply frame_keeps.
    - right. split; [exact Ht|]. destruct t as [[x y] z]. cbn [mapTri]. now rewrite Hq. }
  destruct sh.
  - destruct (Up (treeSize s) 1) as (ts0 & ts & E0 & E1 & Len & Wt & O); [reflexivity|lra|cbn; ring|].
    exists ts. split; [exact E1|].
    destruct (C63_cylinder_closed R realNums realTrig realGens (plain (treeSize s) (treeSize s)) 1) as (ts' & E' & W' & N').
    + apply segments_one; [reflexivity|exact real_irrefl].
    + cbn [csize2 plain]. unfold sameVec3, treeSize, vzero. cbn [v3x v3y v3z realNums nsub nabs nlt nzero realGens geps].
      rewrite !Rminus_0_r, (Rabs_pos_eq (twidth s)), (Rabs_pos_eq (tlength s)) by lra.
      destruct (Rlt_dec (twidth s) (/ 2 ^ 52)), (Rlt_dec (tlength s) (/ 2 ^ 52)); try reflexivity.
      destruct (E eq_refl); lra.
    + rewrite E0 in E'. injection E' as <-. rewrite Len, N' by lia. split; [reflexivity|]. split; [now apply Wt|].
      eapply Forall_impl; [|exact O]. intros t [H|(H & _)]; [now left|lra].
  - destruct (Up (mkV3 0 0 0) 0) as (ts0 & ts & E0 & E1 & Len & Wt & O); [reflexivity|lra|cbn; ring|].
    exists ts. split; [exact E1|].
    destruct (C63_cone_closed (plain (treeSize s) (mkV3 0 0 0)) 1) as (ts' & E' & W' & N').
    + apply segments_one; [reflexivity|exact real_irrefl].
    + reflexivity.
    + rewrite E0 in E'. injection E' as <-. rewrite Len, N' by lia. split; [reflexivity|]. split; [now apply Wt|].
      eapply Forall_impl; [|exact O]. intros t [H|(_ & H)]; auto.
  - destruct (C63_sphere_closed R realNums realTrig realGens tr (tpos s) (treeSize s) 1) as (ts & E1 & N1 & W1); [lia|].
    destruct (C63_sphere_shape (tpos s) (treeSize s) 1 Pos) as (ts0 & E0 & _ & O & _); [lia|].
    exists ts. split; [exact E1|]. split; [exact N1|]. split; [exact W1|].
    assert (Q : ts = map (mapTri tr) ts0).
    { rewrite (ico_triangles realNums realTrig realGens tr) in E1 by lia. rewrite (ico_triangles realNums realTrig realGens (fun v => v)) in E0 by lia.
      apply ok_inj in E1. apply ok_inj in E0. rewrite <- E1, <- E0, map_map. apply map_ext. now intros [[a b] c]. }
    rewrite Q. apply Forall_map. eapply Forall_impl; [|exact O]. intros t H. left. now apply keeps_outward.
Qed.

(** * States of words without pitch and roll *)
Definition sizedTurtle (t : turtle R) : Prop :=
  sizedState (cur t) /\ Forall sizedState (stack t) /\ Forall (fun d => sizedState (dstate d)) (drawn t).
Lemma apply_sized angle scale around r t t' : 0 < scale -> noPitch r -> sizedTurtle t ->
  apply realNums realTrig angle scale around r t = Ok t' -> sizedTurtle t'.
Proof.
  intros Sc Np (S & St & D).
  assert (Jump : sizedState (jump realNums (cur t))) by exact S.
  assert (Turn : forall a, sizedState (turn realNums realTrig a (cur t))).
  { intros a. destruct S as (U & W & L). split; [now apply turn_keeps_upright|]. now split. }
  assert (Draw : forall sh, sizedTurtle (draw realNums sh t)).
  { intros sh. split; [exact Jump|]. split; [exact St|]. cbn [draw drawn]. apply Forall_app. split; [exact D|]. repeat constructor; apply S. }
  destruct r; cbn [noPitch apply] in *; try contradiction; try (intros [= <-]).
  - apply Draw.
  - now split.
  - split; [apply Turn|]. now split.
  - split; [apply Turn|]. now split.
  - split; [apply Turn|]. now split.
  - split; [|now split]. destruct S as (U & W & L). split; [exact U|]. split; [|exact L]. cbn. now apply Rmult_lt_0_compat.
  - split; [|now split]. destruct S as (U & W & L). split; [exact U|]. split; [|exact L]. cbn. now apply Rdiv_lt_0_compat.
  - split; [exact S|]. now split.
  - split; [|now split]. destruct S as (U & W & L). split; [exact U|]. split; [exact W|]. cbn. now apply Rmult_lt_0_compat.
  - split; [|now split]. destruct S as (U & W & L). split; [exact U|]. split; [exact W|]. cbn. now apply Rdiv_lt_0_compat.
  - split; [exact S|]. split; [|exact D]. now constructor.
  - destruct (stack t) as [|s' rest]; [discriminate|]. intros [= <-]. inversion_clear St. split; [assumption|]. now split.
  - repeat match goal with |- (if ?b then _ else _) = _ -> _ => destruct b end; intros Q; try discriminate; injection Q as <-; apply Draw.
Qed.
Lemma exec_sized angle scale around w : forall t t', 0 < scale -> Forall noPitch w -> sizedTurtle t ->
  exec realNums realTrig angle scale around w t = Ok t' -> sizedTurtle t'.
Proof.
  induction w as [|r w IH]; intros t t' Sc F S; cbn [exec]; [now intros [= <-]|]. inversion_clear F as [|? ? Fr Fw].
  destruct (apply realNums realTrig angle scale around r t) as [t1| |] eqn:E; [cbn [bind]|discriminate|discriminate].
  apply IH; try assumption. now apply (apply_sized angle scale around r t).
Qed.
Lemma generation_all {W} (P : rule -> Prop) rank (ps : productions W) pick :
  Forall (fun p => Forall (fun s => Forall P (snd s)) (snd p)) ps ->
  forall w d w' d', Forall P w -> generation rank ps pick d w = Ok (w', d') -> Forall P w'.
Proof.
  intros Fp. induction w as [|r w IH]; intros d w' d' F; cbn [generation]; [now intros [= <- _]|]. inversion_clear F as [|? ? Fr Fw].
  destruct (alookup (sameRule rank) r ps) as [l|] eqn:A.
  - destruct (nth_error l (pick d (length l))) as [[x succ]|] eqn:N; [|discriminate].
    destruct (generation rank ps pick (S d) w) as [[w1 d1]| |] eqn:E; [cbn [bind]|discriminate|discriminate]. intros [= <- _].
    apply Forall_app. split; [|now apply (IH (S d) w1 d1)].
    assert (I : exists r', In (r', l) ps).
    { clear -A. induction ps as [|[r' l'] ps IH]; cbn [alookup] in A; [discriminate|]. destruct (sameRule rank r r').
      - injection A as <-. exists r'. now left.
      - destruct (IH A) as (r2 & I). exists r2. now right. }
    destruct I as (r' & I). apply (proj1 (Forall_forall _ _) Fp) in I. cbn [snd] in I.
    apply nth_error_In in N. now apply (proj1 (Forall_forall _ _) I) in N.
  - destruct (generation rank ps pick d w) as [[w1 d1]| |] eqn:E; [cbn [bind]|discriminate|discriminate]. intros [= <- _].
    constructor; [exact Fr|]. now apply (IH d w1 d1).
Qed.
Lemma generations_all {W} (P : rule -> Prop) rank (ps : productions W) pick :
  Forall (fun p => Forall (fun s => Forall P (snd s)) (snd p)) ps ->
  forall m d w w', Forall P w -> generations rank ps pick d m w = Ok w' -> Forall P w'.
Proof.
  intros Fp. induction m as [|m IH]; intros d w w' F; cbn [generations]; [now intros [= <-]|].
  destruct (generation rank ps pick d w) as [[w1 d1]| |] eqn:E; [cbn [bind]|discriminate|discriminate].
  apply IH. now apply (generation_all P rank ps pick Fp w d w1 d1).
Qed.
Lemma run_sized {W} angle scale around rank (ps : productions W) pick gens axiom t t' : 0 < scale ->
  Forall noPitch axiom -> Forall (fun p => Forall (fun s => Forall noPitch (snd s)) (snd p)) ps -> sizedTurtle t ->
  run realNums realTrig angle scale around rank ps pick gens axiom t = Ok t' -> sizedTurtle t'.
Proof.
  intros Sc Fa Fp S. unfold run. destruct (generations rank ps pick 0 (Z.to_nat gens) axiom) as [w| |] eqn:E; [cbn [bind]|discriminate|discriminate].
  apply exec_sized; try assumption. now apply (generations_all noPitch rank ps pick Fp _ _ _ _ Fa E).
Qed.
Lemma init_sized size : 0 < size -> sizedTurtle (initTurtle realNums realTrig size).
Proof.
  intros P. split; [|split; constructor]. split; [|split; exact P]. unfold upright, dot3. cbn. repeat split; ring.
Qed.

(** * Drawings elsewhere *)
Lemma drawing_map tr d : exists ts, drawingTriangles realNums realTrig realGens (fun v => v) d = Ok ts /\
  drawingTriangles realNums realTrig realGens tr d = Ok (map (mapTri tr) ts).
Proof.
  assert (Cy : forall s2, exists ts,
    realCylinder (mkCylinder (tpos (dstate d)) (tdir (dstate d)) (tright (dstate d)) (treeSize (dstate d)) s2 (nzero realNums) 7 (fun v => v)) = Ok ts /\
    realCylinder (mkCylinder (tpos (dstate d)) (tdir (dstate d)) (tright (dstate d)) (treeSize (dstate d)) s2 (nzero realNums) 7 tr) = Ok (map (mapTri tr) ts)).
  { intros s2. rewrite !(cylinder_grid _ _ _ _ 1%Z) by (apply segments_one; [reflexivity|exact real_irrefl]). eexists. split; [reflexivity|].
    f_equal. now rewrite grid_map. }
  unfold drawingTriangles. destruct (dshape d); [apply Cy|apply Cy|].
  rewrite (ico_triangles realNums realTrig realGens tr), (ico_triangles realNums realTrig realGens (fun v => v)) by lia.
  eexists. split; [reflexivity|]. apply (f_equal Ok). rewrite map_map. apply map_ext. now intros [[a b] c].
Qed.
(** From a tree at [p] on the height [h] to the one at [p'] on the height [h']. *)
Lemma translate_twice p h p' h' v : cos (PI * plat p / 180) <> 0 -> cos (PI * plat p' / 180) <> 0 ->
  treeTranslate realNums realTrig realMetres p' h' v = elsewhere p h p' h' (treeTranslate realNums realTrig realMetres p h v).
Proof.
  intros A B. rewrite !translate_real. unfold elsewhere. cbn [v3x v3y v3z]. apply vec3_eq; cbn [v3x v3y v3z]; [|ring|ring]. field; assumption || (split; assumption).
Qed.

(** * Cylinders after pitch *)
Lemma grid_forall {P} (Q : P -> Prop) A low high n h top : (forall j i, (0 <= i <= h)%Z -> Q (A j i)) -> Q low -> Q high ->
  Forall (fun t => Forall Q (cornersOf t)) (gridOf A low high n h top).
Proof.
  intros HA Hl Hh. unfold gridOf. apply Forall_forall. intros t I. apply in_flat_map in I as (j & _ & I). apply in_flat_map in I as (i & Ii & I).
  apply upTo_in in Ii. unfold cell, quad in I. apply in_app_iff in I. rewrite in_app_iff in I. cbn [In] in I.
  destruct I as [[<-|[<-|[]]]|[I|I]].
  - repeat constructor; apply HA; lia.
  - repeat constructor; apply HA; lia.
  - destruct (Z.eqb_spec i 0); [|destruct I]. destruct I as [<-|[]]. repeat constructor; try assumption; apply HA; lia.
  - destruct (_ && _)%bool; [|destruct I]. destruct I as [<-|[]]. repeat constructor; try assumption; apply HA; lia.
Qed.
Lemma pitch_state a s : upright s -> pitch realNums realTrig a s =
  mkState (tlength s) (twidth s) (ttexture s) (tpos s) (comb3 (cos a) (tdir s) (sin a) (tright s) 0 (tdir s)) (tright s).
Proof.
  intros U. unfold pitch, rotation. change (vcross realNums (tdir s) (tright s)) with (cross3 (tdir s) (tright s)).
  rewrite axis_turned by now apply upright_axis. now rewrite (proj1 (turned_dir a s U)).
Qed.
Lemma pitch_angles a s : upright s -> let p := pitch realNums realTrig a s in
  dot3 (tdir p) (tdir p) = 1 /\ dot3 (tright p) (tright p) = 1 /\ dot3 (tdir p) (tright p) = sin a.
Proof.
  intros U. cbv zeta. rewrite pitch_state by exact U. cbn [tdir tright]. destruct U as (A & B & C). unfold unitAxis in A. pose proof (sin_cos a) as SC.
  unfold dot3, comb3 in *. cbn [v3x v3y v3z] in *. destruct (tdir s) as [x y z], (tright s) as [u v w]. cbn [v3x v3y v3z] in *.
  split; [|split; [exact B|]].
  - transitivity (cos a * cos a * (x*x+y*y+z*z) + 2 * (cos a * sin a) * (x*u+y*v+z*w) + sin a * sin a * (u*u+v*v+w*w)); [ring|].
    rewrite A, B, C. lra.
  - transitivity (cos a * (x*u+y*v+z*w) + sin a * (u*u+v*v+w*w)); [ring|]. rewrite B, C. ring.
Qed.
Lemma skew_ring o d r w l e : dot3 d d = 1 -> dot3 r r = 1 -> dot3 d r = e ->
  forall th, let v := comb3 1 o l d w (turned th d r) in
  dot3 (vsub v o) d = l + e * w /\ dot3 (vsub v o) (vsub v o) = (l + e * w) * (l + e * w) + (1 - e * e) * (w * w).
Proof.
  intros A B C th. cbv zeta. pose proof (sin_cos th) as SC. unfold turned, cross3, comb3, vsub, dot3 in *. cbn [v3x v3y v3z] in *. rewrite C.
  destruct d as [x y z], r as [u v q], o as [o1 o2 o3]. cbn [v3x v3y v3z] in *. split.
  - transitivity (l * (x*x+y*y+z*z) + w * (cos th * (x*u+y*v+z*q) + (1 - cos th) * e * (x*x+y*y+z*z))); [ring|]. rewrite A, C. ring.
  - set (c := cos th) in *. set (si := sin th) in *.
    transitivity ((l + w * (1 - c) * e) * (l + w * (1 - c) * e) * (x*x+y*y+z*z) + 2 * (l + w * (1 - c) * e) * w * c * (x*u+y*v+z*q) + w * w * (c * c) * (u*u+v*v+q*q)
       + w * w * (si * si) * ((x*x+y*y+z*z)*(u*u+v*v+q*q) - (x*u+y*v+z*q)*(x*u+y*v+z*q))); [ring|].
    rewrite A, B, C. replace (si * si) with (1 - c * c) by lra. ring.
Qed.
Lemma pitched_corners a s : upright s -> let p := pitch realNums realTrig a s in
  exists ts, drawingTriangles realNums realTrig realGens (fun v => v) (mkDrawing Cylinder p 0) = Ok ts /\
    Forall (fun t => Forall (fun v =>
      exists l r, (l = 0 \/ l = tlength s) /\ (r = 0 \/ r = twidth s) /\
        dot3 (vsub v (tpos p)) (tdir p) = l + sin a * r /\
        dot3 (vsub v (tpos p)) (vsub v (tpos p)) = (l + sin a * r) * (l + sin a * r) + (cos a * r) * (cos a * r)) (cornersOf t)) ts.
Proof.
  intros U p. destruct (pitch_angles a s U) as (A & B & C). fold p in A, B, C. pose proof (sin_cos a) as SC.
  assert (Sz : tlength p = tlength s /\ twidth p = twidth s) by (unfold p; rewrite pitch_state by exact U; now split).
  unfold drawingTriangles. cbn [dshape dstate].
  rewrite (cylinder_grid _ _ _ _ 1%Z) by (apply segments_one; [reflexivity|exact real_irrefl]). eexists. split; [reflexivity|].
  set (cy := mkCylinder _ _ _ _ _ _ _ _).
  assert (Ce : forall i, (0 <= i <= 1)%Z -> exists l, (l = 0 \/ l = tlength s) /\ ringCenter realNums realGens cy 1 i = comb3 1 (tpos p) l (tdir p) 0 (tpos p)).
  { intros i I. exists (tlength s * IZR i). split.
    - assert (i = 0 \/ i = 1)%Z as [-> | ->] by lia; [left|right]; cbn; ring.
    - unfold ringCenter, vadd, vscale, cy, comb3, treeSize. cbn [ccenter cdirection csize1 realNums realGens gint nadd nmul ndiv v3x v3y v3z].
      rewrite (proj1 Sz). apply vec3_eq; cbn [v3x v3y v3z]; field. }
  assert (Axis : forall l, (l = 0 \/ l = tlength s) -> let v := comb3 1 (tpos p) l (tdir p) 0 (tpos p) in exists l r, (l = 0 \/ l = tlength s) /\ (r = 0 \/ r = twidth s) /\
        dot3 (vsub v (tpos p)) (tdir p) = l + sin a * r /\
        dot3 (vsub v (tpos p)) (vsub v (tpos p)) = (l + sin a * r) * (l + sin a * r) + (cos a * r) * (cos a * r)).
  { intros l L v. exists l, 0. split; [exact L|]. split; [now left|]. unfold v, comb3, vsub. unfold dot3 in *. cbn [v3x v3y v3z]. clear -A.
    destruct (tdir p) as [x y z], (tpos p) as [o1 o2 o3]. cbn [v3x v3y v3z] in *. split.
    - transitivity (l * (x*x+y*y+z*z)); [ring|]. rewrite A. ring.
    - transitivity (l * l * (x*x+y*y+z*z)); [ring|]. rewrite A. ring. }
  apply grid_forall.
  - intros j i I. destruct (Ce i I) as (l & L & E). exists l, (twidth s). split; [exact L|]. split; [now right|].
    unfold ringPoint. cbn [ctranslate cy]. fold cy. rewrite E. cbn [cdirection cright csize1 csize2 cradial cy].
    rewrite axis_turned by exact A. set (th := nmul realNums _ _).
    match goal with |- context [vadd realNums ?x ?y] => replace (vadd realNums x y) with (comb3 1 (tpos p) l (tdir p) (twidth s) (turned th (tdir p) (tright p))) end.
    + destruct (skew_ring (tpos p) (tdir p) (tright p) (twidth s) l (sin a) A B C th) as (H1 & H2). split; [exact H1|]. rewrite H2.
      replace (1 - sin a * sin a) with (cos a * cos a) by lra. ring.
    + generalize (turned th (tdir p) (tright p)). intros t. unfold vadd, scaleBy, radiusAt, lerp, comb3, treeSize.
      cbn [realNums realTrig realGens nadd nsub nmul ndiv kone gint v3x v3y v3z]. rewrite (proj2 Sz). apply vec3_eq; cbn [v3x v3y v3z]; ring.
  - destruct (Ce 0%Z ltac:(lia)) as (l & L & E). cbn [ctranslate cy]. fold cy. rewrite E. now apply Axis.
  - destruct (Ce 1%Z ltac:(lia)) as (l & L & E). cbn [ctranslate cy]. fold cy. rewrite E. now apply Axis.
Qed.

(** * The triangles seen in the mesh *)
Lemma seen_face env look t : flat_map seen [faceIn realNums realTrig env look t] = [t].
Proof. destruct t as [[[a1 a2 a3] [b1 b2 b3]] [c1 c2 c3]]. reflexivity. Qed.
Lemma seen_part env p : flat_map seen (facesIn realNums realTrig env p) = snd p.
Proof.
  unfold facesIn. induction (snd p) as [|t l IH]; [reflexivity|]. cbn [map flat_map]. rewrite IH.
  pose proof (seen_face env (fst p) t) as S. cbn [flat_map] in S. rewrite app_nil_r in S. now rewrite S.
Qed.
Lemma seen_parts env ps : flat_map seen (flat_map (facesIn realNums realTrig env) ps) = flat_map snd ps.
Proof. induction ps as [|p ps IH]; [reflexivity|]. cbn [flat_map]. now rewrite flat_map_app, seen_part, IH. Qed.
