(** Meshes: C31 (well formed), C32 (two-sided triangles), C48 (texture maps), C49 (contours). *)
From Coq Require Import QArith Qabs.
From Verif Require Import Base RingModel MeshBuildModel MeshBuildSpec MeshBuildProofs.
Local Open Scope nat_scope.

(** C31: a call on a well formed mesh adds the vertices and the faces it is meant to add, keeps
    those that were there, and leaves the mesh well formed, as long as the texture coordinates
    can be counted by an int. *)
Theorem C31_call {T} (n : nums T) (env : builderEnv T) (o : meshOp) (m : bmesh T) (k : nat) :
  goodOp n env o -> wellFormed m k -> goodMap m ->
  (2 * Z.of_nat (k + length (newCorners n env o)) < 2 ^ 31)%Z ->
  exists m', meshStep n env o m = Ok m' /\
    wellFormed m' (k + length (newCorners n env o)) /\ goodMap m' /\
    corners m' = corners m ++ newCorners n env o /\ faces m' = faces m ++ newFaces n env o.
Proof. apply step_ok. Qed.
Print Assumptions C31_call.

(** C31: so does every sequence of calls on a new mesh. *)
Theorem C31_sequence {T} (n : nums T) (env : builderEnv T) (ops : list meshOp) :
  Forall (goodOp n env) ops ->
  let cs := flat_map (newCorners n env) ops in
  (2 * Z.of_nat (length cs) < 2 ^ 31)%Z ->
  exists m, meshRun n env ops emptyMesh = Ok m /\
    wellFormed m (length cs) /\ corners m = cs /\ faces m = flat_map (newFaces n env) ops /\
    Forall (fun '(a, b, c) => a <> None /\ b <> None /\ c <> None) (faces m).
Proof.
  intros F cs Hb.
  destruct (run_ok n env ops emptyMesh 0 F) as (m & E & W & G & C & D).
  - repeat split; constructor.
  - split; [reflexivity|]. cbn. lia.
  - exact Hb.
  - exists m. split; [exact E|]. split; [exact W|]. split; [exact C|]. split; [exact D|].
    eapply faces_defined. exact W.
Qed.
Print Assumptions C31_sequence.

(** A builder over exact numbers: flat ground, no noise, every polygon a unit square. *)
Definition unitSquare : triio Q :=
  mkTri [(0, 0); (1, 0); (1, 1); (0, 1)]%Q (Some [1; 1; 0; 1]%Z) 3 [[0; 1; 2]; [0; 2; 3]]%Z.
Definition flatEnv : builderEnv Q :=
  mkEnv (-1000)%Q (1 # 1000)%Q (fun _ _ => 5%Q) (fun _ _ _ => 7%Q) (fun _ _ h => h)
    (fun a b => Qabs (v2x a - v2x b)) 1%Q 1%Q 0%Q 0%Q (fun _ => unitSquare) (fun _ _ t => t).
Definition plainGeo (back : bool) : geomOptions Q := mkGeom 0%Q 0%Q (-1000)%Q 2%Q false back 0.
Definition plainLook (texture : Z) : lookOptions Q :=
  mkLook (fun _ => 255%Z) 0%Q texture (mkRegion 16 16 0 0 8 8)%Z 1%Q.
Definition v3 (x y z : Q) : vec3 Q := mkV3 x y z.
Arguments v3 (x y z)%Q_scope.
Definition tri (back : bool) : @meshOp Q :=
  OpTriangle (v3 0 0 0) (v3 1 0 0) (v3 0 0 1) (mkV2 0 0)%Q (mkV2 1 0)%Q (mkV2 0 1)%Q
    (plainGeo back) (plainLook 3).
Definition session : list (@meshOp Q) :=
  [OpPolygon emptyPolygon (plainGeo false) (plainLook 1); OpTexture (plainLook 1); tri true;
   OpPlane2 (mkV2 0 0)%Q (mkV2 1 0)%Q (plainGeo false) (plainLook 2); OpTexture (plainLook 2)].
Example C31_case :
  Forall (goodOp exactNums flatEnv) session /\
  length (flat_map (newCorners exactNums flatEnv) session) = 16 /\
  exists m, meshRun exactNums flatEnv session emptyMesh = Ok m /\
    btris m = [1; 0; 2; 2; 0; 3; 4; 5; 6; 6; 7; 8; 10; 12; 11; 13; 15; 14]%Z /\ length (faces m) = 6.
Proof.
  split; [|split; [vm_compute; reflexivity|eexists; vm_compute; auto]].
  unfold session. repeat constructor; vm_compute; try easy; lia.
Qed.

(** C32: a triangle with a back side adds the front face, but its second face is a line: its first
    two corners are one place, the first corner of the triangle is not part of it. *)
Theorem C32_partial {T} (n : nums T) (env : builderEnv T) (m : bmesh T) k v0 v1 v2 uv0 uv1 uv2 geo look :
  wellFormed m k -> (Z.of_nat (k + 6) < 2 ^ 31)%Z -> gback geo = true ->
  exists m' front back, addTriangle env m v0 v1 v2 uv0 uv1 uv2 geo look = Ok m' /\
    faces m' = faces m ++ [front; back] /\
    (let at_ v uv := Some (place v (lgradient look (ePerlin env (v3x v0) (v3z v0) (lnoise look))) uv) in
     front = (at_ v0 uv0, at_ v1 uv1, at_ v2 uv2) /\ back = (at_ v2 uv2, at_ v2 uv0, at_ v1 uv1)).
Proof.
  intros W Hk Hb.
  destruct (triangle_ok n env m k v0 v1 v2 uv0 uv1 uv2 geo look W) as (m' & E & _ & _ & _ & D).
  - cbn [newCorners]. rewrite Hb. exact Hk.
  - exists m'. cbn [newFaces newCorners] in D. rewrite Hb in D. cbn [app] in D.
    eexists. eexists. split; [exact E|]. split; [exact D|]. split; reflexivity.
Qed.
Print Assumptions C32_partial.

(** The places of the corners of a face. *)
Definition places {T} (f : option (corner T) * option (corner T) * option (corner T)) :=
  let '(a, b, c) := f in (option_map cpos a, option_map cpos b, option_map cpos c).

(** C32 refuted: no face of the mesh has the corners in reverse order. *)
Theorem C32_refuted :
  exists (env : builderEnv Q) geo look v0 v1 v2 uv0 uv1 uv2 m',
    gback geo = true /\ addTriangle env emptyMesh v0 v1 v2 uv0 uv1 uv2 geo look = Ok m' /\
    let at_ v := Some (v3x v, v3z v, v3y v) in
    map places (faces m') = [(at_ v0, at_ v1, at_ v2); (at_ v2, at_ v2, at_ v1)] /\
    ~ In (at_ v2, at_ v1, at_ v0) (map places (faces m')) /\
    ~ In (at_ v1, at_ v0, at_ v2) (map places (faces m')) /\
    ~ In (at_ v0, at_ v2, at_ v1) (map places (faces m')).
Proof.
  exists flatEnv, (plainGeo true), (plainLook 3), (v3 0 0 0), (v3 1 0 0), (v3 0 0 1),
    (mkV2 0 0)%Q, (mkV2 1 0)%Q, (mkV2 0 1)%Q.
  eexists. split; [reflexivity|]. split; [vm_compute; reflexivity|].
  split; [vm_compute; reflexivity|].
  repeat split; vm_compute; intros H; decompose [or] H; try discriminate; easy.
Qed.
Print Assumptions C32_refuted.

(** C48: texture information written covers exactly the texture coordinates added since it was
    written last. *)
Theorem C48_write {T} (m : bmesh T) (look : lookOptions T) :
  goodMap m -> (Z.of_nat (length (buvs m)) < 2 ^ 31)%Z ->
  exists m', writeTexture m look = Ok m' /\ goodMap m' /\
    corners m' = corners m /\ faces m' = faces m /\
    (forall i, (0 <= i < covered m)%Z -> textureAt m' i = textureAt m i) /\
    (forall i, (covered m <= i < Z.of_nat (length (buvs m)))%Z -> textureAt m' i = Some (textureOf look)) /\
    covered m' = Z.of_nat (length (buvs m')).
Proof.
  intros G H. destruct (texture_ok m look G H) as (mp & E & A & B & C & D).
  eexists. split; [exact E|]. repeat (split; [assumption || reflexivity|]). exact B.
Qed.
Print Assumptions C48_write.

(** C48: a copied mesh brings its textures along; those of the destination stay. *)
Theorem C48_copy {T} (n : nums T) (env : builderEnv T) (m src : bmesh T) (k j : nat) (off : vec3 T) :
  wellFormed m k -> goodMap m -> wellFormed src j -> goodMap src ->
  (2 * Z.of_nat (k + j) < 2 ^ 31)%Z ->
  exists m', copyMesh n off src m = Ok m' /\ goodMap m' /\
    (forall i, (0 <= i < covered m)%Z -> textureAt m' i = textureAt m i) /\
    (forall i, (0 <= i)%Z -> textureAt m' (Z.of_nat (length (buvs m)) + i) = textureAt src i).
Proof.
  intros W G Ws Gs H.
  destruct (copy_ok n env m k off src W G (ex_intro _ j (conj Ws Gs))) as (m' & E & _ & _ & _ & A & R).
  - cbn [newCorners]. rewrite map_length. destruct Ws as (Ss & _). now rewrite (corners_length _ _ Ss).
  - exists m'. split; [exact E|]. split; [exact A|]. now apply copy_textures.
Qed.
Print Assumptions C48_copy.

Definition twoTextures : list (@meshOp Q) :=
  [tri false; OpTexture (plainLook 1); tri false; OpTexture (plainLook 2);
   tri false; OpTexture (plainLook 2)].
Example C48_case :
  exists m m', meshRun exactNums flatEnv twoTextures emptyMesh = Ok m /\ wellFormed m 9 /\ goodMap m /\
    map (textureAt m) [0; 5; 6; 17; 18]%Z =
      [Some (textureOf (plainLook 1)); Some (textureOf (plainLook 1)); Some (textureOf (plainLook 2));
       Some (textureOf (plainLook 2)); None] /\ length (bmap m) = 16 /\
    copyMesh exactNums (v3 10 20 30) m m = Ok m' /\ textureAt m' 20 = Some (textureOf (plainLook 1)).
Proof.
  eexists. eexists. split; [vm_compute; reflexivity|].
  split; [repeat split; vm_compute; repeat constructor; easy|].
  split; [repeat split; vm_compute; easy|]. repeat (split; [vm_compute; reflexivity|]). vm_compute; reflexivity.
Qed.

(** C48 refuted for coordinates whose texture has not been written when another mesh is copied
    behind them: they take the first texture of that mesh. *)
Theorem C48_unwritten_refuted :
  exists (m src m' : bmesh Q), wellFormed m 3 /\ goodMap m /\ textureAt m 0 = None /\
    copyMesh exactNums (v3 0 0 0) src m = Ok m' /\ textureAt m' 0 = textureAt src 0 /\ textureAt src 0 <> None.
Proof.
  destruct (meshRun exactNums flatEnv [tri false] emptyMesh) as [m| |] eqn:E; vm_compute in E; try discriminate.
  destruct (meshRun exactNums flatEnv [tri false; OpTexture (plainLook 1)] emptyMesh) as [s| |] eqn:E1;
    vm_compute in E1; try discriminate.
  exists m, s. injection E as <-. injection E1 as <-. eexists.
  split; [repeat split; vm_compute; repeat constructor; easy|].
  split; [repeat split; vm_compute; easy|]. split; [reflexivity|]. split; [vm_compute; reflexivity|].
  split; [reflexivity|]. vm_compute. discriminate.
Qed.
Print Assumptions C48_unwritten_refuted.

(** C49: contours and holes given to a polygon become closed rings of segments over their own
    points, a repeated last point left out, provided a point inside every hole is found. *)
Theorem C49_rings {T} (n : nums T) (env : builderEnv T) (l : list (list (vec2 T) * bool * option (vec2 T))) :
  Forall (fun '(contour, isHole, inside) => contour <> [] /\ (isHole = true -> inside <> None)) l ->
  (Z.of_nat (length (concat (map (fun x => fst (fst x)) l))) < 2 ^ 31)%Z ->
  let rings := map (fun x => openContour (sameVec n env) (fst (fst x))) l in
  exists p, addContours n env emptyPolygon l = Ok p /\
    ppoints p = flat_map coordinates rings /\ psegs p = layout 0 rings /\
    Forall (fun i => 0 <= i < Z.of_nat (length (ppoints p) / 2))%Z (psegs p).
Proof.
  intros F H rings. destruct (contours_ok n env l emptyPolygon 0 F) as (p & E & A & B); try easy.
  exists p. cbn [ppoints psegs emptyPolygon app] in A, B. fold rings in A, B.
  split; [exact E|]. split; [exact A|]. split; [exact B|].
  rewrite A, B.
  assert (L : length (flat_map (@coordinates T) rings) / 2 = length (concat rings)).
  { rewrite (flat_map_concat_map coordinates). 
    enough (L : length (concat (map (@coordinates T) rings)) = length (concat rings) * 2)
      by (rewrite L; now apply Nat.div_mul).
    generalize rings. clear. intros rs. induction rs as [|r rs IH]; [easy|].
    cbn [map concat]. rewrite !app_length, coordinates_length. lia. }
  rewrite L. exact (layout_range rings 0).
Qed.
Print Assumptions C49_rings.

Definition v2q (x y : Q) : vec2 Q := mkV2 x y.
Arguments v2q (x y)%Q_scope.
Definition block (x : Q) : list (vec2 Q) := [v2q x 0; v2q (x + 4) 0; v2q (x + 4) 4; v2q x 4; v2q x 0].
Definition bar : list (vec2 Q) := [v2q 1 1; v2q 3 1; v2q 3 3].
Example C49_case :
  exists p, addContours exactNums flatEnv emptyPolygon
      [(block 0, false, None); (bar, true, Some (v2q (7 # 3) (5 # 3)))] = Ok p /\
    psegs p = [0; 1; 1; 2; 2; 3; 3; 0; 4; 5; 5; 6; 6; 4]%Z /\
    pouters p = [(0, 8)] /\ pinners p = [(8, 14)].
Proof. eexists. vm_compute. auto. Qed.

(** C49 refuted for holes: a slim hole with area is dropped because the search finds no point
    inside it; the polygon is left as it was. *)
Definition exactFind (contour : list (vec2 Q)) : option (vec2 Q) :=
  findPoint exactNums Qle_bool (fun j => inject_Z (Z.of_nat j)) (1374 # 1000)%Q
    (fun _ => true) contour.
Definition slim : list (vec2 Q) := [v2q 1 2; v2q 2 (201 # 100); v2q 3 2; v2q 2 (199 # 100)].
Theorem C49_hole_refuted :
  exists (hole : list (vec2 Q)) (inner : vec2 Q), pointInside exactNums Qle_bool inner hole = true /\
    exactFind hole = None /\
    exists p p', addContours exactNums flatEnv emptyPolygon [(block 0, false, None)] = Ok p /\
      addContour exactNums flatEnv p hole true (exactFind hole) = Ok p' /\ p' = p.
Proof.
  exists slim, (v2q 2 2). split; [vm_compute; reflexivity|]. split; [vm_compute; reflexivity|].
  eexists. eexists. split; [vm_compute; reflexivity|]. split; vm_compute; reflexivity.
Qed.
Print Assumptions C49_hole_refuted.

(** C49: a point found by the search for any but a triangle passes the ray test. *)
Theorem C49_found {T} (n : nums T) le ofNat (k : T) bounds contour q :
  findPoint n le ofNat k bounds contour = Some q -> length contour <> 3 ->
  pointInside n le q contour = true /\ bounds q = true.
Proof.
  intros F L.
  assert (E : forall test cx cy dx dy js r, tryEdge n ofNat test cx cy dx dy js = Some r -> test r = true).
  { intros test cx cy dx dy js. induction js as [|j js IH]; intros r; cbn [tryEdge]; [discriminate|].
    destruct (test _) eqn:T1; [intros [= <-]; exact T1|].
    destruct (test (mkV2 (nsub n cx _) _)) eqn:T2; [intros [= <-]; exact T2|apply IH]. }
  assert (Es : forall test es r, tryEdges n ofNat k test es = Some r -> test r = true).
  { intros test es. induction es as [|[a b] es IH]; intros r; cbn [tryEdges]; [discriminate|].
    destruct (tryEdge _ _ _ _ _ _ _ _) eqn:T1; [intros [= <-]; eapply E; exact T1|apply IH]. }
  destruct contour as [|a [|b [|c [|d l]]]]; try (now destruct L); apply Es in F;
    apply andb_prop in F; tauto.
Qed.
Print Assumptions C49_found.
Example C49_found_case :
  exists q, exactFind (block 0) = Some q /\ pointInside exactNums Qle_bool q (block 0) = true.
Proof. eexists. split; vm_compute; reflexivity. Qed.
