(** Theorems about the generators of spheres and cylinders. *)
From Coq Require Import Reals Lra Permutation.
From Verif Require Import Base RingModel MeshBuildModel QuatModel QuatSpec QuatProofs GenModel GenSpec GenProofs GenSphereProofs GenCylinderProofs.
Local Open Scope nat_scope.

(** Whatever the arithmetic, the surface of a sphere has no hole; it has 80 triangles. *)
Theorem C63_sphere_closed : forall (T : Type) (n : nums T) (k : trig T) (g : gens T) tr center size level, (1 <= level)%Z ->
  exists ts, icoSphere n k g tr center size false level = Ok ts /\ length ts = 80 /\ watertight ts.
Proof.
  intros T n k g tr center size level H. rewrite (ico_triangles n k g tr center size false level H). cbv iota.
  eexists. split; [reflexivity|]. split.
  - rewrite map_length. vm_compute. reflexivity.
  - apply (watertight_map (fun s => corner n tr center size (spotAt n k g (vertexList n k g) s)) _ sphere_tight).
Qed.
Print Assumptions C63_sphere_closed.

(** The level of recursion changes nothing beyond the first, and there is no sphere at level 0. *)
Theorem C63_level_refuted : forall (T : Type) (n : nums T) (k : trig T) (g : gens T) tr center size semi,
  (forall level, (level <= 0)%Z -> icoSphere n k g tr center size semi level = Ok []) /\
  (forall level, (1 <= level)%Z -> icoSphere n k g tr center size semi level = icoSphere n k g tr center size semi 1).
Proof.
  intros T n k g tr center size semi. split; intros level H.
  - unfold icoSphere. now replace (Z.to_nat level) with 0 by lia.
  - now rewrite !ico_triangles by lia.
Qed.
Print Assumptions C63_level_refuted.

Local Open Scope R_scope.
Notation realSphere := (icoSphere realNums realTrig realGens (fun v => v)).

(** In exact arithmetic every corner is on the ellipsoid, all triangles face outwards and each side is shared by
    exactly two of them. *)
Theorem C63_sphere_shape : forall center size level, positive size -> (1 <= level)%Z ->
  exists ts, realSphere center size false level = Ok ts /\ manifold ts /\
    Forall (outward center) ts /\ Forall (onEllipsoid center size) (flat_map cornersOf ts).
Proof.
  intros center size level P H. rewrite (ico_triangles _ _ _ _ center size false level H). cbv iota.
  eexists. split; [reflexivity|]. split; [split|split].
  - apply (watertight_map (fun s => realCorner center size (realSpot s)) _ sphere_tight).
  - rewrite (allSides_map (fun s => realCorner center size (realSpot s))). apply sphere_nodup, P.
  - apply Forall_forall. intros t I. apply in_map_iff in I. destruct I as ([[a b] d] & <- & I). apply sphere_outward; assumption.
  - apply Forall_forall. intros p I. apply in_flat_map in I. destruct I as (t & I & J). apply in_map_iff in I.
    destruct I as ([[a b] d] & <- & I). pose proof (proj1 (forallb_forall _ _) good_sphere _ I) as G. cbn beta iota in G.
    apply andb_prop in G. destruct G as (G & G3). apply andb_prop in G. destruct G as (G1 & G2).
    cbn [cornersOf In] in J. destruct J as [J|[J|[J|[]]]]; rewrite <- J; apply corner_on; try exact P; apply spot_unit; assumption.
Qed.
Print Assumptions C63_sphere_shape.
(** A sphere of radius 2 around (1, 5, 1) as the facade builder makes it. *)
Example C63_sphere_shape_case : exists ts, realSphere (mkV3 1 5 1) (mkV3 2 2 2) false 2 = Ok ts /\ length ts = 80%nat /\ manifold ts.
Proof.
  destruct (C63_sphere_shape (mkV3 1 5 1) (mkV3 2 2 2) 2) as (ts & E & M & _); [unfold positive; cbn; lra|lia|].
  destruct (C63_sphere_closed R realNums realTrig realGens (fun v => v) (mkV3 1 5 1) (mkV3 2 2 2) 2) as (ts' & E' & L & _); [lia|].
  exists ts. split; [exact E|]. rewrite E in E'. injection E' as <-. split; assumption.
Qed.

(** Half of a sphere has triangles of the sphere only, and all of those which have a corner above the centre. *)
Theorem C63_half_partial : forall center size level, positive size -> (1 <= level)%Z ->
  exists whole half, realSphere center size false level = Ok whole /\ realSphere center size true level = Ok half /\
    incl half whole /\ forall t, In t whole -> (exists p, In p (cornersOf t) /\ v3y center < v3y p) -> In t half.
Proof.
  intros center size level P H. rewrite !ico_triangles by exact H. cbv iota.
  eexists _, _. split; [reflexivity|]. split; [reflexivity|].
  change (fun '(a, b, c) => _) with (place center size). split.
  - intros t I. apply in_map_iff in I. destruct I as (f & <- & I). pose proof (proj1 (forallb_forall _ _) semi_faces _ I) as E.
    cbn beta in E. apply existsb_exists in E. destruct E as (f' & I' & E). rewrite (faceEqb_ok center size _ _ E). apply in_map, I'.
  - intros t I (p & J & Y). apply in_map_iff in I. destruct I as (f & <- & I).
    pose proof (proj1 (forallb_forall _ _) other_faces _ I) as E. cbn beta in E. apply Bool.orb_true_iff in E. destruct E as [E|E].
    + apply existsb_exists in E. destruct E as (f' & I' & E). rewrite (faceEqb_ok center size _ _ E). apply in_map, I'.
    + exfalso. destruct f as [[a b] d]. pose proof (proj1 (forallb_forall _ _) good_sphere _ I) as G. cbn beta iota in G.
      apply andb_prop in G. destruct G as (G & G3). apply andb_prop in G. destruct G as (G1 & G2).
      apply andb_prop in E. destruct E as (E & E3). apply andb_prop in E. destruct E as (E1 & E2).
      cbn [place cornersOf In] in J.
      destruct J as [J|[J|[J|[]]]]; rewrite <- J in Y;
        [pose proof (below_ok center size a P G1 E1)|pose proof (below_ok center size b P G2 E2)|pose proof (below_ok center size d P G3 E3)]; lra.
Qed.
Print Assumptions C63_half_partial.
(** But the half reaches below the centre, by more than half of the height. *)
Theorem C63_half_refuted : forall center size level, positive size -> (1 <= level)%Z ->
  exists half t p, realSphere center size true level = Ok half /\ In t half /\ In p (cornersOf t) /\
    v3y p < v3y center - v3y size / 2.
Proof.
  intros center size level P H. rewrite ico_triangles by exact H. cbv iota.
  assert (I : exists x y, In (Base 4, x, y) (spotFaces semiSphereFaces)).
  { exists (Mid 4 5), (Mid 11 4). vm_compute. intuition. }
  destruct I as (x & y & I).
  eexists _, (realCorner center size (realSpot (Base 4)), _, _), (realCorner center size (realSpot (Base 4))).
  split; [reflexivity|]. split; [apply in_map_iff; exists (Base 4, x, y); split; [reflexivity|exact I]|]. split; [now left|].
  rewrite (real_spot (Base 4) eq_refl). unfold corner, vadd, times. cbn [realNums nadd nmul v3y raw].
  destruct P as (_ & P & _). pose proof rad_bounds as (R1 & R2). cbn [weight rawBase nth evv v3y]. unfold ev. cbn [fst snd].
  assert (1 / 2 < / rad).
  { replace (1 / 2) with (/ 2) by field. apply Rinv_lt_contravar; [|lra]. apply Rmult_lt_0_compat; lra. }
  assert (0 < (/ rad - 1 / 2) * v3y size) by (apply Rmult_lt_0_compat; lra). lra.
Qed.
Print Assumptions C63_half_refuted.

(** Whatever the arithmetic, the surface of a cylinder or truncated cone has no hole. *)
Theorem C63_cylinder_closed : forall (T : Type) (n : nums T) (k : trig T) (g : gens T) c h,
  heightSegments n g c = Some h -> sameVec3 n g (csize2 c) (vzero n) = false ->
  exists ts, cylinderOf n k g c = Ok ts /\ watertight ts /\
    ((0 < h)%Z -> length ts = (Z.to_nat (cradial c) * (2 * Z.to_nat h + 2))%nat).
Proof.
  intros T n k g c h H N. eexists. split; [apply cylinder_grid, H|]. unfold capped. rewrite N. split; [apply grid_tight|].
  intros P. apply (grid_count _ _ _ _ _ true P).
Qed.
Print Assumptions C63_cylinder_closed.
(** A cone has no hole in exact arithmetic. *)
Theorem C63_cone_closed : forall c h, heightSegments realNums realGens c = Some h -> csize2 c = mkV3 0 0 0 ->
  exists ts, realCylinder c = Ok ts /\ watertight ts /\
    ((0 < h)%Z -> length ts = (Z.to_nat (cradial c) * (2 * Z.to_nat h + 1))%nat).
Proof.
  intros c h H N. eexists. split; [apply cylinder_grid, H|].
  assert (C : capped realNums realGens c = false).
  { unfold capped, sameVec3, vzero. rewrite N. cbn [realNums nsub nabs nlt nzero v3x v3y v3z realGens geps].
    rewrite Rminus_0_r, Rabs_R0. destruct (Rlt_dec 0 (/ 2 ^ 52)) as [L|L]; [reflexivity|].
    exfalso. apply L. apply Rinv_0_lt_compat, pow_lt. lra. }
  rewrite C. split; [|intros P; apply (grid_count _ _ _ _ _ false P)].
  apply grid_tip. intros j. unfold ringPoint. f_equal. rewrite N, Z.sub_diag. unfold radiusAt, lerp, scaleBy, vadd.
  cbn [realNums realTrig realGens gint kone nadd nsub nmul ndiv v3x v3y v3z].
  assert (Z0 : 0 / IZR h = 0) by (unfold Rdiv; ring). rewrite Z0. apply vec3_eq; cbn [v3x v3y v3z]; ring.
Qed.
Print Assumptions C63_cone_closed.

(** Every corner of an upright cylinder is on its wall or the centre of its bottom or of its top. *)
Theorem C63_cylinder_shape : forall c ts, upright c -> realCylinder c = Ok ts ->
  Forall (fun p => onWall (ccenter c) (csize1 c) (csize2 c) p \/ p = ccenter c \/ p = above (ccenter c) (v3y (csize1 c)))
    (flat_map cornersOf ts).
Proof.
  intros c ts U E. destruct (heightSegments realNums realGens c) as [h|] eqn:S; [|unfold cylinderOf in E; rewrite S in E; discriminate].
  apply Forall_forall. intros p I. apply in_flat_map in I. destruct I as (t & I & J).
  destruct (upright_in c h ts t U S E I) as (Hh & Hn & j & i & Hj & Hi & K). cbv zeta in K.
  assert (F1 : 0 <= IZR i / IZR h <= 1) by (apply fraction_bounds; lia).
  assert (F2 : 0 <= IZR (i + 1) / IZR h <= 1) by (apply fraction_bounds; lia).
  destruct K as [K|[K|[K|K]]]; rewrite K in J; cbn [cornersOf In] in J.
  1, 2: left; unfold onWall; destruct J as [J|[J|[J|[]]]]; rewrite <- J; eexists _, _; (split; [|reflexivity]); assumption.
  - destruct J as [J|J].
    + right. left. rewrite <- J. unfold above. apply vec3_eq; cbn [v3x v3y v3z]; ring.
    + left. unfold onWall. destruct J as [J|[J|[]]]; rewrite <- J; eexists _, _; (split; [|reflexivity]); lra.
  - destruct J as [J|J].
    + right. right. rewrite <- J. unfold above. apply vec3_eq; cbn [v3x v3y v3z]; ring.
    + left. unfold onWall. destruct J as [J|[J|[]]]; rewrite <- J; eexists _, _; (split; [|reflexivity]); lra.
Qed.
Print Assumptions C63_cylinder_shape.

(** Triangles of an upright cylinder, truncated cone or cone face outwards; at the tip of a cone some have two equal corners. *)
Theorem C63_cylinder_outward : forall c ts l, upright c -> realCylinder c = Ok ts -> positive (csize1 c) ->
  0 <= l -> v3x (csize2 c) = l * v3x (csize1 c) -> v3z (csize2 c) = l * v3z (csize1 c) -> (3 <= cradial c)%Z ->
  Forall (fun t => outward (above (ccenter c) (v3y (csize1 c) / 2)) t \/ l = 0 /\ let '(_, p, q) := t in p = q) ts.
Proof.
  intros c ts l U E (Px & Py & Pz) L X Z N.
  destruct (heightSegments realNums realGens c) as [h|] eqn:S; [|unfold cylinderOf in E; rewrite S in E; discriminate].
  apply Forall_forall. intros t I. destruct (upright_in c h ts t U S E I) as (Hh & Hn & j & i & Hj & Hi & K). cbv zeta in K.
  pose proof (sin_next (cradial c) j N Hj) as Sn.
  set (a := IZR j * (2 * PI / IZR (cradial c))) in *. set (b := IZR (nextOf (cradial c) j) * (2 * PI / IZR (cradial c))) in *.
  assert (F1 : 0 <= IZR i / IZR h <= 1) by (apply fraction_bounds; lia).
  assert (F2 : 0 <= IZR (i + 1) / IZR h <= 1) by (apply fraction_bounds; lia).
  assert (F3 : 0 < IZR (i + 1) / IZR h - IZR i / IZR h).
  { rewrite plus_IZR. replace (_ - _) with (/ IZR h) by (field; apply IZR_lt in Hh; lra). apply Rinv_0_lt_compat. now apply IZR_lt in Hh. }
  set (f1 := IZR i / IZR h) in *. set (f2 := IZR (i + 1) / IZR h) in *.
  replace (v3y (csize1 c) / 2) with (1 / 2 * v3y (csize1 c)) by field.
  destruct (wall_det (ccenter c) (csize1 c) (csize2 c) l f1 f2 a b (1 / 2) X Z) as (D1 & D2). cbv zeta in D1, D2.
  pose proof (cap_det (ccenter c) (csize1 c) (csize2 c) a b (1 / 2) 0) as D3. cbv zeta in D3.
  pose proof (cap_det' (ccenter c) (csize1 c) (csize2 c) a b (1 / 2) 1) as D4. cbv zeta in D4.
  assert (V : 0 < v3x (csize1 c) * v3y (csize1 c) * v3z (csize1 c)) by (repeat apply Rmult_lt_0_compat; assumption).
  assert (W : 0 < (f2 - f1) * (1 - 1 / 2 * (1 - l))) by (apply Rmult_lt_0_compat; lra).
  destruct K as [K|[K|[K|K]]]; rewrite K; unfold outward.
  - left. rewrite D1. apply Rmult_lt_0_compat; [|exact Sn]. apply Rmult_lt_0_compat; [|exact W].
    apply Rmult_lt_0_compat; [exact V|]. assert (0 <= f1 * l) by (apply Rmult_le_pos; lra). lra.
  - destruct (Req_dec (1 - f2 + f2 * l) 0) as [Q|Q].
    + right. assert (0 <= f2 * l) by (apply Rmult_le_pos; lra). assert (f2 = 1) by lra. assert (l = 0) by nra. split; [assumption|].
      unfold wallPoint. rewrite X, Z. apply vec3_eq; cbn [v3x v3y v3z]; replace l with 0; replace f2 with 1; ring.
    + left. rewrite D2. apply Rmult_lt_0_compat; [|exact Sn]. apply Rmult_lt_0_compat; [|exact W].
      apply Rmult_lt_0_compat; [exact V|]. assert (0 <= f2 * l) by (apply Rmult_le_pos; lra). lra.
  - left. rewrite D3. apply Rmult_lt_0_compat; [|exact Sn]. replace (_ * _) with ((1 / 2) * (v3x (csize1 c) * v3y (csize1 c) * v3z (csize1 c))) by ring. lra.
  - destruct (Req_dec l 0) as [Q|Q].
    + right. split; [exact Q|]. unfold wallPoint. rewrite X, Z, Q. apply vec3_eq; cbn [v3x v3y v3z]; ring.
    + left. rewrite D4. apply Rmult_lt_0_compat; [|exact Sn]. rewrite X, Z.
      apply Rlt_le_trans with ((1 / 2) * (l * l) * (v3x (csize1 c) * v3y (csize1 c) * v3z (csize1 c))); [|right; field].
      apply Rmult_lt_0_compat; [|exact V]. assert (0 < l * l) by (apply Rmult_lt_0_compat; lra). lra.
Qed.
Print Assumptions C63_cylinder_outward.

(** No triangle is higher than the maximal height of a segment, if one is set. *)
Theorem C63_cylinder_segments : forall c ts t p q, upright c -> realCylinder c = Ok ts -> 0 < v3y (csize1 c) -> 0 < cmaxHeight c ->
  In t ts -> In p (cornersOf t) -> In q (cornersOf t) -> v3y p - v3y q <= cmaxHeight c.
Proof.
  intros c ts t p q U E H M I J1 J2. 
  destruct (heightSegments realNums realGens c) as [h|] eqn:S; [|unfold cylinderOf in E; rewrite S in E; discriminate].
  destruct (upright_in c h ts t U S E I) as (Hh & Hn & j & i & Hj & Hi & K). cbv zeta in K.
  apply segments_ceil in S; [|exact M]. destruct S as (S & _). apply IZR_lt in Hh.
  assert (Q : v3y (csize1 c) / IZR h <= cmaxHeight c).
  { apply Rmult_le_reg_r with (IZR h); [exact Hh|]. unfold Rdiv. rewrite Rmult_assoc, Rinv_l, Rmult_1_r by lra.
    apply Rmult_le_compat_r with (r := cmaxHeight c) in S; [|lra]. unfold Rdiv in S. rewrite Rmult_assoc, Rinv_l in S by lra. lra. }
  assert (Q' : 0 < v3y (csize1 c) / IZR h) by (apply Rdiv_lt_0_compat; lra).
  rewrite plus_IZR in K.
  replace ((IZR i + 1) / IZR h) with (IZR i / IZR h + / IZR h) in K by (field; lra).
  assert (D : (IZR i / IZR h + / IZR h) * v3y (csize1 c) - IZR i / IZR h * v3y (csize1 c) = v3y (csize1 c) / IZR h) by (field; lra).
  destruct K as [K|[K|[K|K]]]; rewrite K in J1, J2; cbn [cornersOf In] in J1, J2;
    destruct J1 as [J1|[J1|[J1|[]]]], J2 as [J2|[J2|[J2|[]]]]; rewrite <- J1, <- J2; unfold wallPoint, above; cbn [v3y]; lra.
Qed.
Print Assumptions C63_cylinder_segments.

(** A cone of height 3 with seven sides and segments of height 1 at most. *)
Definition coneCase : @cylinder R := mkCylinder (mkV3 1 0 1) axisY axisX (mkV3 2 3 2) (mkV3 0 0 0) 1 7 (fun v => v).
Lemma coneCase_segments : heightSegments realNums realGens coneCase = Some 3%Z.
Proof.
  unfold heightSegments. cbn [coneCase cmaxHeight csize1 v3y realNums nlt nzero ndiv realGens gceil].
  destruct (Rlt_dec 1 0) as [A|A]; [lra|]. destruct (Rlt_dec 0 1) as [B|B]; [|lra]. cbn [orb].
  assert (U : up (- (3 / 1)) = (-2)%Z) by (symmetry; apply tech_up; lra). rewrite U. reflexivity.
Qed.
Example C63_cone_case : exists ts, realCylinder coneCase = Ok ts /\ watertight ts /\ length ts = 49%nat /\
  Forall (fun t => outward (mkV3 1 (0 + 3 / 2) 1) t \/ 0 = 0 /\ let '(_, p, q) := t in p = q) ts /\
  forall t p q, In t ts -> In p (cornersOf t) -> In q (cornersOf t) -> v3y p - v3y q <= 1.
Proof.
  destruct (C63_cone_closed coneCase 3 coneCase_segments eq_refl) as (ts & E & W & L).
  assert (U : upright coneCase) by (repeat split).
  exists ts. split; [exact E|]. split; [exact W|]. split; [apply L; lia|]. split.
  - apply (C63_cylinder_outward coneCase ts 0 U E); cbn; try (unfold positive; cbn); try lra; lia.
  - intros t p q. apply (C63_cylinder_segments coneCase ts t p q U E); cbn; lra.
Qed.
