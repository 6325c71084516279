(** Proofs about mansard, round and skillion roofs. *)
From Coq Require Import Reals Lra Lia Permutation.
From Verif Require Import Base GeoModel RingModel MeshBuildModel MeshBuildSpec MeshBuildProofs QuatModel QuatSpec QuatProofs QuatProps
  GenModel GenSpec GenProofs RowModel RowSpec RowProofs HouseModel HouseSpec HouseProofs RoofModel RoofSpec.
Local Notation corner := MeshBuildSpec.corner.
Local Open Scope R_scope.

(** * Lists *)
Lemma ring_sides {A} (r : list A) : ringSides r = onward r.
Proof. reflexivity. Qed.
Lemma ring_seq {A} (d : A) r :
  ringSides r = map (fun i => (nth i r d, nth (after (length r) i) r d)) (seq 0 (length r)).
Proof.
  destruct r as [|x r']; [reflexivity|]. unfold ringSides. rewrite (next_seq d). apply map_ext. intros i. unfold after. cbn [length].
  change (S i =? S (length r'))%nat with (i =? length r')%nat. destruct (i =? length r')%nat; [reflexivity|]. now rewrite Nat.add_1_r.
Qed.
Lemma after_mod m i : (i < m)%nat -> after m i = ((i + 1) mod m)%nat.
Proof.
  intros L. unfold after. destruct (Nat.eqb_spec (S i) m) as [Q|Q].
  - replace (i + 1)%nat with m by lia. now rewrite Nat.mod_same by lia.
  - rewrite Nat.mod_small by lia. lia.
Qed.
Lemma after_lt m i : (i < m)%nat -> (after m i < m)%nat.
Proof. intros L. unfold after. destruct (Nat.eqb_spec (S i) m); lia. Qed.
Lemma begin_length {A} j (r : list A) : length (beginAt j r) = length r.
Proof. unfold beginAt. rewrite app_length, Nat.add_comm, <- app_length. now rewrite firstn_skipn. Qed.
Lemma nth_begin {A} (d : A) j r i : (j < length r)%nat -> (i < length r)%nat ->
  nth i (beginAt j r) d = nth ((j + i) mod length r) r d.
Proof.
  intros J I. unfold beginAt. destruct (Nat.lt_ge_cases (j + i) (length r)) as [L|L].
  - rewrite app_nth1 by (rewrite skipn_length; lia). rewrite Nat.mod_small by lia.
    transitivity (nth (j + i) (firstn j r ++ skipn j r) d); [|now rewrite firstn_skipn].
    rewrite app_nth2; rewrite firstn_length_le by lia; [|lia]. f_equal. lia.
  - rewrite app_nth2 by (rewrite skipn_length; lia). rewrite skipn_length.
    replace ((j + i) mod length r)%nat with (i - (length r - j))%nat.
    + transitivity (nth (i - (length r - j)) (firstn j r ++ skipn j r) d); [|now rewrite firstn_skipn].
      rewrite app_nth1; [reflexivity|]. rewrite firstn_length_le by lia. lia.
    + replace (j + i)%nat with (i - (length r - j) + 1 * length r)%nat by lia. rewrite Nat.mod_add by lia. rewrite Nat.mod_small by lia. reflexivity.
Qed.
Lemma begin_sides {A} j (r : list A) : Permutation (ringSides (beginAt j r)) (ringSides r).
Proof.
  rewrite !ring_sides, <- !around_onward. unfold beginAt. rewrite <- (firstn_skipn j r) at 3.
  set (a := firstn j r). set (b := skipn j r). clearbody a b. clear r j.
  destruct a as [|x a]; [now rewrite app_nil_r|]. destruct b as [|y b]; [now rewrite app_nil_r|].
  assert (S : forall (u : A) a y b, around ((u :: a) ++ y :: b) = (last (y :: b) y, u) :: combine (u :: a) a ++ (last (u :: a) u, y) :: combine (y :: b) b).
  { clear. intros u a y b. unfold around. cbn [app].
    assert (Ll : forall l z, last (u :: l ++ y :: b) z = last (y :: b) y).
    { intros l z. change (u :: l ++ y :: b) with ((u :: l) ++ y :: b). destruct (exists_last (l := y :: b)) as (s & t & Q); [discriminate|]. rewrite Q.
      rewrite app_assoc, !last_last. reflexivity. }
    rewrite Ll. change (combine (last (y :: b) y :: u :: a ++ y :: b) (u :: a ++ y :: b))
      with ((last (y :: b) y, u) :: combine ((u :: a) ++ y :: b) (a ++ y :: b)).
    f_equal. destruct (exists_last (l := u :: a)) as (s & t & Q); [discriminate|].
    assert (Lt : last (u :: a) u = t) by (rewrite Q; apply last_last). rewrite Lt. rewrite Q at 1. rewrite <- app_assoc. cbn [app].
    assert (La : length s = length a) by (apply (f_equal (@length A)) in Q; rewrite app_length in Q; cbn in Q; lia).
    rewrite combine_cut by exact La. cbn [combine]. apply (f_equal2 (@app _)); [|reflexivity].
    change (combine s a = combine (u :: a) a). rewrite Q. rewrite <- (app_nil_r a) at 2. rewrite (combine_cut s [t] a [] La). cbn. now rewrite app_nil_r. }
  rewrite !S. set (p := combine (y :: b) b). set (q := combine (x :: a) a).
  pieces [[(last (x :: a) x, y)]; p; [(last (y :: b) y, x)]; q] [0; 1; 2; 3]%nat [2; 3; 0; 1]%nat.
Qed.
Lemma combine_maps {A B C} (f : A -> B) (h : A -> C) l : combine (map f l) (map h l) = map (fun a => (f a, h a)) l.
Proof. induction l as [|a l IH]; [reflexivity|]. cbn. now rewrite IH. Qed.

(** The points of a polygon as one path. *)
Lemma path_ok (p : polygon R) path : ppoints p = coordinates path ->
  overAll (pointAt p) (indicesOf (0%nat, length (ppoints p))) = Ok path.
Proof.
  intros P. assert (L : length (ppoints p) = (2 * length path)%nat) by (rewrite P; apply coords_len). rewrite L.
  rewrite (indices_len 0 path : indicesOf (0%nat, (2 * length path)%nat) = _).
  rewrite (over_all _ (fun i => nth (i / 2) path (mkV2 0 0))).
  - f_equal. rewrite map_map. transitivity (map (fun j => nth j path (mkV2 0 0)) (seq 0 (length path))); [|apply nth_seq]. apply map_ext. intros j.
    replace (0 + 2 * j)%nat with (j * 2)%nat by lia. now rewrite Nat.div_mul.
  - intros i I. apply in_map_iff in I. destruct I as (j & <- & I). apply in_seq in I.
    refine (eq_trans (point_at p [] path [] j (mkV2 0 0) _ _) _); [now rewrite app_nil_r|lia|].
    replace (0 + 2 * j)%nat with (j * 2)%nat by lia. now rewrite Nat.div_mul.
Qed.

(** * Numbers *)
Lemma distance_ok a b : distance2 realNums realTrig a b = length2 a b.
Proof. reflexivity. Qed.
Lemma length2_pos a b : 0 <= length2 a b.
Proof. apply sqrt_pos. Qed.
Lemma nlt_dec a b : nlt realNums a b = true -> a < b.
Proof. cbn. now destruct (Rlt_dec a b). Qed.
Lemma nlt_not a b : nlt realNums a b = false -> b <= a.
Proof. cbn. destruct (Rlt_dec a b); [discriminate|lra]. Qed.

(** The least of some values. *)
Lemma shortest_ok path : path <> [] -> exists d, shortest realNums realTrig path = Some d /\ shortestSide path d.
Proof.
  intros Ne. unfold shortest, shortestSide. destruct path as [|v path']; [contradiction|]. cbn [ringSides].
  assert (Sn : combine (v :: path') (path' ++ [v]) <> []) by (destruct path'; discriminate).
  set (step := fun best '(a, b) => _). set (l := combine (v :: path') (path' ++ [v])) in *. clearbody l.
  enough (H : forall l best d0, best = Some d0 -> exists d, fold_left step l best = Some d /\
      (d = d0 \/ exists a b, In (a, b) l /\ d = length2 a b) /\ d <= d0 /\ forall a b, In (a, b) l -> d <= length2 a b).
  { destruct l as [|[a b] l]; [contradiction|]. cbn [fold_left].
    destruct (H l (step None (a, b)) (length2 a b) eq_refl) as (d & -> & W & B & M). exists d. split; [reflexivity|]. split.
    - destruct W as [-> |(x & y & I & ->)]; [exists a, b|exists x, y]; split; auto; [now left|now right].
    - intros x y [Q|I]; [injection Q as -> ->; exact B|now apply M]. }
  clear. induction l as [|[a b] l IH]; intros best d0 ->.
  - exists d0. split; [reflexivity|]. split; [now left|]. split; [lra|]. intros ? ? [].
  - cbn [fold_left]. unfold step at 2. rewrite distance_ok. cbn [nearer]. destruct (nlt realNums (length2 a b) d0) eqn:L.
    + apply nlt_dec in L. destruct (IH _ (length2 a b) eq_refl) as (d & -> & W & B & M). exists d. split; [reflexivity|]. split; [|split; [lra|]].
      * right. destruct W as [-> |(x & y & I & ->)]; [exists a, b|exists x, y]; split; auto; [now left|now right].
      * intros x y [Q|I]; [injection Q as -> ->; exact B|now apply M].
    + apply nlt_not in L. destruct (IH _ d0 eq_refl) as (d & -> & W & B & M). exists d. split; [reflexivity|]. split; [|split; [lra|]].
      * destruct W as [-> |(x & y & I & ->)]; [now left|]. right. exists x, y. split; auto. now right.
      * intros x y [Q|I]; [injection Q as -> ->; lra|now apply M].
Qed.
Lemma first_ok q path : path <> [] -> nearestInHalf q path (firstIndex realNums realTrig q path).
Proof.
  intros Ne. unfold firstIndex, nearestInHalf. set (step := fun '(best, at_) '(j, v) => _). set (h := ((length path + 1) / 2)%nat).
  assert (Hh : forall i, (2 * i < length path <-> i < h)%nat).
  { intros i. unfold h. pose proof (Nat.div_mod (length path + 1) 2 ltac:(lia)). pose proof (Nat.mod_upper_bound (length path + 1) 2 ltac:(lia)). lia. }
  enough (H : forall l from best d0 j0, (length l = length path - from)%nat /\ (from <= length path)%nat /\ l = skipn from path ->
    best = Some d0 -> (from <= h)%nat -> (j0 < h)%nat -> d0 = length2 q (nth j0 path q) ->
    (forall i, (i < from)%nat -> d0 <= length2 q (nth i path q)) ->
    let r := snd (fold_left step (combine (seq from (h - from)) l) (best, j0)) in
    (r < h)%nat /\ forall i, (i < h)%nat -> length2 q (nth r path q) <= length2 q (nth i path q)).
  { assert (h0 : (0 < h)%nat) by (apply Hh; destruct path; [contradiction|cbn; lia]).
    destruct path as [|v path'] eqn:P; [contradiction|]. rewrite <- P in *.
    assert (F : combine (seq 0 h) path = (0%nat, v) :: combine (seq 1 (h - 1)) path').
    { destruct h as [|h']; [lia|]. rewrite P. cbn [seq combine]. now rewrite Nat.sub_0_r || replace (S h' - 1)%nat with h' by lia. }
    rewrite F. cbn [fold_left]. replace (step (None, 0%nat) (0%nat, v)) with (Some (length2 q v), 0%nat) by reflexivity.
    destruct (H path' 1%nat (Some (length2 q v)) (length2 q v) 0%nat) as (A & B).
    - rewrite P. cbn [length skipn]. split; [lia|]. split; [lia|reflexivity].
    - reflexivity.
    - lia.
    - lia.
    - rewrite P. reflexivity.
    - intros i I. assert (i = 0%nat) by lia. subst i. rewrite P. cbn. apply Rle_refl.
    - split; [now apply Hh|]. intros i I. apply B. now apply Hh. }
  assert (Hm : (h <= length path)%nat).
  { destruct (Nat.le_gt_cases h (length path)); [assumption|]. pose proof (proj2 (Hh (length path)) H). lia. }
  clear Ne. induction l as [|v l IH]; intros from best d0 j0 (Ll & Lf & Hl) -> Fh J0 D0 Before r.
  - assert (from = h) by (cbn in Ll; lia). subst from. subst r. replace (h - h)%nat with 0%nat by lia. cbn [seq combine fold_left snd].
    split; [exact J0|]. intros i I. rewrite <- D0. now apply Before.
  - destruct (Nat.eq_dec from h) as [Q|Q].
    + subst from. subst r. replace (h - h)%nat with 0%nat by lia. cbn [seq combine fold_left snd].
      split; [exact J0|]. intros i I. rewrite <- D0. now apply Before.
    + subst r. replace (h - from)%nat with (S (h - S from)) by lia. cbn [seq combine fold_left].
      replace (step (Some d0, j0) (from, v)) with (if nlt realNums (length2 q v) d0 then (Some (length2 q v), from) else (Some d0, j0)) by reflexivity.
      assert (Hv : nth from path q = v).
      { rewrite <- (firstn_skipn from path), <- Hl. rewrite app_nth2; rewrite firstn_length_le by lia; [|lia]. now rewrite Nat.sub_diag. }
      assert (Tl : l = skipn (S from) path).
      { assert (X : forall (a : list (vec2 R)) f, v :: l = skipn f a -> l = skipn (S f) a).
        { clear. induction a as [|x a IHa]; intros [|f] E; try discriminate E; cbn in *; [now injection E|]. now apply IHa. }
        now apply X. }
      destruct (nlt realNums (length2 q v) d0) eqn:L; [apply nlt_dec in L|apply nlt_not in L].
      * refine (IH (S from) (Some (length2 q v)) (length2 q v) from _ eq_refl _ _ _ _); [|lia|lia|now rewrite Hv|].
        -- split; [cbn in Ll; lia|]. split; [lia|exact Tl].
        -- intros i I. destruct (Nat.eq_dec i from) as [->|N]; [rewrite Hv; lra|]. assert (i < from)%nat by lia. pose proof (Before i H). lra.
      * refine (IH (S from) (Some d0) d0 j0 _ eq_refl _ J0 D0 _); [|lia|].
        -- split; [cbn in Ll; lia|]. split; [lia|exact Tl].
        -- intros i I. destruct (Nat.eq_dec i from) as [->|N]; [rewrite Hv; lra|]. apply Before. lia.
Qed.

(** * Surfaces *)
Section Surface.
  Context (env : builderEnv R).
  Hypothesis Quiet : forall x y, ePerlin env x y 0 = 0.
  Hypothesis Eps : 0 < eEps env.
  Lemma tri_spots base off look flip (io : triio R) : eLowest env < base ->
    map spot (triCorners realNums env (houseGeo realNums base off flip) look io) =
    map (fun q : R * R => at_ (off + base) (let '(x, z) := q in mkV2 x z)) (tpoints io).
  Proof.
    intros L. set (geo := houseGeo realNums base off flip). unfold triCorners, numbered. rewrite map_map.
    assert (H : forall ps i, map (fun x : nat * (R * R) => spot (let '(i, p) := x in triCorner realNums env geo look io i p)) (combine (seq i (length ps)) ps) =
            map (fun q : R * R => at_ (off + base) (let '(x, z) := q in mkV2 x z)) ps).
    { induction ps as [|[x z] ps IH]; intros i; [reflexivity|]. cbn [length seq combine map]. rewrite IH. f_equal.
      unfold triCorner, geo, spot, ground, houseGeo, at_. cbn [cpos gheight gele gnoise v2x v2y]. rewrite (rnlt_true _ _ L).
      change (nzero realNums) with 0. rewrite Quiet. f_equal. destruct (match tmarkers io with None => _ | Some l => _ end); cbn; ring. }
    apply H.
  Qed.
  Lemma no_area p base off flip : triangulation realNums env p (houseGeo realNums base off flip) = eTriangulate env p.
  Proof.
    unfold triangulation, houseGeo. cbn [garea]. rewrite (rnlt_true (nabs realNums (nzero realNums)) (eEps env)); [reflexivity|].
    cbn. rewrite Rabs_R0. exact Eps.
  Qed.
  (** Rows of the triangulation by what corners show. *)
  Lemma rows_seen (io : triio R) (cs : list (corner R)) (u : Z -> vec3 R) : goodTri io ->
    (forall i, (0 <= i < Z.of_nat (length (tpoints io)))%Z -> exists c, cornerAt cs i = Some c /\ spot c = u i) ->
    flat_map seen (map (fun r : list Z => (cornerAt cs (nth 1 r 0%Z), cornerAt cs (nth 0 r 0%Z), cornerAt cs (nth 2 r 0%Z))) (ttris io)) =
    map (fun '(a, b, c) => (u b, u a, u c)) (triples io).
  Proof.
    intros (_ & F) A. unfold triples. rewrite flat_map_of_map, map_map.
    induction F as [|r rows (Len & F0) F IH]; [reflexivity|].
    assert (Get : forall j, (j < 3)%nat -> exists c, cornerAt cs (nth j r 0%Z) = Some c /\ spot c = u (nth j r 0%Z)).
    { intros j Lj. apply A. rewrite Forall_forall in F0. apply F0. apply nth_In. lia. }
    destruct (Get 0%nat) as (c0 & E0 & S0); [lia|]. destruct (Get 1%nat) as (c1 & E1 & S1); [lia|]. destruct (Get 2%nat) as (c2 & E2 & S2); [lia|].
    cbn [flat_map map]. rewrite IH. cbn [seen]. rewrite E0, E1, E2. cbn [seen app]. now rewrite S0, S1, S2.
  Qed.
  Lemma top_ok (p : polygon R) look base off : eLowest env < base -> goodTri (eTriangulate env p) ->
    let io := eTriangulate env p in
    let op := OpPolygon p (houseGeo realNums base off false) look in
    goodOp realNums env op /\ flat_map seen (newFaces realNums env op) = fromAbove io (off + base) /\
    length (newCorners realNums env op) = length (tpoints io).
  Proof.
    intros L G io op.
    assert (Cs : newCorners realNums env op = triCorners realNums env (houseGeo realNums base off false) look io).
    { unfold op. cbn [newCorners]. now rewrite no_area. }
    split; [|split].
    - unfold op. cbn [goodOp]. rewrite no_area. exact G.
    - unfold op. cbn [newFaces]. fold op. rewrite Cs, no_area. cbn [gflip houseGeo]. fold io.
      pose proof (tri_spots base off look false io L) as Sp. set (cs := triCorners _ _ _ _ _) in *.
      assert (Lc : length cs = length (tpoints io)) by (rewrite <- (map_length spot), Sp; apply map_length).
      apply (rows_seen io cs (fun i => at_ (off + base) (corner2 io i)) G).
      intros i I. unfold cornerAt. destruct (Z.ltb_spec i 0); [lia|].
      destruct (nth_error cs (Z.to_nat i)) as [c|] eqn:N; [|apply nth_error_None in N; lia].
      exists c. split; [reflexivity|]. pose proof (map_nth_error spot _ _ N) as M. rewrite Sp in M.
      rewrite nth_error_map in M. unfold corner2. destruct (nth_error (tpoints io) (Z.to_nat i)) as [[x z]|] eqn:Nq; [|discriminate].
      rewrite (nth_error_nth _ _ (0, 0) Nq). injection M as M. now symmetry.
    - rewrite Cs. rewrite <- (map_length spot), tri_spots by exact L. apply map_length.
  Qed.
End Surface.

(** * Mansard *)
Section Mansard.
  Context {E : Type} (env : builderEnv R) (ele scaled : R -> R -> R) (inside : list (vec2 R) -> option (vec2 R)).
  Context (shrink : list (vec2 R) -> R -> list (list (vec2 R))) (counter : list (vec2 R) -> bool).
  Local Notation w := (realHouse ele scaled inside).
  Local Notation f := (realRoof shrink counter).
  Hypothesis Quiet : forall x y, ePerlin env x y 0 = 0.
  Hypothesis Eps : 0 < eEps env.
  Local Notation drawn := (drawnBy env).
  Local Notation verts := (vertsOf env).

  Lemma shape_line (shape : list (vec2 R)) : lineOf (map (fun v => mkPoint (v2y v) (v2x v)) shape) = shape.
  Proof. unfold lineOf. rewrite map_map. rewrite <- (map_id shape) at 2. apply map_ext. now intros [x y]. Qed.
  Lemma shape_rings (shape : list (vec2 R)) : openContour (sameVec realNums env) shape = shape -> ringsOf env w (shapePart shape) = [(shape, false)].
  Proof.
    intros O. unfold ringsOf, shapePart. cbn [pOutlines List.filter]. unfold isKept. cbn [fst snd]. rewrite shape_line.
    destruct (kInside w shape); cbn [negb map fst snd]; rewrite shape_line, O; reflexivity.
  Qed.
  Lemma shape_ok (shape : list (vec2 R)) : shape <> [] -> (Z.of_nat (length shape) < 2 ^ 31)%Z ->
    addContour realNums env emptyPolygon shape false None = Ok (planOf env w (shapePart shape)).
  Proof.
    intros Ne L. pose proof (plan_ok env w (shapePart shape)) as P. unfold contoursOf, shapePart at 2 in P. cbn [pOutlines map fst snd addContours] in P.
    rewrite shape_line in P. rewrite <- P.
    - destruct shape; [contradiction|]. cbn [addContour bind]. reflexivity.
    - unfold countable, shapePart. cbn [pOutlines map fst concat]. split.
      + apply Forall_cons; [|constructor]. cbn. destruct shape; [contradiction|discriminate].
      + rewrite app_nil_r, map_length. exact L.
  Qed.

  Definition sideOps look low h (s : (vec2 R * vec2 R) * (vec2 R * vec2 R)) : list meshOp :=
    let '((a, b), (c, d)) := s in
    let k := scaled (lscale look) h in
    [roofTriangle realNums env look (at_ (low + h) d) (at_ low a) (at_ (low + h) c) (mkV2 k k) (mkV2 0 0) (mkV2 0 k);
     roofTriangle realNums env look (at_ low a) (at_ (low + h) d) (at_ low b) (mkV2 0 0) (mkV2 k k) (mkV2 k 0)].
  Lemma sides_ok look p top h low path upper j : ppoints p = coordinates path -> ppoints top = coordinates upper -> length upper = length path ->
    (j < length path)%nat ->
    overAll (mansardSide realNums env w look p top h low (2 * j)) (indicesOf (0%nat, length (ppoints p))) =
    Ok (map (sideOps look low h) (combine (ringSides (beginAt j path)) (ringSides upper))).
  Proof.
    intros P Q L J. set (m := length path) in *. assert (Lp : length (ppoints p) = (2 * m)%nat) by (rewrite P; apply coords_len).
    rewrite Lp. rewrite (indices_len 0 path : indicesOf (0%nat, (2 * m)%nat) = _). fold m.
    rewrite (ring_seq (mkV2 0 0) (beginAt j path)), (ring_seq (mkV2 0 0) upper). rewrite begin_length, L. fold m. rewrite combine_maps, map_map.
    assert (At : forall i, (i < m)%nat -> pointAt p (2 * i) = Ok (nth i path (mkV2 0 0))).
    { intros i I. refine (point_at p [] path [] i (mkV2 0 0) _ I). now rewrite app_nil_r. }
    assert (At' : forall i, (i < m)%nat -> pointAt top (2 * i) = Ok (nth i upper (mkV2 0 0))).
    { intros i I. refine (point_at top [] upper [] i (mkV2 0 0) _ _); [now rewrite app_nil_r|lia]. }
    assert (Mod : forall x, ((2 * x) mod (2 * m) = 2 * (x mod m))%nat) by (intros x; apply Nat.mul_mod_distr_l; lia).
    rewrite (over_all _ (fun i => sideOps look low h ((nth (i / 2) (beginAt j path) (mkV2 0 0), nth (after m (i / 2)) (beginAt j path) (mkV2 0 0)),
                (nth (i / 2) upper (mkV2 0 0), nth (after m (i / 2)) upper (mkV2 0 0))))).
    - f_equal. rewrite map_map. apply map_ext. intros i. replace (0 + 2 * i)%nat with (i * 2)%nat by lia. now rewrite Nat.div_mul.
    - intros i I. apply in_map_iff in I. destruct I as (x & <- & I). apply in_seq in I. assert (X : (x < m)%nat) by lia.
      replace ((0 + 2 * x) / 2)%nat with x by (replace (0 + 2 * x)%nat with (x * 2)%nat by lia; now rewrite Nat.div_mul).
      unfold mansardSide. rewrite Lp.
      replace (2 * j + (0 + 2 * x))%nat with (2 * (j + x))%nat by lia.
      replace (2 * (j + x) + 2)%nat with (2 * (j + x + 1))%nat by lia.
      replace (0 + 2 * x + 2)%nat with (2 * (x + 1))%nat by lia. rewrite !Mod.
      pose proof (Nat.mod_upper_bound (j + x) m ltac:(lia)). pose proof (Nat.mod_upper_bound (j + x + 1) m ltac:(lia)).
      pose proof (Nat.mod_upper_bound (x + 1) m ltac:(lia)).
      rewrite !At, !At' by lia. cbn [bind]. rewrite (At' x X : pointAt top (0 + 2 * x) = _). cbn [bind].
      rewrite (nth_begin _ j path x) by (exact J || exact X). rewrite (nth_begin _ j path (after m x)) by (exact J || now apply after_lt).
      fold m. rewrite !after_mod by exact X. replace ((j + (x + 1) mod m) mod m)%nat with ((j + x + 1) mod m)%nat.
      + reflexivity.
      + rewrite Nat.add_mod_idemp_r by lia. f_equal. lia.
  Qed.
  Lemma drawn_sides look low h l : drawn (flat_map (sideOps look low h) l) =
      flat_map (fun '((a, b), (c, d)) => [(at_ (low + h) d, at_ low a, at_ (low + h) c); (at_ low a, at_ (low + h) d, at_ low b)]) l /\
    verts (flat_map (sideOps look low h) l) = (6 * length l)%nat /\ Forall (goodOp realNums env) (flat_map (sideOps look low h) l).
  Proof.
    induction l as [|[[a b] [c d]] l (D & V & G)]; [repeat split; constructor|]. cbn [flat_map]. split; [|split].
    - rewrite drawn_app, D. reflexivity.
    - rewrite verts_app, V. cbn [length]. assert (X : verts (sideOps look low h (a, b, (c, d))) = 6%nat) by reflexivity. rewrite X. lia.
    - apply Forall_app. split; [|exact G]. repeat constructor.
  Qed.

  Lemma mansard_ok look (p : part E) h low path : path = concat (map fst (ringsOf env w p)) -> path <> [] ->
    (Z.of_nat (length path) < 2 ^ 31)%Z -> eLowest env < low -> eLowest env < h -> goodTri (eTriangulate env (planOf env w p)) ->
    exists d, shortestSide path d /\
    ((exists q shape j, shrink path (d / 10) = [q :: shape] /\ length (q :: shape) = length path /\ nearestInHalf q path j /\
        let upper := if counter (q :: shape) then q :: shape else rev (q :: shape) in
        let plan := planOf env w (shapePart upper) in
        (openContour (sameVec realNums env) upper = upper -> goodTri (eTriangulate env plan) ->
         exists ops, mansardRoof realNums realTrig env w f look (planOf env w p) h low = Ok ops /\ Forall (goodOp realNums env) ops /\
           drawn ops = fromAbove (eTriangulate env plan) (low + h) ++ slopes low (low + h) (beginAt j path) upper /\
           verts ops = (length (tpoints (eTriangulate env plan)) + 6 * length path)%nat)) \/
     ((forall shape, shrink path (d / 10) = [shape] -> length shape <> length path) /\
      exists ops, mansardRoof realNums realTrig env w f look (planOf env w p) h low = Ok ops /\ Forall (goodOp realNums env) ops /\
        drawn ops = fromAbove (eTriangulate env (planOf env w p)) low /\ verts ops = length (tpoints (eTriangulate env (planOf env w p))))).
  Proof.
    intros Hp Ne Lm Ll Lh Gt. destruct (shortest_ok path Ne) as (d & Sd & Md). exists d. split; [exact Md|].
    assert (Pp : ppoints (planOf env w p) = coordinates path) by (rewrite Hp; reflexivity).
    assert (Fl : exists ops, Ok (flatRoof realNums look (planOf env w p) low false) = Ok ops /\ Forall (goodOp realNums env) ops /\
        drawn ops = fromAbove (eTriangulate env (planOf env w p)) low /\ verts ops = length (tpoints (eTriangulate env (planOf env w p)))).
    { eexists. split; [reflexivity|]. exact (surface_ok env ele scaled Quiet Eps (planOf env w p) look low false Ll Gt). }
    unfold mansardRoof. rewrite (path_ok _ path Pp). cbn [bind]. rewrite Sd. cbn [fShrink realRoof kTen realHouse]. change (ndiv realNums d 10) with (d / 10).
    destruct (shrink path (d / 10)) as [|[|q shape] [|s2 rest]] eqn:Sh.
    - right. split; [discriminate|exact Fl].
    - right. split; [|exact Fl]. intros s Q. injection Q as <-. destruct path; [contradiction|discriminate].
    - right. split; [discriminate|exact Fl].
    - destruct (Nat.eqb_spec (length (q :: shape)) (length path)) as [Q|Q].
      + left. exists q, shape, (firstIndex realNums realTrig q path). split; [reflexivity|]. split; [exact Q|]. split; [now apply first_ok|].
        set (upper := if counter (q :: shape) then q :: shape else rev (q :: shape)). set (plan := planOf env w (shapePart upper)). intros Op G. destruct (first_ok q path Ne) as (J & _).
        assert (Lu : length upper = length path) by (unfold upper; destruct (counter _); [exact Q|rewrite rev_length; exact Q]).
        assert (Nu : upper <> []) by (intros X; rewrite X in Lu; destruct path; [contradiction|discriminate]).
        assert (Pt : ppoints plan = coordinates upper).
        { unfold plan, planOf. cbn [ppoints]. rewrite (shape_rings upper Op). cbn [map fst concat]. now rewrite app_nil_r. }
        unfold mansardOver. cbn [fCounter realRoof]. fold upper. rewrite (shape_ok upper Nu) by (rewrite Lu; exact Lm). cbn [bind]. fold plan.
        rewrite (sides_ok look (planOf env w p) plan h low path upper) by (assumption || lia). cbn [bind]. eexists. split; [reflexivity|].
        rewrite <- flat_map_concat_map. set (l := combine _ _).
        destruct (top_ok env Quiet Eps plan look h low Lh G) as (G1 & D1 & V1). destruct (drawn_sides look low h l) as (D2 & V2 & G2).
        split; [constructor; assumption|]. change (?a :: ?b) with ([a] ++ b) at 1. split.
        * change (drawn ([OpPolygon plan (houseGeo realNums h low false) look] ++ flat_map (sideOps look low h) l) = fromAbove (eTriangulate env plan) (low + h) ++ slopes low (low + h) (beginAt (firstIndex realNums realTrig q path) path) upper).
          rewrite drawn_app, D2. f_equal. unfold drawnBy. cbn [flat_map]. rewrite app_nil_r. exact D1.
        * change (verts ([OpPolygon plan (houseGeo realNums h low false) look] ++ flat_map (sideOps look low h) l) = (length (tpoints (eTriangulate env plan)) + 6 * length path)%nat).
          rewrite verts_app, V2. f_equal.
          -- unfold vertsOf. cbn [flat_map]. rewrite app_nil_r. exact V1.
          -- f_equal. unfold l. rewrite (ring_seq (mkV2 0 0) (beginAt _ path)), (ring_seq (mkV2 0 0) upper). rewrite begin_length, Lu, combine_maps, map_length, seq_length. reflexivity.
      + right. split; [|exact Fl]. intros s X. injection X as <-. exact Q.
    - right. split; [discriminate|exact Fl].
  Qed.
  (** The border of the slopes and the top together. *)
  Lemma slopes_border low top lower upper : length lower = length upper ->
    bordered (slopes low top lower upper)
      (map (lift (at_ top)) (ringSides upper) ++ map flipped (map (lift (at_ low)) (ringSides lower))).
  Proof.
    intros L. set (m := length upper) in *. set (d := mkV2 0 0).
    set (g := map (fun i => (i, after m i)) (seq 0 m)).
    set (U := fun i => at_ top (nth i upper d)). set (D := fun i => at_ low (nth i lower d)).
    assert (B : Permutation (map fst g) (map snd g)).
    { unfold g. rewrite !map_map. cbn [fst snd]. rewrite map_id. pose proof (onward_balanced (seq 0 m)) as O.
      rewrite <- ring_sides, (ring_seq 0%nat), seq_length, !map_map in O. cbn [fst snd] in O.
      erewrite map_ext_in in O; [|intros i I; apply in_seq in I; rewrite seq_nth by lia; reflexivity]. cbn in O. rewrite map_id in O. rewrite O at 1.
      apply Permutation_refl'. apply map_ext_in. intros i I. apply in_seq in I. pose proof (after_lt m i ltac:(lia)). now rewrite seq_nth. }
    pose proof (wall_border U D g B) as W.
    assert (Gu : map (lift U) g = map (lift (at_ top)) (ringSides upper)).
    { rewrite (ring_seq d upper). unfold g. rewrite !map_map. apply map_ext. reflexivity. }
    assert (Gd : map (lift D) g = map (lift (at_ low)) (ringSides lower)).
    { rewrite (ring_seq d lower), L. unfold g. rewrite !map_map. apply map_ext. reflexivity. }
    rewrite Gu, Gd in W. revert W. unfold bordered. intros W.
    assert (S : Permutation (allSides (slopes low top lower upper)) (allSides (flat_map (wallTris U D) g))).
    { unfold slopes. rewrite (ring_seq d upper), (ring_seq d lower), L. fold m. rewrite combine_maps. unfold g. rewrite !flat_map_of_map.
      clear. induction (seq 0 m) as [|i l IH]; [constructor|]. cbn [flat_map]. rewrite !sides_app. apply Permutation_app; [|exact IH].
      cbn. fold (U i) (U (after m i)) (D i) (D (after m i)). set (a := U i). set (b := U (after m i)). set (c := D i). set (e := D (after m i)).
      pieces [[(b, c)]; [(c, a)]; [(a, b)]; [(c, b)]; [(b, e)]; [(e, c)]] [0; 1; 2; 3; 4; 5]%nat [3; 4; 5; 2; 0; 1]%nat. }
    rewrite S. exact W.
  Qed.

  Lemma mansard_border low top ring upper j io : length upper = length ring -> openContour (sameVec realNums env) upper = upper ->
    fills io (planOf env w (shapePart upper)) ->
    bordered (fromAbove io top ++ slopes low top (beginAt j ring) upper) (map flipped (map (lift (at_ low)) (onward ring))).
  Proof.
    intros L O F. apply (above_border env w (shapePart upper) io top) in F.
    assert (A : allRings env w (shapePart upper) = [upper]) by (unfold allRings, ringsOnly; rewrite (shape_rings upper O); reflexivity).
    rewrite A in F. cbn [flat_map] in F. rewrite app_nil_r in F.
    pose proof (slopes_border low top (beginAt j ring) upper) as S. rewrite begin_length in S. specialize (S (eq_sym L)).
    pose proof (bordered_app _ _ _ _ F S) as B. change (ringSides upper) with (onward upper) in B.
    apply (bordered_cancel _ _ (map (lift (at_ top)) (onward upper))).
    refine (bordered_perm _ _ _ _ B). rewrite <- (begin_sides j ring : Permutation (ringSides (beginAt j ring)) (onward ring)).
    set (a := map (lift (at_ top)) _). set (b := map flipped a). set (c := map flipped (map (lift (at_ low)) _)).
    pieces [a; b; c] [1; 0; 2]%nat [2; 0; 1]%nat.
  Qed.
End Mansard.

(** Any roof bordered by the upper side of the walls closes a part. *)
Lemma closed_with {E} (env : builderEnv R) (w : houseEnv R) (styleOf : E -> houseStyle R) (miss : R -> list tri3) id p ts k :
  partDraws env w styleOf id p ts k ->
  hFacade (styleOf (pOwner p)) = Some FacadeFlat -> fills (eTriangulate env (planOf env w p)) (planOf env w p) ->
  (forall low top roof kr, countable p -> standsAt env w styleOf p low top -> roofDraws env w styleOf id p top roof kr ->
     bordered (roof ++ miss top) (map flipped (map (lift (at_ top)) (flat_map onward (allRings env w p))))) ->
  exists low top, standsAt env w styleOf p low top /\ watertight (ts ++ miss top ++ openFloor env w styleOf p low).
Proof.
  intros (Co & low & top & roof & kr & floor & kf & facade & kw & St & Rf & Fl & Fc & -> & _) Fa Fi Ro.
  exists low, top. split; [exact St|].
  unfold facadeDraws in Fc. rewrite Fa in Fc. destruct Fc as (_ & -> & _). fold (allRings env w p).
  set (io := eTriangulate env (planOf env w p)) in *.
  assert (Fl' : Permutation (floor ++ openFloor env w styleOf p low) (fromBelow io low)).
  { unfold floorDraws, openFloor in *. fold io in Fl |- *. destruct (Rlt_dec 0 (hMin (styleOf (pOwner p)))).
    - destruct Fl as (_ & _ & -> & _). now rewrite app_nil_r.
    - destruct Fl as (-> & _). reflexivity. }
  pose proof (body_closed env w p io (roof ++ miss top) low top Fi (Ro low top roof kr Co St Rf)) as W. apply bordered_nil. apply bordered_nil in W.
  refine (bordered_tris _ _ _ _ W). rewrite <- Fl'. set (walls0 := flat_map (walls low top) _).
  pieces [roof; miss top; floor; openFloor env w styleOf p low; walls0] [0; 1; 2; 3; 4]%nat [0; 2; 4; 1; 3]%nat.
Qed.

(** * Round *)
Section Round.
  Context (env : builderEnv R) (ele scaled : R -> R -> R) (inside : list (vec2 R) -> option (vec2 R)).
  Context (shrink : list (vec2 R) -> R -> list (list (vec2 R))) (counter : list (vec2 R) -> bool).
  Local Notation w := (realHouse ele scaled inside).
  Local Notation f := (realRoof shrink counter).
  Local Notation drawn := (drawnBy env).
  Local Notation verts := (vertsOf env).

  Lemma next_index from m j : (j < m)%nat -> nextIndex (from + 2 * j) from (from + 2 * m - 2) = (from + 2 * after m j)%nat.
  Proof.
    intros J. unfold nextIndex, after. destruct (Nat.ltb_spec (from + 2 * m - 2) (from + 2 * j + 2)); destruct (Nat.eqb_spec (S j) m); lia.
  Qed.
  (** The search for the longest side. *)
  Lemma longest_fold (from : nat) (dist : nat -> R) : (forall i, 0 <= dist i) -> forall l i0 at0 best at1 best1,
    fold_left (fun '(a, b) '(i, d) => if nlt realNums b d then (i, d) else (a, b)) (map (fun i => ((from + 2 * i)%nat, dist i)) (seq i0 l)) (at0, best) = (at1, best1) ->
    best <= best1 /\ (forall i, (i0 <= i < i0 + l)%nat -> dist i <= best1) /\
    ((at1, best1) = (at0, best) \/ exists j, (i0 <= j < i0 + l)%nat /\ at1 = (from + 2 * j)%nat /\ best1 = dist j /\ best < dist j /\ forall i, (i0 <= i < j)%nat -> dist i < dist j).
  Proof.
    intros Pos l. induction l as [|l IH]; intros i0 at0 best at1 best1 H.
    - cbn in H. injection H as <- <-. split; [lra|]. split; [intros; lia|now left].
    - cbn [seq map fold_left] in H. destruct (nlt realNums best (dist i0)) eqn:Q; [apply nlt_dec in Q|apply nlt_not in Q].
      + apply IH in H. destruct H as (A & B & C). split; [lra|]. split.
        * intros i I. destruct (Nat.eq_dec i i0) as [->|]; [lra|]. apply B. lia.
        * right. destruct C as [C|(j & J & -> & -> & Lj & M)].
          -- injection C as -> ->. exists i0. repeat split; try lia; try assumption. 
          -- exists j. repeat split; try lia; try lra. intros i I. destruct (Nat.eq_dec i i0) as [->|]; [exact Lj|]. apply M. lia.
      + apply IH in H. destruct H as (A & B & C). split; [exact A|]. split.
        * intros i I. destruct (Nat.eq_dec i i0) as [->|]; [lra|]. apply B. lia.
        * destruct C as [C|(j & J & -> & -> & Lj & M)]; [now left|]. right. exists j. repeat split; try lia; try lra.
          intros i I. destruct (Nat.eq_dec i i0) as [->|]; [lra|]. apply M. lia.
  Qed.

  Lemma side_at (ring : list (vec2 R)) j : (j < length ring)%nat ->
    nth_error (ringSides ring) j = Some (pointOf ring j, pointOf ring (after (length ring) j)).
  Proof.
    intros J. rewrite (ring_seq (mkV2 0 0)). rewrite nth_error_map. rewrite (nth_error_nth' _ 0%nat) by (rewrite seq_length; exact J).
    rewrite seq_nth by exact J. reflexivity.
  Qed.
  Lemma longest_ok p pre ring post : ppoints p = pre ++ coordinates ring ++ post -> ring <> [] ->
    exists j, longestAt realNums realTrig p (length pre, length pre + 2 * length ring)%nat = Ok (length pre + 2 * j)%nat /\
      (j < length ring)%nat /\ longestSide ring j.
  Proof.
    intros P Ne. set (m := length ring). assert (M : (0 < m)%nat) by (unfold m; destruct ring; [contradiction|cbn; lia]).
    set (dist := fun i => length2 (pointOf ring i) (pointOf ring (after m i))).
    unfold longestAt. rewrite (indices_len (length pre) ring : indicesOf (length pre, length pre + 2 * m)%nat = _). fold m. cbn [fst snd].
    rewrite (over_all _ (fun i => (i, dist ((i - length pre) / 2)%nat))).
    2:{ intros i I. apply in_map_iff in I. destruct I as (x & <- & I). apply in_seq in I.
        replace ((length pre + 2 * x - length pre) / 2)%nat with x by (replace (length pre + 2 * x - length pre)%nat with (x * 2)%nat by lia; now rewrite Nat.div_mul).
        rewrite (point_at p pre ring post x (mkV2 0 0) P) by (unfold m in I; lia). cbn [bind].
        replace (if (length pre + 2 * x =? length pre + 2 * m - 2)%nat then length pre else (length pre + 2 * x + 2)%nat) with (length pre + 2 * after m x)%nat.
        - rewrite (point_at p pre ring post (after m x) (mkV2 0 0) P) by (apply after_lt; unfold m in I |- *; lia). cbn [bind]. reflexivity.
        - unfold after. destruct (Nat.eqb_spec (length pre + 2 * x) (length pre + 2 * m - 2)); destruct (Nat.eqb_spec (S x) m); lia. }
    cbn [bind]. rewrite map_map.
    replace (map _ (seq 0 m)) with (map (fun i => ((length pre + 2 * i)%nat, dist i)) (seq 0 m)).
    2:{ apply map_ext. intros x. f_equal. f_equal. replace (length pre + 2 * x - length pre)%nat with (x * 2)%nat by lia. now rewrite Nat.div_mul. }
    change (nzero realNums) with 0. destruct (fold_left _ _ _) as [at1 best1] eqn:F. cbn [fst].
    apply (longest_fold (length pre) dist (fun i => length2_pos _ _)) in F. destruct F as (B & A & C).
    assert (In' : forall c d, In (c, d) (ringSides ring) -> exists i, (i < m)%nat /\ length2 c d = dist i).
    { intros c d I. rewrite (ring_seq (mkV2 0 0)) in I. apply in_map_iff in I. destruct I as (i & Q & I). injection Q as <- <-.
      exists i. apply in_seq in I. split; [exact (proj2 I)|reflexivity]. }
    destruct C as [C|(j & J & -> & -> & _ & Mx)].
    - injection C as -> ->. exists 0%nat. split; [f_equal; lia|]. split; [exact M|]. exists (pointOf ring 0), (pointOf ring (after m 0)).
      split; [now apply side_at|]. split; [|intros; lia]. intros c d I. destruct (In' c d I) as (i & L & ->).
      specialize (A i ltac:(lia)). eapply Rle_trans; [exact A|]. apply length2_pos.
    - exists j. split; [reflexivity|]. split; [lia|]. exists (pointOf ring j), (pointOf ring (after m j)). split; [apply side_at; fold m; lia|]. split.
      + intros c d I. destruct (In' c d I) as (i & L & ->). apply A. lia.
      + intros i c d I N. rewrite side_at in N by (fold m; lia). injection N as <- <-. apply Mx. lia.
  Qed.

  (** Calls for a barrel. *)
  Definition barrelOf (mf mk : vec3 R) (F K : nat -> vec3 R) : list tri3 :=
    flat_map (fun j => [(mf, F (S j), F j); (mk, K j, K (S j)); (F j, K (S j), K j); (F (S j), K (S j), F j)]) (seq 0 7).
  Definition barrelOps look (mf mk : vec3 R) (F K : nat -> vec3 R) : list meshOp :=
    let tri a b c := roofTriangle realNums env look a b c (mkV2 0 0) (mkV2 0 0) (mkV2 0 0) in
    flat_map (fun j => [tri mf (F (S j)) (F j); tri mk (K j) (K (S j)); tri (F j) (K (S j)) (K j); tri (F (S j)) (K (S j)) (F j)]) (seq 0 7).
  Lemma barrel_drawn look mf mk F K : drawn (barrelOps look mf mk F K) = barrelOf mf mk F K /\ verts (barrelOps look mf mk F K) = 84%nat /\
    Forall (goodOp realNums env) (barrelOps look mf mk F K).
  Proof.
    split; [|split].
    - assert (T : forall a b c l, drawn (roofTriangle realNums env look a b c (mkV2 0 0) (mkV2 0 0) (mkV2 0 0) :: l) = (a, b, c) :: drawn l)
        by (intros [x y z] [x1 y1 z1] [x2 y2 z2] l; reflexivity).
      unfold barrelOps, barrelOf. cbn [seq flat_map app]. rewrite !T. reflexivity.
    - reflexivity.
    - unfold barrelOps. apply Forall_flat_map. apply Forall_forall. intros j _. repeat constructor.
  Qed.

  (** * The arcs *)
  (** A point of an arc: [e] is the direction of the front, [v] the direction of the arc. *)
  Definition arcAt (low h r : R) (mid : vec3 R) (e v : vec2 R) (j : nat) : vec3 R :=
    let t := INR j * PI / 7 in
    let s := v2y e * v2x v - v2x e * v2y v in
    mkV3 (v3x mid + (cos t * v2x v + (1 - cos t) * s * v2y e) * r)
         (low + sin t * (v2x e * v2x v + v2y e * v2y v) * h)
         (v3z mid + (cos t * v2y v - (1 - cos t) * s * v2x e) * r).
  Definition direction (a d : vec2 R) : vec2 R := mkV2 ((v2x a - v2x d) / length2 a d) ((v2y a - v2y d) / length2 a d).
  Lemma squares x y : 0 <= x * x + y * y.
  Proof. pose proof (Rle_0_sqr x). pose proof (Rle_0_sqr y). unfold Rsqr in *. lra. Qed.
  Lemma length2_sq a d : length2 a d * length2 a d = (v2x a - v2x d) * (v2x a - v2x d) + (v2y a - v2y d) * (v2y a - v2y d).
  Proof. unfold length2. apply sqrt_sqrt. apply squares. Qed.
  Lemma direction_unit a d : 0 < length2 a d -> v2x (direction a d) * v2x (direction a d) + v2y (direction a d) * v2y (direction a d) = 1.
  Proof.
    intros L. pose proof (length2_sq a d) as Q. cbn [direction v2x v2y]. set (l := length2 a d) in *.
    replace ((v2x a - v2x d) / l * ((v2x a - v2x d) / l) + (v2y a - v2y d) / l * ((v2y a - v2y d) / l))
      with (((v2x a - v2x d) * (v2x a - v2x d) + (v2y a - v2y d) * (v2y a - v2y d)) / (l * l)) by (field; lra).
    rewrite <- Q. field. lra.
  Qed.
  Lemma mag_half low a d : magnitude realNums realTrig (vminus realNums (lifted low a) (vmiddle realNums w (lifted low a) (lifted low d))) = length2 a d / 2.
  Proof.
    cbn. pose proof (length2_sq a d) as Q. pose proof (length2_pos a d) as P. apply sqrt_lem_1.
    - nra.
    - lra.
    - replace (length2 a d / 2 * (length2 a d / 2)) with (length2 a d * length2 a d / 4) by field. rewrite Q. field.
  Qed.
  Lemma mag_whole low a d : magnitude realNums realTrig (vminus realNums (lifted low d) (lifted low a)) = length2 a d.
  Proof. cbn. unfold length2. f_equal. ring. Qed.
  Lemma normal_half low a d : 2 * / 2 ^ 52 < length2 a d ->
    normalized realNums realTrig realGens (vminus realNums (lifted low a) (vmiddle realNums w (lifted low a) (lifted low d))) =
    mkV3 (v2x (direction a d)) 0 (v2y (direction a d)).
  Proof.
    intros L. assert (P : 0 < / 2 ^ 52) by (apply Rinv_0_lt_compat, pow_lt; lra).
    unfold normalized. rewrite mag_half. rewrite rnlt_true by (change (geps realGens) with (/ 2 ^ 52); lra).
    cbn -[length2]. f_equal; field; lra.
  Qed.
  Lemma normal_whole low a d : 2 * / 2 ^ 52 < length2 a d ->
    normalized realNums realTrig realGens (vminus realNums (lifted low d) (lifted low a)) =
    mkV3 (- v2x (direction a d)) 0 (- v2y (direction a d)).
  Proof.
    intros L. assert (P : 0 < / 2 ^ 52) by (apply Rinv_0_lt_compat, pow_lt; lra).
    unfold normalized. rewrite mag_whole. rewrite rnlt_true by (change (geps realGens) with (/ 2 ^ 52); lra).
    cbn -[length2]. f_equal; field; lra.
  Qed.
  Lemma arc_turn low h r mid (e v : vec2 R) j :
    restore realNums h low (turned (- (INR j / INR 7 * PI)) (mkV3 (v2y e) 0 (- v2x e)) (mkV3 (v2x v) 0 (v2y v))) r mid = arcAt low h r mid e v j.
  Proof.
    unfold restore, arcAt, turned, comb3, cross3, dot3. cbn [v3x v3y v3z]. rewrite cos_neg, sin_neg.
    replace (INR j / INR 7 * PI) with (INR j * PI / 7) by (replace (INR 7) with 7 by (cbn; ring); field).
    cbn [nadd nmul realNums]. f_equal; ring.
  Qed.

  Lemma shape_round look h low a b c d : 2 * / 2 ^ 52 < length2 a d -> 2 * / 2 ^ 52 < length2 b c ->
    roundShape realNums realTrig realGens env w f look h low (lifted low a) (lifted low b) (lifted low c) (lifted low d) =
    barrelOps look (midway low a d) (midway low b c)
      (arcAt low h (length2 a d / 2) (midway low a d) (direction a d) (direction a d))
      (arcAt low h (length2 b c / 2) (midway low b c) (direction a d) (direction b c)).
  Proof.
    intros La Lb. assert (P : 0 < / 2 ^ 52) by (apply Rinv_0_lt_compat, pow_lt; lra).
    unfold roundShape. rewrite (normal_whole low a d La), !normal_half, !mag_half by assumption. cbn [v3x v3z].
    set (axis := mkV3 _ _ _).
    assert (Ax : axis = mkV3 (v2y (direction a d)) 0 (- v2x (direction a d))) by (unfold axis; cbn [nsub nzero realNums]; f_equal; ring).
    assert (U : unitAxis axis).
    { rewrite Ax. unfold unitAxis, dot3. cbn [v3x v3y v3z]. pose proof (direction_unit a d ltac:(lra)). nra. }
    assert (Md : forall x y, vmiddle realNums w (lifted low x) (lifted low y) = midway low x y).
    { intros x y. unfold vmiddle, midway, lifted. cbn. f_equal; field. }
    rewrite !Md. clearbody axis. subst axis. unfold barrelOps. change segmentCount with 7%nat.
    apply flat_map_ext. intros j.
    assert (T : forall i v, restore realNums h low (qapply realNums realTrig (slerp realNums realTrig
             (fromAngleAxis realNums realTrig (nzero realNums) (mkV3 (v2y (direction a d)) 0 (- v2x (direction a d))))
             (fromAngleAxis realNums realTrig (nsub realNums (nzero realNums) (fPi f)) (mkV3 (v2y (direction a d)) 0 (- v2x (direction a d))))
             (ndiv realNums (kCount w i) (kCount w 7))) v) = restore realNums h low (turned (- (INR i / INR 7 * PI)) (mkV3 (v2y (direction a d)) 0 (- v2x (direction a d))) v)).
    { intros i v. f_equal. rewrite <- C50_roof by exact U. f_equal. f_equal. f_equal. change (0 - PI = - PI). ring. }
    rewrite !T, !arc_turn. reflexivity.
  Qed.

  Lemma arc_front low h a d j : 0 < length2 a d ->
    arcAt low h (length2 a d / 2) (midway low a d) (direction a d) (direction a d) j = arcPoint low h a d j.
  Proof.
    intros L. pose proof (direction_unit a d L) as U. unfold arcAt, arcPoint. set (t := INR j * PI / 7). cbn [midway v3x v3z v2x v2y] in *.
    rewrite U. cbn [direction v2x v2y] in *. f_equal; field; lra.
  Qed.
  Lemma arc_back low h a b c d j t : 0 < length2 a d -> 0 < t -> v2x b - v2x c = t * (v2x a - v2x d) -> v2y b - v2y c = t * (v2y a - v2y d) ->
    arcAt low h (length2 b c / 2) (midway low b c) (direction a d) (direction b c) j = arcPoint low h b c j.
  Proof.
    intros L T X Y.
    assert (Lb : length2 b c = t * length2 a d).
    { unfold length2. rewrite X, Y. replace (t * (v2x a - v2x d) * (t * (v2x a - v2x d)) + t * (v2y a - v2y d) * (t * (v2y a - v2y d)))
        with ((t * t) * ((v2x a - v2x d) * (v2x a - v2x d) + (v2y a - v2y d) * (v2y a - v2y d))) by ring.
      rewrite sqrt_mult by (apply squares || nra). rewrite sqrt_square by lra. reflexivity. }
    assert (D : direction b c = direction a d) by (unfold direction; rewrite Lb, X, Y; f_equal; field; lra).
    rewrite D. rewrite <- D. apply arc_front. rewrite Lb. nra.
  Qed.
  Lemma arc_flat low h a b c d j : 0 < length2 a d -> 0 < length2 b c ->
    (v2x b - v2x c) * (v2x a - v2x d) + (v2y b - v2y c) * (v2y a - v2y d) = 0 ->
    arcAt low h (length2 b c / 2) (midway low b c) (direction a d) (direction b c) j = at_ low b.
  Proof.
    intros La Lb O. pose proof (direction_unit a d La) as Ua. pose proof (direction_unit b c Lb) as Ub.
    assert (O' : v2x (direction a d) * v2x (direction b c) + v2y (direction a d) * v2y (direction b c) = 0).
    { unfold direction. cbn [v2x v2y]. replace (_ + _) with (((v2x b - v2x c) * (v2x a - v2x d) + (v2y b - v2y c) * (v2y a - v2y d)) / (length2 a d * length2 b c)) by (field; lra).
      rewrite O. field. lra. }
    assert (X : v2x (direction b c) * (length2 b c / 2) = (v2x b - v2x c) / 2) by (unfold direction; cbn [v2x]; field; lra).
    assert (Y : v2y (direction b c) * (length2 b c / 2) = (v2y b - v2y c) / 2) by (unfold direction; cbn [v2y]; field; lra).
    unfold arcAt, at_. set (t := INR j * PI / 7). set (e := direction a d) in *. set (v := direction b c) in *.
    assert (Sx : (v2y e * v2x v - v2x e * v2y v) * v2y e = v2x v).
    { transitivity ((v2x e * v2x e + v2y e * v2y e) * v2x v - v2x e * (v2x e * v2x v + v2y e * v2y v)); [ring|]. rewrite Ua, O'. ring. }
    assert (Sy : (v2y e * v2x v - v2x e * v2y v) * v2x e = - v2y v).
    { transitivity (v2y e * (v2x e * v2x v + v2y e * v2y v) - (v2x e * v2x e + v2y e * v2y e) * v2y v); [ring|]. rewrite Ua, O'. ring. }
    cbn [midway v3x v3z]. f_equal.
    - rewrite Rmult_assoc with (r1 := 1 - cos t), Sx. replace ((cos t * v2x v + (1 - cos t) * v2x v) * (length2 b c / 2)) with (v2x v * (length2 b c / 2)) by ring. rewrite X. field.
    - rewrite O'. ring.
    - rewrite Rmult_assoc with (r1 := 1 - cos t), Sy. replace ((cos t * v2y v - (1 - cos t) * - v2y v) * (length2 b c / 2)) with (v2y v * (length2 b c / 2)) by ring. rewrite Y. field.
  Qed.
  Lemma arc_first low h a d : arcPoint low h a d 0 = at_ low a.
  Proof.
    unfold arcPoint, at_. cbn [INR v2x v2y]. replace (0 * PI / 7) with 0 by field. rewrite cos_0, sin_0. f_equal; field.
  Qed.
  Lemma arc_last low h a d : arcPoint low h a d 7 = at_ low d.
  Proof.
    unfold arcPoint, at_. cbn [v2x v2y]. replace (INR 7 * PI / 7) with PI by (replace (INR 7) with 7 by (cbn; ring); field). rewrite cos_PI, sin_PI. f_equal; field.
  Qed.

  (** * The border of a barrel *)
  Definition numbers : list (nat * nat * nat) :=
    flat_map (fun j => [(16, S j, j); (17, 8 + j, 8 + S j); (j, 8 + S j, 8 + j); (S j, 8 + S j, j)]%nat) (seq 0 7) ++ [(0, 7, 16); (15, 8, 17)]%nat.
  Lemma numbers_border : bordered numbers [(8, 0); (15, 8); (7, 15); (0, 7)]%nat.
  Proof.
    unfold bordered. apply (permb_ok (fun p q : nat * nat => ((fst p =? fst q) && (snd p =? snd q))%nat)).
    - intros [a b] [c d] H. cbn in H. apply andb_true_iff in H. destruct H as (A & B). apply Nat.eqb_eq in A, B. now subst.
    - vm_compute. reflexivity.
  Qed.
  Lemma barrel_border low h a b c d :
    bordered (barrel low h a b c d ++ slivers low a b c d) (map flipped (map (lift (at_ low)) (onward [a; b; c; d]))).
  Proof.
    set (F := arcPoint low h a d). set (K := arcPoint low h b c).
    pose proof (bordered_map (fun i : nat => if (i =? 16)%nat then midway low a d else if (i =? 17)%nat then midway low b c else if (i <? 8)%nat then F i else K (i - 8)%nat) _ _ numbers_border) as B.
    set (g := fun i : nat => _) in B.
    assert (E0 : F 0%nat = at_ low a) by apply arc_first. assert (E7 : F 7%nat = at_ low d) by apply arc_last.
    assert (G0 : K 0%nat = at_ low b) by apply arc_first. assert (G7 : K 7%nat = at_ low c) by apply arc_last.
    replace (barrel low h a b c d ++ slivers low a b c d) with (map (fun '(x, y, z) => (g x, g y, g z)) numbers).
    - refine (bordered_perm _ _ _ _ B). cbn -[F K at_]. unfold lift. cbn [fst snd flipped]. rewrite E0, E7, G0, G7.
      set (x := at_ low a). set (y := at_ low b). set (z := at_ low c). set (u := at_ low d).
      pieces [[(y, x)]; [(z, y)]; [(u, z)]; [(x, u)]] [0; 1; 2; 3]%nat [0; 1; 2; 3]%nat.
    - unfold slivers. rewrite <- E0, <- E7, <- G0, <- G7. reflexivity.
  Qed.

  (** * One ring and all of them *)
  Lemma side_count {A} (r : list A) : length (ringSides r) = length r.
  Proof. destruct r as [|x r]; [reflexivity|]. unfold ringSides. rewrite combine_length, app_length. cbn [length]. lia. Qed.
  Lemma longest_lt ring j : longestSide ring j -> (j < length ring)%nat.
  Proof. intros (a & b & N & _). rewrite <- (side_count ring). apply nth_error_Some. rewrite N. discriminate. Qed.
  Lemma longest_unique ring i j : longestSide ring i -> longestSide ring j -> i = j.
  Proof.
    intros (a & b & Na & Ma & Fa) (c & d & Nc & Mc & Fc). destruct (Nat.lt_trichotomy i j) as [L|[Q|L]]; [|exact Q|].
    - specialize (Fc i a b L Na). specialize (Ma c d (nth_error_In _ _ Nc)). lra.
    - specialize (Fa j c d L Nc). specialize (Mc a b (nth_error_In _ _ Na)). lra.
  Qed.
  Definition shapeOn look h low (q : vec2 R * vec2 R * vec2 R * vec2 R) : list meshOp :=
    let '(a, b, c, d) := q in
    roundShape realNums realTrig realGens env w f look h low (lifted low a) (lifted low b) (lifted low c) (lifted low d).
  Lemma range_ok across look p h low pre ring post : ppoints p = pre ++ coordinates ring ++ post -> ring <> [] ->
    exists j, longestSide ring j /\
      roundRange realNums realTrig realGens env w f across look p h low (length pre, length pre + 2 * length ring)%nat =
      Ok (shapeOn look h low (fourFrom across ring j)).
  Proof.
    intros P Ne. destruct (longest_ok p pre ring post P Ne) as (j & A & J & L). exists j. split; [exact L|].
    unfold roundRange. rewrite A. cbn [bind fst snd]. set (m := length ring) in *.
    pose proof (after_lt m j J) as J1. pose proof (after_lt m _ J1) as J2. pose proof (after_lt m _ J2) as J3.
    rewrite !next_index by assumption.
    rewrite (point_at p pre ring post j (mkV2 0 0) P J), (point_at p pre ring post _ (mkV2 0 0) P J1), (point_at p pre ring post _ (mkV2 0 0) P J2),
      (point_at p pre ring post _ (mkV2 0 0) P J3). cbn [bind]. unfold fourFrom. fold m. destruct across; reflexivity.
  Qed.
  Lemma over_rel {B} (g : nat * nat -> outcome B) (P : list (vec2 R) -> B -> Prop) (p : polygon R) (hole : bool) :
    (forall pre r post, ppoints p = pre ++ coordinates r ++ post -> r <> [] ->
       exists b, g (length pre, length pre + 2 * length r)%nat = Ok b /\ P r b) ->
    forall rings pre post, ppoints p = pre ++ coordinates (concat (map fst rings)) ++ post ->
    Forall (fun r => r <> []) (map fst (List.filter (fun r : list (vec2 R) * bool => Bool.eqb (snd r) hole) rings)) ->
    exists bs, overAll g (rangesOf (length pre) hole rings) = Ok bs /\
      Forall2 P (map fst (List.filter (fun r : list (vec2 R) * bool => Bool.eqb (snd r) hole) rings)) bs.
  Proof.
    intros H. induction rings as [|[r b] rings IH]; intros pre post Q F; [exists []; split; constructor|].
    cbn [rangesOf map concat fst] in *. rewrite coords_app, <- app_assoc in Q.
    replace (length pre + 2 * length r)%nat with (length (pre ++ coordinates r)) by (rewrite app_length, coords_len; lia).
    cbn [List.filter snd] in *. destruct (Bool.eqb b hole).
    - cbn [map fst] in F. inversion F as [|? ? F1 F2]; subst. destruct (IH (pre ++ coordinates r) post) as (bs & O & B2); [now rewrite <- app_assoc|exact F2|].
      destruct (H pre r _ Q F1) as (b1 & E1 & P1). exists (b1 :: bs). split; [|constructor; assumption].
      cbn [app overAll]. replace (length (pre ++ coordinates r)) with (length pre + 2 * length r)%nat in * by (rewrite app_length, coords_len; lia).
      rewrite E1. cbn [bind]. rewrite O. reflexivity.
    - destruct (IH (pre ++ coordinates r) post) as (bs & O & B2); [now rewrite <- app_assoc|exact F|]. exists bs. split; [exact O|exact B2].
  Qed.
  Lemma shape_parallel look h low q : wideEnds q -> parallelEnds q ->
    drawn (shapeOn look h low q) = barrelOn low h q /\ verts (shapeOn look h low q) = 84%nat /\ Forall (goodOp realNums env) (shapeOn look h low q).
  Proof.
    destruct q as [[[a b] c] d]. intros (La & Lb) (t & T & X & Y). assert (P : 0 < / 2 ^ 52) by (apply Rinv_0_lt_compat, pow_lt; lra).
    unfold shapeOn. rewrite (shape_round look h low a b c d La Lb).
    match goal with |- context [barrelOps ?l ?a ?b ?c ?d] => destruct (barrel_drawn l a b c d) as (D & V & G) end.
    rewrite D, V. split; [|split; [reflexivity|exact G]]. unfold barrelOf, barrelOn, barrel. apply flat_map_ext. intros j.
    rewrite !arc_front by lra. rewrite !(arc_back low h a b c d _ t) by (assumption || lra). reflexivity.
  Qed.
  Lemma round_ok {E} across look (p : part E) h low : ringsOnly env w true p = [] ->
    Forall (fun ring => ring <> [] /\ forall j, longestSide ring j -> wideEnds (fourFrom across ring j) /\ parallelEnds (fourFrom across ring j)) (ringsOnly env w false p) ->
    exists ops tss, roundRoof realNums realTrig realGens env w f across look (planOf env w p) h low = Ok ops /\
      Forall (goodOp realNums env) ops /\ drawn ops = concat tss /\ verts ops = (84 * length (ringsOnly env w false p))%nat /\
      Forall2 (fun ring ts => exists j, longestSide ring j /\ ts = barrelOn low h (fourFrom across ring j)) (ringsOnly env w false p) tss.
  Proof.
    intros Hl F.
    assert (Pi : pinners (planOf env w p) = []).
    { pose proof (over_plan env w (fun _ : nat * nat => Ok tt) (fun _ => tt) p true (fun _ _ _ _ => eq_refl)) as O. rewrite Hl in O.
      destruct (pinners (planOf env w p)); [reflexivity|]. cbn [overAll bind map] in O. destruct (overAll _ l); discriminate O. }
    destruct (over_rel (roundRange realNums realTrig realGens env w f across look (planOf env w p) h low)
                (fun ring ops => exists j, longestSide ring j /\ ops = shapeOn look h low (fourFrom across ring j)) (planOf env w p) false
                (fun pre r post P Ne => ltac:(destruct (range_ok across look (planOf env w p) h low pre r post P Ne) as (j & L & Q);
                                              exact (ex_intro _ _ (conj Q (ex_intro _ j (conj L eq_refl)))))) (ringsOf env w p) [] []) as (l & O & Fl).
    { cbn [app]. now rewrite app_nil_r. }
    { fold (ringsOnly env w false p). eapply Forall_impl; [|exact F]. now intros r (A & _). }
    fold (ringsOnly env w false p) in Fl.
    unfold roundRoof. rewrite Pi. change (pouters (planOf env w p)) with (rangesOf (@length R []) false (ringsOf env w p)). rewrite O. cbn [bind].
    exists (concat l ++ [OpTexture look]), (map drawn l). split; [reflexivity|].
    assert (H : Forall (goodOp realNums env) (concat l) /\ drawn (concat l) = concat (map drawn l) /\ verts (concat l) = (84 * length (ringsOnly env w false p))%nat /\
       Forall2 (fun ring ts => exists j, longestSide ring j /\ ts = barrelOn low h (fourFrom across ring j)) (ringsOnly env w false p) (map drawn l)).
    { clear O Pi Hl. induction Fl as [|ring ops rings l (j & L & ->) Fl IH]; [repeat split; constructor|].
      inversion F as [|? ? (Ne & Fj) F2]; subst. destruct (IH F2) as (A & B & C & D). destruct (Fj j L) as (Wd & Pl).
      destruct (shape_parallel look h low _ Wd Pl) as (D1 & V1 & G1). cbn [concat map]. split; [|split; [|split]].
      - apply Forall_app. now split.
      - now rewrite drawn_app, B.
      - rewrite verts_app, V1, C. cbn [length]. lia.
      - constructor; [|exact D]. exists j. split; [exact L|exact D1]. }
    destruct H as (A & B & C & D). split; [|split; [|split]].
    - apply Forall_app. split; [exact A|repeat constructor].
    - rewrite drawn_app, B. apply app_nil_r.
    - rewrite verts_app, C. cbn. lia.
    - exact D.
  Qed.
  (** A part of four points. *)
  Lemma four_border across low h ring j : length ring = 4%nat -> (j < 4)%nat ->
    bordered (barrelOn low h (fourFrom across ring j) ++ sliversOn low (fourFrom across ring j)) (map flipped (map (lift (at_ low)) (onward ring))).
  Proof.
    intros L J. destruct ring as [|r0 [|r1 [|r2 [|r3 [|? ?]]]]]; try discriminate L.
    assert (Rot : forall a b c d, bordered (barrel low h a b c d ++ slivers low a b c d) (map flipped (map (lift (at_ low)) (onward [a; b; c; d])))) by (intros; apply barrel_border).
    assert (T : forall a b c d, Permutation (map flipped (map (lift (at_ low)) (onward [a; b; c; d]))) (map flipped (map (lift (at_ low)) (onward [b; c; d; a])))).
    { intros a b c d. do 2 apply Permutation_map. cbn. apply (Permutation_app_comm [(a, b)] [(b, c); (c, d); (d, a)]). }
    assert (T2 : forall a b c d, bordered (barrel low h a b c d ++ slivers low a b c d) (map flipped (map (lift (at_ low)) (onward [b; c; d; a])))).
    { intros a b c d. refine (bordered_perm _ _ _ (T a b c d) (Rot a b c d)). }
    assert (T3 : forall a b c d, bordered (barrel low h a b c d ++ slivers low a b c d) (map flipped (map (lift (at_ low)) (onward [c; d; a; b])))).
    { intros a b c d. refine (bordered_perm _ _ _ (T b c d a) (T2 a b c d)). }
    assert (T4 : forall a b c d, bordered (barrel low h a b c d ++ slivers low a b c d) (map flipped (map (lift (at_ low)) (onward [d; a; b; c])))).
    { intros a b c d. refine (bordered_perm _ _ _ (T c d a b) (T3 a b c d)). }
    destruct j as [|[|[|[|?]]]]; try lia; destruct across; unfold fourFrom, pointOf, after, barrelOn, sliversOn; cbn [length nth Nat.eqb];
      first [apply Rot|apply T2|apply T3|apply T4].
  Qed.
End Round.

(** * Skillion *)
Lemma threes_cpos (m : bmesh R) k : sized m k -> map (@cpos R) (corners m) = threes (bverts m).
Proof.
  intros (A & B & C). unfold corners. rewrite map_map. apply threes_length in A. apply twos_length in C.
  assert (G : forall (a : list (R * R * R)) (b : list Z) (c : list (R * R)), length b = length a -> length c = length a ->
    map (fun x : R * R * R * Z * (R * R) => cpos (let '(p, c0, u) := x in mkCorner p c0 u)) (combine (combine a b) c) = a).
  { induction a as [|p a IH]; intros [|z b] [|u c] L L'; try discriminate; [reflexivity|]. cbn [combine map cpos].
    f_equal. apply IH; [now injection L|now injection L']. }
  apply G; lia.
Qed.
Lemma vertex_threes (l : list R) : vertexList l = map (fun '(x, y, h) => (mkV2 x y, h)) (threes l).
Proof.
  enough (H : forall n l, (length l <= n)%nat -> vertexList l = map (fun '(x, y, h) => (mkV2 x y, h)) (threes l)) by (now apply (H (length l))).
  clear l. induction n as [|n IH]; intros l L.
  - destruct l; [reflexivity|cbn in L; lia].
  - destruct l as [|x [|y [|h l]]]; try reflexivity. cbn [vertexList threes map]. f_equal. apply IH. cbn in L. lia.
Qed.

Section Slope.
  Context (env : builderEnv R) (ele scaled : R -> R -> R) (inside : list (vec2 R) -> option (vec2 R)).
  Context (shrink : list (vec2 R) -> R -> list (list (vec2 R))) (counter : list (vec2 R) -> bool).
  Local Notation w := (realHouse ele scaled inside).
  Local Notation f := (realRoof shrink counter).
  Local Notation drawn := (drawnBy env).
  Local Notation verts := (vertsOf env).
  Hypothesis Quiet : forall x y, ePerlin env x y 0 = 0.
  Hypothesis Eps : 0 < eEps env.

  (** * The mesh of the plan *)
  Lemma flat_mesh p path low look : eLowest env < 0 -> goodTri (eTriangulate env p) -> ppoints p = coordinates path ->
    tpoints (eTriangulate env p) = twos (ppoints p) -> (Z.of_nat (length path) < 2 ^ 31)%Z ->
    exists mesh, addPolygon realNums env emptyMesh p (houseGeo realNums 0 low false) look = Ok mesh /\
      vertexList (bverts mesh) = map (fun q => (q, low)) path /\ sized mesh (length path) /\ bmap mesh = [] /\
      btris mesh = flat_map (fun r => [nth 1 r 0%Z; nth 0 r 0%Z; nth 2 r 0%Z]) (ttris (eTriangulate env p)).
  Proof.
    intros Lw G Pp Tp Lm. set (io := eTriangulate env p) in *. set (geo := houseGeo realNums 0 low false).
    assert (Lt : length (tpoints io) = length path) by (rewrite Tp, Pp, twos_coords; apply map_length).
    assert (Z0 : sized (@emptyMesh R) 0) by (repeat split).
    destruct G as (Mk & Rows).
    destruct (fillPoints_ok realNums env geo look (tmarkers io) (tpoints io) 0 emptyMesh 0 Z0) as (m1 & E1 & S1 & T1 & P1 & C1).
    { destruct (tmarkers io); [exact Mk|exact I]. }
    unfold addPolygon. fold io. change (garea geo) with 0. rewrite (rnlt_true (nabs realNums 0) (eEps env)) by (cbn; rewrite Rabs_R0; exact Eps).
    unfold fillMesh. rewrite E1. cbn [bind]. change (toInt (length (bverts emptyMesh) / 3)) with 0%Z.
    rewrite fillTriangles_ok.
    2:{ eapply Forall_impl; [|exact Rows]. intros r (L & F). split; [exact L|]. eapply Forall_impl; [|exact F]. intros i Hi. rewrite Lt in Hi. cbn beta in *. lia. }
    eexists. split; [reflexivity|]. cbn [bverts btris bcols buvs bmap]. rewrite T1, P1. cbn [emptyMesh btris bmap app gflip geo houseGeo].
    split; [|split; [|split; [reflexivity|apply flat_map_ext; reflexivity]]].
    - rewrite vertex_threes, <- (threes_cpos m1 _ S1), C1. cbn [corners emptyMesh bverts bcols buvs threes combine map app twos].
      assert (Q : map (fun '(j, p0) => cornerOf realNums env geo look (marker (tmarkers io) j) p0) (combine (seq 0 (length (tpoints io))) (tpoints io)) =
              triCorners realNums env geo look io).
      { unfold triCorners, numbered. apply map_ext. intros [j q]. symmetry. apply triCorner_of. }
      rewrite Q. pose proof (tri_spots env Quiet 0 low look false io Lw) as Sp. fold geo in Sp.
      rewrite !map_map. transitivity (map (fun v : vec3 R => (mkV2 (v3x v) (v3z v), v3y v)) (map spot (triCorners realNums env geo look io))).
      { rewrite map_map. apply map_ext. intros [[[x y] h] c u]. reflexivity. }
      rewrite Sp, Tp, Pp, twos_coords, !map_map. apply map_ext. intros [x y]. cbn. f_equal. ring.
    - destruct S1 as (A & B & C). cbn [Nat.add] in *. rewrite Lt in *. repeat split; assumption.
  Qed.

  (** * Where the sides are met *)
  Lemma crossing_ok (v0 v1 from to : vec2 R) :
    let denom := (v2x v1 - v2x v0) * (v2y to - v2y from) - (v2y v1 - v2y v0) * (v2x to - v2x from) in
    match crossing realNums realTrig w v0 v1 from to with
    | Some r => denom <> 0 /\ 0 <= r <= 1 /\ exists s, 0 <= s <= 1 /\ alongLine realNums v0 v1 r = alongLine realNums from to s
    | None => denom = 0 \/ forall r s, 0 <= r <= 1 -> 0 <= s <= 1 -> alongLine realNums v0 v1 r <> alongLine realNums from to s
    end.
  Proof.
    intros denom. unfold crossing. cbn [nsub nmul ndiv nzero realNums kone realTrig kEqual realHouse]. fold denom.
    destruct (Req_EM_T denom 0) as [Z|Z]; [now left|].
    set (r := _ / denom). set (s := ((v2y v0 - v2y from) * (v2x v1 - v2x v0) - _) / denom).
    assert (X : v2x v0 + r * (v2x v1 - v2x v0) = v2x from + s * (v2x to - v2x from)) by (unfold r, s; unfold denom in *; field; exact Z).
    assert (Y : v2y v0 + r * (v2y v1 - v2y v0) = v2y from + s * (v2y to - v2y from)) by (unfold r, s; unfold denom in *; field; exact Z).
    assert (Un : forall r' s', alongLine realNums v0 v1 r' = alongLine realNums from to s' -> r' = r /\ s' = s).
    { intros r' s' Q. unfold alongLine in Q. cbn [nadd nsub nmul realNums] in Q. injection Q as Qx Qy. 
      set (dx := v2x v1 - v2x v0) in *. set (dy := v2y v1 - v2y v0) in *. set (ex := v2x to - v2x from) in *. set (ey := v2y to - v2y from) in *.
      assert (Hx : (r' - r) * dx = (s' - s) * ex) by lra. assert (Hy : (r' - r) * dy = (s' - s) * ey) by lra.
      assert (Hr : (r' - r) * denom = 0).
      { unfold denom. replace ((r' - r) * (dx * ey - dy * ex)) with ((r' - r) * dx * ey - (r' - r) * dy * ex) by ring. rewrite Hx, Hy. ring. }
      assert (Hs : (s' - s) * denom = 0).
      { unfold denom. replace ((s' - s) * (dx * ey - dy * ex)) with ((s' - s) * ey * dx - (s' - s) * ex * dy) by ring. rewrite <- Hx, <- Hy. ring. }
      apply Rmult_integral in Hr, Hs. split; [destruct Hr; [lra|contradiction]|destruct Hs; [lra|contradiction]]. }
    unfold nlt. cbn [realNums]. destruct (Rlt_dec r 0) as [A|A]; [right; intros r' s' Ir Is Q; destruct (Un r' s' Q); lra|].
    destruct (Rlt_dec 1 r) as [B|B]; [right; intros r' s' Ir Is Q; destruct (Un r' s' Q); lra|].
    destruct (Rlt_dec s 0) as [C|C]; [right; intros r' s' Ir Is Q; destruct (Un r' s' Q); lra|].
    destruct (Rlt_dec 1 s) as [D|D]; [right; intros r' s' Ir Is Q; destruct (Un r' s' Q); lra|].
    cbn [orb]. split; [exact Z|]. split; [lra|]. exists s. split; [lra|]. unfold alongLine. cbn [nadd nsub nmul realNums]. now rewrite X, Y.
  Qed.

  Lemma meets_unique ring mid degrees i s s' : meets ring mid degrees i s -> meets ring mid degrees i s' -> s' = s.
  Proof.
    intros (_ & _ & D & r & _ & X & Y) (_ & _ & _ & r' & _ & X' & Y'). set (t := PI * degrees / 180) in *.
    set (a := pointOf ring i) in *. set (b := pointOf ring (after (length ring) i)) in *. set (c := middle mid) in *.
    set (dx := v2x b - v2x a) in *. set (dy := v2y b - v2y a) in *.
    assert (Hx : (r' - r) * dx = (s' - s) * sin t) by lra. assert (Hy : (r' - r) * dy = (s' - s) * cos t) by lra.
    assert (H : (s' - s) * (dx * cos t - dy * sin t) = 0).
    { replace ((s' - s) * (dx * cos t - dy * sin t)) with ((s' - s) * cos t * dx - (s' - s) * sin t * dy) by ring. rewrite <- Hx, <- Hy. ring. }
    apply Rmult_integral in H. destruct H; lra.
  Qed.
  Definition behind (mid : list (vec2 R)) (t : R) : vec2 R := mkV2 (v2x (middle mid) - sin t * (1 / 10)) (v2y (middle mid) - cos t * (1 / 10)).
  Definition before (mid : list (vec2 R)) (t : R) : vec2 R := mkV2 (v2x (middle mid) + sin t * (1 / 10)) (v2y (middle mid) + cos t * (1 / 10)).
  Definition met (mid : list (vec2 R)) (t s : R) : vec2 R := mkV2 (v2x (middle mid) + s * sin t) (v2y (middle mid) + s * cos t).
  Lemma sincos t : sin t * sin t + cos t * cos t = 1.
  Proof. pose proof (sin2_cos2 t) as Q. unfold Rsqr in Q. exact Q. Qed.
  Lemma hit_ok ring mid degrees i : (i < length ring)%nat ->
    let t := PI * degrees / 180 in
    let v0 := pointOf ring i in let v1 := pointOf ring (after (length ring) i) in
    match crossing realNums realTrig w v0 v1 (behind mid t) (before mid t) with
    | Some r => exists s, meets ring mid degrees i s /\ alongLine realNums v0 v1 r = met mid t s /\
        distance2 realNums realTrig (behind mid t) (met mid t s) = s + 1 / 10
    | None => forall s, ~ meets ring mid degrees i s
    end.
  Proof.
    intros I t v0 v1. pose proof (crossing_ok v0 v1 (behind mid t) (before mid t)) as C.
    assert (Dn : (v2x v1 - v2x v0) * (v2y (before mid t) - v2y (behind mid t)) - (v2y v1 - v2y v0) * (v2x (before mid t) - v2x (behind mid t)) =
             ((v2x v1 - v2x v0) * cos t - (v2y v1 - v2y v0) * sin t) * (1 / 5)) by (cbn [before behind v2x v2y]; field).
    cbn zeta in C. rewrite Dn in C.
    assert (Al : forall s, alongLine realNums (behind mid t) (before mid t) s = met mid t (s / 5 - 1 / 10)).
    { intros s. unfold alongLine, met, behind, before. cbn [nadd nsub nmul realNums v2x v2y]. f_equal; field. }
    destruct (crossing realNums realTrig w v0 v1 (behind mid t) (before mid t)) as [r|].
    - destruct C as (D & Ir & s & Is & Q). rewrite Al in Q. exists (s / 5 - 1 / 10). split; [|split; [exact Q|]].
      + split; [exact I|]. split; [lra|]. split; [fold t v0 v1; intros Z; apply D; rewrite Z; ring|]. exists r. split; [exact Ir|].
        unfold alongLine, met in Q. cbn [nadd nsub nmul realNums] in Q. injection Q as X Y. split; [exact X|exact Y].
      + rewrite distance_ok. unfold length2, behind, met. cbn [v2x v2y]. apply sqrt_lem_1.
        * apply squares.
        * lra.
        * pose proof (sincos t) as U. set (u := s / 5 - 1 / 10).
          transitivity ((u + 1 / 10) * (u + 1 / 10) * (sin t * sin t + cos t * cos t)); [rewrite U; ring|ring].
    - intros s (_ & Is & D & r & Ir & X & Y). fold t v0 v1 in D, X, Y. destruct C as [C|C].
      + apply D. lra.
      + apply (C r ((s + 1 / 10) * 5) Ir); [lra|]. rewrite Al. unfold alongLine, met. cbn [nadd nsub nmul realNums].
        replace ((s + 1 / 10) * 5 / 5 - 1 / 10) with s by field. now rewrite X, Y.
  Qed.

  (** * The search for front and peak *)
  Section Search.
    Context (ring mid : list (vec2 R)) (degrees : R).
    Local Notation t := (PI * degrees / 180).
    Local Notation hits := (meets ring mid degrees).
    Definition peakOf (i : nat) (s : R) : nat :=
      let next := after (length ring) i in
      if Rlt_dec (length2 (pointOf ring i) (met mid t s)) (length2 (pointOf ring next) (met mid t s)) then i else next.
    Definition searched (n : nat) (st : @sights R) : Prop :=
      0 <= sMax st /\ (forall i s, (i < n)%nat -> hits i s -> s + 1 / 10 <= sMax st) /\
      match sFront st with
      | None => sMax st = 0
      | Some k => exists s, (k < n)%nat /\ hits k s /\ - (1 / 10) < s /\ sMax st = s + 1 / 10 /\ forall i s', (i < k)%nat -> hits i s' -> s' < s
      end /\
      match sMin st with
      | None => sBack st = None /\ forall i s, (i < n)%nat -> ~ hits i s
      | Some d => exists i s, (i < n)%nat /\ hits i s /\ d = s + 1 / 10 /\ (forall i' s', (i' < n)%nat -> hits i' s' -> s <= s') /\
          (forall i' s', (i' < i)%nat -> hits i' s' -> s < s') /\ sBack st = Some (peakOf i s)
      end.
    Lemma sight_ok n st : (n < length ring)%nat -> searched n st ->
      searched (S n) (sight realNums realTrig w (length ring) (behind mid t) (before mid t) (pointOf ring) st n).
    Proof.
      intros L (P & M & Fr & Mn). unfold sight.
      assert (Nx : nextVertex (length ring) n = after (length ring) n).
      { unfold nextVertex, after. destruct (Nat.eqb_spec n (length ring - 1)); destruct (Nat.eqb_spec (S n) (length ring)); lia. }
      rewrite Nx. pose proof (hit_ok ring mid degrees n L) as H. cbn zeta in H.
      destruct (crossing realNums realTrig w (pointOf ring n) (pointOf ring (after (length ring) n)) (behind mid t) (before mid t)) as [r|].
      2:{ split; [exact P|]. split; [intros i s I Hi; destruct (Nat.eq_dec i n) as [->|]; [now apply H in Hi|apply (M i s); [lia|exact Hi]]|]. split.
          - destruct (sFront st) as [k|]; [|exact Fr]. destruct Fr as (s & K & Fr). exists s. split; [lia|exact Fr].
          - destruct (sMin st) as [d|].
            + destruct Mn as (i & s & I & Hi & D & A & B & C). exists i, s. split; [lia|]. split; [exact Hi|]. split; [exact D|]. split; [|auto].
              intros i' s' I' H'. destruct (Nat.eq_dec i' n) as [->|]; [now apply H in H'|apply (A i' s'); [lia|exact H']].
            + destruct Mn as (B & A). split; [exact B|]. intros i s I Hi. destruct (Nat.eq_dec i n) as [->|]; [now apply H in Hi|apply (A i s); [lia|exact Hi]]. }
      destruct H as (s & Hs & Q & Ds). rewrite Q, Ds. assert (Rs : - (1 / 10) <= s) by (destruct Hs as (_ & ? & _); lra).
      assert (Un : forall s', hits n s' -> s' = s) by (intros s' H'; exact (meets_unique _ _ _ _ _ _ Hs H')).
      set (st1 := if nlt realNums (sMax st) (s + 1 / 10) then _ else st).
      assert (Step1 : 0 <= sMax st1 /\ (forall i s, (i < S n)%nat -> hits i s -> s + 1 / 10 <= sMax st1) /\
        match sFront st1 with
        | None => sMax st1 = 0
        | Some k => exists s, (k < S n)%nat /\ hits k s /\ - (1 / 10) < s /\ sMax st1 = s + 1 / 10 /\ forall i s', (i < k)%nat -> hits i s' -> s' < s
        end /\ sMin st1 = sMin st /\ sBack st1 = sBack st).
      { unfold st1. destruct (nlt realNums (sMax st) (s + 1 / 10)) eqn:E; [apply nlt_dec in E|apply nlt_not in E].
        - cbn [sMax sFront sMin sBack]. split; [lra|]. split; [|split; [|now split]].
          + intros i s' I Hi. destruct (Nat.eq_dec i n) as [->|]; [rewrite (Un s' Hi); lra|]. specialize (M i s' ltac:(lia) Hi). lra.
          + exists s. split; [lia|]. split; [exact Hs|]. split; [lra|]. split; [reflexivity|]. intros i s' I Hi. specialize (M i s' I Hi). lra.
        - split; [exact P|]. split; [|split; [|now split]].
          + intros i s' I Hi. destruct (Nat.eq_dec i n) as [->|]; [rewrite (Un s' Hi); lra|]. apply (M i s'); [lia|exact Hi].
          + destruct (sFront st) as [k|]; [|exact Fr]. destruct Fr as (s' & K & Fr). exists s'. split; [lia|exact Fr]. }
      destruct Step1 as (P1 & M1 & F1 & N1 & B1). clearbody st1.
      assert (Pk : (if nlt realNums (distance2 realNums realTrig (pointOf ring n) (met mid t s)) (distance2 realNums realTrig (pointOf ring (after (length ring) n)) (met mid t s))
                    then n else after (length ring) n) = peakOf n s).
      { unfold peakOf. rewrite !distance_ok. cbn [nlt realNums]. now destruct (Rlt_dec _ _). }
      rewrite Pk. unfold nearer. rewrite N1. destruct (sMin st) as [d|] eqn:Em.
      - destruct Mn as (i & s0 & I & Hi & -> & A & B & C). destruct (nlt realNums (s + 1 / 10) (s0 + 1 / 10)) eqn:E; [apply nlt_dec in E|apply nlt_not in E].
        + split; [exact P1|]. split; [exact M1|]. split; [exact F1|]. cbn [sMin sBack]. exists n, s. split; [lia|]. split; [exact Hs|]. split; [reflexivity|]. split; [|split; [|reflexivity]].
          * intros i' s' I' H'. destruct (Nat.eq_dec i' n) as [->|]; [rewrite (Un s' H'); lra|]. specialize (A i' s' ltac:(lia) H'). lra.
          * intros i' s' I' H'. specialize (A i' s' I' H'). lra.
        + split; [exact P1|]. split; [exact M1|]. split; [exact F1|]. rewrite N1. exists i, s0. split; [lia|]. split; [exact Hi|]. split; [reflexivity|].
          split; [|split; [exact B|now rewrite B1]].
          intros i' s' I' H'. destruct (Nat.eq_dec i' n) as [->|]; [rewrite (Un s' H'); lra|]. apply (A i' s'); [lia|exact H'].
      - destruct Mn as (_ & A). split; [exact P1|]. split; [exact M1|]. split; [exact F1|]. cbn [sMin sBack]. exists n, s. split; [lia|]. split; [exact Hs|]. split; [reflexivity|].
        split; [|split; [|reflexivity]].
        + intros i' s' I' H'. destruct (Nat.eq_dec i' n) as [->|]; [rewrite (Un s' H'); lra|]. exfalso. apply (A i' s'); [lia|exact H'].
        + intros i' s' I' H'. exfalso. exact (A i' s' I' H').
    Qed.
    Lemma search_ok : searched (length ring)
      (fold_left (sight realNums realTrig w (length ring) (behind mid t) (before mid t) (pointOf ring)) (seq 0 (length ring)) (mkSights None None 0 None)).
    Proof.
      enough (H : forall n, (n <= length ring)%nat -> searched n
        (fold_left (sight realNums realTrig w (length ring) (behind mid t) (before mid t) (pointOf ring)) (seq 0 n) (mkSights None None 0 None))) by (now apply H).
      induction n as [|n IH]; intros L.
      - cbn [seq fold_left]. split; [cbn; lra|]. split; [intros; lia|]. split; [reflexivity|]. cbn. split; [reflexivity|]. intros; lia.
      - rewrite seq_S, fold_left_app. cbn [fold_left Nat.add]. apply sight_ok; [lia|]. apply IH. lia.
    Qed.
    Lemma searched_front st front : searched (length ring) st -> sFront st = Some front -> isFront ring mid degrees front.
    Proof.
      intros (_ & M & Fr & _) Q. rewrite Q in Fr. destruct Fr as (s & K & H & Ls & Q2 & Fi). exists s. split; [exact H|]. split; [exact Ls|]. split; [|exact Fi].
      intros i s' Hi. specialize (M i s' (proj1 Hi) Hi). lra.
    Qed.
    Lemma searched_peak st peak : searched (length ring) st -> sBack st = Some peak -> isPeak ring mid degrees peak.
    Proof.
      intros (_ & _ & _ & Mn) Q. destruct (sMin st) as [d|]; [|destruct Mn as (B & _); rewrite Q in B; discriminate].
      destruct Mn as (i & s & I & Hi & _ & A & B & C). exists i, s. split; [exact Hi|]. split; [intros i' s' H'; exact (A i' s' (proj1 H') H')|]. split; [exact B|].
      rewrite Q in C. injection C as ->. reflexivity.
    Qed.
    Lemma searched_none st : searched (length ring) st -> sFront st = None \/ sBack st = None -> forall front, ~ isFront ring mid degrees front.
    Proof.
      intros (P & M & Fr & Mn) [Q|Q] front (s & H & Ls & _).
      - rewrite Q in Fr. specialize (M front s (proj1 H) H). lra.
      - destruct (sMin st) as [d|]; [destruct Mn as (i & s' & _ & _ & _ & _ & _ & C); rewrite Q in C; discriminate|].
        destruct Mn as (_ & A). exact (A front s (proj1 H) H).
    Qed.
  End Search.

  (** * Heights *)
  Lemma clamp_ok v lo hi : clamp realNums v lo hi = between lo hi v.
  Proof.
    unfold clamp, between, Rmax, Rmin. cbn [nlt realNums]. destruct (Rlt_dec hi v), (Rle_dec v hi); try lra.
    - destruct (Rlt_dec lo hi), (Rle_dec lo hi); lra.
    - destruct (Rlt_dec lo v), (Rle_dec lo v); lra.
  Qed.
  Lemma slope_ok low h a b c q : slopeHeight realNums w low (low + h) a b c q = slopeAt low h a b c q.
  Proof.
    unfold slopeHeight. rewrite clamp_ok. unfold slopeAt. f_equal. unfold planeHeight, vcross, lifted, vminus.
    cbn [v3x v3y v3z nadd nsub nmul ndiv nzero realNums kEqual realHouse].
    set (ny := _ - _) at 1. assert (Ny : ny = area2 a b c) by (unfold ny, area2; ring).
    destruct (Req_EM_T ny 0) as [Z|Z]; destruct (Req_EM_T (area2 a b c) 0) as [Z'|Z']; try (rewrite Ny in Z; contradiction); [reflexivity|].
    rewrite Ny in Z. unfold area2 in *. field. exact Z.
  Qed.

  (** * One outer ring *)
  Definition lookAlike (o : meshOp) (t : tri3) : Prop := flat_map seen (newFaces realNums env o) = [t] /\ goodOp realNums env o /\ length (newCorners realNums env o) = 3%nat.
  Lemma tri_alike look a b c u0 u1 u2 : lookAlike (roofTriangle realNums env look a b c u0 u1 u2) (a, b, c).
  Proof. destruct a, b, c. repeat split. Qed.
  Lemma alike_drawn ops ts : Forall2 lookAlike ops ts -> drawn ops = ts /\ Forall (goodOp realNums env) ops /\ verts ops = (3 * length ts)%nat.
  Proof.
    induction 1 as [|o t ops ts (A & B & C) F (D & G & V)]; [repeat split; constructor|]. split; [|split].
    - change (o :: ops) with ([o] ++ ops). rewrite drawn_app, D. unfold drawnBy. cbn [flat_map]. rewrite app_nil_r, A. reflexivity.
    - now constructor.
    - change (o :: ops) with ([o] ++ ops). rewrite verts_app, V. unfold vertsOf. cbn [flat_map]. rewrite app_nil_r, C. cbn [length]. lia.
  Qed.
  Lemma gables_ok look h low ring front peak : (front < length ring)%nat ->
    Forall2 lookAlike (flat_map (skillionSide realNums env w look h low (length ring) front (pointOf ring) (topOf low h ring front peak)) (seq 0 (length ring)))
      (gables low h ring front peak).
  Proof.
    intros Fl. unfold gables. assert (Al : Forall (fun i => i < length ring)%nat (seq 0 (length ring))) by (apply Forall_forall; intros i I; apply in_seq in I; lia).
    assert (Nx : forall i, (i < length ring)%nat -> nextVertex (length ring) i = after (length ring) i).
    { intros i I. unfold nextVertex, after. destruct (Nat.eqb_spec i (length ring - 1)); destruct (Nat.eqb_spec (S i) (length ring)); lia. }
    induction Al as [|i l Li Al IH]; [constructor|]. cbn [flat_map]. apply Forall2_app; [|exact IH].
    unfold skillionSide. rewrite !Nx by assumption. destruct (i =? front)%nat; [constructor|].
    destruct (i =? after (length ring) front)%nat; [repeat constructor|]. destruct (after (length ring) i =? front)%nat; repeat constructor.
  Qed.
  Lemma gables_length low h ring front peak : (length (gables low h ring front peak) <= 2 * length ring)%nat.
  Proof.
    unfold gables. rewrite <- (seq_length (length ring) 0) at 2. induction (seq 0 (length ring)) as [|i l IH]; [reflexivity|]. cbn [flat_map length]. rewrite app_length.
    destruct (i =? front)%nat; [cbn [length]; lia|]. destruct (i =? after (length ring) front)%nat; [cbn [length]; lia|].
    destruct (after (length ring) i =? front)%nat; cbn [length]; lia.
  Qed.

  Lemma copied_ok io ring (top : nat -> R) mesh : goodTri io -> length (tpoints io) = length ring -> sized mesh (length ring) -> bmap mesh = [] ->
    btris mesh = flat_map (fun r => [nth 1 r 0%Z; nth 0 r 0%Z; nth 2 r 0%Z]) (ttris io) ->
    let src := mkBMesh (flat_map (fun i => [v2x (pointOf ring i); v2y (pointOf ring i); top i]) (seq 0 (length ring))) (btris mesh) (bcols mesh) (buvs mesh) (bmap mesh) in
    let op := OpCopy (vzero realNums) src in
    goodOp realNums env op /\ length (newCorners realNums env op) = length ring /\
    flat_map seen (newFaces realNums env op) = map (fun '(a, b, c) => let u i := at_ (top (Z.to_nat i)) (pointOf ring (Z.to_nat i)) in (u b, u a, u c)) (triples io).
  Proof.
    intros G Lt (Sv & Sc & Su) Mp Tr src op. set (m := length ring) in *.
    assert (Lv : length (bverts src) = (3 * m)%nat).
    { cbn [src bverts]. rewrite (flat_map_const_length _ 3); [rewrite seq_length; lia|reflexivity]. }
    assert (Sz : sized src m) by (repeat split; assumption).
    assert (T3 : threes (bverts src) = map (fun i => (v2x (pointOf ring i), v2y (pointOf ring i), top i)) (seq 0 m)).
    { cbn [src bverts]. clear. generalize (seq 0 m). intros l. induction l as [|i l IH]; [reflexivity|]. cbn [flat_map app threes map]. now rewrite IH. }
    assert (Cp : map (@cpos R) (newCorners realNums env op) = map (fun i => (v2x (pointOf ring i), v2y (pointOf ring i), top i)) (seq 0 m)).
    { rewrite <- T3, <- (threes_cpos src m Sz). unfold op. cbn [newCorners]. rewrite map_map. apply map_ext. intros [[[x y] h] c u]. cbn. repeat f_equal; ring. }
    assert (Ln : length (newCorners realNums env op) = m) by (rewrite <- (map_length (@cpos R)), Cp, map_length; apply seq_length).
    destruct G as (Mk & Rows). split; [|split].
    - unfold op. cbn [goodOp]. exists m. split.
      + split; [exact Sz|]. cbn [src btris]. rewrite Tr. split.
        * apply flat_length3. reflexivity.
        * apply Forall_flat_map. eapply Forall_impl; [|exact Rows]. intros r (L3 & F). rewrite Lt in F. rewrite Forall_forall in F.
          repeat constructor; apply F; apply nth_In; lia.
      + split; cbn [src bmap]; rewrite Mp; [reflexivity|]. cbn. lia.
    - exact Ln.
    - unfold op. cbn [newFaces]. fold op. cbn [src btris]. rewrite Tr.
      rewrite flat_threes by reflexivity. cbn [threes].
      pose proof (rows_seen io (newCorners realNums env op) (fun i => at_ (top (Z.to_nat i)) (pointOf ring (Z.to_nat i))) (conj Mk Rows)) as RS.
      rewrite <- RS.
      + rewrite !flat_map_of_map. rewrite flat_map_flat. apply flat_map_ext. intros r. cbn [map flat_map faceOf]. now rewrite app_nil_r.
      + intros i I. rewrite Lt in I. unfold cornerAt. destruct (Z.ltb_spec i 0); [lia|].
        destruct (nth_error (newCorners realNums env op) (Z.to_nat i)) as [c|] eqn:N; [|apply nth_error_None in N; lia].
        exists c. split; [reflexivity|]. pose proof (map_nth_error (@cpos R) _ _ N) as M. rewrite Cp in M. rewrite nth_error_map in M.
        rewrite (nth_error_nth' _ 0%nat) in M by (rewrite seq_length; lia). rewrite seq_nth in M by lia. injection M as M. unfold spot. rewrite <- M. reflexivity.
  Qed.

  Lemma direction_ok degrees : 
    normalized2 realNums realTrig realGens (mkV2 (ksin realTrig (PI * degrees / INR 180)) (kcos realTrig (PI * degrees / INR 180))) =
    mkV2 (sin (PI * degrees / 180)) (cos (PI * degrees / 180)).
  Proof.
    replace (INR 180) with 180 by (rewrite INR_IZR_INZ; reflexivity). unfold normalized2. cbn [v2x v2y ksin kcos ksqrt realTrig nadd nmul realNums].
    rewrite sincos, sqrt_1. rewrite rnlt_true.
    - cbn [ndiv realNums]. f_equal; field.
    - change (geps realGens) with (/ 2 ^ 52). assert (1 < 2 ^ 52) by (apply Rlt_pow_R1; [lra|lia]).
      rewrite <- Rinv_1. apply Rinv_lt_contravar; lra.
  Qed.
  Lemma nth_pair (path : list (vec2 R)) (low : R) i : (i < length path)%nat ->
    nth i (map (fun q : vec2 R => (q, low)) path) (mkV2 0 0, 0) = (nth i path (mkV2 0 0), low).
  Proof.
    intros L. rewrite (nth_indep _ _ (mkV2 0 0, low)) by (rewrite map_length; exact L).
    exact (map_nth (fun q : vec2 R => (q, low)) path (mkV2 0 0) i).
  Qed.
  Lemma slope_range degrees look p h low path pre mid post : eLowest env < 0 -> goodTri (eTriangulate env p) -> ppoints p = coordinates path ->
    tpoints (eTriangulate env p) = twos (ppoints p) -> (Z.of_nat (length path) < 2 ^ 31)%Z -> ppoints p = pre ++ coordinates mid ++ post ->
    let t := PI * degrees / 180 in
    let io := eTriangulate env p in
    (exists front peak ops, frontAndPeak path mid degrees front peak /\ front <> peak /\
       skillionRange realNums realTrig env w f (mkV2 (sin t) (cos t)) look p h low (length pre, length pre + 2 * length mid)%nat = Ok (Some ops) /\
       Forall (goodOp realNums env) ops /\ drawn ops = gables low h path front peak ++ slopeTris io low h path front peak /\
       (verts ops <= 7 * length path)%nat) \/
    (noSlope path mid degrees /\
     skillionRange realNums realTrig env w f (mkV2 (sin t) (cos t)) look p h low (length pre, length pre + 2 * length mid)%nat = Ok None).
  Proof.
    intros Lw G Pp Tp Lm Pm t io. unfold skillionRange. rewrite (centroid_ok ele scaled inside p pre mid post Pm). cbn [bind v2x v2y].
    destruct (flat_mesh p path low look Lw G Pp Tp Lm) as (mesh & Em & Vm & Sm & Mm & Tm).
    change (nzero realNums) with 0. rewrite Em. cbn [bind]. rewrite Vm, map_length. fold io in Tm.
    assert (Ai : forall i, fst (nth i (map (fun q : vec2 R => (q, low)) path) (mkV2 0 0, 0)) = pointOf path i).
    { intros i. unfold pointOf. destruct (Nat.lt_ge_cases i (length path)) as [L|L].
      - rewrite nth_pair by exact L. reflexivity.
      - rewrite !nth_overflow by (rewrite ?map_length; exact L). reflexivity. }
    set (ring := path) in *.
    change (nsub realNums (v2x (middle mid)) (nmul realNums (sin t) (fTenth f))) with (v2x (behind mid t)).
    change (nsub realNums (v2y (middle mid)) (nmul realNums (cos t) (fTenth f))) with (v2y (behind mid t)).
    change (nadd realNums (v2x (middle mid)) (nmul realNums (sin t) (fTenth f))) with (v2x (before mid t)).
    change (nadd realNums (v2y (middle mid)) (nmul realNums (cos t) (fTenth f))) with (v2y (before mid t)).
    change (mkV2 (v2x (behind mid t)) (v2y (behind mid t))) with (behind mid t).
    change (mkV2 (v2x (before mid t)) (v2y (before mid t))) with (before mid t).
    set (at0 := fun i : nat => fst (nth i (map (fun q : vec2 R => (q, low)) ring) (mkV2 0 0, 0))) in *.
    assert (Ai' : forall i, at0 i = pointOf ring i) by exact Ai.
    assert (Sg : forall l st, fold_left (sight realNums realTrig w (length ring) (behind mid t) (before mid t) at0) l st =
                          fold_left (sight realNums realTrig w (length ring) (behind mid t) (before mid t) (pointOf ring)) l st).
    { induction l as [|i l IH]; intros st; [reflexivity|]. cbn [fold_left]. rewrite IH. f_equal. unfold sight. now rewrite ?Ai', ?Ai. }
    rewrite Sg. pose proof (search_ok ring mid degrees) as Se. fold t in Se. set (st := fold_left _ _ _) in *.
    destruct (sFront st) as [front|] eqn:Ef; [|right; split; [left; apply (searched_none ring mid degrees st Se); now left|reflexivity]].
    destruct (sBack st) as [peak|] eqn:Eb; [|right; split; [left; apply (searched_none ring mid degrees st Se); now right|reflexivity]].
    pose proof (searched_front ring mid degrees st front Se Ef) as Fr. pose proof (searched_peak ring mid degrees st peak Se Eb) as Pk.
    destruct (Nat.eqb_spec front peak) as [Q|Q].
    { right. split; [|reflexivity]. right. exists front. split; [exact Fr|now rewrite Q]. }
    left. exists front, peak. assert (Lf : (front < length ring)%nat) by (destruct Fr as (s & (L & _) & _); exact L).
    assert (Nf : nextVertex (length ring) front = after (length ring) front).
    { unfold nextVertex, after. destruct (Nat.eqb_spec front (length ring - 1)); destruct (Nat.eqb_spec (S front) (length ring)); lia. }
    set (top := fun i : nat => if ((i =? front) || (i =? nextVertex (length ring) front))%nat then _ else _).
    assert (Tp' : forall i, (i < length ring)%nat -> top i = topOf low h ring front peak i).
    { intros i L. unfold top, topOf. rewrite Nf. destruct ((i =? front) || (i =? after (length ring) front))%nat.
      - rewrite nth_pair by exact L. reflexivity.
      - rewrite ?Ai', ?Ai. change (nadd realNums low h) with (low + h). apply slope_ok. }
    assert (Vs : flat_map (fun i => [v2x (at0 i); v2y (at0 i); top i]) (seq 0 (length ring)) =
                 flat_map (fun i => [v2x (pointOf ring i); v2y (pointOf ring i); topOf low h ring front peak i]) (seq 0 (length ring))).
    { rewrite !flat_map_concat_map. f_equal. apply map_ext_in. intros i I. apply in_seq in I. rewrite ?Ai', ?Ai, Tp' by lia. reflexivity. }
    assert (Ss : flat_map (skillionSide realNums env w look h low (length ring) front at0 top) (seq 0 (length ring)) =
                 flat_map (skillionSide realNums env w look h low (length ring) front (pointOf ring) (topOf low h ring front peak)) (seq 0 (length ring))).
    { rewrite !flat_map_concat_map. f_equal. apply map_ext_in. intros i I. apply in_seq in I. unfold skillionSide.
      assert (Ln : (nextVertex (length ring) i < length ring)%nat) by (unfold nextVertex; destruct (Nat.eqb_spec i (length ring - 1)); lia).
      rewrite ?Ai', ?Ai, !Tp' by lia. reflexivity. }
    exists (flat_map (skillionSide realNums env w look h low (length ring) front (pointOf ring) (topOf low h ring front peak)) (seq 0 (length ring)) ++
      [OpCopy (vzero realNums) (mkBMesh (flat_map (fun i => [v2x (pointOf ring i); v2y (pointOf ring i); topOf low h ring front peak i]) (seq 0 (length ring)))
         (btris mesh) (bcols mesh) (buvs mesh) (bmap mesh))]).
    split; [split; assumption|]. split; [exact Q|]. split.
    { apply (f_equal (fun x => Ok (Some x))). rewrite <- Ss, <- Vs. reflexivity. }
    destruct (alike_drawn _ _ (gables_ok look h low ring front peak Lf)) as (D1 & G1 & V1).
    assert (Lt : length (tpoints io) = length ring) by (unfold io; rewrite Tp, Pp, twos_coords; apply map_length).
    destruct (copied_ok io ring (topOf low h ring front peak) mesh G Lt Sm Mm Tm) as (G2 & V2 & D2). split; [|split].
    - apply Forall_app. split; [exact G1|]. now constructor.
    - rewrite drawn_app, D1. f_equal. unfold drawnBy. cbn [flat_map]. rewrite app_nil_r. exact D2.
    - rewrite verts_app, V1. pose proof (gables_length low h ring front peak). unfold vertsOf. cbn [flat_map]. rewrite app_nil_r.
      cbn zeta in V2. rewrite V2. lia.
  Qed.

  Lemma skillion_ok {E} degrees look (p : part E) h low : let plan := planOf env w p in let io := eTriangulate env plan in
    let path := concat (map fst (ringsOf env w p)) in
    eLowest env < 0 -> eLowest env < low -> goodTri io -> tpoints io = twos (ppoints plan) -> (Z.of_nat (length path) < 2 ^ 31)%Z ->
    exists ops, skillionRoof realNums realTrig realGens env w f degrees look plan h low = Ok ops /\ Forall (goodOp realNums env) ops /\
      skillionDraws io low h degrees path (ringsOnly env w false p) (drawn ops) /\
      (verts ops <= 7 * length path * length (ringsOnly env w false p) + length path)%nat.
  Proof.
    intros plan io path Lw Ll G Tp Lm. unfold skillionRoof. change (ndiv realNums (nmul realNums (fPi f) degrees) (kCount w 180)) with (PI * degrees / INR 180).
    rewrite direction_ok. set (dir := mkV2 _ _).
    assert (Lt : length (tpoints io) = length path) by (rewrite Tp; unfold plan; cbn [planOf ppoints]; rewrite twos_coords; apply map_length).
    enough (H : forall rings pre post, ppoints plan = pre ++ coordinates (concat (map fst rings)) ++ post ->
      exists ops good, skillionAll realNums realTrig env w f dir look plan h low (rangesOf (length pre) false rings) = Ok (ops, good) /\
        let all := ops ++ if good then [OpTexture look] else flatRoof realNums look plan low false in
        let mids := map fst (List.filter (fun r : list (vec2 R) * bool => Bool.eqb (snd r) false) rings) in
        Forall (goodOp realNums env) all /\ skillionDraws io low h degrees path mids (drawn all) /\
        (verts all <= 7 * length path * length mids + length path)%nat).
    { destruct (H (ringsOf env w p) [] []) as (ops & good & A & B & C & D); [cbn [app]; now rewrite app_nil_r|].
      change (pouters plan) with (rangesOf (@length R []) false (ringsOf env w p)). rewrite A. cbn [bind]. eexists. split; [reflexivity|]. auto. }
    destruct (surface_ok env ele scaled Quiet Eps plan look low false Ll G) as (Gf & Df & Vf).
    induction rings as [|[r b] rings IH]; intros pre post P.
    - exists [], true. split; [reflexivity|]. cbn zeta. cbn [app]. split; [repeat constructor|]. split; [reflexivity|]. cbn. lia.
    - cbn [rangesOf map concat fst] in P |- *. rewrite coords_app, <- app_assoc in P.
      destruct (IH (pre ++ coordinates r) post) as (ops & good & A & B); [now rewrite <- app_assoc|].
      replace (length (pre ++ coordinates r)) with (length pre + 2 * length r)%nat in A by (rewrite app_length, coords_len; lia).
      destruct b; [exists ops, good; split; [exact A|exact B]|]. cbn [Bool.eqb app skillionAll List.filter snd map fst].
      destruct (slope_range degrees look plan h low path pre r (coordinates (concat (map fst rings)) ++ post) Lw G eq_refl Tp Lm P)
        as [(front & peak & o1 & Fp & Ne & E1 & G1 & D1 & V1)|(Ns & E1)]; fold dir in E1; rewrite E1; cbn [bind].
      + rewrite A. cbn [bind]. exists (o1 ++ ops), good. split; [reflexivity|]. cbn zeta in *. rewrite <- app_assoc. destruct B as (B & C & D). split; [|split].
        * apply Forall_app. now split.
        * rewrite drawn_app, D1. cbn [skillionDraws]. left. exists front, peak, (drawn (ops ++ if good then [OpTexture look] else flatRoof realNums look plan low false)). auto.
        * rewrite verts_app. cbn [length]. lia.
      + exists [], false. split; [reflexivity|]. cbn zeta. cbn [app]. split; [exact Gf|]. split.
        * cbn [skillionDraws]. right. split; [exact Ns|exact Df].
        * rewrite Vf. fold io. rewrite Lt. lia.
  Qed.
End Slope.

(** * The border of a slope *)
Lemma quad_border {I P : Type} (U D : I -> P) (T : I * I -> list (P * P * P)) g :
  (forall a b, In (a, b) g -> bordered (T (a, b)) [(D a, U a); (U a, U b); (U b, D b); (D b, D a)]) ->
  Permutation (map fst g) (map snd g) ->
  bordered (flat_map T g) (map (lift U) g ++ map flipped (map (lift D) g)).
Proof.
  intros Q H. set (v := map (fun x => (D x, U x)) (map fst g)).
  apply (bordered_cancel _ _ v).
  assert (V : Permutation (map flipped v) (map (fun x => (U x, D x)) (map snd g))).
  { unfold v. rewrite map_map. cbn [flipped fst snd]. apply Permutation_map, H. }
  apply (bordered_perm _ ((map (lift U) g ++ map flipped (map (lift D) g)) ++ v ++ map (fun x => (U x, D x)) (map snd g))).
  { apply Permutation_app_head, Permutation_app_head. now symmetry. }
  clear V H. subst v. induction g as [|[a b] g IH]; [constructor|].
  cbn [flat_map]. refine (bordered_perm _ _ _ _ (bordered_app _ _ _ _ (Q a b (or_introl eq_refl)) (IH (fun x y I => Q x y (or_intror I))))).
  cbn [map fst snd]. change (lift U (a, b)) with (U a, U b). change (flipped (lift D (a, b))) with (D b, D a).
  set (p := map (lift U) g). set (q := map flipped _). set (r := map _ (map fst g)). set (t := map _ (map snd g)).
  pieces [[(D a, U a)]; [(U a, U b)]; [(U b, D b)]; [(D b, D a)]; p; q; r; t] [0; 1; 2; 3; 4; 5; 6; 7]%nat [1; 4; 3; 5; 0; 6; 2; 7]%nat.
Qed.
Lemma ring_balanced m : Permutation (map fst (map (fun i => (i, after m i)) (seq 0 m))) (map snd (map (fun i => (i, after m i)) (seq 0 m))).
Proof.
  rewrite !map_map. cbn [fst snd]. rewrite map_id. pose proof (onward_balanced (seq 0 m)) as O.
  rewrite <- ring_sides, (ring_seq 0%nat), seq_length, !map_map in O. cbn [fst snd] in O.
  erewrite map_ext_in in O; [|intros i I; apply in_seq in I; rewrite seq_nth by lia; reflexivity]. cbn in O. rewrite map_id in O. rewrite O at 1.
  apply Permutation_refl'. apply map_ext_in. intros i I. apply in_seq in I. pose proof (after_lt m i ltac:(lia)). now rewrite seq_nth.
Qed.
Lemma slope_border {E} (env : builderEnv R) (w : houseEnv R) (p : part E) ring low h front peak :
  ringsOf env w p = [(ring, false)] -> fills (eTriangulate env (planOf env w p)) (planOf env w p) ->
  bordered (gables low h ring front peak ++ slopeTris (eTriangulate env (planOf env w p)) low h ring front peak)
    (map flipped (map (lift (at_ low)) (onward ring))).
Proof.
  intros Rg (_ & Fi). set (io := eTriangulate env (planOf env w p)) in *. set (m := length ring).
  set (g := map (fun i => (i, after m i)) (seq 0 m)).
  set (U := fun i => at_ (topOf low h ring front peak i) (pointOf ring i)). set (D := fun i => at_ low (pointOf ring i)).
  assert (Uf : U front = D front) by (unfold U, D, topOf; now rewrite Nat.eqb_refl).
  assert (Un : U (after m front) = D (after m front)).
  { unfold U, D, topOf. fold m. rewrite (Nat.eqb_refl (after m front)), Bool.orb_true_r. reflexivity. }
  assert (Gb : bordered (gables low h ring front peak) (map (lift U) g ++ map flipped (map (lift D) g))).
  { set (T := fun s : nat * nat => let '(i, j) := s in
      if (i =? front)%nat then [] else if (i =? after m front)%nat then [(D i, U j, D j)]
      else if (j =? front)%nat then [(D i, U i, D j)] else [(D i, U j, D j); (D i, U i, U j)]).
    replace (gables low h ring front peak) with (flat_map T g) by (unfold gables, g; rewrite flat_map_of_map; reflexivity).
    apply quad_border; [|apply ring_balanced]. intros i j I. unfold g in I. apply in_map_iff in I. destruct I as (x & Q & I). injection Q as -> <-.
    unfold T. destruct (Nat.eqb_spec i front) as [->|Nf].
    - rewrite Uf, Un. set (a := D front). set (b := D (after m front)). unfold bordered. cbn [allSides flat_map map flipped app].
      pieces [[(a, a)]; [(a, b)]; [(b, b)]; [(b, a)]] [0; 3; 2; 1]%nat [0; 1; 2; 3]%nat.
    - destruct (Nat.eqb_spec i (after m front)) as [->|Na].
      + rewrite Un. set (a := D (after m front)). set (c := U _). set (e := D (after m (after m front))). unfold bordered. cbn.
        pieces [[(a, c)]; [(c, e)]; [(e, a)]; [(a, a)]; [(c, a)]; [(e, c)]; [(a, e)]] [0; 1; 2; 3; 4; 5; 6]%nat [4; 5; 6; 3; 0; 1; 2]%nat.
      + destruct (Nat.eqb_spec (after m i) front) as [->|Nj].
        * rewrite Uf. set (a := D i). set (u := U i). set (e := D front). unfold bordered. cbn.
          pieces [[(a, u)]; [(u, e)]; [(e, a)]; [(u, a)]; [(e, u)]; [(e, e)]; [(a, e)]] [0; 1; 2; 3; 4; 5; 6]%nat [3; 4; 6; 0; 1; 5; 2]%nat.
        * set (a := D i). set (u := U i). set (c := U (after m i)). set (e := D (after m i)). unfold bordered. cbn.
          pieces [[(a, c)]; [(c, e)]; [(e, a)]; [(a, u)]; [(u, c)]; [(c, a)]; [(u, a)]; [(c, u)]; [(e, c)]; [(a, e)]]
            [0; 1; 2; 3; 4; 5; 6; 7; 8; 9]%nat [5; 8; 9; 6; 7; 0; 3; 4; 1; 2]%nat. }
  assert (Sb : bordered (slopeTris io low h ring front peak) (map flipped (map (lift U) g))).
  { pose proof (bordered_rev _ _ (bordered_map (fun i => U (Z.to_nat i)) _ _ Fi)) as B.
    replace (slopeTris io low h ring front peak) with
      (map (fun '(a, b, c) => (b, a, c)) (map (fun '(a, b, c) => (U (Z.to_nat a), U (Z.to_nat b), U (Z.to_nat c))) (triples io))).
    2:{ unfold slopeTris. rewrite map_map. apply map_ext. intros [[a b] c]. reflexivity. }
    refine (bordered_perm _ _ _ (Permutation_refl' _) B). f_equal.
    unfold planOf. cbn [psegs]. rewrite Rg. cbn [map fst layout]. rewrite app_nil_r. unfold ringSegments. fold m. unfold g. rewrite map_map.
    clear. induction (seq 0 m) as [|i l IH]; [reflexivity|]. cbn [flat_map app twos map]. rewrite IH. f_equal. unfold lift. cbn [fst snd Nat.add].
    rewrite !Nat2Z.id. reflexivity. }
  apply (bordered_cancel _ _ (map (lift U) g)).
  replace (map (lift (at_ low)) (onward ring)) with (map (lift D) g).
  2:{ rewrite <- ring_sides, (ring_seq (mkV2 0 0) ring). unfold g. rewrite !map_map. reflexivity. }
  refine (bordered_perm _ _ _ _ (bordered_app _ _ _ _ Gb Sb)).
  set (x := map (lift U) g). set (y := map flipped x). set (z := map flipped (map (lift D) g)).
  pieces [x; z; y] [0; 1; 2]%nat [1; 0; 2]%nat.
Qed.
