(** Proofs about buildings. *)
From Coq Require Import Reals Lra Lia Permutation.
From Verif Require Import Base GeoModel RingModel MeshBuildModel MeshBuildSpec MeshBuildProofs QuatModel GenSpec RowSpec RowProofs
  HouseModel HouseSpec.
Local Notation corner := MeshBuildSpec.corner.
Local Open Scope R_scope.

Lemma bind_assoc {A B C} (o : outcome A) (f : A -> outcome B) (g : B -> outcome C) :
  bind (bind o f) g = bind o (fun a => bind (f a) g).
Proof. destruct o; reflexivity. Qed.
Lemma bind_ext {A B} (o : outcome A) (f g : A -> outcome B) : (forall a, f a = g a) -> bind o f = bind o g.
Proof. intros H. destruct o; cbn; auto. Qed.

Section Tree.
  Context {E T : Type} (P : house E T -> Prop).
  Hypothesis Hn : forall e, P (HNode e).
  Hypothesis Hw : forall e, P (HWay e).
  Hypothesis Ha : forall e cs, P (HArea e cs).
  Hypothesis Hr : forall e ms, Forall P ms -> P (HRelation e ms).
  Fixpoint house_tree (h : house E T) : P h :=
    match h with
    | HNode e => Hn e
    | HWay e => Hw e
    | HArea e cs => Ha e cs
    | HRelation e ms =>
        Hr e ms ((fix go ms : Forall P ms := match ms with [] => Forall_nil _ | m :: ms' => Forall_cons _ (house_tree m) (go ms') end) ms)
    end.
End Tree.

Section Visit.
  Context {E : Type} (env : builderEnv R) (w : houseEnv R) (idOf : E -> N) (ignored : E -> bool) (styleOf : E -> houseStyle R).
  Local Notation visit := (visitHouse realNums env w idOf styleOf).
  Local Notation multi := (@multiVisit R E realNums env w).
  Local Notation draw := (drawParts env w styleOf).
  Local Notation parts := (partsOf styleOf).

  Definition multiAll (ms : list (house E R)) (p : polygon R) : outcome (polygon R) :=
    (fix members ms p := match ms with [] => Ok p | m :: ms' => bind (multi m p) (members ms') end) ms p.
  Lemma multi_relation e ms p : multi (HRelation e ms) p = multiAll ms p.
  Proof. reflexivity. Qed.
  Lemma multi_cons m ms p : multiAll (m :: ms) p = bind (multi m p) (multiAll ms).
  Proof. reflexivity. Qed.
  Definition markedAll (l : list (list (point R))) := map (fun cs => (lineOf cs, isClockwise realNums cs, kInside w (lineOf cs))) l.
  Lemma add_app l l' p : addContours realNums env p (l ++ l') = bind (addContours realNums env p l) (fun p => addContours realNums env p l').
  Proof.
    revert p. induction l as [|[[c b] i] l IH]; intros p; [reflexivity|]. cbn [app addContours]. rewrite bind_assoc.
    apply bind_ext. intros p'. apply IH.
  Qed.
  Lemma multi_ok h : onlyAreas h = true -> forall p, multi h p = addContours realNums env p (markedAll (areasIn h)).
  Proof.
    induction h as [e|e|e cs|e ms IH] using house_tree; intros O p; try discriminate O.
    - cbn. unfold toPoints, lineOf. now destruct (addContour _ _ _ _ _ _).
    - rewrite multi_relation. cbn [onlyAreas areasIn] in *. revert O p. induction IH as [|m ms H IH' IH]; intros O p; [reflexivity|].
      cbn [forallb] in O. apply andb_prop in O. destruct O as (O & O'). rewrite multi_cons, (H O). cbn [flat_map].
      unfold markedAll. rewrite map_app. fold (markedAll (areasIn m)). rewrite add_app. apply bind_ext. intros p'. now apply IH.
  Qed.

  Definition visitAll (ms : list (house E R)) (s : site R E) : outcome (site R E * list (E * bmesh R)) :=
    (fix members ms s :=
       match ms with
       | [] => Ok (s, [])
       | m :: ms' => bind (visit m s) (fun '(s, a) => bind (members ms' s) (fun '(s, r) => Ok (s, a ++ r)))
       end) ms s.
  Lemma visit_relation e m ms s : visit (HRelation e (m :: ms)) s =
    let '(s, created) := ensureContext e s in
    if hMulti (styleOf e) && hBuilding (styleOf e)
    then bind (buildWith realNums env w idOf (styleOf e) (multi (HRelation e (m :: ms))) s) (complete created)
    else bind (visitAll (m :: ms) s) (fun '(s, a) => bind (complete created s) (fun '(s, r) => Ok (s, a ++ r))).
  Proof. reflexivity. Qed.
  Lemma visit_cons m ms s : visitAll (m :: ms) s =
    bind (visit m s) (fun '(s, a) => bind (visitAll ms s) (fun '(s, r) => Ok (s, a ++ r))).
  Proof. reflexivity. Qed.

  Lemma draw_app id l l' m : draw id (l ++ l') m = bind (draw id l m) (draw id l').
  Proof.
    revert m. induction l as [|p l IH]; intros m; [reflexivity|]. cbn [app drawParts].
    rewrite bind_assoc. apply bind_ext. intros pl. rewrite bind_assoc. apply bind_ext. intros ops. rewrite bind_assoc.
    apply bind_ext. intros m'. apply IH.
  Qed.
  Lemma draw_one id (p : part E) m : draw id [p] m =
    bind (addContours realNums env emptyPolygon (contoursOf w p)) (fun plan =>
    bind (buildOps realNums env w id (styleOf (pOwner p)) plan) (fun ops => meshRun realNums env ops m)).
  Proof. cbn [drawParts]. apply bind_ext. intros pl. apply bind_ext. intros ops. now destruct (meshRun _ _ _ _). Qed.

  Definition poly0 (sp : option (polygon R)) : option (polygon R) := match sp with None => Some emptyPolygon | _ => sp end.
  Lemma poly0_clean sp : cleanPoly sp -> poly0 sp = Some emptyPolygon.
  Proof. intros [-> | ->]; reflexivity. Qed.
  Lemma area_filled (e : E) cs st m e0 :
    buildWith realNums env w idOf st (fun p => addContour realNums env p (toPoints cs) false None) (mkSite (Some emptyPolygon) (Some (e0, m))) =
    bind (addContours realNums env emptyPolygon (contoursOf w (mkPart e [(cs, false)]))) (fun plan =>
    bind (buildOps realNums env w (idOf e0) st plan) (fun ops =>
    bind (meshRun realNums env ops m) (fun m => Ok (mkSite None (Some (e0, m)))))).
  Proof.
    unfold buildWith. cbn [sPoly sMesh contoursOf pOutlines map addContours fst snd].
    change (lineOf cs) with (toPoints cs). rewrite bind_assoc.
    assert (A : forall i, addContour realNums env emptyPolygon (toPoints cs) false i = addContour realNums env emptyPolygon (toPoints cs) false None).
    { intros i. unfold addContour. now destruct (toPoints cs). }
    rewrite (A (kInside w (toPoints cs))). apply bind_ext. intros p. reflexivity.
  Qed.
  Lemma multi_filled (e : E) ms st m e0 : forallb (@onlyAreas E) ms = true ->
    buildWith realNums env w idOf st (multi (HRelation e ms)) (mkSite (Some emptyPolygon) (Some (e0, m))) =
    bind (addContours realNums env emptyPolygon
            (contoursOf w (mkPart e (map (fun cs => (cs, isClockwise realNums cs)) (flat_map (@areasIn E) ms))))) (fun plan =>
    bind (buildOps realNums env w (idOf e0) st plan) (fun ops =>
    bind (meshRun realNums env ops m) (fun m => Ok (mkSite None (Some (e0, m)))))).
  Proof.
    intros O. unfold buildWith. cbn [sPoly sMesh]. rewrite (multi_ok (HRelation e ms) O).
    unfold contoursOf. cbn [pOutlines areasIn]. rewrite map_map. reflexivity.
  Qed.

  (** Visited while the mesh of [e0] is being filled. *)
  Lemma inner_ok e0 h : sound styleOf h = true -> forall sp, cleanPoly sp ->
    exists sp', cleanPoly sp' /\ forall m, visit h (mkSite sp (Some (e0, m))) =
      bind (draw (idOf e0) (parts h) m) (fun m' => Ok (mkSite sp' (Some (e0, m')), [])).
  Proof.
    induction h as [e|e|e cs|e ms IH] using house_tree; intros S sp C.
    - exists sp. split; [exact C|]. reflexivity.
    - exists sp. split; [exact C|]. reflexivity.
    - cbn [visitHouse partsOf]. destruct (hBuilding (styleOf e)) eqn:B.
      + exists None. split; [now left|]. intros m. cbn [ensureContext sPoly sMesh]. fold (poly0 sp). rewrite (poly0_clean _ C).
        rewrite (area_filled e), draw_one. cbn [pOwner]. rewrite !bind_assoc. apply bind_ext. intros pl.
        rewrite !bind_assoc. apply bind_ext. intros ops. rewrite bind_assoc. apply bind_ext. intros m'. reflexivity.
      + exists sp. split; [exact C|]. reflexivity.
    - destruct ms as [|m0 ms]; [exists sp; split; [exact C|]; reflexivity|].
      cbn [sound] in S. fold (outlinesOf styleOf e) in *. destruct (outlinesOf styleOf e) eqn:O.
      + exists None. split; [now left|]. intros m. rewrite visit_relation. cbn [ensureContext sPoly sMesh]. fold (poly0 sp). rewrite (poly0_clean _ C).
        fold (outlinesOf styleOf e). rewrite O. rewrite (multi_filled _ _ _ _ _ S).
        change (parts (HRelation e (m0 :: ms))) with (if outlinesOf styleOf e then [mkPart e (map (fun cs => (cs, isClockwise realNums cs)) (flat_map (@areasIn E) (m0 :: ms)))] else flat_map parts (m0 :: ms)).
        rewrite O, draw_one. cbn [pOwner]. rewrite !bind_assoc. apply bind_ext. intros pl.
        rewrite !bind_assoc. apply bind_ext. intros ops. rewrite bind_assoc. apply bind_ext. intros m'. reflexivity.
      + assert (X : exists sp', cleanPoly sp' /\ forall m, visitAll (m0 :: ms) (mkSite (Some emptyPolygon) (Some (e0, m))) =
                  bind (draw (idOf e0) (flat_map parts (m0 :: ms)) m) (fun m' => Ok (mkSite sp' (Some (e0, m')), []))).
        { generalize (m0 :: ms) IH S. clear m0 ms IH S C. assert (C : cleanPoly (Some (@emptyPolygon R))) by now right. revert C.
          generalize (Some (@emptyPolygon R)). intros sp1 C ms IH. revert sp1 C. induction IH as [|h l H IH' IH]; intros sp1 C S.
          - exists sp1. split; [exact C|]. reflexivity.
          - cbn [forallb] in S. apply andb_prop in S. destruct S as (S & S'). destruct (H S sp1 C) as (sp2 & C2 & V).
            destruct (IH sp2 C2 S') as (sp3 & C3 & V'). exists sp3. split; [exact C3|]. intros m.
            rewrite visit_cons, V. cbn [flat_map]. rewrite draw_app, !bind_assoc. apply bind_ext. intros m1. cbn [bind]. rewrite V', !bind_assoc.
            apply bind_ext. intros m2. reflexivity. }
        destruct X as (sp' & C' & V). exists sp'. split; [exact C'|]. intros m. rewrite visit_relation. cbn [ensureContext sPoly sMesh].
        fold (poly0 sp). rewrite (poly0_clean _ C). fold (outlinesOf styleOf e). rewrite O, V.
        change (parts (HRelation e (m0 :: ms))) with (if outlinesOf styleOf e then [mkPart e (map (fun cs => (cs, isClockwise realNums cs)) (flat_map (@areasIn E) (m0 :: ms)))] else flat_map parts (m0 :: ms)).
        rewrite O, !bind_assoc. apply bind_ext. intros m'. reflexivity.
  Qed.

  (** Visited with nothing begun. *)
  Lemma outer_ok h s : clean s -> sound styleOf h = true -> hasMesh styleOf h = true ->
    exists sp', cleanPoly sp' /\ visit h s =
      bind (draw (idOf (ownerOf h)) (parts h) emptyMesh) (fun m => Ok (mkSite sp' None, [(ownerOf h, m)])).
  Proof.
    intros (M & C) S H. destruct s as [sp sm]. cbn [sPoly sMesh] in *. subst sm.
    assert (C0 : cleanPoly (Some (@emptyPolygon R))) by now right.
    destruct h as [e|e|e cs|e ms]; try discriminate H.
    - cbn [hasMesh] in H. destruct (inner_ok e (HArea e cs) S (Some emptyPolygon) C0) as (sp' & C' & V). exists sp'. split; [exact C'|].
      cbn [visitHouse ownerOf] in *. rewrite H in *. cbn [ensureContext sPoly sMesh] in *. fold (poly0 sp). rewrite (poly0_clean _ C).
      specialize (V emptyMesh).
      set (f := buildWith _ _ _ _ _ _ _) in *.
      assert (V1 : bind f (fun s => Ok (s, @nil (E * bmesh R))) = bind f (complete false)) by (apply bind_ext; reflexivity).
      rewrite <- V1 in V. clear V1.
      transitivity (bind (bind f (fun s => Ok (s, @nil (E * bmesh R)))) (fun '(s, _) => complete true s)).
      { rewrite bind_assoc. apply bind_ext. reflexivity. }
      rewrite V, bind_assoc. apply bind_ext. intros m. reflexivity.
    - destruct ms as [|m0 ms]; [discriminate H|].
      destruct (inner_ok e (HRelation e (m0 :: ms)) S (Some emptyPolygon) C0) as (sp' & C' & V). exists sp'. split; [exact C'|].
      specialize (V emptyMesh). rewrite visit_relation in *. cbn [ownerOf ensureContext sPoly sMesh] in *. fold (poly0 sp). rewrite (poly0_clean _ C).
      destruct (hMulti (styleOf e) && hBuilding (styleOf e)).
      + set (f := buildWith _ _ _ _ _ _ _) in *.
        assert (V1 : bind f (fun s => Ok (s, @nil (E * bmesh R))) = bind f (complete false)) by (apply bind_ext; reflexivity).
        rewrite <- V1 in V. clear V1.
        transitivity (bind (bind f (fun s => Ok (s, @nil (E * bmesh R)))) (fun '(s, _) => complete true s)).
        { rewrite bind_assoc. apply bind_ext. reflexivity. }
        rewrite V, bind_assoc. apply bind_ext. intros m. reflexivity.
      + set (f := visitAll _ _) in *.
        assert (V1 : bind f (fun '(s, a) => Ok (s, a)) = bind f (fun '(s, a) => bind (complete false s) (fun '(s, r) => Ok (s, a ++ r)))).
        { apply bind_ext. intros [s a]. cbn [complete bind]. now rewrite app_nil_r. }
        rewrite <- V1 in V. clear V1.
        transitivity (bind (bind f (fun '(s, a) => Ok (s, a))) (fun '(s, a) => bind (complete true s) (fun '(s, r) => Ok (s, a ++ r)))).
        { rewrite bind_assoc. apply bind_ext. intros [s a]. reflexivity. }
        rewrite V, bind_assoc. apply bind_ext. intros m. reflexivity.
  Qed.
  Lemma no_mesh h s : hasMesh styleOf h = false -> visitTop realNums env w idOf ignored styleOf h s = Ok (s, []).
  Proof.
    destruct h as [e|e|e cs|e [|m ms]]; cbn; intros H; try reflexivity; try discriminate H.
    - rewrite H. now destruct (ignored e).
    - now destruct (ignored e).
  Qed.
End Visit.

(** * Lists *)
Lemma over_all {A B} (f : A -> outcome B) g l : (forall a, In a l -> f a = Ok (g a)) -> overAll f l = Ok (map g l).
Proof.
  induction l as [|a l IH]; intros H; [reflexivity|]. cbn [overAll map]. rewrite (H a) by now left. cbn [bind].
  rewrite IH; [reflexivity|]. intros b I. apply H. now right.
Qed.
Lemma over_app {A B} (f : A -> outcome B) l l' : overAll f (l ++ l') = bind (overAll f l) (fun r => bind (overAll f l') (fun r' => Ok (r ++ r'))).
Proof.
  induction l as [|a l IH]; cbn [app overAll].
  - cbn [bind]. now destruct (overAll f l').
  - rewrite IH, !bind_assoc. apply bind_ext. intros b. rewrite !bind_assoc. apply bind_ext. intros r. cbn [bind]. rewrite bind_assoc.
    apply bind_ext. reflexivity.
Qed.
Lemma combine_seq {A} (d : A) b : forall a, (length b <= length a)%nat -> combine a b = map (fun j => (nth j a d, nth j b d)) (seq 0 (length b)).
Proof.
  induction b as [|y b IH]; intros a L; [destruct a; reflexivity|]. destruct a as [|x a]; [cbn in L; lia|].
  cbn [combine length seq map nth]. f_equal. rewrite IH by (cbn in L; lia). rewrite <- seq_shift, map_map. reflexivity.
Qed.
Lemma nth_seq {A} (d : A) r : map (fun j => nth j r d) (seq 0 (length r)) = r.
Proof. induction r as [|x r IH]; [reflexivity|]. cbn [length seq map nth]. f_equal. rewrite <- IH at 2. rewrite <- seq_shift, map_map. reflexivity. Qed.
Lemma last_nth {A} (d x : A) r : r <> [] -> last r x = nth (length r - 1) r d.
Proof.
  induction r as [|a r IH]; intros H; [contradiction|]. destruct r as [|b r]; [reflexivity|].
  change (last (a :: b :: r) x) with (last (b :: r) x). rewrite IH by discriminate. cbn [length nth].
  replace (S (S (length r)) - 1)%nat with (S (S (length r) - 1)) by lia. reflexivity.
Qed.
Lemma around_seq {A} (d : A) r :
  around r = map (fun j => (nth (if (j =? 0)%nat then length r - 1 else j - 1)%nat r d, nth j r d)) (seq 0 (length r)).
Proof.
  destruct r as [|x r]; [reflexivity|]. unfold around. rewrite (combine_seq d) by (cbn; lia). apply map_ext_in. intros j I.
  apply in_seq in I. f_equal. destruct j as [|j].
  - cbn [Nat.eqb]. rewrite <- (last_nth d x) by discriminate. reflexivity.
  - cbn [Nat.eqb]. replace (S j - 1)%nat with j by lia. reflexivity.
Qed.
Lemma next_seq {A} (d x : A) r :
  combine (x :: r) (r ++ [x]) =
  map (fun j => (nth j (x :: r) d, nth (if (j =? length r)%nat then 0 else j + 1)%nat (x :: r) d)) (seq 0 (length (x :: r))).
Proof.
  rewrite (combine_seq d) by (rewrite app_length; cbn; lia). rewrite app_length. cbn [length].
  replace (length r + 1)%nat with (S (length r)) by lia. apply map_ext_in. intros j I. apply in_seq in I. f_equal.
  destruct (Nat.eqb_spec j (length r)) as [->|N].
  - rewrite app_nth2, Nat.sub_diag by lia. reflexivity.
  - rewrite app_nth1 by lia. replace (j + 1)%nat with (S j) by lia. reflexivity.
Qed.
Lemma coords_app (a b : list (vec2 R)) : coordinates (a ++ b) = coordinates a ++ coordinates b.
Proof. apply flat_map_app. Qed.
Lemma coords_at (l : list (vec2 R)) : forall j v, nth_error l j = Some v ->
  nth_error (coordinates l) (2 * j) = Some (v2x v) /\ nth_error (coordinates l) (S (2 * j)) = Some (v2y v).
Proof.
  induction l as [|u l IH]; intros j v H; [now destruct j|]. destruct j as [|j].
  - injection H as ->. split; reflexivity.
  - replace (2 * S j)%nat with (S (S (2 * j))) by lia. cbn [coordinates flat_map app nth_error] in *. apply IH, H.
Qed.
Lemma twos_coords (l : list (vec2 R)) : twos (coordinates l) = map (fun v => (v2x v, v2y v)) l.
Proof. induction l as [|v l IH]; [reflexivity|]. cbn [coordinates flat_map app twos map]. f_equal. exact IH. Qed.
Lemma point_at (p : polygon R) pre r post j d : ppoints p = pre ++ coordinates r ++ post -> (j < length r)%nat ->
  pointAt p (length pre + 2 * j) = Ok (nth j r d).
Proof.
  intros P L. destruct (coords_at r j (nth j r d) (nth_error_nth' r d L)) as (X & Y). unfold pointAt. rewrite P.
  rewrite (nth_error_app2 pre _ (n := length pre + 2 * j)%nat) by lia. rewrite (nth_error_app2 pre _ (n := S (length pre + 2 * j))%nat) by lia.
  replace (length pre + 2 * j - length pre)%nat with (2 * j)%nat by lia.
  replace (S (length pre + 2 * j) - length pre)%nat with (S (2 * j)) by lia.
  assert (N : (S (2 * j) < length (coordinates r))%nat) by (apply nth_error_Some; rewrite Y; discriminate).
  rewrite (nth_error_app1 _ post (n := 2 * j)%nat), (nth_error_app1 _ post (n := S (2 * j))) by lia. rewrite X, Y. now destruct (nth j r d).
Qed.

(** * The plan *)
Section Plan.
  Context {E : Type} (env : builderEnv R) (w : houseEnv R).
  Definition ringsAt (l : list (list (point R) * bool)) :=
    map (fun o : list (point R) * bool => (openContour (sameVec realNums env) (lineOf (fst o)), snd o)) (List.filter (isKept w) l).
  Definition holesAt (l : list (list (point R) * bool)) : list R :=
    flat_map (fun o : list (point R) * bool => match kInside w (lineOf (fst o)) with
                       | Some q => if snd o then [v2x q; v2y q] else [] | None => [] end) l.
  Lemma rings_of (p : part E) : ringsOf env w p = ringsAt (pOutlines p).
  Proof. reflexivity. Qed.
  Lemma coords_len (l : list (vec2 R)) : length (coordinates l) = (2 * length l)%nat.
  Proof. rewrite coordinates_length. lia. Qed.

  Lemma plan_from l : forall (p : polygon R) c, Forall (fun o => fst o <> []) l ->
    length (ppoints p) = (2 * c)%nat -> length (psegs p) = (2 * c)%nat ->
    (Z.of_nat (c + length (concat (map fst l))) < 2 ^ 31)%Z ->
    let rings := ringsAt l in
    addContours realNums env p (map (fun o => (lineOf (fst o), snd o, kInside w (lineOf (fst o)))) l) =
    Ok (mkPoly (ppoints p ++ coordinates (concat (map fst rings))) (pholes p ++ holesAt l)
          (psegs p ++ layout c (map fst rings))
          (pouters p ++ rangesOf (2 * c) false rings) (pinners p ++ rangesOf (2 * c) true rings)).
  Proof.
    induction l as [|[cs hole] l IH]; intros p c F Hp Hs B rings.
    - subst rings. cbn. rewrite !app_nil_r. now destruct p.
    - inversion_clear F as [|? ? F0 F']. cbn [fst] in F0. cbn [map concat fst] in B. rewrite app_length in B.
      cbn [map addContours fst snd]. subst rings. unfold ringsAt, holesAt. cbn [List.filter flat_map fst snd].
      destruct (isKept w (cs, hole)) eqn:K.
      + rewrite (contour_ok realNums env p (lineOf cs) hole (kInside w (lineOf cs)) c).
        2:{ intros H. apply map_eq_nil in H. contradiction. }
        2:{ intros -> H. unfold isKept in K. cbn [fst snd] in K. rewrite H in K. discriminate. }
        2,3: assumption.
        2:{ unfold lineOf. rewrite map_length. lia. }
        cbn [bind]. set (r := openContour _ _).
        assert (Lr : (length r <= length cs)%nat).
        { unfold r. etransitivity; [apply open_length|]. unfold lineOf. now rewrite map_length. }
        rewrite (IH _ (c + length r)%nat); cbn [ppoints psegs pholes pouters pinners].
        * cbn [map concat fst rangesOf layout]. fold r. f_equal. rewrite coords_app, <- !app_assoc. fold (ringsAt l) (holesAt l).
          replace (2 * (c + length r))%nat with (2 * c + 2 * length r)%nat by lia.
          f_equal.
          -- f_equal. now destruct hole.
          -- f_equal. now destruct hole.
        * exact F'.
        * rewrite app_length, coords_len. lia.
        * rewrite app_length, ringSegments_length. lia.
        * lia.
      + unfold isKept in K. cbn [fst snd] in K. destruct (kInside w (lineOf cs)) eqn:I; [discriminate|].
        destruct hole; [|discriminate]. unfold addContour at 1. destruct (lineOf cs) as [|v vs] eqn:LC.
        { apply map_eq_nil in LC. contradiction. }
        cbn [bind]. rewrite (IH p c F' Hp Hs) by lia. reflexivity.
  Qed.
  Lemma plan_ok (p : part E) : countable p -> addContours realNums env emptyPolygon (contoursOf w p) = Ok (planOf env w p).
  Proof. intros (F & B). unfold contoursOf. rewrite (plan_from (pOutlines p) emptyPolygon 0 F) by (reflexivity || exact B). reflexivity. Qed.

  Lemma indices_len from (r : list (vec2 R)) : indicesOf (from, from + 2 * length r)%nat = map (fun j => from + 2 * j)%nat (seq 0 (length r)).
  Proof.
    unfold indicesOf. cbn [fst snd]. f_equal. f_equal. replace (from + 2 * length r - from)%nat with (length r * 2)%nat by lia.
    now apply Nat.div_mul.
  Qed.

  (** A loop over the ranges of a kind. *)
  Lemma over_ranges {B} (f : nat * nat -> outcome B) (g : list (vec2 R) -> B) (p : polygon R) (hole : bool) :
    (forall pre r post, ppoints p = pre ++ coordinates r ++ post -> f (length pre, length pre + 2 * length r)%nat = Ok (g r)) ->
    forall rings pre post, ppoints p = pre ++ coordinates (concat (map fst rings)) ++ post ->
    overAll f (rangesOf (length pre) hole rings) = Ok (map g (map fst (List.filter (fun r : list (vec2 R) * bool => Bool.eqb (snd r) hole) rings))).
  Proof.
    intros H. induction rings as [|[r b] rings IH]; intros pre post P; [reflexivity|].
    cbn [rangesOf map concat fst] in *. rewrite coords_app, <- app_assoc in P.
    assert (N : overAll f (rangesOf (length pre + 2 * length r) hole rings) = Ok (map g (map fst (List.filter (fun r : list (vec2 R) * bool => Bool.eqb (snd r) hole) rings)))).
    { replace (length pre + 2 * length r)%nat with (length (pre ++ coordinates r)) by (rewrite app_length, coords_len; lia).
      apply (IH _ post). now rewrite <- app_assoc. }
    cbn [List.filter snd]. rewrite over_app, N. destruct (Bool.eqb b hole).
    - cbn [overAll]. rewrite (H pre r _ P). reflexivity.
    - reflexivity.
  Qed.
  Lemma over_plan {B} (f : nat * nat -> outcome B) (g : list (vec2 R) -> B) (p : part E) (hole : bool) :
    (forall pre r post, ppoints (planOf env w p) = pre ++ coordinates r ++ post -> f (length pre, length pre + 2 * length r)%nat = Ok (g r)) ->
    overAll f (if hole then pinners (planOf env w p) else pouters (planOf env w p)) = Ok (map g (ringsOnly env w hole p)).
  Proof.
    intros H. pose proof (over_ranges f g (planOf env w p) hole H (ringsOf env w p) [] []) as O. cbn [length app] in O.
    rewrite app_nil_r in O. specialize (O eq_refl). destruct hole; exact O.
  Qed.
End Plan.

(** * Drawing *)
Section Draw.
  Context {E : Type} (env : builderEnv R) (ele scaled : R -> R -> R) (inside : list (vec2 R) -> option (vec2 R)).
  Context (styleOf : E -> houseStyle R).
  Local Notation w := (realHouse ele scaled inside).
  Hypothesis Quiet : forall x y, ePerlin env x y 0 = 0.
  Hypothesis Eps : 0 < eEps env.
  Local Notation drawn := (drawnBy env).
  Local Notation verts := (vertsOf env).

  Lemma drawn_app a b : drawn (a ++ b) = drawn a ++ drawn b.
  Proof. apply flat_map_app. Qed.
  Lemma verts_app a b : verts (a ++ b) = (verts a + verts b)%nat.
  Proof. unfold vertsOf. now rewrite flat_map_app, app_length. Qed.
  Lemma drawn_texture look : drawn [OpTexture look] = [] /\ verts [OpTexture look] = 0%nat.
  Proof. split; reflexivity. Qed.

  (** Walls. *)
  Lemma seen_wall look low h a b : eLowest env < low ->
    flat_map seen (newFaces realNums env (OpPlane2 a b (houseGeo realNums low h false) look)) = upright4 (at_ low a) (at_ low b) h.
  Proof.
    intros L. assert (G : forall v, groundPoint realNums env (houseGeo realNums low h false) v = at_ low v).
    { intros v. unfold groundPoint, ground, houseGeo. cbn [gele gnoise]. rewrite (rnlt_true _ _ L). change (nzero realNums) with 0. rewrite Quiet.
      unfold at_. f_equal. cbn. ring. }
    cbn [newFaces]. rewrite !G. reflexivity.
  Qed.
  Lemma facade_range look p pre r post h low : ppoints p = pre ++ coordinates r ++ post ->
    facadeRange realNums look p h low (length pre, length pre + 2 * length r)%nat =
    Ok (map (fun '(a, b) => OpPlane2 a b (houseGeo realNums low h false) look) (rev (around r))).
  Proof.
    intros P. unfold facadeRange. rewrite indices_len. rewrite (around_seq (mkV2 0 0)). rewrite <- !map_rev, map_map.
    cbn [fst snd].
    set (g := fun i => OpPlane2 (nth (if (i =? length pre)%nat then length r - 1 else (i - length pre) / 2 - 1)%nat r (mkV2 0 0))
                         (nth ((i - length pre) / 2) r (mkV2 0 0)) (houseGeo realNums low h false) look).
    rewrite (over_all _ g).
    - f_equal. rewrite map_map. apply map_ext. intros j. unfold g.
      replace (length pre + 2 * j - length pre)%nat with (j * 2)%nat by lia. rewrite Nat.div_mul by discriminate.
      destruct (Nat.eqb_spec (length pre + 2 * j) (length pre)), (Nat.eqb_spec j 0); reflexivity || lia.
    - intros i I. apply in_map_iff in I. destruct I as (j & <- & I). apply in_rev in I. apply in_seq in I.
      rewrite (point_at p pre r post j (mkV2 0 0) P) by lia. cbn [bind]. unfold g.
      replace (length pre + 2 * j - length pre)%nat with (j * 2)%nat by lia. rewrite Nat.div_mul by discriminate.
      destruct (Nat.eqb_spec (length pre + 2 * j) (length pre)) as [Q|Q].
      + replace (length pre + 2 * length r - 2)%nat with (length pre + 2 * (length r - 1))%nat by lia.
        rewrite (point_at p pre r post _ (mkV2 0 0) P) by lia. reflexivity.
      + replace (length pre + 2 * j - 2)%nat with (length pre + 2 * (j - 1))%nat by lia.
        rewrite (point_at p pre r post _ (mkV2 0 0) P) by lia. reflexivity.
  Qed.
  Definition wallOps look low h (r : list (vec2 R)) : list meshOp :=
    map (fun '(a, b) => OpPlane2 a b (houseGeo realNums low h false) look) (rev (around r)).
  Lemma around_length {A} (r : list A) : length (around r) = length r.
  Proof. destruct r as [|x r]; [reflexivity|]. unfold around. rewrite combine_length. cbn [length]. lia. Qed.
  Lemma drawn_walls look low top h rings : eLowest env < low -> h = top - low ->
    drawn (concat (map (wallOps look low h) rings)) = flat_map (walls low top) rings /\
    verts (concat (map (wallOps look low h) rings)) = (6 * sideCount rings)%nat /\
    Forall (goodOp realNums env) (concat (map (wallOps look low h) rings)).
  Proof.
    intros L ->. induction rings as [|r rings (D & V & G)]; [repeat split; constructor|]. cbn [map concat flat_map]. split; [|split].
    - rewrite drawn_app, D. f_equal. unfold drawnBy, wallOps, walls. rewrite flat_map_of_map. apply flat_map_ext. intros [a b]. now apply seen_wall.
    - rewrite verts_app, V. unfold sideCount. cbn [concat]. rewrite app_length. unfold vertsOf, wallOps.
      rewrite (flat_map_const_length _ 6%nat); [rewrite map_length, rev_length, around_length; lia|].
      intros o I. apply in_map_iff in I. destruct I as ([a b] & <- & _). reflexivity.
    - apply Forall_app. split; [|exact G]. apply Forall_map, Forall_forall. intros [a b] _. exact I.
  Qed.
  Lemma facade_ok look (p : part E) low top h : eLowest env < low -> h = top - low ->
    let rings := ringsOnly env w false p ++ ringsOnly env w true p in
    exists ops, flatFacade realNums look (planOf env w p) h low = Ok ops /\ Forall (goodOp realNums env) ops /\
      drawn ops = flat_map (walls low top) rings /\ verts ops = (6 * sideCount rings)%nat.
  Proof.
    intros L Hh rings. unfold flatFacade. rewrite over_app.
    pose proof (over_plan env w (facadeRange realNums look (planOf env w p) h low) (wallOps look low h) p) as O.
    pose proof (O false (fun pre r post P => facade_range look _ pre r post h low P)) as O1.
    pose proof (O true (fun pre r post P => facade_range look _ pre r post h low P)) as O2. cbv beta iota in O1, O2.
    rewrite O1, O2. cbn [bind]. eexists. split; [reflexivity|]. rewrite <- map_app. fold rings.
    destruct (drawn_walls look low top h rings L Hh) as (D & V & G). auto.
  Qed.

  (** Pyramids. *)
  Lemma sum_fold (l : list (vec2 R)) : forall a b,
    fold_left (fun s q => mkV2 (nadd realNums (v2x s) (v2x q)) (nadd realNums (v2y s) (v2y q))) l (mkV2 a b) =
    mkV2 (a + fold_right Rplus 0 (map v2x l)) (b + fold_right Rplus 0 (map v2y l)).
  Proof.
    induction l as [|q l IH]; intros a b; cbn [fold_left fold_right map]; [f_equal; ring|]. rewrite IH. cbn. f_equal; ring.
  Qed.
  Lemma centroid_ok p pre r post : ppoints p = pre ++ coordinates r ++ post ->
    centroidAt realNums w p (length pre, length pre + 2 * length r)%nat = Ok (middle r).
  Proof.
    intros P. unfold centroidAt. rewrite indices_len.
    rewrite (over_all _ (fun i => nth ((i - length pre) / 2) r (mkV2 0 0))).
    - cbn [bind fst snd]. rewrite map_map. replace (map _ (seq 0 (length r))) with r.
      + change (nzero realNums) with 0. rewrite sum_fold. cbn [v2x v2y]. f_equal. unfold middle.
        replace (length pre + 2 * length r - length pre)%nat with (2 * length r)%nat by lia.
        cbn [realHouse kCount kTwo realNums ndiv]. rewrite mult_INR. change (INR 2) with 2.
        f_equal; f_equal; try ring; field.
      + rewrite <- (nth_seq (mkV2 0 0) r) at 1. apply map_ext. intros j.
        replace (length pre + 2 * j - length pre)%nat with (j * 2)%nat by lia. now rewrite Nat.div_mul.
    - intros i I. apply in_map_iff in I. destruct I as (j & <- & I). apply in_seq in I.
      rewrite (point_at p pre r post j (mkV2 0 0) P) by lia.
      replace (length pre + 2 * j - length pre)%nat with (j * 2)%nat by lia. now rewrite Nat.div_mul.
  Qed.
  Definition tentOps look low h (r : list (vec2 R)) : list meshOp :=
    match r with
    | [] => []
    | x :: r' =>
        map (fun '(a, b) =>
          OpTriangle (at_ low a) (at_ (low + h) (middle r)) (at_ low b) (mkV2 0 0) (mkV2 (scaled (lscale look) h) 0)
            (mkV2 (scaled (lscale look) h) (scaled (lscale look) h)) (houseGeo realNums (eLowest env) 0 false) look)
          (combine r (r' ++ [x]))
    end.
  Lemma pyramid_range look p pre r post h low : ppoints p = pre ++ coordinates r ++ post ->
    pyramidRange realNums env w look p h low (length pre, length pre + 2 * length r)%nat = Ok (tentOps look low h r).
  Proof.
    intros P. unfold pyramidRange. rewrite (centroid_ok p pre r post P). cbn [bind]. rewrite indices_len.
    destruct r as [|x r']; [reflexivity|]. unfold tentOps. rewrite (next_seq (mkV2 0 0)). rewrite map_map. set (r := x :: r') in *.
    set (op := fun a b => OpTriangle (at_ low a) (at_ (low + h) (middle r)) (at_ low b) (mkV2 0 0) (mkV2 (scaled (lscale look) h) 0)
            (mkV2 (scaled (lscale look) h) (scaled (lscale look) h)) (houseGeo realNums (eLowest env) 0 false) look).
    rewrite (over_all _ (fun i => let j := ((i - length pre) / 2)%nat in
               op (nth j r (mkV2 0 0)) (nth (if (j =? length r')%nat then 0 else j + 1)%nat r (mkV2 0 0)))).
    - f_equal. rewrite map_map. apply map_ext. intros j. cbv zeta.
      replace (length pre + 2 * j - length pre)%nat with (j * 2)%nat by lia. rewrite Nat.div_mul by discriminate. reflexivity.
    - intros i I. apply in_map_iff in I. destruct I as (j & <- & I). apply in_seq in I. cbv zeta. cbn [fst snd].
      assert (Lr : length r = S (length r')) by reflexivity.
      rewrite (point_at p pre r post j (mkV2 0 0) P) by lia. cbn [bind].
      replace (length pre + 2 * j - length pre)%nat with (j * 2)%nat by lia. rewrite Nat.div_mul by discriminate.
      destruct (Nat.eqb_spec (length pre + 2 * j) (length pre + 2 * length r - 2)) as [Q|Q], (Nat.eqb_spec j (length r')) as [Q'|Q']; try lia.
      + replace (length pre) with (length pre + 2 * 0)%nat at 1 by lia. rewrite (point_at p pre r post 0 (mkV2 0 0) P) by lia. reflexivity.
      + replace (length pre + 2 * j + 2)%nat with (length pre + 2 * (j + 1))%nat by lia.
        rewrite (point_at p pre r post (j + 1) (mkV2 0 0) P) by lia. reflexivity.
  Qed.
  Lemma drawn_tents look low h rings :
    drawn (concat (map (tentOps look low h) rings)) = flat_map (tent low (low + h)) rings /\
    verts (concat (map (tentOps look low h) rings)) = (3 * sideCount rings)%nat /\
    Forall (goodOp realNums env) (concat (map (tentOps look low h) rings)).
  Proof.
    induction rings as [|r rings (D & V & G)]; [repeat split; constructor|]. cbn [map concat flat_map]. split; [|split].
    - rewrite drawn_app, D. f_equal. destruct r as [|x r']; [reflexivity|]. unfold tentOps, tent, drawnBy. rewrite flat_map_of_map.
      induction (combine (x :: r') (r' ++ [x])) as [|[a b] l IH]; [reflexivity|]. cbn [flat_map map]. rewrite IH. reflexivity.
    - rewrite verts_app, V. unfold sideCount. cbn [concat]. rewrite app_length. destruct r as [|x r']; [reflexivity|]. unfold tentOps, vertsOf.
      rewrite (flat_map_const_length _ 3%nat); [rewrite map_length, combine_length, app_length; cbn [length]; lia|].
      intros o I. apply in_map_iff in I. destruct I as ([a b] & <- & _). reflexivity.
    - apply Forall_app. split; [|exact G]. destruct r as [|x r']; [constructor|]. apply Forall_map, Forall_forall. intros [a b] _. exact I.
  Qed.
  Lemma pyramid_ok look (p : part E) h low :
    exists ops, pyramidalRoof realNums env w look (planOf env w p) h low = Ok ops /\ Forall (goodOp realNums env) ops /\
      drawn ops = flat_map (tent low (low + h)) (ringsOnly env w false p) /\ verts ops = (3 * sideCount (ringsOnly env w false p))%nat.
  Proof.
    unfold pyramidalRoof.
    pose proof (over_plan env w (pyramidRange realNums env w look (planOf env w p) h low) (tentOps look low h) p false
                  (fun pre r post P => pyramid_range look _ pre r post h low P)) as O. cbv beta iota in O. rewrite O. cbn [bind].
    eexists. split; [reflexivity|]. destruct (drawn_tents look low h (ringsOnly env w false p)) as (D & V & G). split; [|split].
    - apply Forall_app. split; [exact G|]. repeat constructor.
    - rewrite drawn_app, D. apply app_nil_r.
    - rewrite verts_app, V. cbn. lia.
  Qed.

  (** Flat surfaces. *)
  Lemma tri_corners y look flip (io : triio R) : eLowest env < y ->
    let geo := houseGeo realNums y 0 flip in
    map spot (triCorners realNums env geo look io) = map (fun q : R * R => at_ y (let '(x, z) := q in mkV2 x z)) (tpoints io).
  Proof.
    intros L geo. unfold triCorners, numbered. rewrite map_map.
    assert (H : forall ps i, map (fun x : nat * (R * R) => spot (let '(i, p) := x in triCorner realNums env geo look io i p)) (combine (seq i (length ps)) ps) =
            map (fun q : R * R => at_ y (let '(x, z) := q in mkV2 x z)) ps).
    { induction ps as [|[x z] ps IH]; intros i; [reflexivity|]. cbn [length seq combine map]. rewrite IH. f_equal.
      unfold triCorner, geo, spot, ground, houseGeo, at_. cbn [cpos gheight gele gnoise v2x v2y]. rewrite (rnlt_true _ _ L).
      change (nzero realNums) with 0. rewrite Quiet. f_equal. destruct (match tmarkers io with None => _ | Some l => _ end); cbn; ring. }
    apply H.
  Qed.
  Lemma surface_ok (p : polygon R) look y flip : eLowest env < y -> goodTri (eTriangulate env p) ->
    let io := eTriangulate env p in
    let ops := flatRoof realNums look p y flip in
    Forall (goodOp realNums env) ops /\ drawn ops = (if flip then fromBelow io y else fromAbove io y) /\ verts ops = length (tpoints io).
  Proof.
    intros L G io ops.
    assert (Tr : triangulation realNums env p (houseGeo realNums y 0 flip) = io).
    { unfold triangulation, houseGeo. cbn [garea]. rewrite (rnlt_true (nabs realNums (nzero realNums)) (eEps env)); [reflexivity|].
      cbn. rewrite Rabs_R0. exact Eps. }
    assert (Cs : newCorners realNums env (OpPolygon p (houseGeo realNums y 0 flip) look) = triCorners realNums env (houseGeo realNums y 0 flip) look io).
    { cbn [newCorners]. now rewrite Tr. }
    unfold ops, flatRoof. change (nzero realNums) with 0. split; [|split].
    - apply Forall_cons; [|constructor]. cbn [goodOp]. rewrite Tr. exact G.
    - unfold drawnBy. cbn [flat_map]. rewrite app_nil_r. cbn [newFaces]. rewrite Cs, Tr.
      pose proof (tri_corners y look flip io L) as Sp. cbv zeta in Sp. set (cs := triCorners _ _ _ _ _) in *.
      assert (Lc : length cs = length (tpoints io)) by (rewrite <- (map_length spot), Sp; apply map_length).
      destruct G as (_ & F). fold io in F.
      assert (A : forall i, (0 <= i < Z.of_nat (length (tpoints io)))%Z -> exists c, cornerAt cs i = Some c /\ spot c = at_ y (corner2 io i)).
      { intros i I. unfold cornerAt. destruct (Z.ltb_spec i 0); [lia|].
        destruct (nth_error cs (Z.to_nat i)) as [c|] eqn:N; [|apply nth_error_None in N; lia].
        exists c. split; [reflexivity|]. pose proof (map_nth_error spot _ _ N) as M. rewrite Sp in M.
        rewrite nth_error_map in M. unfold corner2. destruct (nth_error (tpoints io) (Z.to_nat i)) as [[x z]|] eqn:Nq; [|discriminate].
        rewrite (nth_error_nth _ _ (0, 0) Nq). injection M as M. now symmetry. }
      unfold fromAbove, fromBelow, triples. cbn [gflip houseGeo]. rewrite flat_map_of_map, !map_map.
      induction F as [|r rows (Len & F0) F IH]; [destruct flip; reflexivity|].
      assert (Get : forall j, (j < 3)%nat -> exists c, cornerAt cs (nth j r 0%Z) = Some c /\ spot c = at_ y (corner2 io (nth j r 0%Z))).
      { intros j Lj. apply A. rewrite Forall_forall in F0. apply F0. apply nth_In. lia. }
      destruct (Get 0%nat) as (c0 & E0 & S0); [lia|]. destruct (Get 1%nat) as (c1 & E1 & S1); [lia|]. destruct (Get 2%nat) as (c2 & E2 & S2); [lia|].
      cbn [flat_map map]. rewrite IH. destruct flip; cbn [seen]; rewrite E0, E1, E2; cbn [seen app]; rewrite S0, S1, S2; reflexivity.
    - unfold vertsOf. cbn [flat_map]. rewrite app_nil_r, Cs. rewrite <- (map_length spot), tri_corners by exact L. apply map_length.
  Qed.

  Lemma roof_ok id (p : part E) low top h ts k : top = low + h -> roofDraws env w styleOf id p top ts k ->
    exists ops, attachRoof realNums env w id (styleOf (pOwner p)) (planOf env w p) low h = Ok ops /\
      Forall (goodOp realNums env) ops /\ drawn ops = ts /\ verts ops = k.
  Proof.
    intros -> D. unfold attachRoof, roofDraws in *. change (nadd realNums low h) with (low + h).
    set (look := noNoise realNums (hRoofLook (styleOf (pOwner p)) id)) in *.
    assert (Tail : forall ops, Forall (goodOp realNums env) ops -> drawn ops = ts -> verts ops = k ->
              exists ops', bind (Ok ops) (fun ops => Ok (ops ++ [OpTexture look])) = Ok ops' /\
                Forall (goodOp realNums env) ops' /\ drawn ops' = ts /\ verts ops' = k).
    { intros ops G <- <-. cbn [bind]. eexists. split; [reflexivity|]. split; [|split].
      - apply Forall_app. split; [exact G|]. repeat constructor.
      - rewrite drawn_app. apply app_nil_r.
      - rewrite verts_app. cbn. lia. }
    destruct (hRoof (styleOf (pOwner p))) as [[| | |f]|]; [| | | |contradiction].
    - destruct D as (-> & ->). apply Tail; [constructor|reflexivity..].
    - destruct D as (G & L & -> & ->). destruct (surface_ok (planOf env w p) look (low + h) false L G) as (A & B & C). now apply Tail.
    - destruct D as (-> & ->). destruct (pyramid_ok look p (hRoofHeight (styleOf (pOwner p))) (low + h)) as (ops & O & A & B & C).
      rewrite O. now apply Tail.
    - destruct D as (ops & O & A & -> & ->). rewrite O. now apply Tail.
  Qed.
  Lemma floor_ok id (p : part E) low ts k : floorDraws env w styleOf p low ts k ->
    let st := styleOf (pOwner p) in
    let ops := if nlt realNums (nzero realNums) (hMin st) then attachFloors realNums id st (planOf env w p) low else [] in
    Forall (goodOp realNums env) ops /\ drawn ops = ts /\ verts ops = k.
  Proof.
    intros D st ops. unfold floorDraws in D. fold st in D. subst ops. change (nzero realNums) with 0.
    destruct (Rlt_dec 0 (hMin st)) as [P|P].
    - rewrite (rnlt_true _ _ P). destruct D as (G & L & -> & ->). unfold attachFloors.
      destruct (surface_ok (planOf env w p) (noNoise realNums (hRoofLook st id)) low true L G) as (A & B & C). split; [|split].
      + apply Forall_app. split; [exact A|]. repeat constructor.
      + rewrite drawn_app, B. apply app_nil_r.
      + rewrite verts_app, C. cbn. lia.
    - rewrite rnlt_false by lra. destruct D as (-> & ->). split; [constructor|]. split; reflexivity.
  Qed.
  Lemma facade_attached id (p : part E) low top h ts k : h = top - low -> facadeDraws env w styleOf id p low top ts k ->
    exists ops, attachFacade realNums id (styleOf (pOwner p)) (planOf env w p) low h = Ok ops /\
      Forall (goodOp realNums env) ops /\ drawn ops = ts /\ verts ops = k.
  Proof.
    intros Hh D. unfold attachFacade, facadeDraws in *. set (look := noNoise realNums (hFacadeLook (styleOf (pOwner p)) id)) in *.
    assert (Tail : forall ops, Forall (goodOp realNums env) ops -> drawn ops = ts -> verts ops = k ->
              exists ops', bind (Ok ops) (fun ops => Ok (ops ++ [OpTexture look])) = Ok ops' /\
                Forall (goodOp realNums env) ops' /\ drawn ops' = ts /\ verts ops' = k).
    { intros ops G <- <-. cbn [bind]. eexists. split; [reflexivity|]. split; [|split].
      - apply Forall_app. split; [exact G|]. repeat constructor.
      - rewrite drawn_app. apply app_nil_r.
      - rewrite verts_app. cbn. lia. }
    destruct (hFacade (styleOf (pOwner p))) as [[|f]|]; [| |contradiction].
    - destruct D as (L & -> & ->). destruct (facade_ok look p low top h L Hh) as (ops & O & A & B & C). rewrite O. now apply Tail.
    - destruct D as (ops & O & A & -> & ->). rewrite Hh, O. now apply Tail.
  Qed.
  Lemma first_point (p : part E) q rest : concat (map fst (ringsOf env w p)) = q :: rest -> pointAt (planOf env w p) 0 = Ok q.
  Proof. intros H. unfold pointAt, planOf. cbn [ppoints]. rewrite H. cbn. now destruct q. Qed.

  Lemma build_ok id (p : part E) ts k : partDraws env w styleOf id p ts k ->
    addContours realNums env emptyPolygon (contoursOf w p) = Ok (planOf env w p) /\
    exists ops, buildOps realNums env w id (styleOf (pOwner p)) (planOf env w p) = Ok ops /\
      Forall (goodOp realNums env) ops /\ drawn ops = ts /\ verts ops = k.
  Proof.
    intros (Cn & low & top & roof & kr & floor & kf & facade & kw & St & Rf & Fl & Fc & -> & ->).
    split; [exact (plan_ok env w p Cn)|]. unfold standsAt in St. destruct (concat (map fst (ringsOf env w p))) as [|q rest] eqn:Q; [contradiction|].
    destruct St as (Lo & To). unfold buildOps. rewrite (first_point p q rest Q). cbn [bind].
    set (st := styleOf (pOwner p)) in *.
    assert (Hh : (if kEqual w (hHeight st) (nzero realNums) then kTen w else hHeight st) = heightOf st).
    { cbn. unfold heightOf. now destruct (Req_EM_T (hHeight st) 0). }
    rewrite Hh. change (nadd realNums (kEle w (v2y q) (v2x q)) (hMin st)) with (kEle w (v2y q) (v2x q) + hMin st). rewrite <- Lo.
    change (nsub realNums (heightOf st) (hMin st)) with (heightOf st - hMin st).
    destruct (roof_ok id p low top (heightOf st - hMin st) roof kr) as (o1 & E1 & G1 & D1 & V1); [rewrite Lo, To; ring|exact Rf|].
    destruct (floor_ok id p low floor kf Fl) as (G2 & D2 & V2). fold st in G2, D2, V2.
    destruct (facade_attached id p low top (heightOf st - hMin st) facade kw) as (o3 & E3 & G3 & D3 & V3); [rewrite Lo, To; ring|exact Fc|].
    fold st in E1, E3. rewrite E1. cbn [bind]. rewrite E3. cbn [bind]. eexists. split; [reflexivity|]. split; [|split].
    - apply Forall_app. split; [exact G1|]. apply Forall_app. split; assumption.
    - now rewrite !drawn_app, D1, D2, D3.
    - rewrite !verts_app, V1, V2, V3. lia.
  Qed.

  Lemma draw_ok id l : forall tks m k, wellFormed m k -> goodMap m ->
    Forall2 (fun p tk => partDraws env w styleOf id p (fst tk) (snd tk)) l tks ->
    let total := fold_right Nat.add 0%nat (map snd tks) in
    (2 * Z.of_nat (k + total) < 2 ^ 31)%Z ->
    exists m', drawParts env w styleOf id l m = Ok m' /\ wellFormed m' (k + total) /\ goodMap m' /\
      drawnIn m' = drawnIn m ++ concat (map fst tks).
  Proof.
    induction l as [|p l IH]; intros tks m k W G F total B.
    - inversion F; subst. exists m. cbn in *. rewrite app_nil_r. unfold total. replace (k + 0)%nat with k by lia. auto.
    - inversion F as [|? [ts kp] ? tks' P F']; subst. cbn [fst snd] in P. unfold total in *. cbn [map snd fold_right fst concat] in *.
      destruct (build_ok id p ts kp P) as (C & ops & O & Go & D & V). cbn [drawParts]. rewrite C. cbn [bind]. rewrite O. cbn [bind].
      destruct (run_ok realNums env ops m k Go W G) as (m1 & R1 & W1 & G1 & _ & F1).
      { fold (verts ops). rewrite V. lia. }
      fold (verts ops) in W1. rewrite V in W1. rewrite R1. cbn [bind].
      destruct (IH tks' m1 (k + kp)%nat W1 G1 F') as (m2 & R2 & W2 & G2 & D2).
      { lia. }
      exists m2. split; [exact R2|]. split; [now replace (k + (kp + fold_right Nat.add 0 (map snd tks')))%nat with (k + kp + fold_right Nat.add 0 (map snd tks'))%nat by lia|].
      split; [exact G2|]. rewrite D2, app_assoc. f_equal. unfold drawnIn. rewrite F1, flat_map_app. f_equal.
      rewrite <- D. unfold drawnBy. apply flat_map_flat.
  Qed.
End Draw.

(** * Bodies *)
Section Closed.
  Context {P : Type}.
  Lemma sides_app (a b : list (P * P * P)) : allSides (a ++ b) = allSides a ++ allSides b.
  Proof. apply flat_map_app. Qed.
  (** Sides of a surface whose border is [g], up to sides which cancel out. *)
  Definition bordered (ts : list (P * P * P)) (g : list (P * P)) : Prop :=
    Permutation (allSides ts ++ map flipped g) (map flipped (allSides ts) ++ g).
  Lemma flip_flip (l : list (P * P)) : map flipped (map flipped l) = l.
  Proof. rewrite map_map. rewrite <- (map_id l) at 2. apply map_ext. now intros [a b]. Qed.
  Lemma bordered_nil (ts : list (P * P * P)) : bordered ts [] <-> watertight ts.
  Proof. unfold bordered, watertight. cbn [map]. now rewrite !app_nil_r. Qed.
  Lemma bordered_app a b g h : bordered a g -> bordered b h -> bordered (a ++ b) (g ++ h).
  Proof.
    unfold bordered. intros A B. rewrite sides_app, !map_app.
    transitivity ((allSides a ++ map flipped g) ++ (allSides b ++ map flipped h)).
    { rewrite <- !app_assoc. apply Permutation_app_head. rewrite !app_assoc. apply Permutation_app_tail. apply Permutation_app_comm. }
    rewrite A, B. rewrite <- !app_assoc. apply Permutation_app_head. rewrite !app_assoc. apply Permutation_app_tail. apply Permutation_app_comm.
  Qed.
  Lemma bordered_perm a g h : Permutation g h -> bordered a g -> bordered a h.
  Proof. unfold bordered. intros H A. rewrite <- H. exact A. Qed.
  Lemma bordered_tris a b g : Permutation a b -> bordered a g -> bordered b g.
  Proof. unfold bordered. intros H A. unfold allSides in *. now rewrite <- H. Qed.
  Lemma bordered_cancel a g h : bordered a (g ++ h ++ map flipped h) -> bordered a g.
  Proof.
    unfold bordered. rewrite !map_app, flip_flip. intros A.
    apply (Permutation_app_inv_r (map flipped h ++ h)). rewrite <- !app_assoc. rewrite A.
    apply Permutation_app_head. apply Permutation_app_head. apply Permutation_app_comm.
  Qed.
  Lemma bordered_open a g h : bordered a g -> bordered a (g ++ h ++ map flipped h).
  Proof.
    unfold bordered. intros A. rewrite !map_app, flip_flip, !app_assoc. rewrite A. rewrite <- !app_assoc.
    apply Permutation_app_head. apply Permutation_app_head. apply Permutation_app_comm.
  Qed.
  (** One triangle. *)
  Lemma bordered_tri a b c : bordered [(a, b, c)] [(a, b); (b, c); (c, a)].
  Proof. unfold bordered. cbn. apply (Permutation_app_comm [(a, b); (b, c); (c, a)] [(b, a); (c, b); (a, c)]). Qed.
End Closed.
Lemma bordered_map {P Q} (f : P -> Q) ts g : bordered ts g ->
  bordered (map (fun '(a, b, c) => (f a, f b, f c)) ts) (map (fun '(a, b) => (f a, f b)) g).
Proof.
  unfold bordered. intros H. rewrite GenProofs.allSides_map. apply (Permutation_map (fun '(a, b) => (f a, f b))) in H.
  rewrite !map_app in H. rewrite !map_map in *.
  erewrite map_ext with (l := g). 1: erewrite map_ext with (l := allSides ts). 1: exact H.
  all: intros [a b]; reflexivity.
Qed.
Lemma bordered_rev {P} (ts : list (P * P * P)) g : bordered ts g -> bordered (map (fun '(a, b, c) => (b, a, c)) ts) (map flipped g).
Proof.
  assert (S : Permutation (allSides (map (fun '(a, b, c) => (b, a, c)) ts)) (map flipped (allSides ts))).
  { induction ts as [|[[a b] c] ts IH]; [constructor|]. unfold allSides in *. cbn [map flat_map sides]. rewrite map_app.
    apply Permutation_app; [|exact IH]. cbn. apply perm_skip, perm_swap. }
  unfold bordered. intros H. rewrite S, !flip_flip. rewrite <- H. reflexivity.
Qed.
Lemma bordered_turn {P} (ts : list (P * P * P)) g : bordered ts g -> bordered (map (fun '(a, b, c) => (c, a, b)) ts) g.
Proof.
  assert (S : Permutation (allSides (map (fun '(a, b, c) => (c, a, b)) ts)) (allSides ts)).
  { induction ts as [|[[a b] c] ts IH]; [constructor|]. unfold allSides in *. cbn [map flat_map sides].
    apply Permutation_app; [|exact IH]. cbn. apply (Permutation_app_comm [(c, a)] [(a, b); (b, c)]). }
  unfold bordered. intros H. now rewrite S.
Qed.

(** Permutations of lists made of the same pieces, given by their numbers. *)
Lemma pieces_perm {A} (pieces : list (list A)) is js :
  GenProofs.permb Nat.eqb is js = true ->
  Permutation (flat_map (fun i => nth i pieces []) is) (flat_map (fun i => nth i pieces []) js).
Proof. intros H. apply (GenProofs.permb_ok Nat.eqb (fun a b => proj1 (Nat.eqb_eq a b))) in H. now rewrite H. Qed.
Ltac pieces ps is js :=
  let H := fresh in
  pose proof (pieces_perm ps is js eq_refl) as H; cbn [flat_map nth app] in H |- *;
  repeat rewrite <- app_assoc; cbn [app]; repeat rewrite app_nil_r in H; exact H.

(** * Walls and tents over a border *)
Section Prism.
  Context {I P : Type} (U D : I -> P).
  Definition lift (f : I -> P) (s : I * I) : P * P := (f (fst s), f (snd s)).
  Definition wallTris (s : I * I) : list (P * P * P) := let '(a, b) := s in [(D a, U b, D b); (U a, U b, D a)].
  Lemma wall_border g : Permutation (map fst g) (map snd g) ->
    bordered (flat_map wallTris g) (map (lift U) g ++ map flipped (map (lift D) g)).
  Proof.
    intros H. set (v := map (fun x => (D x, U x)) (map fst g)).
    apply (bordered_cancel _ _ v).
    assert (V : Permutation (map flipped v) (map (fun x => (U x, D x)) (map snd g))).
    { unfold v. rewrite map_map. cbn [flipped fst snd]. apply Permutation_map, H. }
    apply (bordered_perm _ ((map (lift U) g ++ map flipped (map (lift D) g)) ++ v ++ map (fun x => (U x, D x)) (map snd g))).
    { apply Permutation_app_head, Permutation_app_head. now symmetry. }
    clear V H. subst v. induction g as [|[a b] g IH]; [constructor|].
    cbn [flat_map]. refine (bordered_perm _ _ _ _ (bordered_app _ _ [(D a, U a); (U a, U b); (U b, D b); (D b, D a)] _ _ IH)).
    - cbn [map fst snd]. change (lift U (a, b)) with (U a, U b). change (flipped (lift D (a, b))) with (D b, D a).
      set (p := map (lift U) g). set (q := map flipped _). set (r := map _ (map fst g)). set (t := map _ (map snd g)).
      pieces [[(D a, U a)]; [(U a, U b)]; [(U b, D b)]; [(D b, D a)]; p; q; r; t] [0; 1; 2; 3; 4; 5; 6; 7]%nat [1; 4; 3; 5; 0; 6; 2; 7]%nat.
    - apply (bordered_cancel _ _ [(D a, U b)]). refine (bordered_perm _ _ _ _ (bordered_app _ _ _ _ (bordered_tri (D a) (U b) (D b)) (bordered_tri (U a) (U b) (D a)))).
      cbn. pieces [[(D a, U b)]; [(U b, D b)]; [(D b, D a)]; [(U a, U b)]; [(U b, D a)]; [(D a, U a)]] [0; 1; 2; 3; 4; 5]%nat [5; 3; 1; 2; 0; 4]%nat.
  Qed.
  Lemma tent_border (top : P) g : Permutation (map fst g) (map snd g) ->
    bordered (map (fun '(a, b) => (D a, top, D b)) g) (map flipped (map (lift D) g)).
  Proof.
    intros H. set (v := map (fun x => (D x, top)) (map fst g)).
    apply (bordered_cancel _ _ v).
    assert (V : Permutation (map flipped v) (map (fun x => (top, D x)) (map snd g))).
    { unfold v. rewrite map_map. cbn [flipped fst snd]. apply Permutation_map, H. }
    apply (bordered_perm _ (map flipped (map (lift D) g) ++ v ++ map (fun x => (top, D x)) (map snd g))).
    { apply Permutation_app_head, Permutation_app_head. now symmetry. }
    clear V H. subst v. induction g as [|[a b] g IH]; [constructor|].
    change (map (fun '(a, b) => (D a, top, D b)) ((a, b) :: g)) with ([(D a, top, D b)] ++ map (fun '(a, b) => (D a, top, D b)) g).
    refine (bordered_perm _ _ _ _ (bordered_app _ _ _ _ (bordered_tri (D a) top (D b)) IH)).
    cbn [map fst snd]. change (flipped (lift D (a, b))) with (D b, D a).
    set (q := map flipped _). set (r := map _ (map fst g)). set (t := map _ (map snd g)).
    pieces [[(D a, top)]; [(top, D b)]; [(D b, D a)]; q; r; t] [0; 1; 2; 3; 4; 5]%nat [2; 3; 0; 4; 1; 5]%nat.
  Qed.
End Prism.

(** * Rings *)
Lemma combine_cut {A B} (a c : list A) (b d : list B) : length a = length b -> combine (a ++ c) (b ++ d) = combine a b ++ combine c d.
Proof. revert b. induction a as [|x a IH]; intros [|y b] L; try discriminate L; [reflexivity|]. cbn. f_equal. apply IH. now injection L. Qed.
Lemma combine_firsts {A B} (a : list A) (b : list B) : length a = length b -> map fst (combine a b) = a /\ map snd (combine a b) = b.
Proof.
  revert b. induction a as [|x a IH]; intros [|y b] L; try discriminate L; [split; reflexivity|]. cbn. injection L as L.
  destruct (IH b L) as (-> & ->). split; reflexivity.
Qed.
(** The sides in the order of the points. *)
Definition onward {A} (r : list A) : list (A * A) := match r with [] => [] | x :: r' => combine r (r' ++ [x]) end.
Lemma around_onward {A} (r : list A) : Permutation (around r) (onward r).
Proof.
  destruct r as [|x r']; [constructor|]. unfold around, onward.
  destruct (exists_last (l := x :: r')) as (s & y & Q); [discriminate|].
  assert (Ly : last (x :: r') x = y) by (rewrite Q; apply last_last). rewrite Ly.
  assert (Ls : length s = length r').
  { apply (f_equal (@length A)) in Q. rewrite app_length in Q. cbn in Q. lia. }
  change (combine (y :: x :: r') (x :: r')) with ((y, x) :: combine (x :: r') r'). rewrite Q. rewrite (combine_cut s [y] r' [x] Ls).
  rewrite <- (app_nil_r r') at 1. rewrite (combine_cut s [y] r' [] Ls). cbn [combine]. rewrite app_nil_r. apply Permutation_cons_append.
Qed.
Lemma onward_balanced {A} (r : list A) : Permutation (map fst (onward r)) (map snd (onward r)).
Proof.
  destruct r as [|x r']; [constructor|]. unfold onward.
  destruct (combine_firsts (x :: r') (r' ++ [x])) as (-> & ->); [rewrite app_length; cbn; lia|]. apply Permutation_cons_append.
Qed.
Lemma flat_map_perm {A B} (f g : A -> list B) l : (forall a, Permutation (f a) (g a)) -> Permutation (flat_map f l) (flat_map g l).
Proof. intros H. induction l as [|a l IH]; [constructor|]. cbn [flat_map]. now apply Permutation_app. Qed.
Lemma flat_balanced {A} (rs : list (list A)) : Permutation (map fst (flat_map onward rs)) (map snd (flat_map onward rs)).
Proof. induction rs as [|r rs IH]; [constructor|]. cbn [flat_map]. rewrite !map_app. apply Permutation_app; [apply onward_balanced|exact IH]. Qed.

Lemma twos_segments c k : twos (ringSegments c k) =
  map (fun i => (Z.of_nat (c + i), Z.of_nat (c + if Datatypes.S i =? k then 0 else Datatypes.S i)%nat)) (seq 0 k).
Proof. unfold ringSegments. induction (seq 0 k) as [|i l IH]; [reflexivity|]. cbn [flat_map app twos map]. now rewrite IH. Qed.
Lemma twos_app {A} (l l' : list A) : Nat.even (length l) = true -> twos (l ++ l') = twos l ++ twos l'.
Proof.
  revert l. fix IH 1. intros [|a [|b l]] H; [reflexivity|discriminate H|]. cbn [app twos]. f_equal. apply IH. exact H.
Qed.
Lemma segments_even c k : Nat.even (length (ringSegments c k)) = true.
Proof. rewrite ringSegments_length. apply Nat.even_spec. exists k. lia. Qed.
Lemma layout_sides (d : vec2 R) (pts : list (vec2 R)) rings : forall pre post, pts = pre ++ concat rings ++ post ->
  map (fun s : Z * Z => (nth (Z.to_nat (fst s)) pts d, nth (Z.to_nat (snd s)) pts d)) (twos (layout (length pre) rings)) = flat_map onward rings.
Proof.
  induction rings as [|r rings IH]; intros pre post P; [reflexivity|]. cbn [layout concat flat_map] in *.
  rewrite twos_app by apply segments_even. rewrite map_app. f_equal.
  - rewrite twos_segments, map_map. cbn [fst snd]. rewrite !Nat2Z.id || idtac.
    destruct r as [|x r']; [reflexivity|]. unfold onward. rewrite (next_seq d). apply map_ext_in. intros j I. apply in_seq in I.
    rewrite !Nat2Z.id. set (r := x :: r') in *.
    assert (N : forall i, (i < length r)%nat -> nth (length pre + i) pts d = nth i r d).
    { intros i L. rewrite P. rewrite app_nth2 by lia. replace (length pre + i - length pre)%nat with i by lia.
      rewrite <- app_assoc. now rewrite app_nth1. }
    rewrite N by lia. f_equal. change (length r) with (S (length r')).
    change (S j =? S (length r'))%nat with (j =? length r')%nat. assert (Lr : length r = S (length r')) by reflexivity.
    destruct (Nat.eqb_spec j (length r')).
    + apply N. lia.
    + replace (j + 1)%nat with (S j) by lia. apply N. lia.
  - replace (length pre + length r)%nat with (length (pre ++ r)) by apply app_length.
    apply (IH (pre ++ r) post). rewrite P, <- !app_assoc. reflexivity.
Qed.

(** * The body of a part *)
Section Body.
  Context {E : Type} (env : builderEnv R) (w : houseEnv R).
  Definition allRings (p : part E) : list (list (vec2 R)) := ringsOnly env w false p ++ ringsOnly env w true p.
  Lemma split_rings (p : part E) : Permutation (map fst (ringsOf env w p)) (allRings p).
  Proof.
    unfold allRings, ringsOnly. induction (ringsOf env w p) as [|[r b] l IH]; [constructor|]. cbn [map List.filter snd fst].
    destruct b; cbn [Bool.eqb map fst].
    - rewrite IH. apply Permutation_middle.
    - cbn [app]. now apply perm_skip.
  Qed.
  Lemma perm_flat {A B} (f : A -> list B) l l' : Permutation l l' -> Permutation (flat_map f l) (flat_map f l').
  Proof. intros H. now rewrite H. Qed.

  Lemma corner2_at (p : part E) io : tpoints io = twos (ppoints (planOf env w p)) -> forall i,
    corner2 io i = nth (Z.to_nat i) (concat (map fst (ringsOf env w p))) (mkV2 0 0).
  Proof.
    intros H i. unfold corner2. rewrite H. cbn [planOf ppoints]. rewrite twos_coords.
    set (l := concat (map fst (ringsOf env w p))).
    assert (Q : nth (Z.to_nat i) (map (fun v => (v2x v, v2y v)) l) (0, 0) =
            (v2x (nth (Z.to_nat i) l (mkV2 0 0)), v2y (nth (Z.to_nat i) l (mkV2 0 0)))).
    { exact (map_nth (fun v => (v2x v, v2y v)) l (mkV2 0 0) (Z.to_nat i)). }
    rewrite Q. now destruct (nth (Z.to_nat i) l (mkV2 0 0)).
  Qed.
  Lemma segment_sides (p : part E) io : tpoints io = twos (ppoints (planOf env w p)) ->
    Permutation (map (lift (corner2 io)) (twos (psegs (planOf env w p)))) (flat_map onward (allRings p)).
  Proof.
    intros H. rewrite <- (perm_flat onward _ _ (split_rings p)).
    pose proof (layout_sides (mkV2 0 0) (concat (map fst (ringsOf env w p))) (map fst (ringsOf env w p)) [] []) as L.
    cbn [length app] in L. rewrite app_nil_r in L. specialize (L eq_refl). rewrite <- L. cbn [planOf psegs].
    apply Permutation_refl'. apply map_ext. intros s. unfold lift. now rewrite !(corner2_at p io H).
  Qed.

  Lemma fill_border (p : part E) io : fills io (planOf env w p) ->
    bordered (map (fun '(a, b, c) => (corner2 io a, corner2 io b, corner2 io c)) (triples io)) (flat_map onward (allRings p)).
  Proof.
    intros (Pt & Bd). apply (bordered_perm _ (map (fun '(a, b) => (corner2 io a, corner2 io b)) (twos (psegs (planOf env w p))))).
    - rewrite <- (segment_sides p io Pt). apply Permutation_refl'. apply map_ext. now intros [a b].
    - apply bordered_map. exact Bd.
  Qed.
  Lemma lift_pairs {I P} (f : I -> P) g : map (fun '(a, b) => (f a, f b)) g = map (lift f) g.
  Proof. apply map_ext. now intros [a b]. Qed.
  Lemma above_border (p : part E) io y : fills io (planOf env w p) ->
    bordered (fromAbove io y) (map flipped (map (lift (at_ y)) (flat_map onward (allRings p)))).
  Proof.
    intros F. apply fill_border in F. apply (bordered_map (at_ y)), bordered_rev in F. rewrite lift_pairs in F.
    refine (bordered_tris _ _ _ (Permutation_refl' _) F). unfold fromAbove. rewrite !map_map. apply map_ext. intros [[a b] c]. reflexivity.
  Qed.
  Lemma below_border (p : part E) io y : fills io (planOf env w p) ->
    bordered (fromBelow io y) (map (lift (at_ y)) (flat_map onward (allRings p))).
  Proof.
    intros F. apply fill_border in F. apply (bordered_map (at_ y)), bordered_turn in F. rewrite lift_pairs in F.
    refine (bordered_tris _ _ _ (Permutation_refl' _) F). unfold fromBelow. rewrite !map_map. apply map_ext. intros [[a b] c]. reflexivity.
  Qed.
  Lemma wall_tris low top r : Permutation (walls low top r) (flat_map (wallTris (at_ top) (at_ low)) (onward r)).
  Proof.
    unfold walls. rewrite <- (Permutation_rev (around r)), around_onward.
    apply flat_map_perm. intros [a b]. unfold upright4, wallTris.
    assert (U : forall v, above (at_ low v) (top - low) = at_ top v) by (intros v; unfold above, at_; cbn; f_equal; ring).
    now rewrite !U.
  Qed.
  Lemma walls_border (p : part E) low top :
    bordered (flat_map (walls low top) (allRings p))
      (map (lift (at_ top)) (flat_map onward (allRings p)) ++ map flipped (map (lift (at_ low)) (flat_map onward (allRings p)))).
  Proof.
    apply (bordered_tris (flat_map (wallTris (at_ top) (at_ low)) (flat_map onward (allRings p)))).
    - rewrite flat_map_flat. apply flat_map_perm. intros r. symmetry. apply wall_tris.
    - apply wall_border, flat_balanced.
  Qed.
  Lemma tents_border low top rings : bordered (flat_map (tent low top) rings) (map flipped (map (lift (at_ low)) (flat_map onward rings))).
  Proof.
    induction rings as [|r rings IH]; [constructor|]. cbn [flat_map]. rewrite !map_app. apply bordered_app; [|exact IH].
    pose proof (tent_border (at_ low) (at_ top (middle r)) (onward r) (onward_balanced r)) as H. destruct r as [|x r']; [exact H|]. exact H.
  Qed.

  (** Roof, floor and walls together. *)
  Lemma body_closed (p : part E) io roof low top : fills io (planOf env w p) ->
    bordered roof (map flipped (map (lift (at_ top)) (flat_map onward (allRings p)))) ->
    watertight (roof ++ fromBelow io low ++ flat_map (walls low top) (allRings p)).
  Proof.
    intros F Rf. apply bordered_nil. set (g := flat_map onward (allRings p)) in *.
    apply (bordered_cancel _ [] (map (lift (at_ top)) g ++ map (lift (at_ low)) g)). cbn [app].
    pose proof (bordered_app _ _ _ _ Rf (bordered_app _ _ _ _ (below_border p io low F) (walls_border p low top))) as B. fold g in B.
    refine (bordered_perm _ _ _ _ B). rewrite map_app.
    pieces [map (lift (at_ top)) g; map (lift (at_ low)) g; map flipped (map (lift (at_ top)) g); map flipped (map (lift (at_ low)) g)]
      [2; 1; 0; 3]%nat [0; 1; 2; 3]%nat.
  Qed.
End Body.

(** * Which way the surfaces face *)
Lemma wall_faces low top a b y m : low < top -> leftTurn a b m -> Forall (outward (at_ y m)) (upright4 (at_ low a) (at_ low b) (top - low)).
Proof.
  intros H L. apply wall_outward; [lra|]. unfold cross, leftTurn, at_ in *. cbn [v3x v3z]. eapply Rlt_le_trans; [exact L|]. apply Req_le. ring.
Qed.
Lemma wall_turned low top a b y m : top < low -> leftTurn a b m ->
  Forall (fun '(u, v, t) => outward (at_ y m) (v, u, t)) (upright4 (at_ low a) (at_ low b) (top - low)).
Proof.
  intros H L. assert (P : 0 < (low - top) * ((v2x b - v2x a) * (v2y m - v2y a) - (v2y b - v2y a) * (v2x m - v2x a))).
  { apply Rmult_lt_0_compat; [lra|exact L]. }
  apply Forall_cons; [|apply Forall_cons; [|apply Forall_nil]]; unfold outward, det3, vsub, above, at_; cbn [v3x v3y v3z];
    (eapply Rlt_le_trans; [exact P|]); apply Req_le; ring.
Qed.
Lemma above_faces io y : Forall (fun '(a, b, c) => leftTurn (corner2 io a) (corner2 io b) (corner2 io c)) (triples io) ->
  Forall facesUp (fromAbove io y).
Proof.
  intros F. unfold fromAbove. apply Forall_map. eapply Forall_impl; [|exact F]. intros [[a b] c] L. unfold facesUp, leftTurn, at_ in *.
  cbn [v3x v3z]. eapply Rlt_le_trans; [exact L|]. apply Req_le. ring.
Qed.
Lemma below_faces io y : Forall (fun '(a, b, c) => leftTurn (corner2 io a) (corner2 io b) (corner2 io c)) (triples io) ->
  Forall (fun '(a, b, c) => facesUp (b, a, c)) (fromBelow io y).
Proof.
  intros F. unfold fromBelow. apply Forall_map. eapply Forall_impl; [|exact F]. intros [[a b] c] L. unfold facesUp, leftTurn, at_ in *.
  cbn [v3x v3z]. eapply Rlt_le_trans; [exact L|]. apply Req_le. ring.
Qed.
