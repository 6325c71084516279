(** Proofs about the GeoJSON parser. *)
From Coq Require Import String.
From Verif Require Import Base Bytes BytesProofs StyleModel JsonModel JsonSpec.
Local Open Scope list_scope.

Lemma beqb_spec a b : reflect (a = b) (beqb a b).
Proof. destruct (beqb a b) eqn:E; constructor; [now apply beqb_eq|now apply beqb_neq]. Qed.

Lemma jeach_map {A B C} (f : B -> jres C) (g : A -> B) (h : A -> C) : forall l,
  (forall a, In a l -> f (g a) = JOk (h a)) -> jeach f (map g l) = JOk (map h l).
Proof.
  induction l as [|a l IH]; intros H; cbn [map jeach]; [reflexivity|].
  rewrite (H a (or_introl eq_refl)). cbn [jbind]. rewrite IH by (intros b I; apply H; now right). reflexivity.
Qed.

Section JsonProofs.
  Context {D : Type}.
  Variable getId : bytes -> N.
  Variable toDouble : bytes -> option D.
  Variable ceqb : D * D -> D * D -> bool.
  Variable sortTags : list (N * N) -> list (N * N).
  Variable show : D -> bytes.
  Hypothesis shown : forall d, toDouble (show d) = Some d.
  Hypothesis inj : forall a b, getId a = getId b -> a = b.

  Lemma position_ok c : parseCoordinate toDouble (treePosition show c) = JOk c.
  Proof. destruct c as [lat lon]. cbn. rewrite !shown. reflexivity. Qed.

  Lemma line_ok cs : parseCoordinates toDouble (treeLine show cs) = JOk (rev cs).
  Proof.
    unfold parseCoordinates, treeLine, array. cbn [pchildren]. rewrite map_map.
    rewrite (jeach_map _ _ (fun c => c)); [cbn [jbind]; now rewrite map_id|]. intros c _. apply position_ok.
  Qed.

  Lemma ring_ok cs : ringElement ceqb (rev cs) = lineElement ceqb 0 [] cs.
  Proof.
    unfold ringElement, closed, lineElement. rewrite rev_length.
    destruct cs as [|c cs]; [reflexivity|]. 
    assert (L : last (rev (c :: cs)) (last (c :: cs) c) = c) by (cbn [rev]; apply last_last).
    assert (HD : exists r, rev (c :: cs) = last (c :: cs) c :: r).
    { destruct (exists_last (l := c :: cs) ltac:(discriminate)) as (l' & z & E). rewrite E, last_last, rev_app_distr. cbn. eauto. }
    destruct HD as (r & HD). rewrite HD in L. rewrite HD. rewrite L. rewrite <- HD.
    destruct cs as [|c2 [|c3 [|c4 cs]]]; cbn [List.length Nat.ltb Nat.leb andb]; try reflexivity.
  Qed.

  Lemma lines_ok ls : parseRelation toDouble ceqb (treeLines show ls) = JOk (map (lineElement ceqb 0 []) ls).
  Proof.
    unfold parseRelation, treeLines, array. cbn [pchildren]. rewrite map_map.
    apply (jeach_map (fun c => jbind (parseCoordinates toDouble (snd c)) (fun cs => JOk (ringElement ceqb cs)))). intros cs _.
    cbn [snd]. rewrite line_ok. cbn [jbind]. f_equal. apply ring_ok.
  Qed.

  Lemma with_ok id tags cs : withProperties id tags (lineElement ceqb 0 [] cs) = lineElement ceqb id tags cs.
  Proof. unfold lineElement. destruct cs as [|c [|? [|? [|? ?]]]]; try reflexivity. destruct (ceqb _ c); reflexivity. Qed.

  Lemma child_ok ls : childElement (map (lineElement ceqb 0 []) ls) = linesElement ceqb 0 [] ls.
  Proof. destruct ls as [|l [|? ?]]; reflexivity. Qed.

  Lemma isId name : N.eqb (getId name) (getId (str "id")) = beqb name (str "id").
  Proof.
    destruct (beqb_spec name (str "id")) as [->|N]; [apply N.eqb_refl|]. apply N.eqb_neq. intros E. apply N. now apply inj.
  Qed.

  Lemma parseId_ok v : parseId v = match castId (idText v) with Some n => JOk n | None => JErr BadId end.
  Proof. destruct v as [|c v]; [reflexivity|]. cbn [parseId idText]. destruct (N.eqb c 45); reflexivity. Qed.

  Lemma properties_ok ps : forall id tags,
    Forall (fun v => castId (idText v) <> None) (idProperties ps) ->
    exists id', propertiesFrom getId id tags (map (fun p => (fst p, leaf (snd p))) ps) =
      JOk (id', tags ++ map (fun p => (getId (fst p), getId (snd p))) (plainProperties ps)) /\
      match idProperties ps with [] => id' = id | _ => castId (idText (last (idProperties ps) [])) = Some id' end.
  Proof.
    induction ps as [|[k v] ps IH]; intros id tags F.
    - exists id. cbn. rewrite app_nil_r. split; reflexivity.
    - unfold idProperties, plainProperties in *. cbn [map List.filter fst snd propertiesFrom]. rewrite isId.
      cbn [List.filter fst] in F. destruct (beqb k (str "id")) eqn:E; cbn [negb map snd] in *.
      + inversion F as [|? ? CV F']; subst. cbn [pdata leaf]. rewrite parseId_ok. destruct (castId (idText v)) as [n|] eqn:CE; [|contradiction].
        cbn [jbind]. destruct (IH n tags F') as (id' & E1 & E2). exists id'. split; [exact E1|].
        destruct (map snd (List.filter (fun p : bytes * bytes => beqb (fst p) (str "id")) ps)) as [|x l]; [cbn; congruence|].
        cbn [last] in *. exact E2.
      + destruct (IH id (tags ++ [(getId k, getId v)]) F) as (id' & E1 & E2). exists id'. split; [|exact E2].
        cbn [pdata leaf]. rewrite E1. rewrite <- app_assoc. reflexivity.
  Qed.

  Lemma parseProperties_ok name ps id : hasId ps id ->
    parseProperties getId sortTags (getId name) (PT [] (map (fun p => (fst p, leaf (snd p))) ps)) =
    JOk (id, tagsOf getId sortTags name ps).
  Proof.
    intros (F & L). unfold parseProperties. cbn [pchildren]. destruct (properties_ok ps 0%N [] F) as (id' & E1 & E2). rewrite E1. cbn [jbind].
    assert (id' = id) as ->; [|reflexivity]. destruct (idProperties ps) as [|x l]; [|congruence]. cbn in L. congruence.
  Qed.

  Lemma feature_ok name f id : hasId (gProperties f) id ->
    parseFeature getId toDouble ceqb sortTags (getId name) (treeFeature show f) =
    JOk (elementOf ceqb id (tagsOf getId sortTags name (gProperties f)) (gGeometry f)).
  Proof.
    intros H. pose proof (parseProperties_ok name (gProperties f) id H) as P. destruct f as [ps g]. cbn [gProperties gGeometry] in *.
    unfold treeFeature. cbn [gGeometry gProperties].
    set (pt := PT [] (map (fun p : bytes * bytes => (fst p, leaf (snd p))) ps)) in *.
    destruct g as [c|cs|rs|ls|polys]; cbn [treeGeometry].
    - change (parseFeature getId toDouble ceqb sortTags (getId name) _) with
        (jbind (parseProperties getId sortTags (getId name) pt) (fun '(id, tags) =>
         jbind (parseCoordinate toDouble (treePosition show c)) (fun c => JOk (JNode id tags c)))).
      rewrite P. cbn [jbind]. rewrite position_ok. reflexivity.
    - change (parseFeature getId toDouble ceqb sortTags (getId name) _) with
        (jbind (parseProperties getId sortTags (getId name) pt) (fun '(id, tags) =>
         jbind (parseCoordinates toDouble (treeLine show cs)) (fun c => JOk (JWay id tags c)))).
      rewrite P. cbn [jbind]. rewrite line_ok. reflexivity.
    - change (parseFeature getId toDouble ceqb sortTags (getId name) _) with
        (jbind (parseRelation toDouble ceqb (treeLines show rs)) (fun es =>
         jbind (parseProperties getId sortTags (getId name) pt) (fun '(id, tags) =>
         JOk match es with [e] => withProperties id tags e | _ => JRelation id tags es end))).
      rewrite lines_ok. cbn [jbind]. rewrite P. cbn [jbind elementOf]. f_equal. unfold linesElement.
      destruct rs as [|r [|? ?]]; try reflexivity. cbn [map]. apply with_ok.
    - change (parseFeature getId toDouble ceqb sortTags (getId name) _) with
        (jbind (parseRelation toDouble ceqb (treeLines show ls)) (fun es =>
         jbind (parseProperties getId sortTags (getId name) pt) (fun '(id, tags) =>
         JOk match es with [e] => withProperties id tags e | _ => JRelation id tags es end))).
      rewrite lines_ok. cbn [jbind]. rewrite P. cbn [jbind elementOf]. f_equal. unfold linesElement.
      destruct ls as [|r [|? ?]]; try reflexivity. cbn [map]. apply with_ok.
    - change (parseFeature getId toDouble ceqb sortTags (getId name) _) with
        (jbind (parseProperties getId sortTags (getId name) pt) (fun '(id, tags) =>
         jbind (jeach (fun c => jbind (parseRelation toDouble ceqb (snd c)) (fun es => JOk (childElement es)))
                      (pchildren (array (map (treeLines show) polys)))) (fun es => JOk (JRelation id tags es)))).
      rewrite P. cbn [jbind]. unfold array. cbn [pchildren]. rewrite map_map.
      rewrite (jeach_map _ _ (fun ls => linesElement ceqb 0 [] ls)); [reflexivity|].
      intros ls _. cbn [snd]. rewrite lines_ok. cbn [jbind]. f_equal. apply child_ok.
  Qed.

  Lemma told_ok name : forall fs (more : list ptree),
    Forall (fun f => exists id, hasId (gProperties f) id) fs ->
    exists es, Forall2 (stands getId ceqb sortTags name) fs es /\
      told (parseFeature getId toDouble ceqb sortTags (getId name)) (map (fun t => ([], t)) (map (treeFeature show) fs ++ more)) =
      (let '(es', r) := told (parseFeature getId toDouble ceqb sortTags (getId name)) (map (fun t => ([], t)) more) in (es ++ es', r)).
  Proof.
    induction fs as [|f fs IH]; intros more F.
    - exists []. split; [constructor|]. cbn [map app]. destruct (told _ _). reflexivity.
    - inversion F as [|? ? (id & H) F']; subst. destruct (IH more F') as (es & G & E).
      eexists (_ :: es). split; [constructor; [exists id; split; [exact H|reflexivity]|exact G]|].
      cbn [map app told]. rewrite (feature_ok name f id H). rewrite E.
      destruct (told _ (map (fun t => ([], t)) more)). reflexivity.
  Qed.

  Lemma path_plain : forall s cur, ~ In 46%N s -> pathFrom cur s = [rev cur ++ s].
  Proof.
    induction s as [|c s IH]; intros cur NI; cbn [pathFrom]; [now rewrite app_nil_r|].
    destruct (N.eqb_spec c 46) as [->|_]; [exfalso; apply NI; now left|].
    rewrite IH by (intros I; apply NI; now right). cbn [rev]. rewrite <- app_assoc. reflexivity.
  Qed.

  Lemma path_point : forall a cur c b, ~ In 46%N a -> exists q, pathFrom cur (a ++ 46%N :: c :: b) = (rev cur ++ a) :: q /\ q = pathFrom [] (c :: b).
  Proof.
    induction a as [|x a IH]; intros cur c b NI.
    - cbn [app pathFrom]. rewrite N.eqb_refl, app_nil_r. eexists. split; reflexivity.
    - cbn [app pathFrom]. destruct (N.eqb_spec x 46) as [->|_]; [exfalso; apply NI; now left|].
      destruct (IH (x :: cur) c b) as (q & E & Q); [intros I; apply NI; now right|]. rewrite E. cbn [rev]. rewrite <- app_assoc. eauto.
  Qed.

  Definition plainName (n : bytes) : Prop := n <> [] /\ ~ In 46%N n.

  Lemma features_ok doc n fs : plainName n -> alookup beqb n doc = Some fs ->
    featuresOf (treeDocument show doc) n = JOk (array (map (treeFeature show) fs)).
  Proof.
    intros (NE & NI) A. unfold featuresOf, path. destruct n as [|c n]; [contradiction|].
    rewrite (path_plain (c :: n) [] NI). cbn [rev app pwalk]. unfold pfind, treeDocument. cbn [pchildren].
    assert (M : alookup beqb (c :: n) (map (fun nf : bytes * list (gfeature D) => (fst nf, treeCollection show (snd nf))) doc) = Some (treeCollection show fs)).
    { revert A. generalize (c :: n). clear. intros k. induction doc as [|[k' v] doc IH]; cbn; [discriminate|].
      destruct (beqb k k'); [intros [= ->]; reflexivity|exact IH]. }
    rewrite M. reflexivity.
  Qed.

  Lemma alookup_nodup (pre : list (bytes * list (gfeature D))) n fs post : ~ In n (map fst pre) ->
    alookup beqb n (pre ++ (n, fs) :: post) = Some fs.
  Proof.
    induction pre as [|[k v] pre IH]; intros NI; cbn [app alookup].
    - now rewrite beqb_refl.
    - destruct (beqb_spec n k) as [->|_]; [exfalso; apply NI; now left|]. apply IH. intros I. apply NI. now right.
  Qed.

  Lemma document_run all : forall doc pre, all = pre ++ doc -> NoDup (map fst all) ->
    Forall (fun nf => plainName (fst nf) /\ Forall (fun f => exists id, hasId (gProperties f) id) (snd nf)) doc ->
    exists es, Forall2 (fun nf e => stands getId ceqb sortTags (fst nf) (snd nf) e) (flat_map (fun nf => map (pair (fst nf)) (snd nf)) doc) es /\
      parseFrom getId toDouble ceqb sortTags (treeDocument show all) (map (fun nf => (fst nf, treeCollection show (snd nf))) doc) = (es, JOk tt).
  Proof.
    induction doc as [|[n fs] doc IH]; intros pre E ND F.
    - exists []. split; [constructor|reflexivity].
    - inversion F as [|? ? (PN & FF) F']; subst. cbn [fst snd] in *.
      destruct (IH (pre ++ [(n, fs)])) as (es2 & G2 & E2); [now rewrite <- app_assoc|exact ND|exact F'|].
      destruct (told_ok n fs [] FF) as (es1 & G1 & E1). rewrite app_nil_r in E1. cbn [map told] in E1. rewrite app_nil_r in E1.
      exists (es1 ++ es2). split.
      + cbn [flat_map fst snd]. apply Forall2_app; [|exact G2]. clear - G1. induction G1; cbn; constructor; auto.
      + cbn [map parseFrom fst snd]. rewrite (features_ok _ n fs PN).
        * unfold array at 1. cbn [pchildren]. rewrite E1, E2. reflexivity.
        * apply alookup_nodup. rewrite map_app in ND. cbn [map fst] in ND. apply NoDup_remove_2 in ND. intros I. apply ND. apply in_or_app. now left.
  Qed.
End JsonProofs.
