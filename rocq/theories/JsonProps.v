(** C57: importing GeoJSON. *)
From Coq Require Import String.
From Verif Require Import Base Bytes BytesProofs StyleModel JsonModel JsonSpec JsonProofs.
Local Open Scope list_scope.

(** A document whose collections have distinct names without points is told completely and in order. *)
Theorem C57_document_partial : forall D (getId : bytes -> N) (toDouble : bytes -> option D) ceqb sortTags show doc,
  (forall d, toDouble (show d) = Some d) -> (forall a b, getId a = getId b -> a = b) ->
  NoDup (map fst doc) -> Forall (fun nf => fst nf <> [] /\ ~ In 46%N (fst nf)) doc ->
  Forall (fun nf => Forall (fun f => exists id, hasId (gProperties f) id) (snd nf)) doc ->
  exists es, parseJson getId toDouble ceqb sortTags (treeDocument show doc) = (es, JOk tt) /\
    Forall2 (fun nf e => stands getId ceqb sortTags (fst nf) (snd nf) e)
            (flat_map (fun nf => map (pair (fst nf)) (snd nf)) doc) es.
Proof.
  intros D getId toDouble ceqb sortTags show doc SH INJ ND F1 F2.
  destruct (document_run getId toDouble ceqb sortTags show SH INJ doc doc [] eq_refl ND) as (es & G & E).
  - apply Forall_forall. intros nf I. rewrite Forall_forall in F1, F2. split; [exact (F1 nf I)|exact (F2 nf I)].
  - exists es. split; [exact E|exact G].
Qed.

(** The first feature which cannot be read ends the import; the features before it have been added. *)
Theorem C57_broken : forall D (getId : bytes -> N) (toDouble : bytes -> option D) ceqb sortTags show name fs bad more rest e,
  (forall d, toDouble (show d) = Some d) -> (forall a b, getId a = getId b -> a = b) ->
  name <> [] -> ~ In 46%N name -> Forall (fun f => exists id, hasId (gProperties f) id) fs ->
  parseFeature getId toDouble ceqb sortTags (getId name) bad = JErr e ->
  exists es, Forall2 (stands getId ceqb sortTags name) fs es /\
    parseJson getId toDouble ceqb sortTags
      (PT [] ((name, PT [] [(str "features", array (map (treeFeature show) fs ++ bad :: more))]) :: rest)) = (es, JErr e).
Proof.
  intros D getId toDouble ceqb sortTags show name fs bad more rest e SH INJ NE NI F B.
  destruct (told_ok getId toDouble ceqb sortTags show SH INJ name fs (bad :: more) F) as (es & G & E).
  exists es. split; [exact G|]. unfold parseJson. cbn [pchildren parseFrom]. unfold featuresOf, path.
  destruct name as [|c name]; [contradiction|]. rewrite (path_plain (c :: name) [] NI). cbn [rev app pwalk]. unfold pfind. cbn [pchildren alookup].
  rewrite beqb_refl. change (getChild "features" _) with (JOk (array (map (treeFeature show) fs ++ bad :: more))). cbv iota beta.
  unfold array at 1. cbn [pchildren]. rewrite E. cbn [map told]. rewrite B. rewrite app_nil_r. reflexivity.
Qed.

(** A position must have two numbers: one with a height is refused. *)
Theorem C57_height_refuted : forall D (toDouble : bytes -> option D) t, List.length (pchildren t) <> 2%nat ->
  parseCoordinate toDouble t = JErr BadGeometry.
Proof.
  intros D toDouble t L. unfold parseCoordinate. destruct (pchildren t) as [|[? x] [|[? y] [|? ?]]]; try reflexivity. contradiction.
Qed.

(** Other kinds of geometry of GeoJSON are refused. *)
Theorem C57_kinds_refuted : forall D getId (toDouble : bytes -> option D) ceqb sortTags featureId type coordinates ps,
  type = str "MultiPoint" \/ type = str "GeometryCollection" ->
  parseFeature getId toDouble ceqb sortTags featureId
    (PT [] [(str "properties", ps); (str "geometry", PT [] [(str "type", leaf type); (str "coordinates", coordinates)])]) = JErr BadGeometry.
Proof. intros D getId toDouble ceqb sortTags featureId type coordinates ps [-> | ->]; reflexivity. Qed.

(** The name of a collection is taken for a path: with a point inside, the import fails ... *)
Theorem C57_point_refuted : forall D getId (toDouble : bytes -> option D) ceqb sortTags a c b t, ~ In 46%N a ->
  parseJson getId toDouble ceqb sortTags (PT [] [(a ++ 46%N :: c :: b, t)]) = ([], JErr BadPath).
Proof.
  intros D getId toDouble ceqb sortTags a c b t NI. unfold parseJson. cbn [pchildren parseFrom]. unfold featuresOf, path.
  assert (E : match a ++ 46%N :: c :: b with [] => [] | _ => pathFrom [] (a ++ 46%N :: c :: b) end = pathFrom [] (a ++ 46%N :: c :: b))
    by (destruct a; reflexivity).
  rewrite E. destruct (path_point a [] c b NI) as (q & -> & _). cbn [rev app pwalk]. unfold pfind. cbn [pchildren alookup].
  assert (N : beqb a (a ++ 46%N :: c :: b) = false).
  { apply beqb_neq. intros H. apply (f_equal (@List.length N)) in H. rewrite app_length in H. cbn [List.length] in H. lia. }
  rewrite N. reflexivity.
Qed.

(** ... and of two collections with the same name the first is told twice. *)
Theorem C57_twice_refuted : forall D (getId : bytes -> N) (toDouble : bytes -> option D) ceqb sortTags show name fs1 fs2,
  (forall d, toDouble (show d) = Some d) -> (forall a b, getId a = getId b -> a = b) ->
  name <> [] -> ~ In 46%N name -> Forall (fun f => exists id, hasId (gProperties f) id) fs1 ->
  exists es, Forall2 (stands getId ceqb sortTags name) fs1 es /\
    parseJson getId toDouble ceqb sortTags (treeDocument show [(name, fs1); (name, fs2)]) = (es ++ es, JOk tt).
Proof.
  intros D getId toDouble ceqb sortTags show name fs1 fs2 SH INJ NE NI F.
  destruct (told_ok getId toDouble ceqb sortTags show SH INJ name fs1 [] F) as (es & G & E). rewrite app_nil_r in E. cbn [map told] in E. rewrite app_nil_r in E.
  exists es. split; [exact G|]. unfold parseJson. unfold treeDocument at 2. cbn [pchildren map fst snd parseFrom].
  rewrite (features_ok show [(name, fs1); (name, fs2)] name fs1 (conj NE NI)) by (cbn [alookup]; now rewrite beqb_refl).
  unfold array. cbn [pchildren]. rewrite E. rewrite app_nil_r. reflexivity.
Qed.

(** A minus before an identifier is dropped, so that -n and n collide. *)
Theorem C57_sign_refuted : forall v, v <> [] -> hd 0%N v <> 45%N -> parseId (45%N :: v) = parseId v.
Proof.
  intros [|c v] NE H; [contradiction|]. cbn in H |- *. destruct (N.eqb_spec c 45); [contradiction|]. reflexivity.
Qed.

(** A closed line of four positions or more is a way as LineString, but an area as the only line of a
    MultiLineString; both have the positions in reverse order, the closing one included. *)
Theorem C57_closed_refuted : forall D getId (toDouble : bytes -> option D) ceqb sortTags show name ps id c mid,
  (forall d, toDouble (show d) = Some d) -> (forall a b, getId a = getId b -> a = b) -> hasId ps id ->
  ceqb c c = true -> (2 <= List.length mid)%nat ->
  let line := c :: mid ++ [c] in
  let tags := tagsOf getId sortTags name ps in
  parseFeature getId toDouble ceqb sortTags (getId name) (treeFeature show (mkFeature ps (GLine line))) = JOk (JWay id tags (rev line)) /\
  parseFeature getId toDouble ceqb sortTags (getId name) (treeFeature show (mkFeature ps (GMultiLine [line]))) = JOk (JArea id tags (rev line)).
Proof.
  intros D getId toDouble ceqb sortTags show name ps id c mid SH INJ H CC L line tags.
  split; [exact (feature_ok getId toDouble ceqb sortTags show SH INJ name (mkFeature ps (GLine line)) id H)|].
  rewrite (feature_ok getId toDouble ceqb sortTags show SH INJ name (mkFeature ps (GMultiLine [line])) id H).
  cbn [gGeometry gProperties elementOf linesElement].
  f_equal. unfold lineElement, line. assert (E : last (c :: mid ++ [c]) c = c).
  { change (c :: mid ++ [c]) with ((c :: mid) ++ [c]). apply last_last. }
  destruct mid as [|m1 [|m2 mid]]; cbn [List.length] in L; try lia. cbn [app] in *. 
  change (last (c :: m1 :: m2 :: mid ++ [c]) c) with (last (c :: (m1 :: m2 :: mid) ++ [c]) c). cbn [app]. rewrite E, CC.
  destruct (mid ++ [c]) eqn:EM; [destruct mid; discriminate|]. reflexivity.
Qed.

(** Instances: numbers are bytes, names of strings are the strings read as numbers. *)
Definition codeId (s : bytes) : N := Npos (fold_left (fun p b => Nat.iter (N.to_nat b) xO (xI p)) s xH).
Lemma iter_xO2 : forall n m p q, Nat.iter n xO (xI p) = Nat.iter m xO (xI q) -> n = m /\ p = q.
Proof.
  induction n as [|n IH]; intros [|m] p q H; try discriminate.
  - injection H as ->. split; reflexivity.
  - change (xO (Nat.iter n xO (xI p)) = xO (Nat.iter m xO (xI q))) in H. injection H as H.
    destruct (IH m p q H) as (-> & ->). split; reflexivity.
Qed.
Lemma codeId_inj : forall a b, codeId a = codeId b -> a = b.
Proof.
  unfold codeId. intros a b [= H]. revert b H.
  assert (HD : forall l n p, fold_left (fun p b => Nat.iter (N.to_nat b) xO (xI p)) (l ++ [n]) p =
                Nat.iter (N.to_nat n) xO (xI (fold_left (fun p b => Nat.iter (N.to_nat b) xO (xI p)) l p))).
  { intros l n p. rewrite fold_left_app. reflexivity. }
  assert (NX : forall n p, Nat.iter n xO (xI p) <> xH) by (intros [|n] p; discriminate).
  induction a as [|x a IH] using rev_ind; intros b; destruct b as [|y b] using rev_ind.
  - reflexivity.
  - rewrite HD. cbn. intros H. now symmetry in H; apply NX in H.
  - rewrite HD. cbn. intros H. now apply NX in H.
  - rewrite !HD. intros H. apply iter_xO2 in H as (E1 & E2). apply N2Nat.inj in E1. subst. f_equal. now apply IH.
Qed.
Definition ceqN (a b : N * N) : bool := N.eqb (fst a) (fst b) && N.eqb (snd a) (snd b).
Definition oneNum (s : bytes) : option N := match s with [n] => Some n | _ => None end.
Definition exFeature : gfeature N := mkFeature [(str "id", str "-15"); (str "name", str "x")] (GPolygon [[(1, 2); (3, 4); (5, 6); (1, 2)]%N]).
Lemma exHas : hasId (gProperties exFeature) 15.
Proof. split; [repeat constructor; discriminate|reflexivity]. Qed.

Example C57_document_case : exists es, parseJson codeId oneNum ceqN (fun l => l) (treeDocument (fun n => [n]) [(str "a", [exFeature])]) = (es, JOk tt) /\
  Forall2 (fun nf e => stands codeId ceqN (fun l => l) (fst nf) (snd nf) e) [(str "a", exFeature)] es.
Proof.
  apply (C57_document_partial N codeId oneNum ceqN (fun l => l) (fun n => [n]) [(str "a", [exFeature])]).
  - reflexivity.
  - exact codeId_inj.
  - repeat constructor. intros [].
  - repeat constructor; [discriminate|]. cbn. intros [E|[]]. discriminate.
  - repeat constructor. exists 15%N. apply exHas.
Qed.
Example C57_element_case : parseFeature codeId oneNum ceqN (fun l => l) 7 (treeFeature (fun n => [n]) exFeature) =
  JOk (JArea 15 [(codeId (str "name"), codeId (str "x")); (codeId (str "feature"), 7%N)] [(1, 2); (5, 6); (3, 4); (1, 2)]%N).
Proof. reflexivity. Qed.
Example C57_broken_case : exists es, Forall2 (stands codeId ceqN (fun l => l) (str "a")) [exFeature] es /\
  parseJson codeId oneNum ceqN (fun l => l) (PT [] ((str "a", PT [] [(str "features", array (map (treeFeature (fun n => [n])) [exFeature] ++ [leaf []]))]) :: [])) = (es, JErr BadPath).
Proof.
  apply (C57_broken N codeId oneNum ceqN (fun l => l) (fun n => [n]) (str "a") [exFeature] (leaf []) [] []); try reflexivity.
  - exact codeId_inj.
  - discriminate.
  - cbn. intros [E|[]]. discriminate.
  - repeat constructor. exists 15%N. apply exHas.
Qed.
Example C57_sign_case : parseId (str "-15") = JOk 15%N /\ parseId (str "15") = JOk 15%N.
Proof. split; reflexivity. Qed.
Example C57_point_case : parseJson codeId oneNum ceqN (fun l => l) (PT [] [(str "a.b", treeCollection (fun n => [n]) [exFeature])]) = ([], JErr BadPath).
Proof. apply (C57_point_refuted N codeId oneNum ceqN (fun l => l) (str "a") 98%N []). cbn. intros [E|[]]. discriminate. Qed.
Example C57_height_case : parseCoordinate oneNum (array [leaf [1%N]; leaf [2%N]; leaf [3%N]]) = JErr BadGeometry.
Proof. apply C57_height_refuted. discriminate. Qed.

Example C57_closed_case : let line := [(1, 2); (3, 4); (5, 6); (1, 2)]%N in
  parseFeature codeId oneNum ceqN (fun l => l) 7 (treeFeature (fun n => [n]) (mkFeature [] (GLine line))) = JOk (JWay 0 [(codeId (str "feature"), 7%N)] (rev line)) /\
  parseFeature codeId oneNum ceqN (fun l => l) 7 (treeFeature (fun n => [n]) (mkFeature [] (GMultiLine [line]))) = JOk (JArea 0 [(codeId (str "feature"), 7%N)] (rev line)).
Proof. split; reflexivity. Qed.
Example C57_twice_case : let point n : gfeature N := mkFeature [(str "id", str n)] (GPoint (1, 2)%N) in
  let tags := [(codeId (str "feature"), codeId (str "a"))] in
  parseJson codeId oneNum ceqN (fun l => l) (treeDocument (fun n => [n]) [(str "a", [point "5"%string]); (str "a", [point "6"%string])]) =
  ([JNode 5 tags (1, 2)%N; JNode 5 tags (1, 2)%N], JOk tt).
Proof. vm_compute. reflexivity. Qed.

Print Assumptions C57_document_partial.
Print Assumptions C57_broken.
Print Assumptions C57_height_refuted.
Print Assumptions C57_kinds_refuted.
Print Assumptions C57_point_refuted.
Print Assumptions C57_twice_refuted.
Print Assumptions C57_sign_refuted.
Print Assumptions C57_closed_refuted.
