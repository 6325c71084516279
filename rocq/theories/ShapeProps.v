(** C56: importing shape files. *)
From Verif Require Import Base Bytes ElevModel ElevProofs ShapeModel ShapeSpec ShapeProofs.
Local Open Scope Z_scope.

(** A polygon as shapelib gives it is told as one relation of its rings, vertices in order, provided that
    what lies beyond the array of starts can be read; the value found there has no influence. *)
Theorem C56_polygon_partial : forall C ceqb g (s : shape C) starts tags, shKind s = KPolygon ->
  shStarts s = 0 :: starts -> ascending (shStarts s) -> Forall (fun st => st < Z.of_nat (length (shPoints s))) (shStarts s) ->
  shRings s = repeat true (length (shStarts s)) ->
  exists parts, concat parts = shPoints s /\ Forall (fun p => p <> []) parts /\ offsets 0 parts = shStarts s /\
    visitShape ceqb (Ok g) s tags = Ok [CRelation (map (fun p => mkMember true p) parts) tags].
Proof.
  intros C ceqb g s starts tags K ST A F R. rewrite ST in A, F. change 0 with (Z.of_nat 0) in A, F.
  destruct (cut_parts starts 0 (shPoints s) A F) as (parts & E1 & E2 & E3). change (Z.of_nat 0) with 0 in E3. rewrite <- ST in E3.
  exists parts. split; [exact E1|]. split; [exact E2|]. split; [exact E3|]. unfold visitShape. rewrite K.
  assert (P : polygonOf parts s).
  { repeat split; auto. rewrite R, <- E3. now rewrite offsets_length. }
  rewrite (polygon_run (Ok g) s parts tags P).
  - destruct (reads parts); reflexivity.
  - intros ->. cbn in E3. congruence.
Qed.

(** Exactly: that place is read unless the last ring has a single vertex, so for every real polygon. *)
Theorem C56_polygon_refuted : forall C ceqb past (s : shape C) parts p tags, polygonOf (parts ++ [p]) s ->
  visitShape ceqb past s tags =
    if (1 <? length p)%nat then bind past (fun _ => Ok [CRelation (map (fun q => mkMember true q) (parts ++ [p])) tags])
    else Ok [CRelation (map (fun q => mkMember true q) (parts ++ [p])) tags].
Proof.
  intros C ceqb past s parts p tags P. unfold visitShape. destruct P as (K & P). rewrite K.
  rewrite (polygon_run past s (parts ++ [p]) tags (conj K P)).
  - unfold reads. rewrite last_last. reflexivity.
  - destruct parts; discriminate.
Qed.

(** shapelib does not ask the first ring to begin at the first vertex; then a member is used which does
    not exist.  So it is for a polygon without rings. *)
Theorem C56_start_refuted : forall C ceqb past (s : shape C) tags, shKind s = KPolygon -> shPoints s <> [] ->
  (forall st starts, shStarts s = st :: starts -> st <> 0) -> (shStarts s = [] -> exists g, past = Ok g) ->
  visitShape ceqb past s tags = UB.
Proof.
  intros C ceqb past s tags K PN ST PA. unfold visitShape, visitPolygon. rewrite K. destruct (shPoints s) as [|c points]; [contradiction|].
  cbn [polygonFrom]. unfold partStart. destruct (shStarts s) as [|st starts].
  - destruct (PA eq_refl) as (g & ->). reflexivity.
  - cbn [nth_error bind]. specialize (ST st starts eq_refl). destruct (Z.eqb_spec st 0); [contradiction|].
    rewrite andb_false_r. reflexivity.
Qed.

(** An arc of one part is a way, or an area when its ends meet; other arcs and kinds are left out, and an
    arc without vertices is undefined. *)
Theorem C56_arc : forall C ceqb past (s : shape C) tags, shKind s = KArc ->
  ((1 < length (shStarts s))%nat -> visitShape ceqb past s tags = Ok []) /\
  ((length (shStarts s) <= 1)%nat -> shPoints s = [] -> visitShape ceqb past s tags = UB) /\
  ((length (shStarts s) <= 1)%nat -> forall a, shPoints s = [a] -> visitShape ceqb past s tags = Ok [CWay [a] tags (ceqb a a)]) /\
  ((length (shStarts s) <= 1)%nat -> forall a mid z, shPoints s = a :: mid ++ [z] ->
     visitShape ceqb past s tags = Ok [CWay (a :: mid ++ [z]) tags (ceqb a z)]).
Proof.
  intros C ceqb past s tags K. unfold visitShape, visitArc. rewrite K. split; [|split; [|split]].
  - intros L. destruct (Nat.ltb_spec 1 (length (shStarts s))); [reflexivity|lia].
  - intros L E. destruct (Nat.ltb_spec 1 (length (shStarts s))); [lia|]. rewrite E. reflexivity.
  - intros L a E. destruct (Nat.ltb_spec 1 (length (shStarts s))); [lia|]. rewrite E. reflexivity.
  - intros L a mid z E. destruct (Nat.ltb_spec 1 (length (shStarts s))); [lia|]. rewrite E. cbn [bind readAt Z.ltb Z.to_nat nth_error].
    change (readAt (a :: mid ++ [z]) 0) with (Ok a). cbn [bind].
    assert (R : readAt (a :: mid ++ [z]) (Z.of_nat (length (a :: mid ++ [z])) - 1) = Ok z).
    { unfold readAt. cbn [length]. rewrite app_length. cbn [length]. destruct (Z.ltb_spec (Z.of_nat (S (length mid + 1)) - 1) 0); [lia|].
      replace (Z.to_nat (Z.of_nat (S (length mid + 1)) - 1)) with (S (length mid)) by lia. cbn [nth_error].
      rewrite nth_error_app2, Nat.sub_diag by lia. reflexivity. }
    rewrite R. reflexivity.
Qed.

(** A whole file: when every record can be told, all are, in order, with their fields as tags, and both
    files are closed. *)
Theorem C56_file : forall C ceqb past (shapes : list (shape C)) t css, tFields t <> [] ->
  Forall2 (fun sv cs => visitShape ceqb past (fst sv) (parseTags (tFields t) (snd sv)) = Ok cs) (combine shapes (tRecords t)) css ->
  length shapes = length (tRecords t) ->
  parseShapes ceqb past (Some (map Some shapes)) (Some t) = mkRun (concat css) (Ok tt) 0.
Proof.
  intros C ceqb past shapes [fields values] css FN F L. cbn in *. unfold parseShapes. cbn [tFields tRecords].
  destruct (Nat.eqb_spec (length fields) 0) as [Z|_]; [destruct fields; [contradiction|discriminate]|].
  rewrite map_length, L, Nat.eqb_refl. cbn [negb]. clear FN. revert values css L F.
  induction shapes as [|s shapes IH]; intros [|v values] css L F; try discriminate; cbn [combine] in F; inversion F; subst.
  - reflexivity.
  - cbn [fst snd] in *. cbn [map records]. rewrite H1. rewrite (IH values l') by (auto; now injection L). reflexivity.
Qed.

(** A record which cannot be read ends the import; what came before has been told, and nothing after. *)
Theorem C56_broken : forall C ceqb past (shapes : list (shape C)) more t css, tFields t <> [] ->
  Forall2 (fun sv cs => visitShape ceqb past (fst sv) (parseTags (tFields t) (snd sv)) = Ok cs)
    (combine shapes (firstn (length shapes) (tRecords t))) css ->
  (length shapes + S (length more) = length (tRecords t))%nat ->
  parseShapes ceqb past (Some (map Some shapes ++ None :: more)) (Some t) = mkRun (concat css) (Throw DomainError) 2.
Proof.
  intros C ceqb past shapes more [fields values] css FN F L. cbn in *. unfold parseShapes. cbn [tFields tRecords].
  destruct (Nat.eqb_spec (length fields) 0) as [Z|_]; [destruct fields; [contradiction|discriminate]|].
  rewrite app_length, map_length. cbn [length]. rewrite L, Nat.eqb_refl. cbn [negb]. clear FN. revert values css L F.
  induction shapes as [|s shapes IH]; intros values css L F; cbn [length firstn combine] in F.
  - destruct values; inversion F; subst; reflexivity.
  - destruct values as [|v values]; [cbn in L; lia|]. cbn [combine firstn] in F. inversion F; subst. cbn [fst snd] in *.
    cbn [map app records]. rewrite H1. rewrite (IH values l') by (cbn in L; auto; lia). reflexivity.
Qed.

(** Files are left open exactly when the import fails after opening. *)
Theorem C56_open_refuted : forall C ceqb past shapes dbf,
  let r := @parseShapes C ceqb past (Some shapes) dbf in
  (rEnd r = Ok tt -> rOpen r = 0%nat) /\
  (rEnd r <> Ok tt -> rOpen r = match dbf with None => 1 | Some _ => 2 end%nat).
Proof.
  intros C ceqb past shapes [t|]; cbn zeta; unfold parseShapes; [|split; [discriminate|reflexivity]].
  destruct (length (tFields t) =? 0)%nat; [split; [discriminate|reflexivity]|].
  destruct (negb _); [split; [discriminate|reflexivity]|].
  destruct (records_open ceqb past (tFields t) shapes (tRecords t)) as [(A & B)|(A & B)]; rewrite B; split; intros H; congruence.
Qed.

(** The elements made: every identifier is 0, rings are areas, rings of one vertex nodes, and the
    counters tell how many of each kind were accepted. *)
Theorem C56_elements : forall C (accepted : selem C -> bool) cs,
  Forall (fun e => idOf e = 0) (map elementOf cs) /\
  (forall p : list C, memberElement (mkMember true p) = match p with [c] => SNode 0 c [] | _ => SArea 0 p [] end) /\
  (forall ms tags, elementOf (CRelation ms tags) = SRelation 0 (map (@memberElement C) ms) tags) /\
  let n := fold_left (countCall accepted) cs (mkCounts 0 0 0 0) in
  nNodes n = countOf (fun e => accepted e && isNode e) (map elementOf cs) /\
  nWays n = countOf (fun e => accepted e && isWay e) (map elementOf cs) /\
  nAreas n = countOf (fun e => accepted e && isArea e) (map elementOf cs) /\
  nRelations n = countOf (fun e => accepted e && isRelation e) (map elementOf cs).
Proof.
  intros C accepted cs. split.
  - apply Forall_forall. intros e I. apply in_map_iff in I as (c & <- & _). destruct c as [? ?|? ? []|? ?]; reflexivity.
  - split; [intros [|? [|? ?]]; reflexivity|]. split; [reflexivity|]. exact (counts_fold accepted cs (mkCounts 0 0 0 0)).
Qed.

(** Instances. *)
Definition exPoly : shape nat := mkShape KPolygon [0; 3] [true; true] [1; 2; 1; 4; 5; 6; 4]%nat.
Example C56_polygon_case : visitShape Nat.eqb (Ok 77) exPoly [] = Ok [CRelation [mkMember true [1; 2; 1]%nat; mkMember true [4; 5; 6; 4]%nat] []].
Proof. reflexivity. Qed.
Example C56_polygon_hyps : exists parts, concat parts = shPoints exPoly /\ Forall (fun p => p <> []) parts /\ offsets 0 parts = shStarts exPoly /\
  visitShape Nat.eqb (Ok 77) exPoly [] = Ok [CRelation (map (fun p => mkMember true p) parts) []].
Proof. apply (C56_polygon_partial _ _ _ exPoly [3]); try reflexivity; [cbn; lia|repeat constructor; cbn; lia]. Qed.
Example C56_polygon_refuted_case : visitShape Nat.eqb UB exPoly [] = UB.
Proof. exact (C56_polygon_refuted nat Nat.eqb UB exPoly [[1; 2; 1]%nat] [4; 5; 6; 4]%nat [] ltac:(repeat split; repeat constructor; discriminate)). Qed.
Example C56_start_case : visitShape Nat.eqb (Ok 0) (mkShape KPolygon [1] [true] [1; 2; 3]%nat) [] = UB.
Proof. apply C56_start_refuted; try discriminate; try reflexivity. intros st starts [= <- _]. discriminate. Qed.
Example C56_arc_case : visitShape Nat.eqb UB (mkShape KArc [0] [true] [1; 2; 1]%nat) [] = Ok [CWay [1; 2; 1]%nat [] true].
Proof. exact (proj2 (proj2 (proj2 (C56_arc nat Nat.eqb UB (mkShape KArc [0] [true] [1; 2; 1]%nat) [] eq_refl))) (le_n _) 1%nat [2%nat] 1%nat eq_refl). Qed.
Definition exT : table := mkTable [[97%N]; [98%N]] [[Some [49%N]; None]; [None; Some [50%N]]].
Example C56_file_case : parseShapes Nat.eqb (Ok 0) (Some (map Some [mkShape KPoint [] [] [7%nat]; exPoly])) (Some exT) =
  mkRun (concat [[CNode 7%nat [([97%N], [49%N])]]; [CRelation [mkMember true [1; 2; 1]%nat; mkMember true [4; 5; 6; 4]%nat] [([98%N], [50%N])]]]) (Ok tt) 0.
Proof. apply C56_file; [discriminate| |reflexivity]. repeat constructor. Qed.
Example C56_broken_case : parseShapes Nat.eqb (Ok 0) (Some (map Some [mkShape KPoint [] [] [7%nat]] ++ [None])) (Some exT) =
  mkRun (concat [[CNode 7%nat [([97%N], [49%N])]]]) (Throw DomainError) 2.
Proof. apply C56_broken; [discriminate| |reflexivity]. repeat constructor. Qed.
Example C56_elements_case : let cs := [CWay [1; 2; 1]%nat [] true; CWay [1; 2]%nat [] false; CNode 3%nat []] in
  fold_left (countCall (fun e => negb (isNode e))) cs (mkCounts 0 0 0 0) = mkCounts 0 1 1 0.
Proof. reflexivity. Qed.

Print Assumptions C56_polygon_partial.
Print Assumptions C56_polygon_refuted.
Print Assumptions C56_start_refuted.
Print Assumptions C56_arc.
Print Assumptions C56_file.
Print Assumptions C56_broken.
Print Assumptions C56_open_refuted.
Print Assumptions C56_elements.
