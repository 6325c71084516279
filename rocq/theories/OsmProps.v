(** C33: ways become ways and areas.  C35: resolution of relations. *)
From Coq Require Import QArith Lqa SetoidList SetoidPermutation Permutation.
From Verif Require Import Base Bytes ElementModel TagModel TagSpec TagProofs GeoModel RingModel RingSpec RingProofs RingProps OsmModel OsmSpec OsmProofs.
Local Open Scope nat_scope.

(** * C33 *)

Lemma coordsFrom_all {T} (st : octx T) ids cs :
  Forall2 (fun i c => exists nd, alookup N.eqb i (nodes st) = Some nd /\ ncoord nd = c) ids cs ->
  coordsFrom st ids = Ok cs.
Proof.
  induction 1 as [|i c ids cs (nd & E & <-) H IH]; cbn [coordsFrom]; [reflexivity|]. rewrite E, IH. reflexivity.
Qed.

(** A way with more than three nodes, the first and the last of which coincide: an area with the
    other points in this or in reverse order, counter-clockwise in exact arithmetic. *)
Theorem C33_closed (same : point Q -> point Q -> bool) intern sort id ids tags (st : octx Q) f m e :
  Forall2 (fun i c => exists nd, alookup N.eqb i (nodes st) = Some nd /\ ncoord nd = c) ids (f :: m ++ [e]) ->
  2 <= length m -> same f e = true ->
  exists st' ring, visitWay exactNums same intern sort id ids tags st = Ok st' /\
    alookup N.eqb id (areas st') = Some (mkLine ring (setTags intern sort [] tags)) /\
    (ring = f :: m \/ ring = rev (f :: m)) /\ (0 <= signedArea ring)%Q /\
    (forall x, x <> id -> alookup N.eqb x (areas st') = alookup N.eqb x (areas st)) /\
    nodes st' = nodes st /\ ways st' = ways st /\ rels st' = rels st /\ members st' = members st.
Proof.
  intros H L S. unfold visitWay. rewrite (coordsFrom_all _ _ _ H). cbn [omap bind].
  change (f :: m ++ [e]) with ((f :: m) ++ [e]). rewrite last_last, S, removelast_last, app_length. cbn [length].
  replace (3 <? Datatypes.S (length m) + 1) with true by (symmetry; apply Nat.ltb_lt; lia). cbn [app andb].
  do 2 eexists. split; [reflexivity|]. cbn [setAreas areas nodes ways rels members aset alookup]. rewrite N.eqb_refl.
  split; [reflexivity|]. split; [destruct (isClockwise _ _); auto|]. split.
  - destruct (isClockwise exactNums (f :: m)) eqn:C.
    + apply isClockwise_exact in C. rewrite area_rev. lra.
    + apply isClockwise_exact_false in C. exact C.
  - split; [|auto]. intros x D. destruct (N.eqb_spec x id); [contradiction|].
    clear -D. induction (areas st) as [|[k v] l IH]; [reflexivity|]. cbn [aremove alookup]. destruct (N.eqb_spec id k) as [<-|D'].
    + destruct (N.eqb_spec x id); [contradiction|auto].
    + cbn [alookup]. rewrite IH. reflexivity.
Qed.
Print Assumptions C33_closed.

(** Whatever the arithmetic, the area has the points in one of the two directions. *)
Theorem C33_points {T} (n : nums T) (same : point T -> point T -> bool) intern sort id ids tags (st : octx T) f m e :
  Forall2 (fun i c => exists nd, alookup N.eqb i (nodes st) = Some nd /\ ncoord nd = c) ids (f :: m ++ [e]) ->
  2 <= length m -> same f e = true ->
  exists st' ring, visitWay n same intern sort id ids tags st = Ok st' /\
    alookup N.eqb id (areas st') = Some (mkLine ring (setTags intern sort [] tags)) /\
    ring = (if isClockwise n (f :: m) then rev (f :: m) else f :: m).
Proof.
  intros H L S. unfold visitWay. rewrite (coordsFrom_all _ _ _ H). cbn [omap bind].
  change (f :: m ++ [e]) with ((f :: m) ++ [e]). rewrite last_last, S, removelast_last, app_length. cbn [length].
  replace (3 <? Datatypes.S (length m) + 1) with true by (symmetry; apply Nat.ltb_lt; lia). cbn [app andb].
  do 2 eexists. split; [reflexivity|]. cbn [setAreas areas aset alookup]. rewrite N.eqb_refl. auto.
Qed.
Print Assumptions C33_points.

(** Any other way keeps its points in order. *)
Theorem C33_open {T} (n : nums T) (same : point T -> point T -> bool) intern sort id ids tags (st : octx T) cs :
  Forall2 (fun i c => exists nd, alookup N.eqb i (nodes st) = Some nd /\ ncoord nd = c) ids cs ->
  (length cs <= 3 \/ exists f m e, cs = f :: m ++ [e] /\ same f e = false) ->
  exists st', visitWay n same intern sort id ids tags st = Ok st' /\
    alookup N.eqb id (ways st') = Some (mkLine cs (setTags intern sort [] tags)) /\
    nodes st' = nodes st /\ areas st' = areas st /\ rels st' = rels st /\ members st' = members st.
Proof.
  intros H C. unfold visitWay. rewrite (coordsFrom_all _ _ _ H). cbn [omap bind].
  assert (X : match cs with [] => false | f :: _ => (3 <? length cs) && same f (last cs f) end = false).
  { destruct C as [L|(f & m & e & -> & S)].
    - destruct cs; auto. replace (3 <? _) with false; auto. symmetry. apply Nat.ltb_ge. auto.
    - change (f :: m ++ [e]) with ((f :: m) ++ [e]). rewrite last_last, S. apply andb_false_r. }
  rewrite X. eexists. split; [reflexivity|]. cbn [setWays ways nodes areas rels members aset alookup]. rewrite N.eqb_refl. auto.
Qed.
Print Assumptions C33_open.

(** A way that refers to a node that is not in the data dereferences a null pointer. *)
Theorem C33_missing_refuted {T} (n : nums T) same intern sort :
  forall id ids tags (st : octx T) i, In i ids -> alookup N.eqb i (nodes st) = None ->
  visitWay n same intern sort id ids tags st = UB.
Proof.
  intros id ids tags st i I K. unfold visitWay. replace (coordsFrom st ids) with (@UB (list (point T))); [reflexivity|].
  induction ids as [|j ids IH]; [contradiction|]. cbn [coordsFrom]. destruct I as [->|I].
  - rewrite K. reflexivity.
  - rewrite <- (IH I). destruct (alookup N.eqb j _); reflexivity.
Qed.
Print Assumptions C33_missing_refuted.

Definition corner (i : N) (x y : Z) (st : octx Q) : octx Q := visitNode (fun _ => 0%N) insertionSort i (qp x y) [] st.
(** A clockwise square, and a triangle, which with its repeated node has just enough points. *)
Example C33_case :
  let st := corner 1 0 0 (corner 2 0 1 (corner 3 1 1 (corner 4 1 0 emptyCtx))) in
  exists st', visitWay exactNums qsame (fun _ => 0%N) insertionSort 9 [1; 2; 3; 4; 1]%N [] st = Ok st' /\
    alookup N.eqb 9%N (areas st') = Some (mkLine [qp 1 0; qp 1 1; qp 0 1; qp 0 0] []) /\
  exists st'', visitWay exactNums qsame (fun _ => 0%N) insertionSort 9 [1; 4; 3; 1]%N [] st = Ok st'' /\
    alookup N.eqb 9%N (areas st'') = Some (mkLine [qp 0 0; qp 1 0; qp 1 1] []) /\
  exists st3, visitWay exactNums qsame (fun _ => 0%N) insertionSort 9 [1; 4; 1]%N [] st = Ok st3 /\
    alookup N.eqb 9%N (ways st3) = Some (mkLine [qp 0 0; qp 1 0; qp 0 0] []).
Proof. vm_compute. do 3 (eexists; split; [reflexivity|split; [reflexivity|]] || (eexists; split; reflexivity)). Qed.

(** * C35 *)

(** Without cycles, and if no relation has the id of a node or way member, resolution ends and every
    relation is what is expected of its kind - of plain relations the members in the data, an id
    once; of buildings those that are no outline; of multipolygons the assembled areas - but
    of the latter two possibly several times over: once if no other relation refers to it or if it
    has as many elements as members.  Any order of the hash map. *)
Theorem C35_resolved {T} (n : nums T) same sort typeK multiV buildV rank st0 order fuel :
  isSort sort -> typeK <> noId -> multiV <> noId -> buildV <> noId ->
  (forall x, nlt n x x = false) -> (forall x y z, nlt n x y = true -> nlt n y z = true -> nlt n x z = true) ->
  scene typeK rank st0 -> NoDup order -> (forall r, In r order -> rank r < fuel) ->
  exists st' items, complete n same sort typeK multiV buildV fuel order st0 = Some (Ok (st', items)) /\
    forall r, In r order -> known (rels st0) r = true ->
    exists k, 1 <= k /\ elementsOf st' r = copies k (expected n same typeK multiV buildV st0 r) /\
      (kindR typeK multiV buildV st0 r = Plain \/ ~ referenced st0 r \/
       length (expected n same typeK multiV buildV st0 r) = length (mem st0 r) ->
       elementsOf st' r = expected n same typeK multiV buildV st0 r).
Proof.
  intros SO A B C I TR SC ND L. unfold complete.
  assert (EL : forall x, elementsOf st0 x = []).
  { intros x. unfold elementsOf. destruct (alookup N.eqb x (rels st0)) as [e|] eqn:E; auto. apply (sc_rels _ _ _ SC x e E). }
  destruct (resolveAll_spec n same sort typeK multiV buildV rank st0 SO A B C I TR SC fuel order st0 L) as (st' & -> & S & _ & _ & D & _ & F).
  { apply (stat_init typeK rank); auto. }
  { intros x _. left. apply EL. }
  cbn [obind]. do 2 eexists. split; [reflexivity|]. intros r Ir Kr. destruct (D r Ir Kr) as [(k & K1 & K2) K3].
  exists k. split; auto. split; auto. intros [X|[X|X]]; auto.
Qed.
Print Assumptions C35_resolved.

(** What is added: every relation, node, way and area that was visited, once, whatever is resolved. *)
Theorem C35_added {T} (n : nums T) same sort typeK multiV buildV rank st0 order fuel :
  isSort sort -> typeK <> noId -> multiV <> noId -> buildV <> noId ->
  (forall x, nlt n x x = false) -> (forall x y z, nlt n x y = true -> nlt n y z = true -> nlt n x z = true) ->
  scene typeK rank st0 -> (forall r, In r order -> rank r < fuel) ->
  exists st', complete n same sort typeK multiV buildV fuel order st0 = Some (Ok (st',
    map IRel (map fst (rels st0)) ++ map INode (map fst (nodes st0)) ++ map IWay (map fst (ways st0)) ++ map IArea (map fst (areas st0)))).
Proof.
  intros SO A B C I TR SC L. unfold complete.
  assert (EL : forall x, elementsOf st0 x = []).
  { intros x. unfold elementsOf. destruct (alookup N.eqb x (rels st0)) as [e|] eqn:E; auto. apply (sc_rels _ _ _ SC x e E). }
  destruct (resolveAll_spec n same sort typeK multiV buildV rank st0 SO A B C I TR SC fuel order st0 L) as (st' & -> & S & _).
  { apply (stat_init typeK rank); auto. }
  { intros x _. left. apply EL. }
  cbn [obind]. exists st'. unfold added. rewrite !map_map.
  rewrite <- !(map_map fst IRel), <- !(map_map fst INode), <- !(map_map fst IWay), <- !(map_map fst IArea).
  rewrite (s_nodes _ _ _ S), (s_rels _ _ _ S), (proj_fst _ _ _ (s_ways _ _ _ S)), (proj_fst _ _ _ (s_areas _ _ _ S)).
  reflexivity.
Qed.
Print Assumptions C35_added.

(** If the ids of the members differ, plain relations get all of them that are in the data. *)
Theorem C35_plain_all {T} (st0 : octx T) ms :
  NoDup (map itemId (flat_map (memberItem st0) ms)) -> plainItems st0 ms = flat_map (memberItem st0) ms.
Proof.
  unfold plainItems. generalize (flat_map (memberItem st0) ms). intros l.
  assert (G : forall l seen, NoDup (map itemId l) -> (forall i, In i l -> ~ In (itemId i) seen) -> firsts seen l = (l : list (item T))).
  { clear. induction l as [|i l IH]; intros seen ND H; cbn [firsts]; auto. inversion ND as [|? ? N1 N2]; subst.
    destruct (existsb (N.eqb (itemId i)) seen) eqn:E.
    - exfalso. apply existsb_exists in E as (y & Y & E). apply N.eqb_eq in E. subst y. apply (H i); auto. left; auto.
    - f_equal. apply IH; auto. intros j J [X|X]; [apply N1; rewrite X; apply in_map; auto|apply (H j); auto; right; auto]. }
  intros ND. apply G; auto.
Qed.
Print Assumptions C35_plain_all.

Definition rel (r : N) : member := mkMember r TOther RNone.
(** Data with a plain relation of everything, a building and a multipolygon of two half rings. *)
Definition town : octx Q :=
  mkCtx [(1, mkNode (qp 5 5) [])]%N
    [(11, mkLine [qp 0 0; qp 4 0; qp 4 4] []); (12, mkLine [qp 4 4; qp 0 4; qp 0 0] [])]%N
    [(13, mkLine [qp 8 8; qp 9 8; qp 9 9] [mkTag 7 8])]%N
    [(21, mkRel [mkTag 1 2] []); (22, mkRel [mkTag 1 3] []); (23, mkRel [] [])]%N
    [(21, [mkMember 11 TWay ROuter; mkMember 12 TWay ROuter]);
     (22, [mkMember 13 TWay ROutline; mkMember 1 TNode RNone]);
     (23, [mkMember 1 TNode RNone; rel 21; rel 22; mkMember 11 TWay RNone; mkMember 1 TNode RNone; mkMember 99 TNode RNone])]%N.
Definition townRank (r : N) : nat := if N.eqb r 23 then 1 else 0.
Definition runTown order := complete exactNums qsame insertionSort 1 2 3 2 order town.
Definition shape (i : item Q) : N := match i with INew _ => 0%N | _ => itemId i end.

Example C35_case : scene 1 townRank town /\
  (forall order, In order [[21; 22; 23]; [23; 21; 22]]%N -> NoDup order /\ forall r, In r order -> townRank r < 2).
Proof.
  split.
  - constructor.
    + assert (G : forall v, goodTags 1 [mkTag 1 v]).
      { intros v. split; [repeat constructor|]. split; [|repeat constructor; vm_compute; discriminate].
        intros v1 v2 [H1|[]] [H2|[]]. congruence. }
      assert (G0 : goodTags 1 []) by (split; [constructor|split; [intros v v' []|constructor]]).
      intros r e. unfold town. cbn [rels alookup].
      repeat (destruct (N.eqb r _); [intros H; injection H as <-; split; [reflexivity|apply G || apply G0]|]). discriminate.
    + intros r. unfold town, known. cbn [rels existsb fst members alookup]. repeat (destruct (N.eqb r _); [intros _; eexists; reflexivity|]). discriminate.
    + intros r ms m H I TO K. unfold town in H. cbn [members alookup] in H.
      repeat match type of H with context [N.eqb r ?k] => destruct (N.eqb_spec r k) as [->|_] end;
        [| | |discriminate]; injection H as <-; cbn [In] in I;
        repeat (destruct I as [<-|I]; try discriminate; try (vm_compute; lia)); contradiction.
    + intros r ms m H I TO. unfold town in H. cbn [members alookup] in H.
      repeat match type of H with context [N.eqb r ?k] => destruct (N.eqb_spec r k) as [->|_] end;
        [| | |discriminate]; injection H as <-; cbn [In] in I;
        repeat (destruct I as [<-|I]; try (exfalso; apply TO; reflexivity); try reflexivity); contradiction.
    + intros a l. unfold town. cbn [areas alookup]. destruct (N.eqb a 13); [|discriminate]. intros H. injection H as <-.
      split; [discriminate|]. repeat constructor; vm_compute; discriminate.
  - intros order [<-|[<-|[]]]; (split; [repeat constructor; cbn; intuition discriminate|]); intros r; cbn; intuition (subst; vm_compute; lia).
Qed.

(** The multipolygon and the building resolved in their turns only, or also for the relation they are
    members of: then, whichever comes first, the area and the building's node are there twice. *)
Theorem C35_duplicates_refuted :
  (exists st items, runTown [21; 22; 23]%N = Some (Ok (st, items)) /\
     map shape (elementsOf st 21%N) = [0; 0]%N /\ map shape (elementsOf st 22%N) = [1; 1]%N) /\
  (exists st items, complete exactNums qsame insertionSort 1 2 3 2 [21; 22]%N town = Some (Ok (st, items)) /\
     map shape (elementsOf st 21%N) = [0]%N /\ map shape (elementsOf st 22%N) = [1]%N) /\
  (exists st items, runTown [23; 21; 22]%N = Some (Ok (st, items)) /\
     map shape (elementsOf st 21%N) = [0; 0]%N /\ map shape (elementsOf st 22%N) = [1; 1]%N /\
     map shape (elementsOf st 23%N) = [1; 21; 22; 11]%N).
Proof. repeat split; do 2 eexists; vm_compute; repeat split; reflexivity. Qed.
Print Assumptions C35_duplicates_refuted.

(** Relations in a cycle of three: unbounded recursion. *)
Theorem C35_cycle_refuted {T} (n : nums T) same sort typeK multiV buildV : typeK <> noId -> multiV <> noId -> buildV <> noId ->
  let st := mkCtx (T := T) [] [] [] [(1, mkRel [] []); (2, mkRel [] []); (3, mkRel [] [])]%N
    [(1, [rel 2]); (2, [rel 3]); (3, [rel 1])]%N in
  forall fuel, complete n same sort typeK multiV buildV fuel [1; 2; 3]%N st = None.
Proof.
  intros A B C st.
  assert (K : kindOf typeK multiV buildV [] = Ok Plain).
  { unfold kindOf, hasTag, getTagValue. cbn. destruct (N.eqb_spec multiV noId); [contradiction|]. destruct (N.eqb_spec buildV noId); [contradiction|]. reflexivity. }
  assert (H : forall fuel, resolve n same sort typeK multiV buildV fuel 1 st = None /\
     resolve n same sort typeK multiV buildV fuel 2 st = None /\ resolve n same sort typeK multiV buildV fuel 3 st = None).
  { induction fuel as [|fuel (I1 & I2 & I3)]; [repeat split; reflexivity|].
    repeat split; cbn [resolve st rels members alookup N.eqb Pos.eqb relems rtags length Nat.eqb]; rewrite K;
      cbn [visitMembers target rel mtype refId option_map st rels alookup N.eqb Pos.eqb];
      unfold visitPlain, isAlreadyProcessed, hasReferenceToParent, elementsOf;
      cbn [st rels members alookup N.eqb Pos.eqb relems existsb orb refId rel]; [rewrite I2|rewrite I3|rewrite I1]; reflexivity. }
  intros fuel. unfold complete. cbn [resolveAll st rels alookup N.eqb Pos.eqb]. rewrite (proj1 (H fuel)). reflexivity.
Qed.
Print Assumptions C35_cycle_refuted.

(** A building that is a member of itself, and a multipolygon with a way that is not in the data and
    whose id is that of the relation. *)
Theorem C35_self_refuted {T} (n : nums T) same sort :
  (let st := mkCtx (T := T) [] [] [] [(5, mkRel [mkTag 1 3] [])]%N [(5, [rel 5])]%N in
   forall fuel, complete n same sort 1 2 3 fuel [5]%N st = None) /\
  (let st := mkCtx (T := T) [] [] [] [(5, mkRel [mkTag 1 2] [])]%N [(5, [mkMember 5 TWay ROuter])]%N in
   forall fuel, complete n same sort 1 2 3 fuel [5]%N st = None).
Proof.
  split; intros st.
  - assert (H : forall fuel, resolve n same sort 1 2 3 fuel 5 st = None).
    { induction fuel as [|fuel IH]; [reflexivity|]. cbn [resolve st rels members alookup N.eqb Pos.eqb relems rtags length Nat.eqb].
      replace (kindOf 1 2 3 [mkTag 1 3]) with (Ok Building) by (vm_compute; reflexivity).
      cbn [visitMembers target rel mtype refId option_map st rels alookup N.eqb Pos.eqb visitBuilding]. rewrite IH. reflexivity. }
    intros fuel. unfold complete. cbn [resolveAll st rels alookup N.eqb Pos.eqb]. rewrite (H fuel). reflexivity.
  - assert (H : forall fuel, resolve n same sort 1 2 3 fuel 5 st = None).
    { induction fuel as [|fuel IH]; [reflexivity|]. cbn [resolve st rels members alookup N.eqb Pos.eqb relems rtags length Nat.eqb].
      replace (kindOf 1 2 3 [mkTag 1 2]) with (Ok Multipolygon) by (vm_compute; reflexivity).
      unfold processMulti. cbn [scan mtype refId st ways areas rels alookup N.eqb Pos.eqb]. rewrite IH. reflexivity. }
    intros fuel. unfold complete. cbn [resolveAll st rels alookup N.eqb Pos.eqb]. rewrite (H fuel). reflexivity.
Qed.
Print Assumptions C35_self_refuted.

(** Ids are compared regardless of the kind of element: of a node and a way with one id only the
    first becomes an element; a relation is left out if one of its nodes has the id of the parent. *)
Theorem C35_ids_refuted :
  let run st := match complete exactNums qsame insertionSort 1 2 3 5 [7; 8]%N st with
                | Some (Ok (st', _)) => Some (elementsOf st' 7%N) | _ => None end in
  run (mkCtx [(1, mkNode (qp 5 5) [])] [(1, mkLine [qp 0 0] [])] [] [(7, mkRel [] [])]
         [(7, [mkMember 1 TNode RNone; mkMember 1 TWay RNone])])%N = Some [INode 1%N] /\
  run (mkCtx [(7, mkNode (qp 5 5) []); (6, mkNode (qp 6 6) [])] [] [] [(7, mkRel [] []); (8, mkRel [] [])]
         [(7, [mkMember 6 TNode RNone; rel 8]); (8, [mkMember 7 TNode RNone])])%N = Some [INode 6%N].
Proof. vm_compute. auto. Qed.
Print Assumptions C35_ids_refuted.

(** * C34: the choice between the simple and the complex case *)

Lemma partition_perm {A B} (p : A -> bool) (g : A -> B) l :
  Permutation (map g (filter p l) ++ map g (filter (fun x => negb (p x)) l)) (map g l).
Proof.
  induction l as [|x l IH]; [constructor|]. cbn [filter map]. destruct (p x); cbn [negb map app].
  - constructor. exact IH.
  - rewrite <- Permutation_middle. constructor. exact IH.
Qed.

(** Whatever the roles: the areas are those of closed rings that use every segment at most once. *)
Theorem C34_process {T} (n : nums T) (same : point T -> point T -> bool) (R : point T -> point T -> Prop) :
  Equivalence R -> (forall a b, same a b = true -> R a b) ->
  (forall x, nlt n x x = false) -> (forall x y z, nlt n x y = true -> nlt n y z = true -> nlt n x z = true) ->
  forall seqs, Forall (fun s => scoords (snd s) <> []) seqs ->
  exists areas rings lost, assemble n same seqs = Some (Ok areas) /\
    sameEdges R (edgesOf rings ++ lost) (edgesOf (map snd seqs)) /\
    Forall2 (fun r a => closedLine same (scoords r) /\
      exists f m e, scoords r = f :: m ++ [e] /\ (ringCoords a = f :: m \/ ringCoords a = rev (f :: m))) rings areas.
Proof.
  intros ER SR I TR seqs F.
  assert (FS : Forall (fun s => scoords s <> []) (map snd seqs)) by (clear -F; induction F; constructor; auto).
  assert (COMPLEX : exists areas rings lost, complexCase same (isClockwise n) (isPointInPolygon n) (map snd seqs) = Some (Ok areas) /\
    sameEdges R (edgesOf rings ++ lost) (edgesOf (map snd seqs)) /\
    Forall2 (fun r a => closedLine same (scoords r) /\
      exists f m e, scoords r = f :: m ++ [e] /\ (ringCoords a = f :: m \/ ringCoords a = rev (f :: m))) rings areas).
  { destruct (C34_rings same R ER SR (map snd seqs) FS) as (rings & lost & E & CL & ED).
    destruct (C34_areas n same (isClockwise n) I TR rings CL) as (areas & groups & E2 & P & _ & A).
    exists areas, (map snd (flat_map (fun g => (true, fst g) :: map (pair false) (snd g)) groups)), lost.
    assert (PM : Permutation rings (map snd (flat_map (fun g : sequence (point T) * list (sequence (point T)) => (true, fst g) :: map (pair false) (snd g)) groups))).
    { rewrite P. clear. induction groups as [|[o i] groups IH]; [constructor|]. cbn [flat_map map fst snd app]. rewrite map_app, map_map. cbn [snd].
      rewrite map_id. constructor. apply Permutation_app_head. exact IH. }
    split; [unfold complexCase; rewrite E; exact E2|]. split.
    - eapply same_trans; auto; [|exact ED]. apply same_app; auto; [|apply same_refl; auto]. apply same_perm; auto.
      unfold edgesOf. apply Permutation_flat_map. symmetry. exact PM.
    - assert (CL' := Permutation_Forall PM CL). clear -A CL'. induction A as [|g a gs as_ H1 H2 IH]; cbn [map]; constructor.
      + split; [|apply H1]. cbn [map] in CL'. inversion CL'; auto.
      + apply IH. cbn [map] in CL'. inversion CL'; auto. }
  unfold assemble. assert (PP := partition_perm fst (@snd bool (sequence (point T))) seqs).
  destruct (map snd (filter fst seqs)) as [|o [|o' os]]; auto.
  destruct (forallb _ seqs) eqn:AC; auto.
  set (inners := map snd (filter (fun s => negb (fst s)) seqs)) in *.
  assert (CL : Forall (fun r => closedLine same (scoords r)) (o :: inners)).
  { eapply Permutation_Forall; [symmetry; exact PP|]. rewrite Forall_forall. intros r Hr. apply in_map_iff in Hr as (s & <- & Hs).
    rewrite forallb_forall in AC. apply isClosed_spec. auto. }
  destruct (C34_simple same (isClockwise n) o inners CL) as (areas & -> & A).
  exists areas, (o :: inners), []. split; [reflexivity|]. split.
  - rewrite app_nil_r. apply same_perm; auto. unfold edgesOf. apply Permutation_flat_map. exact PP.
  - assert (A' : Forall2 (fun r a => exists f m e, scoords r = f :: m ++ [e] /\ (ringCoords a = f :: m \/ ringCoords a = rev (f :: m)))
        (map snd ((true, o) :: map (pair false) inners)) areas).
    { clear -A. induction A as [|g a gs as_ (_ & f & m & e & E & H) H2 IH]; cbn [map]; constructor; auto.
      exists f, m, e. split; auto. rewrite H. destruct (Bool.eqb _ _); auto. }
    cbn [map snd] in A'. rewrite map_map in A'. cbn [snd] in A'. rewrite map_id in A'.
    clear -A' CL. induction A' as [|g a gs as_ H1 H2 IH]; constructor; inversion CL; auto.
Qed.
Print Assumptions C34_process.

(** One outer way that is not closed, another that is. *)
Example C34_process_case :
  assemble exactNums qsame [(true, mkSeq 1%N [qp 0 0; qp 1 0; qp 1 1])] = Some (Ok []) /\
  exists a, assemble exactNums qsame [(true, mkSeq 1%N [qp 0 0; qp 1 0; qp 1 1; qp 0 0])] = Some (Ok [a]) /\ length (ringCoords a) = 3.
Proof. vm_compute. split; [reflexivity|]. eexists; split; reflexivity. Qed.
