(** C29, C30: building a tile, the mesh pool. *)
From Verif Require Import Base Bytes BytesProofs ElementModel MeshModel StyleModel StyleSpec StyleProofs BuildModel BuildSpec BuildProofs.
From Coq Require Import Permutation Sorted.
Local Open Scope nat_scope.

(** C29.  Every builder gets an element with a non-zero id at most once per tile, whatever the
    stores deliver. *)
Theorem C29_at_most_once : forall styleOf factories order es name i,
  (forall e, NoDup (sbuilders (styleOf e))) -> i <> 0%N ->
  length (List.filter (visits name i) (build styleOf factories order es)) <= 1.
Proof.
  intros st fs order es name i D Hi. unfold build, completeAll. rewrite filter_app, app_length.
  assert (O := build_once st fs D es name i Hi).
  assert (T : List.filter (visits name i) (map Complete (order (vbuilders (fold_left (visit st fs) es newVisitor)))) = []).
  { induction (order _) as [|n l IH]; cbn; auto. }
  rewrite T. cbn [length]. destruct (existsb _ _); lia.
Qed.

(** What a builder gets is a delivered element, or a part of a clipped one, whose style names
    the builder. *)
Theorem C29_only_styled : forall styleOf factories order es name x,
  In (Visit name x) (build styleOf factories order es) ->
  In x (flat_map parts es) /\ In name (sbuilders (styleOf x)) /\ sdecls (styleOf x) <> [].
Proof.
  intros st fs order es name x H. unfold build, completeAll in H. apply in_app_or in H as [H|H].
  - apply (build_justified st fs es name x H).
  - apply in_map_iff in H as (n & E & _). discriminate.
Qed.

(** And everything with a style is built: an element without id always, one with an id when
    nothing earlier carries the id. *)
Theorem C29_built : forall styleOf factories order pre e post before x after name,
  parts e = before ++ x :: after -> sdecls (styleOf x) <> [] -> In name (sbuilders (styleOf x)) ->
  eid x = 0%N \/
  (~ In (eid x) (flat_map idsOf pre) /\ ~ In (eid x) (map eid before) /\ (e = x \/ eid x <> eid e)) ->
  In (Visit name x) (build styleOf factories order (pre ++ e :: post)).
Proof.
  intros st fs order pre e post bf x af name P S N C. unfold build, completeAll. apply in_or_app. left.
  eapply build_built; eauto.
Qed.

(** A builder that is used is created and prepared once, before its first element, gets its
    elements, and is completed once, after its last one; a builder that is not used is left
    alone. *)
Theorem C29_lifecycle : forall styleOf factories order es name,
  (forall l, Permutation l (order l)) ->
  List.filter (about name) (build styleOf factories order es) = [] \/
  exists external visited, visited <> [] /\
    List.filter (about name) (build styleOf factories order es) =
    Create name external :: map (Visit name) visited ++ [Complete name] /\
    (external = true <-> ~ In name factories).
Proof.
  intros st fs order es name P. unfold build, completeAll. rewrite filter_app.
  destruct (build_lifecycle st fs es) as (D & O & I). set (v := fold_left (visit st fs) es newVisitor) in *.
  assert (D' := Permutation_NoDup (P (vbuilders v)) D).
  assert (F : forall l, NoDup l -> List.filter (about name) (map Complete l) = if existsb (beqb name) l then [Complete name] else []).
  { induction 1 as [|n l N1 D1 IH]; auto. cbn [map List.filter about existsb]. rewrite IH.
    destruct (beqb n name) eqn:B.
    - apply beqb_eq in B as ->. rewrite beqb_refl. cbn [orb].
      destruct (existsb (beqb name) l) eqn:X; auto. apply existsb_beqb in X. contradiction.
    - assert (B' : beqb name n = false).
      { destruct (beqb name n) eqn:Y; auto. apply beqb_eq in Y as ->. rewrite beqb_refl in B. discriminate. }
      rewrite B'. reflexivity. }
  rewrite F by auto. destruct (existsb (beqb name) (order (vbuilders v))) eqn:X.
  - right. apply existsb_beqb in X. apply (Permutation_in _ (Permutation_sym (P _))) in X.
    destruct (I name X) as (xs & -> & NE). exists (negb (existsb (beqb name) fs)), xs.
    split; auto. split; auto. rewrite negb_true_iff. split.
    + intros E H. apply existsb_beqb in H. congruence.
    + intros H. destruct (existsb (beqb name) fs) eqn:Y; auto. apply existsb_beqb in Y. contradiction.
  - left. rewrite O; auto. intros H. apply (Permutation_in _ (P _)) in H. apply existsb_beqb in H. congruence.
Qed.

(** The style provider of StyleModel meets the hypothesis of C29_at_most_once. *)
Theorem C29_styles_fit : forall intern text num f l e, NoDup (sbuilders (forElement intern text num f e l)).
Proof.
  intros intern text num f l e.
  assert (A : stringsAscending (sbuilders (forElement intern text num f e l))).
  { assert (E0 : stringsAscending (sbuilders emptyStyle)) by constructor.
    assert (G : forall fs b, stringsAscending (sbuilders (fst b)) ->
      stringsAscending (sbuilders (fst (buildFromCondition intern text num false (etags e) fs b)))).
    { induction fs as [|g fs IH]; intros b H; cbn [buildFromCondition]; auto.
      destruct (matchFilter text num (etags e) g); auto. apply IH. cbn [fst]. apply put_builders; auto. }
    unfold forElement, checkOrBuild, buildFromIdentifier.
    destruct (alookup Z.eqb l (fElements f)) as [m|]; [destruct (alookup N.eqb (eid e) m) as [ds|]|].
    - cbn [fst]. apply put_builders; auto.
    - destruct (alookup Z.eqb l (filtersFor f e)); [apply G|]; auto.
    - destruct (alookup Z.eqb l (filtersFor f e)); [apply G|]; auto. }
  induction A as [|x xs S IH F]; constructor; auto. intros H. rewrite Forall_forall in F. specialize (F x H).
  assert (Irr : forall y, bltb y y = false).
  { induction y as [|c y IHy]; cbn; auto. rewrite N.ltb_irrefl, N.eqb_refl, IHy. reflexivity. }
  rewrite Irr in F. discriminate.
Qed.

(** A builder named "p", and a style that gives it to elements with tags. *)
Definition nameP : bytes := [112%N].
Definition styleP (e : element) : style :=
  match etags e with [] => emptyStyle | _ => mkStyle [(1%N, nameP)] [nameP] end.
Definition partOf (i x : N) : element := Way i [mkTag 1 2] [mkCoord x 0; mkCoord x 1].
(** Way 7, cut by the tile border into two parts (ElementGeometryClipper.cpp:112-126). *)
Definition clippedWay : element := Relation 7 [] [partOf 0 1; partOf 0 2].

(** The parts of a clipped element carry no id, so nothing prevents building them again when the
    element is delivered twice, although the id 7 has been recorded. *)
Theorem C29_clipped_refuted :
  exists styleOf factories order es name x,
    (forall e, NoDup (sbuilders (styleOf e))) /\ es = [clippedWay; clippedWay] /\
    length (List.filter (fun v => match v with Visit n y => (beqb n name && N.eqb (eid y) 0)%bool | _ => false end)
              (build styleOf factories order es)) = 4 /\
    In (Visit name x) (build styleOf factories order es) /\
    (* an unclipped element is built once *)
    length (List.filter (visits name 7) (build styleOf factories order [partOf 7 1; partOf 7 1])) = 1.
Proof.
  exists styleP, [nameP], (fun l => l), [clippedWay; clippedWay], nameP, (partOf 0 1).
  split.
  - intros e. unfold styleP. destruct (etags e); repeat constructor. intros [].
  - split; [reflexivity|]. split; [vm_compute; reflexivity|]. split; [|vm_compute; reflexivity].
    vm_compute. right; left; reflexivity.
Qed.

(** Parts of an element that was clipped inside a relation without tags are lost: the visitor
    looks at the relation's members only, and the clipped member has no tags, hence no
    style. *)
Theorem C29_nested_refuted :
  exists styleOf factories order,
    In (Visit nameP (partOf 0 1)) (build styleOf factories order [clippedWay]) /\
    build styleOf factories order [Relation 9 [] [clippedWay]] = [].
Proof.
  exists styleP, [nameP], (fun l => l). split; vm_compute; auto.
Qed.

(** Two ways, one of them delivered by two stores, and a clipped way: built once, in order. *)
Example C29_case :
  build styleP [nameP] (fun l => l) [partOf 3 1; partOf 4 1; clippedWay; partOf 3 1; partOf 7 9] =
  [Create nameP false; Visit nameP (partOf 3 1); Visit nameP (partOf 4 1); Visit nameP (partOf 0 1);
   Visit nameP (partOf 0 2); Complete nameP].
Proof. vm_compute. reflexivity. Qed.

Print Assumptions C29_at_most_once.
Print Assumptions C29_only_styled.
Print Assumptions C29_built.
Print Assumptions C29_lifecycle.
Print Assumptions C29_styles_fit.
Print Assumptions C29_clipped_refuted.
Print Assumptions C29_nested_refuted.

(** C30.  A mesh from the pool is empty and has the requested name, whatever meshes were
    released before. *)
Theorem C30_empty : forall cap p held name isLower m p',
  poolUse cap (p, held) -> getMesh cap p name isLower = (m, p') -> pmeshOf m = mkMesh name [] [] [] [] [].
Proof.
  intros cap p held name lo m p' U G. destruct (poolUse_ok _ _ U) as [S E _ _]. cbn [fst snd] in *.
  unfold getMesh in G. destruct (takeFirst _ (pmap p)) as [[x rest]|] eqn:T; [|injection G as <- _; reflexivity].
  apply takeFirst_some in T as (k & b & a & L & _). injection G as <- _. cbn [pmeshOf].
  destruct (E k x) as (_ & V & Tr & C & Uv & M); [rewrite L; apply in_or_app; right; left; auto|].
  rewrite V, Tr, C, Uv, M. reflexivity.
Qed.

(** No mesh is in use twice, or in use and in the pool. *)
Theorem C30_no_sharing : forall cap p held,
  poolUse cap (p, held) -> NoDup (map pid held ++ map (fun e => pid (snd e)) (pmap p)).
Proof. intros cap p held U. apply (ok_nodup _ (poolUse_ok _ _ U)). Qed.

(** Which mesh: getSmall takes the pooled mesh with the smallest capacity, getLarge the smallest
    one above the threshold; a new mesh is made only if there is none. *)
Theorem C30_choice : forall cap p held name isLower m p',
  poolUse cap (p, held) -> getMesh cap p name isLower = (m, p') ->
  let fits k := isLower = true \/ (20480 < k)%N in
  (exists m0, In (pcap m, m0) (pmap p) /\ pid m = pid m0 /\ fits (pcap m) /\
     (forall k m1, In (k, m1) (pmap p) -> fits k -> (pcap m <= k)%N) /\
     (forall e, In e (pmap p') <-> In e (pmap p) /\ e <> (pcap m, m0))) \/
  ((forall k m1, In (k, m1) (pmap p) -> ~ fits k) /\ pmap p' = pmap p /\ pcap m = cap /\
   ~ In (pid m) (map pid held ++ map (fun e => pid (snd e)) (pmap p))).
Proof.
  intros cap p held name lo m p' U G fits. destruct (poolUse_ok _ _ U) as [S E B D]. cbn [fst snd] in *.
  assert (Fit : forall k, (if lo then N.leb 0 k else N.ltb thresholdSize k) = true <-> fits k).
  { intros k. unfold fits, thresholdSize. destruct lo; [|rewrite N.ltb_lt; intuition; discriminate].
    split; auto. intros _. apply N.leb_le. lia. }
  unfold getMesh in G. destruct (takeFirst _ (pmap p)) as [[x rest]|] eqn:T.
  - apply takeFirst_some in T as (k & b & a & L & R & O & F). injection G as <- <-. cbn [pid pcap pmap]. left.
    assert (I : In (k, x) (pmap p)) by (rewrite L; apply in_or_app; right; left; auto).
    destruct (E k x I) as (-> & _). exists x. split; [auto|]. split; [auto|]. split; [apply Fit; auto|].
    assert (Srt := S). rewrite L in S.
    split.
    + intros k m1 H Hk. apply Fit in Hk. rewrite L in H. apply in_app_or in H as [H|[H|H]].
      * rewrite Forall_forall in F. specialize (F _ H). cbn [fst] in F. congruence.
      * injection H as <- _. lia.
      * assert (Q : StronglySorted keyLt ((pcap x, x) :: a)).
        { clear - S. induction b as [|y b IH]; auto. apply IH. inversion S; auto. }
        inversion Q as [|? ? _ F2]; subst. rewrite Forall_forall in F2. specialize (F2 _ H).
        unfold keyLt in F2. cbn [fst] in F2. lia.
    + intros e. rewrite L, R. rewrite !in_app_iff. cbn [In].
      assert (Nx : ~ In (pcap x, x) b /\ ~ In (pcap x, x) a).
      { assert (ND : NoDup (b ++ (pcap x, x) :: a)).
        { clear - S. induction S as [|y l S IH F]; constructor; auto. intros H. rewrite Forall_forall in F.
          specialize (F y H). unfold keyLt in F. lia. }
        apply NoDup_remove_2 in ND. rewrite in_app_iff in ND. tauto. }
      destruct Nx as [Nb Na]. split.
      * intros [H|H]; (split; [auto|]); intros ->; contradiction.
      * intros [[H|[H|H]] NE]; auto. congruence.
  - apply takeFirst_none in T. injection G as <- <-. cbn [pid pcap pmap]. right.
    split; [|split; [auto|split; [auto|]]].
    + intros k m1 H Hk. apply Fit in Hk. rewrite Forall_forall in T. specialize (T _ H). cbn [fst] in T. congruence.
    + intros H. specialize (B _ H). lia.
Qed.

(** Released meshes come back, except that a mesh is thrown away when one of the same capacity
    is already there. *)
Theorem C30_release : forall cap p before m after,
  poolUse cap (p, before ++ m :: after) ->
  let p' := release p m in
  ((exists m', In (pcap m, m') (pmap p)) /\ pmap p' = pmap p) \/
  ((forall m', ~ In (pcap m, m') (pmap p)) /\
   exists m', pid m' = pid m /\ forall e, In e (pmap p') <-> e = (pcap m, m') \/ In e (pmap p)).
Proof.
  intros cap p b m a U p'. destruct (poolUse_ok _ _ U) as [S _ _ _]. cbn [fst] in S.
  destruct (emplacePool_cases (pcap m) (cleared m) (pmap p) S) as (_ & [(m' & I & Q)|(N & P)]).
  - left. split; [exists m'; auto|exact Q].
  - right. split; auto. exists (cleared m). split; auto. intros e. unfold p', release. cbn [pmap]. split; intros H.
    + apply (Permutation_in _ P) in H as [H|H]; auto.
    + apply (Permutation_in _ (Permutation_sym P)). destruct H as [->|H]; [left|right]; auto.
Qed.

(** Two meshes are taken, filled and given back; the first request for a large mesh reuses the
    one that grew. *)
Definition usedMesh (i : nat) (cap : N) : pmesh := mkPooled i cap (mkMesh [65%N] [1; 2]%N [0%Z] [5%Z] [] []).
Example C30_case :
  let p := release (release (mkPool [] 2) (usedMesh 0 4096)) (usedMesh 1 30000) in
  poolUse 4096 (p, []) /\
  fst (getMesh 4096 p nameP false) = mkPooled 1 30000 (mkMesh nameP [] [] [] [] []) /\
  fst (getMesh 4096 p nameP true) = mkPooled 0 4096 (mkMesh nameP [] [] [] [] []).
Proof.
  intros p. split; [|vm_compute; auto].
  assert (U0 := use_new 4096).
  assert (U1 := use_get 4096 _ _ nameP true _ _ U0 eq_refl).
  assert (U2 := use_get 4096 _ _ nameP true _ _ U1 eq_refl).
  cbn in U2.
  apply (use_change 4096 _ [] _ _ (usedMesh 1 30000)) in U2; [|reflexivity].
  apply (use_change 4096 _ [usedMesh 1 30000] _ [] (usedMesh 0 4096)) in U2; [|reflexivity].
  cbn [app] in U2.
  apply (use_release 4096 _ [usedMesh 1 30000] _ []) in U2. cbn [app] in U2.
  apply (use_release 4096 _ [] _ []) in U2. exact U2.
Qed.

Print Assumptions C30_empty.
Print Assumptions C30_no_sharing.
Print Assumptions C30_choice.
Print Assumptions C30_release.
