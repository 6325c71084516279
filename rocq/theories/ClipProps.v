(** C41: clipping elements to a tile. *)
From Verif Require Import Base Bytes ElementModel ElementProofs GeoModel ClipModel ClipSpec ClipProofs BuildModel BuildSpec.
Local Open Scope nat_scope.

(** C41.  Elements without a coordinate outside the tile are passed on unchanged; for a
    relation, if all relations in it have at least two members. *)
Theorem C41_inside : forall snap unsnap intersection b e,
  plural e -> (forall c, In c (coordinates e) -> inBox b c = true) ->
  clip snap unsnap intersection b e = Some e.
Proof. intros sn un int b e P H. apply clip_inside; auto. apply forallb_forall. auto. Qed.

(** The condition is needed: an empty relation disappears, and a relation with a single member
    is replaced by the member, which loses its own id and tags. *)
Theorem C41_small_relations_refuted : forall snap unsnap intersection b i ts,
  clip snap unsnap intersection b (Relation i ts []) = None /\
  forall j us c, inBox b c = true ->
    clip snap unsnap intersection b (Relation i ts [Node j us c]) = Some (Node i ts c).
Proof. intros sn un int b i ts. split; [reflexivity|]. intros j us c H. cbn [clip flat_map app]. rewrite H. reflexivity. Qed.

(** The id is kept. *)
Theorem C41_id : forall snap unsnap intersection b e e',
  clip snap unsnap intersection b e = Some e' -> eid e' = eid e.
Proof. intros. eapply clip_id; eauto. Qed.

(** The tags are kept, unless a way or an area falls into several parts: then the result is a
    relation without tags whose members are of the same kind, have no id and carry the tags of
    the element. *)
Theorem C41_tags : forall snap unsnap intersection b e e',
  clip snap unsnap intersection b e = Some e' ->
  etags e' = etags e \/
  (isLine e /\ exists ps, 2 <= length ps /\ e' = Relation (eid e) [] ps /\
     forall p, In p ps -> eid p = 0%N /\ etags p = etags e /\ sameKind e p).
Proof.
  intros sn un int b e e' H. destruct e as [i t c|i t cs|i t cs|i t es]; cbn [clip etags eid] in *.
  - destruct (inBox b c); [|discriminate]. injection H as <-. auto.
  - apply clipElement_cases in H as [(_ & ->)|[(c & -> & _)|(ps & L & -> & _)]]; auto.
    right. split; [exact I|]. eexists. split; [|split; [reflexivity|]].
    1: rewrite map_length; auto.
    intros p Hp. apply in_map_iff in Hp as (q & <- & _). cbn. auto.
  - apply clipElement_cases in H as [(_ & ->)|[(c & -> & _)|(ps & L & -> & _)]]; auto.
    right. split; [exact I|]. eexists. split; [|split; [reflexivity|]].
    1: rewrite map_length; auto.
    intros p Hp. apply in_map_iff in Hp as (q & <- & _). cbn. auto.
  - left. apply gather_cases in H as [(m & _ & ->)|(_ & ->)]; [apply relabel_tags|reflexivity].
Qed.

(** Nothing is left outside: a coordinate of the result is one of the element and inside, or one
    the library computed for the tile.  If those are in the tile, so is the whole result, and
    clipping it again changes nothing. *)
Theorem C41_coordinates : forall snap unsnap intersection b e e',
  clip snap unsnap intersection b e = Some e' -> forall c, In c (coordinates e') ->
  (In c (coordinates e) /\ inBox b c = true) \/
  exists closed cs p, In p (intersection (clipPath snap b) closed (shapeOf snap cs)) /\ In c (coordsOf unsnap p).
Proof. intros sn un int b e e' H c K. eapply clip_coords; eauto. Qed.

Theorem C41_idempotent : forall snap unsnap intersection b,
  (forall closed cs p c, In p (intersection (clipPath snap b) closed (shapeOf snap cs)) ->
     In c (coordsOf unsnap p) -> inBox b c = true) ->
  forall e e', clip snap unsnap intersection b e = Some e' -> clip snap unsnap intersection b e' = Some e'.
Proof.
  intros sn un int b H e e' C. apply clip_inside; [eapply clip_plural; eauto|]. apply forallb_forall. intros c K.
  destruct (clip_coords _ _ _ _ _ _ C c K) as [(_ & I)|(cl & cs & p & P & Q)]; eauto.
Qed.

(** Outside: nodes and ways without a coordinate inside, and areas whose box does not meet the
    tile, are dropped; a relation is dropped iff all its members are. *)
Theorem C41_outside : forall snap unsnap intersection b,
  let clip := clip snap unsnap intersection b in
  (forall i ts c, inBox b c = false -> clip (Node i ts c) = None) /\
  (forall i ts cs, cs <> [] -> (forall c, In c cs -> inBox b c = false) -> clip (Way i ts cs) = None) /\
  (forall i ts cs, cs <> [] -> (forall c, In c cs -> inBox b c = false) ->
     intersects dord (boxOf b) (elementBox (Area i ts cs)) = false -> clip (Area i ts cs) = None) /\
  (forall i ts es, clip (Relation i ts es) = None <-> forall m, In m es -> clip m = None).
Proof.
  intros sn un int b cl. subst cl.
  assert (Out : forall cs, cs <> [] -> (forall c, In c cs -> inBox b c = false) -> forallb (inBox b) cs = false).
  { intros [|c cs] NE H; [contradiction|]. cbn [forallb]. rewrite (H c) by (left; auto). reflexivity. }
  assert (AO : forall cs, (forall c, In c cs -> inBox b c = false) -> forallb (fun c => negb (inBox b c)) cs = true).
  { intros cs H. apply forallb_forall. intros c K. rewrite (H c K). reflexivity. }
  split; [|split; [|split]].
  - intros i ts c H. cbn [clip]. rewrite H. reflexivity.
  - intros i ts cs NE H. cbn [clip]. unfold clipElement, checkElement, areConnected. rewrite (Out cs NE H), (AO cs H). reflexivity.
  - intros i ts cs NE H X. cbn [clip]. unfold clipElement, checkElement, areConnected. rewrite (Out cs NE H).
    unfold elementBox in X. cbn [geometryVisit] in X. rewrite X. reflexivity.
  - intros i ts es. cbn [clip]. split.
    + intros H m M. destruct (clip sn un int b m) as [m'|] eqn:C; auto. exfalso.
      assert (K : In m' (flat_map (fun m => match clip sn un int b m with Some m' => [m'] | None => [] end) es)).
      { apply kept_in. exists m. auto. }
      destruct (flat_map _ es) as [|x [|y l]]; [destruct K| |]; discriminate.
    + intros H. assert (E : flat_map (fun m => match clip sn un int b m with Some m' => [m'] | None => [] end) es = []).
      { induction es as [|m es IH]; auto. cbn [flat_map]. rewrite (H m) by (left; auto). apply IH. intros x X. apply H. right; auto. }
      rewrite E. reflexivity.
Qed.

(** A way that crosses the tile without a point in it is lost, whatever the library would
    answer: the unit tile and a way from (1/2, -1) to (1/2, 2). *)
Definition dZero : N := 0.
Definition dOne : N := 4607182418800017408.
Definition dHalf : N := 4602678819172646912.
Definition dMinus : N := 13830554455654793216.
Definition dTwo : N := 4611686018427387904.
Definition unitTile : clipBox := mkClip (mkCoord dZero dZero) (mkCoord dOne dOne).
Theorem C41_crossing_refuted : forall snap unsnap intersection i ts,
  clip snap unsnap intersection unitTile (Way i ts [mkCoord dHalf dMinus; mkCoord dHalf dTwo]) = None /\
  intersects dord (boxOf unitTile) (elementBox (Way i ts [mkCoord dHalf dMinus; mkCoord dHalf dTwo])) = true /\
  inBox unitTile (mkCoord dHalf dHalf) = true.
Proof. intros. repeat split; vm_compute; reflexivity. Qed.

(** Building a clipped element: its parts are the ones a tile's visitor looks at (C29). *)
Theorem C41_parts : forall snap unsnap intersection b e e' p,
  isLine e -> etags e <> [] -> clip snap unsnap intersection b e = Some e' -> In p (parts e') ->
  etags p = etags e /\ sameKind e p.
Proof.
  intros sn un int b e e' p L T H P.
  destruct e as [|i t cs|i t cs|]; try contradiction; cbn [clip etags] in *;
  (apply clipElement_cases in H as [(_ & ->)|[(c & -> & _)|(ps & _ & -> & _)]]; cbn [parts] in P;
   [destruct P as [<-|[]]; cbn; auto|destruct P as [<-|[]]; cbn; auto|
    apply in_map_iff in P as (q & <- & _); cbn; auto]).
Qed.

(** A library for the cases: it answers the parts of the way between two border points. *)
Definition demoSnap (v : N) : Z := Z.of_N v.
Definition demoUnsnap (v : Z) : N := Z.to_N v.
Definition demoLib (r : list gridPoint) (closed : bool) (p : list gridPoint) : list (list gridPoint) :=
  match p with [a; c; d; e] => [[c; c]; [d; d]] | [a; c] => [[c]] | _ => [] end.
Definition pIn : coord := mkCoord dHalf dHalf.
Definition pOut : coord := mkCoord dTwo dTwo.
Example C41_case :
  let cl := clip demoSnap demoUnsnap demoLib unitTile in
  cl (Node 1 [] pIn) = Some (Node 1 [] pIn) /\
  cl (Node 1 [] pOut) = None /\
  cl (Way 2 [mkTag 5 6] [pOut; pIn]) = Some (Way 2 [mkTag 5 6] [pIn]) /\
  cl (Way 2 [mkTag 5 6] [pOut; pIn; pIn; pOut]) =
    Some (Relation 2 [] [Way 0 [mkTag 5 6] [pIn; pIn]; Way 0 [mkTag 5 6] [pIn; pIn]]) /\
  cl (Relation 3 [mkTag 7 8] [Node 4 [] pIn; Node 5 [] pIn; Node 6 [] pOut]) =
    Some (Relation 3 [mkTag 7 8] [Node 4 [] pIn; Node 5 [] pIn]).
Proof. vm_compute. auto 6. Qed.
(** The hypothesis of C41_idempotent can be met. *)
Example C41_idempotent_case : let lib := fun (_ : list gridPoint) (_ : bool) (p : list gridPoint) =>
    match p with [] => [] | _ => [[(Z.of_N dHalf, Z.of_N dHalf)]] end in
  (forall closed cs p c, In p (lib (clipPath demoSnap unitTile) closed (shapeOf demoSnap cs)) ->
     In c (coordsOf demoUnsnap p) -> inBox unitTile c = true) /\
  clip demoSnap demoUnsnap lib unitTile (Way 2 [] [pOut; pIn]) = Some (Way 2 [] [pIn]).
Proof.
  split; [|vm_compute; reflexivity]. intros closed cs p c P C. destruct (shapeOf demoSnap cs); [destruct P|].
  destruct P as [<-|[]]. destruct C as [<-|[]]. vm_compute. reflexivity.
Qed.

Print Assumptions C41_inside.
Print Assumptions C41_small_relations_refuted.
Print Assumptions C41_id.
Print Assumptions C41_tags.
Print Assumptions C41_coordinates.
Print Assumptions C41_idempotent.
Print Assumptions C41_outside.
Print Assumptions C41_crossing_refuted.
Print Assumptions C41_parts.

(** The rectangle handed to the library: its corners counter-clockwise, from the minimum. *)
Theorem C41_rectangle : forall snap b,
  let x0 := snap (clon (cmin b)) in let x1 := snap (clon (cmax b)) in
  let y0 := snap (clat (cmin b)) in let y1 := snap (clat (cmax b)) in
  (forall x y, In (x, y) (clipPath snap b) <-> (x = x0 \/ x = x1) /\ (y = y0 \/ y = y1)) /\
  exists p q r s, clipPath snap b = [p; q; r; s] /\
    (fst q - fst p = x1 - x0 /\ snd q = snd p /\ snd r - snd q = y1 - y0 /\ fst r = fst q /\
     fst s - fst r = x0 - x1 /\ snd s = snd r)%Z.
Proof.
  intros sn b x0 x1 y0 y1. split.
  - intros x y. unfold clipPath. cbn [In]. fold x0 x1 y0 y1. split.
    + intros [H|[H|[H|[H|[]]]]]; injection H as <- <-; auto.
    + intros [[->| ->] [->| ->]]; auto.
  - do 4 eexists. split; [reflexivity|]. cbn [fst snd]. fold x0 x1 y0 y1. repeat split; lia.
Qed.

(** Geometry the library returns unchanged is unchanged, up to the grid. *)
Theorem C41_faithful : forall snap unsnap intersection b i ts cs,
  (forall c, In c cs -> unsnap (snap (clat c)) = clat c /\ unsnap (snap (clon c)) = clon c) ->
  (forall closed, intersection (clipPath snap b) closed (shapeOf snap cs) = [shapeOf snap cs]) ->
  (exists c, In c cs /\ inBox b c = true) ->
  clip snap unsnap intersection b (Way i ts cs) = Some (Way i ts cs) /\
  (intersects dord (boxOf b) (elementBox (Area i ts cs)) = true ->
   clip snap unsnap intersection b (Area i ts cs) = Some (Area i ts cs)).
Proof.
  intros sn un int b i ts cs R L (c & C & I).
  assert (E : coordsOf un (shapeOf sn cs) = cs).
  { unfold coordsOf, shapeOf. rewrite map_map. rewrite <- (map_id cs) at 2. apply map_ext_in.
    intros [la lo] H. cbn [fst snd clat clon]. destruct (R _ H) as [A B]. cbn [clat clon] in A, B. rewrite A, B. reflexivity. }
  assert (O : forallb (fun c => negb (inBox b c)) cs = false).
  { apply Bool.not_true_is_false. intros H. rewrite forallb_forall in H. specialize (H c C). rewrite I in H. discriminate. }
  split; [|intros X]; cbn [clip]; unfold clipElement, checkElement, areConnected.
  - rewrite O. cbn [negb]. destruct (forallb (inBox b) cs); auto. rewrite L, E. reflexivity.
  - unfold elementBox in X. cbn [geometryVisit] in X. rewrite X.
    destruct (forallb (inBox b) cs); auto. rewrite L, E. reflexivity.
Qed.

(** Two points, one of them inside, on a grid that keeps them. *)
Example C41_faithful_case : let lib := fun (_ : list gridPoint) (_ : bool) (p : list gridPoint) => [p] in
  clip demoSnap demoUnsnap lib unitTile (Way 1 [] [pIn; mkCoord dHalf dTwo]) = Some (Way 1 [] [pIn; mkCoord dHalf dTwo]) /\
  inBox unitTile pIn = true /\ inBox unitTile (mkCoord dHalf dTwo) = false.
Proof. vm_compute. auto. Qed.

Print Assumptions C41_rectangle.
Print Assumptions C41_faithful.
