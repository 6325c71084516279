(** Storing by tile, importing and the stores by name: theorems for C14, C15 and C45. *)
From Coq Require Import Sorted.
From Verif Require Import Base Bytes ElementModel GeoModel GeoSpec ProjectionModel CentreProofs
  StoreModel StoreSpec StoreProofs TileStoreModel TileStoreSpec TileStoreProofs.

(** * C14 *)

(** Storing for a range of levels: a tile gets the element (or its clipped pieces) exactly
    once if its level is in the range, the style asks for the element there and the element
    touches the tile; every other tile gets nothing. *)
Theorem C14_range : forall tileOf tileBox styleOf clip, (forall k, numberBox (tileBox k)) ->
  forall e r k, let saves := fst (storeRange tileOf tileBox styleOf clip e r) in
  let goes := rstart r <= lod k <= rend r /\ asked (styleOf e (lod k)) /\ touches tileOf tileBox e k in
  (goes -> savedAt k saves = pieces clip tileBox (styleOf e (lod k)) k e) /\ (~ goes -> savedAt k saves = []).
Proof.
  intros tileOf tileBox styleOf clip H e r k saves goes.
  destruct (storeWith_saved tileOf tileBox styleOf clip H (fun _ _ => true) e r k) as [H1 H2].
  unfold goesTo in *. split; intros G; [apply H1|apply H2]; unfold goes in G; tauto.
Qed.
Print Assumptions C14_range.

(** With a bounding box given, only elements that meet it are stored. *)
Theorem C14_box : forall tileOf tileBox styleOf clip, (forall k, numberBox (tileBox k)) ->
  forall e bb r k, numberBox bb -> let saves := fst (storeBox tileOf tileBox styleOf clip e bb r) in
  let goes := rstart r <= lod k <= rend r /\ asked (styleOf e (lod k)) /\ touches tileOf tileBox e k /\
              meet (elementBox e) bb in
  (goes -> savedAt k saves = pieces clip tileBox (styleOf e (lod k)) k e) /\ (~ goes -> savedAt k saves = []).
Proof.
  intros tileOf tileBox styleOf clip H e bb r k Hb saves goes.
  destruct (storeWith_saved tileOf tileBox styleOf clip H (fun b _ => intersects dord b bb) e r k) as [H1 H2].
  unfold goesTo in *. rewrite (GeoProofs.intersects_meet _ _ (elementBox_number e) Hb) in H1, H2.
  split; intros G; [apply H1|apply H2]; unfold goes in G; tauto.
Qed.
Print Assumptions C14_box.

(** Storing for one tile: nothing goes anywhere else. *)
Theorem C14_tile : forall tileOf tileBox sameCenter styleOf clip, (forall k, numberBox (tileBox k)) ->
  centresDiffer tileBox sameCenter -> tilesExist tileOf ->
  forall e k, tile k -> MinLod <= lod k <= MaxLod ->
  exists saves w, storeTile tileOf tileBox sameCenter styleOf clip e k = Ok (saves, w) /\
    (forall k', k' <> k -> savedAt k' saves = []) /\
    (asked (styleOf e (lod k)) /\ touches tileOf tileBox e k ->
       savedAt k saves = pieces clip tileBox (styleOf e (lod k)) k e /\ w = true) /\
    (~ (asked (styleOf e (lod k)) /\ touches tileOf tileBox e k) -> saves = [] /\ w = false).
Proof. exact (fun tileOf tileBox sameCenter styleOf clip H => storeTile_ok tileOf tileBox styleOf clip H sameCenter). Qed.
Print Assumptions C14_tile.

(** The code compares the centres of the tiles' boxes up to 2^-52 degrees; for the levels of
    the code this tells tiles apart (in exact arithmetic). *)
Theorem C14_centres : forall k k', tile k -> tile k' -> lod k = lod k' -> lod k <= 19 ->
  (samePoint exact (center exact (tileBoxOf exact k)) (center exact (tileBoxOf exact k')) = true <-> k = k').
Proof. exact centres_differ. Qed.
Print Assumptions C14_centres.

(** Success is reported iff some tile is touched ... *)
Theorem C14_success : forall tileOf tileBox styleOf clip, (forall k, numberBox (tileBox k)) ->
  forall e r, snd (storeRange tileOf tileBox styleOf clip e r) = true <->
    exists k, rstart r <= lod k <= rend r /\ asked (styleOf e (lod k)) /\ touches tileOf tileBox e k.
Proof.
  intros tileOf tileBox styleOf clip H e r. unfold storeRange.
  rewrite (storeWith_success tileOf tileBox styleOf clip H). unfold goesTo.
  split; intros (k & G); exists k; tauto.
Qed.
Print Assumptions C14_success.

(** ... which without clipping means that something was written ... *)
Theorem C14_success_writes_partial : forall tileOf tileBox styleOf clip, (forall k, numberBox (tileBox k)) ->
  forall e r, (forall l, rstart r <= l <= rend r -> sClip (styleOf e l) = false) ->
  (snd (storeRange tileOf tileBox styleOf clip e r) = true <-> fst (storeRange tileOf tileBox styleOf clip e r) <> []).
Proof.
  intros tileOf tileBox styleOf clip H e r Hc. rewrite (C14_success _ _ _ _ H). split.
  - intros (k & G) E. destruct (C14_range tileOf tileBox styleOf clip H e r k) as [H1 _].
    specialize (H1 G). rewrite E in H1. unfold pieces in H1. rewrite Hc in H1 by apply G. discriminate.
  - intros N. destruct (storeRange tileOf tileBox styleOf clip e r) as [[|[k e'] saves] w] eqn:E; [destruct N; reflexivity|].
    exists k. destruct (C14_range tileOf tileBox styleOf clip H e r k) as [_ H2]. rewrite E in H2. cbn [fst] in H2.
    pose proof (in_saves ((k, e') :: saves) k e' (or_introl eq_refl)) as F.
    assert (D : (rstart r <= lod k <= rend r /\ asked (styleOf e (lod k)) /\ touches tileOf tileBox e k) \/
                ~ (rstart r <= lod k <= rend r /\ asked (styleOf e (lod k)) /\ touches tileOf tileBox e k)).
    { destruct (asked_dec (styleOf e (lod k))) as [A|A]; [|tauto].
      destruct (touches_dec tileOf tileBox styleOf clip H e k) as [B|B]; [|tauto].
      assert (rstart r <= lod k <= rend r \/ ~ rstart r <= lod k <= rend r) by lia. tauto. }
    destruct D as [D|D]; [exact D|]. rewrite (H2 D) in F. destruct F.
Qed.
Print Assumptions C14_success_writes_partial.

(** ... but when the clipper leaves nothing, success is reported although nothing was. *)
Definition gridTile (p : point dbl) (l : Z) : quadKey :=
  let c v := Z.max 0 (Z.min (2 ^ l - 1) v) in
  match plat p, plon p with
  | Fin a, Fin o => mkKey l (c (o / 10)) (c ((40 - a) / 10))
  | _, _ => mkKey l 0 0
  end.
Definition gridBox (k : quadKey) : box dbl :=
  mkBox (mkPoint (Fin (30 - 10 * tileY k)) (Fin (10 * tileX k)))
        (mkPoint (Fin (40 - 10 * tileY k)) (Fin (10 + 10 * tileX k))).
Definition gridCentre (b c : box dbl) : bool :=
  match plat (bmin b), plat (bmin c), plon (bmin b), plon (bmin c) with
  | Fin a, Fin a', Fin o, Fin o' => (a =? a') && (o =? o')
  | _, _, _, _ => false
  end.
Definition plain (e : element) (l : Z) : styleFlags := mkFlags false (l =? 8) false.
Definition clipped (e : element) (l : Z) : styleFlags := mkFlags false false true.
Definition noPieces (k : quadKey) (b : box dbl) (e : element) : list element := [].
(** A way from (12, 5) to (33, 11), in units of the least positive double. *)
Definition gridWay : element := Way 7 [] [mkCoord 12 5; mkCoord 33 11].

Theorem C14_success_refuted : exists tileOf tileBox styleOf clip e r, (forall k, numberBox (tileBox k)) /\
  storeRange tileOf tileBox styleOf clip e r = ([], true).
Proof.
  exists gridTile, gridBox, clipped, noPieces, gridWay, (mkRange 7 7).
  split; [intro; repeat split; discriminate|]. vm_compute. reflexivity.
Qed.
Print Assumptions C14_success_refuted.

Example C14_example :
  (forall k, numberBox (gridBox k)) /\ centresDiffer gridBox gridCentre /\ tilesExist gridTile /\
  storeRange gridTile gridBox plain noPieces gridWay (mkRange 7 8) =
    (map (fun k => (k, gridWay)) [mkKey 7 0 0; mkKey 7 1 0; mkKey 7 0 1; mkKey 7 1 1; mkKey 7 0 2; mkKey 7 1 2], true) /\
  storeTile gridTile gridBox gridCentre plain noPieces gridWay (mkKey 7 1 1) = Ok ([(mkKey 7 1 1, gridWay)], true) /\
  storeBox gridTile gridBox plain noPieces gridWay (gridBox (mkKey 7 5 1)) (mkRange 7 7) = ([], false).
Proof.
  split; [intro; repeat split; discriminate|]. split; [|split; [|vm_compute; auto]].
  - intros [l x y] [l' x' y'] _ _ E. cbn [lod] in E. subst. unfold gridCentre, gridBox.
    cbn [bmin plat plon tileX tileY]. rewrite andb_true_iff, !Z.eqb_eq. split; [|intros [= -> ->]; auto].
    intros [A B]. assert (x = x') by lia. assert (y = y') by lia. subst. reflexivity.
  - intros [a o] l Hl. assert (0 < 2 ^ l) by (apply Z.pow_pos_nonneg; unfold MinLod in Hl; lia).
    unfold gridTile, tile, MinLod in *. cbn [plat plon].
    destruct a, o; cbn [lod tileX tileY]; (split; [split; [|split]|reflexivity]); try lia.
Qed.

(** * C15 *)

(** A cancelled import into one tile leaves that tile empty and every other tile as it was,
    whatever was in the file and wherever it was cancelled. *)
Theorem C15_tile : forall tileOf tileBox sameCenter styleOf clip, (forall k, numberBox (tileBox k)) ->
  centresDiffer tileBox sameCenter -> tilesExist tileOf ->
  forall i k past, tile k -> MinLod <= lod k <= MaxLod -> thrown i = None -> cancelled i = true ->
  exists cs, addTile tileOf tileBox sameCenter styleOf clip i k = (cs, Ok tt) /\
    contents k (rev (past ++ cs)) = [] /\
    forall k', k' <> k -> contents k' (rev (past ++ cs)) = contents k' (rev past).
Proof.
  intros tileOf tileBox sameCenter styleOf clip Hn Hc Ht i k past Hk Hl Hth Hca.
  destruct (import_ok tileOf tileBox styleOf clip Hn sameCenter Hc Ht (parsed i) k past Hk Hl) as (cs & E & Ho & _).
  exists (cs ++ [Erase k]). unfold addTile. rewrite E, Hth, Hca. split; [reflexivity|].
  rewrite app_assoc. split.
  - rewrite contents_erase, keyEqb_refl. reflexivity.
  - intros k' Hne. rewrite contents_erase. destruct (keyEqb k' k) eqn:Ek.
    + apply GeoProofs.keyEqb_eq in Ek. contradiction.
    + apply Ho. exact Hne.
Qed.
Print Assumptions C15_tile.

(** An import that is not cancelled appends to the tile, in order, what each element of the
    file that touches it contributes. *)
Theorem C15_tile_kept : forall tileOf tileBox sameCenter styleOf clip, (forall k, numberBox (tileBox k)) ->
  centresDiffer tileBox sameCenter -> tilesExist tileOf ->
  forall i k past, tile k -> MinLod <= lod k <= MaxLod -> thrown i = None -> cancelled i = false ->
  exists cs added, addTile tileOf tileBox sameCenter styleOf clip i k = (cs, Ok tt) /\
    contents k (rev (past ++ cs)) = contents k (rev past) ++ concat added /\
    Forall2 (fun e l =>
      (asked (styleOf e (lod k)) /\ touches tileOf tileBox e k /\ l = pieces clip tileBox (styleOf e (lod k)) k e) \/
      (~ (asked (styleOf e (lod k)) /\ touches tileOf tileBox e k) /\ l = [])) (parsed i) added /\
    forall k', k' <> k -> contents k' (rev (past ++ cs)) = contents k' (rev past).
Proof.
  intros tileOf tileBox sameCenter styleOf clip Hn Hc Ht i k past Hk Hl Hth Hca.
  destruct (import_ok tileOf tileBox styleOf clip Hn sameCenter Hc Ht (parsed i) k past Hk Hl)
    as (cs & E & Ho & added & HF & Hadd).
  exists cs, added. unfold addTile. rewrite E, Hth, Hca. split; [reflexivity|]. split; [exact Hadd|]. split; [exact HF|exact Ho].
Qed.
Print Assumptions C15_tile_kept.

(** The range variant does not roll back: it throws and the elements stay. *)
Theorem C15_range_refuted : exists tileOf tileBox styleOf clip i r k cs,
  (forall k, numberBox (tileBox k)) /\ tile k /\ thrown i = None /\ cancelled i = true /\
  addRange tileOf tileBox styleOf clip i r = (cs, Throw DomainError) /\ contents k (rev cs) = [gridWay].
Proof.
  exists gridTile, gridBox, plain, noPieces, (mkImport [gridWay] None true), (mkRange 7 7), (mkKey 7 1 1).
  eexists. split; [intro; repeat split; discriminate|]. split; [unfold tile; cbn; lia|].
  split; [reflexivity|]. split; [reflexivity|]. split; [reflexivity|]. vm_compute. reflexivity.
Qed.
Print Assumptions C15_range_refuted.

(** Nor does the variant with a bounding box. *)
Theorem C15_box_refuted : exists tileOf tileBox styleOf clip i bb r k cs,
  (forall k, numberBox (tileBox k)) /\ tile k /\ thrown i = None /\ cancelled i = true /\
  addBox tileOf tileBox styleOf clip i bb r = (cs, Throw DomainError) /\ contents k (rev cs) = [gridWay].
Proof.
  exists gridTile, gridBox, plain, noPieces, (mkImport [gridWay] None true), (gridBox (mkKey 7 1 1)), (mkRange 7 7), (mkKey 7 1 1).
  eexists. split; [intro; repeat split; discriminate|]. split; [unfold tile; cbn; lia|].
  split; [reflexivity|]. split; [reflexivity|]. split; [reflexivity|]. vm_compute. reflexivity.
Qed.
Print Assumptions C15_box_refuted.

(** If the parser throws, nothing is rolled back even if the import was cancelled as well. *)
Theorem C15_exception_refuted : exists tileOf tileBox sameCenter styleOf clip i k cs,
  (forall k, numberBox (tileBox k)) /\ tile k /\ cancelled i = true /\
  addTile tileOf tileBox sameCenter styleOf clip i k = (cs, Throw DomainError) /\ contents k (rev cs) = [gridWay].
Proof.
  exists gridTile, gridBox, gridCentre, plain, noPieces, (mkImport [gridWay] (Some DomainError) true), (mkKey 7 1 1).
  eexists. split; [intro; repeat split; discriminate|]. split; [unfold tile; cbn; lia|].
  split; [reflexivity|]. split; [reflexivity|]. vm_compute. reflexivity.
Qed.
Print Assumptions C15_exception_refuted.

(** A tile outside the levels of the library is refused before anything is stored. *)
Theorem C15_level : forall tileOf tileBox sameCenter styleOf clip i k, ~ MinLod <= lod k <= MaxLod ->
  parsed i <> [] -> addTile tileOf tileBox sameCenter styleOf clip i k = ([], Throw DomainError).
Proof.
  intros tileOf tileBox sameCenter styleOf clip i k Hl Hp. unfold addTile.
  destruct (parsed i) as [|e es]; [destruct Hp; reflexivity|]. cbn [importTile]. unfold storeTile, newRange.
  assert (E : (lod k <? MinLod) || (lod k >? MaxLod) || (lod k <? MinLod) || (lod k >? MaxLod) = true).
  { unfold MinLod, MaxLod in *. destruct (Z.ltb_spec (lod k) 1); [reflexivity|].
    destruct (Z.gtb_spec (lod k) 19); [reflexivity|]. lia. }
  rewrite E. cbn. reflexivity.
Qed.
Print Assumptions C15_level.

(** A cancelled import into a range of levels ends as the erasing of the store ends, in either kind of store. *)
Theorem C15_erase : forall tileOf tileBox styleOf clip i bb b r m s, thrown i = None -> cancelled i = true ->
  snd (addBox tileOf tileBox styleOf clip i bb r) = omap (fun _ => tt) (memEraseBox bb r m) /\
  snd (addBox tileOf tileBox styleOf clip i bb r) = omap (fun _ => tt) (pEraseBox bb r s) /\
  snd (addRange tileOf tileBox styleOf clip i r) = omap (fun _ => tt) (memEraseBox b r m) /\
  snd (addRange tileOf tileBox styleOf clip i r) = omap (fun _ => tt) (pEraseBox b r s).
Proof. intros tileOf tileBox styleOf clip i bb b r m s T C. unfold addBox, addRange, addRangeWith. rewrite T, C. repeat split. Qed.
Print Assumptions C15_erase.

Example C15_example : exists cs,
  addTile gridTile gridBox gridCentre plain noPieces (mkImport [gridWay; gridWay] None true) (mkKey 7 1 1) = (cs, Ok tt) /\
  cs = [Store (mkKey 7 1 1) gridWay; Store (mkKey 7 1 1) gridWay; Erase (mkKey 7 1 1)] /\
  tile (mkKey 7 1 1) /\ MinLod <= 7 <= MaxLod.
Proof. eexists. split; [vm_compute; reflexivity|]. split; [reflexivity|]. unfold tile, MinLod, MaxLod. cbn. lia. Qed.

(** * C45 *)

(** Registering keeps the stores in the order of their names and never replaces one. *)
Theorem C45_register : forall S name (s : S) m x, nameSorted m ->
  nameSorted (registerStore name s m) /\
  alookup beqb x (registerStore name s m) =
    match alookup beqb x m with Some v => Some v | None => if beqb x name then Some (Some s) else None end.
Proof. intros. split; [apply emplace_sorted; assumption|apply emplace_lookup; assumption]. Qed.
Print Assumptions C45_register.

(** A tile search over the stores concatenates, by name, what the stores report. *)
Theorem C45_search : forall k m, Forall (fun p => snd p <> None) m ->
  searchStores k m = Ok (flat_map (fun p => match snd p with Some s => memSearch k never s | None => [] end) m) /\
  exists b, hasDataStores k m = Ok b /\ (b = true <-> exists n s, In (n, Some s) m /\ memHasData k s = true).
Proof. intros. split; [apply searchStores_ok; assumption|apply hasDataStores_ok; assumption]. Qed.
Print Assumptions C45_search.

(** Importing into a name that is not registered dereferences a null pointer, and makes
    every later tile search do so. *)
Theorem C45_unknown : forall name (m : storeMap memory) k, nameSorted m -> alookup beqb name m = None ->
  fst (lookupStore name m) = None /\ searchStores k (snd (lookupStore name m)) = UB.
Proof.
  intros name m k Hs Hn. unfold lookupStore. cbn [fst snd]. rewrite Hn. split; [reflexivity|].
  apply (searchStores_null k _ name). apply (LruProofs.alookup_in beqb BytesProofs.beqb_eq).
  rewrite emplace_lookup, Hn, BytesProofs.beqb_refl by exact Hs. reflexivity.
Qed.
Print Assumptions C45_unknown.

Example C45_example :
  let a := snd (memStore (mkKey 7 1 1) gridWay []) in
  let m := registerStore [66%N] a (registerStore [65%N] a (registerStore [66%N] [] [])) in
  nameSorted m /\ map fst m = [[65%N]; [66%N]] /\ searchStores (mkKey 7 1 1) m = Ok [gridWay] /\
  hasDataStores (mkKey 7 1 1) m = Ok true /\ alookup beqb [67%N] m = None.
Proof.
  split; [|vm_compute; auto]. unfold registerStore. do 3 apply emplace_sorted. constructor.
Qed.
