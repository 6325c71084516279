(** Property C23: tag lookup. *)
From Verif Require Import Base Bytes ElementModel TagModel TagSpec TagProofs.
From Coq Require Import Permutation Sorted.

(** C23: on ascending tags a lookup by key passes exactly the stored value to [f], or answers
    the default when no tag has the key. *)
Theorem C23_lookup :
  forall tags, ascending tags -> forall key default f,
    (forall v, In (mkTag key v) tags -> getTagValue key tags default f = f v) /\
    ((forall v, ~ In (mkTag key v) tags) -> getTagValue key tags default f = Ok default).
Proof.
  intros tags A key d f. split; intros.
  - apply getTagValue_found; auto.
  - apply getTagValue_missing; auto.
Qed.
Print Assumptions C23_lookup.

(** hasTag answers whether the tag is there.  The value 2^32 - 1 is excluded: it is the
    default of the search. *)
Theorem C23_hasTag :
  forall tags, ascending tags -> forall key value, value <> noId ->
    (hasTag key value tags = Ok true <-> In (mkTag key value) tags) /\
    (hasTag key value tags = Ok false <-> ~ In (mkTag key value) tags).
Proof.
  intros tags A key value V.
  pose proof (hasTag_spec key value tags A V) as H. split; [exact H|].
  assert (T : exists b, hasTag key value tags = Ok b).
  { unfold hasTag. destruct (tag_cases key tags) as [[v Hv]|Hv];
    [rewrite (getTagValue_found _ _ _ _ v A Hv)|rewrite (getTagValue_missing _ _ _ _ A Hv)];
    cbn [omap bind]; eauto. }
  destruct T as [[|] T]; rewrite T in *; split; intros E; try discriminate; try reflexivity.
  - exfalso. apply E. apply H. reflexivity.
  - intros Hi. apply H in Hi. discriminate.
Qed.
Print Assumptions C23_hasTag.

(** The element visitor's ignore mark is found iff it is there. *)
Theorem C23_hasIgnore :
  forall tags, ascending tags ->
    (hasIgnore tags = Ok true <-> In (mkTag 4294967295 0) tags).
Proof. intros tags A. apply hasTag_spec; auto. discriminate. Qed.
Print Assumptions C23_hasIgnore.

(** Tags converted from an input format without repeated keys: for every sort that satisfies
    the standard's contract a lookup of the key string gives the id of the value string. *)
Theorem C23_imported :
  forall sort, isSort sort ->
  forall intern kvs, goodIds intern (stringsOf kvs) -> NoDup (map fst kvs) ->
  forall default f,
    (forall k v, In (k, v) kvs ->
       getTagValue (intern k) (convertTags intern sort kvs) default f = f (intern v)) /\
    (forall k, goodIds intern (k :: stringsOf kvs) -> ~ In k (map fst kvs) ->
       getTagValue (intern k) (convertTags intern sort kvs) default f = Ok default).
Proof.
  intros sort S intern kvs G D default f.
  pose proof (convertTags_ascending intern sort kvs S G D) as A. split.
  - intros k v H. apply getTagValue_found; auto. apply convertTags_in; eauto.
  - intros k [G' _] H. apply getTagValue_missing; auto. intros v Hv.
    apply convertTags_in in Hv as (k' & v' & Hi & E); auto. injection E as E _.
    assert (k = k') as <-.
    { apply G'; [left; reflexivity| |exact E]. right. unfold stringsOf. apply in_or_app. left.
      apply in_map_iff. exists (k', v'); auto. }
    apply H. apply in_map_iff. exists (k, v'); auto.
Qed.
Print Assumptions C23_imported.

(** setTags on an element which has tags already: with distinct keys every old and every new
    tag is found. *)
Theorem C23_setTags :
  forall sort, isSort sort ->
  forall intern old kvs, NoDup (map tkey old ++ map (fun kv => intern (fst kv)) kvs) ->
  forall default f,
    (forall k v, In (mkTag k v) old -> getTagValue k (setTags intern sort old kvs) default f = f v) /\
    (forall k v, In (k, v) kvs ->
       getTagValue (intern k) (setTags intern sort old kvs) default f = f (intern v)) /\
    (forall k, ~ In k (map tkey old) -> ~ In k (map (fun kv => intern (fst kv)) kvs) ->
       getTagValue k (setTags intern sort old kvs) default f = Ok default).
Proof.
  intros sort S intern old kvs D default f.
  assert (A : ascending (setTags intern sort old kvs)).
  { apply sort_ascending; auto. rewrite map_app, map_map. exact D. }
  assert (I : forall t, In t (setTags intern sort old kvs) <->
                        In t old \/ exists k v, In (k, v) kvs /\ t = mkTag (intern k) (intern v)).
  { intros t. unfold setTags. rewrite sort_in, in_app_iff, in_map_iff by auto. split.
    - intros [H|([k v] & <- & H)]; [left; auto|right; exists k, v; auto].
    - intros [H|(k & v & H & ->)]; [left; auto|right; exists (k, v); auto]. }
  split; [|split].
  - intros k v H. apply getTagValue_found; auto. apply I. left; auto.
  - intros k v H. apply getTagValue_found; auto. apply I. right; eauto.
  - intros k H1 H2. apply getTagValue_missing; auto. intros v Hv. apply I in Hv as [Hv|(k' & v' & Hi & E)].
    + apply H1. apply in_map_iff. exists (mkTag k v). auto.
    + injection E as -> _. apply H2. apply in_map_iff. exists (k', v'). auto.
Qed.
Print Assumptions C23_setTags.

(** The string lookup: a present tag gives its text, and an absent one gives the text of the
    id 2^32 - 1.  The exception "Cannot find tag" is only raised when a tag is present with
    the value 2^32 - 1. *)
Theorem C23_string :
  forall tags, ascending tags -> forall text key,
    (forall v, In (mkTag key v) tags -> v <> noId -> getTagString text key tags = text v) /\
    ((forall v, ~ In (mkTag key v) tags) -> getTagString text key tags = text noId).
Proof.
  intros tags A text key. unfold getTagString. split.
  - intros v H V. rewrite (getTagValue_found _ _ _ _ v A H).
    destruct (N.eqb_spec v noId); [contradiction|]. reflexivity.
  - intros H. rewrite (getTagValue_missing _ _ _ _ A H). reflexivity.
Qed.
Print Assumptions C23_string.

(** A lookup reads only inside the vector and ends, whatever the order of the tags, and never
    invents a value. *)
Theorem C23_safe :
  forall tags key default,
    exists v, getTagValue key tags default (fun v => Ok v) = Ok v /\
              (v = default \/ In (mkTag key v) tags).
Proof.
  intros tags key d. unfold getTagValue.
  destruct (findTag_total key tags) as [r E]. unfold findTag in E. rewrite E.
  destruct r as [[k v]|]; [|eauto].
  apply searchTag_sound in E as [Hi K]. cbn in K. subst k. eauto.
Qed.
Print Assumptions C23_safe.

(** On unsorted tags a present tag is missed; the raw element API creates such elements.
    Tags "b" = "x", "a" = "y" for a table in which "a" was interned before "b". *)
Theorem C23_raw_refuted :
  exists intern strings vertices tags id element key value,
    goodIds intern strings /\ incl tags strings /\
    rawElement intern (fun _ _ => false) id vertices tags = Ok element /\
    In (mkTag (intern key) (intern value)) (etags element) /\
    hasTag (intern key) (intern value) (etags element) = Ok false.
Proof.
  exists (fun s => nth 0 s 0%N), [[97]; [98]; [120]; [121]]%N, [1; 2]%N,
    [[98]; [120]; [97]; [121]]%N, 1%N,
    (Node 1 [mkTag 98 120; mkTag 97 121] (mkCoord 1 2)), [98]%N, [120]%N.
  split; [split|split; [|split; [|split]]].
  - intros a b Ha Hb. cbn in Ha, Hb.
    repeat (destruct Ha as [<-|Ha]; [|]); try contradiction;
    repeat (destruct Hb as [<-|Hb]; [|]); try contradiction; cbn; intros E; congruence.
  - intros a Ha. cbn in Ha. repeat (destruct Ha as [<-|Ha]; [cbn; lia|]). contradiction.
  - intros a Ha. cbn in *. tauto.
  - reflexivity.
  - cbn. left. reflexivity.
  - reflexivity.
Qed.
Print Assumptions C23_raw_refuted.

(** The raw element API keeps exactly the pairs that were passed, in order. *)
Theorem C23_raw_tags :
  forall intern same id vertices kvs element,
    rawElement intern same id vertices (flat_map (fun kv => [fst kv; snd kv]) kvs) = Ok element ->
    etags element = map (convertTag intern) kvs.
Proof.
  intros intern same id vs kvs e. unfold rawElement.
  assert (P : pairTags intern (flat_map (fun kv => [fst kv; snd kv]) kvs) =
              Ok (map (convertTag intern) kvs)).
  { induction kvs as [|[k v] l IH]; [reflexivity|]. cbn [flat_map app pairTags fst snd].
    cbn [flat_map app fst snd] in IH. rewrite IH. reflexivity. }
  rewrite P. cbn [bind].
  assert (B : forall cs, (match cs with
      | [] => UB
      | c :: _ => if same c (last cs c) then Ok (Area id (map (convertTag intern) kvs) cs)
                  else Ok (Way id (map (convertTag intern) kvs) cs) end) = Ok e ->
      etags e = map (convertTag intern) kvs).
  { intros [|c cs]; [discriminate|]. destruct (same c (last (c :: cs) c)); intros E; injection E as <-; reflexivity. }
  assert (B' : bind (pairCoords vs) (fun cs => match cs with
      | [] => UB
      | c :: _ => if same c (last cs c) then Ok (Area id (map (convertTag intern) kvs) cs)
                  else Ok (Way id (map (convertTag intern) kvs) cs) end) = Ok e ->
      etags e = map (convertTag intern) kvs).
  { destruct (pairCoords vs) as [cs| |]; cbn [bind]; try discriminate. apply B. }
  destruct vs as [|a [|b [|c [|d vs]]]]; try exact B'; intros E; injection E as <-; reflexivity.
Qed.
Print Assumptions C23_raw_tags.

(** Hypotheses of C23_lookup, C23_imported: three tags, found and not found. *)
Example C23_case :
  let tags := [mkTag 2 7; mkTag 5 1; mkTag 9 4] in
  ascending tags /\
  getTagValue 9 tags 0 (fun v => Ok v) = Ok 4%N /\
  getTagValue 3 tags 100 (fun v => Ok v) = Ok 100%N /\
  hasTag 5 1 tags = Ok true /\ hasTag 5 2 tags = Ok false.
Proof.
  cbv zeta. split; [|repeat split].
  repeat constructor; cbn; lia.
Qed.

Example C23_imported_case :
  let intern := fun s : bytes => nth 0 s 0%N in
  let kvs := [([98], [120]); ([97], [121])]%N in
  isSort insertionSort /\ goodIds intern ([99]%N :: stringsOf kvs) /\ NoDup (map fst kvs) /\
  convertTags intern insertionSort kvs = [mkTag 97 121; mkTag 98 120] /\
  hasTag 98 120 (convertTags intern insertionSort kvs) = Ok true.
Proof.
  cbv zeta. split; [exact insertionSort_isSort|]. split; [split|split; [|split]].
  - intros a b Ha Hb. cbn in Ha, Hb.
    repeat (destruct Ha as [<-|Ha]; [|]); try contradiction;
    repeat (destruct Hb as [<-|Hb]; [|]); try contradiction; cbn; intros E; congruence.
  - intros a Ha. cbn in Ha. repeat (destruct Ha as [<-|Ha]; [cbn; lia|]). contradiction.
  - cbn. repeat constructor; cbn; intuition discriminate.
  - reflexivity.
  - reflexivity.
Qed.

(** Old tags behind new ones in the order of the ids. *)
Example C23_setTags_case :
  setTags (fun s => match s with [b] => b | _ => 0%N end) insertionSort [mkTag 98 1]
    [([97], [120]); ([99], [121])]%N = [mkTag 97 120; mkTag 98 1; mkTag 99 121].
Proof. reflexivity. Qed.
