(** Lemmas about the OSM visitor. *)
From Verif Require Import Base Bytes ElementModel TagModel TagSpec TagProofs GeoModel RingModel RingSpec RingProofs RingProps OsmModel OsmSpec.
From Coq Require Import Permutation Sorted.
Local Open Scope nat_scope.

(** * Association lists *)

Section Maps.
  Context {V : Type}.
  Implicit Types (m : list (N * V)).

  Lemma known_lookup m k : known m k = true <-> exists v, alookup N.eqb k m = Some v.
  Proof.
    unfold known. induction m as [|[k' v] m IH]; cbn [existsb alookup fst].
    - split; [discriminate|intros (v & H); discriminate].
    - destruct (N.eqb k k'); cbn [orb]; [split; eauto|exact IH].
  Qed.
  Lemma known_none m k : known m k = false <-> alookup N.eqb k m = None.
  Proof.
    destruct (known m k) eqn:E.
    - apply known_lookup in E as (v & ->). split; discriminate.
    - split; auto. intros _. destruct (alookup N.eqb k m) eqn:X; auto.
      assert (known m k = true) by (apply known_lookup; eauto). congruence.
  Qed.
  Lemma update_lookup k f m k' : alookup N.eqb k' (aupdate k f m) =
    if N.eqb k k' then option_map f (alookup N.eqb k' m) else alookup N.eqb k' m.
  Proof.
    unfold aupdate. induction m as [|[a v] m IH]; cbn [map alookup]; [destruct (N.eqb k k'); reflexivity|].
    destruct (N.eqb_spec k a) as [->|D]; cbn [alookup].
    - destruct (N.eqb_spec k' a) as [->|D']; [rewrite N.eqb_refl; reflexivity|exact IH].
    - destruct (N.eqb_spec k' a) as [->|D']; [|exact IH]. destruct (N.eqb_spec k a); [contradiction|reflexivity].
  Qed.
  Lemma update_map {B} (g : N * V -> B) k f m : (forall k v, g (k, f v) = g (k, v)) ->
    map g (aupdate k f m) = map g m.
  Proof.
    intros H. unfold aupdate. rewrite map_map. apply map_ext. intros [a v]. destruct (N.eqb k a); auto.
  Qed.
End Maps.

Lemma known_fst {V W} (m : list (N * V)) (m' : list (N * W)) k : map fst m = map fst m' -> known m k = known m' k.
Proof.
  revert m'. induction m as [|[a v] m IH]; intros [|[b w] m'] H; try discriminate; [reflexivity|].
  cbn [map fst] in H. injection H as -> H. unfold known in *. cbn [existsb fst]. f_equal. apply IH. exact H.
Qed.
Lemma lookup_proj {V B} (g : V -> B) (m m' : list (N * V)) k :
  map (fun p => (fst p, g (snd p))) m = map (fun p => (fst p, g (snd p))) m' ->
  option_map g (alookup N.eqb k m) = option_map g (alookup N.eqb k m').
Proof.
  revert m'. induction m as [|[a v] m IH]; intros [|[b w] m'] H; try discriminate; [reflexivity|].
  cbn [map fst snd] in H. injection H as -> H1 H2. cbn [alookup]. destruct (N.eqb k b); cbn [option_map]; [congruence|auto].
Qed.
Lemma proj_fst {V B} (g : V -> B) (m m' : list (N * V)) :
  map (fun p => (fst p, g (snd p))) m = map (fun p => (fst p, g (snd p))) m' -> map fst m = map fst m'.
Proof.
  intros H. apply (f_equal (map fst)) in H. rewrite !map_map in H. exact H.
Qed.

(** * Tags *)

Lemma sorted_le t : sortedTags t -> forall i j a b, i < j ->
  nth_error t i = Some a -> nth_error t j = Some b -> (tkey a <= tkey b)%N.
Proof.
  intros H; induction H as [|x l H IH F]; intros i j a b L Ha Hb.
  - destruct i; discriminate.
  - destruct j as [|j]; [lia|]. destruct i as [|i]; cbn [nth_error] in *.
    + injection Ha as <-. rewrite Forall_forall in F. apply F. eapply nth_error_In; eauto.
    + apply (IH i j); auto; lia.
Qed.
Lemma searchTag_none_weak fuel key tags : sortedTags tags -> forall b e,
  searchTag fuel key tags b e = Some None -> forall i t,
  b <= i < e -> nth_error tags i = Some t -> tkey t <> key.
Proof.
  intros A. induction fuel as [|fuel IH]; intros b e H i t Hi Ht; [discriminate|].
  cbn [searchTag] in H. destruct (Nat.ltb_spec b e) as [L|L]; [|lia].
  set (m := b + (e - b) / 2) in *.
  destruct (nth_error tags m) as [t'|] eqn:E; [|discriminate].
  destruct (N.eqb_spec (tkey t') key) as [K|K]; [discriminate|].
  destruct (N.ltb_spec key (tkey t')) as [G|G].
  - destruct (Nat.lt_ge_cases i m) as [Lm|Lm]; [apply (IH b m H i t); auto; lia|].
    destruct (Nat.eq_dec i m) as [->|N1]; [congruence|].
    assert (tkey t' <= tkey t)%N by (apply (sorted_le tags A m i); auto; lia). lia.
  - destruct (Nat.lt_ge_cases m i) as [Lm|Lm]; [apply (IH (m + 1) e H i t); auto; lia|].
    destruct (Nat.eq_dec i m) as [->|N1]; [congruence|].
    assert (tkey t <= tkey t')%N by (apply (sorted_le tags A i m); auto; lia). lia.
Qed.

Lemma hasTag_weak k v t : sortedTags t -> oneValue k t -> v <> noId ->
  exists b, hasTag k v t = Ok b /\ (b = true <-> In (mkTag k v) t).
Proof.
  intros SO O NV. unfold hasTag, getTagValue.
  destruct (searchTag_total (S (length t)) k t 0 (length t)) as ([x|] & E); try lia; rewrite E; cbn [omap bind].
  - apply searchTag_sound in E as [I K]. eexists. split; [reflexivity|]. rewrite N.eqb_eq. destruct x as [xk xv]. cbn [tkey tvalue] in *. subst xk.
    split; [intros ->; auto|]. intros I'. apply O; auto.
  - eexists. split; [reflexivity|]. rewrite N.eqb_eq. split; [congruence|]. intros I. exfalso.
    apply In_nth_error in I as (i & I). assert (LI : i < length t) by (apply nth_error_Some; congruence).
    apply (searchTag_none_weak _ _ _ SO _ _ E i _ (conj (Nat.le_0_l i) LI) I). reflexivity.
Qed.

Lemma sorted_snoc t x : sortedTags t -> Forall (fun y => (tkey y <= tkey x)%N) t -> sortedTags (t ++ [x]).
Proof.
  unfold sortedTags. induction 1 as [|y l H IH F]; intros L; cbn [app]; [repeat constructor|].
  inversion L; subst. constructor; auto. apply Forall_app. split; auto.
Qed.

Lemma uniq_in x l : forall t, In x (uniqFrom t l) -> In x (t :: l).
Proof.
  induction l as [|y l IH]; intros t; cbn [uniqFrom]; auto. destruct (N.eqb _ _).
  - intros H. apply IH in H as [->|H]; [left|right; right]; auto.
  - intros [->|H]; [left; auto|]. apply IH in H. right. exact H.
Qed.
Lemma uniq_key l : forall x t, In x (t :: l) -> exists y, In y (uniqFrom t l) /\ tkey y = tkey x.
Proof.
  induction l as [|y l IH]; intros x t H; cbn [uniqFrom].
  - destruct H as [->|[]]. exists x. split; [left|]; auto.
  - destruct (N.eqb_spec (tkey t) (tkey y)) as [E|E].
    + destruct H as [->|[->|H]].
      * apply IH. left; auto.
      * destruct (IH t t) as (z & Z1 & Z2); [left; auto|]. exists z. split; auto. congruence.
      * apply IH. right; auto.
    + destruct H as [->|H]; [exists x; split; [left|]; auto|]. destruct (IH x y H) as (z & Z1 & Z2). exists z. split; [right|]; auto.
Qed.
Lemma uniq_sorted l : forall t, sortedTags (t :: l) -> sortedTags (uniqFrom t l).
Proof.
  induction l as [|y l IH]; intros t H; cbn [uniqFrom]; auto. inversion H as [|? ? H1 H2]; subst. inversion H1 as [|? ? H3 H4]; subst.
  destruct (N.eqb _ _).
  - apply IH. constructor; auto. inversion H2; auto.
  - constructor; [apply IH; auto|]. rewrite Forall_forall in *. intros z Z. apply uniq_in in Z. auto.
Qed.
Lemma uniqKeys_in x l : In x (uniqKeys l) -> In x l.
Proof. destruct l; [auto|]. apply uniq_in. Qed.
Lemma uniqKeys_key x l : In x l -> exists y, In y (uniqKeys l) /\ tkey y = tkey x.
Proof. destruct l; [contradiction|]. apply uniq_key. Qed.
Lemma uniqKeys_sorted l : sortedTags l -> sortedTags (uniqKeys l).
Proof. destruct l; [auto|]. apply uniq_sorted. Qed.

(** * Lists of items *)

Lemma firsts_seen {T} (l : list (item T)) : forall seen seen', (forall x, existsb (N.eqb x) seen = existsb (N.eqb x) seen') ->
  firsts seen l = firsts seen' l.
Proof.
  induction l as [|i l IH]; intros s s' H; cbn [firsts]; auto. rewrite <- H. destruct (existsb _ s) eqn:E; [auto|].
  f_equal. apply IH. intros x. cbn [existsb]. rewrite H. reflexivity.
Qed.
(** What the processor of plain relations appends. *)
Definition grow {T} (E : list (item T)) (l : list (item T)) : list (item T) := E ++ firsts (map itemId E) l.
Lemma existsb_ids {T} (E : list (item T)) x : existsb (fun i => N.eqb (itemId i) x) E = existsb (N.eqb x) (map itemId E).
Proof. induction E as [|i E IH]; cbn; auto. rewrite IH, (N.eqb_sym x). reflexivity. Qed.
Lemma existsb_app_comm {A} (f : A -> bool) l x : existsb f (l ++ [x]) = existsb f (x :: l).
Proof. rewrite existsb_app. cbn. rewrite orb_false_r. apply orb_comm. Qed.
Lemma grow_step {T} (E : list (item T)) i l :
  grow E (i :: l) = grow (if existsb (fun j => N.eqb (itemId j) (itemId i)) E then E else E ++ [i]) l.
Proof.
  unfold grow. cbn [firsts]. rewrite existsb_ids. destruct (existsb (N.eqb (itemId i)) (map itemId E)); auto.
  rewrite <- app_assoc. cbn [app]. do 2 f_equal. apply firsts_seen. intros x. rewrite map_app. symmetry. apply existsb_app_comm.
Qed.
Lemma firsts_all {T} (l : list (item T)) : forall seen, (forall i, In i l -> existsb (N.eqb (itemId i)) seen = true) -> firsts seen l = [].
Proof.
  induction l as [|i l IH]; intros s H; cbn [firsts]; auto. rewrite H by (left; auto). apply IH. intros; apply H; right; auto.
Qed.
Lemma firsts_cover {T} (l : list (item T)) : forall seen i, In i l ->
  existsb (N.eqb (itemId i)) seen = true \/ In (itemId i) (map itemId (firsts seen l)).
Proof.
  induction l as [|j l IH]; intros s i H; [contradiction|]. cbn [firsts]. destruct (existsb (N.eqb (itemId j)) s) eqn:E.
  - destruct H as [->|H]; auto.
  - destruct H as [->|H]; [right; left; auto|]. destruct (IH (itemId j :: s) i H) as [X|X]; [|right; right; auto].
    cbn [existsb] in X. apply orb_true_iff in X as [X|X]; auto. apply N.eqb_eq in X. right. left. auto.
Qed.
Lemma grow_again {T} (l : list (item T)) : grow (firsts [] l) l = firsts [] l.
Proof.
  unfold grow. rewrite (firsts_all l (map itemId (firsts [] l))); [apply app_nil_r|]. intros i H. destruct (firsts_cover l [] i H) as [X|X]; [discriminate|].
  apply existsb_exists. exists (itemId i). split; auto. apply N.eqb_refl.
Qed.
Lemma copies_snoc {T} k (l : list (item T)) : copies k l ++ l = copies (S k) l.
Proof. induction k as [|k IH]; cbn [copies] in *; [symmetry; apply app_nil_r|]. rewrite <- app_assoc, IH. reflexivity. Qed.

(** * Resolution *)

Section Resolve.
  Context {T : Type} (n : nums T).
  Variable same : point T -> point T -> bool.
  Variable sort : list tag -> list tag.
  Variables typeK multiV buildV : N.
  Variable rank : N -> nat.
  Variable st0 : octx T.

  Notation kindOf := (kindOf typeK multiV buildV).
  Notation resolve := (resolve n same sort typeK multiV buildV).
  Notation scan := (scan sort).
  Notation mergeTags := (mergeTags sort).
  Notation el := (@elementsOf T).

  Definition areaTags (t : list tag) : Prop := Forall (fun x => (tkey x <= noId)%N /\ tkey x <> typeK) t.
  Definition sameType (t0 t : list tag) : Prop :=
    goodTags typeK t /\ forall v, In (mkTag typeK v) t <-> In (mkTag typeK v) t0.

  (** What resolution leaves as it is. *)
  Record stat (st : octx T) : Prop := {
    s_nodes : map fst (nodes st) = map fst (nodes st0);
    s_ways : map (fun p => (fst p, lcoords (snd p))) (ways st) = map (fun p => (fst p, lcoords (snd p))) (ways st0);
    s_areas : map (fun p => (fst p, lcoords (snd p))) (areas st) = map (fun p => (fst p, lcoords (snd p))) (areas st0);
    s_rels : map fst (rels st) = map fst (rels st0);
    s_members : members st = members st0;
    s_rtags : forall r e0 e, alookup N.eqb r (rels st0) = Some e0 -> alookup N.eqb r (rels st) = Some e ->
      sameType (rtags e0) (rtags e);
    s_atags : forall a l, alookup N.eqb a (areas st) = Some l -> areaTags (ltags l)
  }.

  Notation mem := (mem st0).
  Notation kindR := (kindR typeK multiV buildV st0).
  Notation multiItems := (multiItems n same st0).
  Notation expected := (expected n same typeK multiV buildV st0).
  Notation referenced := (referenced st0).
  Definition done (st : octx T) (x : N) : Prop :=
    (exists k, 1 <= k /\ el st x = copies k (expected x)) /\
    (kindR x = Plain \/ length (expected x) = length (mem x) -> el st x = expected x).

  Hypothesis SORT : isSort sort.
  Hypothesis K1 : typeK <> noId.
  Hypothesis K2 : multiV <> noId.
  Hypothesis K3 : buildV <> noId.
  Hypothesis IRR : forall x, nlt n x x = false.
  Hypothesis TRANS : forall x y z, nlt n x y = true -> nlt n y z = true -> nlt n x z = true.
  Hypothesis SC : scene typeK rank st0.

  (** ** Kinds *)
  Lemma kindOf_same t0 t : sameType t0 t -> goodTags typeK t0 -> kindOf t = kindOf t0 /\ exists k, kindOf t0 = Ok k.
  Proof.
    intros ((S & O & _) & I) (S0 & O0 & _). unfold OsmModel.kindOf.
    destruct (hasTag_weak typeK multiV t S O K2) as (b1 & -> & H1).
    destruct (hasTag_weak typeK multiV t0 S0 O0 K2) as (b1' & -> & H1').
    destruct (hasTag_weak typeK buildV t S O K3) as (b2 & -> & H2).
    destruct (hasTag_weak typeK buildV t0 S0 O0 K3) as (b2' & -> & H2').
    rewrite I, <- H1' in H1. rewrite I, <- H2' in H2.
    assert (b1 = b1') as -> by (apply eq_true_iff_eq; exact H1).
    assert (b2 = b2') as -> by (apply eq_true_iff_eq; exact H2).
    cbn [bind omap]. split; auto. destruct b1', b2'; eauto.
  Qed.
  Lemma sameType_refl t : goodTags typeK t -> sameType t t.
  Proof using. intros H. split; auto. intros; reflexivity. Qed.
  Lemma sameType_push t0 t : sameType t0 t -> sameType t0 (t ++ [ignoreTag]).
  Proof.
    intros ((S & O & L) & I).
    assert (E : forall v, In (mkTag typeK v) (t ++ [ignoreTag]) <-> In (mkTag typeK v) t).
    { intros v. rewrite in_app_iff. cbn [In]. split; [|auto]. intros [H|[H|[]]]; auto. injection H as H _. exfalso. apply K1. auto. }
    split; [split; [|split]|].
    - apply sorted_snoc; auto.
    - intros v v'. rewrite !E. apply O.
    - apply Forall_app. split; auto. constructor; [cbn; lia|constructor].
    - intros v. rewrite E. apply I.
  Qed.
  Lemma sameType_merge t0 t a : sameType t0 t -> areaTags a -> sameType t0 (uniqKeys (sort (t ++ a))).
  Proof.
    intros ((S & O & L) & I) A. destruct (SORT (t ++ a)) as [P SS].
    assert (E : forall v, In (mkTag typeK v) (uniqKeys (sort (t ++ a))) <-> In (mkTag typeK v) t).
    { intros v. split.
      - intros H. apply uniqKeys_in in H. apply (Permutation_in _ P), in_app_or in H as [H|H]; auto.
        unfold areaTags in A. rewrite Forall_forall in A. destruct (A _ H) as [_ X]. exfalso. apply X. reflexivity.
      - intros H. destruct (uniqKeys_key (mkTag typeK v) (sort (t ++ a))) as (y & Y1 & Y2).
        { eapply Permutation_in; [symmetry; exact P|]. apply in_or_app. auto. }
        destruct y as [yk yv]. cbn [tkey] in Y2. subst yk. assert (Y3 := Y1). apply uniqKeys_in, (Permutation_in _ P), in_app_or in Y3 as [Y3|Y3].
        + rewrite (O v yv H Y3). exact Y1.
        + unfold areaTags in A. rewrite Forall_forall in A. destruct (A _ Y3) as [_ X]. exfalso. apply X. reflexivity. }
    split; [split; [|split]|].
    - apply uniqKeys_sorted. exact SS.
    - intros v v'. rewrite !E. apply O.
    - rewrite Forall_forall. intros x X. apply uniqKeys_in, (Permutation_in _ P), in_app_or in X as [X|X].
      + rewrite Forall_forall in L. auto.
      + unfold areaTags in A. rewrite Forall_forall in A. apply A; auto.
    - intros v. rewrite E. apply I.
  Qed.

  (** ** Steps *)
  Lemma stat_rels st : stat st -> forall r, known (rels st) r = known (rels st0) r.
  Proof using. intros S r. apply known_fst, s_rels, S. Qed.

  Lemma push_el r i (st : octx T) x : known (rels st) r = true -> el (pushItem r i st) x = if N.eqb r x then el st x ++ [i] else el st x.
  Proof using.
    intros K. unfold elementsOf, pushItem, setRels. cbn [rels]. rewrite update_lookup.
    destruct (N.eqb_spec r x) as [->|D]; auto. apply known_lookup in K as (e & ->). reflexivity.
  Qed.
  Lemma push_stat r i st : stat st -> stat (pushItem r i st).
  Proof using.
    intros [A B C D E F G]. unfold pushItem, setRels. constructor; cbn [nodes ways areas rels members]; auto.
    - rewrite <- D. apply update_map. reflexivity.
    - intros x e0 e H0 H. rewrite update_lookup in H. destruct (N.eqb r x); [|eauto].
      destruct (alookup N.eqb x (rels st)) as [e1|] eqn:X; [|discriminate]. cbn [option_map] in H. injection H as <-. cbn [rtags]. eauto.
  Qed.
  Lemma tag_el i (st : octx T) x : el (pushTag i st) x = el st x.
  Proof using.
    unfold elementsOf. destruct i; cbn [pushTag setNodes setWays setAreas setRels rels]; auto. rewrite update_lookup.
    destruct (N.eqb id x); auto. destruct (alookup N.eqb x (rels st)); reflexivity.
  Qed.
  Lemma tag_stat i st : stat st -> stat (pushTag i st).
  Proof.
    intros [A B C D E F G]. destruct i; cbn [pushTag]; unfold setNodes, setWays, setAreas, setRels;
      constructor; cbn [nodes ways areas rels members]; auto.
    - rewrite <- A. apply update_map. reflexivity.
    - rewrite <- B. apply update_map. reflexivity.
    - rewrite <- C. apply update_map. reflexivity.
    - intros a l H. rewrite update_lookup in H. destruct (N.eqb id a); [|eauto].
      destruct (alookup N.eqb a (areas st)) as [l1|] eqn:X; [|discriminate]. cbn [option_map] in H. injection H as <-. cbn [ltags].
      unfold areaTags. apply Forall_app. split; [exact (G _ _ X)|]. constructor; [|constructor]. cbn [tkey ignoreTag]. split; [lia|auto].
    - rewrite <- D. apply update_map. reflexivity.
    - intros x e0 e H0 H. rewrite update_lookup in H. destruct (N.eqb id x); [|eauto].
      destruct (alookup N.eqb x (rels st)) as [e1|] eqn:X; [|discriminate]. cbn [option_map] in H. injection H as <-. cbn [rtags].
      apply sameType_push. eauto.
  Qed.
  Lemma merge_el r t (st : octx T) x : el (mergeTags r t st) x = el st x.
  Proof using.
    unfold elementsOf, OsmModel.mergeTags, setRels. cbn [rels]. rewrite update_lookup.
    destruct (N.eqb r x); auto. destruct (alookup N.eqb x (rels st)); reflexivity.
  Qed.
  Lemma merge_stat r t st : areaTags t -> stat st -> stat (mergeTags r t st).
  Proof.
    intros H0 [A B C D E F G]. unfold OsmModel.mergeTags, setRels. constructor; cbn [nodes ways areas rels members]; auto.
    - rewrite <- D. apply update_map. reflexivity.
    - intros x e0 e X0 H. rewrite update_lookup in H. destruct (N.eqb r x); [|eauto].
      destruct (alookup N.eqb x (rels st)) as [e1|] eqn:X; [|discriminate]. cbn [option_map] in H. injection H as <-. cbn [rtags].
      apply sameType_merge; eauto.
  Qed.

  Lemma target_static st m : stat st -> target st m = hd_error (memberItem st0 m).
  Proof using.
    intros S. unfold target, memberItem.
    assert (KN := known_fst (nodes st) (nodes st0) (refId m) (s_nodes _ S)).
    assert (KA := known_fst (areas st) (areas st0) (refId m) (proj_fst _ _ _ (s_areas _ S))).
    assert (KW := known_fst (ways st) (ways st0) (refId m) (proj_fst _ _ _ (s_ways _ S))).
    assert (KR := known_fst (rels st) (rels st0) (refId m) (s_rels _ S)).
    rewrite <- KN, <- KA, <- KW, <- KR.
    assert (H : forall V (mp : list (N * V)) k, (exists v, known mp k = true /\ alookup N.eqb k mp = Some v) \/ (known mp k = false /\ alookup N.eqb k mp = None)).
    { intros V mp k. destruct (known mp k) eqn:X; [left|right; split; auto; apply known_none; auto].
      apply known_lookup in X as (v & X). eauto. }
    destruct (mtype m).
    - destruct (H _ (nodes st) (refId m)) as [(v & -> & ->)|[-> ->]]; reflexivity.
    - destruct (H _ (areas st) (refId m)) as [(v & -> & ->)|[-> ->]]; [reflexivity|].
      destruct (H _ (ways st) (refId m)) as [(v & -> & ->)|[-> ->]]; reflexivity.
    - destruct (H _ (rels st) (refId m)) as [(v & -> & ->)|[-> ->]]; reflexivity.
  Qed.
  Lemma memberItem_one m : memberItem st0 m = match hd_error (memberItem st0 m) with Some i => [i] | None => [] end.
  Proof using. unfold memberItem. destruct (mtype m); repeat match goal with |- context [known ?a ?b] => destruct (known a b) end; reflexivity. Qed.
  Lemma memberItem_rel m q : hd_error (memberItem st0 m) = Some (IRel q) -> mtype m = TOther /\ refId m = q /\ known (rels st0) q = true.
  Proof using.
    unfold memberItem. intros H.
    destruct (mtype m); repeat match type of H with context [known ?a ?b] => destruct (known a b) eqn:? end; try discriminate.
    injection H as <-. auto.
  Qed.
  Lemma memberItem_new m a : hd_error (memberItem st0 m) <> Some (INew a).
  Proof using. unfold memberItem. destruct (mtype m); repeat match goal with |- context [known ?a ?b] => destruct (known a b) end; discriminate. Qed.

  (** ** Loops *)
  Definition good (st : octx T) (x : N) : Prop := el st x = [] \/ done st x.
  Definition changed (st st' : octx T) (P : N -> Prop) : Prop :=
    forall x, el st' x = el st x \/ (P x /\ done st' x).
  Definition recOk (rec : N -> octx T -> option (outcome (octx T))) (b : nat) : Prop :=
    forall q st, rank q < b -> known (rels st0) q = true -> stat st ->
      (forall x, known (rels st0) x = true -> rank x <= rank q -> good st x) ->
      exists st', rec q st = Some (Ok st') /\ stat st' /\ changed st st' (fun x => rank x <= rank q /\ (x = q \/ referenced x)).

  Lemma done_el st st' x : el st' x = el st x -> done st x -> done st' x.
  Proof using. unfold done. intros ->. auto. Qed.
  Lemma good_el st st' x : el st' x = el st x -> good st x -> good st' x.
  Proof using. unfold good. intros E [H|H]; [left; congruence|right; eapply done_el; eauto]. Qed.
  Lemma good_changed st st' P x : changed st st' P -> good st x -> good st' x.
  Proof using.
    intros C G. destruct (C x) as [E|[_ D]]; [eapply good_el; eauto|right; auto].
  Qed.

  Lemma sc_mem r m : In m (mem r) -> exists ms, alookup N.eqb r (members st0) = Some ms /\ In m ms.
  Proof using. unfold OsmSpec.mem. destruct (alookup _ _ _); [eauto|contradiction]. Qed.
  Lemma rank_lt r m q : In m (mem r) -> hd_error (memberItem st0 m) = Some (IRel q) -> rank q < rank r /\ referenced q.
  Proof.
    intros I H. apply memberItem_rel in H as (TO & <- & K). split; [|exists r, m; auto].
    destruct (sc_mem r m I) as (ms & E & I'). exact (sc_rank _ _ _ SC r ms m E I' TO K).
  Qed.
  Lemma no_parent r m q st : In m (mem r) -> known (rels st0) r = true -> hd_error (memberItem st0 m) = Some (IRel q) -> stat st ->
    hasReferenceToParent r st q = false.
  Proof.
    intros I KR H S. destruct (rank_lt r m q I H) as [L _]. unfold hasReferenceToParent. rewrite (s_members _ S).
    destruct (alookup N.eqb q (members st0)) as [ms|] eqn:E; auto. destruct (existsb _ ms) eqn:X; auto. exfalso.
    apply existsb_exists in X as (m' & I' & X). apply N.eqb_eq in X.
    destruct (mtype m') eqn:TY.
    - rewrite <- X, (sc_ids _ _ _ SC q ms m' E I') in KR by congruence. discriminate.
    - rewrite <- X, (sc_ids _ _ _ SC q ms m' E I') in KR by congruence. discriminate.
    - rewrite <- X in KR. assert (Y := sc_rank _ _ _ SC q ms m' E I' TY KR). rewrite X in Y. lia.
  Qed.

  Section Loop.
    Variable rec : N -> octx T -> option (outcome (octx T)).
    Variable r : N.
    Hypothesis REC : recOk rec (rank r).
    Hypothesis KR : known (rels st0) r = true.

    Definition below (x : N) : Prop := rank x < rank r /\ referenced x.
    Definition pre (st : octx T) : Prop :=
      stat st /\ forall x, known (rels st0) x = true -> rank x < rank r -> good st x.
    Definition post (st st' : octx T) (E : list (item T)) : Prop :=
      pre st' /\ el st' r = E /\ forall x, x <> r -> el st' x = el st x \/ (below x /\ done st' x).

    Lemma post_trans st st1 st2 E1 E2 : post st st1 E1 -> post st1 st2 E2 -> post st st2 E2.
    Proof using.
      intros (P1 & X1 & C1) (P2 & X2 & C2). split; [auto|]. split; [auto|]. intros x D.
      destruct (C2 x D) as [E|[B DN]]; [|right; auto]. destruct (C1 x D) as [E'|[B DN]]; [left; congruence|].
      right. split; auto. eapply done_el; eauto.
    Qed.
    Lemma post_refl st : pre st -> post st st (el st r).
    Proof using. intros P. split; auto. Qed.
    Lemma post_push st i : pre st -> post st (pushItem r i st) (el st r ++ [i]).
    Proof.
      intros [S G]. assert (KS : known (rels st) r = true) by (rewrite (stat_rels _ S); auto).
      split; [split; [apply push_stat; auto|]|split].
      - intros x Kx L. eapply good_el; [|apply G; auto]. rewrite push_el by auto. destruct (N.eqb_spec r x); [subst; lia|auto].
      - rewrite push_el, N.eqb_refl by auto. reflexivity.
      - intros x D. left. rewrite push_el by auto. destruct (N.eqb_spec r x); [subst; contradiction|auto].
    Qed.
    Lemma post_same st st' : pre st -> stat st' -> (forall x, el st' x = el st x) -> post st st' (el st r).
    Proof using.
      intros [S G] S' E. split; [split; auto|split; auto]. intros x Kx L. eapply good_el; eauto.
    Qed.
    Lemma post_rec st m q : pre st -> In m (mem r) -> hd_error (memberItem st0 m) = Some (IRel q) ->
      exists st', rec q st = Some (Ok st') /\ post st st' (el st r).
    Proof.
      intros [S G] I H. destruct (rank_lt r m q I H) as [L RF]. apply memberItem_rel in H as (_ & _ & Kq).
      destruct (REC q st L Kq S) as (st' & E & S' & C).
      { intros x Kx Lx. apply G; auto. lia. }
      exists st'. split; auto. split; [split; auto|split].
      - intros x Kx Lx. eapply good_changed; eauto.
      - destruct (C r) as [X|[[X _] _]]; auto. lia.
      - intros x D. destruct (C x) as [X|[[X1 [->|X2]] X3]]; auto; right; (split; [split; [lia|auto]|auto]).
    Qed.

    Lemma plain_loop ms : incl ms (mem r) -> forall st, pre st ->
      exists st', visitMembers (fun i _ => visitPlain rec r i) ms st = Some (Ok st') /\
        post st st' (grow (el st r) (flat_map (memberItem st0) ms)).
    Proof.
      induction ms as [|m ms IH]; intros IN st P.
      - exists st. split; [reflexivity|]. unfold grow. cbn [flat_map firsts]. rewrite app_nil_r. apply post_refl; auto.
      - assert (IN' : incl ms (mem r)) by (intros x X; apply IN; right; auto).
        assert (Im : In m (mem r)) by (apply IN; left; auto).
        cbn [visitMembers flat_map]. rewrite (target_static st m (proj1 P)), memberItem_one.
        destruct (hd_error (memberItem st0 m)) as [i|] eqn:H; cbn [app hd_error].
        2: { apply IH; auto. }
        rewrite grow_step.
        assert (STEP : exists st1, visitPlain rec r i st = Some (Ok st1) /\
          post st st1 (if existsb (fun j => N.eqb (itemId j) (itemId i)) (el st r) then el st r else el st r ++ [i])).
        { unfold visitPlain. destruct i as [id|id|id|id|a]; cbn [itemId]; unfold isAlreadyProcessed.
          1, 2, 3: eexists; split; [reflexivity|]; destruct (existsb _ (el st r)); [apply post_refl|apply post_push]; auto.
          - rewrite (no_parent r m id st Im KR H (proj1 P)), orb_false_r. destruct (existsb _ (el st r)).
            + eexists; split; [reflexivity|]. apply post_refl; auto.
            + destruct (post_rec st m id P Im H) as (st1 & -> & P1). cbn [obind]. eexists; split; [reflexivity|].
              assert (E1 : el st1 r = el st r) by apply P1. rewrite <- E1. eapply post_trans; [exact P1|]. apply post_push. apply P1.
          - exfalso. eapply memberItem_new; eauto. }
        destruct STEP as (st1 & V1 & P1). cbn beta. rewrite V1. cbn [obind]. destruct (IH IN' st1 (proj1 P1)) as (st2 & V2 & P2). rewrite V2.
        eexists; split; [reflexivity|]. assert (E1 := proj1 (proj2 P1)). rewrite E1 in P2. eapply post_trans; eauto.
    Qed.

    Lemma building_loop ms : incl ms (mem r) -> forall st, pre st ->
      exists st', visitMembers (visitBuilding rec r) ms st = Some (Ok st') /\
        post st st' (el st r ++ buildingItems st0 ms).
    Proof.
      induction ms as [|m ms IH]; intros IN st P.
      - exists st. split; [reflexivity|]. cbn [buildingItems flat_map]. unfold buildingItems. cbn [flat_map]. rewrite app_nil_r. apply post_refl; auto.
      - assert (IN' : incl ms (mem r)) by (intros x X; apply IN; right; auto).
        assert (Im : In m (mem r)) by (apply IN; left; auto).
        unfold buildingItems. cbn [visitMembers flat_map]. fold (buildingItems st0 ms).
        rewrite (target_static st m (proj1 P)). rewrite (memberItem_one m).
        destruct (hd_error (memberItem st0 m)) as [i|] eqn:H; cbn [hd_error].
        2: { assert (X : match role m with ROutline => [] | _ => @nil (item T) end = []) by (destruct (role m); auto).
             rewrite X. apply IH; auto. }
        assert (ADD : forall s, pre s -> post s (addToRelation r i (role m) s) (el s r ++ match role m with ROutline => [] | _ => [i] end)).
        { intros s Ps. unfold addToRelation. assert (TG : forall s', pre s' -> post s' (pushTag i s') (el s' r)).
          { intros s' Ps'. apply post_same; auto; [apply tag_stat, Ps'|intros; apply tag_el]. }
          destruct (role m); try (eapply post_trans; [apply post_push; auto|]; rewrite <- (proj1 (proj2 (post_push s i Ps))); apply TG; apply post_push; auto).
          rewrite app_nil_r. apply TG; auto. }
        assert (STEP : exists st1, visitBuilding rec r i (role m) st = Some (Ok st1) /\
          post st st1 (el st r ++ match role m with ROutline => [] | _ => [i] end)).
        { unfold visitBuilding. destruct i as [id|id|id|id|a].
          1, 2, 3, 5: eexists; split; [reflexivity|]; apply ADD; auto.
          destruct (post_rec st m id P Im H) as (st1 & -> & P1). cbn [obind]. eexists; split; [reflexivity|].
          assert (E1 : el st1 r = el st r) by apply P1. rewrite <- E1. eapply post_trans; [exact P1|]. apply ADD. apply P1. }
        destruct STEP as (st1 & -> & P1). cbn [obind]. destruct (IH IN' st1 (proj1 P1)) as (st2 & -> & P2).
        eexists; split; [reflexivity|]. assert (E1 := proj1 (proj2 P1)). rewrite E1, <- app_assoc in P2. eapply post_trans; eauto.
    Qed.

    Lemma lookup_line (g : octx T -> list (N * oline T)) st x :
      map (fun p => (fst p, lcoords (snd p))) (g st) = map (fun p => (fst p, lcoords (snd p))) (g st0) ->
      match alookup N.eqb x (g st) with
      | Some l => exists l0, alookup N.eqb x (g st0) = Some l0 /\ lcoords l0 = lcoords l
      | None => alookup N.eqb x (g st0) = None
      end.
    Proof using.
      intros H. apply (lookup_proj lcoords _ _ x) in H. destruct (alookup N.eqb x (g st)), (alookup N.eqb x (g st0)); try discriminate; eauto.
      cbn [option_map] in H. injection H as H. eauto.
    Qed.

    Lemma scan_spec h ms : incl ms (mem r) -> forall st acc, stat st ->
      exists st', scan rec r h ms st acc = Some (Ok (st', option_map (app acc) (sequencesOf st0 ms))) /\
        stat st' /\ forall x, el st' x = el st x.
    Proof.
      induction ms as [|m ms IH]; intros IN st acc S; cbn [OsmModel.scan sequencesOf].
      - exists st. cbn [option_map]. rewrite app_nil_r. auto.
      - assert (IN' : incl ms (mem r)) by (intros x X; apply IN; right; auto).
        assert (Im : In m (mem r)) by (apply IN; left; auto).
        destruct (mtype m) eqn:TY; try (apply IH; auto).
        unfold memberLine.
        assert (NEXT : forall s cs, stat s -> (forall x, el s x = el st x) -> exists st',
          match cs with
          | [] => scan rec r h ms s acc
          | _ => match role m with
                 | ROuter => scan rec r h ms s (acc ++ [(true, mkSeq (refId m) cs)])
                 | RInner => scan rec r h ms s (acc ++ [(false, mkSeq (refId m) cs)])
                 | _ => scan rec r h ms s acc
                 end
          end = Some (Ok (st', option_map (app acc)
             match sequencesOf st0 ms with
             | Some l => match cs, role m with
                | _ :: _, ROuter => Some ((true, mkSeq (refId m) cs) :: l)
                | _ :: _, RInner => Some ((false, mkSeq (refId m) cs) :: l)
                | _, _ => Some l
                end
             | None => None
             end)) /\ stat st' /\ forall x, el st' x = el st x).
        { intros s cs Ss Es.
          assert (R : forall acc', exists st', scan rec r h ms s acc' = Some (Ok (st', option_map (app acc') (sequencesOf st0 ms))) /\ stat st' /\ forall x, el st' x = el st x).
          { intros acc'. destruct (IH IN' s acc' Ss) as (st' & X1 & X2 & X3). exists st'. split; [auto|]. split; auto. intros x. rewrite X3. apply Es. }
          destruct cs as [|c cs]; [|destruct (role m)].
          - destruct (R acc) as (st' & -> & X). exists st'. split; auto. destruct (sequencesOf st0 ms); reflexivity.
          - destruct (R (acc ++ [(true, mkSeq (refId m) (c :: cs))])) as (st' & -> & X). exists st'. split; auto.
            destruct (sequencesOf st0 ms); cbn [option_map]; [rewrite <- app_assoc|]; reflexivity.
          - destruct (R (acc ++ [(false, mkSeq (refId m) (c :: cs))])) as (st' & -> & X). exists st'. split; auto.
            destruct (sequencesOf st0 ms); cbn [option_map]; [rewrite <- app_assoc|]; reflexivity.
          - destruct (R acc) as (st' & -> & X). exists st'. split; auto. destruct (sequencesOf st0 ms); reflexivity.
          - destruct (R acc) as (st' & -> & X). exists st'. split; auto. destruct (sequencesOf st0 ms); reflexivity. }
        assert (LW := lookup_line ways st (refId m) (s_ways _ S)). assert (LA := lookup_line areas st (refId m) (s_areas _ S)).
        destruct (alookup N.eqb (refId m) (ways st)) as [w|].
        { destruct LW as (w0 & -> & ->). apply NEXT; auto. }
        rewrite LW. destruct (alookup N.eqb (refId m) (areas st)) as [a|] eqn:EA.
        { destruct LA as (a0 & EA0 & E0). rewrite EA0. destruct (sc_areas _ _ _ SC _ _ EA0) as [NE _]. rewrite E0 in *.
          destruct (lcoords a) as [|c cs]; [contradiction|]. cbn [firstn app].
          assert (AT : areaTags (ltags a)) by exact (s_atags _ S _ _ EA).
          apply (NEXT (match role m with ROuter => if h then mergeTags r (ltags a) st else st | _ => st end) (c :: cs ++ [c])).
          - destruct (role m); auto. destruct h; auto. apply merge_stat; auto.
          - intros x. destruct (role m); auto. destruct h; auto. apply merge_el. }
        rewrite LA. destruct (sc_mem r m Im) as (ms0 & EM & IM).
        assert (NK := sc_ids _ _ _ SC r ms0 m EM IM ltac:(congruence)). rewrite <- (stat_rels _ S) in NK. apply known_none in NK. rewrite NK.
        exists st. auto.
    Qed.

    Lemma sequences_filled ms : match sequencesOf st0 ms with Some l => Forall (fun s => filled (snd s)) l | None => True end.
    Proof using.
      induction ms as [|m ms IH]; cbn [sequencesOf]; [constructor|]. destruct (mtype m); auto.
      destruct (memberLine st0 m) as [cs|]; auto. destruct (sequencesOf st0 ms) as [l|]; auto.
      destruct cs; [destruct (role m); auto|]. destruct (role m); auto; constructor; auto; discriminate.
    Qed.
    Lemma assemble_defined l : Forall (fun s => filled (snd s)) l -> exists new, assemble n same l = Some (Ok new).
    Proof.
      intros F. unfold assemble.
      assert (FS : Forall (fun s => scoords s <> []) (map snd l)) by (clear -F; induction F; constructor; auto).
      destruct (C34_defined n same (isClockwise n) IRR TRANS (map snd l) FS) as (_ & new & _ & E & _).
      assert (FF : forall p, Forall filled (map snd (filter p l))).
      { intros p. clear -F. induction F; cbn [filter map]; [constructor|]. destruct (p x); auto. constructor; auto. }
      destruct (map snd (filter fst l)) as [|o [|o' os]] eqn:EO; eauto. destruct (forallb _ l); eauto.
      assert (Fo : Forall filled [o]) by (rewrite <- EO; apply FF). inversion Fo; subst.
      unfold simpleCase. destruct (makeArea_filled same (isClockwise n) true o) as (a & -> & _); auto.
      destruct (makeAll_filled same (isClockwise n) false (map snd (filter (fun s => negb (fst s)) l))) as (as_ & -> & _); [apply FF|].
      cbn [bind omap]. eauto.
    Qed.

    Lemma push_all new : forall st, pre st ->
      post st (fold_left (fun s a => pushItem r (INew a) s) new st) (el st r ++ map INew new).
    Proof.
      induction new as [|a new IH]; intros st P; cbn [fold_left map]; [rewrite app_nil_r; apply post_refl; auto|].
      assert (P1 := post_push st (INew a) P). assert (P2 := IH _ (proj1 P1)). rewrite (proj1 (proj2 P1)), <- app_assoc in P2.
      eapply post_trans; eauto.
    Qed.

    Lemma multi_loop tags st : pre st ->
      exists st', processMulti n same sort rec r tags (mem r) st = Some (Ok st') /\ post st st' (el st r ++ multiItems (mem r)).
    Proof.
      intros P. unfold processMulti, OsmSpec.multiItems.
      destruct (scan_spec (length tags <? 2) (mem r) (incl_refl _) st [] (proj1 P)) as (st1 & -> & S1 & E1). cbn [obind].
      assert (P1 : post st st1 (el st r)) by (apply post_same; auto).
      assert (F := sequences_filled (mem r)). destruct (sequencesOf st0 (mem r)) as [l|]; cbn [option_map app].
      - destruct (assemble_defined l F) as (new & ->). cbn [obind]. eexists; split; [reflexivity|].
        assert (P2 := push_all new st1 (proj1 P1)). rewrite (E1 r) in P2. eapply post_trans; eauto.
      - eexists; split; [reflexivity|]. rewrite app_nil_r. exact P1.
    Qed.
  End Loop.

  Lemma expected_nil r : mem r = [] -> expected r = [].
  Proof.
    intros E. unfold OsmSpec.expected. rewrite E. destruct (kindR r); reflexivity.
  Qed.

  Lemma resolve_spec fuel : forall q st, rank q < fuel -> known (rels st0) q = true -> stat st ->
    (forall x, known (rels st0) x = true -> rank x <= rank q -> good st x) ->
    exists st', resolve fuel q st = Some (Ok st') /\ stat st' /\
      changed st st' (fun x => rank x <= rank q /\ (x = q \/ referenced x)) /\ done st' q /\
      (el st q = [] -> el st' q = expected q).
  Proof.
    induction fuel as [|fuel IH]; intros q st L Kq S G; [lia|]. cbn [OsmModel.resolve].
    assert (Kq' : known (rels st) q = true) by (rewrite (stat_rels _ S); auto).
    apply known_lookup in Kq' as (e & He). assert (Kq0 := Kq). apply known_lookup in Kq0 as (e0 & He0).
    destruct (sc_members _ _ _ SC q Kq) as (ms & Hm). rewrite He, (s_members _ S), Hm.
    assert (EM : mem q = ms) by (unfold OsmSpec.mem; rewrite Hm; auto).
    assert (Eel : el st q = relems e) by (unfold elementsOf; rewrite He; auto).
    destruct (sc_rels _ _ _ SC q e0 He0) as [_ GT].
    destruct (kindOf_same (rtags e0) (rtags e)) as [KS (k & KK)]; [apply (s_rtags _ S q); auto|auto|].
    assert (EK : kindR q = k) by (unfold OsmSpec.kindR; rewrite He0, KK; auto).
    assert (Gq : good st q) by (apply G; auto).
    destruct (Nat.eqb_spec (length (relems e)) (length ms)) as [LE|LE].
    - (* already resolved *)
      exists st. split; [reflexivity|]. split; [auto|]. split; [intros x; auto|]. rewrite <- Eel, <- EM in LE.
      assert (Z : el st q = [] -> el st q = expected q).
      { intros Z. rewrite Z in LE |- *. symmetry. apply expected_nil. destruct (mem q); [auto|discriminate]. }
      split; [|exact Z]. destruct Gq as [Z'|D]; auto. assert (X := Z Z'). split.
      + exists 1. split; auto. cbn [copies]. rewrite app_nil_r. exact X.
      + intros _. exact X.
    - rewrite KS, KK.
      assert (REC : recOk (resolve fuel) (rank q)).
      { intros q' s' L' K' S' G'. destruct (IH q' s') as (s'' & X1 & X2 & X3 & _); auto; [lia|]. eauto. }
      assert (PRE : pre q st) by (split; auto; intros x Kx Lx; apply G; auto; lia).
      (** What remains to show. *)
      assert (FIN : forall st' E, post q st st' E ->
        ((el st q = [] /\ E = expected q) \/ (done st q /\ done st' q)) ->
        stat st' /\ changed st st' (fun x => rank x <= rank q /\ (x = q \/ referenced x)) /\ done st' q /\
        (el st q = [] -> E = expected q -> el st' q = expected q)).
      { intros st' E (P1 & X & C) H. split; [apply P1|].
        assert (D : done st' q).
        { destruct H as [[_ H]|[_ H]]; auto. split; [exists 1; split; auto; cbn [copies]; rewrite app_nil_r|intros _]; congruence. }
        split; [|split; [auto|congruence]]. intros x. destruct (N.eq_dec x q) as [->|NE]; [right; auto|].
        destruct (C x NE) as [Y|[[Y1 Y2] Y3]]; auto. right. split; [split; [lia|auto]|auto]. }
      destruct k.
      + destruct (multi_loop (resolve fuel) q REC Kq (rtags e) st PRE) as (st' & X & P). rewrite EM in X. rewrite X. exists st'. split; [reflexivity|].
        assert (EX : expected q = multiItems (mem q)) by (unfold OsmSpec.expected; rewrite EK; auto). rewrite <- EX in P.
        destruct (FIN _ _ P) as (F1 & F2 & F3 & F4).
        { destruct Gq as [Z|D]; [left; rewrite Z; auto|right]. split; auto. destruct D as [(k & Lk & Ek) DD].
          destruct P as (_ & P & _). split.
          - exists (Datatypes.S k). split; [lia|]. rewrite P, Ek. apply copies_snoc.
          - intros [Y|Y]; [congruence|]. exfalso. apply LE. rewrite <- Eel, DD, Y, EM; auto. }
        split; [auto|]. split; [auto|]. split; auto. intros Z. apply F4; auto. rewrite Z. reflexivity.
      + destruct (building_loop (resolve fuel) q REC Kq (mem q) (incl_refl _) st PRE) as (st' & X & P). rewrite EM in X. rewrite X. exists st'. split; [reflexivity|].
        assert (EX : expected q = buildingItems st0 (mem q)) by (unfold OsmSpec.expected; rewrite EK; auto). rewrite <- EX in P.
        destruct (FIN _ _ P) as (F1 & F2 & F3 & F4).
        { destruct Gq as [Z|D]; [left; rewrite Z; auto|right]. split; auto. destruct D as [(k & Lk & Ek) DD].
          destruct P as (_ & P & _). split.
          - exists (Datatypes.S k). split; [lia|]. rewrite P, Ek. apply copies_snoc.
          - intros [Y|Y]; [congruence|]. exfalso. apply LE. rewrite <- Eel, DD, Y, EM; auto. }
        split; [auto|]. split; [auto|]. split; auto. intros Z. apply F4; auto. rewrite Z. reflexivity.
      + destruct (plain_loop (resolve fuel) q REC Kq (mem q) (incl_refl _) st PRE) as (st' & X & P). rewrite EM in X. rewrite X. exists st'. split; [reflexivity|].
        assert (EX : expected q = plainItems st0 (mem q)) by (unfold OsmSpec.expected; rewrite EK; auto).
        destruct (FIN _ _ P) as (F1 & F2 & F3 & F4).
        { destruct Gq as [Z|D]; [left; rewrite Z; split; auto; rewrite EX; reflexivity|right]. split; auto.
          assert (Y : el st q = expected q) by (apply D; auto). destruct P as (_ & P & _).
          assert (Y' : el st' q = expected q).
          { rewrite P, Y, EX. unfold plainItems. apply grow_again. }
          split; [exists 1; split; auto; cbn [copies]; rewrite app_nil_r|intros _]; auto. }
        split; [auto|]. split; [auto|]. split; auto. intros Z. apply F4; auto. rewrite Z, EX. reflexivity.
  Qed.
End Resolve.

Section All.
  Context {T : Type} (n : nums T).
  Variable same : point T -> point T -> bool.
  Variable sort : list tag -> list tag.
  Variables typeK multiV buildV : N.
  Variable rank : N -> nat.
  Variable st0 : octx T.
  Hypothesis SORT : isSort sort.
  Hypothesis K1 : typeK <> noId.
  Hypothesis K2 : multiV <> noId.
  Hypothesis K3 : buildV <> noId.
  Hypothesis IRR : forall x, nlt n x x = false.
  Hypothesis TRANS : forall x y z, nlt n x y = true -> nlt n y z = true -> nlt n x z = true.
  Hypothesis SC : scene typeK rank st0.
  Notation resolveAll := (resolveAll n same sort typeK multiV buildV).
  Notation expected := (expected n same typeK multiV buildV st0).
  Notation done := (done n same typeK multiV buildV st0).
  Notation good := (good n same typeK multiV buildV st0).
  Notation stat := (stat typeK st0).

  Lemma stat_init : stat st0.
  Proof.
    constructor; auto.
    - intros r e0 e H0 H. rewrite H0 in H. injection H as <-. apply sameType_refl. apply (sc_rels _ _ _ SC r e0 H0).
    - intros a l H. apply (sc_areas _ _ _ SC a l H).
  Qed.

  Lemma resolveAll_spec fuel order : forall st, (forall r, In r order -> rank r < fuel) -> stat st ->
    (forall x, known (rels st0) x = true -> good st x) ->
    exists st', resolveAll fuel order st = Some (Ok st') /\ stat st' /\
      (forall x, known (rels st0) x = true -> good st' x) /\
      (forall x, done st x -> done st' x) /\
      (forall x, In x order -> known (rels st0) x = true -> done st' x) /\
      (forall x, ~ referenced st0 x -> ~ In x order -> elementsOf st' x = elementsOf st x) /\
      (forall x, ~ referenced st0 x -> NoDup order -> In x order -> known (rels st0) x = true ->
         elementsOf st x = [] -> elementsOf st' x = expected x).
  Proof.
    induction order as [|r order IH]; intros st L S G; cbn [OsmModel.resolveAll].
    - exists st. split; [reflexivity|]. split; [auto|]. split; [auto|]. split; [auto|]. split; [intros x []|]. split; [auto|]. intros x _ _ [].
    - assert (L' : forall x, In x order -> rank x < fuel) by (intros; apply L; right; auto).
      destruct (known (rels st) r) eqn:K.
      + assert (K0 : known (rels st0) r = true) by (rewrite <- (stat_rels _ _ _ S); auto).
        apply known_lookup in K as (e & ->).
        destruct (resolve_spec n same sort typeK multiV buildV rank st0 SORT K1 K2 K3 IRR TRANS SC fuel r st) as (st1 & -> & S1 & C1 & D1 & F1); auto.
        { apply L. left. auto. }
        cbn [obind].
        assert (G1 : forall x, known (rels st0) x = true -> good st1 x).
        { intros x Kx. eapply good_changed; eauto. }
        destruct (IH st1 L' S1 G1) as (st2 & E2 & S2 & G2 & M2 & D2 & U2 & F2).
        exists st2. split; [auto|]. split; [auto|]. split; [auto|]. split; [|split; [|split]].
        * intros x D. apply M2. destruct (C1 x) as [E|[_ E]]; auto. eapply done_el; eauto.
        * intros x [<-|I] Kx; auto.
        * intros x NR NI. rewrite U2; auto; [|intros I; apply NI; right; auto].
          destruct (C1 x) as [E|[[_ [->|E]] _]]; auto; [|contradiction]. exfalso. apply NI. left; auto.
        * intros x NR ND I Kx E. inversion ND as [|? ? N1 N2]; subst.
          destruct (N.eq_dec x r) as [->|NE].
          -- rewrite U2; auto.
          -- destruct I as [->|I]; [contradiction|]. apply F2; auto.
             destruct (C1 x) as [X|[[_ [->|X]] _]]; [congruence|contradiction|contradiction].
      + assert (K0 : known (rels st0) r = false) by (rewrite <- (stat_rels _ _ _ S); auto).
        apply known_none in K as ->. destruct (IH st L' S G) as (st2 & E2 & S2 & G2 & M2 & D2 & U2 & F2).
        exists st2. split; [auto|]. split; [auto|]. split; [auto|]. split; [auto|]. split; [|split].
        * intros x [<-|I] Kx; [congruence|auto].
        * intros x NR NI. apply U2; auto. intros I; apply NI; right; auto.
        * intros x NR ND I Kx E. inversion ND as [|? ? N1 N2]; subst. destruct I as [->|I]; [congruence|]. auto.
  Qed.
End All.
