From Verif Require Import Base Bytes BytesProofs ElementModel GeoModel GeoSpec GeoProofs LruProofs
  StoreModel StoreSpec StoreProofs TileStoreModel TileStoreSpec.
From Coq Require Import Sorted.

(** * The box is computed once *)

Definition absorbed (b : box dbl) (p : point dbl) : Prop := expand dord b p = b.

Lemma min_absorb : forall a b c, isNumber a -> stdMin dord a b = a -> stdMin dord (stdMin dord a c) b = stdMin dord a c.
Proof. intros a b c Ha H. rewrite <- H at 2. rewrite min_swap by exact Ha. reflexivity. Qed.
Lemma max_absorb : forall a b c, isNumber a -> stdMax dord a b = a -> stdMax dord (stdMax dord a c) b = stdMax dord a c.
Proof. intros a b c Ha H. rewrite <- H at 2. rewrite max_swap by exact Ha. reflexivity. Qed.

Lemma absorbed_expand : forall b p q, numberBox b -> absorbed b p -> absorbed (expand dord b q) p.
Proof.
  intros b p q [[N1 N2] [N3 N4]] H. unfold absorbed, expand in *. cbn [bmin bmax plat plon].
  destruct b as [[a1 a2] [a3 a4]]. cbn [bmin bmax plat plon] in *.
  injection H as H1 H2 H3 H4. rewrite !min_absorb, !max_absorb by auto. reflexivity.
Qed.

Lemma absorbed_expandAll : forall qs b p, numberBox b -> absorbed b p -> absorbed (expandAll dord b qs) p.
Proof.
  induction qs as [|q qs IH]; intros b p N H; [exact H|]. cbn. apply IH; [apply expand_number; exact N|].
  apply absorbed_expand; auto.
Qed.

Lemma expandAll_absorbed : forall ps b, numberBox b -> Forall (absorbed (expandAll dord b ps)) ps.
Proof.
  induction ps as [|p ps IH]; intros b N; [constructor|]. cbn. constructor.
  - apply absorbed_expandAll; [apply expand_number; exact N|]. apply expand_twice.
  - apply IH. apply expand_number. exact N.
Qed.

Lemma expandAll_nothing : forall ps b, Forall (absorbed b) ps -> expandAll dord b ps = b.
Proof.
  induction ps as [|p ps IH]; intros b H; [reflexivity|]. inversion H as [|? ? H1 H2]. subst. cbn.
  rewrite H1. apply IH. exact H2.
Qed.

Lemma elementBox_twice : forall e, geometryVisit (elementBox e) e = elementBox e.
Proof.
  intros e. unfold elementBox. rewrite !geometryVisit_coords. apply expandAll_nothing.
  apply expandAll_absorbed. apply emptyBox_number.
Qed.

Lemma boxOnce_start : forall e, boxOnce emptyBox e = elementBox e.
Proof.
  intros. unfold boxOnce. replace (isValid dord emptyBox) with false by (vm_compute; reflexivity). reflexivity.
Qed.
Lemma boxOnce_again : forall e, boxOnce (elementBox e) e = elementBox e.
Proof.
  intros. unfold boxOnce. destruct (isValid dord (elementBox e)); [reflexivity|]. apply elementBox_twice.
Qed.

Lemma keyEqb_refl : forall k, keyEqb k k = true.
Proof. intros. apply keyEqb_eq. reflexivity. Qed.

Lemma savedAt_app : forall k a b, savedAt k (a ++ b) = savedAt k a ++ savedAt k b.
Proof. intros. unfold savedAt. rewrite filter_app, map_app. reflexivity. Qed.

Lemma savedAt_nil : forall k s, (forall x, In x s -> fst x <> k) -> savedAt k s = [].
Proof.
  intros k s H. unfold savedAt. induction s as [|x s IH]; [reflexivity|]. cbn [filter].
  destruct (keyEqb k (fst x)) eqn:E.
  - apply keyEqb_eq in E. destruct (H x); [left; reflexivity|]. auto.
  - apply IH. intros y Hy. apply H. right. exact Hy.
Qed.

Lemma elementBox_number : forall e, numberBox (elementBox e).
Proof. intros. unfold elementBox. rewrite geometryVisit_coords. apply expandAll_number. apply emptyBox_number. Qed.

  Lemma interval_nodup : forall a b, NoDup (interval a b).
  Proof.
    intros. unfold interval. apply FinFun.Injective_map_NoDup; [|apply seq_NoDup].
    intros x y H. lia.
  Qed.

  Lemma wanted_asked : forall f, wanted f = true <-> asked f.
  Proof. intros [a b c]. unfold wanted, asked. cbn. destruct a, b; cbn; intuition discriminate. Qed.

  Lemma newRange_level : forall l, MinLod <= l <= MaxLod -> newRange l l = Ok (mkRange l l).
  Proof. intros l H. unfold newRange, MinLod, MaxLod in *. 
    destruct (Z.ltb_spec l 1); [lia|]. destruct (Z.gtb_spec l 19); [lia|]. reflexivity. Qed.

  Lemma in_saves : forall s k e', In (k, e') s -> In e' (savedAt k s).
  Proof.
    intros s k e' H. unfold savedAt. apply in_map_iff. exists (k, e'). split; [reflexivity|].
    apply filter_In. split; [exact H|apply keyEqb_refl].
  Qed.

  Lemma savedAt_in : forall s k e', In e' (savedAt k s) -> In (k, e') s.
  Proof.
    intros s k e' H. unfold savedAt in H. apply in_map_iff in H as ([k' e''] & <- & H).
    apply filter_In in H as [H E]. apply keyEqb_eq in E. cbn [fst snd] in *. subst. exact H.
  Qed.

  Lemma contents_calls : forall saves k past,
    contents k (rev (past ++ calls saves)) = contents k (rev past) ++ savedAt k saves.
  Proof.
    induction saves as [|[k' e] saves IH] using rev_ind; intros k past.
    - cbn. rewrite !app_nil_r. reflexivity.
    - unfold calls. rewrite map_app, app_assoc, rev_app_distr. cbn [map rev app contents].
      fold (calls saves). rewrite savedAt_app. unfold savedAt at 2. cbn [filter fst].
      destruct (keyEqb k k'); cbn [map snd]; rewrite IH; rewrite ?app_nil_r, ?app_assoc; reflexivity.
  Qed.

  Lemma asked_dec : forall f, asked f \/ ~ asked f.
  Proof. intros f. rewrite <- wanted_asked. destruct (wanted f); auto. Qed.

  Lemma contents_erase : forall k k' past,
    contents k (rev (past ++ [Erase k'])) = if keyEqb k k' then [] else contents k (rev past).
  Proof. intros. rewrite rev_app_distr. reflexivity. Qed.
Section Store.
  Variable tileOf : point dbl -> Z -> quadKey.
  Variable tileBox : quadKey -> box dbl.
  Variable styleOf : element -> Z -> styleFlags.
  Variable clip : quadKey -> box dbl -> element -> list element.
  Hypothesis numbers : forall k, numberBox (tileBox k).

  Notation visit := (visitTileRange dord tileOf tileBox).

  (** The tiles of the element at level [l] that are accepted. *)
  Definition taken (accept : box dbl -> box dbl -> bool) e l :=
    filter (fun v : quadKey * box dbl => accept (elementBox e) (snd v)) (visit (elementBox e) l).

  Lemma storeLevels_box : forall accept e ls b, b = emptyBox \/ b = elementBox e ->
    storeLevels tileOf tileBox styleOf clip accept e b ls =
    (flat_map (fun l => if wanted (styleOf e l) then flat_map (saveTile clip (styleOf e l) e) (taken accept e l) else []) ls,
     existsb (fun l => wanted (styleOf e l) && negb (Nat.eqb (length (taken accept e l)) 0)) ls).
  Proof.
    intros accept e. induction ls as [|l ls IH]; intros b Hb; [reflexivity|].
    cbn [storeLevels flat_map existsb]. destruct (wanted (styleOf e l)) eqn:W; cbn [andb orb app].
    - assert (E : boxOnce b e = elementBox e).
      { destruct Hb as [->| ->]; [apply boxOnce_start|apply boxOnce_again]. }
      rewrite E, IH by auto. reflexivity.
    - apply IH. exact Hb.
  Qed.

  Lemma in_taken : forall accept e l v, In v (taken accept e l) <->
    In v (visit (elementBox e) l) /\ accept (elementBox e) (snd v) = true.
  Proof. intros. unfold taken. apply filter_In. Qed.

  Lemma visit_touches : forall e k, In k (map fst (visit (elementBox e) (lod k))) <-> touches tileOf tileBox e k.
  Proof. intros. rewrite in_visit_dbl by exact numbers. unfold touches. tauto. Qed.

  Lemma visit_level : forall b l v, In v (visit b l) -> lod (fst v) = l /\ snd v = tileBox (fst v).
  Proof. intros b l [k kb] H. apply in_visit in H. cbn [fst snd]. tauto. Qed.

  Lemma taken_nodup : forall accept e l, NoDup (map fst (taken accept e l)).
  Proof. intros. apply NoDup_map_filter. apply visit_nodup. Qed.

  Lemma saved_tiles : forall f e vs k, NoDup (map fst vs) ->
    (forall v, In v vs -> snd v = tileBox (fst v)) ->
    savedAt k (flat_map (saveTile clip f e) vs) =
    if existsb (fun v => keyEqb k (fst v)) vs then pieces clip tileBox f k e else [].
  Proof.
    intros f e vs k. induction vs as [|v vs IH]; intros ND Hb; [reflexivity|].
    cbn [flat_map existsb]. rewrite savedAt_app. cbn [map] in ND. inversion ND as [|? ? Hn ND']. subst.
    rewrite IH; [|exact ND'|intros; apply Hb; right; assumption].
    assert (Hv : savedAt k (saveTile clip f e v) = if keyEqb k (fst v) then pieces clip tileBox f k e else []).
    { unfold saveTile, pieces, savedAt. pose proof (Hb v (or_introl eq_refl)) as Eb.
      destruct (keyEqb k (fst v)) eqn:E.
      - apply keyEqb_eq in E. subst k. destruct (sClip f).
        + rewrite Eb. generalize (clip (fst v) (tileBox (fst v)) e). intros es.
          induction es as [|e' es IHe]; [reflexivity|]. cbn [map filter fst]. rewrite keyEqb_refl. cbn [map snd].
          rewrite IHe. reflexivity.
        + cbn [filter fst]. rewrite keyEqb_refl. reflexivity.
      - destruct (sClip f).
        + generalize (clip (fst v) (snd v) e). intros es.
          induction es as [|e' es IHe]; [reflexivity|]. cbn [map filter fst]. rewrite E. exact IHe.
        + cbn [filter fst]. rewrite E. reflexivity. }
    rewrite Hv. destruct (keyEqb k (fst v)) eqn:E; cbn [orb].
    - destruct (existsb (fun v0 => keyEqb k (fst v0)) vs) eqn:Ex; [|apply app_nil_r].
      apply existsb_exists in Ex as (w & Hw & Ew). apply keyEqb_eq in E, Ew. exfalso. apply Hn.
      rewrite <- E, Ew. apply in_map. exact Hw.
    - reflexivity.
  Qed.

  Lemma keyed_other : forall f e vs l k, lod k <> l -> (forall v, In v vs -> lod (fst v) = l) ->
    savedAt k (flat_map (saveTile clip f e) vs) = [].
  Proof.
    intros f e vs l k Hl Hv. apply savedAt_nil. intros x Hx. apply in_flat_map in Hx as (v & Hin & Hx).
    unfold saveTile in Hx. specialize (Hv v Hin). destruct (sClip f).
    - apply in_map_iff in Hx as (? & <- & _). cbn [fst]. congruence.
    - destruct Hx as [<-|[]]. cbn [fst]. congruence.
  Qed.

  (** Per tile, over a list of distinct levels. *)
  Lemma saved_levels : forall accept e ls k, NoDup ls ->
    savedAt k (flat_map (fun l => if wanted (styleOf e l) then flat_map (saveTile clip (styleOf e l) e) (taken accept e l) else []) ls) =
    if existsb (Z.eqb (lod k)) ls && wanted (styleOf e (lod k)) && existsb (fun v => keyEqb k (fst v)) (taken accept e (lod k))
    then pieces clip tileBox (styleOf e (lod k)) k e else [].
  Proof.
    intros accept e ls k. induction ls as [|l ls IH]; intros ND; [reflexivity|].
    inversion ND as [|? ? Hn ND']. subst. cbn [flat_map existsb]. rewrite savedAt_app, IH by exact ND'.
    assert (Lv : forall v, In v (taken accept e l) -> lod (fst v) = l /\ snd v = tileBox (fst v)).
    { intros v H. apply in_taken in H as [H _]. apply visit_level in H. exact H. }
    destruct (Z.eqb_spec (lod k) l) as [El|Ne]; cbn [orb].
    - assert (Ex : existsb (Z.eqb (lod k)) ls = false).
      { apply not_true_iff_false. intros H. apply existsb_exists in H as (l' & Hl & E). apply Z.eqb_eq in E.
        apply Hn. congruence. }
      rewrite Ex. cbn [andb]. rewrite app_nil_r. subst l. destruct (wanted (styleOf e (lod k))); cbn [andb]; [|reflexivity].
      apply saved_tiles; [apply taken_nodup|]. intros v H. apply Lv. exact H.
    - replace (savedAt k (if wanted (styleOf e l) then flat_map (saveTile clip (styleOf e l) e) (taken accept e l) else [])) with (@nil element).
      + reflexivity.
      + destruct (wanted (styleOf e l)); [|reflexivity]. symmetry. apply (keyed_other _ _ _ l); [exact Ne|].
        intros v H. apply Lv. exact H.
  Qed.

  (** The tiles that get the element. *)
  Definition goesTo accept e r k : Prop :=
    rstart r <= lod k <= rend r /\ asked (styleOf e (lod k)) /\ touches tileOf tileBox e k /\
    accept (elementBox e) (tileBox k) = true.

  Lemma goes_bool : forall accept e r k,
    existsb (Z.eqb (lod k)) (levels r) && wanted (styleOf e (lod k)) && existsb (fun v => keyEqb k (fst v)) (taken accept e (lod k)) = true
    <-> goesTo accept e r k.
  Proof.
    intros accept e r k. rewrite !andb_true_iff, wanted_asked, !existsb_exists. unfold goesTo, levels. split.
    - intros [[(l & Hl & El) Ha] (v & Hv & Ev)]. apply Z.eqb_eq in El. subst l. apply in_interval in Hl.
      apply keyEqb_eq in Ev. apply in_taken in Hv as [Hv Hacc]. pose proof (visit_level _ _ _ Hv) as [_ Eb].
      split; [exact Hl|]. split; [exact Ha|]. split.
      + apply visit_touches. rewrite Ev at 1. apply in_map. rewrite Ev in Hv. rewrite Ev. exact Hv.
      + rewrite Eb, <- Ev in Hacc. exact Hacc.
    - intros (Hl & Ha & Ht & Hacc). split; [split; [|exact Ha]|].
      + exists (lod k). split; [apply in_interval; exact Hl|apply Z.eqb_refl].
      + apply visit_touches in Ht. apply in_map_iff in Ht as (v & Ev & Hv). exists v.
        pose proof (visit_level _ _ _ Hv) as [_ Eb]. split; [|rewrite Ev; apply keyEqb_refl].
        apply in_taken. split; [exact Hv|]. rewrite Eb, Ev. exact Hacc.
  Qed.

  Lemma storeWith_saved : forall accept e r k,
    (goesTo accept e r k -> savedAt k (fst (storeWith tileOf tileBox styleOf clip accept e r)) = pieces clip tileBox (styleOf e (lod k)) k e) /\
    (~ goesTo accept e r k -> savedAt k (fst (storeWith tileOf tileBox styleOf clip accept e r)) = []).
  Proof.
    intros accept e r k. unfold storeWith. rewrite storeLevels_box by auto. cbn [fst].
    rewrite saved_levels by apply interval_nodup.
    pose proof (goes_bool accept e r k) as H.
    destruct (existsb (Z.eqb (lod k)) (levels r) && wanted (styleOf e (lod k)) &&
              existsb (fun v => keyEqb k (fst v)) (taken accept e (lod k))); split; intros G; try reflexivity.
    - destruct G. apply H. reflexivity.
    - apply H in G. discriminate.
  Qed.

  Lemma storeWith_success : forall accept e r,
    snd (storeWith tileOf tileBox styleOf clip accept e r) = true <-> exists k, goesTo accept e r k.
  Proof.
    intros accept e r. unfold storeWith. rewrite storeLevels_box by auto. cbn [snd].
    rewrite existsb_exists. split.
    - intros (l & Hl & H). apply andb_true_iff in H as [Hw Hn].
      destruct (taken accept e l) as [|v vs] eqn:Et; [discriminate|]. exists (fst v).
      assert (Hv : In v (taken accept e l)) by (rewrite Et; left; reflexivity).
      apply goes_bool. pose proof Hv as Hv'. apply in_taken in Hv' as [Hv' _]. apply visit_level in Hv' as [El _].
      rewrite El, Hw. rewrite !andb_true_iff. split; [split; [|reflexivity]|].
      + apply existsb_exists. exists l. split; [exact Hl|apply Z.eqb_refl].
      + apply existsb_exists. exists v. split; [exact Hv|apply keyEqb_refl].
    - intros (k & H). apply goes_bool in H. rewrite !andb_true_iff, !existsb_exists in H.
      destruct H as [[(l & Hl & El) Hw] (v & Hv & _)]. apply Z.eqb_eq in El. subst l.
      exists (lod k). split; [exact Hl|]. rewrite Hw. destruct (taken accept e (lod k)); [destruct Hv|reflexivity].
  Qed.

  (** * One tile *)
  Variable sameCenter : box dbl -> box dbl -> bool.
  Hypothesis centres : centresDiffer tileBox sameCenter.
  Hypothesis exist : tilesExist tileOf.

  Lemma touched_tile : forall e k, MinLod <= lod k <= MaxLod -> touches tileOf tileBox e k -> tile k.
  Proof.
    intros e k Hl (_ & Hx & Hy & _).
    pose proof (exist (bmin (elementBox e)) (lod k) Hl) as [(L1 & X1 & Y1) E1].
    pose proof (exist (bmax (elementBox e)) (lod k) Hl) as [(L2 & X2 & Y2) E2].
    rewrite E1 in *. rewrite E2 in *. unfold tile. lia.
  Qed.

  Lemma meet_comm : forall b c, meet b c -> meet c b.
  Proof. intros b c (p & H1 & H2). exists p. auto. Qed.

  Lemma goesTo_tile : forall e k k', tile k -> MinLod <= lod k <= MaxLod ->
    (goesTo (fun b kb => intersects dord b (tileBox k) && sameCenter (tileBox k) kb) e (mkRange (lod k) (lod k)) k' <->
     k' = k /\ asked (styleOf e (lod k)) /\ touches tileOf tileBox e k).
  Proof.
    intros e k k' Hk Hl. unfold goesTo. cbn [rstart rend]. rewrite andb_true_iff. split.
    - intros (Hl' & Ha & Ht & Hi & Hc). assert (El : lod k' = lod k) by lia.
      assert (k' = k).
      { symmetry. apply (centres k k'); auto. apply (touched_tile e); [lia|exact Ht]. }
      subst k'. auto.
    - intros (-> & Ha & Ht). split; [lia|]. split; [exact Ha|]. split; [exact Ht|]. split.
      + apply intersects_meet; auto using elementBox_number. apply Ht.
      + apply centres; auto.
  Qed.

  Lemma storeTile_ok : forall e k, tile k -> MinLod <= lod k <= MaxLod ->
    exists saves w, storeTile tileOf tileBox sameCenter styleOf clip e k = Ok (saves, w) /\
      (forall k', k' <> k -> savedAt k' saves = []) /\
      (asked (styleOf e (lod k)) /\ touches tileOf tileBox e k ->
         savedAt k saves = pieces clip tileBox (styleOf e (lod k)) k e /\ w = true) /\
      (~ (asked (styleOf e (lod k)) /\ touches tileOf tileBox e k) -> saves = [] /\ w = false).
  Proof.
    intros e k Hk Hl. unfold storeTile. rewrite newRange_level by exact Hl. cbn [omap].
    set (acc := fun b kb => intersects dord b (tileBox k) && sameCenter (tileBox k) kb).
    destruct (storeWith tileOf tileBox styleOf clip acc e (mkRange (lod k) (lod k))) as [saves w] eqn:E.
    pose proof (storeWith_saved acc e (mkRange (lod k) (lod k))) as Hs.
    pose proof (storeWith_success acc e (mkRange (lod k) (lod k))) as Hw.
    rewrite E in Hs, Hw. cbn [fst snd] in Hs, Hw.
    pose proof (fun k' => goesTo_tile e k k' Hk Hl) as G. fold acc in G.
    exists saves, w. split; [cbn [omap bind]; rewrite E; reflexivity|]. split; [|split].
    - intros k' Hn. apply (proj2 (Hs k')). rewrite G. tauto.
    - intros H. split; [apply (proj1 (Hs k)); apply G; tauto|]. apply Hw. exists k. apply G. tauto.
    - intros H. split.
      + destruct saves as [|[k' e'] saves]; [reflexivity|]. exfalso.
        pose proof (in_saves ((k', e') :: saves) k' e' (or_introl eq_refl)) as F.
        rewrite (proj2 (Hs k')) in F; [destruct F|]. rewrite G. tauto.
      + destruct w; [|reflexivity]. destruct Hw as [Hw _]. destruct (Hw eq_refl) as (k' & F).
        apply G in F. tauto.
  Qed.

  (** What importing the elements adds to the tile. *)
  Definition gained e k : list element -> Prop := fun l =>
    (asked (styleOf e (lod k)) /\ touches tileOf tileBox e k /\ l = pieces clip tileBox (styleOf e (lod k)) k e) \/
    (~ (asked (styleOf e (lod k)) /\ touches tileOf tileBox e k) /\ l = []).

  Lemma touches_dec : forall e k, touches tileOf tileBox e k \/ ~ touches tileOf tileBox e k.
  Proof.
    intros. rewrite <- visit_touches.
    destruct (in_dec (fun a b => match keyEqb a b as x return keyEqb a b = x -> {a = b} + {a <> b} with
       | true => fun H => left (proj1 (keyEqb_eq a b) H)
       | false => fun H => right (fun C => eq_ind true (fun x => if x then True else False) I false
                      (eq_trans (eq_sym (proj2 (keyEqb_eq a b) C)) H)) end eq_refl)
      k (map fst (visit (elementBox e) (lod k)))); auto.
  Qed.

  Lemma import_ok : forall es k past, tile k -> MinLod <= lod k <= MaxLod ->
    exists cs, importTile tileOf tileBox sameCenter styleOf clip es k = (cs, Ok tt) /\
      (forall k', k' <> k -> contents k' (rev (past ++ cs)) = contents k' (rev past)) /\
      exists added, Forall2 (fun e l => gained e k l) es added /\
        contents k (rev (past ++ cs)) = contents k (rev past) ++ concat added.
  Proof.
    intros es k past Hk Hl. revert past. induction es as [|e es IH]; intros past.
    - exists []. split; [reflexivity|]. rewrite app_nil_r. split; [reflexivity|]. exists []. split; [constructor|].
      cbn [concat]. rewrite app_nil_r. reflexivity.
    - cbn [importTile]. destruct (storeTile_ok e k Hk Hl) as (saves & w & E & Ho & Hy & Hn). rewrite E.
      destruct (IH (past ++ calls saves)) as (cs & Ei & Hother & added & HF & Hc). rewrite Ei.
      exists (calls saves ++ cs). split; [reflexivity|]. rewrite app_assoc. split.
      + intros k' Hne. rewrite (Hother k' Hne), contents_calls, (Ho k' Hne), app_nil_r. reflexivity.
      + exists (savedAt k saves :: added). split.
        * constructor; [|exact HF]. unfold gained.
          assert (D : (asked (styleOf e (lod k)) /\ touches tileOf tileBox e k) \/ ~ (asked (styleOf e (lod k)) /\ touches tileOf tileBox e k)).
          { destruct (asked_dec (styleOf e (lod k))); [|tauto]. destruct (touches_dec e k); tauto. }
          destruct D as [D|D]; [left|right].
          -- destruct (Hy D) as [-> _]. tauto.
          -- destruct (Hn D) as [-> _]. split; [exact D|reflexivity].
        * rewrite Hc, contents_calls. cbn [concat]. rewrite app_assoc. reflexivity.
  Qed.

End Store.

(** * Stores by name *)

Lemma nameLess_irrefl : forall a, nameLess a a = false.
Proof. induction a as [|x a IH]; [reflexivity|]. cbn. rewrite N.ltb_irrefl, N.eqb_refl, IH. reflexivity. Qed.

Lemma nameLess_total : forall a b, nameLess a b = false -> nameLess b a = false -> a = b.
Proof.
  induction a as [|x a IH]; destruct b as [|y b]; cbn; intros H1 H2; try congruence.
  apply orb_false_iff in H1 as [L1 E1], H2 as [L2 E2]. apply N.ltb_ge in L1, L2.
  assert (x = y) by lia. subst. rewrite N.eqb_refl in *. cbn in *. f_equal. apply IH; auto.
Qed.

Lemma nameLess_trans : forall a b c, nameLess a b = true -> nameLess b c = true -> nameLess a c = true.
Proof.
  induction a as [|x a IH]; destruct b as [|y b], c as [|z c]; cbn; intros H1 H2; try congruence.
  rewrite orb_true_iff, andb_true_iff, N.ltb_lt, N.eqb_eq in *.
  destruct H1 as [H1|[-> H1]], H2 as [H2|[-> H2]]; try (left; lia).
  right. split; [reflexivity|]. exact (IH _ _ H1 H2).
Qed.

Lemma nameLess_neq : forall a b, nameLess a b = true -> a <> b.
Proof. intros a b H ->. rewrite nameLess_irrefl in H. discriminate. Qed.

Definition nameSorted {S} (m : storeMap S) : Prop := StronglySorted (fun a b => nameLess a b = true) (map fst m).

Lemma in_emplace_fst {S} : forall name (s : option S) m x, In x (map fst (emplace name s m)) <-> x = name \/ In x (map fst m).
Proof.
  intros name s. induction m as [|[n s'] m IH]; intros x; cbn [emplace map fst].
  - cbn. intuition.
  - destruct (nameLess name n) eqn:E1; [cbn [map fst In]; intuition|].
    destruct (nameLess n name) eqn:E2; cbn [map fst In]; [rewrite IH; intuition|].
    rewrite (nameLess_total _ _ E1 E2). cbn [In]. intuition.
Qed.

Lemma emplace_sorted {S} : forall name (s : option S) m, nameSorted m -> nameSorted (emplace name s m).
Proof.
  intros name s. unfold nameSorted. induction m as [|[n s'] m IH]; intros H; cbn [emplace map fst].
  - repeat constructor.
  - cbn [map fst] in H. inversion H as [|? ? Hs Hf]. subst.
    destruct (nameLess name n) eqn:E1.
    + cbn [map fst]. constructor; [exact H|]. constructor; [exact E1|].
      rewrite Forall_forall in *. intros x Hx. exact (nameLess_trans _ _ _ E1 (Hf x Hx)).
    + destruct (nameLess n name) eqn:E2; [|exact H]. cbn [map fst]. constructor; [auto|].
      rewrite Forall_forall in *. intros x Hx. apply in_emplace_fst in Hx as [->|Hx]; auto.
Qed.

Lemma emplace_lookup {S} : forall name (s : option S) m x, nameSorted m ->
  alookup beqb x (emplace name s m) =
  match alookup beqb x m with Some v => Some v | None => if beqb x name then Some s else None end.
Proof.
  intros name s m x. unfold nameSorted. induction m as [|[n s'] m IH]; intros H; cbn [emplace alookup].
  - destruct (beqb x name); reflexivity.
  - cbn [map fst] in H. inversion H as [|? ? Hs Hf]. subst.
    destruct (nameLess name n) eqn:E1.
    + cbn [alookup]. destruct (beqb x name) eqn:Ex; [|destruct (beqb x n); [reflexivity|]; destruct (alookup beqb x m); reflexivity].
      apply beqb_eq in Ex. subst x. destruct (beqb name n) eqn:En.
      { apply beqb_eq in En. subst. rewrite nameLess_irrefl in E1. discriminate. }
      assert (F : alookup beqb name m = None).
      { apply (alookup_none beqb beqb_eq). intros Hin. rewrite Forall_forall in Hf. specialize (Hf _ Hin).
        pose proof (nameLess_trans _ _ _ E1 Hf) as C. rewrite nameLess_irrefl in C. discriminate. }
      rewrite F. reflexivity.
    + destruct (nameLess n name) eqn:E2.
      * cbn [alookup]. destruct (beqb x n); [reflexivity|]. apply IH. exact Hs.
      * cbn [alookup]. destruct (beqb x n) eqn:En; [reflexivity|]. rewrite (nameLess_total _ _ E1 E2).
        rewrite En. destruct (alookup beqb x m); reflexivity.
Qed.

Lemma searchStores_ok : forall k m, Forall (fun p => snd p <> None) m ->
  searchStores k m = Ok (flat_map (fun p => match snd p with Some s => memSearch k never s | None => [] end) m).
Proof.
  intros k. induction m as [|[n [s|]] m IH]; intros H; [reflexivity| |].
  - inversion H; subst. cbn [searchStores flat_map snd]. rewrite IH by assumption. cbn [omap].
    unfold memHasData, memSearch. destruct (alookup sameKey k s); reflexivity.
  - inversion H; subst. destruct H2. reflexivity.
Qed.

Lemma hasDataStores_ok : forall k m, Forall (fun p => snd p <> None) m ->
  exists b, hasDataStores k m = Ok b /\ (b = true <-> exists n s, In (n, Some s) m /\ memHasData k s = true).
Proof.
  intros k. induction m as [|[n [s|]] m IH]; intros H.
  - exists false. split; [reflexivity|]. split; [discriminate|]. intros (? & ? & [] & _).
  - inversion H; subst. destruct (IH H3) as (b & E & Hb). cbn [hasDataStores].
    destruct (memHasData k s) eqn:Es.
    + exists true. split; [reflexivity|]. split; [|reflexivity]. intros _. exists n, s. split; [left; reflexivity|exact Es].
    + exists b. split; [exact E|]. rewrite Hb. split.
      * intros (n' & s' & Hin & Hs'). exists n', s'. split; [right; exact Hin|exact Hs'].
      * intros (n' & s' & [Heq|Hin] & Hs'); [injection Heq as <- <-; congruence|]. exists n', s'. auto.
  - inversion H; subst. destruct H2. reflexivity.
Qed.

Lemma searchStores_null : forall k m n, In (n, None) m -> searchStores k m = UB.
Proof.
  intros k. induction m as [|[n' [s|]] m IH]; intros n H; [destruct H| |reflexivity].
  destruct H as [H|H]; [discriminate|]. cbn [searchStores]. rewrite (IH n H). reflexivity.
Qed.
