From Verif Require Import Base Bytes BytesProofs ElementModel GeoModel TagModel TagSpec TagProofs
  LruProofs StyleModel StyleSpec.
From Coq Require Import Permutation Sorted.

Lemma Zeqb_eq a b : Z.eqb a b = true <-> a = b.
Proof. apply Z.eqb_eq. Qed.
Lemma Neqb_eq' a b : N.eqb a b = true <-> a = b.
Proof. apply N.eqb_eq. Qed.

(** ** Loops *)

Lemma loop_collect {S A B} (body : S -> A -> outcome S) (P : S -> list B) (g : A -> list B) :
  (forall s a s', body s a = Ok s' -> P s' = P s ++ g a) ->
  forall l s s', loop body l s = Ok s' -> P s' = P s ++ flat_map g l.
Proof.
  intros H l. induction l as [|a l IH]; intros s s' E; cbn [loop flat_map] in *.
  - injection E as <-. rewrite app_nil_r. reflexivity.
  - destruct (body s a) as [s1| |] eqn:E1; cbn [bind] in E; try discriminate.
    rewrite (IH _ _ E), (H _ _ _ E1), app_assoc. reflexivity.
Qed.

Definition orElse {A} (a b : option A) : option A := match a with Some _ => a | None => b end.

Lemma orElse_hd {A} (l1 l2 : list A) : orElse (hd_error l1) (hd_error l2) = hd_error (l1 ++ l2).
Proof. destruct l1; reflexivity. Qed.
Lemma orElse_assoc {A} (a b c : option A) : orElse (orElse a b) c = orElse a (orElse b c).
Proof. destruct a; reflexivity. Qed.

Lemma loop_first {S A B} (body : S -> A -> outcome S) (P : S -> option B) (g : A -> list B) :
  (forall s a s', body s a = Ok s' -> P s' = orElse (P s) (hd_error (g a))) ->
  forall l s s', loop body l s = Ok s' -> P s' = orElse (P s) (hd_error (flat_map g l)).
Proof.
  intros H l. induction l as [|a l IH]; intros s s' E; cbn [loop flat_map] in *.
  - injection E as <-. destruct (P s); reflexivity.
  - destruct (body s a) as [s1| |] eqn:E1; cbn [bind] in E; try discriminate.
    rewrite (IH _ _ E), (H _ _ _ E1), <- orElse_hd, orElse_assoc. reflexivity.
Qed.

Lemma at_aset {V} l l' (v : list V) m : at_ l (aset Z.eqb l' v m) = if Z.eqb l l' then v else at_ l m.
Proof.
  unfold at_. rewrite (alookup_aset Z.eqb Zeqb_eq). destruct (Z.eqb_spec l l'); reflexivity.
Qed.

Lemma in_interval a b x : In x (interval a b) <-> (a <= x <= b)%Z.
Proof.
  unfold interval. rewrite in_map_iff. split.
  - intros (n & <- & H). apply in_seq in H. lia.
  - intros H. exists (Z.to_nat (x - a)). split; [lia|]. apply in_seq. lia.
Qed.
Lemma interval_nodup a b : NoDup (interval a b).
Proof.
  unfold interval. apply FinFun.Injective_map_NoDup; [|apply seq_NoDup].
  intros x y E. lia.
Qed.

Lemma in_zoomLevels z l : In l (zoomLevels z) <-> inZoom z l = true.
Proof.
  unfold zoomLevels, inZoom. rewrite in_interval, andb_true_iff, !Z.leb_le. lia.
Qed.

(** Pushing the same entry at every level of a duplicate-free list. *)
Lemma push_levels {V} (x : V) ls : NoDup ls -> forall l m,
  at_ l (fold_left (fun m l => aset Z.eqb l (at_ l m ++ [x]) m) ls m) =
  at_ l m ++ if existsb (Z.eqb l) ls then [x] else [].
Proof.
  induction ls as [|a ls IH]; intros D l m; cbn [fold_left existsb].
  - rewrite app_nil_r. reflexivity.
  - apply NoDup_cons_iff in D as [N1 D]. rewrite (IH D), at_aset.
    destruct (Z.eqb_spec l a) as [->|K]; cbn [orb].
    + destruct (existsb (Z.eqb a) ls) eqn:E.
      * apply existsb_exists in E as (y & Hy & E). apply Z.eqb_eq in E. subst y. contradiction.
      * rewrite app_nil_r. reflexivity.
    + reflexivity.
Qed.

Lemma existsb_zoom z l : existsb (Z.eqb l) (zoomLevels z) = inZoom z l.
Proof.
  apply eq_true_iff_eq. rewrite existsb_exists. rewrite <- in_zoomLevels. split.
  - intros (y & Hy & E). apply Z.eqb_eq in E. subst y. exact Hy.
  - intros H. exists l. split; auto. apply Z.eqb_refl.
Qed.

Lemma emplace_levels id id' (ds : list decl) ls : NoDup ls -> forall l m,
  alookup N.eqb id' (at_ l (fold_left (fun m l =>
                 let f := at_ l m in
                 aset Z.eqb l (match alookup N.eqb id f with
                               | Some _ => f
                               | None => f ++ [(id, ds)]
                               end) m) ls m)) =
  orElse (alookup N.eqb id' (at_ l m))
         (if (existsb (Z.eqb l) ls && N.eqb id id')%bool then Some ds else None).
Proof.
  induction ls as [|a ls IH]; intros D l m; cbn [fold_left existsb].
  - cbn [andb]. destruct (alookup N.eqb id' (at_ l m)); reflexivity.
  - apply NoDup_cons_iff in D as [N1 D]. rewrite (IH D). cbv zeta. rewrite at_aset.
    destruct (Z.eqb_spec l a) as [->|K]; cbn [orb andb]; [|reflexivity].
    assert (E : existsb (Z.eqb a) ls = false).
    { destruct (existsb (Z.eqb a) ls) eqn:E; auto.
      apply existsb_exists in E as (y & Hy & E). apply Z.eqb_eq in E. subst y. contradiction. }
    rewrite E. cbn [andb].
    assert (X : forall (o : option (list decl)), orElse o None = o) by (intros [?|]; reflexivity).
    rewrite X. destruct (alookup N.eqb id (at_ a m)) as [ds'|] eqn:L.
    + destruct (N.eqb_spec id id') as [<-|]; [rewrite L; reflexivity|]. rewrite X. reflexivity.
    + clear - L. induction (at_ a m) as [|[i d] r IHr]; cbn [app alookup orElse] in *.
      * rewrite (N.eqb_sym id' id). reflexivity.
      * destruct (N.eqb_spec id i) as [->|Ki]; [discriminate|].
        destruct (N.eqb_spec id' i) as [->|Ki']; [reflexivity|]. apply IHr. exact L.
Qed.

(** ** Declarations seen through [put] *)

(** Last value of a key id. *)
Fixpoint lastOf (k : N) (ds : list decl) : option bytes :=
  match ds with
  | [] => None
  | d :: ds' => match lastOf k ds' with
                | Some v => Some v
                | None => if N.eqb k (fst d) then Some (snd d) else None
                end
  end.

Lemma lastOf_app k a b : lastOf k (a ++ b) = orElse (lastOf k b) (lastOf k a).
Proof.
  induction a as [|d a IH]; cbn [app lastOf]; [destruct (lastOf k b); reflexivity|].
  rewrite IH. destruct (lastOf k b); reflexivity.
Qed.

Lemma put_lookup intern ds : forall s k,
  alookup N.eqb k (sdecls (fold_left (put intern) ds s)) = orElse (lastOf k ds) (alookup N.eqb k (sdecls s)).
Proof.
  induction ds as [|d ds IH]; intros s k; cbn [fold_left lastOf]; [reflexivity|].
  rewrite IH. cbn [put sdecls]. rewrite (alookup_aset N.eqb Neqb_eq').
  destruct (lastOf k ds); [reflexivity|]. cbn [orElse].
  destruct (N.eqb_spec k (fst d)); reflexivity.
Qed.

(** ** The ordered set of builders *)

Lemma bltb_irrefl a : bltb a a = false.
Proof. induction a as [|x a IH]; [reflexivity|]. cbn. rewrite N.ltb_irrefl, N.eqb_refl, IH. reflexivity. Qed.

Lemma bltb_trans a : forall b c, bltb a b = true -> bltb b c = true -> bltb a c = true.
Proof.
  induction a as [|x a IH]; intros [|y b] [|z c]; cbn; try discriminate; auto.
  rewrite !orb_true_iff, !andb_true_iff, !N.ltb_lt, !N.eqb_eq.
  intros [A|[A A']] [B|[B B']]; subst; try (left; lia).
  right. split; [reflexivity|]. eapply IH; eauto.
Qed.

Lemma bltb_total a : forall b, bltb a b = false -> bltb b a = false -> a = b.
Proof.
  induction a as [|x a IH]; intros [|y b]; cbn; try discriminate; auto.
  rewrite !orb_false_iff, !andb_false_iff, !N.ltb_ge, !N.eqb_neq.
  intros [A A'] [B B']. assert (x = y) by lia. subst y. f_equal. apply IH.
  - destruct A'; [contradiction|auto].
  - destruct B'; [contradiction|auto].
Qed.

Lemma setInsert_in s l x : In x (setInsert s l) <-> x = s \/ In x l.
Proof.
  induction l as [|y l IH]; cbn [setInsert]; [cbn; intuition congruence|].
  destruct (bltb s y) eqn:A; [cbn; intuition congruence|].
  destruct (bltb y s) eqn:B.
  - cbn [In]. rewrite IH. intuition congruence.
  - assert (y = s) by (apply bltb_total; auto). subst y. cbn [In]. intuition congruence.
Qed.

Lemma setInsert_sorted s l : stringsAscending l -> stringsAscending (setInsert s l).
Proof.
  unfold stringsAscending. induction 1 as [|y l H IH F]; cbn [setInsert]; [repeat constructor|].
  destruct (bltb s y) eqn:A.
  - constructor; [constructor; auto|]. constructor; auto. rewrite Forall_forall in *.
    intros x Hx. eapply bltb_trans; eauto.
  - destruct (bltb y s) eqn:B; [|constructor; auto].
    constructor; auto. rewrite Forall_forall in *. intros x Hx.
    apply setInsert_in in Hx as [->|Hx]; auto.
Qed.

Lemma put_builders intern ds : forall s, stringsAscending (sbuilders s) ->
  stringsAscending (sbuilders (fold_left (put intern) ds s)) /\
  forall v, In v (sbuilders (fold_left (put intern) ds s)) <->
            In v (sbuilders s) \/ In (intern sBuilder, v) ds.
Proof.
  induction ds as [|[k w] ds IH]; intros s S; cbn [fold_left In]; [split; [auto|tauto]|].
  assert (S' : stringsAscending (sbuilders (put intern s (k, w)))).
  { cbn [put sbuilders fst snd]. destruct (N.eqb k (intern sBuilder)); auto. apply setInsert_sorted; auto. }
  destruct (IH _ S') as [A B]. split; [exact A|]. intros v. rewrite B.
  cbn [put sbuilders fst snd]. destruct (N.eqb_spec k (intern sBuilder)) as [->|K].
  - rewrite setInsert_in. split; intros H.
    + destruct H as [[->|H]|H]; auto.
    + destruct H as [H|[H|H]]; auto. injection H as ->. auto.
  - split; intros H.
    + destruct H as [H|H]; auto.
    + destruct H as [H|[H|H]]; auto. congruence.
Qed.

(** ** Conditions *)

Section Conditions.
  Variable intern : bytes -> N.
  Variable text : N -> bytes.
  Variable num : bytes -> dbl.

  Definition opTypeOf (s : bytes) : opType :=
    if beqb s [] then Exists else if beqb s sEq then Equals else if beqb s sNe then NotEquals
    else if beqb s sLt then Less else Greater.
  Definition condOf (c : condition) : condType :=
    mkCond (intern (ckey c)) (intern (cvalue c)) (opTypeOf (coperation c)).

  Lemma opOf_ok s t : opOf s = Ok t -> t = opTypeOf s.
  Proof.
    unfold opOf, opTypeOf. destruct s as [|b s]; [cbn; congruence|].
    change (beqb (b :: s) []) with false. cbv iota.
    destruct (beqb (b :: s) sEq); [congruence|].
    destruct (beqb (b :: s) sNe); [congruence|].
    destruct (beqb (b :: s) sLt); [congruence|].
    destruct (beqb (b :: s) sGt); congruence.
  Qed.

  Lemma opOf_total s : (exists t, opOf s = Ok t) <-> In s [[]; sEq; sNe; sLt; sGt].
  Proof.
    unfold opOf. split.
    - intros [t H]. destruct s as [|b s]; [left; reflexivity|].
      destruct (beqb (b :: s) sEq) eqn:E1; [apply beqb_eq in E1; rewrite E1; cbn; auto|].
      destruct (beqb (b :: s) sNe) eqn:E2; [apply beqb_eq in E2; rewrite E2; cbn; auto|].
      destruct (beqb (b :: s) sLt) eqn:E3; [apply beqb_eq in E3; rewrite E3; cbn; auto|].
      destruct (beqb (b :: s) sGt) eqn:E4; [apply beqb_eq in E4; rewrite E4; cbn; auto 6|].
      discriminate.
    - intros H. cbn [In] in H.
      destruct H as [<-|[<-|[<-|[<-|[<-|[]]]]]]; cbn; eauto.
  Qed.

  Lemma opOf_noUB s : opOf s <> UB.
  Proof.
    unfold opOf. destruct s; [discriminate|].
    repeat match goal with |- context [if ?c then _ else _] => destruct c end; discriminate.
  Qed.

  Lemma addConditions_ok cs r : addConditions intern cs = Ok r -> r = map condOf cs.
  Proof.
    revert r. induction cs as [|c cs IH]; intros r H; cbn [addConditions map] in *; [congruence|].
    destruct (opOf (coperation c)) as [t| |] eqn:E; cbn [bind] in H; try discriminate.
    destruct (addConditions intern cs) as [r'| |]; cbn [omap bind] in H; try discriminate.
    injection H as <-. unfold condOf at 1. rewrite <- (opOf_ok _ _ E), (IH r' eq_refl). reflexivity.
  Qed.

  Lemma addConditions_total cs : (exists r, addConditions intern cs = Ok r) <->
    forall c, In c cs -> In (coperation c) [[]; sEq; sNe; sLt; sGt].
  Proof.
    induction cs as [|c cs IH]; cbn [addConditions].
    - split; [intros _ c []|eauto].
    - split.
      + intros [r H]. destruct (opOf (coperation c)) as [t| |] eqn:E; cbn [bind] in H; try discriminate.
        destruct (addConditions intern cs) as [r'| |] eqn:E'; cbn [omap bind] in H; try discriminate.
        intros c' [<-|Hc]; [apply opOf_total; eauto|]. apply IH; eauto.
      + intros H. destruct (proj2 (opOf_total (coperation c)) (H c (or_introl eq_refl))) as [t E].
        rewrite E. destruct (proj2 IH (fun c' Hc => H c' (or_intror Hc))) as [r E']. rewrite E'.
        cbn [bind omap]. eauto.
  Qed.

  Lemma matchTags_holds tags kvs c :
    tableOk intern text (ckey c :: cvalue c :: stringsOf kvs) ->
    ascending tags -> Permutation tags (map (convertTag intern) kvs) ->
    In (coperation c) [[]; sEq; sNe; sLt; sGt] ->
    matchTags text num tags (condOf c) = holds num kvs c.
  Proof.
    intros [[I _] T] A P O. unfold matchTags. fold (findTag (kkey (condOf c)) tags).
    assert (Hin : forall k v, In (k, v) kvs -> In (mkTag (intern k) (intern v)) tags).
    { intros k v H. apply (Permutation_in _ (Permutation_sym P)). apply in_map_iff. exists (k, v); auto. }
    assert (Hex : forall t, In t tags -> exists k v, In (k, v) kvs /\ t = mkTag (intern k) (intern v)).
    { intros t H. apply (Permutation_in _ P) in H. apply in_map_iff in H as [[k v] [<- H]].
      exists k, v. auto. }
    assert (Ks : forall k v, In (k, v) kvs -> In k (stringsOf kvs) /\ In v (stringsOf kvs)).
    { intros k v H. unfold stringsOf. split; apply in_or_app; [left|right]; apply in_map_iff; exists (k, v); auto. }
    assert (One : forall v, In (ckey c, v) kvs ->
              existsb (fun kv => beqb (fst kv) (ckey c) && matchTag text num (mkTag (intern (ckey c)) (intern (snd kv))) (condOf c)) kvs =
              matchTag text num (mkTag (intern (ckey c)) (intern v)) (condOf c)).
    { intros v Hv. apply eq_true_iff_eq. rewrite existsb_exists. split.
      - intros ([k w] & Hw & E). apply andb_true_iff in E as [E E']. apply beqb_eq in E. cbn [fst snd] in *.
        subst k.
        assert (X : mkTag (intern (ckey c)) (intern w) = mkTag (intern (ckey c)) (intern v)).
        { apply (ascending_unique tags _ _ A); auto. }
        rewrite X in E'. exact E'.
      - intros E. exists (ckey c, v). split; auto. cbn [fst snd]. rewrite (proj2 (beqb_eq _ _) eq_refl). exact E. }
    assert (Same : holds num kvs c =
       existsb (fun kv => beqb (fst kv) (ckey c) && matchTag text num (mkTag (intern (ckey c)) (intern (snd kv))) (condOf c)) kvs).
    { unfold holds. apply eq_true_iff_eq. rewrite !existsb_exists.
      assert (V : forall k v, In (k, v) kvs -> beqb k (ckey c) = true ->
        (if beqb (coperation c) [] then true
         else if beqb (coperation c) sEq then beqb v (cvalue c)
         else if beqb (coperation c) sNe then negb (beqb v (cvalue c))
         else if beqb (coperation c) sLt then dltb (num v) (num (cvalue c))
         else dltb (num (cvalue c)) (num v)) =
        matchTag text num (mkTag (intern (ckey c)) (intern v)) (condOf c)).
      { intros k v Hkv _. destruct (Ks _ _ Hkv) as [_ Hv].
        assert (Ev : beqb v (cvalue c) = N.eqb (intern v) (intern (cvalue c))).
        { apply eq_true_iff_eq. rewrite beqb_eq, N.eqb_eq. split; [congruence|].
          apply I; [right; right; auto|right; left; reflexivity]. }
        unfold matchTag, condOf, opTypeOf. cbn [ktype kvalue tvalue].
        destruct (beqb (coperation c) []); [reflexivity|].
        destruct (beqb (coperation c) sEq); [exact Ev|].
        destruct (beqb (coperation c) sNe); [rewrite Ev; reflexivity|].
        assert (Tv : text (intern v) = v) by (apply T; right; right; auto).
        assert (Tc : text (intern (cvalue c)) = cvalue c) by (apply T; right; left; reflexivity).
        destruct (beqb (coperation c) sLt); rewrite Tv, Tc; reflexivity. }
      split; intros ([k v] & Hi & E); exists (k, v); cbn [fst snd] in *;
        apply andb_true_iff in E as [E1 E2]; (split; [exact Hi|]); rewrite E1; cbn [andb];
        [rewrite <- (V k v Hi E1)|rewrite (V k v Hi E1)]; exact E2. }
    rewrite Same.
    destruct (findTag_total (kkey (condOf c)) tags) as [[t|] E]; rewrite E.
    - apply findTag_some in E as [Hi Hk]; auto. destruct (Hex t Hi) as (k & v & Hkv & ->).
      cbn [tkey condOf kkey] in Hk.
      assert (k = ckey c) as ->.
      { apply I; auto; [right; right; apply (Ks _ _ Hkv)|left; reflexivity]. }
      rewrite (One v Hkv). reflexivity.
    - symmetry. apply not_true_is_false. rewrite existsb_exists. intros ([k v] & Hi & E').
      apply andb_true_iff in E' as [E' _]. apply beqb_eq in E'. cbn [fst] in E'. subst k.
      rewrite findTag_none in E by auto. apply (E _ (Hin _ _ Hi)). reflexivity.
  Qed.
End Conditions.

(** ** Compilation *)

Section Compile.
  Variable intern : bytes -> N.
  Variable gradient : bytes -> outcome unit.
  Variable sortConds : list condType -> list condType.

  Definition declOf (d : declaration) : decl := (intern (dkey d), dvalue d).

  Lemma addDeclarations_ok ds r : addDeclarations intern gradient ds = Ok r -> r = map declOf ds.
  Proof.
    revert r. induction ds as [|d ds IH]; intros r H; cbn [addDeclarations map] in *; [congruence|].
    destruct (gradient (dvalue d)) as [u| |]; cbn [bind] in H; try discriminate.
    destruct (addDeclarations intern gradient ds) as [r'| |]; cbn [omap bind] in H; try discriminate.
    injection H as <-. rewrite (IH r' eq_refl). reflexivity.
  Qed.

  Lemma addDeclarations_total ds : (exists r, addDeclarations intern gradient ds = Ok r) <->
    forall d, In d ds -> gradient (dvalue d) = Ok tt.
  Proof.
    induction ds as [|d ds IH]; cbn [addDeclarations].
    - split; [intros _ d []|eauto].
    - split.
      + intros [r H]. destruct (gradient (dvalue d)) as [[]| |] eqn:E; cbn [bind] in H; try discriminate.
        destruct (addDeclarations intern gradient ds) as [r'| |] eqn:E'; cbn [omap bind] in H; try discriminate.
        intros d' [<-|Hd]; [exact E|]. apply IH; eauto.
      + intros H. rewrite (H d (or_introl eq_refl)). cbn [bind].
        destruct (proj2 IH (fun d' Hd => H d' (or_intror Hd))) as [r E']. rewrite E'. cbn [omap bind]. eauto.
  Qed.

  Definition filterOf (r : rule) (s : selector) : filter :=
    mkFilter (sortConds (map (condOf intern) (sconditions s))) (map declOf (declarations r)).

  Lemma addToFilterMap_at f z m l :
    at_ l (addToFilterMap sortConds f z m) =
    at_ l m ++ if inZoom z l then [mkFilter (sortConds (fconds f)) (fdecls f)] else [].
  Proof.
    unfold addToFilterMap. cbv zeta. rewrite push_levels by apply interval_nodup.
    rewrite existsb_zoom. reflexivity.
  Qed.

  Lemma addConditionRule_at r s m m' l : addConditionRule intern gradient sortConds r s m = Ok m' ->
    at_ l m' = at_ l m ++ if inZoom (szoom s) l then [filterOf r s] else [].
  Proof.
    unfold addConditionRule.
    destruct (addConditions intern (sconditions s)) as [cs| |] eqn:E1; cbn [bind]; try discriminate.
    destruct (addDeclarations intern gradient (declarations r)) as [ds| |] eqn:E2; cbn [bind]; try discriminate.
    intros H. injection H as <-. rewrite addToFilterMap_at. cbn [fconds fdecls].
    rewrite (addConditions_ok _ _ _ E1), (addDeclarations_ok _ _ E2). reflexivity.
  Qed.

  (** The map of a kind. *)
  Definition mapOf (kind : bytes) (f : filters) : filterMap :=
    if beqb kind sNode then fNodes f else if beqb kind sWay then fWays f
    else if beqb kind sArea then fAreas f else if beqb kind sRelation then fRelations f
    else fCanvases f.

  Definition kinds : list bytes := [sNode; sWay; sArea; sRelation; sCanvas].

  (** What one name of one selector contributes to the filters of a kind at a level. *)
  Definition contrib (kind : bytes) (l : Z) (r : rule) (s : selector) (n : bytes) : list filter :=
    if beqb kind n && inZoom (szoom s) l then [filterOf r s] else [].

  Lemma addName_at kind l r s f n f' : In kind kinds ->
    addName intern gradient sortConds r s f n = Ok f' ->
    at_ l (mapOf kind f') = at_ l (mapOf kind f) ++ contrib kind l r s n.
  Proof.
    intros K H. destruct f as [fn fw fa fr fc fe]. unfold addName in H. unfold contrib.
    assert (D : forall (m : filterMap) (F : filterMap -> filters),
      omap F (addConditionRule intern gradient sortConds r s m) = Ok f' ->
      exists m', f' = F m' /\ forall l, at_ l m' = at_ l m ++ if inZoom (szoom s) l then [filterOf r s] else []).
    { intros m F E. destruct (addConditionRule intern gradient sortConds r s m) as [m'| |] eqn:E1;
      cbn [omap bind] in E; try discriminate. injection E as <-. exists m'. split; auto.
      intros l0. apply addConditionRule_at; auto. }
    destruct (beqb n sNode) eqn:E1.
    { apply beqb_eq in E1. subst n. destruct (D _ _ H) as (m' & -> & Hm).
      destruct K as [<-|[<-|[<-|[<-|[<-|[]]]]]]; cbn; rewrite ?Hm, ?app_nil_r; reflexivity. }
    destruct (beqb n sWay) eqn:E2.
    { apply beqb_eq in E2. subst n. destruct (D _ _ H) as (m' & -> & Hm).
      destruct K as [<-|[<-|[<-|[<-|[<-|[]]]]]]; cbn; rewrite ?Hm, ?app_nil_r; reflexivity. }
    destruct (beqb n sArea) eqn:E3.
    { apply beqb_eq in E3. subst n. destruct (D _ _ H) as (m' & -> & Hm).
      destruct K as [<-|[<-|[<-|[<-|[<-|[]]]]]]; cbn; rewrite ?Hm, ?app_nil_r; reflexivity. }
    destruct (beqb n sRelation) eqn:E4.
    { apply beqb_eq in E4. subst n. destruct (D _ _ H) as (m' & -> & Hm).
      destruct K as [<-|[<-|[<-|[<-|[<-|[]]]]]]; cbn; rewrite ?Hm, ?app_nil_r; reflexivity. }
    destruct (beqb n sCanvas) eqn:E5.
    { apply beqb_eq in E5. subst n. destruct (D _ _ H) as (m' & -> & Hm).
      destruct K as [<-|[<-|[<-|[<-|[<-|[]]]]]]; cbn; rewrite ?Hm, ?app_nil_r; reflexivity. }
    destruct (beqb n sElement) eqn:E6; [|discriminate].
    apply beqb_eq in E6. subst n.
    destruct (addIdentifierRule intern gradient s (declarations r) fe) as [m'| |]; cbn [omap bind] in H; try discriminate.
    injection H as <-.
    destruct K as [<-|[<-|[<-|[<-|[<-|[]]]]]]; cbn; rewrite app_nil_r; reflexivity.
  Qed.

  Lemma compile_at kind l sh f : In kind kinds -> compile intern gradient sortConds sh = Ok f ->
    at_ l (mapOf kind f) =
    flat_map (fun r => flat_map (fun s => flat_map (contrib kind l r s) (names s)) (selectors r)) (rules sh).
  Proof.
    intros K H. unfold compile in H.
    apply (loop_collect _ (fun f => at_ l (mapOf kind f))
             (fun r => flat_map (fun s => flat_map (contrib kind l r s) (names s)) (selectors r))) in H.
    - rewrite H. destruct K as [<-|[<-|[<-|[<-|[<-|[]]]]]]; reflexivity.
    - intros f1 r f2 H1. unfold addRule in H1.
      apply (loop_collect _ (fun f => at_ l (mapOf kind f))
               (fun s => flat_map (contrib kind l r s) (names s))) in H1; [exact H1|].
      intros f3 s f4 H2. unfold addSelector in H2.
      apply (loop_collect _ (fun f => at_ l (mapOf kind f)) (contrib kind l r s)) in H2; [exact H2|].
      intros f5 n f6 H3. apply addName_at; auto.
  Qed.

  (** What one name contributes to the declarations of an id at a level. *)
  Definition contribId (l : Z) (id : N) (r : rule) (s : selector) (n : bytes) : list (list decl) :=
    if beqb sElement n && inZoom (szoom s) l &&
       match sconditions s with
       | [] => false
       | c :: _ => match castId (cvalue c) with Some i => N.eqb i id | None => false end
       end
    then match declarations r with [] => [] | ds => [map declOf ds] end else [].

  Definition idAt (l : Z) (id : N) (f : filters) : option (list decl) :=
    alookup N.eqb id (at_ l (fElements f)).

  Lemma addIdentifierRule_at l id r s m m' :
    addIdentifierRule intern gradient s (declarations r) m = Ok m' ->
    alookup N.eqb id (at_ l m') =
    orElse (alookup N.eqb id (at_ l m)) (hd_error (contribId l id r s sElement)).
  Proof.
    unfold addIdentifierRule, contribId. rewrite (proj2 (beqb_eq sElement sElement) eq_refl). cbn [andb].
    assert (X : forall (o : option (list decl)), orElse o None = o) by (intros [?|]; reflexivity).
    destruct (declarations r) as [|d ds].
    { intros H. injection H as <-. destruct (_ && _)%bool; rewrite X; reflexivity. }
    destruct (gradient (dvalue d)) as [u| |]; cbn [bind]; try discriminate.
    destruct (sconditions s) as [|c cs]; [discriminate|].
    destruct (castId (cvalue c)) as [i|]; [|discriminate].
    destruct (addDeclarations intern gradient ds) as [ds'| |] eqn:E; cbn [bind]; try discriminate.
    intros H. injection H as <-. unfold emplaceId. rewrite emplace_levels by apply interval_nodup.
    rewrite existsb_zoom. apply addDeclarations_ok in E. subst ds'.
    destruct (inZoom (szoom s) l && N.eqb i id)%bool; reflexivity.
  Qed.

  Lemma addName_id l id r s f n f' : addName intern gradient sortConds r s f n = Ok f' ->
    idAt l id f' = orElse (idAt l id f) (hd_error (contribId l id r s n)).
  Proof.
    intros H. destruct f as [fn fw fa fr fc fe]. unfold addName in H. unfold idAt. cbn [fElements].
    assert (X : forall (o : option (list decl)), orElse o None = o) by (intros [?|]; reflexivity).
    assert (D : forall (m : filterMap) (F : filterMap -> filters), (forall m', fElements (F m') = fe) ->
      omap F (addConditionRule intern gradient sortConds r s m) = Ok f' -> fElements f' = fe).
    { intros m F HF E. destruct (addConditionRule intern gradient sortConds r s m) as [m'| |];
      cbn [omap bind] in E; try discriminate. injection E as <-. apply HF. }
    destruct (beqb n sNode) eqn:E1.
    { apply beqb_eq in E1. subst n. apply D in H; [|reflexivity]. rewrite H.
      unfold contribId. cbn [beqb sElement sNode N.eqb Pos.eqb andb]. cbn. rewrite X. reflexivity. }
    destruct (beqb n sWay) eqn:E2.
    { apply beqb_eq in E2. subst n. apply D in H; [|reflexivity]. rewrite H. cbn. rewrite X. reflexivity. }
    destruct (beqb n sArea) eqn:E3.
    { apply beqb_eq in E3. subst n. apply D in H; [|reflexivity]. rewrite H. cbn. rewrite X. reflexivity. }
    destruct (beqb n sRelation) eqn:E4.
    { apply beqb_eq in E4. subst n. apply D in H; [|reflexivity]. rewrite H. cbn. rewrite X. reflexivity. }
    destruct (beqb n sCanvas) eqn:E5.
    { apply beqb_eq in E5. subst n. apply D in H; [|reflexivity]. rewrite H. cbn. rewrite X. reflexivity. }
    destruct (beqb n sElement) eqn:E6; [|discriminate].
    apply beqb_eq in E6. subst n.
    destruct (addIdentifierRule intern gradient s (declarations r) fe) as [m'| |] eqn:E; cbn [omap bind] in H; try discriminate.
    injection H as <-. cbn [fElements]. apply addIdentifierRule_at; auto.
  Qed.

  Lemma compile_id l id sh f : compile intern gradient sortConds sh = Ok f ->
    idAt l id f =
    hd_error (flat_map (fun r => flat_map (fun s => flat_map (contribId l id r s) (names s)) (selectors r)) (rules sh)).
  Proof.
    intros H. unfold compile in H.
    apply (loop_first _ (idAt l id)
             (fun r => flat_map (fun s => flat_map (contribId l id r s) (names s)) (selectors r))) in H.
    - rewrite H. reflexivity.
    - intros f1 r f2 H1. unfold addRule in H1.
      apply (loop_first _ (idAt l id) (fun s => flat_map (contribId l id r s) (names s))) in H1; [exact H1|].
      intros f3 s f4 H2. unfold addSelector in H2.
      apply (loop_first _ (idAt l id) (contribId l id r s)) in H2; [exact H2|].
      intros f5 n f6 H3. apply addName_id with (1 := H3).
  Qed.

  (** The first identifier rule. *)
  Lemma contribId_in l id r s n ds : In ds (contribId l id r s n) -> ds = map declOf (declarations r).
  Proof.
    unfold contribId. destruct (_ && _)%bool; [|contradiction].
    destruct (declarations r); [contradiction|]. intros [<-|[]]. reflexivity.
  Qed.

  Lemma contribId_names l id r s :
    flat_map (contribId l id r s) (names s) = [] <->
    selectsId l id s = false \/ declarations r = [].
  Proof.
    unfold selectsId. set (z := inZoom (szoom s) l).
    set (b := match sconditions s with [] => false
              | c :: _ => match castId (cvalue c) with Some i => N.eqb i id | None => false end end).
    assert (C : forall n, contribId l id r s n = if beqb sElement n && z && b
              then match declarations r with [] => [] | ds => [map declOf ds] end else []) by reflexivity.
    destruct (declarations r) as [|d ds] eqn:E.
    { split; [auto|]. intros _. induction (names s) as [|n ns IH]; [reflexivity|]. cbn [flat_map].
      rewrite IH, C. destruct (_ && _)%bool; reflexivity. }
    split.
    - intros H. left. destruct (z && b)%bool eqn:ZB.
      + rewrite <- andb_assoc, ZB, andb_true_r. induction (names s) as [|n ns IH]; [reflexivity|].
        cbn [flat_map existsb] in *. apply app_eq_nil in H as [H1 H2]. rewrite (IH H2).
        rewrite C, <- andb_assoc, ZB, andb_true_r in H1. destruct (beqb sElement n); [discriminate|reflexivity].
      + rewrite <- andb_assoc, ZB, andb_false_r. reflexivity.
    - intros [H|H]; [|discriminate]. induction (names s) as [|n ns IH]; [reflexivity|].
      cbn [flat_map existsb] in *. rewrite C.
      destruct (beqb sElement n); cbn [orb andb] in *; [rewrite H; cbn [app]|cbn [app]; apply IH; exact H].
      apply IH. rewrite <- andb_assoc. rewrite H. apply andb_false_r.
  Qed.

  Lemma ruleId_spec l id r :
    (flat_map (fun s => flat_map (contribId l id r s) (names s)) (selectors r) = [] <->
     existsb (selectsId l id) (selectors r) = false \/ declarations r = []) /\
    forall ds, In ds (flat_map (fun s => flat_map (contribId l id r s) (names s)) (selectors r)) ->
               ds = map declOf (declarations r).
  Proof.
    split.
    - induction (selectors r) as [|s ss IH]; cbn [flat_map existsb]; [tauto|].
      split.
      + intros H. apply app_eq_nil in H as [H1 H2]. apply contribId_names in H1. apply IH in H2.
        destruct H1 as [H1|H1]; auto. destruct H2 as [H2|H2]; auto. left. rewrite H1. exact H2.
      + intros H. rewrite orb_false_iff in H.
        rewrite (proj2 (contribId_names l id r s)) by tauto. apply IH. tauto.
    - intros ds H. apply in_flat_map in H as (s & _ & H). apply in_flat_map in H as (n & _ & H).
      apply contribId_in in H. exact H.
  Qed.

  Lemma compile_idRules l id sh f : compile intern gradient sortConds sh = Ok f ->
    idAt l id f = option_map (fun r => map declOf (declarations r)) (hd_error (idRules sh l id)).
  Proof.
    intros H. rewrite (compile_id _ _ _ _ H). unfold idRules, applicable. clear H.
    induction (rules sh) as [|r rs IH]; [reflexivity|]. cbn [flat_map List.filter].
    destruct (ruleId_spec l id r) as [A B].
    destruct (flat_map (fun s => flat_map (contribId l id r s) (names s)) (selectors r)) as [|ds dss] eqn:E.
    - cbn [app]. rewrite IH. destruct (proj1 A eq_refl) as [F|F].
      + rewrite F. reflexivity.
      + destruct (existsb (selectsId l id) (selectors r)); [|reflexivity].
        cbn [List.filter]. rewrite F. reflexivity.
    - cbn [app hd_error].
      assert (NN : ~ (existsb (selectsId l id) (selectors r) = false \/ declarations r = [])).
      { intros X. apply A in X. discriminate. }
      destruct (existsb (selectsId l id) (selectors r)); [|tauto].
      cbn [List.filter]. destruct (declarations r) as [|d l0] eqn:E'; [tauto|].
      cbn [hd_error option_map]. rewrite E'. rewrite (B ds (or_introl eq_refl)). reflexivity.
  Qed.

  (** Acceptance. *)
  Lemma loop_total {S A} (body : S -> A -> outcome S) (Q : A -> Prop) :
    (forall s a, (exists s', body s a = Ok s') <-> Q a) ->
    forall l s, (exists s', loop body l s = Ok s') <-> forall a, In a l -> Q a.
  Proof.
    intros H l. induction l as [|a l IH]; intros s; cbn [loop].
    - split; [intros _ a []|eauto].
    - split.
      + intros [s' E]. destruct (body s a) as [s1| |] eqn:E1; cbn [bind] in E; try discriminate.
        intros b [<-|Hb]; [apply (H s); eauto|]. apply (proj1 (IH s1)); eauto.
      + intros E. destruct (proj2 (H s a) (E a (or_introl eq_refl))) as [s1 E1]. rewrite E1. cbn [bind].
        apply IH. intros b Hb. apply E. right; auto.
  Qed.

  Lemma addConditionRule_total r s m : (exists m', addConditionRule intern gradient sortConds r s m = Ok m') <->
    (forall d, In d (declarations r) -> gradient (dvalue d) = Ok tt) /\
    (forall c, In c (sconditions s) -> In (coperation c) [[]; sEq; sNe; sLt; sGt]).
  Proof.
    rewrite <- addDeclarations_total, <- addConditions_total with (intern := intern).
    unfold addConditionRule. split.
    - intros [m' H]. destruct (addConditions intern (sconditions s)) as [cs| |]; cbn [bind] in H; try discriminate.
      destruct (addDeclarations intern gradient (declarations r)) as [ds| |]; cbn [bind] in H; try discriminate.
      eauto.
    - intros [[ds Hd] [cs Hc]]. rewrite Hd, Hc. cbn [bind]. eauto.
  Qed.

  Lemma addIdentifierRule_total r s m : (exists m', addIdentifierRule intern gradient s (declarations r) m = Ok m') <->
    (forall d, In d (declarations r) -> gradient (dvalue d) = Ok tt) /\
    (declarations r <> [] -> exists c cs id, sconditions s = c :: cs /\ castId (cvalue c) = Some id).
  Proof.
    unfold addIdentifierRule. destruct (declarations r) as [|d ds].
    - split; [intros _; split; [intros d []|congruence]|eauto].
    - pose proof (addDeclarations_total ds) as T. split.
      + intros [m' H]. destruct (gradient (dvalue d)) as [[]| |] eqn:E; cbn [bind] in H; try discriminate.
        destruct (sconditions s) as [|c cs]; [discriminate|].
        destruct (castId (cvalue c)) as [id|] eqn:E2; [|discriminate].
        destruct (addDeclarations intern gradient ds) as [ds'| |]; cbn [bind] in H; try discriminate.
        split; [|intros _; exists c, cs, id; auto].
        intros d' [<-|Hd]; [exact E|]. apply T; eauto.
      + intros [H1 H2]. destruct (H2 ltac:(discriminate)) as (c & cs & id & E1 & E2).
        rewrite (H1 d (or_introl eq_refl)). cbn [bind]. rewrite E1, E2.
        destruct (proj2 T (fun d' Hd => H1 d' (or_intror Hd))) as [ds' E]. rewrite E. cbn [bind]. eauto.
  Qed.

  Lemma addName_total r s f n : (exists f', addName intern gradient sortConds r s f n = Ok f') <->
    (forall d, In d (declarations r) -> gradient (dvalue d) = Ok tt) /\
    (In n [sNode; sWay; sArea; sRelation; sCanvas] /\
     (forall c, In c (sconditions s) -> In (coperation c) [[]; sEq; sNe; sLt; sGt])
     \/ n = sElement /\
        (declarations r <> [] -> exists c cs id, sconditions s = c :: cs /\ castId (cvalue c) = Some id)).
  Proof.
    destruct f as [fn fw fa fr fc fe]. unfold addName.
    assert (D : forall (m : filterMap) (F : filterMap -> filters), In n kinds ->
      ((exists f', omap F (addConditionRule intern gradient sortConds r s m) = Ok f') <->
    (forall d, In d (declarations r) -> gradient (dvalue d) = Ok tt) /\
    (In n [sNode; sWay; sArea; sRelation; sCanvas] /\
     (forall c, In c (sconditions s) -> In (coperation c) [[]; sEq; sNe; sLt; sGt])
     \/ n = sElement /\
        (declarations r <> [] -> exists c cs id, sconditions s = c :: cs /\ castId (cvalue c) = Some id)))).
    { intros m F K. assert (NE : n <> sElement).
      { intros ->. cbn in K. repeat destruct K as [K|K]; discriminate || contradiction. }
      transitivity (exists m', addConditionRule intern gradient sortConds r s m = Ok m').
      - split; intros [x H].
        + destruct (addConditionRule intern gradient sortConds r s m) as [m'| |]; try discriminate. eauto.
        + rewrite H. cbn [omap bind]. eauto.
      - rewrite addConditionRule_total. unfold kinds in K. tauto. }
    destruct (beqb n sNode) eqn:E1; [apply D; apply beqb_eq in E1; subst n; cbn; tauto|].
    destruct (beqb n sWay) eqn:E2; [apply D; apply beqb_eq in E2; subst n; cbn; tauto|].
    destruct (beqb n sArea) eqn:E3; [apply D; apply beqb_eq in E3; subst n; cbn; tauto|].
    destruct (beqb n sRelation) eqn:E4; [apply D; apply beqb_eq in E4; subst n; cbn; tauto|].
    destruct (beqb n sCanvas) eqn:E5; [apply D; apply beqb_eq in E5; subst n; cbn; tauto|].
    apply beqb_neq in E1, E2, E3, E4, E5.
    destruct (beqb n sElement) eqn:E6.
    - apply beqb_eq in E6. transitivity (exists m', addIdentifierRule intern gradient s (declarations r) fe = Ok m').
      + split; intros [x H].
        * destruct (addIdentifierRule intern gradient s (declarations r) fe) as [m'| |]; try discriminate. eauto.
        * rewrite H. cbn [omap bind]. eauto.
      + rewrite addIdentifierRule_total. split.
        * intros [A B]. auto.
        * intros [A [[B _]|[_ B]]]; auto. exfalso. cbn [In] in B. intuition congruence.
    - apply beqb_neq in E6. split; [intros [f' H]; discriminate|].
      intros [_ [[B _]|[B _]]]; [|contradiction]. exfalso. cbn [In] in B. intuition congruence.
  Qed.

  Lemma compile_total sh : (exists f, compile intern gradient sortConds sh = Ok f) <-> acceptable gradient sh.
  Proof.
    unfold compile, acceptable.
    rewrite (loop_total _ (fun r => forall s n, In s (selectors r) -> In n (names s) ->
    (forall d, In d (declarations r) -> gradient (dvalue d) = Ok tt) /\
    (In n [sNode; sWay; sArea; sRelation; sCanvas] /\
     (forall c, In c (sconditions s) -> In (coperation c) [[]; sEq; sNe; sLt; sGt])
     \/ n = sElement /\
        (declarations r <> [] -> exists c cs id, sconditions s = c :: cs /\ castId (cvalue c) = Some id)))).
    - split; intros H.
      + intros r s n Hr Hs Hn. exact (H r Hr s n Hs Hn).
      + intros r Hr s n Hs Hn. exact (H r s n Hr Hs Hn).
    - intros f r. unfold addRule.
      rewrite (loop_total _ (fun s => forall n, In n (names s) ->
    (forall d, In d (declarations r) -> gradient (dvalue d) = Ok tt) /\
    (In n [sNode; sWay; sArea; sRelation; sCanvas] /\
     (forall c, In c (sconditions s) -> In (coperation c) [[]; sEq; sNe; sLt; sGt])
     \/ n = sElement /\
        (declarations r <> [] -> exists c cs id, sconditions s = c :: cs /\ castId (cvalue c) = Some id)))).
      + split; intros H.
        * intros s n Hs Hn. exact (H s Hs n Hn).
        * intros s Hs n Hn. exact (H s n Hs Hn).
      + intros f1 s. unfold addSelector.
        apply (loop_total _ (fun n => _)). intros f2 n. apply addName_total.
  Qed.
End Compile.

(** ** The style of an element *)

Definition sameDecls (a b : list decl) : Prop :=
  (forall k, lastOf k a = lastOf k b) /\ forall x, In x a <-> In x b.

Lemma same_refl a : sameDecls a a.
Proof. split; tauto || reflexivity. Qed.

Lemma same_app a a' b b' : sameDecls a a' -> sameDecls b b' -> sameDecls (a ++ b) (a' ++ b').
Proof.
  intros [A1 A2] [B1 B2]. split.
  - intros k. rewrite !lastOf_app, A1, B1. reflexivity.
  - intros x. rewrite !in_app_iff, A2, B2. tauto.
Qed.

Lemma same_or (ds a b : list decl) (x y : bool) :
  sameDecls a (if x then ds else []) -> sameDecls b (if y then ds else []) ->
  sameDecls (a ++ b) (if (x || y)%bool then ds else []).
Proof.
  intros [A1 A2] [B1 B2]. split.
  - intros k. rewrite lastOf_app, A1, B1. destruct x, y; cbn [orb]; cbn [lastOf orElse];
    try reflexivity; destruct (lastOf k ds); reflexivity.
  - intros v. rewrite in_app_iff, A2, B2. destruct x, y; cbn [orb In]; tauto.
Qed.

Lemma filter_flat_map {A B} (p : B -> bool) (g : A -> list B) l :
  List.filter p (flat_map g l) = flat_map (fun a => List.filter p (g a)) l.
Proof. induction l as [|a l IH]; [reflexivity|]. cbn [flat_map]. rewrite filter_app, IH. reflexivity. Qed.

Lemma flat_map_flat_map {A B C} (f : B -> list C) (g : A -> list B) l :
  flat_map f (flat_map g l) = flat_map (fun a => flat_map f (g a)) l.
Proof. induction l as [|a l IH]; [reflexivity|]. cbn [flat_map]. rewrite flat_map_app, IH. reflexivity. Qed.

Lemma existsb_flat_map {A B} (p : B -> bool) (g : A -> list B) l :
  existsb p (flat_map g l) = existsb (fun a => existsb p (g a)) l.
Proof. induction l as [|a l IH]; [reflexivity|]. cbn [flat_map existsb]. rewrite existsb_app, IH. reflexivity. Qed.

Lemma existsb_ext_in {A} (p q : A -> bool) l : (forall a, In a l -> p a = q a) -> existsb p l = existsb q l.
Proof.
  induction l as [|a l IH]; intros H; [reflexivity|]. cbn [existsb].
  rewrite (H a (or_introl eq_refl)), IH; auto. intros b Hb. apply H. right; auto.
Qed.

Lemma forallb_perm {A} (p : A -> bool) l l' : Permutation l l' -> forallb p l = forallb p l'.
Proof.
  induction 1; cbn [forallb]; auto.
  - rewrite IHPermutation. reflexivity.
  - rewrite !andb_assoc, (andb_comm (p y)). reflexivity.
  - congruence.
Qed.

Section Result.
  Variable intern : bytes -> N.
  Variable gradient : bytes -> outcome unit.
  Variable sortConds : list condType -> list condType.
  Notation declOf := (declOf intern).
  Notation filterOf := (filterOf intern sortConds).
  Notation contrib := (contrib intern sortConds).

  Section Kind.
    Variables (kind : bytes) (l : Z) (m : filter -> bool) (sel : selector -> bool).

    Lemma block_names r s :
      sel s = (existsb (beqb kind) (names s) && inZoom (szoom s) l && m (filterOf r s))%bool ->
      sameDecls (flat_map fdecls (List.filter m (flat_map (contrib kind l r s) (names s))))
                (if sel s then map declOf (declarations r) else []) /\
      existsb m (flat_map (contrib kind l r s) (names s)) = sel s.
    Proof.
      intros ->. rewrite <- andb_assoc. set (b := (inZoom (szoom s) l && m (filterOf r s))%bool).
      rewrite filter_flat_map, flat_map_flat_map, existsb_flat_map.
      assert (N1 : forall n, flat_map fdecls (List.filter m (contrib kind l r s n)) =
                        if (beqb kind n && b)%bool then map declOf (declarations r) else []).
      { intros n. unfold contrib. subst b. destruct (beqb kind n); [|reflexivity].
        destruct (inZoom (szoom s) l); [|reflexivity]. cbn [andb List.filter].
        destruct (m (filterOf r s)); [|reflexivity]. cbn [flat_map fdecls filterOf]. apply app_nil_r. }
      assert (N2 : forall n, existsb m (contrib kind l r s n) = (beqb kind n && b)%bool).
      { intros n. unfold contrib. subst b. destruct (beqb kind n); [|reflexivity].
        destruct (inZoom (szoom s) l); [|reflexivity]. cbn [andb existsb]. apply orb_false_r. }
      clearbody b. induction (names s) as [|n ns [IH1 IH2]]; [split; [apply same_refl|reflexivity]|].
      cbn [flat_map existsb]. rewrite N1, N2, IH2. split.
      - rewrite andb_orb_distrib_l. apply same_or; auto. apply same_refl.
      - rewrite andb_orb_distrib_l. reflexivity.
    Qed.

    Lemma block_rule r :
      (forall s, In s (selectors r) ->
         sel s = (existsb (beqb kind) (names s) && inZoom (szoom s) l && m (filterOf r s))%bool) ->
      sameDecls (flat_map fdecls (List.filter m
                   (flat_map (fun s => flat_map (contrib kind l r s) (names s)) (selectors r))))
                (if existsb sel (selectors r) then map declOf (declarations r) else []) /\
      existsb m (flat_map (fun s => flat_map (contrib kind l r s) (names s)) (selectors r)) =
      existsb sel (selectors r).
    Proof.
      intros H. induction (selectors r) as [|s ss IH]; [split; [apply same_refl|reflexivity]|].
      destruct (block_names r s (H s (or_introl eq_refl))) as [A1 A2].
      destruct (IH (fun s' Hs => H s' (or_intror Hs))) as [B1 B2].
      cbn [flat_map existsb]. rewrite filter_app, flat_map_app, existsb_app, A2, B2.
      split; [|reflexivity]. apply same_or; auto.
    Qed.

    Lemma compiled_same sh f : In kind kinds -> compile intern gradient sortConds sh = Ok f ->
      (forall r s, In r (rules sh) -> In s (selectors r) ->
         sel s = (existsb (beqb kind) (names s) && inZoom (szoom s) l && m (filterOf r s))%bool) ->
      sameDecls (flat_map fdecls (List.filter m (at_ l (mapOf kind f))))
                (map declOf (flat_map declarations (applicable sel (rules sh)))) /\
      existsb m (at_ l (mapOf kind f)) = existsb (fun r => existsb sel (selectors r)) (rules sh).
    Proof.
      intros K C H. rewrite (compile_at _ _ _ kind l sh f K C). clear C. unfold applicable.
      induction (rules sh) as [|r rs IH]; [split; [apply same_refl|reflexivity]|].
      destruct (block_rule r (fun s Hs => H r s (or_introl eq_refl) Hs)) as [A1 A2].
      destruct (IH (fun r' s Hr Hs => H r' s (or_intror Hr) Hs)) as [B1 B2].
      cbn [flat_map existsb List.filter]. rewrite filter_app, flat_map_app, existsb_app, A2, B2.
      split; [|reflexivity].
      destruct (existsb sel (selectors r)).
      - cbn [flat_map]. rewrite map_app. apply same_app; auto.
      - change (map declOf (flat_map declarations (List.filter (fun r0 => existsb sel (selectors r0)) rs)))
          with ([] ++ map declOf (flat_map declarations (List.filter (fun r0 => existsb sel (selectors r0)) rs))).
        apply same_app; auto.
    Qed.
  End Kind.

  Variable text : N -> bytes.
  Variable num : bytes -> dbl.

  Lemma build_spec tags fs : forall b,
    fst (buildFromCondition intern text num false tags fs b) =
      fold_left (put intern) (flat_map fdecls (List.filter (matchFilter text num tags) fs)) (fst b) /\
    snd (buildFromCondition intern text num false tags fs b) =
      (snd b || existsb (matchFilter text num tags) fs)%bool /\
    snd (buildFromCondition intern text num true tags fs b) =
      (snd b || existsb (matchFilter text num tags) fs)%bool.
  Proof.
    induction fs as [|g fs IH]; intros b; cbn [buildFromCondition existsb List.filter].
    - rewrite orb_false_r. auto.
    - destruct (matchFilter text num tags g); cbn [orb].
      + destruct (IH (fold_left (put intern) (fdecls g) (fst b), true)) as (A & B & _).
        rewrite A, B. cbn [fst snd flat_map orb]. rewrite fold_left_app, orb_true_r. auto.
      + apply IH.
  Qed.

  Definition condDecls (f : filters) (e : element) (l : Z) : list decl :=
    flat_map fdecls (List.filter (matchFilter text num (etags e)) (at_ l (filtersFor f e))).

  Lemma at_lookup {V} l (m : list (Z * list V)) : at_ l m = match alookup Z.eqb l m with Some x => x | None => [] end.
  Proof. reflexivity. Qed.

  Lemma checkOrBuild_spec f l e :
    forElement intern text num f e l =
      fold_left (put intern) (match idAt l (eid e) f with Some ds => ds | None => condDecls f e l end) emptyStyle /\
    hasStyle intern text num f e l =
      match idAt l (eid e) f with
      | Some _ => true
      | None => existsb (matchFilter text num (etags e)) (at_ l (filtersFor f e))
      end.
  Proof.
    unfold forElement, hasStyle, checkOrBuild, buildFromIdentifier, idAt, condDecls, at_.
    change (@alookup Z (list (N * list decl)) Z.eqb l (fElements f))
      with (@alookup Z idFilter Z.eqb l (fElements f)).
    destruct (alookup Z.eqb l (fElements f)) as [mm|].
    - destruct (alookup N.eqb (eid e) mm) as [ds|]; [split; reflexivity|].
      destruct (alookup Z.eqb l (filtersFor f e)) as [fs|]; [|split; reflexivity].
      destruct (build_spec (etags e) fs (emptyStyle, false)) as (A & _ & C). rewrite A, C. split; reflexivity.
    - cbn [alookup].
      destruct (alookup Z.eqb l (filtersFor f e)) as [fs|]; [|split; reflexivity].
      destruct (build_spec (etags e) fs (emptyStyle, false)) as (A & _ & C). rewrite A, C. split; reflexivity.
  Qed.

  Lemma filtersFor_mapOf f e : filtersFor f e = mapOf (kindName e) f.
  Proof. destruct e; reflexivity. Qed.
  Lemma kindName_in e : In (kindName e) kinds.
  Proof. destruct e; cbn; tauto. Qed.

  Lemma matchFilter_holds sh e kvs r s : (forall c, Permutation (sortConds c) c) ->
    (forall c, In c (sconditions s) -> In (coperation c) [[]; sEq; sNe; sLt; sGt]) ->
    tableOk intern text (sheetStrings sh ++ stringsOf kvs) -> tagged intern e kvs ->
    In r (rules sh) -> In s (selectors r) ->
    matchFilter text num (etags e) (filterOf r s) = forallb (holds num kvs) (sconditions s).
  Proof.
    intros SC O [[I1 I2] T] [A P] Hr Hs. unfold matchFilter. cbn [filterOf fconds].
    rewrite (forallb_perm _ _ _ (SC _)).
    assert (Sub : forall c x, In c (sconditions s) -> In x (ckey c :: cvalue c :: stringsOf kvs) ->
                    In x (sheetStrings sh ++ stringsOf kvs)).
    { intros c x Hc Hx. apply in_or_app. cbn [In] in Hx.
      assert (X : forall y, In y [ckey c; cvalue c] -> In y (sheetStrings sh)).
      { intros y Hy. unfold sheetStrings. apply in_flat_map. exists r. split; auto.
        apply in_or_app. left. apply in_flat_map. exists s. split; auto.
        apply in_flat_map. exists c. split; auto. }
      destruct Hx as [<-|[<-|Hx]]; [left; apply X; left; reflexivity|left; apply X; right; left; reflexivity|right; auto]. }
    induction (sconditions s) as [|c cs IH]; [reflexivity|].
    cbn [map forallb]. rewrite IH.
    - rewrite (matchTags_holds intern text num (etags e) kvs c); auto.
      + split; [split|].
        * intros a b Ha Hb. apply I1; apply (Sub c); auto; left; reflexivity.
        * intros a Ha. apply I2. apply (Sub c); auto. left; reflexivity.
        * intros a Ha. apply T. apply (Sub c); auto. left; reflexivity.
      + apply O. left; reflexivity.
    - intros c' Hc. apply O. right; auto.
    - intros c' x Hc. apply Sub. right; auto.
  Qed.

  (** The declarations in force, in terms of ids. *)
  Lemma style_decls sh f e kvs l : (forall c, Permutation (sortConds c) c) ->
    compile intern gradient sortConds sh = Ok f ->
    tableOk intern text (sheetStrings sh ++ stringsOf kvs) -> tagged intern e kvs ->
    exists ds, sameDecls ds (map declOf (inForce num sh (kindName e) l (eid e) kvs)) /\
      forElement intern text num f e l = fold_left (put intern) ds emptyStyle /\
      hasStyle intern text num f e l =
        match idRules sh l (eid e) with
        | _ :: _ => true
        | [] => existsb (fun r => existsb (selects num (kindName e) l kvs) (selectors r)) (rules sh)
        end.
  Proof.
    intros SC C T G. destruct (checkOrBuild_spec f l e) as [E1 E2]. rewrite E1, E2.
    unfold inForce. pose proof (compile_idRules _ _ _ l (eid e) _ _ C) as Hid.
    destruct (idRules sh l (eid e)) as [|r rs]; cbn [hd_error option_map] in Hid; rewrite Hid.
    2:{ eexists. split; [apply same_refl|]. split; reflexivity. }
    unfold condDecls. rewrite filtersFor_mapOf.
    destruct (compiled_same (kindName e) l (matchFilter text num (etags e))
                (selects num (kindName e) l kvs) sh f (kindName_in e) C) as [S1 S2].
    { intros r s Hr Hs. unfold selects.
      destruct (existsb (beqb (kindName e)) (names s)) eqn:EN; [|reflexivity]. cbn [andb].
      f_equal. symmetry. apply (matchFilter_holds sh); auto.
      apply existsb_exists in EN as (n & Hn & En). apply beqb_eq in En. subst n.
      assert (Acc : acceptable gradient sh) by (apply compile_total with (intern := intern) (sortConds := sortConds); eauto).
      destruct (Acc r s _ Hr Hs Hn) as [_ [[_ X]|[X _]]]; [exact X|].
      exfalso. destruct e; discriminate. }
    exists (flat_map fdecls (List.filter (matchFilter text num (etags e)) (at_ l (mapOf (kindName e) f)))).
    split; [exact S1|]. split; [reflexivity|exact S2].
  Qed.

  Lemma lastOf_lastValue k ds v :
    (forall d, In d ds -> intern (dkey d) = intern k -> dkey d = k) ->
    lastOf (intern k) (map declOf ds) = Some v <-> lastValue k ds v.
  Proof.
    intros I. revert v. induction ds as [|[k' v'] ds IH]; intros v; cbn [map lastOf].
    - split; [discriminate|]. intros (a & b & E & _). destruct a; discriminate.
    - destruct (lastOf (intern k) (map declOf ds)) as [w|] eqn:L.
      + assert (I' : forall d, In d ds -> intern (dkey d) = intern k -> dkey d = k)
          by (intros d Hd; apply I; right; auto).
        rewrite (IH I'). split.
        * intros (a & b & -> & N1). exists (mkDecl k' v' :: a), b. auto.
        * intros (a & b & E & N1). destruct a as [|d a]; cbn [app] in E; injection E as E1 E2.
          -- exfalso. assert (X : exists w', In (mkDecl k w') ds).
             { destruct (proj1 (IH I' w) eq_refl) as (a & b' & -> & _). exists w. apply in_or_app. right. left. reflexivity. }
             destruct X as [w' X]. subst b. exact (N1 w' X).
          -- exists a, b. auto.
      + unfold StyleProofs.declOf at 1 2. cbn [fst snd dkey dvalue].
        assert (No : forall w, ~ In (mkDecl k w) ds).
        { intros w Hw. clear IH I. induction ds as [|d ds IHd]; [contradiction|].
          cbn [map lastOf] in L. destruct (lastOf (intern k) (map declOf ds)) eqn:L'; [discriminate|].
          destruct Hw as [->|Hw]; [cbn in L; rewrite N.eqb_refl in L; discriminate|].
          apply IHd; auto. }
        destruct (N.eqb_spec (intern k) (intern k')) as [E|E].
        * assert (k' = k) as -> by (apply (I (mkDecl k' v')); [left; reflexivity|symmetry; exact E]).
          split.
          -- intros H. injection H as ->. exists [], ds. split; [reflexivity|exact No].
          -- intros (a & b & Eab & N1). destruct a as [|d a]; cbn [app] in Eab; injection Eab as E1 E2; [congruence|].
             exfalso. apply (No v). rewrite E2. apply in_or_app. right. left. reflexivity.
        * split; [discriminate|]. intros (a & b & Eab & N1).
          destruct a as [|d a]; cbn [app] in Eab; injection Eab as E1 E2; [congruence|].
          exfalso. apply (No v). rewrite E2. apply in_or_app. right. left. reflexivity.
  Qed.

  Lemma applicable_keys sel sh d : In d (flat_map declarations (applicable sel (rules sh))) -> In (dkey d) (sheetStrings sh).
  Proof.
    intros H. apply in_flat_map in H as (r & Hr & Hd). unfold applicable in Hr.
    apply filter_In in Hr as [Hr _]. unfold sheetStrings. apply in_flat_map. exists r. split; auto.
    apply in_or_app. right. apply in_map. exact Hd.
  Qed.

  Lemma inForce_keys sh kind l id kvs d : In d (inForce num sh kind l id kvs) -> In (dkey d) (sheetStrings sh).
  Proof.
    unfold inForce. destruct (idRules sh l id) as [|r rs] eqn:E; [apply applicable_keys|].
    intros H. apply (applicable_keys (selectsId l id)). apply in_flat_map. exists r. split; auto.
    assert (X : In r (idRules sh l id)) by (rewrite E; left; reflexivity).
    unfold idRules in X. apply filter_In in X as [X _]. exact X.
  Qed.

  (** Reading a folded style. *)
  Lemma read_style ds' ds k : sameDecls ds' (map declOf ds) ->
    (forall d, In d ds -> intern (dkey d) = intern k -> dkey d = k) ->
    forall v, getDecl (intern k) (fold_left (put intern) ds' emptyStyle) = Ok v <-> lastValue k ds v.
  Proof.
    intros [S1 _] I v. unfold getDecl. rewrite put_lookup. cbn [emptyStyle sdecls alookup].
    rewrite S1. rewrite <- (lastOf_lastValue k ds v I).
    destruct (lastOf (intern k) (map declOf ds)); cbn [orElse]; split; congruence.
  Qed.

  Lemma read_has ds' ds k : sameDecls ds' (map declOf ds) ->
    (forall d, In d ds -> intern (dkey d) = intern k -> dkey d = k) ->
    has (intern k) (fold_left (put intern) ds' emptyStyle) = true <-> exists v, In (mkDecl k v) ds.
  Proof.
    intros [S1 _] I. unfold has. rewrite put_lookup. cbn [emptyStyle sdecls alookup]. rewrite S1.
    destruct (lastOf (intern k) (map declOf ds)) as [v|] eqn:L; cbn [orElse].
    - split; [|reflexivity]. intros _. apply (lastOf_lastValue k ds v I) in L as (a & b & -> & _).
      exists v. apply in_or_app. right. left. reflexivity.
    - split; [discriminate|]. intros [v H]. exfalso. clear - L H. induction ds as [|d ds IH]; [contradiction|].
      cbn [map lastOf] in L. destruct (lastOf (intern k) (map declOf ds)) eqn:L'; [discriminate|].
      destruct H as [->|H]; [cbn in L; rewrite N.eqb_refl in L; discriminate|]. apply IH; auto.
  Qed.

  Lemma read_builders ds' ds : sameDecls ds' (map declOf ds) ->
    (forall d, In d ds -> intern (dkey d) = intern sBuilder -> dkey d = sBuilder) ->
    stringsAscending (sbuilders (fold_left (put intern) ds' emptyStyle)) /\
    forall v, In v (sbuilders (fold_left (put intern) ds' emptyStyle)) <-> In (mkDecl sBuilder v) ds.
  Proof.
    intros [_ S2] I. destruct (put_builders intern ds' emptyStyle) as [A B]; [constructor|].
    split; [exact A|]. intros v. rewrite B, S2. cbn [emptyStyle sbuilders In]. split.
    - intros [[]|H]. apply in_map_iff in H as ([k w] & E & H). cbn [declOf dkey dvalue] in E.
      unfold StyleProofs.declOf in E. cbn [dkey dvalue] in E.
      injection E as E1 E2. subst w. assert (k = sBuilder) as -> by (apply (I _ H); exact E1). exact H.
    - intros H. right. apply in_map_iff. exists (mkDecl sBuilder v). auto.
  Qed.
End Result.
