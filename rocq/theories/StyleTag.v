(** The fingerprint text and single edits of a stylesheet. *)
From Verif Require Import Base Bytes BytesProofs ElementModel GeoModel TagModel TagSpec TagProofs
  LruProofs StyleModel StyleSpec StyleProofs.
From Coq Require Import Permutation.
Local Open Scope nat_scope.

(** [edited v v' n s s']: [s'] is [s] with [n] occurrences of [v] replaced by [v']. *)
Inductive edited (v v' : bytes) : nat -> bytes -> bytes -> Prop :=
| edNil : edited v v' 0 [] []
| edSame b n s s' : edited v v' n s s' -> edited v v' n (b :: s) (b :: s')
| edHole n s s' : edited v v' n s s' -> edited v v' (S n) (v ++ s) (v' ++ s').

Lemma edited_length v v' n s s' : edited v v' n s s' ->
  length s' + n * length v = length s + n * length v'.
Proof.
  induction 1 as [|b n s s' H IH|n s s' H IH]; cbn [length]; rewrite ?app_length; lia.
Qed.

Lemma edited_eq v v' n s s' : v <> v' -> edited v v' n s s' -> s = s' -> n = 0.
Proof.
  intros V H. destruct (Nat.eq_dec (length v) (length v')) as [L|L].
  - induction H as [|b n s s' H IH|n s s' H IH]; intros E; [reflexivity| |].
    + apply IH. congruence.
    + exfalso. apply V. assert (X : firstn (length v) (v ++ s) = firstn (length v) (v' ++ s')) by (rewrite E; reflexivity).
      rewrite firstn_app_exact in X by reflexivity. rewrite firstn_app_exact in X by congruence. exact X.
  - intros E. apply edited_length in H. subst s'.
    destruct n as [|n]; [reflexivity|]. exfalso. apply L. nia.
Qed.

Section Edit.
  Variables v v' : bytes.

  (** Edited at least [k] times. *)
  Definition ed (k : nat) (s s' : bytes) : Prop := exists n, k <= n /\ edited v v' n s s'.

  Lemma edited_app n a a' m b b' : edited v v' n a a' -> edited v v' m b b' ->
    edited v v' (n + m) (a ++ b) (a' ++ b').
  Proof.
    induction 1 as [|x n s s' H IH|n s s' H IH]; intros B; cbn [app plus]; auto.
    - constructor. auto.
    - rewrite <- !app_assoc. constructor. auto.
  Qed.

  Lemma ed_app j k a a' b b' : ed j a a' -> ed k b b' -> ed (j + k) (a ++ b) (a' ++ b').
  Proof.
    intros (n & N1 & A) (m & M1 & B). exists (n + m). split; [lia|]. apply edited_app; auto.
  Qed.
  Lemma ed_refl s : ed 0 s s.
  Proof.
    exists 0. split; auto. induction s; constructor; auto.
  Qed.
  Lemma ed_hole : ed 1 v v'.
  Proof.
    exists 1. split; auto. rewrite <- (app_nil_r v) at 2. rewrite <- (app_nil_r v') at 2.
    constructor. constructor.
  Qed.
  Lemma ed_weak j k s s' : j <= k -> ed k s s' -> ed j s s'.
  Proof. intros L (n & N1 & H). exists n. split; auto. lia. Qed.

  Lemma ed_flat_map {A} (g g' : A -> bytes) l : (forall a, In a l -> ed 0 (g a) (g' a)) ->
    ed 0 (flat_map g l) (flat_map g' l).
  Proof.
    induction l as [|a l IH]; intros H; [apply ed_refl|]. cbn [flat_map].
    apply (ed_app 0 0); [apply H; left; reflexivity|]. apply IH. intros b Hb. apply H. right; auto.
  Qed.
  Lemma ed_flat_map1 {A} (g g' : A -> bytes) l a0 : (forall a, In a l -> ed 0 (g a) (g' a)) ->
    In a0 l -> ed 1 (g a0) (g' a0) -> ed 1 (flat_map g l) (flat_map g' l).
  Proof.
    induction l as [|a l IH]; intros H Hi H1; [contradiction|]. cbn [flat_map].
    destruct Hi as [->|Hi].
    - apply (ed_app 1 0); [exact H1|]. apply ed_flat_map. intros b Hb. apply H. right; auto.
    - apply (ed_app 0 1); [apply H; left; reflexivity|]. apply IH; auto. intros b Hb. apply H. right; auto.
  Qed.

  Variables (intern : bytes -> N) (gradient : bytes -> outcome unit)
            (sortConds : list condType -> list condType).
  Variables (R1 R2 : list rule) (sels : list selector) (D1 D2 : list declaration) (k : bytes)
            (tx tx' : list atlas) (ls ls' : list (bytes * N)).
  Let r := mkRule sels (D1 ++ mkDecl k v :: D2).
  Let r' := mkRule sels (D1 ++ mkDecl k v' :: D2).
  Let sh := mkSheet (R1 ++ r :: R2) tx ls.
  Let sh' := mkSheet (R1 ++ r' :: R2) tx' ls'.
  Variables f f' : filters.
  Hypothesis C : compile intern gradient sortConds sh = Ok f.
  Hypothesis C' : compile intern gradient sortConds sh' = Ok f'.

  Lemma decls_ed : ed 1 (declsText (map (declOf intern) (declarations r)))
                        (declsText (map (declOf intern) (declarations r'))).
  Proof.
    cbn [declarations r r']. rewrite !map_app. cbn [map]. unfold declsText. rewrite !flat_map_app.
    cbn [flat_map declOf dkey dvalue fst snd].
    apply (ed_app 0 1); [apply ed_refl|].
    apply (ed_app 1 0); [|apply ed_refl]. apply (ed_app 0 1); [apply ed_refl|apply ed_hole].
  Qed.

  (** Texts of the filters of a kind at a level. *)
  Lemma contrib_text kind l s :
    ed (if existsb (beqb kind) (names s) && inZoom (szoom s) l then 1 else 0)
       (flat_map filterText (flat_map (contrib intern sortConds kind l r s) (names s)))
       (flat_map filterText (flat_map (contrib intern sortConds kind l r' s) (names s))).
  Proof.
    induction (names s) as [|n ns IH]; [apply ed_refl|].
    cbn [flat_map existsb]. rewrite !flat_map_app.
    unfold contrib at 1 3. destruct (beqb kind n); cbn [andb orb].
    - destruct (inZoom (szoom s) l); cbn [andb].
      + apply (ed_weak 1 (1 + 0)); auto. apply ed_app.
        * cbn [flat_map]. rewrite !app_nil_r. unfold filterText, filterOf. cbn [fconds fdecls].
          apply (ed_app 0 1); [apply ed_refl|exact decls_ed].
        * eapply ed_weak; [|exact IH]. lia.
      + apply (ed_app 0 0); [apply ed_refl|]. rewrite andb_false_r in IH. exact IH.
    - cbn [flat_map app]. exact IH.
  Qed.

  Lemma rule_text kind l :
    ed (if existsb (fun s => existsb (beqb kind) (names s) && inZoom (szoom s) l) sels then 1 else 0)
       (flat_map filterText (flat_map (fun s => flat_map (contrib intern sortConds kind l r s) (names s)) (selectors r)))
       (flat_map filterText (flat_map (fun s => flat_map (contrib intern sortConds kind l r' s) (names s)) (selectors r'))).
  Proof.
    change (selectors r) with sels. change (selectors r') with sels.
    assert (G : forall ss,
      ed (if existsb (fun s => existsb (beqb kind) (names s) && inZoom (szoom s) l) ss then 1 else 0)
       (flat_map filterText (flat_map (fun s => flat_map (contrib intern sortConds kind l r s) (names s)) ss))
       (flat_map filterText (flat_map (fun s => flat_map (contrib intern sortConds kind l r' s) (names s)) ss)));
    [|apply G].
    induction ss as [|s ss IH]; [apply ed_refl|].
    cbn [flat_map existsb]. rewrite !flat_map_app.
    pose proof (contrib_text kind l s) as H.
    destruct (existsb (beqb kind) (names s) && inZoom (szoom s) l)%bool; cbn [orb].
    - apply (ed_weak 1 (1 + 0)); auto. apply ed_app; auto. eapply ed_weak; [|exact IH]. lia.
    - destruct (existsb (fun s0 => existsb (beqb kind) (names s0) && inZoom (szoom s0) l) ss).
      + apply (ed_app 0 1); auto.
      + apply (ed_app 0 0); auto.
  Qed.

  Definition covered (kind : bytes) (l : Z) : bool :=
    existsb (fun s => existsb (beqb kind) (names s) && inZoom (szoom s) l) sels.

  Lemma level_text kind l : In kind kinds ->
    ed (if covered kind l then 1 else 0)
       (flat_map filterText (at_ l (mapOf kind f))) (flat_map filterText (at_ l (mapOf kind f'))).
  Proof.
    intros K. rewrite (compile_at _ _ _ kind l _ _ K C), (compile_at _ _ _ kind l _ _ K C').
    cbn [rules sh sh']. rewrite !flat_map_app.
    apply (ed_app 0); [apply ed_refl|]. cbn [flat_map]. rewrite !flat_map_app.
    rewrite <- (Nat.add_0_r (if covered kind l then 1 else 0)).
    apply ed_app; [apply rule_text|apply ed_refl].
  Qed.

  (** Key lists do not depend on values. *)
  Definition sameKeys (a b : filters) : Prop :=
    (forall kind, In kind kinds -> map fst (mapOf kind a) = map fst (mapOf kind b)) /\
    map fst (fElements a) = map fst (fElements b) /\
    forall l, map fst (at_ l (fElements a)) = map fst (at_ l (fElements b)).

  Lemma aset_keys {V W} l (x : V) (y : W) m m' : map fst m = map fst m' ->
    map fst (aset Z.eqb l x m) = map fst (aset Z.eqb l y m').
  Proof.
    unfold aset. cbn [map fst]. intros H. f_equal. revert m' H.
    induction m as [|[a b] m IH]; intros [|[a' b'] m'] H; cbn [map fst] in H; try discriminate; [reflexivity|].
    injection H as -> H. cbn [aremove]. destruct (Z.eqb l a'); cbn [map fst]; auto. f_equal; auto.
  Qed.

  Lemma addToFilterMap_keys g g' z : forall m m', map fst m = map fst m' ->
    map fst (addToFilterMap sortConds g z m) = map fst (addToFilterMap sortConds g' z m').
  Proof.
    unfold addToFilterMap. cbv zeta. induction (zoomLevels z) as [|l ls0 IH]; intros m m' H; [exact H|].
    cbn [fold_left]. apply IH. apply aset_keys. exact H.
  Qed.

  Lemma emplaceId_keys id ds ds' z : forall m m', map fst m = map fst m' ->
    (forall l, map fst (at_ l m) = map fst (at_ l m')) ->
    map fst (emplaceId id ds z m) = map fst (emplaceId id ds' z m') /\
    (forall l, map fst (at_ l (emplaceId id ds z m)) = map fst (at_ l (emplaceId id ds' z m'))).
  Proof.
    unfold emplaceId. induction (zoomLevels z) as [|l ls0 IH]; intros m m' H1 H2; [auto|].
    cbn [fold_left]. cbv zeta. apply IH.
    - apply aset_keys. exact H1.
    - intros l'. rewrite !at_aset. destruct (Z.eqb l' l); [|apply H2].
      assert (X : forall (a b : idFilter), map fst a = map fst b ->
        map fst (match alookup N.eqb id a with Some _ => a | None => a ++ [(id, ds)] end) =
        map fst (match alookup N.eqb id b with Some _ => b | None => b ++ [(id, ds')] end)).
      { intros a b E.
        destruct (alookup N.eqb id a) eqn:La; destruct (alookup N.eqb id b) eqn:Lb; auto.
        - exfalso. apply (alookup_none N.eqb Neqb_eq') in Lb. apply Lb. rewrite <- E.
          apply (alookup_in N.eqb Neqb_eq') in La. apply in_map_iff. eexists; split; [|exact La]. reflexivity.
        - exfalso. apply (alookup_none N.eqb Neqb_eq') in La. apply La. rewrite E.
          apply (alookup_in N.eqb Neqb_eq') in Lb. apply in_map_iff. eexists; split; [|exact Lb]. reflexivity.
        - rewrite !map_app, E. reflexivity. }
      apply X. apply H2.
  Qed.

  Lemma loop_rel {S A} (body body' : S -> A -> outcome S) (R : S -> S -> Prop) l :
    (forall s s' a t t', In a l -> R s s' -> body s a = Ok t -> body' s' a = Ok t' -> R t t') ->
    forall s s' t t', R s s' -> loop body l s = Ok t -> loop body' l s' = Ok t' -> R t t'.
  Proof.
    induction l as [|a l IH]; intros H s s' t t' HR E E'; cbn [loop] in *.
    - injection E as <-. injection E' as <-. exact HR.
    - destruct (body s a) as [s1| |] eqn:E1; cbn [bind] in E; try discriminate.
      destruct (body' s' a) as [s1'| |] eqn:E1'; cbn [bind] in E'; try discriminate.
      apply (IH (fun s0 s0' b t0 t0' Hb => H s0 s0' b t0 t0' (or_intror Hb)) s1 s1' t t'); auto.
      apply (H s s' a); auto. left; reflexivity.
  Qed.

  (** Rules with the same selectors and equally many declarations. *)
  Definition alike (a b : rule) : Prop :=
    selectors a = selectors b /\ length (declarations a) = length (declarations b).

  Lemma addName_keys a b s n g g' h h' : alike a b -> sameKeys g g' ->
    addName intern gradient sortConds a s g n = Ok h ->
    addName intern gradient sortConds b s g' n = Ok h' -> sameKeys h h'.
  Proof.
    intros [_ AL] (S1 & S2 & S3) H H'.
    destruct g as [gn gw ga gr gc ge], g' as [gn' gw' ga' gr' gc' ge'].
    pose proof (S1 sNode) as Kn. pose proof (S1 sWay) as Kw. pose proof (S1 sArea) as Ka.
    pose proof (S1 sRelation) as Kr. pose proof (S1 sCanvas) as Kc.
    cbn in Kn, Kw, Ka, Kr, Kc.
    specialize (Kn ltac:(tauto)). specialize (Kw ltac:(tauto)). specialize (Ka ltac:(tauto)).
    specialize (Kr ltac:(tauto)). specialize (Kc ltac:(tauto)). clear S1. cbn [fElements] in S2, S3.
    assert (M : forall hn hw ha hr hc he hn' hw' ha' hr' hc' he',
      map fst hn = map fst hn' -> map fst hw = map fst hw' -> map fst ha = map fst ha' ->
      map fst hr = map fst hr' -> map fst hc = map fst hc' -> map fst he = map fst he' ->
      (forall l, map fst (at_ l he) = map fst (at_ l he')) ->
      sameKeys (mkFilters hn hw ha hr hc he) (mkFilters hn' hw' ha' hr' hc' he')).
    { intros. split; [|split]; auto. intros kind K.
      destruct K as [<-|[<-|[<-|[<-|[<-|[]]]]]]; cbn; auto. }
    assert (D : forall (m m' : filterMap) (F F' : filterMap -> filters),
      omap F (addConditionRule intern gradient sortConds a s m) = Ok h ->
      omap F' (addConditionRule intern gradient sortConds b s m') = Ok h' ->
      map fst m = map fst m' ->
      exists t t', h = F t /\ h' = F' t' /\ map fst t = map fst t').
    { intros m m' F F' E E' Hm. unfold addConditionRule in E, E'.
      destruct (addConditions intern (sconditions s)) as [cs| |]; cbn [bind omap] in *; try discriminate.
      destruct (addDeclarations intern gradient (declarations a)) as [d1| |]; cbn [bind omap] in *; try discriminate.
      destruct (addDeclarations intern gradient (declarations b)) as [d2| |]; cbn [bind omap] in *; try discriminate.
      injection E as <-. injection E' as <-. do 2 eexists. split; [reflexivity|]. split; [reflexivity|].
      apply addToFilterMap_keys. exact Hm. }
    unfold addName in H, H'.
    destruct (beqb n sNode); [destruct (D _ _ _ _ H H' Kn) as (t & t' & -> & -> & Ht); apply M; auto|].
    destruct (beqb n sWay); [destruct (D _ _ _ _ H H' Kw) as (t & t' & -> & -> & Ht); apply M; auto|].
    destruct (beqb n sArea); [destruct (D _ _ _ _ H H' Ka) as (t & t' & -> & -> & Ht); apply M; auto|].
    destruct (beqb n sRelation); [destruct (D _ _ _ _ H H' Kr) as (t & t' & -> & -> & Ht); apply M; auto|].
    destruct (beqb n sCanvas); [destruct (D _ _ _ _ H H' Kc) as (t & t' & -> & -> & Ht); apply M; auto|].
    destruct (beqb n sElement); [|discriminate].
    unfold addIdentifierRule in H, H'.
    destruct (declarations a) as [|d ds]; destruct (declarations b) as [|d' ds']; cbn [length] in AL; try discriminate.
    { cbn [omap bind] in H, H'. injection H as <-. injection H' as <-. apply M; auto. }
    destruct (gradient (dvalue d)); cbn [bind omap] in H; try discriminate.
    destruct (gradient (dvalue d')); cbn [bind omap] in H'; try discriminate.
    destruct (sconditions s) as [|c cs]; [discriminate|].
    destruct (castId (cvalue c)) as [id|]; [|discriminate].
    destruct (addDeclarations intern gradient ds) as [e1| |]; cbn [bind omap] in H; try discriminate.
    destruct (addDeclarations intern gradient ds') as [e2| |]; cbn [bind omap] in H'; try discriminate.
    injection H as <-. injection H' as <-.
    match goal with |- context [emplaceId id ?x _ ge] => match goal with |- context [emplaceId id ?y _ ge'] =>
      destruct (emplaceId_keys id x y (szoom s) ge ge' S2 S3) as [X1 X2] end end.
    apply M; auto.
  Qed.

  Lemma addRule_keys a b g g' h h' : alike a b -> sameKeys g g' ->
    addRule intern gradient sortConds g a = Ok h -> addRule intern gradient sortConds g' b = Ok h' ->
    sameKeys h h'.
  Proof.
    intros AL S H H'. unfold addRule in H, H'. rewrite <- (proj1 AL) in H'.
    apply (loop_rel (addSelector intern gradient sortConds a) (addSelector intern gradient sortConds b)
             sameKeys (selectors a)) with (s := g) (s' := g'); auto.
    intros s0 s0' s t t' _ HS E E'. unfold addSelector in E, E'.
    apply (loop_rel (addName intern gradient sortConds a s) (addName intern gradient sortConds b s)
             sameKeys (names s)) with (s := s0) (s' := s0'); auto.
    intros s1 s1' n u u' _ HS1 E1 E1'. eapply addName_keys; eauto.
  Qed.

  Lemma alike_refl a : alike a a.
  Proof. split; reflexivity. Qed.

  Lemma alikes (l : list rule) : Forall2 alike l l.
  Proof. induction l; constructor; auto. apply alike_refl. Qed.

  Lemma compile_keys : sameKeys f f'.
  Proof.
    unfold compile in C, C'. cbn [rules sh sh'] in C, C'.
    assert (L : forall l1 l2, Forall2 alike l1 l2 -> forall g g' h h', sameKeys g g' ->
      loop (addRule intern gradient sortConds) l1 g = Ok h ->
      loop (addRule intern gradient sortConds) l2 g' = Ok h' -> sameKeys h h').
    { induction 1 as [|a b l1 l2 AB _ IH]; intros g g' h h' S E E'; cbn [loop] in *.
      - injection E as <-. injection E' as <-. exact S.
      - destruct (addRule intern gradient sortConds g a) as [g1| |] eqn:E1; cbn [bind] in E; try discriminate.
        destruct (addRule intern gradient sortConds g' b) as [g1'| |] eqn:E1'; cbn [bind] in E'; try discriminate.
        eapply IH; [|exact E|exact E']. eapply addRule_keys; eauto. }
    apply (L _ _) with (4 := C') (3 := C).
    - apply Forall2_app; [|constructor].
      + apply alikes.
      + split; [reflexivity|]. cbn [declarations r r']. rewrite !app_length. reflexivity.
      + apply alikes.
    - split; [|split]; reflexivity.
  Qed.

  (** Identifier rules. *)
  Lemma idDecls_ed l id :
    ed 0 (declsText (match idAt l id f with Some ds => ds | None => [] end))
         (declsText (match idAt l id f' with Some ds => ds | None => [] end)).
  Proof.
    rewrite (compile_idRules _ _ _ l id _ _ C), (compile_idRules _ _ _ l id _ _ C').
    unfold idRules, applicable. cbn [rules sh sh']. rewrite !filter_app.
    match goal with |- context [hd_error (?a ++ _)] => destruct a as [|r0 rs0] end.
    - cbn [app List.filter]. change (selectors r) with sels. change (selectors r') with sels.
      destruct (existsb (selectsId l id) sels); [|apply ed_refl].
      cbn [List.filter].
      assert (Hr : match declarations r with [] => false | _ => true end = true)
        by (cbn [declarations r]; generalize D1; intros [|? ?]; reflexivity).
      assert (Hr' : match declarations r' with [] => false | _ => true end = true)
        by (cbn [declarations r']; generalize D1; intros [|? ?]; reflexivity).
      rewrite Hr, Hr'. cbn [hd_error option_map]. eapply ed_weak; [|exact decls_ed]. lia.
    - cbn [app hd_error option_map]. apply ed_refl.
  Qed.

  Variables (orderZ : list Z -> list Z) (orderN : list N -> list N).
  Hypothesis OZ : forall l, Permutation (orderZ l) l.

  Lemma filterMap_ed kind : In kind kinds ->
    ed 0 (filterMapText orderZ (mapOf kind f)) (filterMapText orderZ (mapOf kind f')) /\
    forall l, covered kind l = true ->
      ed 1 (filterMapText orderZ (mapOf kind f)) (filterMapText orderZ (mapOf kind f')).
  Proof.
    intros K. unfold filterMapText. destruct compile_keys as (SK & _ & _). rewrite <- (SK kind K).
    assert (Z0 : forall l, ed (if covered kind l then 1 else 0)
      (decimal (Z.to_N l) ++ flat_map filterText (at_ l (mapOf kind f)))
      (decimal (Z.to_N l) ++ flat_map filterText (at_ l (mapOf kind f')))).
    { intros l. apply (ed_app 0); [apply ed_refl|apply level_text; auto]. }
    assert (Z1 : forall l, ed 0
      (decimal (Z.to_N l) ++ flat_map filterText (at_ l (mapOf kind f)))
      (decimal (Z.to_N l) ++ flat_map filterText (at_ l (mapOf kind f')))).
    { intros l. eapply ed_weak; [|apply Z0]. lia. }
    split; [apply ed_flat_map; auto|].
    intros l Hl. apply (ed_flat_map1 _ _ _ l); auto.
    - apply (Permutation_in _ (Permutation_sym (OZ _))).
      destruct (alookup Z.eqb l (mapOf kind f)) as [x|] eqn:E.
      + apply (alookup_in Z.eqb Zeqb_eq) in E. apply in_map_iff. exists (l, x). auto.
      + exfalso. pose proof (compile_at _ _ _ kind l _ _ K C) as Hc. unfold at_ in Hc. rewrite E in Hc.
        unfold covered in Hl. apply existsb_exists in Hl as (s & Hs & Hb).
        apply andb_true_iff in Hb as [Hb Hz]. apply existsb_exists in Hb as (n & Hn & Hk).
        assert (X : In (filterOf intern sortConds r s) []).
        { rewrite Hc. apply in_flat_map. exists r. split; [cbn [rules sh]; apply in_or_app; right; left; reflexivity|].
          apply in_flat_map. exists s. split; auto. apply in_flat_map. exists n. split; auto.
          unfold contrib. rewrite Hk, Hz. left. reflexivity. }
        contradiction.
    - specialize (Z0 l). rewrite Hl in Z0. exact Z0.
  Qed.

  Lemma idMap_ed : ed 0 (idMapText orderZ orderN (fElements f)) (idMapText orderZ orderN (fElements f')).
  Proof.
    unfold idMapText. destruct compile_keys as (_ & S2 & S3). rewrite <- S2. apply ed_flat_map. intros l _.
    apply (ed_app 0 0); [apply ed_refl|]. unfold idFilterText. rewrite <- (S3 l). apply ed_flat_map.
    intros id _. apply (ed_app 0 0); [apply ed_refl|]. apply idDecls_ed.
  Qed.

  Lemma tagText_differs kind l : In kind kinds -> covered kind l = true -> v <> v' ->
    tagText orderZ orderN f <> tagText orderZ orderN f'.
  Proof.
    intros K Hl V E.
    assert (X : ed 1 (tagText orderZ orderN f) (tagText orderZ orderN f')).
    { unfold tagText.
      pose proof (filterMap_ed sNode ltac:(cbn; tauto)) as [N0 N1].
      pose proof (filterMap_ed sWay ltac:(cbn; tauto)) as [W0 W1].
      pose proof (filterMap_ed sArea ltac:(cbn; tauto)) as [A0 A1].
      pose proof (filterMap_ed sRelation ltac:(cbn; tauto)) as [L0 L1].
      pose proof (filterMap_ed sCanvas ltac:(cbn; tauto)) as [C0 C1].
      cbn [mapOf beqb sNode sWay sArea sRelation sCanvas N.eqb Pos.eqb andb] in *.
      pose proof idMap_ed as I0.
      destruct K as [<-|[<-|[<-|[<-|[<-|[]]]]]].
      - apply (ed_app 1 0); [exact (N1 l Hl)|]. repeat (apply (ed_app 0 0); auto).
      - apply (ed_app 0 1); auto. apply (ed_app 1 0); [exact (W1 l Hl)|]. repeat (apply (ed_app 0 0); auto).
      - do 2 (apply (ed_app 0 1); auto). apply (ed_app 1 0); [exact (A1 l Hl)|]. repeat (apply (ed_app 0 0); auto).
      - do 3 (apply (ed_app 0 1); auto). apply (ed_app 1 0); [exact (L1 l Hl)|]. repeat (apply (ed_app 0 0); auto).
      - do 4 (apply (ed_app 0 1); auto). apply (ed_app 1 0); [exact (C1 l Hl)|]. exact I0. }
    destruct X as (n & Hn & H). apply (edited_eq v v') in H; auto. lia.
  Qed.
End Edit.
