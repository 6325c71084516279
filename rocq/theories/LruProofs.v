From Verif Require Import Base LruModel LruSpec.
From Coq Require Import Permutation.

Section Assoc.
  Context {K V : Type} (keqb : K -> K -> bool).
  Hypothesis keqb_eq : forall a b, keqb a b = true <-> a = b.

  Lemma keqb_refl a : keqb a a = true.
  Proof. apply keqb_eq; reflexivity. Qed.
  Lemma keqb_neq a b : keqb a b = false <-> a <> b.
  Proof. rewrite <- not_true_iff_false, keqb_eq; tauto. Qed.
  Lemma keqb_sym a b : keqb a b = keqb b a.
  Proof.
    destruct (keqb a b) eqn:E, (keqb b a) eqn:F; trivial.
    - apply keqb_eq in E; subst. rewrite keqb_refl in F; discriminate.
    - apply keqb_eq in F; subst. rewrite keqb_refl in E; discriminate.
  Qed.

  Lemma aremove_filter (k : K) (m : list (K * V)) :
    aremove keqb k m = filter (fun p => negb (keqb k (fst p))) m.
  Proof.
    induction m as [|[k' v] m IH]; [reflexivity|].
    cbn [aremove filter fst]. destruct (keqb k k'); cbn [negb]; rewrite IH; reflexivity.
  Qed.

  Lemma aremove_notin k (m : list (K * V)) : ~ In k (map fst m) -> aremove keqb k m = m.
  Proof.
    induction m as [|[k' v] m IH]; [reflexivity|]. cbn [aremove map fst In]. intros H.
    destruct (keqb k k') eqn:E; [apply keqb_eq in E; subst; tauto|].
    rewrite IH; tauto.
  Qed.

  Lemma alookup_in k v (m : list (K * V)) : alookup keqb k m = Some v -> In (k, v) m.
  Proof.
    induction m as [|[k' v'] m IH]; [discriminate|]. cbn [alookup].
    destruct (keqb k k') eqn:E; [apply keqb_eq in E; subst; intros [= ->]; left; reflexivity|].
    right; auto.
  Qed.

  Lemma alookup_none k (m : list (K * V)) : alookup keqb k m = None <-> ~ In k (map fst m).
  Proof.
    induction m as [|[k' v'] m IH]; [simpl; tauto|]. cbn [alookup map fst In].
    destruct (keqb k k') eqn:E.
    - apply keqb_eq in E; subst. split; [discriminate|tauto].
    - apply keqb_neq in E. rewrite IH. split; [|tauto]. intros H [F|F]; [congruence|tauto].
  Qed.

  Lemma in_alookup k v (m : list (K * V)) :
    NoDup (map fst m) -> In (k, v) m -> alookup keqb k m = Some v.
  Proof.
    induction m as [|[k' v'] m IH]; [contradiction|]. cbn [map fst alookup].
    intros ND [E|E].
    - injection E as -> ->. rewrite keqb_refl. reflexivity.
    - inversion ND; subst. destruct (keqb k k') eqn:F; [|auto].
      apply keqb_eq in F; subst. exfalso. apply H1. apply in_map_iff. exists (k', v); auto.
  Qed.

  Lemma alookup_aremove k k' (m : list (K * V)) :
    alookup keqb k (aremove keqb k' m) = if keqb k k' then None else alookup keqb k m.
  Proof.
    induction m as [|[k2 v2] m IH]; [cbn; destruct (keqb k k'); reflexivity|].
    cbn [aremove alookup]. destruct (keqb k' k2) eqn:E.
    - apply keqb_eq in E; subst. rewrite IH. destruct (keqb k k2); reflexivity.
    - cbn [alookup]. rewrite IH. destruct (keqb k k2) eqn:F; [|reflexivity].
      apply keqb_eq in F; subst. rewrite keqb_sym, E. reflexivity.
  Qed.

  Lemma alookup_aset k k' v (m : list (K * V)) :
    alookup keqb k (aset keqb k' v m) = if keqb k k' then Some v else alookup keqb k m.
  Proof.
    unfold aset. cbn [alookup]. rewrite alookup_aremove. destruct (keqb k k'); reflexivity.
  Qed.

  Lemma Permutation_filter {A} (f : A -> bool) l l' :
    Permutation l l' -> Permutation (filter f l) (filter f l').
  Proof.
    induction 1; cbn [filter].
    - constructor.
    - destruct (f x); [constructor|]; assumption.
    - destruct (f x), (f y); try apply perm_swap; reflexivity.
    - etransitivity; eassumption.
  Qed.

  Lemma filter_map {A B} (f : B -> bool) (g : A -> B) l :
    filter f (map g l) = map g (filter (fun x => f (g x)) l).
  Proof.
    induction l; [reflexivity|]. cbn [map filter]. destruct (f (g a)); cbn [map]; rewrite IHl; reflexivity.
  Qed.

  Lemma NoDup_map_filter {A B} (g : A -> B) (f : A -> bool) l :
    NoDup (map g l) -> NoDup (map g (filter f l)).
  Proof.
    induction l as [|a l IH]; [trivial|]. cbn [map filter]. intros H. inversion H; subst.
    destruct (f a); [|auto]. cbn [map]. constructor; [|auto].
    intros C; apply H2. apply in_map_iff in C as (x & E & Hx).
    apply filter_In in Hx as [Hx _]. apply in_map_iff. exists x; auto.
  Qed.
End Assoc.

Section Lru.
  Context {K V : Type} (keqb : K -> K -> bool).
  Hypothesis keqb_eq : forall a b, keqb a b = true <-> a = b.
  Notation cache := (@cache K V).
  Notation history := (@history K V).

  Definition nkey (n : nat * (K * V)) : K := fst (snd n).
  Definition entry (n : nat * (K * V)) : K * nat := (nkey n, fst n).
  Definition dropKey (k : K) (l : list (nat * (K * V))) :=
    filter (fun n => negb (keqb k (nkey n))) l.

  Record Inv (c : cache) : Prop := {
    inv_perm : Permutation (imap c) (map entry (items c));
    inv_keys : NoDup (map nkey (items c));
    inv_ids : NoDup (map fst (items c));
    inv_fresh : forall i, In i (map fst (items c)) -> i < fresh c;
    inv_size : length (items c) <= maxSize c
  }.

  Lemma nodeAt_in it kv (l : list (nat * (K * V))) : nodeAt it l = Some kv -> In (it, kv) l.
  Proof.
    induction l as [|[i kv'] l IH]; [discriminate|]. cbn [nodeAt].
    destruct (Nat.eqb_spec it i); [subst; intros [= ->]; left; reflexivity|right; auto].
  Qed.

  Lemma in_nodeAt it kv (l : list (nat * (K * V))) :
    NoDup (map fst l) -> In (it, kv) l -> nodeAt it l = Some kv.
  Proof.
    induction l as [|[i kv'] l IH]; [contradiction|]. cbn [nodeAt map fst]. intros ND [E|E].
    - injection E as -> ->. rewrite Nat.eqb_refl. reflexivity.
    - inversion ND; subst. destruct (Nat.eqb_spec it i); [|auto]. subst.
      exfalso; apply H1. apply in_map_iff. exists (i, kv); auto.
  Qed.

  Lemma dropKey_notin k l : ~ In k (map nkey l) -> dropKey k l = l.
  Proof.
    unfold dropKey. induction l as [|n l IH]; [reflexivity|]. cbn [map In filter]. intros H.
    destruct (keqb k (nkey n)) eqn:E; [apply keqb_eq in E; subst; tauto|].
    cbn [negb]. rewrite IH; tauto.
  Qed.

  Lemma eraseNode_drop it k v l :
    NoDup (map fst l) -> NoDup (map nkey l) -> In (it, (k, v)) l ->
    eraseNode it l = dropKey k l.
  Proof.
    induction l as [|[i [k' v']] l IH]; [contradiction|]. cbn [map fst eraseNode].
    intros N1 N2 [E|E].
    - injection E as -> -> ->. rewrite Nat.eqb_refl. unfold dropKey. cbn [filter].
      unfold nkey at 1; cbn [fst snd]. rewrite (keqb_refl keqb keqb_eq). cbn [negb].
      symmetry; apply dropKey_notin. inversion N2; subst. assumption.
    - inversion N1; inversion N2; subst.
      destruct (Nat.eqb_spec it i).
      { subst. exfalso; apply H1, in_map_iff. exists (i, (k, v)); auto. }
      unfold dropKey; cbn [filter]. unfold nkey at 1; cbn [fst snd].
      destruct (keqb k k') eqn:F.
      { apply keqb_eq in F; subst. exfalso; apply H5, in_map_iff. exists (it, (k', v)); auto. }
      cbn [negb]. rewrite IH; auto.
  Qed.

  Lemma imap_nodup c : Inv c -> NoDup (map fst (imap c)).
  Proof.
    intros I. eapply Permutation_NoDup; [apply Permutation_map, Permutation_sym, (inv_perm _ I)|].
    rewrite map_map. exact (inv_keys _ I).
  Qed.

  Lemma lookup_some c k it : Inv c -> alookup keqb k (imap c) = Some it ->
    exists v, In (it, (k, v)) (items c).
  Proof.
    intros I H. apply (alookup_in keqb keqb_eq) in H.
    apply (Permutation_in _ (inv_perm _ I)) in H. apply in_map_iff in H as ([i [k' v]] & E & H).
    unfold entry, nkey in E; cbn in E. injection E as -> ->. exists v; auto.
  Qed.

  Lemma lookup_in c k it v : Inv c -> In (it, (k, v)) (items c) -> alookup keqb k (imap c) = Some it.
  Proof.
    intros I H. apply (in_alookup keqb keqb_eq); [apply imap_nodup; auto|].
    apply (Permutation_in _ (Permutation_sym (inv_perm _ I))).
    apply in_map_iff. exists (it, (k, v)); auto.
  Qed.

  Lemma lookup_none c k : Inv c -> alookup keqb k (imap c) = None -> ~ In k (map nkey (items c)).
  Proof.
    intros I H C. apply in_map_iff in C as ([it [k' v]] & E & C). cbn in E; subst.
    unfold nkey in H; cbn in H. rewrite (lookup_in _ _ _ _ I C) in H. discriminate.
  Qed.

  (** Recency list of a cache. *)
  Definition recency (c : cache) : list (K * V) := map snd (items c).
  Definition kdrop (k : K) (l : list (K * V)) := aremove keqb k l.

  Lemma map_snd_dropKey k l : map snd (dropKey k l) = kdrop k (map snd l).
  Proof.
    unfold kdrop, dropKey. rewrite aremove_filter, filter_map. reflexivity.
  Qed.

  Lemma dropKey_keys k l : ~ In k (map nkey (dropKey k l)).
  Proof.
    intros C. apply in_map_iff in C as (n & E & C). apply filter_In in C as [_ C].
    subst. rewrite (keqb_refl keqb keqb_eq) in C. discriminate.
  Qed.

  Lemma dropKey_len k v it l :
    NoDup (map nkey l) -> In (it, (k, v)) l -> S (length (dropKey k l)) = length l.
  Proof.
    induction l as [|[i [k' v']] l IH]; [contradiction|]. cbn [map].
    intros N [E|E]; inversion N; subst; unfold dropKey; cbn [filter]; unfold nkey at 1; cbn [fst snd].
    - injection E as -> -> ->. rewrite (keqb_refl keqb keqb_eq). cbn [negb length].
      fold (dropKey k l). rewrite dropKey_notin; auto.
    - destruct (keqb k k') eqn:F.
      { apply keqb_eq in F; subst. exfalso; apply H1, in_map_iff. exists (it, (k', v)); auto. }
      cbn [negb length]. rewrite <- (IH H2 E). reflexivity.
  Qed.

  Lemma dropKey_len_le k l : length (dropKey k l) <= length l.
  Proof. unfold dropKey. induction l; cbn [filter]; [lia|]. destruct (negb _); cbn [length]; lia. Qed.

  (** The state after push_front / erase / map update, before eviction. *)
  Definition mid (k : K) (v : V) (c : cache) : cache :=
    mkCache ((fresh c, (k, v)) :: dropKey k (items c))
            (aset keqb k (fresh c) (imap c)) (maxSize c) (S (fresh c)).

  Lemma aset_aremove k (n : nat) m : aset keqb k n (aremove keqb k m) = aset keqb k n m.
  Proof.
    unfold aset. f_equal. rewrite !aremove_filter.
    induction m as [|p m IH]; [reflexivity|]. cbn [filter].
    destruct (negb (keqb k (fst p))) eqn:E; [|exact IH].
    cbn [filter]. rewrite E, IH. reflexivity.
  Qed.

  Lemma put_mid k v c : Inv c -> put keqb k v c = evict keqb (mid k v c).
  Proof.
    intros I. unfold put, mid. destruct (alookup keqb k (imap c)) as [it|] eqn:E.
    - destruct (lookup_some _ _ _ I E) as [v0 Hin].
      assert (Hlt : it < fresh c).
      { apply (inv_fresh _ I), in_map_iff. exists (it, (k, v0)); auto. }
      cbn [nodeAt]. destruct (Nat.eqb_spec it (fresh c)); [lia|].
      rewrite (in_nodeAt _ _ _ (inv_ids _ I) Hin). cbn [eraseNode].
      destruct (Nat.eqb_spec it (fresh c)); [lia|].
      rewrite (eraseNode_drop _ _ _ _ (inv_ids _ I) (inv_keys _ I) Hin).
      cbn [bind fst snd]. rewrite aset_aremove. reflexivity.
    - cbn [bind fst snd]. rewrite dropKey_notin; [reflexivity|]. apply lookup_none; auto.
  Qed.

  Lemma mid_perm k v c : Inv c ->
    Permutation (imap (mid k v c)) (map entry (items (mid k v c))).
  Proof.
    intros I. unfold mid, aset; cbn [imap items map]. unfold entry at 1, nkey at 1; cbn [fst snd].
    constructor. rewrite aremove_filter.
    unfold dropKey. rewrite <- (filter_map (fun p => negb (keqb k (fst p))) entry).
    apply Permutation_filter, inv_perm, I.
  Qed.

  Lemma mid_keys k v c : Inv c -> NoDup (map nkey (items (mid k v c))).
  Proof.
    intros I. cbn [mid items map]. constructor; [apply dropKey_keys|].
    apply NoDup_map_filter, inv_keys, I.
  Qed.

  Lemma mid_ids k v c : Inv c -> NoDup (map fst (items (mid k v c))).
  Proof.
    intros I. cbn [mid items map fst]. constructor; [|apply NoDup_map_filter, inv_ids, I].
    intros C. apply in_map_iff in C as (n & E & C). apply filter_In in C as [C _].
    assert (fst n < fresh c) by (apply (inv_fresh _ I), in_map; exact C). lia.
  Qed.

  Lemma mid_fresh k v c i : Inv c -> In i (map fst (items (mid k v c))) -> i < fresh (mid k v c).
  Proof.
    intros I. cbn [mid items map fst fresh]. intros [<-|C]; [lia|].
    apply in_map_iff in C as (n & E & C). apply filter_In in C as [C _]. subst.
    assert (fst n < fresh c) by (apply (inv_fresh _ I), in_map; exact C). lia.
  Qed.

  Lemma NoDup_app_l {A} (l1 l2 : list A) : NoDup (l1 ++ l2) -> NoDup l1.
  Proof.
    induction l1; cbn; intros H; [constructor|]. inversion H; subst.
    constructor; [intros C; apply H2, in_or_app; auto|auto].
  Qed.

  Lemma put_spec k v c : Inv c ->
    exists c', put keqb k v c = Ok c' /\ Inv c' /\ maxSize c' = maxSize c /\
      recency c' = firstn (maxSize c) ((k, v) :: kdrop k (recency c)).
  Proof.
    intros I. rewrite put_mid by exact I.
    pose proof (mid_perm k v c I) as HP. pose proof (mid_keys k v c I) as HK.
    pose proof (mid_ids k v c I) as HI. pose proof (fun i => mid_fresh k v c i I) as HF.
    assert (HR : recency (mid k v c) = (k, v) :: kdrop k (recency c)).
    { unfold recency. cbn [mid items map snd]. rewrite map_snd_dropKey. reflexivity. }
    assert (HL : length (items (mid k v c)) <= S (maxSize c)).
    { cbn [mid items length]. pose proof (dropKey_len_le k (items c)). pose proof (inv_size _ I). lia. }
    assert (HM : length (imap (mid k v c)) = length (items (mid k v c))).
    { rewrite (Permutation_length HP), map_length. reflexivity. }
    rewrite <- HR. assert (HS : maxSize c = maxSize (mid k v c)) by reflexivity. rewrite HS in *.
    assert (Hne : items (mid k v c) <> []) by discriminate.
    set (c1 := mid k v c) in *. clearbody c1.
    unfold evict. destruct (Nat.ltb_spec (maxSize c1) (length (imap c1))) as [Hlt|Hge].
    - assert (HLe : length (items c1) = S (maxSize c1)) by lia.
      destruct (exists_last Hne) as (l & [i [k0 v0]] & El). rewrite El, rev_unit, removelast_last.
      eexists; split; [reflexivity|]. cbn [items maxSize imap].
      rewrite El in HLe, HP, HK, HI, HF. rewrite app_length in HLe; cbn in HLe.
      rewrite map_app in HP, HK, HI. cbn in HP, HK, HI.
      split; [|split; [reflexivity|]].
      + constructor; cbn [items imap maxSize fresh].
        * rewrite aremove_filter.
          eapply Permutation_trans; [apply Permutation_filter, HP|].
          rewrite filter_app. cbn [filter fst]. unfold nkey; cbn [fst snd].
          rewrite (keqb_refl keqb keqb_eq). cbn [negb]. rewrite app_nil_r.
          rewrite <- aremove_filter, (aremove_notin keqb keqb_eq); [reflexivity|].
          rewrite map_map. apply NoDup_remove_2 in HK. rewrite app_nil_r in HK. exact HK.
        * apply NoDup_app_l in HK; exact HK.
        * apply NoDup_app_l in HI; exact HI.
        * intros j Hj. apply HF. rewrite map_app. apply in_or_app; left; exact Hj.
        * lia.
      + unfold recency; cbn [items]. rewrite El, map_app, firstn_app, map_length.
        replace (maxSize c1) with (length l) by lia.
        rewrite Nat.sub_diag, firstn_O, app_nil_r, firstn_all2; [reflexivity|].
        rewrite map_length; lia.
    - exists c1. split; [reflexivity|]. split; [|split; [reflexivity|]].
      + constructor; auto. lia.
      + rewrite firstn_all2; [reflexivity|]. unfold recency; rewrite map_length. lia.
  Qed.

  Lemma splice_spec c k it v : Inv c -> In (it, (k, v)) (items c) ->
    exists c', spliceFront it c = Ok c' /\ Inv c' /\ maxSize c' = maxSize c /\
      recency c' = (k, v) :: kdrop k (recency c) /\ nodeAt it (items c') = Some (k, v).
  Proof.
    intros I Hin. unfold spliceFront. rewrite (in_nodeAt _ _ _ (inv_ids _ I) Hin).
    rewrite (eraseNode_drop _ _ _ _ (inv_ids _ I) (inv_keys _ I) Hin).
    eexists; split; [reflexivity|].
    assert (HP : Permutation (items c) ((it, (k, v)) :: dropKey k (items c))).
    { rewrite <- (eraseNode_drop it k v _ (inv_ids _ I) (inv_keys _ I) Hin).
      clear -Hin I. pose proof (inv_ids _ I) as ND. clear I. induction (items c) as [|[i kv] l IH]; [contradiction|].
      cbn [eraseNode]. destruct (Nat.eqb_spec it i).
      - destruct Hin as [E|E]; [rewrite E; reflexivity|]. subst. inversion ND; subst.
        exfalso; apply H1, in_map_iff. exists (i, (k, v)); auto.
      - destruct Hin as [E|E]; [injection E; congruence|]. inversion ND; subst.
        etransitivity; [apply perm_skip, IH; auto|apply perm_swap]. }
    split; [|split; [reflexivity|split]].
    - constructor; cbn [items imap maxSize fresh].
      + etransitivity; [apply (inv_perm _ I)|]. apply Permutation_map, HP.
      + eapply Permutation_NoDup; [apply Permutation_map, HP|apply (inv_keys _ I)].
      + eapply Permutation_NoDup; [apply Permutation_map, HP|apply (inv_ids _ I)].
      + intros i Hi. apply (inv_fresh _ I). eapply Permutation_in; [|exact Hi].
        apply Permutation_map, Permutation_sym, HP.
      + rewrite <- (Permutation_length HP). apply (inv_size _ I).
    - unfold recency; cbn [items map snd]. rewrite map_snd_dropKey. reflexivity.
    - cbn [items nodeAt]. rewrite Nat.eqb_refl. reflexivity.
  Qed.

  (** Relation between the recency list and the history. *)
  Definition Rel (N : nat) (h : history) (c : cache) : Prop :=
    Inv c /\ maxSize c = N /\ map fst (recency c) = held keqb N h /\
    (forall k v, In (k, v) (recency c) -> lastPut keqb k h = Some v).

  Lemma filter_firstn_distinct k N l :
    NoDup l ->
    firstn N (k :: filter (fun x => negb (keqb k x)) (firstn N l)) =
    firstn N (k :: filter (fun x => negb (keqb k x)) l).
  Proof.
    destruct N; [reflexivity|]. cbn [firstn]. intros ND. f_equal.
    change (match l with [] => [] | a :: l0 => a :: firstn N l0 end) with (firstn (S N) l).
    revert l ND. induction N as [|N IH]; intros l ND; [reflexivity|].
    destruct l as [|a l]; [reflexivity|]. rewrite firstn_cons. cbn [filter].
    inversion ND; subst.
    destruct (keqb k a) eqn:E; cbn [negb].
    - apply keqb_eq in E; subst.
      assert (F : forall m, ~ In a m -> filter (fun x => negb (keqb a x)) m = m).
      { induction m as [|b m IHm]; [reflexivity|]. cbn [In filter]. intros Hm.
        destruct (keqb a b) eqn:F; [apply keqb_eq in F; subst; tauto|]. cbn [negb]. rewrite IHm; tauto. }
      rewrite !F; auto; [rewrite firstn_firstn, Nat.min_id; reflexivity|].
      intros C; apply H1. rewrite <- (firstn_skipn (S N) l). apply in_or_app; auto.
    - rewrite !firstn_cons. f_equal. apply IH; auto.
  Qed.

  Lemma distinct_nodup l : NoDup (distinct keqb l).
  Proof.
    induction l as [|k l IH]; [constructor|]. cbn [distinct]. constructor.
    - intros C; apply filter_In in C as [_ C]. rewrite (keqb_refl keqb keqb_eq) in C. discriminate.
    - apply NoDup_filter, IH.
  Qed.

  Lemma held_nodup N (h : history) : NoDup (held keqb N h).
  Proof.
    unfold held. pose proof (distinct_nodup (uses h)) as H.
    rewrite <- (firstn_skipn N (distinct keqb (uses h))) in H. apply NoDup_app_l in H; exact H.
  Qed.

  Lemma kdrop_fst k (l : list (K * V)) :
    map fst (kdrop k l) = filter (fun x => negb (keqb k x)) (map fst l).
  Proof. unfold kdrop. rewrite aremove_filter, filter_map. reflexivity. Qed.

  Lemma kdrop_in k l x v : In (x, v) (kdrop k l) -> In (x, v) l /\ keqb x k = false.
  Proof.
    unfold kdrop. rewrite aremove_filter. intros H. apply filter_In in H as [H E]. split; [auto|].
    cbn [fst] in E. rewrite (keqb_sym keqb keqb_eq). destruct (keqb k x); [discriminate|reflexivity].
  Qed.

  Lemma firstn_map {A B} (f : A -> B) n l : firstn n (map f l) = map f (firstn n l).
  Proof. revert n; induction l; intros [|n]; cbn; [..|f_equal]; auto. Qed.

  Lemma firstn_short {A} n (l : list A) : firstn n (firstn n l) = firstn n l.
  Proof. rewrite firstn_firstn, Nat.min_id; reflexivity. Qed.

  Lemma isHeld_recency N h c k : Rel N h c ->
    (isHeld keqb N k h = true <-> exists v, In (k, v) (recency c)).
  Proof.
    intros (I & HN & HK & HV). unfold isHeld. rewrite existsb_exists, <- HK. split.
    - intros (x & Hx & E). apply keqb_eq in E; subst. apply in_map_iff in Hx as ([k' v] & E & Hx).
      cbn in E; subst. eauto.
    - intros (v & Hv). exists k. split; [|apply (keqb_refl keqb keqb_eq)].
      apply in_map_iff. exists (k, v); auto.
  Qed.

  Lemma rel_lookup N h c k : Rel N h c ->
    match alookup keqb k (imap c) with
    | Some it => isHeld keqb N k h = true /\
                 exists v, In (it, (k, v)) (items c) /\ lastPut keqb k h = Some v
    | None => isHeld keqb N k h = false
    end.
  Proof.
    intros R. pose proof R as (I & HN & HK & HV).
    destruct (alookup keqb k (imap c)) as [it|] eqn:E.
    - destruct (lookup_some _ _ _ I E) as [v Hin].
      assert (Hr : In (k, v) (recency c)).
      { unfold recency. apply in_map_iff. exists (it, (k, v)); auto. }
      split; [apply (isHeld_recency N h c k R); eauto|]. exists v; auto.
    - apply not_true_iff_false. intros C. apply (isHeld_recency N h c k R) in C as (v & Hv).
      apply (lookup_none _ _ I E). unfold recency in Hv. apply in_map_iff in Hv as (n & En & Hn).
      apply in_map_iff. exists n. split; auto. unfold nkey. rewrite En. reflexivity.
  Qed.

  Lemma recency_short N h c : Rel N h c -> length (recency c) <= N.
  Proof.
    intros (I & HN & _). unfold recency. rewrite map_length, <- HN. apply inv_size, I.
  Qed.

  Lemma held_use N k (h : history) r o :
    uses ((o, r) :: h) = k :: uses h ->
    held keqb N ((o, r) :: h) =
    firstn N (k :: filter (fun x => negb (keqb k x)) (held keqb N h)).
  Proof.
    intros E. unfold held. rewrite E. cbn [distinct].
    symmetry. apply filter_firstn_distinct, distinct_nodup.
  Qed.

  Lemma isHeld_move N h c k v : Rel N h c -> In (k, v) (recency c) ->
    length ((k, v) :: kdrop k (recency c)) <= N.
  Proof.
    intros R Hin. pose proof (recency_short N h c R) as HL.
    assert (ND : NoDup (map fst (recency c))).
    { destruct R as (I & _ & HK & _). rewrite HK. apply held_nodup. }
    clear R. revert ND Hin HL. generalize (recency c). intros l ND Hin HL.
    assert (length (kdrop k l) < length l); [|cbn [length]; lia]. clear HL.
    unfold kdrop. induction l as [|[k' v'] l IH]; [contradiction|]. cbn [aremove].
    inversion ND; subst.
    assert (LE : length (aremove keqb k l) <= length l).
    { rewrite aremove_filter. clear. induction l; cbn [filter]; [lia|]. destruct (negb _); cbn [length]; lia. }
    destruct Hin as [E|E].
    - injection E as -> ->. rewrite (keqb_refl keqb keqb_eq). cbn [length]. lia.
    - destruct (keqb k k'); cbn [length]; [lia|]. specialize (IH H2 E). lia.
  Qed.

  Lemma step_spec N h c o : Rel N h c ->
    exists c' r, step keqb c o = Some (c', r) /\ r = expected keqb N h o /\ Rel N ((o, r) :: h) c'.
  Proof.
    intros R. pose proof R as (I & HN & HK & HV).
    pose proof (recency_short N h c R) as HLen.
    assert (Hsame : forall o r, uses ((o, r) :: h) = uses h ->
        (forall k, lastPut keqb k ((o, r) :: h) = lastPut keqb k h) -> Rel N ((o, r) :: h) c).
    { intros o' r' Hu Hl. split; [exact I|split; [exact HN|split]].
      - unfold held. rewrite Hu. exact HK.
      - intros k v Hin. rewrite Hl. auto. }
    assert (Hmove : forall o r k v c', Inv c' -> maxSize c' = maxSize c ->
        In (k, v) (recency c) ->
        recency c' = (k, v) :: kdrop k (recency c) -> uses ((o, r) :: h) = k :: uses h ->
        (forall x, lastPut keqb x ((o, r) :: h) = lastPut keqb x h) -> Rel N ((o, r) :: h) c').
    { intros o' r' k v c' I' HS Hin HR Hu Hl. split; [exact I'|split; [congruence|split]].
      - rewrite (held_use N k h r' o' Hu), HR.
        rewrite <- HK, <- kdrop_fst.
        pose proof (isHeld_move N h c k v R Hin) as HL.
        cbn [map fst]. rewrite firstn_all2; [reflexivity|]. cbn [length]. rewrite map_length.
        cbn [length] in HL. lia.
      - intros x w Hx. rewrite Hl. rewrite HR in Hx. destruct Hx as [E|Hx].
        + injection E as -> ->. auto.
        + apply kdrop_in in Hx as [Hx _]. auto. }
    destruct o as [k v|k|k|k|k| |]; cbn [step expected].
    - destruct (put_spec k v c I) as (c' & E & I' & HM & HR). rewrite E.
      exists c', RUnit. split; [reflexivity|split; [reflexivity|]].
      split; [exact I'|split; [congruence|split]].
      + rewrite (held_use N k h RUnit (Put k v) eq_refl), HR, <- firstn_map.
        cbn [map fst]. rewrite kdrop_fst, HK, HN. reflexivity.
      + intros x w Hx. rewrite HR in Hx.
        assert (Hx' : In (x, w) ((k, v) :: kdrop k (recency c))).
        { rewrite <- (firstn_skipn (maxSize c)). apply in_or_app; left; exact Hx. }
        cbn [lastPut]. destruct Hx' as [Ex|Hx'].
        * injection Ex as -> ->. rewrite (keqb_refl keqb keqb_eq). reflexivity.
        * apply kdrop_in in Hx' as [Hx' En]. rewrite En. auto.
    - pose proof (rel_lookup N h c k R) as HL. unfold get, heldValue.
      destruct (alookup keqb k (imap c)) as [it|].
      + destruct HL as (Hh & v & Hin & Hp). rewrite Hh, Hp.
        destruct (splice_spec c k it v I Hin) as (c' & E & I' & HM & HR & HNd).
        rewrite E. cbn [bind]. rewrite HNd. cbn [snd].
        exists c', (RVal v). split; [reflexivity|split; [reflexivity|]].
        eapply Hmove; eauto. unfold recency. apply in_map_iff. exists (it, (k, v)); auto.
      + rewrite HL. exists c, (RThrow RangeError). split; [reflexivity|split; [reflexivity|]].
        apply Hsame; reflexivity.
    - pose proof (rel_lookup N h c k R) as HL. unfold peek, heldValue.
      destruct (alookup keqb k (imap c)) as [it|].
      + destruct HL as (Hh & v & Hin & Hp). rewrite Hh, Hp.
        rewrite (in_nodeAt _ _ _ (inv_ids _ I) Hin). cbn [snd].
        exists c, (RVal v). split; [reflexivity|split; [reflexivity|]]. apply Hsame; reflexivity.
      + rewrite HL. exists c, (RThrow RangeError). split; [reflexivity|split; [reflexivity|]].
        apply Hsame; reflexivity.
    - pose proof (rel_lookup N h c k R) as HL. unfold promote.
      destruct (alookup keqb k (imap c)) as [it|].
      + destruct HL as (Hh & v & Hin & Hp). rewrite Hh.
        destruct (splice_spec c k it v I Hin) as (c' & E & I' & HM & HR & HNd).
        rewrite E. exists c', RUnit. split; [reflexivity|split; [reflexivity|]].
        eapply Hmove; eauto. unfold recency. apply in_map_iff. exists (it, (k, v)); auto.
      + rewrite HL. exists c, (RThrow RangeError). split; [reflexivity|split; [reflexivity|]].
        apply Hsame; reflexivity.
    - pose proof (rel_lookup N h c k R) as HL. unfold exists_.
      destruct (alookup keqb k (imap c)) as [it|].
      + destruct HL as (Hh & _). rewrite Hh. do 2 eexists; split; [reflexivity|split; [reflexivity|]].
        apply Hsame; reflexivity.
      + rewrite HL. do 2 eexists; split; [reflexivity|split; [reflexivity|]].
        apply Hsame; reflexivity.
    - do 2 eexists; split; [reflexivity|]. split; [|apply Hsame; reflexivity].
      f_equal. unfold size. rewrite (Permutation_length (inv_perm _ I)), map_length, <- HK.
      unfold recency. rewrite !map_length. reflexivity.
    - do 2 eexists; split; [reflexivity|split; [reflexivity|]].
      split; [|split; [exact HN|split]].
      + constructor; cbn; try constructor; try tauto. lia.
      + unfold held; cbn. rewrite firstn_nil. reflexivity.
      + cbn. contradiction.
  Qed.

  Lemma run_spec N os : forall h c, Rel N h c -> run keqb c os = Some (answers keqb N h os).
  Proof.
    induction os as [|o os IH]; intros h c R; [reflexivity|]. cbn [run answers].
    destruct (step_spec N h c o R) as (c' & r & E & -> & R'). rewrite E.
    rewrite (IH _ _ R'). reflexivity.
  Qed.

  Lemma empty_rel N : Rel N [] (empty N).
  Proof.
    split; [|split; [reflexivity|split; [unfold held; cbn; rewrite firstn_nil; reflexivity|contradiction]]].
    constructor; cbn; try constructor; try tauto. lia.
  Qed.

  Lemma lru_correct N (os : list (@op K V)) : run keqb (empty N) os = Some (answers keqb N [] os).
  Proof. apply run_spec, empty_rel. Qed.
End Lru.
