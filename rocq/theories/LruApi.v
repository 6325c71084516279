(** Facts about the cache used by its clients, in terms of its entries only. *)
From Verif Require Import Base LruModel LruSpec LruProofs.

Section Api.
  Context {K V : Type} (keqb : K -> K -> bool).
  Hypothesis keqb_eq : forall a b, keqb a b = true <-> a = b.

  Lemma kdrop_iff k v (l : list (K * V)) p :
    NoDup (map fst l) -> In (k, v) l ->
    (In p ((k, v) :: kdrop keqb k l) <-> In p l).
  Proof.
    intros ND Hin. destruct p as [k' v']. split.
    - intros [E|H]; [injection E as <- <-; auto|]. apply kdrop_in in H; tauto.
    - intros H. destruct (keqb k k') eqn:E.
      + apply keqb_eq in E; subst. left. f_equal.
        pose proof (in_alookup keqb keqb_eq _ _ _ ND Hin).
        pose proof (in_alookup keqb keqb_eq _ _ _ ND H). congruence.
      + right. unfold kdrop. rewrite aremove_filter. apply filter_In. cbn [fst]. rewrite E. auto.
  Qed.

  Lemma recency_nodup c : Inv c -> NoDup (map fst (@recency K V c)).
  Proof.
    intros I. unfold recency. rewrite map_map. exact (inv_keys _ I).
  Qed.

  Lemma api_lookup (k : K) (c : @cache K V) : Inv c ->
    (exists_ keqb k c = false /\ ~ In k (map fst (recency c))) \/
    (exists v, In (k, v) (recency c) /\ exists_ keqb k c = true /\ peek keqb k c = Ok v /\
       exists c', promote keqb k c = Ok c' /\ get keqb k c = Ok (v, c') /\ Inv c' /\
         maxSize c' = maxSize c /\ forall p, In p (recency c') <-> In p (recency c)).
  Proof.
    intros I. unfold exists_, peek, promote, get.
    destruct (alookup keqb k (imap c)) as [it|] eqn:E.
    - right. destruct (lookup_some keqb keqb_eq _ _ _ I E) as [v Hin]. exists v.
      assert (Hr : In (k, v) (recency c)).
      { unfold recency. apply in_map_iff. exists (it, (k, v)); auto. }
      split; [exact Hr|]. split; [reflexivity|].
      rewrite (in_nodeAt _ _ _ (inv_ids _ I) Hin). split; [reflexivity|].
      destruct (splice_spec keqb keqb_eq c k it v I Hin) as (c' & E' & I' & HM & HR & HN).
      exists c'. rewrite E'. cbn [bind]. rewrite HN. cbn [snd].
      do 4 (split; [auto|]). intros p. rewrite HR. apply kdrop_iff; [apply recency_nodup|]; auto.
    - left. split; [reflexivity|]. intros C.
      apply (lookup_none keqb keqb_eq _ _ I E).
      unfold recency in C. rewrite map_map in C. exact C.
  Qed.

  Lemma api_put (k : K) (v : V) (c : @cache K V) : Inv c -> 1 <= maxSize c ->
    exists c', put keqb k v c = Ok c' /\ Inv c' /\ maxSize c' = maxSize c /\
      In (k, v) (recency c') /\
      forall p, In p (recency c') -> p = (k, v) \/ (In p (recency c) /\ fst p <> k).
  Proof.
    intros I H1. destruct (put_spec keqb keqb_eq k v c I) as (c' & E & I' & HM & HR).
    exists c'. split; [exact E|split; [exact I'|split; [exact HM|]]].
    rewrite HR. destruct (maxSize c) as [|n]; [lia|]. rewrite firstn_cons.
    split; [left; reflexivity|]. intros [k' v'] [Ep|Hp]; [left; auto|]. right.
    assert (Hp' : In (k', v') (kdrop keqb k (recency c))).
    { rewrite <- (firstn_skipn n). apply in_or_app; left; exact Hp. }
    apply (kdrop_in keqb keqb_eq) in Hp' as [Hp' En]. split; [exact Hp'|].
    cbn [fst]. apply (keqb_neq keqb keqb_eq). exact En.
  Qed.

  Lemma api_empty n : Inv (@empty K V n) /\ recency (@empty K V n) = [] /\ maxSize (@empty K V n) = n.
  Proof. split; [|split; reflexivity]. constructor; cbn; try constructor; try tauto. lia. Qed.
End Api.
