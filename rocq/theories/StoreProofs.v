From Verif Require Import Base Bytes BytesProofs StreamModel ElementModel ElementSpec ElementProofs
  GeoModel GeoSpec GeoProofs LruModel LruSpec LruProofs LruApi StoreModel StoreSpec.
Local Open Scope nat_scope.

Lemma sameKey_eq a b : sameKey a b = true <-> a = b.
Proof.
  unfold sameKey. rewrite andb_true_iff, !negb_true_iff, <- keyEqb_eq, keyEqb_less. tauto.
Qed.

Lemma sameKey_keyEqb a b : sameKey a b = keyEqb a b.
Proof.
  destruct (sameKey a b) eqn:E, (keyEqb a b) eqn:F; trivial.
  - apply sameKey_eq, keyEqb_eq in E. congruence.
  - apply keyEqb_eq, sameKey_eq in F. congruence.
Qed.

(** * In-memory store *)

Definition held (k : quadKey) (m : memory) : list element :=
  match alookup sameKey k m with Some es => es | None => [] end.

Lemma held_store k k' e m :
  held k (snd (memStore k' e m)) = if keyEqb k k' then held k m ++ [e] else held k m.
Proof.
  unfold held, memStore. cbn [snd]. rewrite (alookup_aset _ sameKey_eq), sameKey_keyEqb.
  destruct (keyEqb k k') eqn:E; [|reflexivity]. apply keyEqb_eq in E. subst. reflexivity.
Qed.

Lemma held_erase k k' m : held k (memErase k' m) = if keyEqb k k' then [] else held k m.
Proof.
  unfold held, memErase. rewrite (alookup_aremove _ sameKey_eq), sameKey_keyEqb.
  destruct (keyEqb k k'); reflexivity.
Qed.

Lemma memHas_store k k' e m :
  memHasData k (snd (memStore k' e m)) = keyEqb k k' || memHasData k m.
Proof.
  unfold memHasData, memStore. cbn [snd]. rewrite (alookup_aset _ sameKey_eq), sameKey_keyEqb.
  destruct (keyEqb k k'); reflexivity.
Qed.

Lemma memHas_erase k k' m : memHasData k (memErase k' m) = negb (keyEqb k k') && memHasData k m.
Proof.
  unfold memHasData, memErase. rewrite (alookup_aremove _ sameKey_eq), sameKey_keyEqb.
  destruct (keyEqb k k'); reflexivity.
Qed.

Lemma runCalls_app {S} (step : S -> call -> outcome (S * answer)) cs : forall cs' s,
  runCalls step s (cs ++ cs') =
  bind (runCalls step s cs) (fun '(s, r) =>
    bind (runCalls step s cs') (fun '(s, r') => Ok (s, r ++ r'))).
Proof.
  induction cs as [|c cs IH]; intros cs' s.
  - cbn. destruct (runCalls step s cs') as [[? ?]| |]; reflexivity.
  - cbn. destruct (step s c) as [[s1 a]| |]; try reflexivity. cbn. rewrite IH.
    destruct (runCalls step s1 cs) as [[s2 r]| |]; try reflexivity. cbn.
    destruct (runCalls step s2 cs') as [[s3 r']| |]; reflexivity.
Qed.

Lemma memStep_held m c m' a k : memStep m c = Ok (m', a) ->
  held k m' = match c with
              | Store k' e => if keyEqb k k' then held k m ++ [e] else held k m
              | Erase k' => if keyEqb k k' then [] else held k m
              | _ => held k m
              end.
Proof.
  destruct c as [k' e|k' t|k'|k'|k' n| |]; cbn [memStep]; intros H.
  - pose proof (held_store k k' e m) as Hs. destruct (memStore k' e m). injection H as <- <-. exact Hs.
  - injection H as <- <-. reflexivity.
  - injection H as <- <-. reflexivity.
  - injection H as <- <-. apply held_erase.
  - destruct (alookup sameKey k' m); [|discriminate]. destruct (nth_error l (N.to_nat n)); [|discriminate].
    injection H as <- <-. reflexivity.
  - injection H as <- <-. reflexivity.
  - injection H as <- <-. reflexivity.
Qed.

Lemma memStep_has m c m' a k : memStep m c = Ok (m', a) ->
  memHasData k m' = match c with
              | Store k' e => keyEqb k k' || memHasData k m
              | Erase k' => negb (keyEqb k k') && memHasData k m
              | _ => memHasData k m
              end.
Proof.
  destruct c as [k' e|k' t|k'|k'|k' n| |]; cbn [memStep]; intros H.
  - pose proof (memHas_store k k' e m) as Hs. destruct (memStore k' e m). injection H as <- <-. exact Hs.
  - injection H as <- <-. reflexivity.
  - injection H as <- <-. reflexivity.
  - injection H as <- <-. apply memHas_erase.
  - destruct (alookup sameKey k' m); [|discriminate]. destruct (nth_error l (N.to_nat n)); [|discriminate].
    injection H as <- <-. reflexivity.
  - injection H as <- <-. reflexivity.
  - injection H as <- <-. reflexivity.
Qed.

Lemma runCalls_rev {S} (step : S -> call -> outcome (S * answer)) s c cs s2 r :
  runCalls step s (cs ++ [c]) = Ok (s2, r) ->
  exists s1 r1 a, runCalls step s cs = Ok (s1, r1) /\ step s1 c = Ok (s2, a) /\ r = r1 ++ [a].
Proof.
  rewrite runCalls_app. destruct (runCalls step s cs) as [[s1 r1]| |]; try discriminate. cbn.
  destruct (step s1 c) as [[s2' a]| |] eqn:E; try discriminate. cbn. intros [= <- <-].
  exists s1, r1, a. auto.
Qed.

Lemma mem_contents cs : forall m r, runCalls memStep [] cs = Ok (m, r) ->
  forall k, held k m = contents k (rev cs).
Proof.
  induction cs as [|c cs IH] using rev_ind; intros m r H k.
  - injection H as <- <-. reflexivity.
  - apply runCalls_rev in H as (m1 & r1 & a & H1 & H2 & _). rewrite rev_app_distr. cbn [rev app].
    rewrite (memStep_held _ _ _ _ k H2), (IH _ _ H1).
    destruct c; reflexivity.
Qed.

Lemma mem_hasData cs : forall m r, runCalls memStep [] cs = Ok (m, r) ->
  forall k, memHasData k m = true <-> contents k (rev cs) <> [].
Proof.
  induction cs as [|c cs IH] using rev_ind; intros m r H k.
  - injection H as <- <-. cbn. split; [discriminate|congruence].
  - apply runCalls_rev in H as (m1 & r1 & a & H1 & H2 & _). rewrite rev_app_distr. cbn [rev app].
    rewrite (memStep_has _ _ _ _ k H2). specialize (IH _ _ H1 k).
    destruct c; cbn [contents]; try exact IH.
    + destruct (keyEqb k k0); cbn [orb]; [|exact IH].
      split; [|reflexivity]. intros _. destruct (contents k (rev cs)); discriminate.
    + destruct (keyEqb k k0); cbn [negb andb]; [|exact IH]. split; [discriminate|congruence].
Qed.

Lemma mem_total cs : (forall k n, ~ In (Notify k n) cs) -> forall m,
  exists m' r, runCalls memStep m cs = Ok (m', r).
Proof.
  induction cs as [|c cs IH]; intros Hn m; [exists m, []; reflexivity|].
  assert (exists m1 a, memStep m c = Ok (m1, a)) as (m1 & a & E).
  { destruct c; cbn [memStep]; eauto.
    - destruct (memStore k e m). eauto.
    - destruct (Hn k order). left. reflexivity. }
  destruct (IH (fun k n H => Hn k n (or_intror H)) m1) as (m' & r & E').
  exists m', (a :: r). cbn. rewrite E. cbn. rewrite E'. reflexivity.
Qed.

Lemma visitUntil_prefix t es : forall i,
  exists rest, es = visitUntil t i es ++ rest /\
    (forall j, j < length (visitUntil t i es) -> t (i + j) = false) /\
    (rest <> [] -> t (i + length (visitUntil t i es)) = true).
Proof.
  induction es as [|e es IH]; intros i; cbn [visitUntil].
  - exists []. cbn. split; [reflexivity|]. split; [lia|congruence].
  - destruct (t i) eqn:E.
    + exists (e :: es). cbn. split; [reflexivity|]. split; [lia|]. rewrite Nat.add_0_r. auto.
    + destruct (IH (S i)) as (rest & H1 & H2 & H3). exists rest. cbn [app length].
      split; [f_equal; exact H1|]. split.
      * intros [|j] Hj; [rewrite Nat.add_0_r; auto|]. rewrite Nat.add_succ_r. apply H2. lia.
      * rewrite Nat.add_succ_r. exact H3.
Qed.

Lemma visitUntil_all t es : (forall i, t i = false) -> forall i, visitUntil t i es = es.
Proof. intros H. induction es; intros i; cbn; [|rewrite H, IHes]; reflexivity. Qed.

Lemma memSearch_held k t m : memSearch k t m = visitUntil t 0 (held k m).
Proof. unfold memSearch, held. destruct (alookup sameKey k m); reflexivity. Qed.

(** * On-disk store: files *)

Lemma pathEqb_eq a b : pathEqb a b = true <-> a = b.
Proof.
  destruct a, b. unfold pathEqb. cbn [fst snd]. rewrite andb_true_iff, Z.eqb_eq, beqb_eq.
  split; [intros [-> ->]; reflexivity|intros [= -> ->]; auto].
Qed.

Lemma pathOf_named k : named k -> exists p, pathOf k = Ok p.
Proof.
  intros [Ht Hl]. unfold pathOf. destruct (keyString_shape k Ht Hl) as (s & E & _).
  rewrite E. cbn. eauto.
Qed.

Lemma pathOf_inj k k' p : tile k -> tile k' -> pathOf k = Ok p -> pathOf k' = Ok p -> k = k'.
Proof.
  unfold pathOf. intros Ht Ht' H H'.
  destruct (keyString k) as [s| |] eqn:E; try discriminate.
  destruct (keyString k') as [s'| |] eqn:E'; try discriminate.
  cbn in H, H'. injection H as <-. injection H' as Hl Hs. subst.
  exact (keyString_inj _ _ _ Ht Ht' E E').
Qed.

(** The index file of a list of elements whose first one is written at [off]. *)
Fixpoint entries (off : nat) (es : list element) : bytes :=
  match es with
  | [] => []
  | e :: es' => le 8 (eid e) ++ le 4 (N.of_nat off) ++ entries (off + length (write e)) es'
  end.

Definition bytesOf (es : list element) : bytes := flat_map write es.

Lemma entries_length es : forall off, length (entries off es) = 12 * length es.
Proof.
  induction es as [|e es IH]; intros off; [reflexivity|].
  cbn [entries]. rewrite !app_length, !le_length, IH. cbn [length]. lia.
Qed.

Lemma entries_app es es' : forall off,
  entries off (es ++ es') = entries off es ++ entries (off + length (bytesOf es)) es'.
Proof.
  induction es as [|e es IH]; intros off; cbn [entries bytesOf flat_map app].
  - cbn [length]. rewrite Nat.add_0_r. reflexivity.
  - rewrite IH, <- !app_assoc, app_length, Nat.add_assoc. reflexivity.
Qed.

Lemma bytesOf_app es es' : bytesOf (es ++ es') = bytesOf es ++ bytesOf es'.
Proof. apply flat_map_app. Qed.

Definition good (e : element) : Prop := wfElement e /\ fitsElement e.

Lemma good_id e : good e -> (eid e < 2 ^ 64)%N.
Proof. intros [H _]. destruct e; apply H. Qed.

Definition filesOf (es : list element) : files := mkFiles (bytesOf es) (entries 0 es).

Definition below (n : nat) : Prop := (N.of_nat n < 2 ^ 32)%N.

Lemma u32_below n : below n -> u32 (N.of_nat n) = N.of_nat n.
Proof. intros H. unfold u32. apply N.mod_small. exact H. Qed.

Lemma readEntry pre e post :
  Forall good (pre ++ e :: post) -> below (length (bytesOf (pre ++ e :: post))) ->
  readIndexEntry (filesOf (pre ++ e :: post)) (12 * length pre) =
  Ok (eid e, N.of_nat (length (bytesOf pre)), 12 * length (pre ++ [e])).
Proof.
  intros Hg Hb. unfold readIndexEntry, filesOf. cbn [idf].
  rewrite entries_app, skipn_app_exact by apply entries_length. cbn [entries].
  rewrite Nat.add_0_l.
  assert (L : Nat.ltb (length (le 8 (eid e) ++ le 4 (N.of_nat (length (bytesOf pre)))
      ++ entries (length (bytesOf pre) + length (write e)) post)) entrySize = false).
  { apply Nat.ltb_ge. rewrite !app_length, !le_length. unfold entrySize. lia. }
  rewrite L. rewrite (firstn_app_exact (le 8 (eid e))) by apply le_length.
  rewrite (skipn_app_exact (le 8 (eid e))) by apply le_length.
  rewrite (firstn_app_exact (le 4 _)) by apply le_length.
  rewrite !unle_le.
  - f_equal. f_equal. rewrite app_length. cbn [length]. unfold entrySize. lia.
  - unfold below in Hb. rewrite bytesOf_app, app_length in Hb. cbn [N.of_nat Pos.of_succ_nat Pos.succ]. lia.
  - apply Forall_app in Hg as [_ Hg]. inversion Hg. subst. apply good_id in H1. exact H1.
Qed.

Lemma readElement pre e post : Forall good (pre ++ e :: post) ->
  readAt (filesOf (pre ++ e :: post)) (eid e) (N.of_nat (length (bytesOf pre))) =
  Ok (e, length (bytesOf (pre ++ [e]))).
Proof.
  intros Hg. unfold readAt, filesOf. cbn [dat]. rewrite Nat2N.id.
  assert (G : good e) by (apply Forall_app in Hg as [_ Hg]; inversion Hg; auto).
  change (e :: post) with ([e] ++ post). rewrite !bytesOf_app. cbn [bytesOf flat_map]. rewrite app_nil_r.
  rewrite read_offset by apply G. cbn [failed rem]. f_equal. f_equal.
  rewrite !app_length. fold (bytesOf post). lia.
Qed.

Lemma readEntries_ok t es : forall post pre i d,
  es = pre ++ post -> Forall good es -> below (length (bytesOf es)) ->
  exists h, readEntries t (filesOf es) i (length post) (mkHandle d (12 * length pre)) =
            Ok (visitUntil t i post, h) /\
    ((forall j, t j = false) ->
       h = mkHandle (if post then d else length (bytesOf es)) (12 * length es)).
Proof.
  induction post as [|e post IH]; intros pre i d E Hg Hb; cbn [length readEntries visitUntil].
  - eexists. split; [reflexivity|]. intros _. subst. rewrite app_nil_r. reflexivity.
  - destruct (t i) eqn:Et.
    + eexists. split; [reflexivity|]. intros H. congruence.
    + cbn [ipos]. subst es. rewrite readEntry by auto. cbn [bind].
      rewrite readElement by auto. cbn [bind].
      destruct (IH (pre ++ [e]) (S i) (length (bytesOf (pre ++ [e])))) as (h & Hh & Hend); auto.
      { rewrite <- app_assoc. reflexivity. }
      rewrite Hh. cbn [bind]. exists h. split; [reflexivity|]. intros Ht. rewrite (Hend Ht).
      destruct post; reflexivity.
Qed.

(** * On-disk store: refinement *)

Definition endOf (f : files) : handle := mkHandle (length (dat f)) (length (idf f)).

Record Sim (n : nat) (d : list quadKey) (m : memory) (s : pstore) : Prop := {
  sim_inv : Inv (opened s);
  sim_max : maxSize (opened s) = n;
  sim_disk : forall k p, named k -> pathOf k = Ok p ->
    match alookup pathEqb p (onDisk s) with
    | Some f => f = filesOf (held k m)
    | None => held k m = []
    end;
  sim_open : forall k ptr, In (k, ptr) (recency (opened s)) ->
    named k /\ ptr < nextPtr s /\
    exists p h f, pathOf k = Ok p /\ alookup Nat.eqb ptr (heap s) = Some h /\
      alookup pathEqb p (onDisk s) = Some f /\ (~ In k d -> h = endOf f);
  sim_inj : forall k k' ptr, In (k, ptr) (recency (opened s)) -> In (k', ptr) (recency (opened s)) -> k = k';
  sim_good : forall k, Forall good (held k m)
}.

Definition present (k : quadKey) (s : pstore) : Prop :=
  exists p f, pathOf k = Ok p /\ alookup pathEqb p (onDisk s) = Some f.

Lemma sim_disk_some n d m s k p f : Sim n d m s -> named k -> pathOf k = Ok p ->
  alookup pathEqb p (onDisk s) = Some f -> f = filesOf (held k m).
Proof. intros S Hk Hp E. pose proof (sim_disk _ _ _ _ S k p Hk Hp) as H. rewrite E in H. exact H. Qed.

Lemma present_set k k' p s d2 f : named k -> named k' -> pathOf k' = Ok p ->
  onDisk d2 = aset pathEqb p f (onDisk s) ->
  (present k d2 <-> k = k' \/ present k s).
Proof.
  intros Hk Hk' Hp E. unfold present. split.
  - intros (q & g & Hq & Hg). rewrite E, (alookup_aset _ pathEqb_eq) in Hg.
    destruct (pathEqb q p) eqn:Eq; [|right; exists q, g; auto].
    apply pathEqb_eq in Eq. subst. left. exact (pathOf_inj _ _ _ (proj1 Hk) (proj1 Hk') Hq Hp).
  - intros [->|(q & g & Hq & Hg)].
    + exists p, f. rewrite E, (alookup_aset _ pathEqb_eq), (keqb_refl _ pathEqb_eq). auto.
    + exists q. rewrite E, (alookup_aset _ pathEqb_eq).
      destruct (pathEqb q p); [exists f; auto|exists g; auto].
Qed.

Lemma getData_ok n d m s k : 1 <= n -> Sim n d m s -> named k ->
  exists ptr s' p h, getData k s = Ok (ptr, s') /\ Sim n d m s' /\
    In (k, ptr) (recency (opened s')) /\ pathOf k = Ok p /\
    deref k ptr s' = Ok (p, h, filesOf (held k m)) /\
    (~ In k d -> h = endOf (filesOf (held k m))) /\
    (forall k', named k' -> (present k' s' <-> k' = k \/ present k' s)).
Proof.
  intros Hn S Hk. unfold getData. destruct (pathOf_named k Hk) as [p Hp].
  destruct (api_lookup sameKey sameKey_eq k (opened s) (sim_inv _ _ _ _ S))
    as [[E Hnot]|(ptr & Hin & E & _ & c' & _ & Eg & I' & M' & R')]; rewrite E.
  - (* open the files *)
    rewrite Hp. cbn [bind].
    destruct (api_put sameKey sameKey_eq k (nextPtr s) (opened s) (sim_inv _ _ _ _ S)) as (c1 & E1 & I1 & M1 & In1 & R1).
    { rewrite (sim_max _ _ _ _ S). exact Hn. }
    destruct (api_lookup sameKey sameKey_eq k c1 I1)
      as [[_ Hno]|(ptr & Hin & _ & _ & c2 & _ & Eg & I2 & M2 & R2)].
    { destruct Hno. apply in_map_iff. exists (k, nextPtr s). auto. }
    assert (ptr = nextPtr s) as ->.
    { destruct (R1 _ Hin) as [H|[H _]]; [injection H as ->; reflexivity|].
      destruct Hnot. apply in_map_iff. exists (k, ptr). auto. }
    destruct (openFiles p (onDisk s)) as [f dk] eqn:Eo.
    rewrite E1. cbn [bind]. rewrite Eg. cbn [bind].
    assert (Hd : forall q, alookup pathEqb q dk = if pathEqb q p then Some f else alookup pathEqb q (onDisk s)).
    { intros q. unfold openFiles in Eo. destruct (alookup pathEqb p (onDisk s)) eqn:El; injection Eo as <- <-.
      - destruct (pathEqb q p) eqn:Eq; [|reflexivity]. apply pathEqb_eq in Eq. subst. exact El.
      - apply (alookup_aset _ pathEqb_eq). }
    assert (Hf : f = filesOf (held k m)).
    { pose proof (sim_disk _ _ _ _ S k p Hk Hp) as H. unfold openFiles in Eo.
      destruct (alookup pathEqb p (onDisk s)); injection Eo as <- <-; [exact H|]. rewrite H. reflexivity. }
    eexists _, _, p, (endOf f). split; [reflexivity|].
    assert (Hh : forall q, alookup Nat.eqb q (aset Nat.eqb (nextPtr s) (endOf f) (heap s)) =
        if q =? nextPtr s then Some (endOf f) else alookup Nat.eqb q (heap s)).
    { intros q. apply (alookup_aset _ Nat.eqb_eq). }
    repeat (apply conj); cbn [opened heap onDisk nextPtr].
    + constructor; cbn [opened heap onDisk nextPtr].
      * exact I2.
      * rewrite M2, M1. exact (sim_max _ _ _ _ S).
      * intros k' p' Hk' Hp'. rewrite Hd. destruct (pathEqb p' p) eqn:Eq.
        -- apply pathEqb_eq in Eq. subst p'.
           rewrite (pathOf_inj _ _ _ (proj1 Hk') (proj1 Hk) Hp' Hp). exact Hf.
        -- exact (sim_disk _ _ _ _ S k' p' Hk' Hp').
      * intros k' q Hq. apply R2 in Hq. destruct (R1 _ Hq) as [H|[H _]].
        -- injection H as -> ->. split; [exact Hk|]. split; [lia|].
           exists p, (endOf f), f. split; [exact Hp|]. rewrite Hh, Nat.eqb_refl, Hd, (keqb_refl _ pathEqb_eq). auto.
        -- destruct (sim_open _ _ _ _ S _ _ H) as (Hk' & Hlt & p' & h & f' & Hp' & Hh' & Hf' & He).
           split; [exact Hk'|]. split; [lia|]. exists p', h.
           rewrite Hh. destruct (Nat.eqb_spec q (nextPtr s)); [lia|]. rewrite Hd.
           destruct (pathEqb p' p) eqn:Eq.
           ++ exists f. split; [exact Hp'|]. split; [exact Hh'|]. split; [reflexivity|].
              intros Hd'. rewrite (He Hd'). f_equal.
              rewrite (sim_disk_some _ _ _ _ _ _ _ S Hk' Hp' Hf'), Hf.
              apply pathEqb_eq in Eq. subst p'.
              rewrite (pathOf_inj _ _ _ (proj1 Hk') (proj1 Hk) Hp' Hp). reflexivity.
           ++ exists f'. auto.
      * intros k1 k2 q H1 H2. apply R2 in H1, H2.
        destruct (R1 _ H1) as [E3|[H1' _]], (R1 _ H2) as [E4|[H2' _]].
        -- congruence.
        -- injection E3 as -> ->. apply (sim_open _ _ _ _ S) in H2' as (_ & Hlt & _). lia.
        -- injection E4 as -> ->. apply (sim_open _ _ _ _ S) in H1' as (_ & Hlt & _). lia.
        -- exact (sim_inj _ _ _ _ S _ _ _ H1' H2').
      * exact (sim_good _ _ _ _ S).
    + apply R2. exact In1.
    + reflexivity.
    + unfold deref. rewrite Hp. cbn [bind heap onDisk]. fold (endOf f).
      rewrite Hh, Nat.eqb_refl, Hd, (keqb_refl _ pathEqb_eq), Hf. reflexivity.
    + intros _. rewrite Hf. reflexivity.
    + intros k' Hk'. unfold present. cbn [onDisk]. split.
      * intros (q & g & Hq & Hg). rewrite Hd in Hg. destruct (pathEqb q p) eqn:Eq.
        -- apply pathEqb_eq in Eq. subst. left. exact (pathOf_inj _ _ _ (proj1 Hk') (proj1 Hk) Hq Hp).
        -- right. exists q, g. auto.
      * intros [->|(q & g & Hq & Hg)].
        -- exists p, f. rewrite Hd, (keqb_refl _ pathEqb_eq). auto.
        -- exists q. rewrite Hd. destruct (pathEqb q p); [exists f; auto|exists g; auto].
  - (* already open *)
    rewrite Eg. cbn [bind].
    destruct (sim_open _ _ _ _ S _ _ Hin) as (_ & Hlt & p' & h & f & Hp' & Hh & Hf & He).
    rewrite Hp in Hp'. injection Hp' as <-.
    pose proof (sim_disk_some _ _ _ _ _ _ _ S Hk Hp Hf) as Hff. subst f.
    eexists _, _, p, h. split; [reflexivity|].
    split; [|split; [apply R'; exact Hin|split; [first [exact Hp|reflexivity]|split; [|split; [exact He|]]]]].
    + destruct S. constructor; cbn [opened heap onDisk nextPtr]; auto.
      * congruence.
      * intros k' q Hq. apply R' in Hq. auto.
      * intros k1 k2 q H1 H2. apply R' in H1, H2. eauto.
    + unfold deref. rewrite Hp. cbn [bind heap onDisk]. rewrite Hh, Hf. reflexivity.
    + intros k' Hk'. unfold present. cbn [onDisk]. split; [tauto|].
      intros [->|H]; [|exact H]. exists p. eauto.
Qed.

(** Moving the positions of an open tile. *)
Lemma sim_move n d d' m s k ptr h : Sim n d m s -> In (k, ptr) (recency (opened s)) ->
  (forall k', ~ In k' d' -> k' <> k -> ~ In k' d) ->
  (~ In k d' -> h = endOf (filesOf (held k m))) ->
  Sim n d' m (mkStore (onDisk s) (opened s) (aset Nat.eqb ptr h (heap s)) (nextPtr s)).
Proof.
  intros S Hin Hd Hh. destruct S as [s1 s2 s3 s4 s5 s6].
  constructor; cbn [opened heap onDisk nextPtr]; auto.
  intros k' q Hq. destruct (s4 _ _ Hq) as (Hk' & Hlt & p & h' & f & Hp & Hh' & Hf & He).
  split; [exact Hk'|]. split; [exact Hlt|].
  rewrite (alookup_aset _ Nat.eqb_eq). destruct (Nat.eqb_spec q ptr) as [->|Ne].
  - rewrite (s5 _ _ _ Hq Hin) in *. exists p, h, f. split; [exact Hp|]. split; [reflexivity|]. split; [exact Hf|].
    intros Hn. rewrite (Hh Hn). pose proof (s3 k p Hk' Hp) as H. rewrite Hf in H. subst f. reflexivity.
  - exists p, h', f. split; [exact Hp|]. split; [exact Hh'|]. split; [exact Hf|].
    intros Hn. apply He. destruct (keyEqb k' k) eqn:Ek.
    + apply keyEqb_eq in Ek. subst k'. exfalso.
      assert (In (k, q) (recency (opened s)) /\ In (k, ptr) (recency (opened s))) as [A B] by auto.
      pose proof (recency_nodup _ s1) as ND.
      pose proof (in_alookup sameKey sameKey_eq _ _ _ ND A). pose proof (in_alookup sameKey sameKey_eq _ _ _ ND B).
      congruence.
    + apply Hd; [exact Hn|]. intros ->. rewrite (proj2 (keyEqb_eq k k) eq_refl) in Ek. discriminate.
Qed.

Lemma count_entries es : below (length (bytesOf es)) ->
  N.to_nat (u32 (N.of_nat (length (entries 0 es) / entrySize))) = length es /\
  u32 (N.of_nat (length (entries 0 es) / entrySize)) = u32 (N.of_nat (length es)).
Proof.
  intros H. rewrite entries_length. unfold entrySize. rewrite Nat.mul_comm, Nat.div_mul by lia.
  split; [|reflexivity]. rewrite u32_below; [lia|]. unfold below in *.
  assert (length es <= length (bytesOf es)).
  { clear H. induction es as [|e es IH]; [cbn; lia|]. cbn [bytesOf flat_map length].
    rewrite app_length. pose proof (write_pos e). fold (bytesOf es). lia. }
  lia.
Qed.

Lemma held_step_other m k e k' : k' <> k -> held k' (snd (memStore k e m)) = held k' m.
Proof.
  intros H. rewrite held_store. destruct (keyEqb k' k) eqn:E; [|reflexivity]. apply keyEqb_eq in E. contradiction.
Qed.

Lemma held_step_same m k e : held k (snd (memStore k e m)) = held k m ++ [e].
Proof. rewrite held_store, (proj2 (keyEqb_eq k k) eq_refl). reflexivity. Qed.

Lemma filesOf_snoc es e : filesOf (es ++ [e]) =
  mkFiles (dat (filesOf es) ++ write e) (idf (filesOf es) ++ le 8 (eid e) ++ le 4 (N.of_nat (length (dat (filesOf es))))).
Proof.
  unfold filesOf. cbn [dat idf]. rewrite bytesOf_app, entries_app. cbn [bytesOf flat_map entries].
  rewrite !app_nil_r. reflexivity.
Qed.

Lemma store_ok n d m s k e : 1 <= n -> Sim n d m s -> named k -> good e -> ~ In k d ->
  below (length (bytesOf (held k m ++ [e]))) ->
  exists s', pStore k e s = Ok (fst (memStore k e m), s') /\ Sim n d (snd (memStore k e m)) s' /\
    (forall k', named k' -> (present k' s' <-> k' = k \/ present k' s)).
Proof.
  intros Hn S Hk He Hd Hb. unfold pStore.
  destruct (getData_ok n d m s k Hn S Hk) as (ptr & s1 & p & h & Eg & S1 & Hin & Hp & Ed & Hh & Hpr).
  rewrite Eg. cbn [bind]. rewrite Ed. cbn [bind]. rewrite (Hh Hd).
  assert (Hb' : below (length (bytesOf (held k m)))).
  { unfold below in *. rewrite bytesOf_app, app_length in Hb. lia. }
  unfold endOf. cbn [dpos ipos]. 
  assert (U : u32 (N.of_nat (length (dat (filesOf (held k m))))) = N.of_nat (length (dat (filesOf (held k m)))))
    by exact (u32_below _ Hb').
  assert (C : u32 (N.of_nat (length (idf (filesOf (held k m))) / entrySize)) = u32 (N.of_nat (length (held k m))))
    by exact (proj2 (count_entries _ Hb')).
  rewrite U, C.
  rewrite <- filesOf_snoc.
  set (f' := filesOf (held k m ++ [e])).
  eexists. split; [f_equal; f_equal; unfold memStore, held; reflexivity|]. split.
  - destruct S1 as [s1' s2 s3 s4 s5 s6].
    constructor; cbn [opened heap onDisk nextPtr]; auto.
    + intros k' p' Hk' Hp'. rewrite (alookup_aset _ pathEqb_eq). destruct (pathEqb p' p) eqn:Eq.
      * apply pathEqb_eq in Eq. subst p'. rewrite (pathOf_inj _ _ _ (proj1 Hk') (proj1 Hk) Hp' Hp).
        rewrite held_step_same. reflexivity.
      * rewrite held_step_other; [exact (s3 k' p' Hk' Hp')|]. intros ->. rewrite Hp in Hp'. injection Hp' as <-.
        rewrite (keqb_refl _ pathEqb_eq) in Eq. discriminate.
    + intros k' q Hq. destruct (s4 _ _ Hq) as (Hk' & Hlt & p' & h' & g & Hp' & Hh' & Hg & Hend).
      split; [exact Hk'|]. split; [exact Hlt|].
      destruct (keyEqb k' k) eqn:Ek.
      * apply keyEqb_eq in Ek. subst k'. rewrite Hp in Hp'. injection Hp' as <-.
        assert (q = ptr) as ->.
        { pose proof (recency_nodup _ s1') as ND.
          pose proof (in_alookup sameKey sameKey_eq _ _ _ ND Hq). pose proof (in_alookup sameKey sameKey_eq _ _ _ ND Hin).
          congruence. }
        exists p, (endOf f'), f'. rewrite (alookup_aset _ Nat.eqb_eq), Nat.eqb_refl.
        rewrite (alookup_aset _ pathEqb_eq), (keqb_refl _ pathEqb_eq). auto.
      * exists p', h', g. split; [exact Hp'|]. split; [|split; [|exact Hend]].
        -- rewrite (alookup_aset _ Nat.eqb_eq). destruct (Nat.eqb_spec q ptr) as [->|]; [|exact Hh'].
           rewrite (s5 _ _ _ Hq Hin), (proj2 (keyEqb_eq k k) eq_refl) in Ek. discriminate.
        -- rewrite (alookup_aset _ pathEqb_eq). destruct (pathEqb p' p) eqn:Eq; [|exact Hg].
           apply pathEqb_eq in Eq. subst p'.
           rewrite (pathOf_inj _ _ _ (proj1 Hk') (proj1 Hk) Hp' Hp), (proj2 (keyEqb_eq k k) eq_refl) in Ek. discriminate.
    + intros k'. rewrite held_store. destruct (keyEqb k' k); [|auto]. apply Forall_app. split; auto.
  - intros k' Hk'.
    match goal with |- present _ ?d2 <-> _ => rewrite (present_set k' k p s1 d2 f' Hk' Hk Hp eq_refl) end.
    rewrite (Hpr k' Hk'). tauto.
Qed.

Lemma search_ok n d m s k t : 1 <= n -> Sim n d m s -> named k -> ~ In k d ->
  below (length (bytesOf (held k m))) ->
  exists s', pSearch k t s = Ok (memSearch k t m, s') /\ Sim n (k :: d) m s' /\
    ((forall i, t i = false) -> Sim n d m s') /\
    (forall k', named k' -> (present k' s' <-> k' = k \/ present k' s)).
Proof.
  intros Hn S Hk Hd Hb. unfold pSearch.
  destruct (getData_ok n d m s k Hn S Hk) as (ptr & s1 & p & h & Eg & S1 & Hin & Hp & Ed & Hh & Hpr).
  rewrite Eg. cbn [bind]. rewrite Ed. cbn [bind]. rewrite (Hh Hd).
  unfold endOf. cbn [dpos ipos].
  assert (C : N.to_nat (u32 (N.of_nat (length (idf (filesOf (held k m))) / entrySize))) = length (held k m))
    by exact (proj1 (count_entries _ Hb)).
  rewrite C.
  destruct (readEntries_ok t (held k m) (held k m) [] 0 (length (dat (filesOf (held k m)))) eq_refl
              (sim_good _ _ _ _ S k) Hb) as (h' & Er & Hend).
  change (12 * length (@nil element)) with 0 in Er. rewrite Er. cbn [bind]. rewrite memSearch_held.
  eexists. split; [reflexivity|]. split; [|split].
  - apply (sim_move n d (k :: d) m s1 k ptr); auto.
    + intros k' H _ F. apply H. right. exact F.
    + intros H. destruct H. left. reflexivity.
  - intros Ht. apply (sim_move n d d m s1 k ptr); auto. intros _. rewrite (Hend Ht). unfold endOf. cbn [dat idf filesOf].
    rewrite entries_length. destruct (held k m); reflexivity.
  - intros k' Hk'. rewrite <- (Hpr k' Hk'). reflexivity.
Qed.

Lemma notify_ok n d m s k o e : 1 <= n -> Sim n d m s -> named k ->
  nth_error (held k m) (N.to_nat o) = Some e ->
  below (length (bytesOf (held k m))) ->
  exists s', pNotify k o s = Ok (e, s') /\ Sim n (k :: d) m s' /\
    (forall k', named k' -> (present k' s' <-> k' = k \/ present k' s)).
Proof.
  intros Hn S Hk He Hb. unfold pNotify.
  destruct (getData_ok n d m s k Hn S Hk) as (ptr & s1 & p & h & Eg & S1 & Hin & Hp & Ed & Hh & Hpr).
  rewrite Eg. cbn [bind]. rewrite Ed. cbn [bind].
  apply nth_error_split in He as (pre & post & El & Hl). pose proof (sim_good _ _ _ _ S k) as G.
  assert (Ei : N.to_nat o * entrySize = 12 * length pre) by (unfold entrySize; lia).
  rewrite Ei. rewrite El in G, Hb |- *. rewrite readEntry by auto. cbn [bind].
  rewrite readElement by auto. cbn [bind].
  eexists. split; [reflexivity|]. split.
  - apply (sim_move n d (k :: d) m s1 k ptr); auto.
    + intros k' H _ F. apply H. right. exact F.
    + intros H. destruct H. left. reflexivity.
  - intros k' Hk'. rewrite <- (Hpr k' Hk'). reflexivity.
Qed.

Lemma sim_clear n d m s c : 1 <= n -> Sim n d m s -> Inv c -> recency c = [] -> maxSize c = n ->
  forall hp nx, Sim n [] m (mkStore (onDisk s) c hp nx).
Proof.
  intros Hn S I R M hp nx. destruct S as [s1 s2 s3 s4 s5 s6].
  constructor; cbn [opened heap onDisk nextPtr]; auto; rewrite R; contradiction.
Qed.

Lemma clear_ok {K V} (c : @cache K V) : Inv c ->
  Inv (clear c) /\ recency (clear c) = [] /\ maxSize (clear c) = maxSize c.
Proof. intros _. split; [|split; reflexivity]. constructor; cbn; try constructor; try tauto. lia. Qed.

Lemma erase_ok n d m s k : 1 <= n -> Sim n d m s -> named k ->
  exists s', pErase k s = Ok s' /\ Sim n [] (memErase k m) s' /\
    (forall k', named k' -> (present k' s' <-> k' <> k /\ present k' s)).
Proof.
  intros Hn S Hk. unfold pErase.
  destruct (getData_ok n d m s k Hn S Hk) as (ptr & s1 & p & h & Eg & S1 & Hin & Hp & Ed & Hh & Hpr).
  rewrite Eg. cbn [bind]. rewrite Ed. cbn [bind]. eexists. split; [reflexivity|]. split.
  - destruct (clear_ok (opened s1) (sim_inv _ _ _ _ S1)) as (I & R & M).
    constructor; cbn [opened heap onDisk nextPtr]; auto.
    + rewrite M. exact (sim_max _ _ _ _ S1).
    + intros k' p' Hk' Hp'. rewrite (alookup_aremove _ pathEqb_eq), held_erase.
      destruct (pathEqb p' p) eqn:Eq.
      * apply pathEqb_eq in Eq. subst p'.
        rewrite (proj2 (keyEqb_eq k' k) (pathOf_inj _ _ _ (proj1 Hk') (proj1 Hk) Hp' Hp)). reflexivity.
      * destruct (keyEqb k' k) eqn:Ek; [|exact (sim_disk _ _ _ _ S1 k' p' Hk' Hp')].
        apply keyEqb_eq in Ek. subst. rewrite Hp in Hp'. injection Hp' as <-.
        rewrite (keqb_refl _ pathEqb_eq) in Eq. discriminate.
    + rewrite R. contradiction.
    + rewrite R. contradiction.
    + intros k'. rewrite held_erase. destruct (keyEqb k' k); [constructor|exact (sim_good _ _ _ _ S1 k')].
  - intros k' Hk'. unfold present. cbn [onDisk]. split.
    + intros (q & f & Hq & Hf). rewrite (alookup_aremove _ pathEqb_eq) in Hf.
      destruct (pathEqb q p) eqn:Eq; [discriminate|].
      assert (Hne : k' <> k).
      { intros ->. rewrite Hp in Hq. injection Hq as <-. rewrite (keqb_refl _ pathEqb_eq) in Eq. discriminate. }
      split; [exact Hne|].
      assert (Hs : present k' s1) by (exists q, f; auto).
      apply (Hpr k' Hk') in Hs as [?|Hs]; [contradiction|exact Hs].
    + intros (Hne & Hs). assert (Hs1 : present k' s1) by (apply Hpr; auto).
      destruct Hs1 as (q & f & Hq & Hf). exists q, f. split; [exact Hq|].
      rewrite (alookup_aremove _ pathEqb_eq). destruct (pathEqb q p) eqn:Eq; [|exact Hf].
      apply pathEqb_eq in Eq. subst. destruct Hne. exact (pathOf_inj _ _ _ (proj1 Hk') (proj1 Hk) Hq Hp).
Qed.

Lemma sim_empty n m : 1 <= n -> (forall k, held k m = []) -> Sim n [] m (newStore n []).
Proof.
  intros Hn H. destruct (@api_empty quadKey nat n) as (I & R & M).
  constructor; cbn [opened heap onDisk nextPtr newStore]; auto.
  - intros. cbn. apply H.
  - rewrite R. contradiction.
  - rewrite R. contradiction.
  - intros k. rewrite H. constructor.
Qed.

(** Volume accounting. *)
Definition room (m : memory) (cs : list call) : Prop :=
  forall k, (N.of_nat (length (bytesOf (held k m))) + volume k cs < 2 ^ 32)%N.

Lemma room_step m c cs m' a : memStep m c = Ok (m', a) -> room m (c :: cs) -> room m' cs.
Proof.
  intros E H k. specialize (H k). rewrite (memStep_held _ _ _ _ k E).
  destruct c; cbn [volume] in H; try exact H.
  - destruct (keyEqb k k0); [|lia]. rewrite bytesOf_app, app_length.
    change (bytesOf [e]) with (write e ++ []). rewrite app_nil_r. lia.
  - destruct (keyEqb k k0); [cbn [bytesOf flat_map length]|]; lia.
Qed.

Lemma room_below m cs k : room m cs -> below (length (bytesOf (held k m))).
Proof. intros H. specialize (H k). unfold below. lia. Qed.

Lemma touched_cons k c past : touched k (c :: past) <->
  match c with
  | Erase k' => k' <> k /\ touched k past
  | _ => accesses k c \/ touched k past
  end.
Proof. destruct c; reflexivity. Qed.

Lemma refine n cs : 1 <= n -> forall d m s past m' r,
  Sim n d m s -> careful d cs -> Forall usable cs -> room m cs ->
  (forall k, named k -> (present k s <-> touched k past)) ->
  runCalls memStep m cs = Ok (m', r) ->
  exists s' d', runCalls (diskStep n) s cs = Ok (s', r) /\ Sim n d' m' s' /\ room m' [] /\
    (forall k, named k -> (present k s' <-> touched k (rev cs ++ past))) /\
    (forall cs', careful d (cs ++ cs') -> exists d'', Sim n d'' m' s' /\ careful d'' cs').
Proof.
  intros Hn. induction cs as [|c cs IH]; intros d m s past m' r S Hc Hu Hr Ht Hm.
  - injection Hm as <- <-. exists s, d. cbn. split; [reflexivity|]. split; [exact S|]. split; [exact Hr|]. split; [exact Ht|].
    intros cs' Hc'. exists d. auto.
  - cbn [runCalls] in Hm. destruct (memStep m c) as [[m1 a]| |] eqn:Em; try discriminate. cbn [bind] in Hm.
    destruct (runCalls memStep m1 cs) as [[m2 r2]| |] eqn:Er; try discriminate. cbn [bind] in Hm.
    injection Hm as <- <-. inversion Hu as [|? ? Hu1 Hu2]; subst.
    pose proof (room_step _ _ _ _ _ Em Hr) as Hr1. destruct Hu1 as [Hk Hg].
    assert (Goal : exists s1, diskStep n s c = Ok (s1, a) /\
       (forall k, named k -> (present k s1 <-> touched k (c :: past))) /\
       (forall cs', careful d (c :: cs') -> exists d1, Sim n d1 m1 s1 /\ careful d1 cs')).
    { destruct c as [k e|k t|k|k|k o| |].
      - cbn [memStep] in Em. destruct (memStore k e m) as [o' m1'] eqn:Es. injection Em as <- <-.
        specialize (Hk k eq_refl).
        destruct Hc as [Hd _].
        destruct (store_ok n d m s k e Hn S Hk Hg Hd) as (s1 & E1 & S1 & P1).
        { pose proof (held_step_same m k e) as Hs. rewrite Es in Hs. cbn [snd] in Hs. rewrite <- Hs.
          exact (room_below _ _ k Hr1). }
        exists s1. cbn [diskStep]. rewrite E1, Es. cbn [omap fst]. split; [reflexivity|]. split.
        + intros k' Hk'. rewrite (P1 k' Hk'), touched_cons, (Ht k' Hk'). cbn [accesses].
          split; intros [?|?]; auto.
        + intros cs' [_ Hc']. exists d. rewrite Es in S1. auto.
      - cbn [memStep] in Em. injection Em as <- <-. specialize (Hk k eq_refl). destruct Hc as [Hd _].
        destruct (search_ok n d m s k t Hn S Hk Hd (room_below _ _ k Hr)) as (s1 & E1 & S1 & S1' & P1).
        exists s1. cbn [diskStep]. rewrite E1. cbn [omap]. split; [reflexivity|]. split.
        + intros k' Hk'. rewrite (P1 k' Hk'), touched_cons, (Ht k' Hk'). cbn [accesses].
          split; intros [?|?]; auto.
        + intros cs' [_ [[Hf Hc']|Hc']]; [exists d|exists (k :: d)]; auto.
      - destruct Hc.
      - cbn [memStep] in Em. injection Em as <- <-. specialize (Hk k eq_refl).
        destruct (erase_ok n d m s k Hn S Hk) as (s1 & E1 & S1 & P1).
        exists s1. cbn [diskStep]. rewrite E1. cbn [omap]. split; [reflexivity|]. split.
        + intros k' Hk'. rewrite (P1 k' Hk'), touched_cons, (Ht k' Hk'). split; intros [? ?]; auto.
        + intros cs' Hc'. exists []. auto.
      - cbn [memStep] in Em. specialize (Hk k eq_refl).
        destruct (alookup sameKey k m) as [es|] eqn:El; [|discriminate].
        destruct (nth_error es (N.to_nat o)) as [e|] eqn:En; [|discriminate]. injection Em as <- <-.
        destruct (notify_ok n d m s k o e Hn S Hk) as (s1 & E1 & S1 & P1).
        { unfold held. rewrite El. exact En. }
        { exact (room_below _ _ k Hr). }
        exists s1. cbn [diskStep]. rewrite E1. cbn [omap]. split; [reflexivity|]. split.
        + intros k' Hk'. rewrite (P1 k' Hk'), touched_cons, (Ht k' Hk'). cbn [accesses].
          split; intros [?|?]; auto.
        + intros cs' Hc'. exists (k :: d). auto.
      - cbn [memStep] in Em. injection Em as <- <-. exists (pFlush s). split; [reflexivity|]. split.
        + intros k' Hk'. rewrite touched_cons. cbn [accesses]. rewrite <- (Ht k' Hk').
          change (present k' (pFlush s)) with (present k' s). tauto.
        + intros cs' Hc'. exists []. split; [|exact Hc'].
          destruct (clear_ok (opened s) (sim_inv _ _ _ _ S)) as (I & R & M).
          apply (sim_clear n d); auto. rewrite M. exact (sim_max _ _ _ _ S).
      - cbn [memStep] in Em. injection Em as <- <-. exists (pReopen n s). split; [reflexivity|]. split.
        + intros k' Hk'. rewrite touched_cons. cbn [accesses]. rewrite <- (Ht k' Hk').
          change (present k' (pReopen n s)) with (present k' s). tauto.
        + intros cs' Hc'. exists []. split; [|exact Hc'].
          destruct (@api_empty quadKey nat n) as (I & R & M).
          apply (sim_clear n d); auto. }
    destruct Goal as (s1 & E1 & P1 & C1). destruct (C1 cs Hc) as (d1 & S1 & Hc1).
    destruct (IH d1 m1 s1 (c :: past) m2 r2 S1 Hc1 Hu2 Hr1 P1 Er) as (s2 & d2 & E2 & S2 & R2 & P2 & C2).
    exists s2, d2. cbn [runCalls]. rewrite E1. cbn [bind]. rewrite E2. cbn [bind].
    split; [reflexivity|]. split; [exact S2|]. split; [exact R2|]. split.
    + intros k Hk'. rewrite (P2 k Hk'). cbn [rev]. rewrite <- app_assoc. reflexivity.
    + intros cs' Hc'. cbn [app] in Hc'. destruct (C1 (cs ++ cs') Hc') as (d1' & S1' & Hc1').
      destruct (IH d1' m1 s1 (c :: past) m2 r2 S1') as (s2' & d2' & E2' & _ & _ & _ & C2'); auto.
      { clear - Hc1'. revert d1' Hc1'. induction cs as [|c cs IH]; intros d H; [exact I|].
        destruct c; cbn [app careful] in *; intuition auto. }
      rewrite E2 in E2'. injection E2' as <-. exact (C2' cs' Hc1').
Qed.
