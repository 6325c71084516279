(** The element stores: theorems for C11, C12 and C13. *)
From Verif Require Import Base Bytes ElementModel ElementSpec GeoModel GeoSpec LruModel
  StoreModel StoreSpec StoreProofs.

(** C11: after any calls, a tile search on the in-memory store reports what was stored for
    that tile since it was last erased, in order. *)
Theorem C11_search : forall past m r k,
  runCalls memStep [] past = Ok (m, r) ->
  memStep m (Search k never) = Ok (m, AFound (contents k (rev past))).
Proof.
  intros past m r k H. cbn [memStep]. rewrite memSearch_held, (mem_contents _ _ _ H).
  rewrite visitUntil_all by reflexivity. reflexivity.
Qed.

(** hasData tells whether that is anything. *)
Theorem C11_hasData : forall past m r k,
  runCalls memStep [] past = Ok (m, r) ->
  exists b, memStep m (HasData k) = Ok (m, ABool b) /\ (b = true <-> contents k (rev past) <> []).
Proof.
  intros past m r k H. exists (memHasData k m). split; [reflexivity|]. exact (mem_hasData _ _ _ H k).
Qed.

(** No call other than a text search hit can fail. *)
Theorem C11_total : forall past, (forall k n, ~ In (Notify k n) past) ->
  exists m r, runCalls memStep [] past = Ok (m, r).
Proof. intros. apply mem_total. assumption. Qed.

(** C12: on disk every call answers as in memory, whatever the number of tiles that are kept
    open. *)
Theorem C12_agree : forall n cs m r, (1 <= n)%nat ->
  careful [] cs -> Forall usable cs -> small cs ->
  runCalls memStep [] cs = Ok (m, r) ->
  exists s, runCalls (diskStep n) (newStore n []) cs = Ok (s, r).
Proof.
  intros n cs m r Hn Hc Hu Hs H.
  destruct (refine n cs Hn [] [] (newStore n []) [] m r) as (s & d & E & _); auto.
  - apply sim_empty; auto.
  - intros k Hk. split; [|contradiction]. intros (p & f & _ & F). discriminate.
  - eauto.
Qed.

(** hasData on disk: the tile was stored to or searched since it was last erased. *)
Theorem C12_hasData : forall n cs m r, (1 <= n)%nat ->
  careful [] cs -> Forall usable cs -> small cs ->
  runCalls memStep [] cs = Ok (m, r) ->
  exists s, runCalls (diskStep n) (newStore n []) cs = Ok (s, r) /\
    forall k, named k -> exists b, diskStep n s (HasData k) = Ok (s, ABool b) /\ (b = true <-> touched k (rev cs)).
Proof.
  intros n cs m r Hn Hc Hu Hs H.
  destruct (refine n cs Hn [] [] (newStore n []) [] m r) as (s & d & E & _ & _ & P & _); auto.
  - apply sim_empty; auto.
  - intros k Hk. split; [|contradiction]. intros (p & f & _ & F). discriminate.
  - exists s. split; [exact E|]. intros k Hk. specialize (P k Hk). rewrite app_nil_r in P.
    destruct (pathOf_named k Hk) as [p Hp].
    cbn [diskStep]. unfold pHasData. rewrite Hp. cbn [omap].
    eexists. split; [reflexivity|]. rewrite <- P. unfold present. split.
    + destruct (alookup pathEqb p (onDisk s)) as [f|] eqn:F; [|discriminate]. eauto.
    + intros (q & f & Hq & Hf). rewrite Hp in Hq. injection Hq as <-. rewrite Hf. reflexivity.
Qed.

(** C13: a tile search reports a prefix of the tile's elements, ending exactly where the token
    first says cancelled. *)
Theorem C13_memory : forall past m r k t,
  runCalls memStep [] past = Ok (m, r) ->
  exists found, memStep m (Search k t) = Ok (m, AFound found) /\
    prefixUntil t (contents k (rev past)) found.
Proof.
  intros past m r k t H. exists (memSearch k t m). split; [reflexivity|].
  rewrite memSearch_held, (mem_contents _ _ _ H). apply (visitUntil_prefix t (contents k (rev past)) 0).
Qed.

Theorem C13_disk : forall n past m r k t, (1 <= n)%nat ->
  careful [] (past ++ [Search k t]) -> Forall usable (past ++ [Search k t]) -> small past ->
  runCalls memStep [] past = Ok (m, r) ->
  exists s s' found, runCalls (diskStep n) (newStore n []) past = Ok (s, r) /\
    diskStep n s (Search k t) = Ok (s', AFound found) /\
    prefixUntil t (contents k (rev past)) found.
Proof.
  intros n past m r k t Hn Hc Hu Hs H.
  assert (Hm : runCalls memStep [] (past ++ [Search k t]) = Ok (m, r ++ [AFound (memSearch k t m)])).
  { rewrite runCalls_app, H. reflexivity. }
  assert (Hs' : small (past ++ [Search k t])).
  { intros k'. specialize (Hs k').
    assert (E : volume k' (past ++ [Search k t]) = volume k' past).
    { clear. induction past as [|c cs IH]; [reflexivity|]. destruct c; cbn [app volume]; rewrite ?IH; reflexivity. }
    rewrite E. exact Hs. }
  destruct (C12_agree n _ _ _ Hn Hc Hu Hs' Hm) as [s' E].
  apply runCalls_rev in E as (s & r1 & a & E1 & E2 & Er).
  apply app_inj_tail in Er as [<- <-].
  exists s, s', (memSearch k t m). split; [exact E1|]. split; [exact E2|].
  rewrite memSearch_held, (mem_contents _ _ _ H). apply (visitUntil_prefix t (contents k (rev past)) 0).
Qed.

(** * Concrete histories *)

Definition nodeA := Node 1 [] (mkCoord 2 3).
Definition wayB := Way 2 [mkTag 5 6] [mkCoord 2 3; mkCoord 4 5].
Definition nodeC := Node 3 [] (mkCoord 7 8).
Definition key1 := mkKey 16 35205 21489.
Definition key2 := mkKey 16 35205 21490.
(** Cancelled before the second element. *)
Definition second : token := fun i => Nat.leb 1 i.

(** A history with two tiles, one file held open at a time, a cancelled search, a hit of a
    text search, a flush and an erasure meets the hypotheses of C12. *)
Definition story : list call :=
  [Store key1 nodeA; Store key2 wayB; Search key1 never; Store key1 wayB; Search key1 second; Flush;
   Store key1 nodeC; Notify key1 2; Notify key1 0; Reopen; Store key1 nodeA; Search key1 never;
   Erase key2; Search key2 never; Search key1 never].

Lemma volume_le : forall k cs, (volume k cs <= fold_right (fun c v => match c with
  | Store _ e => N.of_nat (length (write e)) + v | _ => v end) 0 cs)%N.
Proof.
  intros k. induction cs as [|c cs IH]; [reflexivity|]. destruct c; cbn [volume fold_right]; try exact IH.
  destruct (keyEqb k k0); lia.
Qed.

Lemma key1_named : named key1.
Proof. unfold named, tile. cbn. lia. Qed.
Lemma key2_named : named key2.
Proof. unfold named, tile. cbn. lia. Qed.

Lemma usableOn : forall c k, tileOfCall c = Some k -> named k ->
  match c with Store _ e => wfElement e /\ fitsElement e | _ => True end -> usable c.
Proof. intros c k E H G. split; [|exact G]. intros k' E'. congruence. Qed.

Lemma good_elements : forall e, In e [nodeA; wayB; nodeC] -> wfElement e /\ fitsElement e.
Proof.
  intros e [<-|[<-|[<-|[]]]]; cbn; unfold wfTag, wfCoord, fits; cbn.
  - repeat split; auto; lia.
  - split; [split; [lia|split; [|]]|split; lia]; repeat constructor; cbn; lia.
  - repeat split; auto; lia.
Qed.

Example C12_agree_example :
  (1 <= 1)%nat /\ careful [] story /\ Forall usable story /\ small story /\
  exists m s r, runCalls memStep [] story = Ok (m, r) /\ runCalls (diskStep 1) (newStore 1 []) story = Ok (s, r) /\
    nth 4 r AUnit = AFound [nodeA] /\ nth 7 r AUnit = AFound [nodeC] /\ nth 8 r AUnit = AFound [nodeA] /\
    nth 11 r AUnit = AFound [nodeA; wayB; nodeC; nodeA] /\ nth 13 r AUnit = AFound [].
Proof.
  split; [lia|]. split; [|split; [|split]].
  - cbn. repeat (split; [intros H; intuition discriminate|]).
    left. split; [reflexivity|]. repeat (split; [intros H; intuition discriminate|]).
    right. repeat (split; [intros H; intuition discriminate|]).
    left. split; [reflexivity|]. split; [auto|]. left. split; [reflexivity|].
    split; [auto|]. left. split; [reflexivity|exact I].
  - unfold story. repeat (constructor; [first
      [ apply (usableOn _ key1); [reflexivity|apply key1_named|] | apply (usableOn _ key2); [reflexivity|apply key2_named|]
      | split; [intros k; discriminate|exact I] ];
      try exact I; apply good_elements; cbn; tauto|]). constructor.
  - intros k. eapply N.le_lt_trans; [apply volume_le|]. vm_compute. reflexivity.
  - eexists _, _, _. split; [vm_compute; reflexivity|]. split; [vm_compute; reflexivity|].
    vm_compute. auto.
Qed.

(** C11's and C13's hypotheses hold for the same history. *)
Example C11_example : exists m r, runCalls memStep [] story = Ok (m, r) /\
  contents key1 (rev story) = [nodeA; wayB; nodeC; nodeA] /\ contents key2 (rev story) = [].
Proof. eexists _, _. split; [vm_compute; reflexivity|]. vm_compute. auto. Qed.

Example C13_example : exists m r, runCalls memStep [] story = Ok (m, r) /\
  memSearch key1 second m = [nodeA] /\ prefixUntil second (contents key1 (rev story)) [nodeA].
Proof.
  eexists _, _. split; [vm_compute; reflexivity|]. split; [vm_compute; reflexivity|].
  exists [wayB; nodeC; nodeA]. split; [vm_compute; reflexivity|]. split.
  - intros [|i] H; [reflexivity|cbn in H; lia].
  - reflexivity.
Qed.

(** A store right after a cancelled search records the wrong offset: the search of the tile
    then reports the second element in place of the third. *)
Theorem C12_cancelled_refuted : exists cs m r s r',
  Forall usable cs /\ small cs /\
  runCalls memStep [] cs = Ok (m, r) /\ runCalls (diskStep cacheSize) (newStore cacheSize []) cs = Ok (s, r') /\
  last r AUnit = AFound [nodeA; nodeC; nodeA] /\
  last r' AUnit = AFound [nodeA; nodeC; setId (eid nodeA) nodeC].
Proof.
  exists [Store key1 nodeA; Store key1 nodeC; Search key1 second; Store key1 nodeA; Flush; Search key1 never].
  eexists _, _, _, _. split; [|split; [|split; [|split]]].
  - repeat (constructor; [first
      [ apply (usableOn _ key1); [reflexivity|apply key1_named|]
      | split; [intros k; discriminate|exact I] ];
      try exact I; apply good_elements; cbn; tauto|]). constructor.
  - intros k. eapply N.le_lt_trans; [apply volume_le|]. vm_compute. reflexivity.
  - vm_compute. reflexivity.
  - vm_compute. reflexivity.
  - vm_compute. auto.
Qed.

(** A hit of a text search does the same, and moreover makes the next search of the tile
    incomplete. *)
Theorem C12_text_refuted : exists cs m r s r',
  Forall usable cs /\ small cs /\
  runCalls memStep [] cs = Ok (m, r) /\ runCalls (diskStep cacheSize) (newStore cacheSize []) cs = Ok (s, r') /\
  last r AUnit = AFound [nodeA; nodeC] /\ last r' AUnit = AFound [nodeA].
Proof.
  exists [Store key1 nodeA; Store key1 nodeC; Notify key1 0; Search key1 never].
  eexists _, _, _, _. split; [|split; [|split; [|split]]].
  - repeat (constructor; [first
      [ apply (usableOn _ key1); [reflexivity|apply key1_named|]
      | split; [intros k; discriminate|exact I] ];
      try exact I; apply good_elements; cbn; tauto|]). constructor.
  - intros k. eapply N.le_lt_trans; [apply volume_le|]. vm_compute. reflexivity.
  - vm_compute. reflexivity.
  - vm_compute. reflexivity.
  - vm_compute. auto.
Qed.

(** Searching an empty tile makes hasData true on disk only. *)
Theorem C12_hasData_refuted : exists cs m r s r',
  Forall usable cs /\ small cs /\
  runCalls memStep [] cs = Ok (m, r) /\ runCalls (diskStep cacheSize) (newStore cacheSize []) cs = Ok (s, r') /\
  last r AUnit = ABool false /\ last r' AUnit = ABool true.
Proof.
  exists [Search key1 never; HasData key1].
  eexists _, _, _, _. split; [|split; [|split; [|split]]].
  - repeat (constructor; [apply (usableOn _ key1); [reflexivity|apply key1_named|exact I]|]). constructor.
  - intros k. reflexivity.
  - vm_compute. reflexivity.
  - vm_compute. reflexivity.
  - vm_compute. auto.
Qed.

Print Assumptions C11_search.
Print Assumptions C11_hasData.
Print Assumptions C11_total.
Print Assumptions C12_agree.
Print Assumptions C12_hasData.
Print Assumptions C12_cancelled_refuted.
Print Assumptions C12_text_refuted.
Print Assumptions C12_hasData_refuted.
Print Assumptions C13_memory.
Print Assumptions C13_disk.
