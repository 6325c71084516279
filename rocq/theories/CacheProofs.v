(** Lemmas about the mesh cache. *)
From Verif Require Import Base Bytes BytesProofs StreamModel MeshModel MeshSpec MeshProofs
  ElementModel ElementSpec ElementProofs GeoModel GeoProofs LruProofs CacheModel CacheSpec.
Local Open Scope nat_scope.

Lemma keyEqb_eq a b : keyEqb a b = true <-> a = b.
Proof.
  unfold keyEqb. rewrite !andb_true_iff, !Z.eqb_eq. destruct a, b; cbn. split.
  - intros [[-> ->] ->]. reflexivity.
  - intros E; injection E as -> -> ->. auto.
Qed.
Lemma pathEqb_eq a b : pathEqb a b = true <-> a = b.
Proof.
  unfold pathEqb. rewrite andb_true_iff, beqb_eq, keyEqb_eq. destruct a, b; cbn. split.
  - intros [-> ->]. reflexivity.
  - intros E; injection E as -> ->. auto.
Qed.

(** ** The records of a file *)

(** What comes back. *)
Definition cycleRecord (r : record) : record :=
  match r with RMesh m => RMesh (cycle m) | RElem e => RElem e end.

Lemma cycleRecord_same r : wfRecord r -> sameRecord r (cycleRecord r).
Proof.
  destruct r as [m|e]; cbn [wfRecord cycleRecord sameRecord]; [|reflexivity].
  intros W. destruct (mesh_roundtrip m [] W) as (m' & R & H).
  rewrite read_write_mesh in R by exact W. injection R as <-. exact H.
Qed.

Definition upTo (calls : option nat) (rs : list record) : list record :=
  match calls with None => rs | Some n => firstn n rs end.

Lemma readRecords_encode rs : Forall wfRecord rs -> forall fuel calls, length rs < fuel ->
  readRecords fuel calls (mkStream (flat_map encode rs) false) = Some (Ok (map cycleRecord (upTo calls rs))).
Proof.
  induction 1 as [|r rs W _ IH]; intros fuel calls L; (destruct fuel as [|fuel]; [cbn in L; lia|]).
  - destruct calls as [[|n]|]; reflexivity.
  - cbn [length] in L. destruct calls as [[|n]|].
    + reflexivity.
    + cbn [readRecords flat_map option_map pred upTo firstn map]. destruct r as [m|e]; cbn [encode app cycleRecord].
      * rewrite readChar_type by lia. cbn [N.eqb Pos.eqb]. cbn [wfRecord] in W.
        rewrite read_write_mesh by exact W. rewrite IH by lia. reflexivity.
      * rewrite readChar_type by lia. cbn [N.eqb]. destruct W as [W F].
        rewrite <- app_assoc, readUninit_full by (destruct e; apply W).
        cbn [rem]. rewrite unle_le by (destruct e; apply W).
        rewrite read_write by auto. rewrite IH by lia. reflexivity.
    + cbn [readRecords flat_map option_map upTo map]. destruct r as [m|e]; cbn [encode app cycleRecord].
      * rewrite readChar_type by lia. cbn [N.eqb Pos.eqb]. cbn [wfRecord] in W.
        rewrite read_write_mesh by exact W. rewrite (IH fuel None) by lia. reflexivity.
      * rewrite readChar_type by lia. cbn [N.eqb]. destruct W as [W F].
        rewrite <- app_assoc, readUninit_full by (destruct e; apply W).
        cbn [rem]. rewrite unle_le by (destruct e; apply W).
        rewrite read_write by auto. rewrite (IH fuel None) by lia. reflexivity.
Qed.

Lemma encode_pos r : 1 <= length (encode r).
Proof. destruct r; cbn; lia. Qed.
Lemma encode_length rs : length rs <= length (flat_map encode rs).
Proof.
  induction rs as [|r rs IH]; cbn [flat_map length]; [lia|]. rewrite app_length.
  pose proof (encode_pos r). lia.
Qed.

Lemma readCache_complete rs calls : Forall wfRecord rs ->
  readCache (1%N :: flat_map encode rs) calls = Some (Ok (map cycleRecord (upTo calls rs))).
Proof.
  intros W. unfold readCache, isGood. rewrite readChar_type by lia. cbn [N.eqb Pos.eqb].
  apply readRecords_encode; auto. pose proof (encode_length rs). cbn [length]. lia.
Qed.

Lemma upTo_same calls rs : Forall wfRecord rs -> Forall2 sameRecord (upTo calls rs) (map cycleRecord (upTo calls rs)).
Proof.
  intros W. assert (W' : Forall wfRecord (upTo calls rs)).
  { destruct calls as [n|]; cbn [upTo]; auto. rewrite Forall_forall in *. intros r Hr. apply W.
    rewrite <- (firstn_skipn n rs). apply in_or_app; auto. }
  induction W' as [|r l H _ IH]; cbn [map]; constructor; auto. apply cycleRecord_same; auto.
Qed.

(** ** The invariant *)

(** Contents of the file [p], given the completed builds. *)
Definition okFile (done : list (path * list record)) (p : path) (bs : bytes) : Prop :=
  bs = [] \/ (exists x, bs = 0%N :: x) \/
  exists rs, In (p, rs) done /\ Forall wfRecord rs /\ bs = 1%N :: flat_map encode rs.

(** A stream and the session that owns it. *)
Definition okStream (k : quadKey) (o : ofile) (s : session) : Prop :=
  k = pkey (opath o) /\ spath s = opath o /\ shandle s = Wrapped k (onum o) /\
  (ogood o = true -> oopen o = true) /\ (exists x, obytes o = 0%N :: x) /\
  (ogood o = true -> sawCancel s = false -> obytes o = 0%N :: flat_map encode (produced s)).

Record inv (durable : bool) (w : world) : Prop := mkInv {
  i_files : forall p bs, alookup pathEqb p (files (wcache w)) = Some bs -> okFile (completed w) p bs;
  i_keys : NoDup (map (fun s => pkey (spath s)) (active w));
  i_caching : NoDup (map fst (caching (wcache w)));
  i_streams : forall k o, In (k, o) (caching (wcache w)) ->
      exists s, In s (active w) /\ okStream k o s;
  i_sessions : forall s k n, In s (active w) -> shandle s = Wrapped k n ->
      k = pkey (spath s) /\ exists o, In (k, o) (caching (wcache w)) /\ onum o = n;
  i_wf : forall s, In s (active w) -> Forall wfRecord (produced s);
  i_busy : forall k o bs, In (k, o) (caching (wcache w)) -> alookup pathEqb (opath o) (files (wcache w)) = Some (1%N :: bs) -> False;
  i_durable : durable = true -> forall p, alookup pathEqb p (files (wcache w)) = Some [] ->
      exists o, In (pkey p, o) (caching (wcache w)) /\ opath o = p /\ oopen o = true
}.

Lemma lookup_in {V} k (v : V) m : NoDup (map fst m) -> alookup keyEqb k m = Some v <-> In (k, v) m.
Proof.
  induction m as [|[k' v'] m IH]; cbn [map fst alookup]; intros D; [split; [discriminate|contradiction]|].
  apply NoDup_cons_iff in D as [N1 D]. destruct (keyEqb k k') eqn:E.
  - apply keyEqb_eq in E as <-. split.
    + intros H; injection H as <-. left; reflexivity.
    + intros [H|H]; [injection H as <-; reflexivity|]. exfalso. apply N1. apply in_map_iff. exists (k, v); auto.
  - rewrite IH by auto. split; [right; auto|]. intros [H|H]; auto. injection H as -> ->.
    assert (X : keyEqb k k = true) by (apply keyEqb_eq; reflexivity). congruence.
Qed.

Lemma look_files p q v fs :
  alookup pathEqb p (aset pathEqb q v fs : list (path * bytes)) = if pathEqb p q then Some v else alookup pathEqb p fs.
Proof. apply alookup_aset. apply pathEqb_eq. Qed.
Lemma rem_files p q fs :
  alookup pathEqb p (aremove pathEqb q fs : list (path * bytes)) = if pathEqb p q then None else alookup pathEqb p fs.
Proof. apply alookup_aremove. apply pathEqb_eq. Qed.

Lemma okFile_mono done x p bs : okFile done p bs -> okFile (x :: done) p bs.
Proof.
  intros [H|[H|(rs & H & W & E)]]; [left; auto|right; left; auto|right; right].
  exists rs. split; [right|]; auto.
Qed.

Lemma in_aremove {V} k k' (v : V) m : In (k', v) (aremove keyEqb k m) <-> In (k', v) m /\ k' <> k.
Proof.
  induction m as [|[a b] m IH]; cbn [aremove]; [split; [contradiction|intros [[] _]]|].
  destruct (keyEqb k a) eqn:E.
  - apply keyEqb_eq in E as <-. rewrite IH. split; [intros [H N]; split; [right|]; auto|].
    intros [[H|H] N]; auto. injection H as -> ->. contradiction.
  - split.
    + intros [H|H]; [injection H as -> ->; split; [left; reflexivity|]|apply IH in H as [H N]; split; [right|]; auto].
      intros ->. assert (X : keyEqb k k = true) by (apply keyEqb_eq; reflexivity). congruence.
    + intros [[H|H] N]; [left; auto|right; apply IH; auto].
Qed.

Lemma NoDup_aremove {V} k (m : list (quadKey * V)) : NoDup (map fst m) -> NoDup (map fst (aremove keyEqb k m)).
Proof.
  induction m as [|[a b] m IH]; cbn [aremove map fst]; intros D; auto.
  apply NoDup_cons_iff in D as [N1 D]. destruct (keyEqb k a); auto.
  cbn [map fst]. constructor; auto. intros H. apply N1. apply in_map_iff in H as [[c d] [<- H]].
  apply in_aremove in H as [H _]. apply in_map_iff. exists (c, d); auto.
Qed.

Lemma Some_inj {A} (a b : A) : Some a = Some b -> a = b.
Proof. congruence. Qed.

(** Sessions with one key are one session. *)
Lemma same_session l s s' : NoDup (map (fun s => pkey (spath s)) l) -> In s l -> In s' l ->
  pkey (spath s) = pkey (spath s') -> s = s'.
Proof.
  induction l as [|a l IH]; cbn [map]; intros D; [contradiction|].
  apply NoDup_cons_iff in D as [N1 D]. intros [<-|H] [<-|H'] E; auto.
  - exfalso. apply N1. rewrite E. apply in_map_iff. exists s'; auto.
  - exfalso. apply N1. rewrite <- E. apply in_map_iff. exists s; auto.
Qed.

Lemma inv_start durable : inv durable startWorld.
Proof. constructor; cbn; intros; try discriminate; try contradiction; constructor. Qed.

Lemma hit_busy c p o : NoDup (map fst (caching c)) -> In (pkey p, o) (caching c) -> isCacheHit c p = Ok false.
Proof. intros D H. unfold isCacheHit. rewrite (proj2 (lookup_in _ _ _ D) H). reflexivity. Qed.

Lemma step_inv durable w w' : inv durable w -> step durable w w' -> inv durable w'.
Proof.
  intros I S. destruct S as [b c act done|c act done p canOpen h c' F W|c before s after done cancelled canWrite r delivered c' M WR E|c before s after done cancelled f M K|c act done cut K].
  - destruct I as [I1 I2 I3 I4 I5 I6 I7 I8]. constructor; auto.
  - (* wrap *)
    unfold wrap in W. destruct (enabled c).
    2: { injection W as <- <-. destruct I as [I1 I2 I3 I4 I5 I6 I7 I8]. cbn [wcache active completed] in *. constructor; cbn [wcache active completed]; auto.
      - cbn [map spath]. constructor; auto. intros H. apply in_map_iff in H as [s [Es Hs]]. apply (F s); auto.
      - intros k o H. destruct (I4 k o H) as (s & Hs & O). exists s. split; [right|]; auto.
      - intros s k n [<-|Hs] E; [discriminate|]. apply (I5 s k n Hs E).
      - intros s [<-|Hs]; [constructor|auto]. }
    destruct (isCacheHit c p) as [hit| |] eqn:Hit; try discriminate. cbn [bind] in W.
    destruct hit.
    { injection W as <- <-. destruct I as [I1 I2 I3 I4 I5 I6 I7 I8]. cbn [wcache active completed] in *. constructor; cbn [wcache active completed]; auto.
      - cbn [map spath]. constructor; auto. intros H. apply in_map_iff in H as [s [Es Hs]]. apply (F s); auto.
      - intros k o H. destruct (I4 k o H) as (s & Hs & O). exists s. split; [right|]; auto.
      - intros s k n [<-|Hs] E; [discriminate|]. apply (I5 s k n Hs E).
      - intros s [<-|Hs]; [constructor|auto]. }
    destruct I as [I1 I2 I3 I4 I5 I6 I7 I8]. cbn [wcache active completed] in *.
    destruct (alookup keyEqb (pkey p) (caching c)) as [o|] eqn:L.
    { exfalso. apply (lookup_in _ _ _ I3) in L. destruct (I4 _ _ L) as (s & Hs & O & Sp & _).
      apply (F s Hs). rewrite Sp. symmetry. exact O. }
    injection W as <- <-.
    assert (NK : forall o, ~ In (pkey p, o) (caching c)).
    { intros o H. apply (lookup_in _ _ _ I3) in H. congruence. }
    assert (NP : forall k o, In (k, o) (caching c) -> opath o <> p).
    { intros k o H E. destruct (I4 _ _ H) as (s & Hs & O & Sp & _). subst k. rewrite E in H. apply (NK _ H). }
    assert (NC : forall bs, alookup pathEqb p (files c) = Some (1%N :: bs) -> False).
    { intros bs H. unfold isCacheHit in Hit. rewrite L, H in Hit. unfold isGood in Hit. rewrite readChar_type in Hit by lia. discriminate. }
    constructor; cbn [wcache active completed files caching].
    + intros q bs H. destruct canOpen; [|apply I1; auto]. rewrite look_files in H.
      destruct (pathEqb q p); [|apply I1; auto]. injection H as <-. left. reflexivity.
    + cbn [map spath]. constructor; auto. intros H. apply in_map_iff in H as [s [Es Hs]]. apply (F s); auto.
    + cbn [map fst]. constructor; auto. intros H. apply in_map_iff in H as [[k o] [Ek H]]. cbn [fst] in Ek. subst k. apply (NK _ H).
    + intros k o [H|H].
      * injection H as <- <-. eexists. split; [left; reflexivity|].
        unfold okStream. cbn. repeat split; auto. exists []. reflexivity.
      * destruct (I4 _ _ H) as (s & Hs & O). exists s. split; [right|]; auto.
    + intros s k n [<-|Hs] E.
      * cbn [shandle spath] in *. injection E as <- <-. split; auto. eexists. split; [left; reflexivity|]. reflexivity.
      * destruct (I5 s k n Hs E) as (Ek & o & H & O). split; auto. exists o. split; [right|]; auto.
    + intros s [<-|Hs]; [constructor|auto].
    + intros k o bs [H|H] Lk.
      * injection H as <- <-. cbn [opath] in Lk. destruct canOpen; [|eapply NC; eauto].
        rewrite look_files in Lk. assert (X : pathEqb p p = true) by (apply pathEqb_eq; reflexivity). rewrite X in Lk. discriminate.
      * destruct canOpen; [|eapply I7; eauto]. rewrite look_files in Lk.
        destruct (pathEqb (opath o) p) eqn:X; [discriminate|]. eapply I7; eauto.
    + intros D q Lq. destruct canOpen.
      * rewrite look_files in Lq. destruct (pathEqb q p) eqn:X.
        -- apply pathEqb_eq in X as ->. eexists. split; [left; reflexivity|]. auto.
        -- destruct (I8 D q Lq) as (o & H & O). exists o. split; [right|]; auto.
      * destruct (I8 D q Lq) as (o & H & O). exists o. split; [right|]; auto.
  - (* emit *)
    destruct I as [I1 I2 I3 I4 I5 I6 I7 I8]. cbn [wcache active completed] in *.
    set (s' := mkSession (spath s) (shandle s) (produced s ++ [r]) cancelled).
    assert (Hin : In s (before ++ s :: after)) by (apply in_or_app; right; left; reflexivity).
    assert (Other : forall t, In t (before ++ s' :: after) -> t = s' \/ (In t (before ++ s :: after) /\ t <> s)).
    { intros t Ht. apply in_app_or in Ht as [Ht|[Ht|Ht]]; [right|left; auto|right].
      - split; [apply in_or_app; left; auto|]. intros ->. rewrite map_app in I2. cbn [map] in I2.
        apply NoDup_remove_2 in I2. apply I2. apply in_or_app; left. apply in_map_iff. exists s; auto.
      - split; [apply in_or_app; right; right; auto|]. intros ->. rewrite map_app in I2. cbn [map] in I2.
        apply NoDup_remove_2 in I2. apply I2. apply in_or_app; right. apply in_map_iff. exists s; auto. }
    assert (Back : forall t, In t (before ++ s :: after) -> t <> s -> In t (before ++ s' :: after)).
    { intros t Ht N. apply in_app_or in Ht as [Ht|[Ht|Ht]]; [apply in_or_app; left; auto|congruence|apply in_or_app; right; right; auto]. }
    assert (Hs' : In s' (before ++ s' :: after)) by (apply in_or_app; right; left; reflexivity).
    assert (KM : map (fun s => pkey (spath s)) (before ++ s' :: after) = map (fun s => pkey (spath s)) (before ++ s :: after)).
    { rewrite !map_app. reflexivity. }
    assert (WF' : Forall wfRecord (produced s')).
    { cbn [produced s']. apply Forall_app. split; [apply I6; auto|repeat constructor; auto]. }
    assert (Case : (c' = c /\ (forall k n, shandle s = Wrapped k n -> cancelled = true)) \/
      exists k n o, shandle s = Wrapped k n /\ cancelled = false /\ In (k, o) (caching c) /\ onum o = n /\
        c' = mkCache (enabled c) (files c) (aset keyEqb k (if ogood o then mkOut n (opath o) (oopen o) (obytes o ++ encode r) canWrite else o) (caching c)) (nextNum c)).
    { unfold emit in E. destruct (shandle s) as [|k n].
      - injection E as _ <-. left. split; auto. discriminate.
      - destruct cancelled.
        + injection E as _ <-. left. split; auto.
        + destruct (alookup keyEqb k (caching c)) as [o|] eqn:L; [|discriminate].
          destruct (Nat.eqb_spec (onum o) n) as [On|]; [|discriminate]. injection E as _ <-.
          right. exists k, n, o. repeat split; auto. apply (lookup_in _ _ _ I3); auto. }
    destruct Case as [[-> NC]|(k & n & o & Hh & -> & Ho & On & ->)].
    + constructor; cbn [wcache active completed]; auto.
      * rewrite KM. auto.
      * intros k o H. destruct (I4 _ _ H) as (t & Ht & O). assert (D : t = s \/ t <> s).
        { destruct (keyEqb (pkey (spath t)) (pkey (spath s))) eqn:X.
          - apply keyEqb_eq in X. left. apply (same_session _ _ _ I2); auto.
          - right. intros ->. assert (Y : keyEqb (pkey (spath s)) (pkey (spath s)) = true) by (apply keyEqb_eq; reflexivity). congruence. }
        destruct D as [->|D]; [|exists t; split; auto].
        exists s'. split; auto. destruct O as (O1 & O2 & O3 & O4 & O5 & O6). unfold okStream. cbn [spath shandle s'].
        repeat split; auto. intros _ C. cbn [sawCancel s'] in C. rewrite (NC _ _ O3) in C. discriminate.
      * intros t k n Ht Eh. apply Other in Ht as [->|[Ht N]]; [apply (I5 s k n Hin Eh)|apply (I5 t k n Ht Eh)].
      * intros t Ht. apply Other in Ht as [->|[Ht N]]; auto.
    + destruct (I4 _ _ Ho) as (t & Ht & O). assert (t = s) as ->.
      { apply (same_session _ _ _ I2); auto. destruct O as (O1 & O2 & _). destruct (I5 _ _ _ Hin Hh) as [-> _].
        congruence. }
      destruct O as (O1 & O2 & O3 & O4 & (x & O5) & O6).
      set (o' := if ogood o then mkOut n (opath o) (oopen o) (obytes o ++ encode r) canWrite else o) in *.
      assert (P' : opath o' = opath o) by (unfold o'; destruct (ogood o); reflexivity).
      assert (Op' : oopen o' = oopen o) by (unfold o'; destruct (ogood o); reflexivity).
      assert (N' : onum o' = n) by (unfold o'; destruct (ogood o); auto).
      constructor; cbn [wcache active completed files caching]; auto.
      * rewrite KM; auto.
      * unfold aset. cbn [map fst]. constructor; [|apply NoDup_aremove; auto].
        intros H. apply in_map_iff in H as [[a b] [Ea H]]. cbn [fst] in Ea. apply in_aremove in H as [_ H]. contradiction.
      * intros a b [H|H].
        -- injection H as <- <-. exists s'. split; auto. unfold okStream. rewrite P', Op', N'. cbn [spath shandle sawCancel produced s'].
           split; auto. split; auto. split; [congruence|]. split; [|split].
           ++ unfold o'. destruct (ogood o) eqn:G; auto. rewrite G. auto.
           ++ unfold o'. destruct (ogood o); cbn [obytes]; [|eauto]. rewrite O5. eexists. reflexivity.
           ++ intros G' C. unfold o' in *. destruct (ogood o) eqn:G; [|congruence]. cbn [obytes].
              rewrite O6; auto. { cbn [app]. rewrite flat_map_app. cbn [flat_map]. rewrite app_nil_r. reflexivity. }
              destruct (sawCancel s); auto. discriminate M. reflexivity.
        -- apply in_aremove in H as [H N]. destruct (I4 _ _ H) as (t & Ht' & O'). exists t. split; auto.
           apply Back; auto. intros ->. destruct O' as (O1' & O2' & O3' & _). congruence.
      * intros t a b Ht' Eh. apply Other in Ht' as [->|[Ht' N]].
        -- cbn [shandle s' spath] in *. rewrite Hh in Eh. injection Eh as <- <-. split; [apply (I5 _ _ _ Hin Hh)|].
           exists o'. split; auto. left; reflexivity.
        -- destruct (I5 t a b Ht' Eh) as (Ea & u & Hu & Onu). split; auto. exists u. split; auto. right. apply in_aremove.
           split; auto. intros ->. apply N. apply (same_session _ _ _ I2); auto. rewrite O2, <- O1. auto.
      * intros t Ht'. apply Other in Ht' as [->|[Ht' N]]; auto.
      * intros a b bs [H|H] Lk.
        -- injection H as <- <-. rewrite P' in Lk. eapply I7; eauto.
        -- apply in_aremove in H as [H _]. eapply I7; eauto.
      * intros D q Lq. destruct (I8 D q Lq) as (u & Hu & Pu & Ou). destruct (keyEqb (pkey q) k) eqn:X.
        -- apply keyEqb_eq in X. rewrite X in *. assert (u = o) as ->.
           { apply (lookup_in _ _ _ I3) in Hu. apply (lookup_in _ _ _ I3) in Ho. congruence. }
           exists o'. split; [left; reflexivity|]. rewrite P', Op'. auto.
        -- exists u. split; auto. right. apply in_aremove. split; auto. intros E0. rewrite E0 in X.
           assert (Y : keyEqb k k = true) by (apply keyEqb_eq; reflexivity). congruence.
  - (* unwrap *)
    destruct I as [I1 I2 I3 I4 I5 I6 I7 I8]. cbn [wcache active completed] in *.
    assert (Hin : In s (before ++ s :: after)) by (apply in_or_app; right; left; reflexivity).
    assert (Sub : forall t, In t (before ++ after) -> In t (before ++ s :: after) /\ pkey (spath t) <> pkey (spath s)).
    { intros t Ht. rewrite map_app in I2. cbn [map] in I2. apply NoDup_remove_2 in I2. rewrite <- map_app in I2. split.
      - apply in_app_or in Ht as [Ht|Ht]; apply in_or_app; [left|right; right]; auto.
      - intros E. apply I2. rewrite <- E. apply in_map_iff. exists t; auto. }
    assert (Back : forall t, In t (before ++ s :: after) -> t <> s -> In t (before ++ after)).
    { intros t Ht N. apply in_app_or in Ht as [Ht|[Ht|Ht]]; [apply in_or_app; left; auto|congruence|apply in_or_app; right; auto]. }
    assert (D2 : NoDup (map (fun s => pkey (spath s)) (before ++ after))).
    { rewrite map_app in *. cbn [map] in I2. apply NoDup_remove_1 in I2. auto. }
    set (done' := if cancelled then done else (spath s, produced s) :: done).
    assert (Mono : forall p bs, okFile done p bs -> okFile done' p bs).
    { intros p bs H. unfold done'. destruct cancelled; auto. apply okFile_mono; auto. }
    unfold unwrap. destruct (alookup keyEqb (pkey (spath s)) (caching c)) as [o|] eqn:L.
    + apply (lookup_in _ _ _ I3) in L. destruct (I4 _ _ L) as (t & Ht & O). assert (t = s) as ->.
      { apply (same_session _ _ _ I2); auto. destruct O as (O1 & O2 & _). congruence. }
      destruct O as (O1 & O2 & O3 & O4 & (x & O5) & O6).
      set (fs' := if ogood o then _ else _).
      assert (FS : forall p, p <> opath o -> alookup pathEqb p fs' = alookup pathEqb p (files c)).
      { intros p N. assert (X : pathEqb p (opath o) = false).
        { destruct (pathEqb p (opath o)) eqn:X; auto. apply pathEqb_eq in X. contradiction. }
        unfold fs', leave. rewrite O2.
        destruct (ogood o), (writesOk f), cancelled, (removeOk f), (oopen o); rewrite ?rem_files, ?look_files, ?X; reflexivity. }
      assert (FO : forall bs, alookup pathEqb (opath o) fs' = Some bs -> okFile done' (opath o) bs /\ (durable = true -> bs <> [])).
      { intros bs Lb. assert (X : pathEqb (opath o) (opath o) = true) by (apply pathEqb_eq; reflexivity).
        assert (Z0 : forall n, (durable = true -> 1 <= n) -> okFile done' (opath o) (firstn n (0%N :: x)) /\ (durable = true -> firstn n (0%N :: x) <> [])).
        { intros [|n] Hn; split.
          - left; reflexivity.
          - intros Dd. specialize (Hn Dd). lia.
          - right; left. exists (firstn n x). reflexivity.
          - discriminate. }
        assert (Z1 : oopen o = false -> alookup pathEqb (opath o) (files c) = Some bs -> okFile done' (opath o) bs /\ (durable = true -> bs <> [])).
        { intros Op Lc. split; [apply Mono; auto|]. intros Dd ->. destruct (I8 Dd _ Lc) as (u & Hu & Pu & Ou).
          rewrite <- O1 in Hu. apply (lookup_in _ _ _ I3) in Hu. apply (lookup_in _ _ _ I3) in L. congruence. }
        unfold fs', leave in Lb. rewrite O2, O5 in Lb. destruct (ogood o) eqn:G.
        - rewrite (O4 eq_refl) in Lb. destruct (writesOk f).
          + destruct cancelled.
            * destruct (removeOk f); rewrite ?rem_files, ?look_files, X in Lb; [discriminate|].
              apply Some_inj in Lb; rewrite <- Lb; apply Z0. cbn [length]. lia.
            * rewrite look_files, X in Lb. injection Lb as <-. split; [|discriminate].
              right; right. exists (produced s). split; [left; f_equal; exact O2|]. split; [apply I6; auto|].
              assert (C : sawCancel s = false) by (destruct (sawCancel s); auto; discriminate M; reflexivity).
              specialize (O6 eq_refl C). rewrite O5 in O6. injection O6 as ->. reflexivity.
          + rewrite look_files, X in Lb. apply Some_inj in Lb; rewrite <- Lb; apply Z0; auto.
        - destruct (oopen o) eqn:Op; [|apply Z1; auto]. rewrite look_files, X in Lb. apply Some_inj in Lb; rewrite <- Lb; apply Z0; auto. }
      constructor; cbn [wcache active completed files caching]; auto.
      * intros p bs Lp. destruct (pathEqb p (opath o)) eqn:X.
        -- apply pathEqb_eq in X as ->. apply FO; auto.
        -- rewrite FS in Lp; [apply Mono; auto|]. intros ->.
           assert (Y : pathEqb (opath o) (opath o) = true) by (apply pathEqb_eq; reflexivity). congruence.
      * apply NoDup_aremove; auto.
      * intros k u H. apply in_aremove in H as [H N]. destruct (I4 _ _ H) as (t & Ht' & O'). exists t. split; auto.
        apply Back; auto. intros ->. destruct O' as (O1' & O2' & O3' & _). congruence.
      * intros t k n Ht' Eh. apply Sub in Ht' as [Ht' N]. destruct (I5 t k n Ht' Eh) as (Ek & u & Hu & Onu). split; auto.
        exists u. split; auto. apply in_aremove. split; auto. congruence.
      * intros t Ht'. apply Sub in Ht' as [Ht' N]. auto.
      * intros k u bs H Lk. apply in_aremove in H as [H N]. rewrite FS in Lk; [eapply I7; eauto|].
        intros E. destruct (I4 _ _ H) as (t & Ht' & O1' & _). congruence.
      * intros Dd p Lp. destruct (pathEqb p (opath o)) eqn:X.
        -- apply pathEqb_eq in X as ->. destruct (FO _ Lp) as [_ C]. exfalso. apply C; auto.
        -- assert (Np : p <> opath o).
           { intros ->. assert (Y : pathEqb (opath o) (opath o) = true) by (apply pathEqb_eq; reflexivity). congruence. }
           rewrite FS in Lp; auto. destruct (I8 Dd p Lp) as (u & Hu & Pu & Ou). exists u. split; auto.
           apply in_aremove. split; auto. intros E. rewrite E in Hu. assert (u = o).
           { apply (lookup_in _ _ _ I3) in Hu. apply (lookup_in _ _ _ I3) in L. congruence. }
           congruence.
    + constructor; cbn [wcache active completed files caching]; auto.
      * intros k u H. destruct (I4 _ _ H) as (t & Ht' & O'). exists t. split; auto.
        apply Back; auto. intros ->. destruct O' as (O1' & O2' & O3' & _). apply (lookup_in _ _ _ I3) in H.
        congruence.
      * intros t k n Ht' Eh. apply Sub in Ht' as [Ht' N]. apply (I5 t k n Ht' Eh).
      * intros t Ht'. apply Sub in Ht' as [Ht' N]. auto.
  - (* crash *)
    destruct I as [I1 I2 I3 I4 I5 I6 I7 I8]. cbn [wcache active completed] in *.
    assert (L : forall l fs, (forall k o, In (k, o) l -> exists x, obytes o = 0%N :: x) -> forall p bs,
      alookup pathEqb p (fold_right (fun '(k, o) fs => leave o (cut k) fs) fs l) = Some bs ->
      (exists k o, In (k, o) l /\ opath o = p /\ oopen o = true /\ bs = firstn (cut k) (obytes o)) \/
      (alookup pathEqb p fs = Some bs /\ forall k o, In (k, o) l -> opath o = p -> oopen o = false)).
    { induction l as [|[k o] l IH]; intros fs O p bs Lp; cbn [fold_right] in Lp.
      - right. split; auto. intros k o [].
      - unfold leave in Lp at 1. destruct (oopen o) eqn:Op.
        + rewrite look_files in Lp. destruct (pathEqb p (opath o)) eqn:X.
          * apply pathEqb_eq in X as ->. injection Lp as <-. left. exists k, o. repeat split; auto. left; reflexivity.
          * destruct (IH fs) with (p := p) (bs := bs) as [(k' & o' & H & R)|[H R]]; auto.
            { intros; eapply O; right; eauto. }
            { left. exists k', o'. split; [right|]; auto. }
            right. split; auto. intros k' o' [H'|H'] E; [|eauto]. injection H' as <- <-. subst p.
            assert (Y : pathEqb (opath o) (opath o) = true) by (apply pathEqb_eq; reflexivity). congruence.
        + destruct (IH fs) with (p := p) (bs := bs) as [(k' & o' & H & R)|[H R]]; auto.
          { intros; eapply O; right; eauto. }
          { left. exists k', o'. split; [right|]; auto. }
          right. split; auto. intros k' o' [H'|H'] E; [|eauto]. injection H' as <- <-. auto. }
    assert (B : forall k o, In (k, o) (caching c) -> exists x, obytes o = 0%N :: x).
    { intros k o H. destruct (I4 _ _ H) as (s & Hs & _ & _ & _ & _ & X & _). exact X. }
    constructor; cbn [wcache active completed files caching crash newCache map]; auto; try (constructor; fail); try (intros; contradiction).
    + intros p bs Lp. destruct (L _ _ B _ _ Lp) as [(k & o & H & <- & Op & ->)|[H _]]; auto.
      destruct (B _ _ H) as [x ->]. destruct (cut k) as [|n]; [left; reflexivity|right; left]. exists (firstn n x). reflexivity.
    + intros Dd p Lp. exfalso. destruct (L _ _ B _ _ Lp) as [(k & o & H & <- & Op & E)|[H N]].
      * destruct (B _ _ H) as [x Ex]. rewrite Ex in E. specialize (K Dd k). destruct (cut k); [lia|discriminate].
      * destruct (I8 Dd p H) as (o & Ho & Po & Oo). rewrite (N _ _ Ho Po) in Oo. discriminate.
Qed.

Lemma steps_inv durable w : steps durable startWorld w -> inv durable w.
Proof.
  intros S. remember startWorld as w0 eqn:E. induction S as [w|w1 w2 w3 _ IH St].
  - subst w. apply inv_start.
  - apply (step_inv _ _ _ (IH E) St).
Qed.

(** ** Serving *)

Lemma okFile_hit done p bs : okFile done p bs -> isGood (mkStream bs false) = Ok (true, mkStream (tl bs) false) ->
  exists rs, In (p, rs) done /\ Forall wfRecord rs /\ bs = 1%N :: flat_map encode rs.
Proof.
  intros [->|[[x ->]|H]] G; auto; unfold isGood in G; [discriminate|]. rewrite readChar_type in G by lia. discriminate.
Qed.

Lemma fetch_served durable w p calls rs' : steps durable startWorld w ->
  fetch (wcache w) p calls = Some (Ok (true, rs')) ->
  exists rs, In (p, rs) (completed w) /\ Forall2 sameRecord (upTo calls rs) rs'.
Proof.
  intros S F. apply steps_inv in S. unfold fetch in F. destruct (enabled (wcache w)); [|discriminate].
  unfold isCacheHit in F. destruct (alookup keyEqb (pkey p) (caching (wcache w))); [discriminate|].
  destruct (alookup pathEqb p (files (wcache w))) as [bs|] eqn:L; [|discriminate].
  pose proof (i_files _ _ S p bs L) as O. destruct O as [->|[[x ->]|(rs & H & W & ->)]].
  - discriminate.
  - unfold isGood in F. rewrite readChar_type in F by lia. discriminate.
  - unfold isGood in F at 1. rewrite readChar_type in F by lia. cbn [omap bind fst N.eqb Pos.eqb] in F.
    rewrite readCache_complete in F by auto. cbn [option_map omap bind] in F. injection F as <-.
    exists rs. split; auto. apply upTo_same; auto.
Qed.

Lemma fetch_safe w p calls : steps true startWorld w ->
  exists hit rs, fetch (wcache w) p calls = Some (Ok (hit, rs)).
Proof.
  intros S. apply steps_inv in S. unfold fetch. destruct (enabled (wcache w)); [|eauto].
  unfold isCacheHit. destruct (alookup keyEqb (pkey p) (caching (wcache w))) as [o|] eqn:K; [eauto|].
  destruct (alookup pathEqb p (files (wcache w))) as [bs|] eqn:L; [|eauto].
  pose proof (i_files _ _ S p bs L) as O. destruct O as [->|[[x ->]|(rs & H & W & ->)]].
  - exfalso. destruct (i_durable _ _ S eq_refl p L) as (o & H & _).
    apply (lookup_in _ _ _ (i_caching _ _ S)) in H. congruence.
  - unfold isGood. rewrite readChar_type by lia. cbn [omap bind fst N.eqb]. eauto.
  - unfold isGood at 1. rewrite readChar_type by lia. cbn [omap bind fst N.eqb Pos.eqb].
    rewrite readCache_complete by auto. cbn [option_map omap bind]. eauto.
Qed.

(** ** A complete file stays *)

Lemma step_keeps durable w w' p bs : inv durable w -> step durable w w' ->
  alookup pathEqb p (files (wcache w)) = Some (1%N :: bs) ->
  alookup pathEqb p (files (wcache w')) = Some (1%N :: bs).
Proof.
  intros I S L. destruct S as [b c act done|c act done q canOpen h c' F W|c before s after done cancelled canWrite r delivered c' M WR E|c before s after done cancelled f M K|c act done cut K]; cbn [wcache] in *; auto.
  - unfold wrap in W. destruct (enabled c); [|injection W as <- <-; auto].
    destruct (isCacheHit c q) as [hit| |] eqn:Hit; try discriminate. cbn [bind] in W.
    destruct hit; [injection W as <- <-; auto|].
    destruct (alookup keyEqb (pkey q) (caching c)) as [o|] eqn:Lk.
    { exfalso. apply (lookup_in _ _ _ (i_caching _ _ I)) in Lk. destruct (i_streams _ _ I _ _ Lk) as (s & Hs & O & Sp & _).
      apply (F s Hs). rewrite Sp. symmetry. exact O. }
    injection W as <- <-. cbn [files]. destruct canOpen; auto. rewrite look_files.
    destruct (pathEqb p q) eqn:X; auto. apply pathEqb_eq in X as ->. exfalso.
    unfold isCacheHit in Hit. rewrite Lk, L in Hit. unfold isGood in Hit. rewrite readChar_type in Hit by lia. discriminate.
  - unfold emit in E. destruct (shandle s) as [|k n]; [injection E as _ <-; auto|].
    destruct cancelled; [injection E as _ <-; auto|].
    destruct (alookup keyEqb k (caching c)) as [o|]; [|discriminate].
    destruct (onum o =? n); [|discriminate]. injection E as _ <-. exact L.
  - unfold unwrap. destruct (alookup keyEqb (pkey (spath s)) (caching c)) as [o|] eqn:Lk; auto.
    apply (lookup_in _ _ _ (i_caching _ _ I)) in Lk. destruct (i_streams _ _ I _ _ Lk) as (t & Ht & O).
    cbn [active wcache] in Ht. assert (t = s) as ->.
    { apply (same_session _ _ _ (i_keys _ _ I)); auto; [cbn; apply in_or_app; right; left; reflexivity|]. destruct O as (O1 & O2 & _). congruence. }
    destruct O as (O1 & O2 & O3 & O4 & _). cbn [files].
    assert (N : p <> opath o). { intros ->. apply (i_busy _ _ I _ _ _ Lk L). }
    assert (X : pathEqb p (opath o) = false).
    { destruct (pathEqb p (opath o)) eqn:X; auto. apply pathEqb_eq in X. contradiction. }
    unfold leave. rewrite O2.
    destruct (ogood o), (writesOk f), cancelled, (removeOk f), (oopen o); rewrite ?rem_files, ?look_files, ?X; exact L.
  - assert (G : forall l, (forall k o, In (k, o) l -> opath o <> p) ->
        alookup pathEqb p (fold_right (fun '(k, o) fs => leave o (cut k) fs) (files c) l) = Some (1%N :: bs)).
    { induction l as [|[k o] l IH]; intros N; cbn [fold_right]; auto. unfold leave at 1.
      destruct (oopen o); [|apply IH; intros; eapply N; right; eauto]. rewrite look_files.
      destruct (pathEqb p (opath o)) eqn:X; [|apply IH; intros; eapply N; right; eauto].
      apply pathEqb_eq in X. exfalso. apply (N k o); auto. left; reflexivity. }
    apply G. intros k o H E. rewrite <- E in L. apply (i_busy _ _ I _ _ _ H L).
Qed.

Lemma steps_keep durable w w' p bs : steps durable startWorld w -> steps durable w w' ->
  alookup pathEqb p (files (wcache w)) = Some (1%N :: bs) ->
  alookup pathEqb p (files (wcache w')) = Some (1%N :: bs).
Proof.
  intros S S' L. assert (I : inv durable w) by (apply steps_inv; auto). clear S.
  induction S' as [w|w1 w2 w3 S12 IH St]; auto.
  apply (step_keeps durable w2 w3); [|exact St|apply IH; auto].
  clear IH L St. induction S12 as [|? ? ? ? IH ?]; auto. apply (step_inv _ _ _ (IH I)); auto.
Qed.

Lemma fetch_replays c p rs calls : enabled c = true -> alookup keyEqb (pkey p) (caching c) = None ->
  alookup pathEqb p (files c) = Some (1%N :: flat_map encode rs) -> Forall wfRecord rs ->
  fetch c p calls = Some (Ok (true, map cycleRecord (upTo calls rs))).
Proof.
  intros E K L W. unfold fetch, isCacheHit. rewrite E, K, L. unfold isGood. rewrite readChar_type by lia.
  cbn [omap bind fst N.eqb Pos.eqb]. rewrite readCache_complete by auto. reflexivity.
Qed.

Lemma unwrap_completes durable c before s after done f : steps durable startWorld (mkWorld c (before ++ s :: after) done) ->
  healthy c s -> sawCancel s = false -> writesOk f = true ->
  alookup pathEqb (spath s) (files (unwrap c (spath s) false f)) = Some (1%N :: flat_map encode (produced s)) /\
  Forall wfRecord (produced s).
Proof.
  intros S (n & o & Hh & Lk & On & G) C Wf. apply steps_inv in S.
  assert (Hin : In s (before ++ s :: after)) by (apply in_or_app; right; left; reflexivity).
  pose proof Lk as Lk'. apply (lookup_in _ _ _ (i_caching _ _ S)) in Lk. destruct (i_streams _ _ S _ _ Lk) as (t & Ht & O).
  assert (t = s) as ->.
  { apply (same_session _ _ _ (i_keys _ _ S)); auto. destruct O as (O1 & O2 & _). congruence. }
  destruct O as (O1 & O2 & O3 & O4 & (x & O5) & O6).
  split; [|apply (i_wf _ _ S); auto].
  unfold unwrap. rewrite Lk', G, Wf. cbn [files]. rewrite look_files.
  assert (X : pathEqb (spath s) (opath o) = true) by (apply pathEqb_eq; auto). rewrite X.
  rewrite O6 by auto. reflexivity.
Qed.
