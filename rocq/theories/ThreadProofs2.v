(** Proofs about threads: ids of strings, meshes in use, maps filled on demand. *)
From Verif Require Import Base Bytes LruModel StringModel StringSpec StringProps MeshModel BuildModel BuildSpec BuildProps
  ThreadModel ThreadSpec ThreadProofs.
Local Open Scope nat_scope.

(** * Strings *)
Lemma srun_oneByOne : forall hash cap calls t t' rs,
  srunT hash cap t (map asOp calls) = Some (t', rs) -> oneByOne (stringAlone hash cap) t calls = (map Some rs, t').
Proof.
  intros hash cap. induction calls as [|c calls IH]; intros t t' rs H; cbn [map srunT oneByOne] in *.
  - injection H as <- <-. auto.
  - assert (Q : stringAlone hash cap c t = match sstep hash cap t (asOp c) with Some (u, r) => (Some r, u) | None => (None, t) end)
      by (destruct c; reflexivity).
    rewrite Q. destruct (sstep hash cap t (asOp c)) as [[u r]|]; [|discriminate].
    destruct (srunT hash cap u (map asOp calls)) as [[u' rs']|] eqn:E; [|discriminate]. injection H as <- <-.
    rewrite (IH _ _ _ E). auto.
Qed.

Lemma diskBytes_app : forall a b, diskBytes (a ++ b) = (diskBytes a + diskBytes b)%N.
Proof. induction a; intros; cbn; auto. rewrite IHa. lia. Qed.
Lemma diskBytes_incl : forall a b, NoDup a -> incl a b -> (diskBytes a <= diskBytes b)%N.
Proof.
  induction a as [|x a IH]; intros b D I; cbn [diskBytes]; [lia|].
  inversion D; subst. destruct (in_split x b) as (b1 & b2 & ->); [apply I; left; auto|].
  assert (diskBytes a <= diskBytes (b1 ++ b2))%N.
  { apply IH; auto. intros y Y. assert (Z := I y (or_intror Y)). apply in_app_or in Z as [Z|[Z|Z]]; apply in_or_app; auto. subst. contradiction. }
  rewrite !diskBytes_app in *. cbn [diskBytes]. lia.
Qed.

Definition asks (l : list bytes) : list (list sanswer -> scall) := map (fun s _ => CId s) l.

Lemma explained_entry : forall {S C A} alone (s0 : S) programs turns (log : list (entry C A)) c i program r k g,
  explains alone s0 programs turns log c -> nth_error programs i = Some program ->
  nth_error (threads c) i = Some (Done r) -> nth_error program k = Some g ->
  exists e, In e log /\ nth_error (ofThread i log) k = Some e /\ nth_error r k = Some (got e) /\ what e = g (map got (firstn k (ofThread i log))).
Proof.
  intros S C A alone s0 programs turns log c i program r k g E P T K.
  destruct (ex_ended _ _ _ _ _ _ E _ _ _ P T) as (L & ->).
  destruct (nth_error (ofThread i log) k) as [e|] eqn:N.
  2:{ apply nth_error_None in N. apply nth_lt in K. lia. }
  exists e. split; [|split; [auto|split]].
  - apply nth_error_In in N. apply filter_In in N. apply N.
  - rewrite nth_error_map, N. auto.
  - destruct (ex_order _ _ _ _ _ _ E _ _ P _ _ N) as (g' & G1 & G2). congruence.
Qed.

Lemma asks_log : forall hash cap t0 lists turns log c, explains (stringAlone hash cap) t0 (map asks lists) turns log c ->
  forall e, In e log -> exists s, what e = CId s /\ In s (concat lists).
Proof.
  intros hash cap t0 lists turns log c E e I.
  assert (O : In e (ofThread (who e) log)) by (apply filter_In; split; auto; apply Nat.eqb_refl).
  destruct (In_nth_error _ _ O) as (k & K). destruct (ex_threads _ _ _ _ _ _ E _ I) as (L & _).
  destruct (nth_error (map asks lists) (who e)) as [p|] eqn:P; [|apply nth_error_None in P; lia].
  destruct (ex_order _ _ _ _ _ _ E _ _ P _ _ K) as (g & G1 & G2).
  rewrite nth_error_map in P. destruct (nth_error lists (who e)) as [l|] eqn:Q; [|discriminate]. injection P as <-.
  unfold asks in G1. rewrite nth_error_map in G1. destruct (nth_error l k) as [s|] eqn:N; [|discriminate]. injection G1 as <-.
  exists s. split; auto. apply in_concat. exists l. split; eapply nth_error_In; eauto.
Qed.

Lemma allocatedOnly_ids : forall os l, (forall o, In o os -> exists s, o = GetId s) -> allocatedOnly l os.
Proof.
  induction os as [|o os IH]; intros l H; cbn [allocatedOnly]; auto. split.
  - destruct (H o (or_introl eq_refl)) as (s & ->). auto.
  - apply IH. intros x X. apply H. right. auto.
Qed.
Lemma requested_incl : forall log lists, (forall e : entry scall sanswer, In e log -> exists s, what e = CId s /\ In s (concat lists)) ->
  incl (requested (map asOp (map what log))) (concat lists).
Proof.
  intros log lists H s I. unfold requested in I. apply in_flat_map in I as (o & O & I).
  apply in_map_iff in O as (c & <- & O). apply in_map_iff in O as (e & <- & O). destruct (H e O) as (s' & W & J).
  rewrite W in I. cbn in I. destruct I as [<-|[]]. auto.
Qed.

Lemma ids_good : forall hash cap t0 lists turns log c, explains (stringAlone hash cap) t0 (map asks lists) turns log c ->
  (forall s, In s (concat lists) -> nulFree s) -> (diskBytes (nodup (list_eq_dec N.eq_dec) (concat lists)) < 4294967296)%N ->
  goodHistory (map asOp (map what log)).
Proof.
  intros hash cap t0 lists turns log c E NF DB. assert (AL := asks_log _ _ _ _ _ _ _ E). split; [|split].
  - intros s I. apply NF. apply in_map_iff in I as (x & X & I). apply in_map_iff in I as (e & <- & I).
    destruct (AL e I) as (s' & W & J). rewrite W in X. cbn in X. injection X as ->. auto.
  - right. apply allocatedOnly_ids. intros o O. apply in_map_iff in O as (x & <- & O). apply in_map_iff in O as (e & <- & O).
    destruct (AL e O) as (s & W & _). rewrite W. exists s. reflexivity.
  - eapply N.le_lt_trans; [|exact DB]. apply diskBytes_incl; [apply NoDup_nodup|].
    intros s I. apply nodup_In in I. apply nodup_In. apply (requested_incl _ _ AL). auto.
Qed.

Lemma ids_agree : forall hash, (forall s, (hash s < 4294967296)%N) -> forall cap, 1 <= cap ->
  forall lists, (forall s, In s (concat lists) -> nulFree s) -> (diskBytes (nodup (list_eq_dec N.eq_dec) (concat lists)) < 4294967296)%N ->
  forall turns log c, explains (stringAlone hash cap) (openTable cap [] []) (map asks lists) turns log c ->
  forall i j li lj ri rj ki kj s s',
    nth_error lists i = Some li -> nth_error lists j = Some lj ->
    nth_error (threads c) i = Some (Done ri) -> nth_error (threads c) j = Some (Done rj) ->
    nth_error li ki = Some s -> nth_error lj kj = Some s' ->
    exists n m, nth_error ri ki = Some (Some (SId n)) /\ nth_error rj kj = Some (Some (SId m)) /\ (n = m <-> s = s').
Proof.
  intros hash H32 cap C1 lists NF DB turns log c E i j li lj ri rj ki kj s s' Li Lj Ti Tj Si Sj.
  assert (GH := ids_good _ _ _ _ _ _ _ E NF DB).
  destruct (C02_string_id_stable hash H32 cap C1 _ GH) as (ans & R & St).
  destruct (C03_string_ids_distinct_dense hash H32 cap C1 _ GH) as (ans' & R' & Di & _).
  assert (ans' = ans) by congruence. subst ans'. clear R'.
  unfold srun in R. destruct (srunT hash cap (openTable cap [] []) (map asOp (map what log))) as [[t' rs]|] eqn:RT; [|discriminate].
  cbn in R. injection R as ->. apply srun_oneByOne in RT.
  assert (An := ex_answers _ _ _ _ _ _ E). rewrite RT in An. cbn [fst] in An.
  assert (F : forall x lx rx kx sx, nth_error lists x = Some lx -> nth_error (threads c) x = Some (Done rx) -> nth_error lx kx = Some sx ->
     exists p, nth_error (map asOp (map what log)) p = Some (GetId sx) /\
       forall n, nth_error ans p = Some (SId n) -> nth_error rx kx = Some (Some (SId n))).
  { intros x lx rx kx sx X1 X2 X3.
    assert (P : nth_error (map asks lists) x = Some (asks lx)) by (rewrite nth_error_map, X1; auto).
    assert (K : nth_error (asks lx) kx = Some (fun _ => CId sx)) by (unfold asks; rewrite nth_error_map, X3; auto).
    destruct (explained_entry _ _ _ _ _ _ _ _ _ _ _ E P X2 K) as (e & I & _ & Q1 & Q2).
    destruct (In_nth_error _ _ I) as (p & Pp). exists p. split.
    - rewrite !nth_error_map, Pp. cbn. rewrite Q2. auto.
    - intros n Hn. rewrite Q1. assert (Z : nth_error (map got log) p = Some (got e)) by (rewrite nth_error_map, Pp; auto).
      rewrite An, nth_error_map, Hn in Z. cbn in Z. congruence. }
  destruct (F _ _ _ _ _ Li Ti Si) as (p & P1 & P2). destruct (F _ _ _ _ _ Lj Tj Sj) as (q & Q1 & Q2).
  destruct (list_eq_dec N.eq_dec s s') as [->|D].
  - destruct (St p q s' P1 Q1) as (n & A1 & A2). exists n, n. split; [auto|split; [auto|tauto]].
  - destruct (Di p q s s' P1 Q1 D) as (n & m & A1 & A2 & A3). exists n, m. split; [auto|split; [auto|tauto]].
Qed.

(** * Meshes *)
Definition mine (i : nat) (held : list (nat * pmesh)) : list nat := map (fun h => pid (snd h)) (filter (fun h => Nat.eqb (fst h) i) held).
Lemma mine_app : forall i a b, mine i (a ++ b) = mine i a ++ mine i b.
Proof. intros. unfold mine. rewrite filter_app, map_app. auto. Qed.
Lemma takeOut_app : forall x a b, ~ In x a -> takeOut x (a ++ x :: b) = a ++ b.
Proof.
  induction a as [|y a IH]; intros b H; cbn.
  - rewrite Nat.eqb_refl. auto.
  - destruct (Nat.eqb_spec x y) as [->|D]; [exfalso; apply H; left; auto|]. rewrite IH; auto. intros I. apply H. right. auto.
Qed.
Lemma mine_in : forall i held x, In x (mine i held) <-> exists m, In (i, m) held /\ pid m = x.
Proof.
  intros i held x. unfold mine. rewrite in_map_iff. split.
  - intros ([j m] & <- & H). apply filter_In in H as (H & E). cbn in *. apply Nat.eqb_eq in E. subst. eauto.
  - intros (m & H & <-). exists (i, m). split; auto. apply filter_In. split; auto. apply Nat.eqb_refl.
Qed.
Lemma honest_prefix : forall a b, honest (a ++ b) -> honest a.
Proof. intros a b H bf e af m E W. apply (H bf e (af ++ b) m); auto. rewrite E, <- app_assoc. auto. Qed.
Lemma holds_snoc : forall own e, holds (own ++ [e]) = 
    match what e, got e with
    | PGet _ _, Some m => pid m :: holds own
    | PGet _ _, None => holds own
    | PRelease m, _ => takeOut (pid m) (holds own)
    end.
Proof. intros. unfold holds. rewrite fold_left_app. reflexivity. Qed.

Lemma pool_log : forall cap (log : list (entry pcall panswer)),
  map got log = fst (oneByOne (poolAlone cap) newPool (map what log)) -> (forall i, honest (ofThread i log)) ->
  exists held, poolUse cap (snd (oneByOne (poolAlone cap) newPool (map what log)), map snd held) /\
    forall i, holds (ofThread i log) = mine i held.
Proof.
  intros cap log. induction log as [|e log IH] using rev_ind; intros An Ho.
  - exists []. split; [apply use_new|auto].
  - rewrite !map_app, oneByOne_app in An. rewrite map_app, oneByOne_app. cbn [fst snd map] in *.
    cbn [oneByOne] in *.
    assert (Ho' : forall i, honest (ofThread i log)).
    { intros i. specialize (Ho i). unfold ofThread in Ho. rewrite filter_app in Ho. apply honest_prefix in Ho. exact Ho. }
    destruct (poolAlone cap (what e) (snd (oneByOne (poolAlone cap) newPool (map what log)))) as [a p'] eqn:Al.
    cbn [fst snd] in *. apply app_inj_tail in An as (An & Ga).
    destruct (IH An Ho') as (held & U & M).
    assert (Own : ofThread (who e) (log ++ [e]) = ofThread (who e) log ++ [e]).
    { unfold ofThread. rewrite filter_app. cbn. rewrite Nat.eqb_refl. auto. }
    assert (Oth : forall j, j <> who e -> ofThread j (log ++ [e]) = ofThread j log).
    { intros j J. unfold ofThread. rewrite filter_app. cbn. destruct (Nat.eqb_spec (who e) j); [congruence|]. apply app_nil_r. }
    destruct (what e) as [name lo|m] eqn:W; cbn [poolAlone] in Al.
    + destruct (getMesh cap _ name lo) as [m q] eqn:Gm in Al. injection Al as <- <-.
      exists ((who e, m) :: held). split.
      * cbn [map]. eapply use_get; eauto.
      * intros j. destruct (Nat.eq_dec j (who e)) as [->|J].
        -- rewrite Own, holds_snoc, W, Ga. unfold mine. cbn. rewrite Nat.eqb_refl. cbn. f_equal. apply M.
        -- rewrite Oth by auto. rewrite M. unfold mine. cbn. destruct (Nat.eqb_spec (who e) j); [congruence|]. auto.
    + injection Al as <- <-.
      assert (I : In (pid m) (mine (who e) held)).
      { rewrite <- M. specialize (Ho (who e)). rewrite Own in Ho. apply (Ho _ e [] m); auto. }
      apply mine_in in I as (m0 & I & Pm). destruct (in_split _ _ I) as (b & a & ->).
      assert (ND := C30_no_sharing _ _ _ U).
      rewrite map_app in U, ND. cbn [map snd] in U, ND.
      exists (b ++ a). split.
      * rewrite map_app. apply use_release. eapply use_change; eauto.
      * assert (Nb : ~ In (pid m) (mine (who e) b)).
        { intros H. apply mine_in in H as (m1 & H & Q). rewrite map_app in ND. cbn [map] in ND.
          rewrite <- app_assoc in ND. cbn [app] in ND. apply NoDup_remove_2 in ND. apply ND.
          apply in_or_app. left. rewrite <- Pm, Q, Pm || rewrite Pm, <- Q. apply in_map. apply in_map_iff. exists (who e, m1). auto. }
        intros j. destruct (Nat.eq_dec j (who e)) as [->|J].
        -- rewrite Own, holds_snoc, W, M, mine_app. unfold mine at 2. cbn. rewrite Nat.eqb_refl. cbn. rewrite Pm.
           rewrite takeOut_app by auto. rewrite mine_app. reflexivity.
        -- rewrite Oth by auto. rewrite M, !mine_app. f_equal. unfold mine. cbn. destruct (Nat.eqb_spec (who e) j); [congruence|]. auto.
Qed.

Lemma NoDup_mine : forall i held, NoDup (map pid (map snd held)) -> NoDup (mine i held).
Proof.
  intros i. induction held as [|[j m] held IH]; cbn; intros D; [constructor|]. inversion D; subst.
  unfold mine in *. cbn. destruct (Nat.eqb j i); cbn; auto. constructor; auto.
  intros I. apply in_map_iff in I as ((j' & m') & E & I). apply filter_In in I as (I & _). apply H1. cbn in E. rewrite <- E.
  apply in_map. apply in_map_iff. exists (j', m'). auto.
Qed.
Lemma mine_disjoint : forall i j held x, NoDup (map pid (map snd held)) -> i <> j -> In x (mine i held) -> ~ In x (mine j held).
Proof.
  intros i j. induction held as [|[h m] held IH]; intros x D IJ A B; [exact A|]. cbn [map snd] in D. inversion D; subst.
  apply mine_in in A as (m1 & A & P1). apply mine_in in B as (m2 & B & P2).
  assert (In' : forall t m', In (t, m') held -> pid m' = x -> In x (map pid (map snd held))).
  { intros t m' I <-. apply in_map. apply in_map_iff. exists (t, m'). auto. }
  destruct A as [A|A], B as [B|B].
  - congruence.
  - injection A as -> ->. apply H1. rewrite P1. eapply In'; eauto.
  - injection B as -> ->. apply H1. rewrite P2. eapply In'; eauto.
  - apply (IH x); auto; apply mine_in; eauto.
Qed.
Lemma NoDup_app_l : forall {X} (a b : list X), NoDup (a ++ b) -> NoDup a.
Proof. induction a; intros b D; [constructor|]. inversion D; subst. constructor; eauto. intros I. apply H1. apply in_or_app. auto. Qed.

Lemma pool_apart : forall cap log, map got log = fst (oneByOne (poolAlone cap) newPool (map what log)) -> (forall i, honest (ofThread i log)) ->
  (forall i, NoDup (holds (ofThread i log))) /\
  forall i j x, i <> j -> In x (holds (ofThread i log)) -> ~ In x (holds (ofThread j log)).
Proof.
  intros cap log An Ho. destruct (pool_log cap log An Ho) as (held & U & M).
  assert (ND := NoDup_app_l _ _ (C30_no_sharing _ _ _ U)). split.
  - intros i. rewrite M. apply NoDup_mine. auto.
  - intros i j x D. rewrite !M. apply mine_disjoint; auto.
Qed.

Lemma oneByOne_length : forall {S C A} (alone : C -> S -> A * S) cs s, length (fst (oneByOne alone s cs)) = length cs.
Proof.
  intros S C A alone. induction cs as [|c cs IH]; intros s; cbn; auto. destruct (alone c s) as [a s1]. specialize (IH s1).
  destruct (oneByOne alone s1 cs). cbn in *. auto.
Qed.
Lemma app_inj_len : forall {X} (a b c d : list X), length a = length c -> a ++ b = c ++ d -> a = c /\ b = d.
Proof.
  induction a; intros b [|y c] d L E; cbn in *; auto; try discriminate. injection E as -> E. destruct (IHa b c d); [lia|auto|].
  subst. auto.
Qed.
Lemma pool_fresh : forall cap log, map got log = fst (oneByOne (poolAlone cap) newPool (map what log)) -> (forall i, honest (ofThread i log)) ->
  forall e name lo, In e log -> what e = PGet name lo ->
  exists m, got e = Some m /\ pmeshOf m = mkMesh name [] [] [] [] [].
Proof.
  intros cap log An Ho e name lo I W. destruct (in_split _ _ I) as (b & a & ->).
  rewrite !map_app, oneByOne_app in An. cbn [fst] in An.
  apply app_inj_len in An as (An & An2); [|rewrite oneByOne_length, !map_length; auto].
  assert (Hb : forall i, honest (ofThread i b)).
  { intros i. specialize (Ho i). unfold ofThread in Ho. rewrite filter_app in Ho. apply honest_prefix in Ho. exact Ho. }
  destruct (pool_log cap b An Hb) as (held & U & _).
  cbn [map oneByOne] in An2. rewrite W in An2. cbn [poolAlone] in An2.
  destruct (getMesh cap (snd (oneByOne (poolAlone cap) newPool (map what b))) name lo) as [m q] eqn:Gm.
  destruct (oneByOne (poolAlone cap) q (map what a)). cbn in An2. injection An2 as Ge _.
  exists m. split; auto. eapply C30_empty; eauto.
Qed.
