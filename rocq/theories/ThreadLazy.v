(** Proofs about maps which threads fill on demand. *)
From Verif Require Import Base ThreadModel ThreadSpec ThreadProofs.
Local Open Scope nat_scope.

Section Lazy.
  Context {K V : Type}.
  Variable keqb : K -> K -> bool.
  Variable compute : K -> option V.
  Hypothesis keq : forall a b, keqb a b = true <-> a = b.
  Notation look := (alookup keqb).
  Notation CD := (code (store K V) (list (option V))).

  Definition extends (m m' : store K V) : Prop := forall k v, look k m = Some v -> look k m' = Some v.
  Lemma extends_refl : forall m, extends m m.
  Proof. unfold extends. auto. Qed.
  Lemma extends_trans : forall a b c, extends a b -> extends b c -> extends a c.
  Proof. unfold extends. auto. Qed.
  Lemma extends_add : forall m k v, look k m = None -> extends m ((k, v) :: m).
  Proof.
    intros m k v H k' v' H'. cbn. destruct (keqb k' k) eqn:E; auto. apply keq in E. congruence.
  Qed.
  Lemma look_add : forall m k (v : V), look k ((k, v) :: m) = Some v.
  Proof. intros. cbn. assert (E : keqb k k = true) by (apply keq; auto). rewrite E. auto. Qed.
  Lemma right_add : forall m k v, rightMap keqb compute m -> compute k = Some v -> rightMap keqb compute ((k, v) :: m).
  Proof.
    intros m k v R C k' v' H. cbn in H. destruct (keqb k' k) eqn:E; auto. apply keq in E. congruence.
  Qed.

  (** ** Answers *)
  Inductive good (want : list (option V)) : store K V -> CD -> Prop :=
  | g_done : forall m, good want m (Done want)
  | g_acquire : forall m k, good want m k -> good want m (Acquire k)
  | g_release : forall m k, good want m k -> good want m (Release k)
  | g_look : forall m g, (forall m', extends m m' -> rightMap keqb compute m' -> good want m' (g m')) -> good want m (Look g)
  | g_change : forall m f g, (forall m', extends m m' -> rightMap keqb compute m' ->
      extends m' (f m') /\ rightMap keqb compute (f m') /\ good want (f m') (g m')) -> good want m (Change f g).
  Lemma good_more : forall want m m' c, good want m c -> extends m m' -> good want m' c.
  Proof.
    intros want m m' c H. revert m'. induction H; intros m2 E; constructor; auto.
    - intros m3 E3 R3. apply H; auto. eapply extends_trans; eauto.
    - intros m3 E3 R3. destruct (H m3) as (A & B & C); auto. eapply extends_trans; eauto.
  Qed.

  (** ** Writes *)
  Inductive quiet (m0 : store K V) (keys : list K) : CD -> Prop :=
  | q_done : forall r, quiet m0 keys (Done r)
  | q_acquire : forall k, quiet m0 keys k -> quiet m0 keys (Acquire k)
  | q_release : forall k, quiet m0 keys k -> quiet m0 keys (Release k)
  | q_look : forall g, (forall m, extends m0 m -> quiet m0 keys (g m)) -> quiet m0 keys (Look g)
  | q_change : forall f g, (exists key, In key keys /\ missing keqb compute m0 key) ->
      (forall m, extends m0 m -> extends m0 (f m) /\ quiet m0 keys (g m)) -> quiet m0 keys (Change f g).

  Section Method.
    Variable method : K -> (option V -> CD) -> CD.
    (** What is needed of a way to look a key up. *)
    Record lookup : Prop := {
      l_good : forall key r want m, (forall m', extends m m' -> good want m' (r (compute key))) -> good want m (method key r);
      l_quiet : forall key r m0 keys, In key keys -> (forall a, quiet m0 keys (r a)) -> quiet m0 keys (method key r);
      l_looks : forall key r, exists g, method key r = Look g;
      l_alone : forall key r m i ts, nth_error ts i = Some (method key r) ->
        exists n,
          (missing keqb compute m key -> exists f g ts' h, run (repeat i n) (mkConfig m None ts) = mkConfig m h ts' /\
             nth_error ts' i = Some (Change f g) /\ forall j, j <> i -> nth_error ts' j = nth_error ts j) /\
          (~ missing keqb compute m key -> exists a, run (repeat i n) (mkConfig m None ts) = mkConfig m None (setAt i (r a) ts))
    }.
    Hypothesis L : lookup.
    Definition looker (keys : list K) : CD := client method (map (fun k _ => k) keys) [].

    Lemma client_good : forall keys acc m, good (acc ++ map compute keys) m (client method (map (fun k _ => k) keys) acc).
    Proof.
      induction keys as [|k keys IH]; intros acc m; cbn [map client].
      - rewrite app_nil_r. constructor.
      - apply (l_good L). intros m' E. replace (acc ++ compute k :: map compute keys) with ((acc ++ [compute k]) ++ map compute keys) by (rewrite <- app_assoc; auto).
        apply IH.
    Qed.
    Lemma client_quiet : forall m0 keys all, incl keys all -> forall acc, quiet m0 all (client method (map (fun k _ => k) keys) acc).
    Proof.
      intros m0. induction keys as [|k keys IH]; intros all I acc; cbn [map client]; [constructor|].
      apply (l_quiet L); [apply I; left; auto|]. intros a. apply IH. intros x X. apply I. right. auto.
    Qed.

    Variable keyss : list (list K).
    Variable m0 : store K V.
    Definition lookers : config (store K V) (list (option V)) := start m0 (map looker keyss).

    Record linv (c : config (store K V) (list (option V))) : Prop := {
      li_len : length (threads c) = length keyss;
      li_ext : extends m0 (shared c);
      li_quiet : forall i keys t, nth_error keyss i = Some keys -> nth_error (threads c) i = Some t -> quiet m0 keys t;
      li_empty : forall i t, nth_error keyss i = Some [] -> nth_error (threads c) i = Some t -> t = Done []
    }.
    Lemma linv_start : linv lookers.
    Proof.
      constructor; cbn.
      - apply map_length.
      - apply extends_refl.
      - intros i keys t N T. rewrite nth_error_map, N in T. injection T as <-. apply client_quiet. apply incl_refl.
      - intros i t N T. rewrite nth_error_map, N in T. injection T as <-. reflexivity.
    Qed.
    Lemma linv_step : forall i c c', linv c -> stepThread i c = Some c' -> linv c'.
    Proof.
      intros i c c' [I1 I2 I3 I4] H. unfold stepThread in H.
      destruct (nth_error (threads c) i) as [t|] eqn:N; [|discriminate].
      assert (Lt := nth_lt _ _ _ N).
      assert (P : exists keys, nth_error keyss i = Some keys).
      { destruct (nth_error keyss i) eqn:E; eauto. apply nth_error_None in E. lia. }
      destruct P as (keys & P).
      assert (X : exists s' h' t', c' = mkConfig s' h' (setAt i t' (threads c)) /\ extends m0 s' /\ quiet m0 keys t').
      { assert (Q := I3 _ _ _ P N). destruct t as [r|k|k|k|f k]; try discriminate; inversion Q; subst.
        - destruct (holder c); [discriminate|]. injection H as <-. eexists _, _, _. split; [reflexivity|]. split; auto.
        - injection H as <-. eexists _, _, _. split; [reflexivity|]. split; auto.
        - injection H as <-. eexists _, _, _. split; [reflexivity|]. split; auto.
        - injection H as <-. eexists _, _, _. split; [reflexivity|]. apply H3. auto. }
      destruct X as (s' & h' & t' & -> & E & Q). constructor; cbn.
      - rewrite setAt_length. auto.
      - auto.
      - intros j ks u J T. destruct (Nat.eq_dec i j) as [->|D].
        + rewrite setAt_same in T by auto. congruence.
        + rewrite setAt_other in T by auto. eapply I3; eauto.
      - intros j u J T. destruct (Nat.eq_dec i j) as [->|D].
        + assert (t = Done []) by (eapply I4; eauto). subst t. discriminate.
        + rewrite setAt_other in T by auto. eapply I4; eauto.
    Qed.
    Lemma linv_run : forall turns c, linv c -> linv (run turns c).
    Proof.
      induction turns as [|i turns IH]; intros c I; cbn; auto. apply IH.
      destruct (stepThread i c) eqn:E; auto. eapply linv_step; eauto.
    Qed.

    Lemma first_missing : forall keys key, In key keys -> missing keqb compute m0 key ->
      exists pre key' post, keys = pre ++ key' :: post /\ missing keqb compute m0 key' /\ forall k, In k pre -> ~ missing keqb compute m0 k.
    Proof.
      induction keys as [|k keys IH]; intros key I M; [destruct I|].
      assert (D : missing keqb compute m0 k \/ ~ missing keqb compute m0 k).
      { unfold missing. destruct (look k m0); [right; intros (A & _); discriminate|].
        destruct (compute k); [left; split; congruence|right; tauto]. }
      destruct D as [D|D].
      - exists [], k, keys. split; auto.
      - destruct I as [->|I]; [contradiction|]. destruct (IH key I M) as (pre & key' & post & -> & A & B).
        exists (k :: pre), key', post. split; auto. split; auto. intros x [<-|X]; auto.
    Qed.

    Lemma reach_change : forall pre key post, missing keqb compute m0 key -> (forall k, In k pre -> ~ missing keqb compute m0 k) ->
      forall i ts acc, nth_error ts i = Some (client method (map (fun k _ => k) (pre ++ key :: post)) acc) ->
      exists n f g ts' h, run (repeat i n) (mkConfig m0 None ts) = mkConfig m0 h ts' /\
        nth_error ts' i = Some (Change f g) /\ forall j, j <> i -> nth_error ts' j = nth_error ts j.
    Proof.
      induction pre as [|k pre IH]; intros key post M NM i ts acc T; cbn [app map client] in T.
      - destruct (l_alone L _ _ m0 i ts T) as (n & A & _). exists n. auto.
      - destruct (l_alone L _ _ m0 i ts T) as (n & _ & B). destruct B as (a & B); [apply NM; left; auto|].
        assert (T' : nth_error (setAt i (client method (map (fun k _ => k) (pre ++ key :: post)) (acc ++ [a])) ts) i = Some (client method (map (fun k _ => k) (pre ++ key :: post)) (acc ++ [a]))).
        { apply setAt_same. eapply nth_lt; eauto. }
        destruct (IH key post M (fun k H => NM k (or_intror H)) _ _ _ T') as (n' & f & g & ts' & h & R & N & O).
        exists (n + n'), f, g, ts', h. rewrite repeat_app, run_app, B. split; auto. split; auto.
        intros j J. rewrite O by auto. apply setAt_other. auto.
    Qed.

    Lemma lookers_race : (exists turns, race (run turns lookers)) <->
      exists i j ki kj key, i <> j /\ nth_error keyss i = Some ki /\ nth_error keyss j = Some kj /\ kj <> [] /\
        In key ki /\ missing keqb compute m0 key.
    Proof.
      split.
      - intros (turns & i & j & a & b & D & Na & Nb & Aa & Wb).
        destruct (linv_run turns _ linv_start) as [I1 I2 I3 I4].
        assert (P : forall x t, nth_error (threads (run turns lookers)) x = Some t -> exists keys, nth_error keyss x = Some keys).
        { intros x t T. destruct (nth_error keyss x) eqn:E; eauto. apply nth_error_None in E. apply nth_lt in T. lia. }
        destruct (P _ _ Na) as (ki & Ki). destruct (P _ _ Nb) as (kj & Kj).
        assert (Q := I3 _ _ _ Kj Nb). destruct b; cbn in Wb; try contradiction. inversion Q; subst.
        destruct H1 as (key & I & M). exists j, i, kj, ki, key. split; [auto|]. split; [auto|]. split; [auto|]. split; [|auto].
        intros ->. assert (a = Done []) by (eapply I4; eauto). subst. exact Aa.
      - intros (i & j & ki & kj & key & D & Ki & Kj & NE & I & M).
        destruct (first_missing _ _ I M) as (pre & key' & post & -> & M' & NM).
        assert (T : nth_error (map looker keyss) i = Some (looker (pre ++ key' :: post))) by (rewrite nth_error_map, Ki; auto).
        destruct (reach_change _ _ post M' NM _ _ _ T) as (n & f & g & ts' & h & R & N & O).
        exists (repeat i n). unfold lookers, start. rewrite R.
        assert (Tj : nth_error (map looker keyss) j = Some (looker kj)) by (rewrite nth_error_map, Kj; auto).
        destruct kj as [|k kj]; [congruence|]. unfold looker in Tj. cbn [map client] in Tj.
        destruct (l_looks L k (fun a => client method (map (fun k _ => k) kj) ([] ++ [a]))) as (gg & Lk).
        rewrite Lk in Tj. exists j, i, (Look gg), (Change f g). cbn. split; [auto|]. split; [|split; [auto|split; exact Logic.I]].
        rewrite O by auto. exact Tj.
    Qed.

    Record ginv (c : config (store K V) (list (option V))) : Prop := {
      gi_len : length (threads c) = length keyss;
      gi_right : rightMap keqb compute (shared c);
      gi_good : forall i keys t, nth_error keyss i = Some keys -> nth_error (threads c) i = Some t -> good (map compute keys) (shared c) t
    }.
    Lemma ginv_start : rightMap keqb compute m0 -> ginv lookers.
    Proof.
      intros R. constructor; cbn; auto.
      - apply map_length.
      - intros i keys t N T. rewrite nth_error_map, N in T. injection T as <-. apply client_good with (acc := []).
    Qed.
    Lemma ginv_step : forall i c c', ginv c -> stepThread i c = Some c' -> ginv c'.
    Proof.
      intros i c c' [I1 I2 I3] H. unfold stepThread in H.
      destruct (nth_error (threads c) i) as [t|] eqn:N; [|discriminate].
      assert (Lt := nth_lt _ _ _ N).
      assert (P : exists keys, nth_error keyss i = Some keys).
      { destruct (nth_error keyss i) eqn:E; eauto. apply nth_error_None in E. lia. }
      destruct P as (keys & P).
      assert (X : exists s' h' t', c' = mkConfig s' h' (setAt i t' (threads c)) /\ extends (shared c) s' /\ rightMap keqb compute s' /\ good (map compute keys) s' t').
      { assert (Q := I3 _ _ _ P N). destruct t as [r|k|k|k|f k]; try discriminate; inversion Q; subst.
        - destruct (holder c); [discriminate|]. injection H as <-. eexists _, _, _. split; [reflexivity|]. split; [apply extends_refl|]. split; auto.
        - injection H as <-. eexists _, _, _. split; [reflexivity|]. split; [apply extends_refl|]. split; auto.
        - injection H as <-. eexists _, _, _. split; [reflexivity|]. split; [apply extends_refl|]. split; auto. match goal with X : forall m', extends _ m' -> _ |- _ => apply X; auto; apply extends_refl end.
        - injection H as <-. eexists _, _, _. split; [reflexivity|]. match goal with X : forall m', extends _ m' -> _ |- _ => apply X; auto; apply extends_refl end. }
      destruct X as (s' & h' & t' & -> & E & R & Q). constructor; cbn; auto.
      - rewrite setAt_length. auto.
      - intros j ks u J T. destruct (Nat.eq_dec i j) as [->|D].
        + rewrite setAt_same in T by auto. congruence.
        + rewrite setAt_other in T by auto. eapply good_more; [eapply I3; eauto|auto].
    Qed.
    Lemma ginv_run : forall turns c, ginv c -> ginv (run turns c).
    Proof.
      induction turns as [|i turns IH]; intros c I; cbn; auto. apply IH.
      destruct (stepThread i c) eqn:E; auto. eapply ginv_step; eauto.
    Qed.
    Lemma lookers_answers : rightMap keqb compute m0 -> forall turns i keys r,
      nth_error keyss i = Some keys -> nth_error (threads (run turns lookers)) i = Some (Done r) -> r = map compute keys.
    Proof.
      intros R turns i keys r P T. destruct (ginv_run turns _ (ginv_start R)) as [_ _ G].
      specialize (G _ _ _ P T). inversion G. auto.
    Qed.
  End Method.

  Lemma gradient_lookup : lookup (fun key r => gradientCode K V keqb compute r key).
  Proof.
    constructor.
    - intros key r want m G. unfold gradientCode. apply g_look. intros m' E R.
      destruct (look key m') as [v|] eqn:Lk.
      + rewrite <- (R _ _ Lk). apply G. auto.
      + destruct (compute key) as [v|] eqn:C.
        * apply g_acquire. apply g_change. intros m2 E2 R2. destruct (look key m2) as [w|] eqn:L2.
          -- split; [apply extends_refl|]. split; auto. apply g_look. intros m3 E3 R3. apply g_release.
             rewrite (E3 _ _ L2). assert (w = v) by (specialize (R2 _ _ L2); congruence). subst w. apply G.
             eapply extends_trans; eauto. eapply extends_trans; eauto.
          -- split; [apply extends_add; auto|]. split; [apply right_add; auto|]. apply g_look. intros m3 E3 R3. apply g_release.
             rewrite (E3 _ _ (look_add m2 key v)). apply G. eapply extends_trans; eauto. eapply extends_trans; eauto.
             eapply extends_trans; [|exact E3]. apply extends_add. auto.
        * apply G. auto.
    - intros key r m0 keys I Q. unfold gradientCode. apply q_look. intros m E. destruct (look key m) as [v|] eqn:Lk; auto.
      destruct (compute key) as [v|] eqn:C; auto. apply q_acquire. apply q_change.
      + exists key. split; auto. split; [|congruence]. destruct (look key m0) eqn:L0; auto. rewrite (E _ _ L0) in Lk. discriminate.
      + intros m' E'. split.
        * destruct (look key m') eqn:L'; auto. eapply extends_trans; eauto. apply extends_add. auto.
        * apply q_look. intros m2 _. apply q_release. auto.
    - intros key r. eexists. reflexivity.
    - intros key r m i ts T. assert (Lt := nth_lt _ _ _ T). unfold missing.
      destruct (look key m) as [v|] eqn:Lk; [|destruct (compute key) as [v|] eqn:C].
      + exists 1. split; [intros (A & _); discriminate|]. intros _. exists (Some v). cbn. unfold stepThread. cbn. rewrite T.
        unfold gradientCode. rewrite Lk. reflexivity.
      + exists 2. split; [|intros A; exfalso; apply A; split; congruence]. intros _. cbn. unfold stepThread. cbn. rewrite T.
        unfold gradientCode. rewrite Lk, C. cbn. rewrite setAt_same by auto. cbn. eexists _, _, _, _. split; [reflexivity|]. split.
        * rewrite setAt_same by (rewrite setAt_length; auto). reflexivity.
        * intros j J. rewrite !setAt_other by auto. auto.
      + exists 1. split; [intros (_ & A); congruence|]. intros _. exists None. cbn. unfold stepThread. cbn. rewrite T.
        unfold gradientCode. rewrite Lk, C. reflexivity.
  Qed.

  Lemma setAt_twice : forall {X} i (x y : X) l, setAt i x (setAt i y l) = setAt i x l.
  Proof. induction i; intros x y [|z l]; cbn; auto. rewrite IHi. auto. Qed.

  Lemma elevation_lookup : lookup (fun key r => elevationCode K V keqb compute r key).
  Proof.
    constructor.
    - intros key r want m G. unfold elevationCode. apply g_look. intros m' E R.
      destruct (look key m') as [v|] eqn:Lk.
      + rewrite <- (R _ _ Lk). apply G. auto.
      + apply g_acquire. apply g_look. intros m2 E2 R2. destruct (look key m2) as [w|] eqn:L2.
        * apply g_release. apply g_look. intros m3 E3 R3. rewrite (E3 _ _ L2). rewrite <- (R2 _ _ L2). apply G.
          eapply extends_trans; eauto. eapply extends_trans; eauto.
        * destruct (compute key) as [v|] eqn:C.
          -- apply g_change. intros m3 E3 R3. assert (E' : extends m m3) by (eapply extends_trans; eauto; eapply extends_trans; eauto).
             destruct (look key m3) as [w|] eqn:L3.
             ++ split; [apply extends_refl|]. split; auto. apply g_release, g_look. intros m4 E4 R4.
                rewrite (E4 _ _ L3). assert (w = v) by (specialize (R3 _ _ L3); congruence). subst w. apply G. eapply extends_trans; eauto.
             ++ split; [apply extends_add; auto|]. split; [apply right_add; auto|]. apply g_release, g_look. intros m4 E4 R4.
                rewrite (E4 _ _ (look_add m3 key v)). apply G. eapply extends_trans; eauto.
                eapply extends_trans; [|exact E4]. apply extends_add. auto.
          -- apply g_release. apply G. eapply extends_trans; eauto.
    - intros key r m0 keys I Q. unfold elevationCode. apply q_look. intros m E. destruct (look key m) as [v|] eqn:Lk; auto.
      apply q_acquire. apply q_look. intros m2 E2. destruct (look key m2) as [w|] eqn:L2.
      + apply q_release, q_look. auto.
      + destruct (compute key) as [v|] eqn:C; [|apply q_release; auto]. apply q_change.
        * exists key. split; auto. split; [|congruence]. destruct (look key m0) eqn:L0; auto. rewrite (E _ _ L0) in Lk. discriminate.
        * intros m' E'. split.
          -- destruct (look key m') eqn:L'; auto. eapply extends_trans; eauto. apply extends_add. auto.
          -- apply q_release, q_look. auto.
    - intros key r. eexists. reflexivity.
    - intros key r m i ts T. assert (Lt := nth_lt _ _ _ T). unfold missing.
      destruct (look key m) as [v|] eqn:Lk; [|destruct (compute key) as [v|] eqn:C].
      + exists 1. split; [intros (A & _); discriminate|]. intros _. exists (Some v). cbn. unfold stepThread. cbn. rewrite T.
        unfold elevationCode. rewrite Lk. reflexivity.
      + exists 3. split; [|intros A; exfalso; apply A; split; congruence]. intros _. cbn. unfold stepThread. cbn. rewrite T.
        unfold elevationCode. rewrite Lk. cbn. rewrite setAt_same by auto. cbn. rewrite setAt_same by (rewrite setAt_length; auto). cbn.
        rewrite Lk, C. eexists _, _, _, _. split; [reflexivity|]. split.
        * rewrite setAt_same by (rewrite !setAt_length; auto). reflexivity.
        * intros j J. rewrite !setAt_other by auto. auto.
      + exists 4. split; [intros (_ & A); congruence|]. intros _. exists None. cbn. unfold stepThread. cbn. rewrite T.
        unfold elevationCode. rewrite Lk. cbn. rewrite setAt_same by auto. cbn. rewrite setAt_same by (rewrite setAt_length; auto). cbn.
        rewrite Lk, C. rewrite setAt_same by (rewrite !setAt_length; auto). cbn. rewrite !setAt_twice. reflexivity.
  Qed.
End Lazy.
