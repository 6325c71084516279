(** Proofs about threads which use one tile. *)
From Verif Require Import Base Bytes GeoModel ElementModel LruModel StoreModel ThreadModel ThreadSpec ThreadProofs TileThreadModel TileThreadSpec.
Local Open Scope nat_scope.

(** * One thread alone *)
Section Alone.
  Context {S R : Type}.
  (** The thread can go from one code to another alone, with these states. *)
  Definition goes (c : code S R) (s : S) (c' : code S R) (s' : S) : Prop :=
    forall i ts h, nth_error ts i = Some c -> exists n, run (repeat i n) (mkConfig s h ts) = mkConfig s' h (setAt i c' ts).
  Lemma setAt_id : forall {X} i (x : X) l, nth_error l i = Some x -> setAt i x l = l.
  Proof. induction i; intros x [|y l] H; cbn in *; try discriminate; auto; [congruence|]. rewrite IHi; auto. Qed.
  Lemma setAt_set : forall {X} i (x y : X) l, setAt i x (setAt i y l) = setAt i x l.
  Proof. induction i; intros x y [|z l]; cbn; auto. rewrite IHi. auto. Qed.
  Lemma goes_refl : forall c s, goes c s c s.
  Proof. intros c s i ts h N. exists 0. cbn. rewrite setAt_id; auto. Qed.
  Lemma goes_trans : forall c1 s1 c2 s2 c3 s3, goes c1 s1 c2 s2 -> goes c2 s2 c3 s3 -> goes c1 s1 c3 s3.
  Proof.
    intros c1 s1 c2 s2 c3 s3 A B i ts h N. destruct (A i ts h N) as (n & E1).
    destruct (B i (setAt i c2 ts) h) as (m & E2); [apply setAt_same; eapply nth_lt; eauto|].
    exists (n + m). rewrite repeat_app, run_app, E1, E2, setAt_set. auto.
  Qed.
  Lemma goes_look : forall g s c' s', goes (g s) s c' s' -> goes (Look g) s c' s'.
  Proof.
    intros g s c' s' A. eapply goes_trans; [|exact A]. intros i ts h N. exists 1. cbn. unfold stepThread. cbn. rewrite N. reflexivity.
  Qed.
  Lemma goes_change : forall f g s c' s', goes (g s) (f s) c' s' -> goes (Change f g) s c' s'.
  Proof.
    intros f g s c' s' A. eapply goes_trans; [|exact A]. intros i ts h N. exists 1. cbn. unfold stepThread. cbn. rewrite N. reflexivity.
  Qed.
End Alone.

Section Tile.
  Context {R : Type}.
  Implicit Type k : tanswer -> code tile R.
  Lemma tile_eta : forall t, mkTile (mkHandle (dpos (streams t)) (ipos (streams t))) (filesOf t) = t.
  Proof. intros [[d i] f]. reflexivity. Qed.
  Lemma entry_alone : forall (r : outcome element -> code tile R) t,
    exists t', goes (entryCode r) t (r (omap fst (bind (readIndexEntry (filesOf t) (ipos (streams t))) (fun '(id, off, n) =>
      bind (readAt (filesOf t) id off) (fun '(e, m) => Ok (e, mkHandle m n)))))) t' /\
    forall e h, bind (readIndexEntry (filesOf t) (ipos (streams t))) (fun '(id, off, n) =>
      bind (readAt (filesOf t) id off) (fun '(e, m) => Ok (e, mkHandle m n))) = Ok (e, h) -> t' = mkTile h (filesOf t).
  Proof.
    intros r t. unfold entryCode.
    destruct (readIndexEntry (filesOf t) (ipos (streams t))) as [[[id off] n]|x|] eqn:E; cbn [bind omap].
    - destruct (readAt (filesOf t) id off) as [[e m]|x|] eqn:A; cbn [bind omap fst].
      + eexists. split.
        * apply goes_change. rewrite E. apply goes_change. apply goes_change. cbn. rewrite N2Nat.id, A. cbn. apply goes_refl.
        * intros e' h H. injection H as <- <-. reflexivity.
      + eexists. split; [|discriminate].
        apply goes_change. rewrite E. apply goes_change. apply goes_change. cbn. rewrite N2Nat.id, A. cbn. apply goes_refl.
      + eexists. split; [|discriminate].
        apply goes_change. rewrite E. apply goes_change. apply goes_change. cbn. rewrite N2Nat.id, A. cbn. apply goes_refl.
    - eexists. split; [|discriminate]. apply goes_change. rewrite E. apply goes_refl.
    - eexists. split; [|discriminate]. apply goes_change. rewrite E. apply goes_refl.
  Qed.

  Lemma entries_alone : forall k n i found t,
    exists t', goes (entriesCode k n found) t
      (k (TFound (omap (fun p => found ++ fst p) (readEntries never (filesOf t) i n (streams t))))) t' /\
    forall es h, readEntries never (filesOf t) i n (streams t) = Ok (es, h) -> t' = mkTile h (filesOf t).
  Proof.
    intros k. induction n as [|n IH]; intros i found t; cbn [entriesCode readEntries].
    - exists t. cbn. rewrite app_nil_r. split; [apply goes_refl|]. intros es h H. injection H as <- <-. destruct t; auto.
    - change (never i) with false. cbv iota.
      destruct (entry_alone (fun a => match a with
                                  | Ok e => entriesCode k n (found ++ [e])
                                  | Throw x => k (TFound (Throw x))
                                  | UB => k (TFound UB)
                                  end) t) as (t1 & G1 & E1).
      destruct (readIndexEntry (filesOf t) (ipos (streams t))) as [[[id off] ip]|x|]; cbn [bind omap fst] in *; eauto;
        try (exists t1; split; [exact G1|discriminate]).
      destruct (readAt (filesOf t) id off) as [[e dp]|x|]; cbn [bind omap fst] in *; try (exists t1; split; [exact G1|discriminate]).
      specialize (E1 _ _ eq_refl). subst t1.
      destruct (IH (S i) (found ++ [e]) (mkTile (mkHandle dp ip) (filesOf t))) as (t2 & G2 & E2). cbn [filesOf streams] in *.
      exists t2. destruct (readEntries never (filesOf t) (S i) n (mkHandle dp ip)) as [[es h]|x|]; cbn [bind omap fst] in *.
      + split.
        * eapply goes_trans; [exact G1|]. rewrite <- app_assoc in G2. exact G2.
        * intros es' h' H. injection H as <- <-. apply (E2 es). auto.
      + split; [|discriminate]. eapply goes_trans; [exact G1|exact G2].
      + split; [|discriminate]. eapply goes_trans; [exact G1|exact G2].
  Qed.

  Lemma call_alone : forall c k t, exists t', goes (tileMethod k c) t (k (fst (tileAlone c t))) t' /\
    forall u, snd (tileAlone c t) = Some u -> t' = u.
  Proof.
    intros c k t. destruct c as [|e|order]; cbn [tileMethod tileAlone].
    - unfold searchCode.
      destruct (entries_alone k (N.to_nat (u32 (N.of_nat (ipos (streams t) / entrySize)))) 0 [] (seekIndex 0 t)) as (t' & G & E).
      cbn [filesOf streams seekIndex] in *. exists t'.
      destruct (readEntries never (filesOf t) 0 (N.to_nat (u32 (N.of_nat (ipos (streams t) / entrySize)))) (mkHandle (dpos (streams t)) 0)) as [[es h]|x|];
        cbn [omap fst snd app] in *.
      + split; [apply goes_look, goes_change; exact G|]. intros u H. injection H as <-. apply (E es). auto.
      + split; [apply goes_look, goes_change; exact G|discriminate].
      + split; [apply goes_look, goes_change; exact G|discriminate].
    - unfold saveCode. eexists. split.
      + apply goes_look, goes_look, goes_change, goes_change, goes_change, goes_change, goes_change. apply goes_refl.
      + intros u H. injection H as <-. unfold appendData, appendIndex, seekData, seekIndex. cbn. rewrite <- !app_assoc. reflexivity.
    - unfold notifyCode.
      destruct (entry_alone (fun a => k (TFound (omap (fun e => [e]) a))) (seekIndex (N.to_nat order * entrySize) t)) as (t' & G & E).
      cbn [filesOf streams seekIndex ipos] in *. exists t'.
      destruct (bind (readIndexEntry (filesOf t) (N.to_nat order * entrySize)) _) as [[e h]|x|] eqn:B in *; cbn [omap fst snd] in *.
      + split; [apply goes_change; exact G|]. intros u H. injection H as <-. apply (E e h). auto.
      + split; [apply goes_change; exact G|discriminate].
      + split; [apply goes_change; exact G|discriminate].
  Qed.
End Tile.

(** * Races *)
Section Idle.
  Context {S C A : Type}.
  Variable method : C -> (A -> code S (list A)) -> code S (list A).
  Definition worker (p : list C) : code S (list A) := client method (map (fun c _ => c) p) [].
  Lemma idle_run : forall programs turns (s : S) i, nth_error programs i = Some [] ->
    nth_error (threads (run turns (start s (map worker programs)))) i = Some (Done []).
  Proof.
    intros programs turns s i N.
    assert (G : forall c, nth_error (threads c) i = Some (Done []) -> nth_error (threads (run turns c)) i = Some (Done (S:=S) (R:=list A) [])).
    { induction turns as [|j turns IH]; intros c H; cbn; auto. apply IH. destruct (stepThread j c) as [c'|] eqn:E; auto.
      unfold stepThread in E. destruct (Nat.eq_dec j i) as [->|D]; [rewrite H in E; discriminate|].
      destruct (nth_error (threads c) j) as [[]|]; try discriminate; [destruct (holder c); [discriminate|]| | |];
        injection E as <-; cbn; rewrite setAt_other; auto. }
    apply G. cbn. rewrite nth_error_map, N. reflexivity.
  Qed.
  Lemma run_length : forall turns (c : config S (list A)), length (threads (run turns c)) = length (threads c).
  Proof.
    induction turns as [|j turns IH]; intros c; cbn; auto. rewrite IH. destruct (stepThread j c) as [c'|] eqn:E; auto.
    unfold stepThread in E. destruct (nth_error (threads c) j) as [[]|]; try discriminate; [destruct (holder c); [discriminate|]| | |];
        injection E as <-; cbn; apply setAt_length.
  Qed.
End Idle.

Lemma first_write : forall c (k : tanswer -> code tile (list tanswer)) t ts i, nth_error ts i = Some (tileMethod k c) ->
  exists n f g ts', run (repeat i n) (mkConfig t None ts) = mkConfig t None ts' /\
    nth_error ts' i = Some (Change f g) /\ forall j, j <> i -> nth_error ts' j = nth_error ts j.
Proof.
  intros c k t ts i N. assert (Lt := nth_lt _ _ _ N). destruct c as [|e|order]; cbn [tileMethod] in N.
  - exists 1. unfold searchCode in N. cbn. unfold stepThread. cbn. rewrite N. eexists _, _, _. split; [reflexivity|].
    split; [apply setAt_same; auto|]. intros j J. apply setAt_other. auto.
  - exists 2. unfold saveCode in N. cbn. unfold stepThread. cbn. rewrite N. cbn. rewrite setAt_same by auto. eexists _, _, _. split; [reflexivity|].
    split; [apply setAt_same; rewrite setAt_length; auto|]. intros j J. rewrite !setAt_other by auto. auto.
  - exists 0. unfold notifyCode in N. cbn. eexists _, _, _. split; [reflexivity|]. split; [exact N|]. auto.
Qed.
Lemma tile_race : forall t programs,
  (exists turns, race (run turns (tileThreads t programs))) <->
  exists i j p q, i <> j /\ nth_error programs i = Some p /\ nth_error programs j = Some q /\ p <> [] /\ q <> [].
Proof.
  intros t programs. split.
  - intros (turns & i & j & a & b & D & Na & Nb & Aa & Wb).
    assert (P : forall x u, nth_error (threads (run turns (tileThreads t programs))) x = Some u -> accesses u ->
              exists p, nth_error programs x = Some p /\ p <> []).
    { intros x u U Ac. destruct (nth_error programs x) as [p|] eqn:E.
      - exists p. split; auto. intros ->. assert (Q := idle_run (fun c k => tileMethod k c) programs turns t x E).
        change (start t (map (worker (fun c k => tileMethod k c)) programs)) with (tileThreads t programs) in Q.
        assert (u = Done []) by congruence. subst u. exact Ac.
      - apply nth_error_None in E. apply nth_lt in U. rewrite run_length in U. unfold tileThreads in U. cbn in U. rewrite map_length in U. lia. }
    assert (Ab : accesses b) by (destruct b; cbn in *; tauto).
    destruct (P _ _ Na Aa) as (p & P1 & P2). destruct (P _ _ Nb Ab) as (q & Q1 & Q2). exists i, j, p, q. auto.
  - intros (i & j & p & q & D & Pi & Pj & Np & Nq).
    destruct p as [|c p]; [congruence|]. destruct q as [|d q]; [congruence|].
    assert (Ti : nth_error (threads (tileThreads t programs)) i = Some (worker (fun c k => tileMethod k c) (c :: p))).
    { unfold tileThreads. cbn. rewrite nth_error_map, Pi. reflexivity. }
    assert (Tj : nth_error (threads (tileThreads t programs)) j = Some (worker (fun c k => tileMethod k c) (d :: q))).
    { unfold tileThreads. cbn. rewrite nth_error_map, Pj. reflexivity. }
    unfold worker in Ti, Tj. cbn [map client] in Ti, Tj.
    destruct (first_write _ _ t _ _ Ti) as (n & f & g & ts & Rn & Tn & To).
    exists (repeat i n). unfold tileThreads, start in *. cbn [threads] in *. rewrite Rn.
    eexists j, i, _, _. cbn [threads]. split; [auto|]. split; [rewrite To by auto; exact Tj|]. split; [exact Tn|].
    split; [|exact I]. destruct d; exact I.
Qed.

(** * The cache of open tiles *)
Section Cache.
  Context {X D : Type}.
  Variable open : N -> X -> D * X.
  Variable clear : X -> X.
  Notation CD := (code X (list (option D))).
  (** Code of a thread which flushes ([fl]) or not, outside or inside of a section. *)
  Inductive tidy (fl : Prop) : bool -> CD -> Prop :=
  | t_done : forall r, tidy fl false (Done r)
  | t_acquire : forall k, tidy fl true k -> tidy fl false (Acquire k)
  | t_release : forall k, tidy fl false k -> tidy fl true (Release k)
  | t_look : forall g, (forall x, tidy fl true (g x)) -> tidy fl true (Look g)
  | t_change : forall f g, (forall x, tidy fl true (g x)) -> tidy fl true (Change f g)
  | t_flush : forall f g, fl -> (forall x, tidy fl false (g x)) -> tidy fl false (Change f g).
  Notation worker := (worker (fun c k => cacheMethod X D open clear k c)).
  Lemma worker_tidy : forall p all acc, incl p all -> tidy (In CFlush all) false (client (fun c k => cacheMethod X D open clear k c) (map (fun c _ => c) p) acc).
  Proof.
    induction p as [|c p IH]; intros all acc I; cbn [map client]; [constructor|].
    assert (I' : incl p all) by (intros y Y; apply I; right; auto).
    destruct c as [key|]; cbn [cacheMethod].
    - constructor. constructor. intros x. constructor. intros y. constructor. apply IH. auto.
    - apply t_flush; [apply I; left; auto|]. intros x. apply IH. auto.
  Qed.
  Variable programs : list (list ccall).
  Record cinv (c : config X (list (option D))) : Prop := {
    ci_len : length (threads c) = length programs;
    ci_tidy : forall i p t, nth_error programs i = Some p -> nth_error (threads c) i = Some t ->
      tidy (In CFlush p) (match holder c with Some h => Nat.eqb h i | None => false end) t
  }.
  Lemma cinv_start : forall x, cinv (start x (map worker programs)).
  Proof.
    intros x. constructor; cbn; [apply map_length|]. intros i p t P T. rewrite nth_error_map, P in T. injection T as <-.
    apply worker_tidy. apply incl_refl.
  Qed.
  Lemma cinv_step : forall i c c', cinv c -> stepThread i c = Some c' -> cinv c'.
  Proof.
    intros i c c' [I1 I2] H. unfold stepThread in H. destruct (nth_error (threads c) i) as [t|] eqn:N; [|discriminate].
    assert (Lt := nth_lt _ _ _ N).
    destruct (nth_error programs i) as [p|] eqn:P; [|apply nth_error_None in P; lia].
    assert (T := I2 _ _ _ P N).
    destruct t as [r|k|k|k|f k]; try discriminate.
    - destruct (holder c) as [h|] eqn:Hc; [discriminate|]. injection H as <-. inversion T; subst.
      constructor; cbn; [rewrite setAt_length; auto|]. intros j q u Q U. destruct (Nat.eq_dec i j) as [->|Ne].
      + rewrite setAt_same in U by auto. injection U as <-. rewrite Nat.eqb_refl. congruence.
      + rewrite setAt_other in U by auto. destruct (Nat.eqb_spec i j); [contradiction|]. apply (I2 _ _ _ Q U).
    - injection H as <-. inversion T as [| |? T'| | |]; subst. destruct (holder c) as [h|] eqn:Hc; [|discriminate].
      assert (E : (h =? i) = true) by congruence. apply Nat.eqb_eq in E. subst h.
      constructor; cbn; [rewrite setAt_length; auto|]. intros j q u Q U. destruct (Nat.eq_dec i j) as [->|Ne].
      + rewrite setAt_same in U by auto. injection U as <-. congruence.
      + rewrite setAt_other in U by auto. specialize (I2 _ _ _ Q U). destruct (Nat.eqb_spec i j); [contradiction|]. exact I2.
    - injection H as <-. constructor; cbn; [rewrite setAt_length; auto|]. intros j q u Q U. destruct (Nat.eq_dec i j) as [->|Ne].
      + rewrite setAt_same in U by auto. injection U as <-. assert (q = p) by congruence. subst q. inversion T; auto.
      + rewrite setAt_other in U by auto. apply (I2 _ _ _ Q U).
    - injection H as <-. constructor; cbn; [rewrite setAt_length; auto|]. intros j q u Q U. destruct (Nat.eq_dec i j) as [->|Ne].
      + rewrite setAt_same in U by auto. injection U as <-. assert (q = p) by congruence. subst q. inversion T; auto.
      + rewrite setAt_other in U by auto. apply (I2 _ _ _ Q U).
  Qed.
  Lemma cinv_run : forall turns c, cinv c -> cinv (run turns c).
  Proof. induction turns as [|i turns IH]; intros c I; cbn; auto. apply IH. destruct (stepThread i c) eqn:E; auto. eapply cinv_step; eauto. Qed.

  (** The cache may change before the flush, the mutex is free then. *)
  Lemma reach_flush : forall p acc i x ts, In CFlush p ->
    nth_error ts i = Some (client (fun c k => cacheMethod X D open clear k c) (map (fun c _ => c) p) acc) ->
    exists n x' ts' f g, run (repeat i n) (mkConfig x None ts) = mkConfig x' None ts' /\ nth_error ts' i = Some (Change f g) /\
      forall j, j <> i -> nth_error ts' j = nth_error ts j.
  Proof.
    induction p as [|c p IH]; intros acc i x ts I T; [destruct I|]. cbn [map client] in T. assert (Lt := nth_lt _ _ _ T).
    destruct c as [key|]; cbn [cacheMethod] in T.
    - destruct I as [I|I]; [discriminate|].
      set (ts1 := setAt i (client (fun c k => cacheMethod X D open clear k c) (map (fun c _ => c) p) (acc ++ [Some (fst (open key x))])) ts).
      assert (T1 : nth_error ts1 i = Some (client (fun c k => cacheMethod X D open clear k c) (map (fun c _ => c) p) (acc ++ [Some (fst (open key x))])))
        by (apply setAt_same; auto).
      destruct (IH _ i (snd (open key x)) ts1 I T1) as (n & x' & ts' & f & g & E1 & E2 & E3).
      exists (4 + n), x', ts', f, g. split; [|split; [auto|]].
      + rewrite repeat_app, run_app. rewrite <- E1. f_equal. cbn. unfold stepThread. cbn. rewrite T. cbn.
        rewrite setAt_same by auto. cbn. rewrite setAt_same by (rewrite setAt_length; auto). cbn.
        rewrite setAt_same by (rewrite !setAt_length; auto). cbn. rewrite !setAt_set. reflexivity.
      + intros j J. rewrite E3 by auto. apply setAt_other. auto.
    - exists 0. cbn. eexists _, _, _, _. split; [reflexivity|]. split; [exact T|]. auto.
  Qed.

  Lemma cache_race : forall x,
    (exists turns, race (run turns (cacheThreads open clear x programs))) <->
    exists i j p q, i <> j /\ nth_error programs i = Some p /\ nth_error programs j = Some q /\ In CFlush p /\ q <> [].
  Proof.
    intros x. split.
    - intros (turns & i & j & a & b & Dij & Na & Nb & Aa & Wb).
      destruct (cinv_run turns _ (cinv_start x)) as [I1 I2].
      assert (P : forall y u, nth_error (threads (run turns (cacheThreads open clear x programs))) y = Some u -> accesses u ->
              exists p, nth_error programs y = Some p /\ p <> [] /\
                (In CFlush p \/ holder (run turns (cacheThreads open clear x programs)) = Some y)).
      { intros y u U Ac. destruct (nth_error programs y) as [p|] eqn:E.
        - exists p. split; auto. split.
          + intros ->. assert (Q := idle_run (fun c k => cacheMethod X D open clear k c) programs turns x y E).
            change (start x (map worker programs)) with (cacheThreads open clear x programs) in Q.
            assert (u = Done []) by congruence. subst u. exact Ac.
          + specialize (I2 _ _ _ E U).
            change (start x (map worker programs)) with (cacheThreads open clear x programs) in I2.
            destruct (holder (run turns (cacheThreads open clear x programs))) as [h|] eqn:Hh.
            * destruct (Nat.eqb_spec h y); [right; congruence|]. inversion I2; subst; auto; contradiction.
            * inversion I2; subst; auto; contradiction.
        - apply nth_error_None in E. apply nth_lt in U. rewrite run_length in U. unfold cacheThreads in U. cbn in U. rewrite map_length in U. lia. }
      assert (Ab : accesses b) by (destruct b; cbn in *; tauto).
      destruct (P _ _ Na Aa) as (p & P1 & P2 & P3). destruct (P _ _ Nb Ab) as (q & Q1 & Q2 & Q3).
      destruct P3 as [P3|P3]; [exists i, j, p, q; auto|]. destruct Q3 as [Q3|Q3]; [exists j, i, q, p; auto|]. congruence.
    - intros (i & j & p & q & Dij & Pi & Pj & Fl & Nq).
      assert (Ti : nth_error (threads (cacheThreads open clear x programs)) i = Some (worker p)).
      { unfold cacheThreads. cbn. rewrite nth_error_map, Pi. reflexivity. }
      assert (Tj : nth_error (threads (cacheThreads open clear x programs)) j = Some (worker q)).
      { unfold cacheThreads. cbn. rewrite nth_error_map, Pj. reflexivity. }
      destruct (reach_flush p [] i x _ Fl Ti) as (n & x' & ts & f & g & R1 & R2 & R3).
      destruct q as [|d q]; [congruence|]. unfold TileThreadProofs.worker in Tj. cbn [map client] in Tj. rewrite <- R3 in Tj by auto.
      assert (Lj := nth_lt _ _ _ Tj).
      destruct d as [key|]; cbn [cacheMethod] in Tj.
      + exists (repeat i n ++ [j]). rewrite run_app. unfold cacheThreads, start in *. cbn [threads] in *. rewrite R1. cbn [run].
        unfold stepThread. cbn [threads holder]. rewrite Tj. eexists j, i, _, _. cbn [threads]. split; [auto|].
        split; [apply setAt_same; auto|]. split; [rewrite setAt_other by auto; exact R2|]. split; exact I.
      + exists (repeat i n). unfold cacheThreads, start in *. cbn [threads] in *. rewrite R1.
        eexists j, i, _, _. cbn [threads]. split; [auto|]. split; [exact Tj|]. split; [exact R2|]. split; exact I.
  Qed.
End Cache.
