(** Proofs about threads. *)
From Verif Require Import Base Bytes LruModel StringModel StringSpec MeshModel BuildModel ThreadModel ThreadSpec.
Local Open Scope nat_scope.

Section SetAt.
  Context {A : Type}.
  Lemma setAt_length : forall i (x : A) l, length (setAt i x l) = length l.
  Proof. induction i; intros x [|y l]; cbn; auto. Qed.
  Lemma setAt_same : forall i (x : A) l, i < length l -> nth_error (setAt i x l) i = Some x.
  Proof. induction i; intros x [|y l] H; cbn in *; auto; try lia. apply IHi. lia. Qed.
  Lemma setAt_other : forall i j (x : A) l, i <> j -> nth_error (setAt i x l) j = nth_error l j.
  Proof. induction i; intros [|j] x [|y l] H; cbn; auto; try congruence. Qed.
  Lemma setAt_in : forall i (x : A) l y, In y (setAt i x l) -> y = x \/ In y l.
  Proof.
    induction i; intros x [|z l] y H; cbn in *; auto.
    - destruct H; auto.
    - destruct H as [H|H]; auto. destruct (IHi _ _ _ H); auto.
  Qed.
End SetAt.
Lemma nth_lt {A} : forall (l : list A) i x, nth_error l i = Some x -> i < length l.
Proof. intros l i x H. apply nth_error_Some. congruence. Qed.

Section Steps.
  Context {S R : Type}.
  (** ** Every execution ends *)
  Inductive sub : code S R -> code S R -> Prop :=
  | sub_acquire : forall k, sub k (Acquire k)
  | sub_release : forall k, sub k (Release k)
  | sub_look : forall k s, sub (k s) (Look k)
  | sub_change : forall f k s, sub (k s) (Change f k).
  Lemma sub_wf : forall c, Acc sub c.
  Proof. induction c; constructor; intros y Y; inversion Y; subst; auto. Qed.
  Definition subs (l' l : list (code S R)) : Prop :=
    exists i c c', nth_error l i = Some c /\ sub c' c /\ l' = setAt i c' l.
  Lemma subs_wf : forall l, Acc subs l.
  Proof.
    induction l as [|x l IH].
    - constructor. intros y (i & c & c' & N & _). destruct i; discriminate.
    - revert l IH. induction (sub_wf x) as [x _ IHx]. intros l IH. induction IH as [l Hl IHl].
      constructor. intros y (i & c & c' & N & S1 & ->). destruct i as [|i]; cbn in N |- *.
      + injection N as ->. apply IHx; auto. constructor. exact Hl.
      + apply IHl. exists i, c, c'. auto.
  Qed.
  Lemma step_sub : forall i (c c' : config S R), stepThread i c = Some c' -> subs (threads c') (threads c).
  Proof.
    intros i c c' H. unfold stepThread in H. destruct (nth_error (threads c) i) as [x|] eqn:N; [|discriminate].
    exists i, x. destruct x as [r|k|k|k|f k]; try discriminate.
    - destruct (holder c); [discriminate|]. injection H as <-. exists k. repeat split; auto. constructor.
    - injection H as <-. exists k. repeat split; auto. constructor.
    - injection H as <-. exists (k (shared c)). repeat split; auto. constructor.
    - injection H as <-. exists (k (shared c)). repeat split; auto. constructor.
  Qed.
  Lemma steps_end : forall c : config S R, Acc (fun c' c => steps c c') c.
  Proof.
    intros c. remember (threads c) as l eqn:E. revert c E. induction (subs_wf l) as [l _ IH]. intros c ->.
    constructor. intros c' (i & H). apply (IH (threads c')); auto. apply (step_sub i); auto.
  Qed.
  Lemma run_app : forall t1 t2 (c : config S R), run (t1 ++ t2) c = run t2 (run t1 c).
  Proof. induction t1; intros; cbn; auto. Qed.

  (** ** Running a section alone *)
  Fixpoint finish (c : code S R) (s : S) : code S R * S :=
    match c with
    | Done r => (Done r, s)
    | Acquire k => (Acquire k, s)
    | Release k => (k, s)
    | Look k => finish (k s) s
    | Change f k => finish (k s) (f s)
    end.
  (** Code with the mutex held: accesses, then the release and how it goes on. *)
  Inductive inside {A} (k : A -> code S R) : code S R -> Prop :=
  | in_release : forall a, inside k (Release (k a))
  | in_look : forall g, (forall s, inside k (g s)) -> inside k (Look g)
  | in_change : forall f g, (forall s, inside k (g s)) -> inside k (Change f g).
End Steps.

Section Order.
  Context {S C A : Type}.
  Variable alone : C -> S -> A * S.
  Variable method : C -> (A -> code S (list A)) -> code S (list A).
  (** A method locks, uses the object and unlocks, and its section does what the call does alone. *)
  Definition guarded : Prop := forall c k, exists body,
    method c k = Acquire body /\ inside k body /\
    forall s, finish body s = (k (fst (alone c s)), snd (alone c s)).
  Hypothesis G : guarded.

  Lemma oneByOne_app : forall cs1 cs2 s,
    oneByOne alone s (cs1 ++ cs2) =
      (fst (oneByOne alone s cs1) ++ fst (oneByOne alone (snd (oneByOne alone s cs1)) cs2),
       snd (oneByOne alone (snd (oneByOne alone s cs1)) cs2)).
  Proof.
    induction cs1 as [|c cs1 IH]; intros cs2 s; cbn.
    - destruct (oneByOne alone s cs2); auto.
    - destruct (alone c s) as [a s1]. rewrite IH. destruct (oneByOne alone s1 cs1) as [r1 s2]. cbn.
      destruct (oneByOne alone s2 cs2); auto.
  Qed.

  Variable s0 : S.
  Variable programs : list (list (list A -> C)).
  Definition after (log : list (entry C A)) : S := snd (oneByOne alone s0 (map what log)).
  Definition answersOf (i : nat) (log : list (entry C A)) : list A := map got (ofThread i log).
  (** A thread between two calls. *)
  Definition between (i : nat) (program : list (list A -> C)) (log : list (entry C A)) (t : code S (list A)) : Prop :=
    t = client method (skipn (length (ofThread i log)) program) (answersOf i log) /\
    length (ofThread i log) <= length program.

  Record inv (turns : list nat) (log : list (entry C A)) (c : config S (list A)) : Prop := {
    i_len : length (threads c) = length programs;
    i_answers : map got log = fst (oneByOne alone s0 (map what log));
    i_order : forall i program, nth_error programs i = Some program -> follows program (ofThread i log);
    i_who : forall e, In e log -> who e < length programs /\ In (who e) turns;
    i_holder : forall h, holder c = Some h -> h < length programs /\ In h turns;
    i_free : holder c = None -> shared c = after log;
    i_between : forall i program t, nth_error programs i = Some program -> nth_error (threads c) i = Some t ->
      holder c <> Some i -> between i program log t;
    i_inside : forall h program t, holder c = Some h -> nth_error programs h = Some program -> nth_error (threads c) h = Some t ->
      exists g rest, skipn (length (ofThread h log)) program = g :: rest /\
        let k := fun a => client method rest (answersOf h log ++ [a]) in
        let call := g (answersOf h log) in
        inside k t /\ finish t (shared c) = (k (fst (alone call (after log))), snd (alone call (after log)))
  }.

  Lemma start_inv : inv [] [] (start s0 (map (fun p => client method p []) programs)).
  Proof.
    constructor; cbn; auto; try discriminate; try tauto.
    - apply map_length.
    - intros i p H k e E. destruct k; discriminate.
    - intros i p t N T _. rewrite nth_error_map, N in T. injection T as <-. split; cbn; auto. lia.
  Qed.

  Lemma skipn_cons : forall {X} n (l : list X) x r, skipn n l = x :: r -> nth_error l n = Some x /\ skipn (n + 1) l = r /\ n < length l.
  Proof.
    induction n; intros [|y l] x r H; cbn in *; try discriminate.
    - injection H as -> ->. repeat split; auto. lia.
    - destruct (IHn _ _ _ H) as (Q1 & Q2 & Q3). repeat split; auto. lia.
  Qed.
  Lemma skipn_nil_ge : forall {X} n (l : list X), skipn n l = [] -> length l <= n.
  Proof. induction n; intros [|y l] H; cbn in *; try lia; try discriminate. specialize (IHn _ H). lia. Qed.
  Lemma between_case : forall i p log t, between i p log t ->
    (t = Done (answersOf i log) /\ length (ofThread i log) = length p) \/
    (exists g rest, skipn (length (ofThread i log)) p = g :: rest /\
       t = method (g (answersOf i log)) (fun a => client method rest (answersOf i log ++ [a]))).
  Proof.
    intros i p log t (-> & L). destruct (skipn (length (ofThread i log)) p) as [|g rest] eqn:E.
    - left. split; auto. apply skipn_nil_ge in E. lia.
    - right. exists g, rest. split; auto.
  Qed.
  Lemma between_shape : forall i p log t, between i p log t -> (exists r, t = Done r) \/ exists b, t = Acquire b.
  Proof.
    intros i p log t B. destruct (between_case _ _ _ _ B) as [(-> & _)|(g & rest & _ & ->)]; [left; eauto|right].
    destruct (G (g (answersOf i log)) (fun a => client method rest (answersOf i log ++ [a]))) as (b & -> & _). eauto.
  Qed.
  Lemma ofThread_app : forall i (l1 l2 : list (entry C A)), ofThread i (l1 ++ l2) = ofThread i l1 ++ ofThread i l2.
  Proof. intros. apply filter_app. Qed.

  Lemma program_of : forall i (c : config S (list A)) t, length (threads c) = length programs ->
    nth_error (threads c) i = Some t -> exists p, nth_error programs i = Some p.
  Proof.
    intros i c t L N. apply nth_lt in N. rewrite L in N. destruct (nth_error programs i) eqn:E; eauto.
    apply nth_error_None in E. lia.
  Qed.
  Lemma more_turns : forall turns i log c, inv turns log c -> inv (turns ++ [i]) log c.
  Proof.
    intros turns i log c I. destruct I. constructor; auto.
    - intros e H. destruct (i_who0 e H). split; auto. apply in_or_app. auto.
    - intros h H. destruct (i_holder0 h H). split; auto. apply in_or_app. auto.
  Qed.

  Lemma step_inv : forall i c c' turns log, inv turns log c -> stepThread i c = Some c' ->
    exists l, inv (turns ++ [i]) (log ++ l) c'.
  Proof.
    intros i c c' turns log I H. unfold stepThread in H.
    destruct (nth_error (threads c) i) as [t|] eqn:N; [|discriminate].
    destruct (program_of _ _ _ (i_len _ _ _ I) N) as (p & P).
    assert (Lt := nth_lt _ _ _ N). assert (Ltp := nth_lt _ _ _ P).
    destruct (holder c) as [h|] eqn:Hc.
    - (* the thread must be the holder *)
      assert (D : i = h \/ i <> h) by lia. destruct D as [->|D].
      2:{ assert (NH : holder c <> Some i) by congruence.
          assert (B := i_between _ _ _ I _ _ _ P N NH). destruct (between_shape _ _ _ _ B) as [(r & ->)|(b & ->)]; discriminate. }
      destruct (i_inside _ _ _ I _ _ _ Hc P N) as (g & rest & Sk & In & Fi).
      set (k := fun a => client method rest (answersOf h log ++ [a])) in *.
      inversion In as [a E|gg Hg E|f gg Hg E]; subst t.
      + (* release *)
        injection H as <-. cbn [finish] in Fi. injection Fi as Fk Fs.
        set (call := g (answersOf h log)) in *.
        set (e := mkEntry h call (fst (alone call (after log)))).
        destruct (skipn_cons _ _ _ _ Sk) as (Ng & Sk' & Lg).
        exists [e].
        assert (Own : ofThread h (log ++ [e]) = ofThread h log ++ [e]).
        { rewrite ofThread_app. f_equal. cbn. rewrite Nat.eqb_refl. auto. }
        assert (Oth : forall j, j <> h -> ofThread j (log ++ [e]) = ofThread j log).
        { intros j J. rewrite ofThread_app. cbn. destruct (Nat.eqb_spec h j); [congruence|]. apply app_nil_r. }
        constructor; cbn [threads holder shared].
        * rewrite setAt_length. apply I.
        * rewrite !map_app, oneByOne_app. cbn [fst]. rewrite <- (i_answers _ _ _ I). f_equal. cbn.
          unfold e, after. cbn. destruct (alone call (snd (oneByOne alone s0 (map what log)))); auto.
        * intros j q Q. destruct (Nat.eq_dec j h) as [->|J].
          2:{ rewrite Oth by auto. apply (i_order _ _ _ I); auto. }
          rewrite Own. assert (q = p) by congruence. subst q. intros n x X.
          assert (C1 : n < length (ofThread h log) \/ n >= length (ofThread h log)) by lia.
          destruct C1 as [C1|C1].
          -- rewrite nth_error_app1 in X by auto. destruct (i_order _ _ _ I _ _ P _ _ X) as (cc & Hc1 & Hc2).
             exists cc. split; auto. rewrite Hc2. rewrite firstn_app.
             replace (n - length (ofThread h log)) with 0 by lia. cbn. rewrite app_nil_r. auto.
          -- rewrite nth_error_app2 in X by auto. destruct (n - length (ofThread h log)) as [|m] eqn:M; [|destruct m; discriminate].
             cbn in X. injection X as <-. exists g. assert (n = length (ofThread h log)) by lia. subst n.
             split; auto. cbn. unfold call, answersOf. rewrite firstn_app, M, firstn_all. cbn. rewrite app_nil_r. auto.
        * intros x X. apply in_app_or in X as [X|[<-|[]]].
          -- destruct (i_who _ _ _ I _ X). split; auto. apply in_or_app; auto.
          -- cbn. split; auto. apply in_or_app. right. left. auto.
        * discriminate.
        * intros _. unfold after. rewrite map_app, oneByOne_app. cbn [snd map]. cbn [oneByOne]. 
          change (what e) with call. unfold after in Fs. destruct (alone call (snd (oneByOne alone s0 (map what log)))) eqn:Al. cbn in *. auto.
        * intros j q t Q T _. destruct (Nat.eq_dec j h) as [->|J].
          -- rewrite setAt_same in T by auto. injection T as <-. assert (q = p) by congruence. subst q.
             unfold between, answersOf. rewrite Own, app_length, map_app. cbn [length map]. rewrite Sk'.
             split; [|lia]. rewrite Fk. reflexivity.
          -- rewrite setAt_other in T by auto. assert (B : between j q log t).
             { apply (i_between _ _ _ I); auto. congruence. }
             unfold between, answersOf in *. rewrite Oth by auto. exact B.
        * discriminate.
      + (* look *)
        injection H as <-. exists []. rewrite app_nil_r. apply more_turns.
        destruct I as [I1 I2 I3 I4 I5 I6 I7 I8]. constructor; cbn [threads holder shared]; auto; try discriminate.
        * rewrite setAt_length. auto.
        * intros h' Hh. injection Hh as <-. apply I5; auto.
        * intros j q t Q T J. rewrite setAt_other in T by congruence. apply I7; auto. congruence.
        * intros h' q t Hh Q T. assert (h' = h) by congruence. subst h'. rewrite setAt_same in T by auto. injection T as <-.
          assert (q = p) by congruence. subst q. exists g, rest. split; auto.
      + (* change *)
        injection H as <-. exists []. rewrite app_nil_r. apply more_turns.
        destruct I as [I1 I2 I3 I4 I5 I6 I7 I8]. constructor; cbn [threads holder shared]; auto; try discriminate.
        * rewrite setAt_length. auto.
        * intros h' Hh. injection Hh as <-. apply I5; auto.
        * intros j q t Q T J. rewrite setAt_other in T by congruence. apply I7; auto. congruence.
        * intros h' q t Hh Q T. assert (h' = h) by congruence. subst h'. rewrite setAt_same in T by auto. injection T as <-.
          assert (q = p) by congruence. subst q. exists g, rest. split; auto.
    - assert (NH : holder c <> Some i) by congruence.
      assert (B := i_between _ _ _ I _ _ _ P N NH).
      destruct (between_case _ _ _ _ B) as [(-> & _)|(g & rest & Sk & E)]; [discriminate|].
      destruct (G (g (answersOf i log)) (fun a => client method rest (answersOf i log ++ [a]))) as (body & M & In & Fi).
      rewrite M in E. subst t. injection H as <-. exists []. rewrite app_nil_r.
      assert (Sh := i_free _ _ _ I Hc).
      destruct I as [I1 I2 I3 I4 I5 I6 I7 I8]. constructor; cbn [threads holder shared]; auto; try discriminate.
      + rewrite setAt_length. auto.
      + intros e H. destruct (I4 e H). split; auto. apply in_or_app; auto.
      + intros h H. injection H as <-. split; auto. apply in_or_app. right. left. auto.
      + intros j q t Q T J. assert (i <> j) by congruence. rewrite setAt_other in T by auto. apply I7; auto. congruence.
      + intros h q t H Q T. injection H as <-. rewrite setAt_same in T by auto. injection T as <-.
        assert (q = p) by congruence. subst q. exists g, rest. split; auto. cbn zeta. split; auto. rewrite Sh. apply Fi.
  Qed.

  Definition begin : config S (list A) := start s0 (map (fun p => client method p []) programs).
  Lemma run_snoc : forall turns i (c : config S (list A)),
    run (turns ++ [i]) c = match stepThread i (run turns c) with Some c' => c' | None => run turns c end.
  Proof. intros. rewrite run_app. reflexivity. Qed.

  (** A log for every moment, each continuing the one before. *)
  Lemma run_inv : forall turns, exists logs : nat -> list (entry C A),
    (forall n, n <= length turns -> inv (firstn n turns) (logs n) (run (firstn n turns) begin)) /\
    (forall n, n < length turns -> exists l, logs (n + 1) = logs n ++ l).
  Proof.
    intros turns. induction turns as [|i turns IH] using rev_ind.
    - exists (fun _ => []). split; cbn; intros n H; [|lia]. rewrite firstn_nil. cbn. apply start_inv.
    - destruct IH as (logs & L1 & L2).
      assert (I := L1 (length turns) (le_n _)). rewrite firstn_all in I.
      assert (X : exists l, inv (turns ++ [i]) (logs (length turns) ++ l) (run (turns ++ [i]) begin)).
      { rewrite run_snoc. destruct (stepThread i (run turns begin)) as [c'|] eqn:E.
        - eapply step_inv; eauto.
        - exists []. rewrite app_nil_r. apply more_turns. auto. }
      destruct X as (l & X).
      exists (fun n => if Nat.leb n (length turns) then logs n else logs (length turns) ++ l). rewrite app_length. cbn [length].
      split; intros n H.
      + destruct (Nat.leb_spec n (length turns)) as [H1|H1].
        * rewrite firstn_app. replace (n - length turns) with 0 by lia. cbn. rewrite app_nil_r. auto.
        * replace n with (length (turns ++ [i])) by (rewrite app_length; cbn; lia). rewrite firstn_all. exact X.
      + destruct (Nat.leb_spec n (length turns)) as [H1|H1]; [|lia].
        destruct (Nat.leb_spec (n + 1) (length turns)) as [H2|H2].
        * apply L2. lia.
        * assert (n = length turns) by lia. subst n. eauto.
  Qed.
  Lemma run_inv1 : forall turns, exists log, inv turns log (run turns begin).
  Proof.
    intros turns. destruct (run_inv turns) as (logs & L & _). exists (logs (length turns)).
    specialize (L _ (le_n _)). rewrite firstn_all in L. auto.
  Qed.

  Lemma inv_explains : forall turns log c, inv turns log c -> explains alone s0 programs turns log c.
  Proof.
    intros turns log c I. constructor.
    - apply I.
    - intros H. apply (i_free _ _ _ I H).
    - apply I.
    - apply I.
    - intros i p r P T. assert (NH : holder c <> Some i).
      { intros H. destruct (i_inside _ _ _ I _ _ _ H P T) as (g & rest & _ & In & _). inversion In. }
      destruct (between_case _ _ _ _ (i_between _ _ _ I _ _ _ P T NH)) as [(E & L)|(g & rest & _ & E)].
      + injection E as ->. split; auto.
      + destruct (G (g (answersOf i log)) (fun a => client method rest (answersOf i log ++ [a]))) as (b & M & _).
        rewrite M in E. discriminate.
  Qed.

  Lemma inv_no_race : forall turns log c, inv turns log c -> ~ race c.
  Proof.
    intros turns log c I (i & j & a & b & D & Na & Nb & Ha & Hb).
    assert (O : forall i t, nth_error (threads c) i = Some t -> accesses t -> holder c = Some i).
    { intros x t T Ac. destruct (program_of _ _ _ (i_len _ _ _ I) T) as (p & P).
      assert (Q : holder c = Some x \/ holder c <> Some x).
      { destruct (holder c) as [h|]; [|right; congruence]. destruct (Nat.eq_dec h x); [left|right]; congruence. }
      destruct Q as [Q|Q]; auto. exfalso.
      destruct (between_shape _ _ _ _ (i_between _ _ _ I _ _ _ P T Q)) as [(r & ->)|(k & ->)]; exact Ac. }
    assert (accesses b) by (destruct b; cbn in *; tauto).
    assert (holder c = Some i) by (eapply O; eauto). assert (holder c = Some j) by (eapply O; eauto). congruence.
  Qed.

  Lemma inv_progress : forall turns log c, inv turns log c -> ended c \/ exists c', steps c c'.
  Proof.
    intros turns log c I. destruct (holder c) as [h|] eqn:H.
    - right. destruct (i_holder _ _ _ I _ H) as (L & _). rewrite <- (i_len _ _ _ I) in L.
      destruct (nth_error (threads c) h) as [t|] eqn:N; [|apply nth_error_None in N; lia].
      destruct (program_of _ _ _ (i_len _ _ _ I) N) as (p & P).
      destruct (i_inside _ _ _ I _ _ _ H P N) as (g & rest & _ & In & _).
      unfold steps, stepThread. inversion In; subst t; eexists; exists h; rewrite N; reflexivity.
    - assert (Q : forall ts, (forall t, In t ts -> In t (threads c)) -> (forall t, In t ts -> exists r, t = Done r) \/ exists b, In (Acquire b) (threads c)).
      { induction ts as [|t ts IH]; intros Hin; [left; intros ? []|].
        destruct IH as [IH|IH]; [intros; apply Hin; right; auto| |auto].
        destruct (In_nth_error _ _ (Hin t (or_introl eq_refl))) as (i & N).
        destruct (program_of _ _ _ (i_len _ _ _ I) N) as (p & P).
        assert (NH : holder c <> Some i) by congruence.
        destruct (between_shape _ _ _ _ (i_between _ _ _ I _ _ _ P N NH)) as [(r & E)|(b & E)].
        - left. intros t' [<-|T]; eauto.
        - right. exists b. rewrite <- E. apply Hin. left. auto. }
      destruct (Q (threads c) (fun t H => H)) as [Q1|(b & Q1)]; [left; exact Q1|right].
      destruct (In_nth_error _ _ Q1) as (i & N). eexists. exists i. unfold stepThread. rewrite N, H. reflexivity.
  Qed.
End Order.

(** * Instances *)
Lemma strings_guarded : forall hash cap, guarded (stringAlone hash cap) (fun c k => stringMethod hash k c).
Proof.
  intros hash cap c k. 
  assert (W : forall h s, inside k (writeCode k h s)).
  { intros h s. unfold writeCode. repeat (first [apply in_look|apply in_change]; intros ?). apply in_release. }
  assert (WF : forall h s t, finish (writeCode k h s) t = (k (Some (SId (fst (writeString h s t)))), snd (writeString h s t))).
  { intros h s t. reflexivity. }
  destruct c as [s|id]; cbn [stringMethod].
  - unfold getIdCode. eexists. split; [reflexivity|]. split.
    + apply in_look. intros t. destruct (alookup N.eqb (hash s) (hmap t)) as [ids|]; auto.
      apply in_change. intros u. destruct (scan s ids u) as [[[id|] u']|e|]; auto; apply in_release.
    + intros t. unfold stringAlone, sstep, getId. cbn [finish].
      destruct (alookup N.eqb (hash s) (hmap t)) as [ids|] eqn:L.
      2:{ rewrite WF. destruct (writeString (hash s) s t). reflexivity. }
      cbn [finish]. destruct (scan s ids t) as [[[id|] u']|e|]; cbn [bind finish fst snd]; auto.
  - unfold getStringCode. eexists. split; [reflexivity|]. split.
    + apply in_change. intros t. destruct (getString id t) as [[s u]|e|]; apply in_release.
    + intros t. unfold stringAlone, sstep. cbn [finish]. destruct (getString id t) as [[s u]|e|]; reflexivity.
Qed.

Lemma pool_guarded : forall cap, guarded (poolAlone cap) (poolMethod cap).
Proof.
  intros cap c k. destruct c as [name lo|m]; cbn [poolMethod]; eexists; (split; [reflexivity|]); split.
  - apply in_look. intros p. apply in_change. intros q. apply in_release.
  - intros p. cbn. destruct (getMesh cap p name lo). reflexivity.
  - apply in_change. intros q. apply in_release.
  - intros p. reflexivity.
Qed.
