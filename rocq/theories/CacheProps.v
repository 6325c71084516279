(** Properties C27 and C28: the mesh cache. *)
From Verif Require Import Base Bytes BytesProofs StreamModel MeshModel MeshSpec MeshProofs ElementModel
  ElementSpec GeoModel GeoSpec GeoProofs StyleModel CacheModel CacheSpec CacheProofs.
Local Open Scope nat_scope.

(** C27: when a build of a tile that is being cached completes without cancellation and the
    writes succeed, every later fetch of the tile (in this or a later process, after any
    steps with other tiles and styles, crashes included) is a hit and delivers what the builder
    produced, in order, unless a tile with the same key is being cached at that moment; a fetch
    that is cancelled after [n] records delivers the first [n]. *)
Theorem C27_replay :
  forall durable c before s after done f w',
    steps durable startWorld (mkWorld c (before ++ s :: after) done) ->
    healthy c s -> sawCancel s = false -> writesOk f = true ->
    steps durable (mkWorld (unwrap c (spath s) false f) (before ++ after) ((spath s, produced s) :: done)) w' ->
    (durable = true -> 1 <= kept f) ->
    enabled (wcache w') = true -> alookup keyEqb (pkey (spath s)) (caching (wcache w')) = None ->
    forall calls, exists rs', fetch (wcache w') (spath s) calls = Some (Ok (true, rs')) /\
      Forall2 sameRecord (match calls with None => produced s | Some n => firstn n (produced s) end) rs'.
Proof.
  intros durable c before s after done f w' S H C Wf S' K E Nk calls.
  destruct (unwrap_completes _ _ _ _ _ _ _ S H C Wf) as [L W].
  assert (S1 : steps durable startWorld (mkWorld (unwrap c (spath s) false f) (before ++ after) ((spath s, produced s) :: done))).
  { eapply steps_step; [exact S|]. apply (step_unwrap durable c before s after done false f); auto. congruence. }
  pose proof (steps_keep _ _ _ _ _ S1 S' L) as L'.
  exists (map cycleRecord (upTo calls (produced s))). split.
  - apply fetch_replays; auto.
  - apply upTo_same; auto.
Qed.
Print Assumptions C27_replay.

Lemma decimalFuel_digits fuel : forall n acc b, In b (decimalFuel fuel n acc) -> In b acc \/ (48 <= b <= 57)%N.
Proof.
  induction fuel as [|fuel IH]; intros n acc b H; cbn [decimalFuel] in H; auto.
  assert (D : (48 <= 48 + n mod 10 <= 57)%N) by (pose proof (N.mod_lt n 10); lia).
  destruct (N.ltb n 10).
  - destruct H as [<-|H]; auto.
  - apply IH in H as [[<-|H]|H]; auto.
Qed.

Lemma split_slash (a b x y : bytes) : ~ In 47%N a -> ~ In 47%N b -> a ++ 47%N :: x = b ++ 47%N :: y -> a = b /\ x = y.
Proof.
  revert b. induction a as [|c a IH]; intros [|d b] Ha Hb E; cbn [app] in E.
  - injection E as ->. auto.
  - injection E as E _. exfalso. apply Hb. left; auto.
  - injection E as E _. exfalso. apply Ha. left; auto.
  - injection E as -> E. destruct (IH b) as [-> ->]; auto; intros H; [apply Ha|apply Hb]; right; auto.
Qed.

(** Different fingerprints or tiles have different cache files. *)
Theorem C27_paths :
  forall dataPath extension tag tag' k k' s,
    ~ In 47%N tag -> ~ In 47%N tag' -> tile k -> tile k' ->
    pathText dataPath extension tag k = Ok s -> pathText dataPath extension tag' k' = Ok s ->
    tag = tag' /\ k = k'.
Proof.
  intros d x tag tag' k k' s T T' K K' E E'. unfold pathText in *.
  destruct (keyString k) as [t| |] eqn:Et; try discriminate.
  destruct (keyString k') as [t'| |] eqn:Et'; try discriminate.
  cbn [omap bind] in *. injection E as <-. injection E' as E'.
  apply app_inv_head in E'. injection E' as E'.
  assert (D : forall n, ~ In 47%N (decimal n)).
  { intros n H. apply decimalFuel_digits in H as [[]|H]. lia. }
  apply split_slash in E' as [-> E']; auto. split; [reflexivity|].
  apply split_slash in E' as [_ E']; auto.
  apply app_inv_tail in E'. subst t'. exact (keyString_inj k k' t K K' Et Et').
Qed.
Print Assumptions C27_paths.

(** C28: a hit always delivers the result of a build that was completed without
    cancellation.  Builds that were cancelled, whose process ended, or whose files could not be
    written are never the source of a hit. *)
Theorem C28_served_is_complete :
  forall durable w p calls rs', steps durable startWorld w ->
    fetch (wcache w) p calls = Some (Ok (true, rs')) ->
    exists rs, In (p, rs) (completed w) /\
      Forall2 sameRecord (match calls with None => rs | Some n => firstn n rs end) rs'.
Proof. exact fetch_served. Qed.
Print Assumptions C28_served_is_complete.

(** Full statement: a later fetch of an interrupted build answers "no hit".  This holds when
    at least the first byte of the file has reached the disk; missing is the empty file, see
    C28_empty_refuted. *)
Theorem C28_fetch_defined_partial :
  forall w p calls, steps true startWorld w ->
    exists hit rs, fetch (wcache w) p calls = Some (Ok (hit, rs)).
Proof. exact fetch_safe. Qed.
Print Assumptions C28_fetch_defined_partial.

(** The process ends after the file was created and before anything was flushed: the next
    fetch reads an uninitialised variable. *)
Theorem C28_empty_refuted :
  exists w p, steps false startWorld w /\ fetch (wcache w) p None = Some UB.
Proof.
  pose (p := mkPath [97]%N (mkKey 1 0 0)). do 2 eexists. split; [|].
  - eapply steps_step; [eapply steps_step; [apply steps_refl|]|].
    + apply (step_wrap false (newCache []) [] [] p true); [contradiction|reflexivity].
    + apply (step_crash false) with (cut := fun _ => 0). discriminate.
  - instantiate (1 := p). reflexivity.
Qed.
Print Assumptions C28_empty_refuted.

Definition meshA : mesh := mkMesh [97]%N [0]%N [1]%Z [] [] [].
Definition elemA : element := Node 7 [mkTag 1 2] (mkCoord 3 4).
Definition styleA : path := mkPath [97]%N (mkKey 1 0 0).
Definition styleB : path := mkPath [98]%N (mkKey 1 0 0).

(** The same tile under two styles at the same time: completing the second build, which
    produced nothing, marks the file of the first one as complete while it is not; a fetch
    serves the part.  When the first build goes on, it writes to a destroyed stream. *)
Theorem C28_concurrent_refuted :
  exists h1 h2 c1 c2 c3 c4,
    wrap (newCache []) styleA true = Ok (h1, c1) /\
    emit c1 h1 false true (RElem elemA) = Ok (true, c2) /\
    wrap c2 styleB true = Ok (h2, c3) /\
    c4 = unwrap c3 styleB false (mkFate true 0 true) /\
    fetch c4 styleA None = Some (Ok (true, [RElem elemA])) /\
    emit c4 h1 false true (RMesh meshA) = UB.
Proof.
  do 6 eexists. split; [reflexivity|]. split; [reflexivity|]. split; [reflexivity|].
  split; [reflexivity|]. split; vm_compute; reflexivity.
Qed.
Print Assumptions C28_concurrent_refuted.

(** After an exception in a builder unwrap is not called: the tile is never a hit again in
    this process, and building it again is undefined. *)
Theorem C28_abandoned :
  forall c p o, alookup keyEqb (pkey p) (caching c) = Some o -> opath o = p -> enabled c = true ->
    (forall calls, fetch c p calls = Some (Ok (false, []))) /\
    (forall canOpen, wrap c p canOpen = UB).
Proof.
  intros c p o L P E. split.
  - intros calls. unfold fetch, isCacheHit. rewrite E, L. reflexivity.
  - intros canOpen. unfold wrap, isCacheHit. rewrite E, L. cbn [bind]. rewrite P.
    rewrite (proj2 (pathEqb_eq p p) eq_refl). reflexivity.
Qed.
Print Assumptions C28_abandoned.

(** A history that meets the hypotheses of C27_replay, and its fetch. *)
Definition caseWorld : world :=
  let o := mkOut 0 styleA true (0%N :: encode (RElem elemA) ++ encode (RMesh meshA)) true in
  mkWorld (mkCache true [(styleA, [])] [(mkKey 1 0 0, o)] 1)
    [mkSession styleA (Wrapped (mkKey 1 0 0) 0) [RElem elemA; RMesh meshA] false] [].

Example C27_case :
  steps true startWorld caseWorld /\ healthy (wcache caseWorld) (hd (mkSession styleA Plain [] true) (active caseWorld)) /\
  fetch (unwrap (wcache caseWorld) styleA false (mkFate true 1 true)) styleA None = Some (Ok (true, [RElem elemA; RMesh meshA])) /\
  fetch (unwrap (wcache caseWorld) styleA true (mkFate true 1 true)) styleA None = Some (Ok (false, [])) /\
  fetch (crash (wcache caseWorld) (fun _ => 30)) styleA None = Some (Ok (false, [])).
Proof.
  split; [|split].
  - pose (h := Wrapped (mkKey 1 0 0) 0).
    pose (cache := fun bs => mkCache true [(styleA, [])] [(mkKey 1 0 0, mkOut 0 styleA true bs true)] 1).
    apply steps_step with (w2 := mkWorld (cache (0%N :: encode (RElem elemA))) [mkSession styleA h [RElem elemA] false] []).
    apply steps_step with (w2 := mkWorld (cache [0%N]) [mkSession styleA h [] false] []).
    apply steps_step with (w2 := startWorld); [apply steps_refl|].
    + apply (step_wrap true (newCache []) [] [] styleA true h); [contradiction|reflexivity].
    + apply (step_emit true (cache [0%N]) [] (mkSession styleA h [] false) [] [] false true (RElem elemA) true); [discriminate| |reflexivity].
      cbn. unfold wfTag, wfCoord, fits. cbn. repeat (split || constructor); cbn; try lia; intros H; discriminate H.
    + apply (step_emit true (cache (0%N :: encode (RElem elemA))) [] (mkSession styleA h [RElem elemA] false) [] [] false true (RMesh meshA) true);
        [discriminate| |reflexivity].
      cbn. unfold wfMesh, isBits64, isInt, nulFree. cbn.
      split; [intuition discriminate|]. repeat (split || constructor); cbn; intros; discriminate.
  - do 2 eexists. repeat split; reflexivity.
  - vm_compute. auto.
Qed.

Example C27_paths_case :
  tile (mkKey 1 0 1) /\
  pathText [100]%N [109]%N [97; 98]%N (mkKey 1 0 1)
  = Ok [100; 47; 99; 97; 99; 104; 101; 47; 97; 98; 47; 49; 47; 50; 46; 109]%N.
Proof. split; [split; cbn; lia|reflexivity]. Qed.
