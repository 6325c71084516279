(** C77, C78: objects shared by threads. *)
From Coq Require Import String.
From Verif Require Import Base Bytes BytesProofs Peg LruModel JsonModel StringModel StringSpec MeshModel BuildModel BuildSpec ColorModel GradientModel
  ThreadModel ThreadSpec ThreadProofs ThreadProofs2 ThreadLazy.
Local Open Scope nat_scope.

(** ** C77: StringTable *)
(** Threads which make any calls, each depending on the answers before. *)
Definition stringThreads (hash : bytes -> N) (t : table) (programs : list (list (list sanswer -> scall))) : config table (list sanswer) :=
  start t (map (fun p => client (fun c k => stringMethod hash k c) p []) programs).
(** However the accesses of the threads are interleaved, there is an order of all calls which explains every answer; at every
    moment, and the order so far is only ever continued. *)
Theorem C77_strings_one_by_one : forall hash cap t programs turns,
  exists logs : nat -> list (entry scall sanswer),
    (forall n, n <= length turns ->
       explains (stringAlone hash cap) t programs (firstn n turns) (logs n) (run (firstn n turns) (stringThreads hash t programs))) /\
    (forall n, n < length turns -> exists l, logs (n + 1) = logs n ++ l).
Proof.
  intros hash cap t programs turns.
  destruct (run_inv _ _ (strings_guarded hash cap) t programs turns) as (logs & L1 & L2).
  exists logs. split; auto. intros n H. apply (inv_explains _ _ (strings_guarded hash cap)). apply (L1 n H).
Qed.
(** No two threads ever use the table at the same time. *)
Theorem C77_strings_no_race : forall hash t programs turns, ~ race (run turns (stringThreads hash t programs)).
Proof.
  intros hash t programs turns. destruct (run_inv1 _ _ (strings_guarded hash 0) t programs turns) as (log & I).
  apply (inv_no_race _ _ (strings_guarded hash 0) _ _ _ _ _ I).
Qed.
(** Nobody waits forever: as long as a thread has not ended, some thread can go on, and there is no endless execution. *)
Theorem C77_strings_end : forall hash t programs turns,
  let c := run turns (stringThreads hash t programs) in
  (ended c \/ exists c', steps c c') /\ Acc (fun c2 c1 => steps c1 c2) c.
Proof.
  intros hash t programs turns c. split; [|apply steps_end].
  destruct (run_inv1 _ _ (strings_guarded hash 0) t programs turns) as (log & I).
  apply (inv_progress _ _ (strings_guarded hash 0) _ _ _ _ _ I).
Qed.
(** The ids threads get for strings agree: the same for the same string, different ones for different strings. *)
Theorem C77_string_ids : forall hash, (forall s, (hash s < 4294967296)%N) -> forall cap, 1 <= cap ->
  forall lists, (forall s, In s (concat lists) -> nulFree s) ->
  (diskBytes (nodup (list_eq_dec N.eq_dec) (concat lists)) < 4294967296)%N ->
  forall turns, let c := run turns (stringThreads hash (openTable cap [] []) (map (map (fun s _ => CId s)) lists)) in
  forall i j li lj ri rj ki kj s s',
    nth_error lists i = Some li -> nth_error lists j = Some lj ->
    nth_error (threads c) i = Some (Done ri) -> nth_error (threads c) j = Some (Done rj) ->
    nth_error li ki = Some s -> nth_error lj kj = Some s' ->
    exists n m, nth_error ri ki = Some (Some (SId n)) /\ nth_error rj kj = Some (Some (SId m)) /\ (n = m <-> s = s').
Proof.
  intros hash H cap C lists NF DB turns c.
  destruct (run_inv1 _ _ (strings_guarded hash cap) (openTable cap [] []) (map asks lists) turns) as (log & I).
  apply (inv_explains _ _ (strings_guarded hash cap)) in I.
  intros i j li lj ri rj ki kj s s'. exact (ids_agree hash H cap C lists NF DB turns log _ I i j li lj ri rj ki kj s s').
Qed.
Definition sa : bytes := str "a". Definition sb : bytes := str "b".
Definition turnsAB : list nat := [0; 0; 1; 0; 0; 1; 1; 0; 0; 0; 0; 0; 1; 1; 1; 1; 1; 1; 1; 1; 1; 0; 0; 0; 0; 0; 0; 0; 0; 0; 1; 1; 1; 1; 1; 1].
Example C77_strings_case :
  threads (run turnsAB (stringThreads murmur (openTable 4 [] []) (map (map (fun s _ => CId s)) [[sa; sb]; [sb; sa]])))
    = [Done [Some (SId 0); Some (SId 1)]; Done [Some (SId 1); Some (SId 0)]].
Proof. vm_compute. reflexivity. Qed.
(** A thread may look up what another has stored: the program depends on answers. *)
Example C77_strings_dependent_case :
  let ask := fun as_ => match as_ with Some (SId n) :: _ => CString n | _ => CId sb end in
  threads (run (repeat 0 9 ++ repeat 1 30 ++ repeat 0 30)
    (stringThreads murmur (openTable 4 [] []) [[fun _ => CId sa; ask]; [fun _ => CId sb; fun _ => CString 0]]))
    = [Done [Some (SId 0); Some (SStr sa)]; Done [Some (SId 1); Some (SStr sa)]].
Proof. vm_compute. reflexivity. Qed.
(** Without the mutex there would be a race, and a string could get two ids. *)
Fixpoint unlocked {S R} (c : code S R) : code S R :=
  match c with
  | Done r => Done r
  | Acquire k => unlocked k
  | Release k => unlocked k
  | Look k => Look (fun s => unlocked (k s))
  | Change f k => Change f (fun s => unlocked (k s))
  end.
Example C77_without_lock :
  let c := start (openTable 4 [] []) (map (fun p => unlocked (client (fun c k => stringMethod murmur k c) p [])) [[fun _ => CId sa]; [fun _ => CId sa]]) in
  race (run [0; 0] c) /\
  threads (run [0; 1; 0; 0; 0; 0; 0; 0; 1; 1; 1; 1; 1; 1] c) = [Done [Some (SId 0)]; Done [Some (SId 1)]].
Proof.
  intros c. split; [|vm_compute; reflexivity]. eexists 1, 0, _, _. split; [discriminate|].
  split; [reflexivity|]. split; [reflexivity|]. split; exact Logic.I.
Qed.

(** ** C77: MeshPool *)
Definition poolThreads (cap : N) (programs : list (list (list panswer -> pcall))) : config pool (list panswer) :=
  start newPool (map (fun p => client (poolMethod cap) p []) programs).
Theorem C77_pool_one_by_one : forall cap programs turns,
  exists logs : nat -> list (entry pcall panswer),
    (forall n, n <= length turns ->
       explains (poolAlone cap) newPool programs (firstn n turns) (logs n) (run (firstn n turns) (poolThreads cap programs))) /\
    (forall n, n < length turns -> exists l, logs (n + 1) = logs n ++ l).
Proof.
  intros cap programs turns.
  destruct (run_inv _ _ (pool_guarded cap) newPool programs turns) as (logs & L1 & L2).
  exists logs. split; auto. intros n H. apply (inv_explains _ _ (pool_guarded cap)). apply (L1 n H).
Qed.
Theorem C77_pool_no_race : forall cap programs turns, ~ race (run turns (poolThreads cap programs)).
Proof.
  intros cap programs turns. destruct (run_inv1 _ _ (pool_guarded cap) newPool programs turns) as (log & I).
  apply (inv_no_race _ _ (pool_guarded cap) _ _ _ _ _ I).
Qed.
Theorem C77_pool_end : forall cap programs turns,
  let c := run turns (poolThreads cap programs) in
  (ended c \/ exists c', steps c c') /\ Acc (fun c2 c1 => steps c1 c2) c.
Proof.
  intros cap programs turns c. split; [|apply steps_end].
  destruct (run_inv1 _ _ (pool_guarded cap) newPool programs turns) as (log & I).
  apply (inv_progress _ _ (pool_guarded cap) _ _ _ _ _ I).
Qed.
(** No two threads hold the same mesh, and every mesh a thread gets is empty and has the name asked for, as long as threads
    release only meshes which they hold. *)
Theorem C77_pool_apart : forall cap programs turns log,
  explains (poolAlone cap) newPool programs turns log (run turns (poolThreads cap programs)) ->
  (forall i, honest (ofThread i log)) ->
  (forall i, NoDup (holds (ofThread i log))) /\
  (forall i j x, i <> j -> In x (holds (ofThread i log)) -> ~ In x (holds (ofThread j log))) /\
  (forall e name isLower, In e log -> what e = PGet name isLower -> exists m, got e = Some m /\ pmeshOf m = mkMesh name [] [] [] [] []).
Proof.
  intros cap programs turns log E H. assert (A := ex_answers _ _ _ _ _ _ E).
  destruct (pool_apart cap log A H) as (P1 & P2). split; [auto|]. split; [auto|].
  intros e name lo. apply (pool_fresh cap log A H).
Qed.
(** Two threads take and release meshes; the second gets the mesh the first has released and filled. *)
Definition giveBack (i : nat) : list panswer -> pcall := fun as_ =>
  match nth_error as_ i with
  | Some (Some m) => PRelease (mkPooled (pid m) (pcap m) (mkMesh (str "x") [1; 2]%N [0%Z] [5%Z] [] []))
  | _ => PGet [] true
  end.
Definition poolTurns : list nat := repeat 0 12 ++ repeat 1 3 ++ repeat 0 2 ++ repeat 1 9.
Definition poolPrograms : list (list (list panswer -> pcall)) :=
  [[fun _ => PGet sa true; giveBack 0; fun _ => PGet sb true]; [fun _ => PGet sb true; fun _ => PGet sa false]].
Definition poolLog : list (entry pcall panswer) :=
  let m0 := mkPooled 0 4096 (mkMesh sa [] [] [] [] []) in
  [mkEntry 0 (PGet sa true) (Some m0);
   mkEntry 0 (PRelease (mkPooled 0 4096 (mkMesh (str "x") [1; 2]%N [0%Z] [5%Z] [] []))) None;
   mkEntry 0 (PGet sb true) (Some (mkPooled 0 4096 (mkMesh sb [] [] [] [] [])));
   mkEntry 1 (PGet sb true) (Some (mkPooled 1 4096 (mkMesh sb [] [] [] [] [])));
   mkEntry 1 (PGet sa false) (Some (mkPooled 2 4096 (mkMesh sa [] [] [] [] [])))].
Example C77_pool_case :
  explains (poolAlone 4096) newPool poolPrograms poolTurns poolLog (run poolTurns (poolThreads 4096 poolPrograms)) /\
  (forall i, honest (ofThread i poolLog)) /\ holds (ofThread 0 poolLog) = [0] /\ holds (ofThread 1 poolLog) = [2; 1].
Proof.
  split; [|split; [|split; reflexivity]].
  - constructor.
    + vm_compute. reflexivity.
    + intros _. vm_compute. reflexivity.
    + intros e H. cbn in H. repeat (destruct H as [<-|H]; [split; [cbn; lia|vm_compute; tauto]|]). destruct H.
    + intros i p P k e K. destruct i as [|[|i]]; cbn in P.
      * injection P as <-. destruct k as [|[|[|k]]]; cbn in K; try (injection K as <-; eexists; split; [reflexivity|vm_compute; reflexivity]). destruct k; discriminate.
      * injection P as <-. destruct k as [|[|k]]; cbn in K; try (injection K as <-; eexists; split; [reflexivity|vm_compute; reflexivity]). destruct k; discriminate.
      * destruct i; discriminate.
    + intros i p r P T. destruct i as [|[|i]]; [| |exfalso; clear T; destruct i; discriminate P].
      * injection P as <-. vm_compute in T. injection T as <-. split; reflexivity.
      * injection P as <-. vm_compute in T. injection T as <-. split; reflexivity.
  - intros i b e a m E W. destruct i as [|[|i]]; cbn in E.
    + destruct b as [|x [|y [|z b]]]; cbn in E; injection E; intros; subst; try discriminate.
      * injection W as <-. left. reflexivity.
      * destruct b; discriminate.
    + destruct b as [|x [|y b]]; cbn in E; injection E; intros; subst; try discriminate. destruct b; discriminate.
    + destruct b; discriminate.
Qed.

Print Assumptions C77_strings_one_by_one.
Print Assumptions C77_strings_no_race.
Print Assumptions C77_strings_end.
Print Assumptions C77_string_ids.
Print Assumptions C77_pool_one_by_one.
Print Assumptions C77_pool_no_race.
Print Assumptions C77_pool_end.
Print Assumptions C77_pool_apart.

(** ** C78: maps filled on demand *)
(** What StyleProvider.cpp:290-292 computes for a key. *)
Definition gradientFor (key : bytes) : option gradient :=
  match parseGradient key with Ok (x :: d) => Some (x :: d) | _ => None end.
Section Lookups.
  Context {K V : Type}.
  Variable keqb : K -> K -> bool.
  Variable compute : K -> option V.
  Definition gradientThreads (m : store K V) (keyss : list (list K)) : config (store K V) (list (option V)) :=
    start m (map (fun keys => client (fun key r => gradientCode K V keqb compute r key) (map (fun k _ => k) keys) []) keyss).
  Definition elevationThreads (m : store K V) (keyss : list (list K)) : config (store K V) (list (option V)) :=
    start m (map (fun keys => client (fun key r => elevationCode K V keqb compute r key) (map (fun k _ => k) keys) []) keyss).
  (** Some thread asks for something which is yet to be stored while there is another thread asking for anything. *)
  Definition collides (m : store K V) (keyss : list (list K)) : Prop :=
    exists i j ki kj key, i <> j /\ nth_error keyss i = Some ki /\ nth_error keyss j = Some kj /\ kj <> [] /\
      In key ki /\ missing keqb compute m key.
End Lookups.

(** Exactly then there is a race: one thread looks without the mutex while another stores. *)
Theorem C78_gradients_race : forall K V (keqb : K -> K -> bool) (compute : K -> option V), (forall a b, keqb a b = true <-> a = b) ->
  forall m keyss, (exists turns, race (run turns (gradientThreads keqb compute m keyss))) <-> collides keqb compute m keyss.
Proof. intros K V keqb compute H m keyss. apply (lookers_race keqb compute _ (gradient_lookup keqb compute H)). Qed.
Theorem C78_elevation_race : forall K V (keqb : K -> K -> bool) (compute : K -> option V), (forall a b, keqb a b = true <-> a = b) ->
  forall m keyss, (exists turns, race (run turns (elevationThreads keqb compute m keyss))) <-> collides keqb compute m keyss.
Proof. intros K V keqb compute H m keyss. apply (lookers_race keqb compute _ (elevation_lookup keqb compute H)). Qed.
(** If lookups in the map were atomic, every thread would get what it asks for, however the threads are interleaved. *)
Theorem C78_answers_if_atomic_partial : forall K V (keqb : K -> K -> bool) (compute : K -> option V), (forall a b, keqb a b = true <-> a = b) ->
  forall m keyss, rightMap keqb compute m -> forall turns i keys r, nth_error keyss i = Some keys ->
  (nth_error (threads (run turns (gradientThreads keqb compute m keyss))) i = Some (Done r) -> r = map compute keys) /\
  (nth_error (threads (run turns (elevationThreads keqb compute m keyss))) i = Some (Done r) -> r = map compute keys).
Proof.
  intros K V keqb compute H m keyss R turns i keys r N. split; intros T.
  - apply (lookers_answers keqb compute _ (gradient_lookup keqb compute H) keyss m R turns i keys r N T).
  - apply (lookers_answers keqb compute _ (elevation_lookup keqb compute H) keyss m R turns i keys r N T).
Qed.
(** Two threads which ask for two new gradients race. *)
Theorem C78_gradients_refuted : exists keyss,
  (forall keys key, In keys keyss -> In key keys -> gradientFor key <> None) /\
  exists turns, race (run turns (gradientThreads beqb gradientFor [] keyss)).
Proof.
  exists [[str "red"]; [str "blue"]]. split.
  - intros keys key [<-|[<-|[]]] [<-|[]]; vm_compute; discriminate.
  - apply (C78_gradients_race _ _ _ _ (fun a b => beqb_eq a b)).
    exists 0, 1, [str "red"], [str "blue"], (str "red"). split; [discriminate|]. split; [reflexivity|]. split; [reflexivity|].
    split; [discriminate|]. split; [left; reflexivity|]. split; [reflexivity|vm_compute; discriminate].
Qed.
(** What is safe: everything is there already, e.g. since the style sheet has been parsed (StyleProvider.cpp:362-364). *)
Example C78_loaded_case :
  let red := match gradientFor (str "red") with Some d => d | None => [] end in
  rightMap beqb gradientFor [(str "red", red)] /\
  ~ collides beqb gradientFor [(str "red", red)] [[str "red"; []]; [str "red"]] /\
  threads (run [0; 1; 0] (gradientThreads beqb gradientFor [(str "red", red)] [[str "red"; []]; [str "red"]])) = [Done [Some red; None]; Done [Some red]].
Proof.
  intros red. split; [|split].
  - intros k v H. cbn [alookup] in H. destruct (beqb k (str "red")) eqn:E; [|discriminate H]. apply beqb_eq in E. subst k. injection H as <-. vm_compute. reflexivity.
  - intros (i & j & ki & kj & key & _ & Ni & _ & _ & I & (L & C)).
    assert (Q : key = str "red" \/ key = []).
    { destruct i as [|[|i]]; cbn [nth_error] in Ni; [injection Ni as <-|injection Ni as <-|exfalso; destruct i; discriminate Ni]; cbn [In] in I; intuition. }
    destruct Q as [->| ->]; [discriminate L|]. apply C. vm_compute. reflexivity.
  - vm_compute. reflexivity.
Qed.
Example C78_answers_case :
  threads (run [0; 1; 0; 1; 0; 1; 0; 1; 0; 1; 0; 1; 0; 1; 1; 1; 1; 1; 0; 0; 0; 0; 0] (elevationThreads N.eqb (fun k => if N.eqb k 7 then None else Some (k * k)%N) [] [[3; 7]; [7; 3]]%N))
    = [Done [Some 9%N; None]; Done [None; Some 9%N]].
Proof. vm_compute. reflexivity. Qed.

Print Assumptions C78_gradients_race.
Print Assumptions C78_elevation_race.
Print Assumptions C78_answers_if_atomic_partial.
Print Assumptions C78_gradients_refuted.
