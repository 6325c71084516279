(** C79: threads which use one tile of the store on disk. *)
From Verif Require Import Base Bytes GeoModel ElementModel LruModel StoreModel StoreProps ThreadModel ThreadSpec ThreadProofs
  TileThreadModel TileThreadSpec TileThreadProofs.
Local Open Scope nat_scope.

(** A call which no other thread disturbs gives what it gives alone. *)
Theorem C79_alone : forall c t, exists n t',
  run (repeat 0 n) (tileThreads t [[c]]) = mkConfig t' None [Done [fst (tileAlone c t)]] /\
  forall u, snd (tileAlone c t) = Some u -> t' = u.
Proof.
  intros c t. destruct (call_alone c (fun a => client (fun c k => tileMethod k c) [] ([] ++ [a])) t) as (t' & G & E).
  destruct (G 0 (threads (tileThreads t [[c]])) None eq_refl) as (n & Rn). exists n, t'. split; auto.
Qed.
(** Alone, calls on a tile are the calls of the store. *)
Theorem C79_alone_is_store : forall k s,
  (forall e, pStore k e s = bind (getData k s) (fun '(ptr, s) => bind (deref k ptr s) (fun '(p, h, f) =>
     match tileAlone (TSave e) (mkTile h f) with
     | (TSaved order, Some t) => Ok (order, mkStore (aset pathEqb p (filesOf t) (onDisk s)) (opened s) (aset Nat.eqb ptr (streams t) (heap s)) (nextPtr s))
     | _ => UB
     end))) /\
  pSearch k never s = bind (getData k s) (fun '(ptr, s) => bind (deref k ptr s) (fun '(p, h, f) =>
     match tileAlone TSearch (mkTile h f) with
     | (TFound (Ok es), Some t) => Ok (es, mkStore (onDisk s) (opened s) (aset Nat.eqb ptr (streams t) (heap s)) (nextPtr s))
     | (TFound (Throw x), _) => Throw x
     | _ => UB
     end)) /\
  (forall order, pNotify k order s = bind (getData k s) (fun '(ptr, s) => bind (deref k ptr s) (fun '(p, h, f) =>
     match tileAlone (TNotify order) (mkTile h f) with
     | (TFound (Ok [e]), Some t) => Ok (e, mkStore (onDisk s) (opened s) (aset Nat.eqb ptr (streams t) (heap s)) (nextPtr s))
     | (TFound (Throw x), _) => Throw x
     | _ => UB
     end))).
Proof.
  intros k s. split; [|split].
  - intros e. unfold pStore. destruct (getData k s) as [[ptr s1]|x|]; reflexivity.
  - unfold pSearch. destruct (getData k s) as [[ptr s1]|x|]; cbn [bind]; auto. destruct (deref k ptr s1) as [[[p h] f]|x|]; cbn [bind]; auto.
    cbn [tileAlone streams filesOf]. destruct (readEntries never f 0 _ _) as [[es h']|x|]; reflexivity.
  - intros order. unfold pNotify. destruct (getData k s) as [[ptr s1]|x|]; cbn [bind]; auto. destruct (deref k ptr s1) as [[[p h] f]|x|]; cbn [bind]; auto.
    cbn [tileAlone streams filesOf]. destruct (readIndexEntry f _) as [[[id off] n]|x|]; cbn [bind]; auto.
    destruct (readAt f id off) as [[e m]|x|]; reflexivity.
Qed.

(** Threads race exactly if two of them use the tile at all. *)
Theorem C79_race : forall t programs,
  (exists turns, race (run turns (tileThreads t programs))) <->
  exists i j p q, i <> j /\ nth_error programs i = Some p /\ nth_error programs j = Some q /\ p <> [] /\ q <> [].
Proof. exact tile_race. Qed.

(** Even if operations on streams were atomic: a search may find nothing in any tile, since another has moved the stream from
    whose position the number of entries is taken. *)
Theorem C79_lost_refuted : forall t, exists turns,
  nth_error (threads (run turns (tileThreads t [[TSearch]; [TSearch]]))) 1 = Some (Done [TFound (Ok [])]).
Proof. intros t. exists [0; 0; 1; 1]. reflexivity. Qed.
(** A save during a search writes an index entry with the place of the element which the search is about to read, in any tile
    with an entry. *)
Theorem C79_save_refuted : forall t e id off n,
  readIndexEntry (filesOf t) 0 = Ok (id, off, n) -> (1 <= u32 (N.of_nat (ipos (streams t) / entrySize)))%N ->
  exists turns, let c := run turns (tileThreads t [[TSearch]; [TSave e]]) in
    (exists order, nth_error (threads c) 1 = Some (Done [TSaved order])) /\
    dat (filesOf (shared c)) = dat (filesOf t) ++ write e /\
    idf (filesOf (shared c)) = idf (filesOf t) ++ le 8 (eid e) ++ le 4 (u32 off).
Proof.
  intros t e id off n E C. exists (repeat 0 4 ++ repeat 1 7). rewrite run_app.
  set (m := N.to_nat (u32 (N.of_nat (ipos (streams t) / entrySize)))).
  assert (M : exists m', m = S m') by (destruct m eqn:Q; [unfold m in Q; lia|eauto]). destruct M as (m' & M).
  assert (R4 : run (repeat 0 4) (tileThreads t [[TSearch]; [TSave e]]) =
    mkConfig (seekData (N.to_nat off) (seekIndex n (seekIndex 0 t))) None
      [Change (fun t => match readAt (filesOf t) id (N.of_nat (dpos (streams t))) with Ok (_, n) => seekData n t | _ => t end) (fun t =>
         match omap fst (readAt (filesOf t) id (N.of_nat (dpos (streams t)))) with
         | Ok e => entriesCode (fun a => Done [a]) m' ([] ++ [e])
         | Throw x => Done [TFound (Throw x)]
         | UB => Done [TFound UB]
         end); saveCode (fun a => Done [a]) e]).
  { unfold tileThreads, start. cbn [map client tileMethod]. unfold searchCode. cbn [repeat].
    cbn [run]. unfold stepThread at 4. cbn [threads nth_error shared holder setAt].
    fold m. rewrite M. unfold stepThread at 3. cbn [threads nth_error shared holder setAt entriesCode]. unfold entryCode at 1.
    unfold stepThread at 2. cbn [threads nth_error shared holder setAt].
    change (filesOf (seekIndex 0 t)) with (filesOf t). change (ipos (streams (seekIndex 0 t))) with 0. rewrite E.
    unfold stepThread at 1. cbn [threads nth_error shared holder setAt]. reflexivity. }
  rewrite R4. cbn. split; [eexists; reflexivity|]. split; [reflexivity|]. rewrite N2Nat.id, <- !app_assoc. reflexivity.
Qed.
(** Two text searches of a tile report elements which were never saved: the id of one with the contents of the other. *)
Definition twoNodes : tile := mkTile (mkHandle (length (write nodeA ++ write nodeC)) 24)
  (mkFiles (write nodeA ++ write nodeC) (le 8 1 ++ le 4 0 ++ le 8 3 ++ le 4 (N.of_nat (length (write nodeA))))).
Theorem C79_mixed_refuted : exists turns,
  threads (run turns (tileThreads twoNodes [[TNotify 0]; [TNotify 1]])) =
    [Done [TFound (Ok [setId 1 nodeC])]; Done [TFound (Ok [setId 3 nodeA])]].
Proof. exists [0; 0; 1; 1; 1; 0; 1; 0]. vm_compute. reflexivity. Qed.
(** Alone these calls find what was saved. *)
Example C79_alone_case :
  fst (tileAlone TSearch twoNodes) = TFound (Ok [nodeA; nodeC]) /\
  fst (tileAlone (TNotify 0) twoNodes) = TFound (Ok [nodeA]) /\ fst (tileAlone (TNotify 1) twoNodes) = TFound (Ok [nodeC]).
Proof. vm_compute. auto. Qed.
(** The entry of a save during a search: the saved node is found with the contents of the first one forever. *)
Example C79_save_case :
  (exists id off n, readIndexEntry (filesOf twoNodes) 0 = Ok (id, off, n) /\
    (1 <= u32 (N.of_nat (ipos (streams twoNodes) / entrySize)))%N) /\
  let f := filesOf (shared (run (repeat 0 4 ++ repeat 1 7) (tileThreads twoNodes [[TSearch]; [TSave (Node 5 [] (mkCoord 9 9))]]))) in
  fst (tileAlone TSearch (mkTile (mkHandle (length (dat f)) (length (idf f))) f)) = TFound (Ok [nodeA; nodeC; setId 5 nodeA]).
Proof. split; [eexists _, _, _; split; [reflexivity|vm_compute; discriminate]|vm_compute; reflexivity]. Qed.
(** Two saves to any tile may mix the halves of their index entries, both with the same offset. *)
Theorem C79_torn_refuted : forall t e1 e2, exists turns, let c := run turns (tileThreads t [[TSave e1]; [TSave e2]]) in
  (exists order, threads c = [Done [TSaved order]; Done [TSaved order]]) /\
  dat (filesOf (shared c)) = dat (filesOf t) ++ write e1 ++ write e2 /\
  idf (filesOf (shared c)) = idf (filesOf t) ++ le 8 (eid e1) ++ le 8 (eid e2) ++
    le 4 (u32 (N.of_nat (dpos (streams t)))) ++ le 4 (u32 (N.of_nat (dpos (streams t)))).
Proof.
  intros t e1 e2. exists [0; 0; 1; 1; 0; 1; 0; 1; 0; 1; 0; 0; 1; 1].
  split; [eexists; reflexivity|]. split; cbn; rewrite <- !app_assoc; reflexivity.
Qed.
(** Node 5 is then found with contents read from inside another element, and an id is reported which was never saved. *)
Example C79_torn_case :
  let c := run [0; 0; 1; 1; 0; 1; 0; 1; 0; 1; 0; 0; 1; 1] (tileThreads twoNodes [[TSave (Node 5 [] (mkCoord 9 9))]; [TSave (Node 6 [] (mkCoord 8 8))]]) in
  fst (tileAlone (TNotify 2) (shared c)) = TFound (Ok [Node 5 [] (mkCoord 196608 7696581394432)]) /\
  fst (tileAlone (TNotify 3) (shared c)) = TFound (Ok [Node 163208757248 [] (mkCoord 9 9)]).
Proof. vm_compute. auto. Qed.
(** Threads of which one uses the tile do not race. *)
Example C79_race_case :
  ~ (exists turns, race (run turns (tileThreads twoNodes [[TSearch; TSave nodeA]; []]))) /\
  (exists turns, race (run turns (tileThreads twoNodes [[TSearch]; [TNotify 0]]))).
Proof.
  split; rewrite C79_race.
  - intros (i & j & p & q & D & P & Q & NP & NQ).
    assert (Z : forall x y, nth_error [[TSearch; TSave nodeA]; []] x = Some y -> y <> [] -> x = 0).
    { intros [|[|x]] y Y Ny; auto; [injection Y as <-; congruence|destruct x; discriminate]. }
    rewrite (Z i p P NP), (Z j q Q NQ) in D. congruence.
  - exists 0, 1, [TSearch], [TNotify 0]. repeat split; discriminate.
Qed.

(** The mutex of the cache of open tiles is not locked by flush: threads race exactly if one flushes while another does anything. *)
Theorem C79_flush_race : forall X D (open : N -> X -> D * X) (clear : X -> X) x programs,
  (exists turns, race (run turns (cacheThreads open clear x programs))) <->
  exists i j p q, i <> j /\ nth_error programs i = Some p /\ nth_error programs j = Some q /\ In CFlush p /\ q <> [].
Proof. intros X D open clear x programs. apply cache_race. Qed.
Example C79_flush_case : forall X D (open : N -> X -> D * X) (clear : X -> X) x,
  (exists turns, race (run turns (cacheThreads open clear x [[COpen 1; CFlush]; [COpen 2]]))) /\
  ~ (exists turns, race (run turns (cacheThreads open clear x [[COpen 1; COpen 3]; [COpen 2]]))).
Proof.
  intros X D open clear x. split; rewrite C79_flush_race.
  - exists 0, 1, [COpen 1; CFlush], [COpen 2]. repeat split; try discriminate. right. left. reflexivity.
  - intros (i & j & p & q & _ & P & _ & F & _).
    destruct i as [|[|i]]; [injection P as <-|injection P as <-|destruct i; discriminate]; cbn in F; intuition discriminate.
Qed.

Print Assumptions C79_alone.
Print Assumptions C79_alone_is_store.
Print Assumptions C79_race.
Print Assumptions C79_lost_refuted.
Print Assumptions C79_save_refuted.
Print Assumptions C79_mixed_refuted.
Print Assumptions C79_torn_refuted.
Print Assumptions C79_flush_race.
