(** C70: the exported functions. *)
From Verif Require Import Base Bytes BytesProofs StringModel StringSpec StringProofs ElementModel GeoModel MeshModel CacheModel CacheProofs StyleModel ApiModel ApiSpec ApiProofs.
Local Open Scope Z_scope.

(** A small library: a store is a list of elements, a stylesheet its text. *)
Definition pointEqb (a b : coord) : bool := (N.eqb (clat a) (clat b) && N.eqb (clon a) (clon b))%bool.
Definition toy : parts bytes (list element) := {|
  qCreate := fun i => match i with [] => Throw InvalidArgument | _ => Ok (openTable 2 [] [], []) end;
  qProvide := fun _ text t => match text with
    | [] => (t, Throw MapcssError)
    | _ => match getId murmur text t with Ok (_, t') => (t', Ok text) | _ => (t, Throw MapcssError) end
    end;
  qTag := fun p => p;
  qStyle := fun p e l => Ok [(0%N, [49%N])];
  qSame := pointEqb;
  qRegister := fun _ _ s => s;
  qCaching := fun _ s => s;
  qStore := fun _ r _ t s => match r with OneElement e _ => (t, s ++ [e], Ok tt) | _ => (t, s, Throw InvalidArgument) end;
  qHas := fun _ s => Ok (negb (Nat.eqb (length s) 0));
  qSearch := fun _ t s => (t, s, s, Ok tt);
  qBuild := fun _ _ _ t s => (t, s, map Found s, Ok tt);
  qElevation := fun i _ _ => match i with Flat => Ok 5%N | _ => Throw InvalidArgument end
|}.
Lemma toy_lawful : lawful murmur 2 toy.
Proof.
  constructor; cbn -[getId openTable]; try discriminate.
  - intros [|x i]; (split; [discriminate|]); intros t s E; [discriminate|]. injection E as <- <-. exists [], [], [], []. reflexivity.
  - intros dir [|x text] t H; [split; [exact H|discriminate]|].
    destruct (opened_id murmur 2 ltac:(lia) (x :: text) t H) as (i & t' & E & H'). rewrite E. split; [exact H'|discriminate].
  - intros key [| | |e r] p t s H; split; try exact H; discriminate.
  - intros x t s H. split; [exact H|discriminate].
  - intros k p i t s H. split; [exact H|discriminate].
  - intros [| |] k c; discriminate.
Qed.
(** The stylesheet s of the toy. *)
Definition toyDisk (p : bytes) : option bytes := if beqb p [47; 115]%N then Some [116%N] else None.
(** An area of three points with a tag, a search, and a search by a tile. *)
Definition toyCalls : list op := [
  Connect [105%N];
  Use toyDisk (RegisterStylesheet [47; 115]%N);
  Use toyDisk (AddDataInElement [107%N] [47; 115]%N 9 [1; 2; 3; 4; 1; 2]%N 6 [[97%N]; [98%N]] 2 1 16);
  Use toyDisk (GetDataByText 7 [] [] [] (mkCoord 0 0) (mkCoord 9 9) 1 16);
  Use toyDisk (GetDataByQuadKey 8 [47; 115]%N (mkKey 16 1 1) 0);
  Disconnect].

(** Whatever is called in whatever order: as long as arrays are as long as told, nothing undefined happens exactly when every
    call but connect and disconnect is made between a connect which succeeded and the next disconnect, and disconnect is not called
    a second time in a row (a disconnect before the first connect is harmless). *)
Theorem C70_protocol :
  forall (hash : bytes -> N) (cap : nat) (P S : Type) (q : parts P S), (1 <= cap)%nat -> lawful hash cap q ->
  forall os, (forall disk c, In (Use disk c) os -> arraysOk c) ->
    (snd (run hash q os Null) = UB <-> respects (creates q) os Before = false).
Proof.
  intros hash cap P S q Hc L os Ha. apply (run_protocol hash cap Hc q L os Null Before); [exact Logic.I|].
  apply Forall_forall. intros [| |disk c] Hin; cbn [goodOp]; auto. eapply Ha. exact Hin.
Qed.
Print Assumptions C70_protocol.
Example C70_protocol_witness :
  (1 <= 2)%nat /\ lawful murmur 2 toy /\ (forall disk c, In (Use disk c) toyCalls -> arraysOk c) /\
  respects (creates toy) toyCalls Before = true /\
  snd (run murmur toy toyCalls Null) = Ok [Returned Nothing; Returned Nothing; Returned Nothing; Returned Nothing; Returned Nothing; Returned Nothing] /\
  respects (creates toy) (toyCalls ++ [Disconnect]) Before = false /\ snd (run murmur toy (toyCalls ++ [Disconnect]) Null) = UB /\
  respects (creates toy) [Connect []; Use toyDisk (HasData (mkKey 1 0 0))] Before = false /\
  snd (run murmur toy [Connect []; Use toyDisk (HasData (mkKey 1 0 0))] Null) = UB.
Proof.
  split; [lia|]. split; [exact toy_lawful|]. split; [|vm_compute; auto 10].
  intros disk c [E|[E|[E|[E|[E|[E|[]]]]]]]; try discriminate; injection E as <- <-; cbn [arraysOk]; auto.
  split; [exists 3; lia|]. split; [cbn; lia|]. split; [exists 1; lia|cbn; lia].
Qed.

(** Full statement: whatever goes wrong in a function with an error callback is told by this callback.  This holds, once and at
    the end, and the function returns, if levels of detail are in range and arrays are as long as told; missing are other levels
    (C70_errors_refuted) and other arrays (C70_arrays_refuted). *)
Theorem C70_errors_partial :
  forall (hash : bytes -> N) (cap : nat) (P S : Type) (q : parts P S), (1 <= cap)%nat -> lawful hash cap q ->
  forall disk c a, opened hash cap (aTable a) -> hasCallback c = true -> arraysOk c -> lodsOk c ->
  exists a' quiet evs, serve hash q disk c a = (a', evs, Ok Nothing) /\ opened hash cap (aTable a') /\
    existsb isError quiet = false /\ (evs = quiet \/ exists e, evs = quiet ++ [EError e]).
Proof.
  intros hash cap P S q Hc L disk c a Ho Hb Ha Hl.
  destruct (serve_good hash cap Hc q L disk c a Ho Ha) as (H1 & _ & H3).
  destruct (H3 Hb Hl) as [Hr (quiet & Q & E)]. destruct (serve hash q disk c a) as [[a' evs] r]. cbn [fst snd] in *. subst r.
  exists a', quiet, evs. auto.
Qed.
Print Assumptions C70_errors_partial.
(** The toy cannot add files. *)
Definition toyApp : application bytes (list element) := mkApp [105%N] (openTable 2 [] []) [] [].
Lemma toyApp_opened : opened murmur 2 (aTable toyApp).
Proof. exists [], [], [], []. reflexivity. Qed.
Example C70_errors_witness :
  opened murmur 2 (aTable toyApp) /\ hasCallback (AddDataInRange [107%N] [47; 115]%N [120%N] 1 16) = true /\
  snd (fst (serve murmur toy toyDisk (AddDataInRange [107%N] [47; 115]%N [120%N] 1 16) toyApp)) = [EError InvalidArgument] /\
  snd (fst (serve murmur toy (fun _ => Some []) (AddDataInRange [107%N] [47; 115]%N [120%N] 1 16) toyApp)) = [EError MapcssError].
Proof. split; [exact toyApp_opened|]. vm_compute. auto. Qed.

(** Levels out of range: in every one of the four functions which take levels the exception leaves the function, nothing is told
    and nothing is done.  A stylesheet which cannot be read is an exception which leaves registerStylesheet. *)
Theorem C70_errors_refuted :
  (forall (hash : bytes -> N) (P S : Type) (q : parts P S) disk c a, ~ lodsOk c -> serve hash q disk c a = (a, [], Throw DomainError)) /\
  (forall (hash : bytes -> N) (P S : Type) (q : parts P S) (disk : bytes -> option bytes) path a, ~ loaded path a -> disk path = None ->
     serve hash q disk (RegisterStylesheet path) a = (a, [], Throw InvalidArgument)).
Proof.
  split.
  - intros hash P S q disk c a H.
    assert (D : forall s e, ~ (1 <= s <= 19 /\ 1 <= e <= 19) -> newRange s e = Throw DomainError).
    { intros s e N. unfold newRange, MinLod, MaxLod. replace (_ || _ || _ || _)%bool with true by lia. reflexivity. }
    destruct c; cbn [lodsOk] in H; try (exfalso; exact (H Logic.I)); cbn [serve]; unfold withRange; rewrite (D _ _ H); reflexivity.
  - intros hash P S q disk path a H E. cbn [serve]. unfold provider. destruct (alookup beqb path (aStyles a)) as [p|] eqn:Ep; [exfalso; apply H; now exists p|].
    rewrite E. reflexivity.
Qed.
Print Assumptions C70_errors_refuted.
Example C70_errors_refuted_witness :
  ~ lodsOk (AddDataInRange [107%N] [47; 115]%N [120%N] 0 16) /\ ~ loaded [120%N] toyApp /\ toyDisk [120%N] = None.
Proof. split; [cbn; lia|]. split; [intros [p E]; discriminate|reflexivity]. Qed.

(** Full statement: an element can be added with any arrays.  An element without points, and keys without a value, are read beyond
    the arrays. *)
Theorem C70_arrays_refuted :
  forall (hash : bytes -> N) (P S : Type) (q : parts P S) disk key style id a s e, 1 <= s <= 19 -> 1 <= e <= 19 ->
    snd (serve hash q disk (AddDataInElement key style id [] 0 [] 0 s e) a) = UB /\
    (forall x i t, getId hash x (aTable a) = Ok (i, t) -> snd (serve hash q disk (AddDataInElement key style id [1; 2]%N 2 [x] 1 s e) a) = UB).
Proof.
  intros hash P S q disk key style id a s e H1 H2. split.
  - cbn [serve]. unfold withRange. rewrite (newRange_spec s e) by auto. reflexivity.
  - intros x i t E. cbn [serve]. unfold withRange. rewrite (newRange_spec s e) by auto. cbn [tagsOf Z.leb Z.ltb].
    change (tagsOf hash [x] 1 (aTable a)) with (tagIds hash [x] 0 1 (aTable a)). cbn [tagIds entry nth_error bind].
    rewrite E. reflexivity.
Qed.
Print Assumptions C70_arrays_refuted.
Example C70_arrays_refuted_witness : exists t, getId murmur [97%N] (aTable toyApp) = Ok (0%N, t).
Proof. eexists. vm_compute. reflexivity. Qed.

(** An element comes to the store with the keys, values and points of the arrays: a node for one point, an area if the first point
    and the last one are the same, a way otherwise. *)
Theorem C70_element :
  forall (hash : bytes -> N) (cap : nat) (P S : Type) (q : parts P S), (1 <= cap)%nat -> (forall s, (hash s < 4294967296)%N) ->
  forall disk key style id cs kvs s e (a : application P S) l p,
    holds hash cap l (aTable a) -> Forall nulFree (flatPairs kvs) -> (diskBytes l + diskBytes (flatPairs kvs) < 4294967296)%N ->
    1 <= s <= 19 -> 1 <= e <= 19 -> cs <> [] -> alookup beqb style (aStyles a) = Some p ->
  let vertices := flat_map (fun c => [clat c; clon c]) cs in
  exists m t ts x, holds hash cap (l ++ m) t /\ known (l ++ m) x /\ etags x = ts /\ namesOf (l ++ m) ts = kvs /\ shapeOf (qSame q) id ts cs x /\
    serve hash q disk (AddDataInElement key style id vertices (Z.of_nat (length vertices)) (flatPairs kvs) (Z.of_nat (length (flatPairs kvs))) s e) a =
      (let '(t', st, r) := qStore q key (OneElement x (mkRange s e)) p t (aStores a) in
       (mkApp (aIndex a) t' st (aStyles a), ending r, match r with UB => UB | _ => Ok Nothing end)).
Proof.
  intros hash cap P S q Hc H32 disk key style id cs kvs s e a l p Hh Hn Hd Hs He Hcs Hp vertices.
  destruct (tagsOf_holds hash cap Hc H32 kvs l (aTable a) Hh Hn Hd) as (t & ts & m & E & Ht & Hk & Hnm).
  destruct (elementOf_flat q id ts cs Hcs) as (x & Ex & Sx).
  assert (Et : etags x = ts).
  { clear -Sx. destruct cs as [|c [|d cs]]; cbn [shapeOf] in Sx; [contradiction|subst; reflexivity|].
    destruct (qSame q c _); subst; reflexivity. }
  exists m, t, ts, x. split; [exact Ht|]. split; [unfold known; rewrite Et; exact Hk|]. split; [exact Et|]. split; [exact Hnm|]. split; [exact Sx|].
  cbn [serve]. unfold withRange. rewrite (newRange_spec s e) by auto. rewrite E. cbn [bind]. fold (flatCoords cs) in vertices. unfold vertices. rewrite Ex.
  unfold addWith. rewrite (provider_loaded q disk style (setTable a t) p Hp). cbn [setTable aTable aStores aIndex aStyles].
  destruct (qStore q key (OneElement x (mkRange s e)) p t (aStores a)) as [[t' st] r]. destruct r; reflexivity.
Qed.
Print Assumptions C70_element.

(** A search tells exactly the elements found: their tags by name, longitude and latitude, height 0, no style; an exception of the
    search is told after them. *)
Theorem C70_search :
  forall (hash : bytes -> N) (cap : nat) (P S : Type) (q : parts P S), (1 <= cap)%nat -> (forall s, (hash s < 4294967296)%N) ->
  forall disk n nots ands ors least most s e (a : application P S) t st es found l,
    1 <= s <= 19 -> 1 <= e <= 19 ->
    qSearch q (mkQuery nots ands ors least most (mkRange s e)) (aTable a) (aStores a) = (t, st, es, found) -> found <> UB ->
    holds hash cap l t -> Forall (known l) es -> Forall small es ->
  exists t', holds hash cap l t' /\
    serve hash q disk (GetDataByText n nots ands ors least most s e) a =
      (mkApp (aIndex a) t' st (aStyles a), map (reported l n [] (fun _ => 0%N)) es ++ ending found, Ok Nothing).
Proof.
  intros hash cap P S q Hc H32 disk n nots ands ors least most s e a t st es found l Hs He Eq Hf Hh Hk Hsm.
  destruct (visitAll_holds hash cap Hc H32 l n es t newVisitor Hh new_fresh Hk Hsm) as (t' & E & Ht'). exists t'. split; [exact Ht'|].
  cbn [serve]. unfold withRange. rewrite (newRange_spec s e) by auto. rewrite Eq, E. cbn [bind].
  destruct found as [[]|x|]; [| |congruence]; cbn [safely ending]; rewrite ?app_nil_r; reflexivity.
Qed.
Print Assumptions C70_search.

(** A tile tells its meshes, but for empty ones, and its elements, in the order they were built; elements with style and height. *)
Theorem C70_tile :
  forall (hash : bytes -> N) (cap : nat) (P S : Type) (q : parts P S), (1 <= cap)%nat -> (forall s, (hash s < 4294967296)%N) ->
  forall disk n style k kind p (a : application P S) t st os built l styles h,
    alookup beqb style (aStyles a) = Some p ->
    qBuild q k p (kindOf kind) (aTable a) (aStores a) = (t, st, os, built) -> built <> UB -> holds hash cap l t ->
    (forall e, In (Found e) os -> known l e /\ small e /\ qStyle q p e (lod k) = Ok (styles e) /\
       Forall (fun d => knownId l (fst d)) (styles e) /\ fits 2 (styles e) /\
       Forall (fun c => qElevation q (kindOf kind) k c = Ok (h c)) (pointsOf e)) ->
  exists t', holds hash cap l t' /\
    serve hash q disk (GetDataByQuadKey n style k kind) a =
      (mkApp (aIndex a) t' st (aStyles a),
       flat_map (fun o => match o with
                          | Built m => match vertices m with [] => [] | _ => [EMesh n m] end
                          | Found e => [reported l n (styles e) h e]
                          end) os ++ ending built, Ok Nothing).
Proof.
  intros hash cap P S q Hc H32 disk n style k kind p a t st os built l styles h Hp Eq Hb Hh Ho.
  destruct (tellAll_holds hash cap Hc H32 l n (fun e => qStyle q p e (lod k)) styles (qElevation q (kindOf kind) k) h os t newVisitor Hh new_fresh Ho)
    as (t' & E & Ht'). exists t'. split; [exact Ht'|].
  cbn [serve]. rewrite (provider_loaded q disk style a p Hp), Eq, E. cbn [bind].
  destruct built as [[]|x|]; [| |congruence]; cbn [safely ending]; rewrite ?app_nil_r; reflexivity.
Qed.
Print Assumptions C70_tile.

(** An element which was added and is found later, among others or alone, is told with the keys, values and points it was added with. *)
Theorem C70_roundtrip :
  forall same id kvs cs l ts x m n style h,
    Forall (fun y => knownId l (tkey y) /\ knownId l (tvalue y)) ts -> namesOf l ts = kvs -> shapeOf same id ts cs x ->
  exists st,
    reported (l ++ m) n style h x =
      EElement n id (flatPairs kvs) (Z.of_nat (length (flatPairs kvs)))
        (flat_map (fun c => [clon c; clat c; h c]) cs) (Z.of_nat (length (flat_map (fun c => [clon c; clat c; h c]) cs))) st (Z.of_nat (length st)).
Proof.
  intros same id kvs cs l ts x m n style h Hk Hn Sx.
  assert (En : namesOf (l ++ m) ts = kvs).
  { rewrite <- Hn. unfold namesOf. clear -Hk. induction Hk as [|y ts [K1 K2] F IH]; [reflexivity|]. cbn [map].
    now rewrite !nameOf_app, IH by assumption. }
  assert (Ex : eid x = id /\ etags x = ts /\ pointsOf x = cs).
  { destruct cs as [|c [|d cs]]; cbn [shapeOf] in Sx; [contradiction|subst; auto|]. destruct (same c _); subst; auto. }
  destruct Ex as (E1 & E2 & E3). eexists. unfold reported. rewrite E1, E2, E3, En. reflexivity.
Qed.
Print Assumptions C70_roundtrip.

(** The whole way in the toy: an area is added and told by a search and by a tile. *)
Example C70_calls_witness :
  match run murmur toy toyCalls Null with
  | (Gone, evs, Ok _) =>
      skipn 16 evs = [EElement 7 9 [[97%N]; [98%N]] 2 [2; 1; 0; 4; 3; 0; 2; 1; 0]%N 9 [] 0;
                      EElement 8 9 [[97%N]; [98%N]] 2 [2; 1; 5; 4; 3; 5; 2; 1; 5]%N 9 [[116%N]; [49%N]] 2]
  | _ => False
  end.
Proof. vm_compute. reflexivity. Qed.
(** The hypotheses of the theorems in the toy. *)
Example C70_element_witness :
  let a := mkApp [105%N] (openTable 2 [] []) [] [([115%N], [116%N])] in
  holds murmur 2 [] (aTable a) /\ Forall nulFree (flatPairs [([97%N], [98%N])]) /\ (diskBytes [] + diskBytes (flatPairs [([97%N], [98%N])]) < 4294967296)%N /\
  alookup beqb [115%N] (aStyles a) = Some [116%N] /\
  (exists x, aStores (fst (fst (serve murmur toy toyDisk (AddDataInElement [107%N] [115%N] 9 [1; 2; 3; 4]%N 4 [[97%N]; [98%N]] 2 1 16) a))) = [x] /\
     shapeOf pointEqb 9 [mkTag 0 1] [mkCoord 1 2; mkCoord 3 4] x /\ x = Way 9 [mkTag 0 1] [mkCoord 1 2; mkCoord 3 4]).
Proof.
  cbn zeta. split; [|split; [|split; [|split]]].
  - exists [], []. split; [reflexivity|]. split; [intros s []|]. split; [exact Logic.I|]. split; [reflexivity|]. vm_compute. reflexivity.
  - repeat constructor; intros [C|[]]; discriminate.
  - vm_compute. reflexivity.
  - reflexivity.
  - eexists. split; [vm_compute; reflexivity|]. split; reflexivity.
Qed.

(** The hypotheses of C70_search, C70_tile and C70_roundtrip: two strings, a way with one tag. *)
Definition twoNames : table := match srunT murmur 2 (openTable 2 [] []) [GetId [97%N]; GetId [98%N]] with Some (t, _) => t | None => openTable 2 [] [] end.
Definition oneWay : element := Way 9 [mkTag 0 1] [mkCoord 1 2; mkCoord 3 4].
Example C70_search_witness :
  let l := [[97%N]; [98%N]] in
  let a := mkApp [105%N] twoNames [oneWay] [([115%N], [116%N])] in
  holds murmur 2 l twoNames /\ known l oneWay /\ small oneWay /\
  (forall x, qSearch toy x twoNames [oneWay] = (twoNames, [oneWay], [oneWay], Ok tt)) /\
  alookup beqb [115%N] (aStyles a) = Some [116%N] /\
  qBuild toy (mkKey 16 1 1) [116%N] Flat twoNames [oneWay] = (twoNames, [oneWay], [Found oneWay], Ok tt) /\
  Forall (fun d : N * bytes => knownId l (fst d)) [(0%N, [49%N])] /\ fits 2 [(0%N, [49%N])] /\
  Forall (fun y => knownId l (tkey y) /\ knownId l (tvalue y)) [mkTag 0 1] /\ namesOf l [mkTag 0 1] = [([97%N], [98%N])] /\
  shapeOf pointEqb 9 [mkTag 0 1] [mkCoord 1 2; mkCoord 3 4] oneWay /\
  reported l 7 [] (fun _ => 0%N) oneWay = EElement 7 9 l 2 [2; 1; 0; 4; 3; 0]%N 6 [] 0.
Proof.
  cbn zeta. split.
  { exists [GetId [97%N]; GetId [98%N]]. eexists. split; [vm_compute; reflexivity|]. split.
    { intros s [E|[E|[]]]; injection E as <-; intros [C|[]]; discriminate. }
    split; [cbn [allocatedOnly]; auto|]. split; vm_compute; reflexivity. }
  split; [repeat constructor; cbn; lia|]. split; [split; vm_compute; reflexivity|]. split; [reflexivity|]. split; [reflexivity|]. split; [reflexivity|].
  split; [repeat constructor; cbn; lia|]. split; [vm_compute; reflexivity|]. split; [repeat constructor; cbn; lia|].
  split; [reflexivity|]. split; reflexivity.
Qed.

(** Once the stylesheets which calls need were read, files do not matter: whatever can be read in the meantime, the same calls have
    the same effects. *)
Theorem C70_styles :
  forall (hash : bytes -> N) (P S : Type) (q : parts P S) os os' (a : application P S),
    Forall isUse os -> Forall2 sameCall os os' ->
    (forall disk c path, In (Use disk c) os -> styleOf c = Some path -> loaded path a) ->
    run hash q os (Live a) = run hash q os' (Live a).
Proof. intros hash P S q os os' a. apply run_same. Qed.
Print Assumptions C70_styles.
Example C70_styles_witness :
  let a := mkApp [105%N] (openTable 2 [] []) [] [([115%N], [116%N])] in
  let os disk := [Use disk (RegisterStylesheet [115%N]); Use disk (AddDataInQuadKey [107%N] [115%N] [120%N] (mkKey 1 0 0))] in
  Forall isUse (os toyDisk) /\ Forall2 sameCall (os toyDisk) (os (fun _ => None)) /\
  (forall disk c path, In (Use disk c) (os toyDisk) -> styleOf c = Some path -> loaded path a) /\
  (exists evs, snd (fst (run murmur toy (os (fun _ => None)) (Live a))) = evs ++ [EError InvalidArgument] /\ length evs = 16%nat).
Proof.
  cbn zeta. split; [repeat constructor; repeat eexists|]. split; [repeat constructor|]. split.
  - intros disk c path [E|[E|[]]] Es; injection E as <- <-; injection Es as <-; exists [116%N]; reflexivity.
  - exists (firstn 16 (snd (fst (run murmur toy [Use (fun _ => None) (RegisterStylesheet [115%N])] (Live (mkApp [105%N] (openTable 2 [] []) [] [([115%N], [116%N])])))))). vm_compute. auto.
Qed.

(** A stylesheet which cannot be read, or cannot be parsed, is told, and nothing is stored or remembered but strings of the table;
    the next call reads it again. *)
Theorem C70_unread :
  forall (hash : bytes -> N) (cap : nat) (P S : Type) (q : parts P S), (1 <= cap)%nat ->
  forall (disk : bytes -> option bytes) c path (a : application P S) x,
    opened hash cap (aTable a) -> styleOf c = Some path -> hasCallback c = true -> arraysOk c -> lodsOk c -> ~ loaded path a ->
    match disk path with
    | None => x = InvalidArgument
    | Some text => forall t, snd (qProvide q (dirOf path) text t) = Throw x
    end ->
  exists t, serve hash q disk c a = (mkApp (aIndex a) t (aStores a) (aStyles a), [EError x], Ok Nothing).
Proof.
  intros hash cap P S q Hc disk c path a x Ho Es Hb Ha Hl Hn Hx.
  assert (Pr : forall b : application P S, aStyles b = aStyles a -> exists t, provider q disk path b = (mkApp (aIndex b) t (aStores b) (aStyles b), Throw x)).
  { intros b Eb. unfold provider. rewrite Eb. destruct (alookup beqb path (aStyles a)) as [p|] eqn:Ep; [exfalso; apply Hn; now exists p|].
    destruct (disk path) as [text|].
    - specialize (Hx (aTable b)). destruct (qProvide q (dirOf path) text (aTable b)) as [t r]. cbn [snd] in Hx. subst r. exists t.
      unfold setTable. now rewrite Eb.
    - subst x. exists (aTable b). rewrite <- Eb. now destruct b. }
  assert (Ad : forall key r (b : application P S), aStyles b = aStyles a -> exists t, addWith q disk key path r b = (mkApp (aIndex b) t (aStores b) (aStyles b), [EError x], Ok Nothing)).
  { intros key r b Eb. unfold addWith. destruct (Pr b Eb) as [t E]. rewrite E. cbn [safely app]. eauto. }
  destruct c; cbn [styleOf hasCallback] in Es, Hb; try discriminate; injection Es as ->; cbn [serve lodsOk] in *.
  - unfold withRange. rewrite (newRange_spec _ _ Hl). now apply Ad.
  - unfold withRange. rewrite (newRange_spec _ _ Hl). now apply Ad.
  - now apply Ad.
  - unfold withRange. rewrite (newRange_spec _ _ Hl). cbn [arraysOk] in Ha. destruct Ha as ((k & -> & Hk) & Lv & (m & -> & Hm) & Lt).
    unfold tagsOf. replace (2 * m <=? -2) with false by lia. replace (2 * m <? 0) with false by lia.
    rewrite (steps_even m) by lia. destruct (tagIds_opened hash cap Hc tags (Z.to_nat m) 0 (aTable a) Ho) as (t & ts & E & H1); [lia|]. rewrite E.
    cbn [bind]. destruct (elementOf_defined q id vertices k ts Hk Lv) as [y Ey]. rewrite Ey.
    destruct (Ad key (OneElement y (mkRange s e)) (setTable a t) eq_refl) as [t' E']. rewrite E'. cbn [setTable aIndex aStores aStyles]. eauto.
  - destruct (Pr a eq_refl) as [t E]. rewrite E. cbn [safely app]. eauto.
Qed.
Print Assumptions C70_unread.
Example C70_unread_witness :
  let c := GetDataByQuadKey 8 [47; 115]%N (mkKey 16 1 1) 0 in
  styleOf c = Some [47; 115]%N /\ hasCallback c = true /\ ~ loaded [47; 115]%N toyApp /\ (forall t, snd (qProvide toy (dirOf [47; 115]%N) [] t) = Throw MapcssError) /\
  snd (fst (run murmur toy [Use (fun _ => Some []) c; Use (fun _ => None) c; Use toyDisk c; Use (fun _ => None) c] (Live toyApp))) = [EError MapcssError; EError InvalidArgument].
Proof. split; [reflexivity|]. split; [reflexivity|]. split; [intros [p E]; discriminate|]. split; [reflexivity|]. vm_compute. reflexivity. Qed.

(** A stylesheet which can be read and parsed is known after the first call which needs it, whatever else happens in this call. *)
Theorem C70_loaded :
  forall (hash : bytes -> N) (cap : nat) (P S : Type) (q : parts P S), (1 <= cap)%nat ->
  forall (disk : bytes -> option bytes) c path text (a : application P S),
    opened hash cap (aTable a) -> styleOf c = Some path -> arraysOk c -> lodsOk c -> ~ loaded path a -> disk path = Some text ->
    (forall t, exists t' p, qProvide q (dirOf path) text t = (t', Ok p)) ->
  exists t t' p, qProvide q (dirOf path) text t = (t', Ok p) /\ alookup beqb path (aStyles (fst (fst (serve hash q disk c a)))) = Some p.
Proof.
  intros hash cap P S q Hc disk c path text a Ho Es Ha Hl Hn Hd Hp.
  assert (Pr : forall b : application P S, aStyles b = aStyles a -> exists t' p, qProvide q (dirOf path) text (aTable b) = (t', Ok p) /\
    provider q disk path b = (mkApp (aIndex b) t' (aStores b) ((path, p) :: aStyles b), Ok p)).
  { intros b Eb. unfold provider. rewrite Eb. destruct (alookup beqb path (aStyles a)) as [p|] eqn:Ep; [exfalso; apply Hn; now exists p|].
    rewrite Hd. destruct (Hp (aTable b)) as (t' & p & E). rewrite E. eauto. }
  assert (Ad : forall key r (b : application P S), aStyles b = aStyles a -> exists t' p, qProvide q (dirOf path) text (aTable b) = (t', Ok p) /\
    alookup beqb path (aStyles (fst (fst (addWith q disk key path r b)))) = Some p).
  { intros key r b Eb. unfold addWith. destruct (Pr b Eb) as (t' & p & E & E2). rewrite E2. exists t', p. split; [exact E|].
    cbn [aTable aStores aIndex aStyles]. destruct (qStore q key r p t' (aStores b)) as [[t2 s2] o]. destruct (safely [] o).
    cbn [fst aStyles alookup]. now rewrite beqb_refl. }
  destruct c; cbn [styleOf] in Es; try discriminate; injection Es as ->; cbn [serve lodsOk] in *.
  - destruct (Pr a eq_refl) as (t' & p & E & E2). rewrite E2. exists (aTable a), t', p. split; [exact E|]. cbn [fst aStyles alookup]. now rewrite beqb_refl.
  - unfold withRange. rewrite (newRange_spec _ _ Hl). eexists. apply Ad. reflexivity.
  - unfold withRange. rewrite (newRange_spec _ _ Hl). eexists. apply Ad. reflexivity.
  - eexists. apply Ad. reflexivity.
  - unfold withRange. rewrite (newRange_spec _ _ Hl). cbn [arraysOk] in Ha. destruct Ha as ((k & -> & Hk) & Lv & (m & -> & Hm) & Lt).
    unfold tagsOf. replace (2 * m <=? -2) with false by lia. replace (2 * m <? 0) with false by lia.
    rewrite (steps_even m) by lia. destruct (tagIds_opened hash cap Hc tags (Z.to_nat m) 0 (aTable a) Ho) as (t & ts & E & H1); [lia|]. rewrite E.
    cbn [bind]. destruct (elementOf_defined q id vertices k ts Hk Lv) as [y Ey]. rewrite Ey. eexists. apply Ad. reflexivity.
  - destruct (Pr a eq_refl) as (t' & p & E & E2). rewrite E2. exists (aTable a), t', p. split; [exact E|].
    cbn [aTable aStores aIndex aStyles].
    destruct (qBuild q k p (kindOf ele) t' (aStores a)) as [[[t2 s2] os] built].
    destruct (tellAll tag _ (qElevation q (kindOf ele) k) os t2 newVisitor) as [[t3 evs] told]. destruct (safely evs _).
    cbn [fst aStyles alookup]. now rewrite beqb_refl.
Qed.
Print Assumptions C70_loaded.
Example C70_loaded_witness :
  let c := GetDataByQuadKey 8 [47; 115]%N (mkKey 16 1 1) 0 in
  styleOf c = Some [47; 115]%N /\ ~ loaded [47; 115]%N toyApp /\ toyDisk [47; 115]%N = Some [116%N] /\
  alookup beqb [47; 115]%N (aStyles (fst (fst (serve murmur toy toyDisk c toyApp)))) = Some [116%N].
Proof. split; [reflexivity|]. split; [intros [p E]; discriminate|]. vm_compute. auto. Qed.

(** The directory of a stylesheet, from which it imports others: the path up to the last slash or backslash. *)
Theorem C70_style_directory :
  forall path, exists name, path = dirOf path ++ name /\ (forall c, In c name -> c <> 47%N /\ c <> 92%N) /\
    (dirOf path = [] \/ exists d c, dirOf path = d ++ [c] /\ (c = 47%N \/ c = 92%N)).
Proof. exact dirOf_spec. Qed.
Print Assumptions C70_style_directory.
Example C70_style_directory_witness : dirOf [97; 47; 98; 92; 99]%N = [97; 47; 98; 92]%N /\ dirOf [97; 98]%N = [].
Proof. split; reflexivity. Qed.

(** Full statement: the directories of all files the library writes are announced when stylesheets and stores are registered.  This
    holds for tiles of the levels 1 to 16; missing are the levels 17 to 19 (C70_directories_refuted). *)
Theorem C70_directories_partial :
  forall extension k file, ~ In 47%N extension -> 1 <= lod k <= 16 ->
    (forall index tag, pathText index extension tag k = Ok file ->
       exists d, In (EDirectory d) (dataDirs (cacheRoot index tag)) /\ inside d file) /\
    (forall dataPath, storeFile dataPath extension k = Ok file -> exists d, In (EDirectory d) (dataDirs dataPath) /\ inside d file).
Proof.
  intros extension k file He Hk.
  assert (D : forall root, In (EDirectory (root ++ 47%N :: decimal (Z.to_N (lod k)))) (dataDirs root)).
  { intros root. unfold dataDirs. apply in_map_iff. exists (lod k). split; [reflexivity|]. unfold interval. apply in_map_iff.
    exists (Z.to_nat (lod k - 1)). split; [lia|]. apply in_seq. lia. }
  assert (K : forall s, keyString k = Ok s -> ~ In 47%N s).
  { unfold keyString. destruct (lod k <=? 31); [|discriminate]. destruct (lod k <? 0); [discriminate|]. intros s [= <-].
    induction (Z.to_nat (lod k)) as [|n IH]; [intros []|]. cbn [keyDigits]. intros [C|C]; [|exact (IH C)].
    unfold keyDigit in C. destruct (Z.testbit (tileX k) _), (Z.testbit (tileY k) _); discriminate. }
  split.
  - intros index tag E. unfold pathText in E. destruct (keyString k) as [s| |] eqn:Es; try discriminate. injection E as <-.
    eexists. split; [apply D|]. exists (s ++ 46%N :: extension). split.
    { intros C. apply in_app_or in C as [C|[C|C]]; [exact (K s eq_refl C)|discriminate|exact (He C)]. }
    unfold cacheRoot. rewrite <- !app_assoc. cbn [app].
    change (index ++ 47 :: 99 :: 97 :: 99 :: 104 :: 101 :: 47 :: tag ++ 47 :: 47 :: ?x)%N with (index ++ ([47; 99; 97; 99; 104; 101; 47] ++ tag ++ 47 :: 47 :: x))%N.
    pose proof (squeeze_mid (index ++ [47; 99; 97; 99; 104; 101; 47]%N ++ tag) (decimal (Z.to_N (lod k)) ++ 47%N :: s ++ 46%N :: extension)) as Q.
    rewrite <- !app_assoc in Q. cbn [app] in Q. rewrite <- Q. reflexivity.
  - intros dataPath E. unfold storeFile in E. destruct (keyString k) as [s| |] eqn:Es; try discriminate. injection E as <-.
    eexists. split; [apply D|]. exists (s ++ extension). split.
    { intros C. apply in_app_or in C as [C|C]; [exact (K s eq_refl C)|exact (He C)]. }
    rewrite <- app_assoc. reflexivity.
Qed.
Print Assumptions C70_directories_partial.
Example C70_directories_witness :
  pathText [105%N] [109%N] [116%N] (mkKey 2 1 1) = Ok [105; 47; 99; 97; 99; 104; 101; 47; 116; 47; 50; 47; 48; 51; 46; 109]%N /\
  storeFile [105%N] [46; 100]%N (mkKey 2 1 1) = Ok [105; 47; 50; 47; 48; 51; 46; 100]%N.
Proof. split; reflexivity. Qed.

(** Data of the levels 17 to 19 is taken, but the directories of its files are never announced. *)
Theorem C70_directories_refuted :
  forall l, 17 <= l <= 19 -> newRange l l = Ok (mkRange l l) /\
  exists file, storeFile [105%N] [46; 100]%N (mkKey l 0 0) = Ok file /\
    forall d, In (EDirectory d) (dataDirs [105%N]) -> ~ inside d file.
Proof.
  assert (X : forall l, In l [17; 18; 19] -> newRange l l = Ok (mkRange l l) /\
    exists file, storeFile [105%N] [46; 100]%N (mkKey l 0 0) = Ok file /\
    forallb (fun e => match e with EDirectory d => let w := squeeze (d ++ [47%N]) in negb (beqb (firstn (length w) (squeeze file)) w) | _ => true end) (dataDirs [105%N]) = true).
  { intros l [<-|[<-|[<-|[]]]]; (split; [reflexivity|]; eexists; split; [vm_compute; reflexivity|]; vm_compute; reflexivity). }
  intros l Hl. destruct (X l) as [E (file & Ef & F)]; [cbn [In]; lia|]. split; [exact E|]. exists file. split; [exact Ef|].
  intros d Hd (name & Hn & Eq). rewrite forallb_forall in F. specialize (F _ Hd). cbn beta iota zeta in F.
  rewrite Eq, (squeeze_name d name Hn), firstn_app, Nat.sub_diag, firstn_all in F. cbn [firstn] in F. rewrite app_nil_r in F.
  apply negb_true_iff in F. now rewrite beqb_refl in F.
Qed.
Print Assumptions C70_directories_refuted.
Example C70_directories_refuted_witness : 17 <= 17 <= 19. Proof. lia. Qed.
