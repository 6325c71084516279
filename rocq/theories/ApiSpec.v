(** What a caller of the exported functions may expect. *)
From Verif Require Import Base Bytes StringModel StringSpec ElementModel GeoModel MeshModel ApiModel.
Local Open Scope Z_scope.

(** A string table in use: opened on some files and only called. *)
Definition opened (hash : bytes -> N) (cap : nat) (t : table) : Prop :=
  exists index data os rs, srunT hash cap (openTable cap index data) os = Some (t, rs).
(** A string table which was started empty, used as intended and holds the strings [l]. *)
Definition holds (hash : bytes -> N) (cap : nat) (l : list bytes) (t : table) : Prop :=
  exists os rs, srunT hash cap (openTable cap [] []) os = Some (t, rs) /\ stringsOk nulFree os /\ allocatedOnly [] os /\
    fst (specRun [] os) = l /\ (diskBytes l < 4294967296)%N.

(** * The order of calls *)
Inductive life := Before | Connected | After.
(** What a call does to the state, if it is allowed; [creates] tells which directories can be opened. *)
Definition lives (creates : bytes -> bool) (o : op) (s : life) : option life :=
  match o, s with
  | Connect index, _ => Some (if creates index then Connected else s)
  | Disconnect, Before => Some Before
  | Disconnect, Connected => Some After
  | Use _ _, Connected => Some Connected
  | _, _ => None
  end.
Fixpoint respects (creates : bytes -> bool) (os : list op) (s : life) : bool :=
  match os with
  | [] => true
  | o :: os' => match lives creates o s with Some s' => respects creates os' s' | None => false end
  end.

(** The arrays of a call are as long as told, and have whole entries. *)
Definition arraysOk (c : call) : Prop :=
  match c with
  | AddDataInElement _ _ _ vertices n tags m _ _ =>
      (exists k, n = 2 * k /\ 1 <= k) /\ n <= Z.of_nat (length vertices) /\ (exists k, m = 2 * k /\ 0 <= k) /\ m <= Z.of_nat (length tags)
  | _ => True
  end.
(** Levels of detail in range. *)
Definition lodsOk (c : call) : Prop :=
  match c with
  | AddDataInRange _ _ _ s e | AddDataInBoundingBox _ _ _ _ _ s e | AddDataInElement _ _ _ _ _ _ _ s e | GetDataByText _ _ _ _ _ _ s e =>
      1 <= s <= 19 /\ 1 <= e <= 19
  | _ => True
  end.
(** The functions which take an error callback. *)
Definition hasCallback (c : call) : bool :=
  match c with
  | RegisterStylesheet _ | RegisterInMemoryStore _ | RegisterPersistentStore _ _ | EnableMeshCache _ | HasData _
  | GetElevationByQuadKey _ _ _ => false
  | _ => true
  end.
Definition isError (e : event) : bool := match e with EError _ => true | _ => false end.
(** The stylesheets a call needs. *)
Definition styleOf (c : call) : option bytes :=
  match c with
  | RegisterStylesheet p | AddDataInRange _ p _ _ _ | AddDataInBoundingBox _ p _ _ _ _ _ | AddDataInQuadKey _ p _ _
  | AddDataInElement _ p _ _ _ _ _ _ _ | GetDataByQuadKey _ p _ _ => Some p
  | _ => None
  end.

(** * The other parts *)
Section Lawful.
  Context (hash : bytes -> N) (cap : nat) {P S : Type} (q : parts P S).
  (** They do nothing undefined and use the string table only by its functions. *)
  Record lawful : Prop := {
    law_create : forall i, qCreate q i <> UB /\ forall t s, qCreate q i = Ok (t, s) -> opened hash cap t;
    law_provide : forall dir text t, opened hash cap t -> opened hash cap (fst (qProvide q dir text t)) /\ snd (qProvide q dir text t) <> UB;
    law_style : forall p e l, qStyle q p e l <> UB;
    law_store : forall key r p t s, opened hash cap t ->
      opened hash cap (fst (fst (qStore q key r p t s))) /\ snd (qStore q key r p t s) <> UB;
    law_has : forall k s, qHas q k s <> UB;
    law_search : forall x t s, opened hash cap t ->
      opened hash cap (fst (fst (fst (qSearch q x t s)))) /\ snd (qSearch q x t s) <> UB;
    law_build : forall k p i t s, opened hash cap t ->
      opened hash cap (fst (fst (fst (qBuild q k p i t s)))) /\ snd (qBuild q k p i t s) <> UB;
    law_elevation : forall i k c, qElevation q i k c <> UB
  }.
  (** The directory of the index can be opened. *)
  Definition creates (index : bytes) : bool := match qCreate q index with Ok _ => true | _ => false end.
  (** Whether a stylesheet was read. *)
  Definition loaded (path : bytes) (a : application P S) : Prop := exists p, alookup beqb path (aStyles a) = Some p.
End Lawful.
(** The same calls, at times when other files can be read. *)
Definition sameCall (a b : op) : Prop :=
  match a, b with Use _ c, Use _ c' => c = c' | _, _ => a = b end.
(** A call to the application one is connected to. *)
Definition isUse (o : op) : Prop := exists disk c, o = Use disk c.

(** * Elements *)
Definition nameOf (l : list bytes) (id : N) : bytes := nth (N.to_nat id) l [].
(** Keys and values. *)
Definition namesOf (l : list bytes) (ts : list tag) : list (bytes * bytes) := map (fun x => (nameOf l (tkey x), nameOf l (tvalue x))) ts.
Definition flatPairs {A} (l : list (A * A)) : list A := flat_map (fun x => [fst x; snd x]) l.
Definition pointsOf (e : element) : list coord :=
  match e with Node _ _ c => [c] | Way _ _ cs => cs | Area _ _ cs => cs | Relation _ _ _ => [mkCoord 0 0] end.
(** What is told about an element: the names of its tags, longitude, latitude and height of its points, and its style. *)
Definition reported (l : list bytes) (n : Z) (style : list (N * bytes)) (height : coord -> N) (e : element) : event :=
  let tags := flatPairs (namesOf l (etags e)) in
  let vs := flat_map (fun c => [clon c; clat c; height c]) (pointsOf e) in
  let st := flatPairs (map (fun d => (nameOf l (fst d), cstr (snd d))) style) in
  EElement n (eid e) tags (Z.of_nat (length tags)) vs (Z.of_nat (length vs)) st (Z.of_nat (length st)).
(** Ids which were handed out. *)
Definition knownId (l : list bytes) (id : N) : Prop := (N.to_nat id < length l)%nat.
Definition known (l : list bytes) (e : element) : Prop := Forall (fun x => knownId l (tkey x) /\ knownId l (tvalue x)) (etags e).
(** Sizes fit an int. *)
Definition fits {A} (k : Z) (l : list A) : Prop := k * Z.of_nat (length l) < 2 ^ 31.
Definition small (e : element) : Prop := fits 2 (etags e) /\ fits 3 (pointsOf e).
(** How a search which did not go wrong ends. *)
Definition ending (r : outcome unit) : list event := match r with Throw e => [EError e] | _ => [] end.

(** The element made of keys and values and of points. *)
Definition shapeOf (same : coord -> coord -> bool) (id : N) (ts : list tag) (cs : list coord) (e : element) : Prop :=
  match cs with
  | [] => False
  | [c] => e = Node id ts c
  | c :: _ => e = (if same c (last cs c) then Area else Way) id ts cs
  end.

(** * Directories *)
(** A path without repeated slashes. *)
Fixpoint squeeze (p : bytes) : bytes :=
  match p with
  | a :: p' => match squeeze p' with
               | (b :: _) as r => if (N.eqb a 47 && N.eqb b 47)%bool then r else a :: r
               | [] => [a]
               end
  | [] => []
  end.
(** The file is in the directory. *)
Definition inside (dir file : bytes) : Prop := exists name, ~ In 47%N name /\ squeeze file = squeeze (dir ++ 47%N :: name).
