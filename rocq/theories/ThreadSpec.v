(** What threads sharing an object rely on: no races, calls in some order one after another, and an end. *)
From Verif Require Import Base Bytes LruModel StringModel StringSpec MeshModel BuildModel ThreadModel.

(** * Races *)
Definition accesses {S R} (c : code S R) : Prop := match c with Look _ | Change _ _ => True | _ => False end.
Definition writes {S R} (c : code S R) : Prop := match c with Change _ _ => True | _ => False end.
(** Two threads are about to use the object at the same time, and one of them is to change it. *)
Definition race {S R} (c : config S R) : Prop :=
  exists i j a b, i <> j /\ nth_error (threads c) i = Some a /\ nth_error (threads c) j = Some b /\ accesses a /\ writes b.

(** * Ends *)
Definition ended {S R} (c : config S R) : Prop := forall t, In t (threads c) -> exists r, t = Done r.
(** A step of some thread. *)
Definition steps {S R} (c c' : config S R) : Prop := exists i, stepThread i c = Some c'.

(** * One call after another *)
Section Order.
  Context {S C A : Type}.
  (** What a call answers and leaves when nothing else happens. *)
  Variable alone : C -> S -> A * S.
  Fixpoint oneByOne (s : S) (calls : list C) : list A * S :=
    match calls with
    | [] => ([], s)
    | c :: calls' => let '(a, s1) := alone c s in let '(rest, s2) := oneByOne s1 calls' in (a :: rest, s2)
    end.

  (** A call in the order in which calls took effect. *)
  Record entry := mkEntry { who : nat; what : C; got : A }.
  Definition ofThread (i : nat) (log : list entry) : list entry := filter (fun e => Nat.eqb (who e) i) log.
  (** The calls of one thread are the ones of its program, in that order, with the answers so far. *)
  Definition follows (program : list (list A -> C)) (own : list entry) : Prop :=
    forall k e, nth_error own k = Some e -> exists c, nth_error program k = Some c /\ what e = c (map got (firstn k own)).

  (** The order explains what has happened: answers are those of one call after another, threads made their calls in their
      own order, threads which ended made all of them and have their answers, and threads without a turn made none. *)
  Record explains (s : S) (programs : list (list (list A -> C))) (turns : list nat) (log : list entry) (c : config S (list A)) : Prop := {
    ex_answers : map got log = fst (oneByOne s (map what log));
    ex_state : holder c = None -> shared c = snd (oneByOne s (map what log));
    ex_threads : forall e, In e log -> who e < length programs /\ In (who e) turns;
    ex_order : forall i program, nth_error programs i = Some program -> follows program (ofThread i log);
    ex_ended : forall i program r, nth_error programs i = Some program -> nth_error (threads c) i = Some (Done r) ->
      length (ofThread i log) = length program /\ r = map got (ofThread i log)
  }.
End Order.
Arguments entry : clear implicits.

(** * The string table *)
(** A call and its answer, [None] for undefined behaviour. *)
Definition stringAlone (hash : bytes -> N) (cap : nat) (c : scall) (t : table) : sanswer * table :=
  match sstep hash cap t (match c with CId s => GetId s | CString i => GetString i end) with
  | Some (t', r) => (Some r, t')
  | None => (None, t)
  end.
Definition asOp (c : scall) : sop := match c with CId s => GetId s | CString i => GetString i end.

(** * The pool of meshes *)
Definition poolAlone (cap : N) (c : pcall) (p : pool) : panswer * pool :=
  match c with
  | PGet name isLower => let '(m, p') := getMesh cap p name isLower in (Some m, p')
  | PRelease m => (None, release p m)
  end.
(** The meshes a thread holds after some calls. *)
Fixpoint takeOut (x : nat) (l : list nat) : list nat :=
  match l with [] => [] | y :: l' => if Nat.eqb x y then l' else y :: takeOut x l' end.
Definition holds (own : list (entry pcall panswer)) : list nat :=
  fold_left (fun held e =>
    match what e, got e with
    | PGet _ _, Some m => pid m :: held
    | PGet _ _, None => held
    | PRelease m, _ => takeOut (pid m) held
    end) own [].
(** A thread only releases meshes which it holds. *)
Definition honest (own : list (entry pcall panswer)) : Prop :=
  forall before e after m, own = before ++ e :: after -> what e = PRelease m -> In (pid m) (holds before).

(** * Maps which are filled on demand *)
Section Lookups.
  Context {K V : Type}.
  Variable keqb : K -> K -> bool.
  Variable compute : K -> option V.
  (** What is in the map is what would be computed. *)
  Definition rightMap (m : store K V) : Prop := forall k v, alookup keqb k m = Some v -> compute k = Some v.
  (** A lookup of the key would store something. *)
  Definition missing (m : store K V) (k : K) : Prop := alookup keqb k m = None /\ compute k <> None.
End Lookups.
