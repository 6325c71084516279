(** Threads which share an object with a mutex: interleavings of single accesses, the locked methods of
    core/src/index/StringTable.cpp and core/src/builders/MeshPool.hpp as sequences of accesses, and the lookups of
    core/src/mapcss/StyleProvider.cpp, core/src/heightmap/GridElevationProvider.hpp and
    core/src/heightmap/SrtmElevationProvider.hpp, which look before they lock.  Memory is sequentially consistent, which
    holds as long as there is no data race (the C++ standard, [intro.races]); a race is a state. *)
From Verif Require Import Base Bytes LruModel StringModel MeshModel BuildModel.
Local Open Scope nat_scope.

Section Threads.
  (** The members guarded by a mutex, e.g. map_, offsets_, cache_, nextId_ and the files of StringTable.cpp:116-127, and what
      a thread has in the end. *)
  Variables S R : Type.

  (** What a thread does next with an object: nothing more, lock the mutex, e.g. the constructor of lock_guard in
      StringTable.cpp:53, unlock it (its destructor), read members, or write them (the rest of the thread may depend on what
      was there before). *)
  Inductive code := Done (r : R) | Acquire (k : code) | Release (k : code) | Look (k : S -> code) | Change (f : S -> S) (k : S -> code).

  (** An object, the thread which has locked its mutex (e.g. StringTable.cpp:125), and all threads. *)
  Record config := mkConfig { shared : S; holder : option nat; threads : list code }.

  (** Assignment of a list element (no line of its own: the state of one thread, e.g. StringTable.cpp:48-84). *)
  Fixpoint setAt {A} (i : nat) (x : A) (l : list A) : list A :=
    match i, l with
    | _, [] => []
    | O, _ :: l' => x :: l'
    | Datatypes.S i', y :: l' => y :: setAt i' x l'
    end.

  (** One step of one thread; [None] if it has ended or waits for the mutex (e.g. StringTable.cpp:53). *)
  Definition stepThread (i : nat) (c : config) : option config :=
    match nth_error (threads c) i with
    | Some (Acquire k) =>
        match holder c with
        | None => Some (mkConfig (shared c) (Some i) (setAt i k (threads c)))
        | Some _ => None
        end
    | Some (Release k) => Some (mkConfig (shared c) None (setAt i k (threads c)))
    | Some (Look k) => Some (mkConfig (shared c) (holder c) (setAt i (k (shared c)) (threads c)))
    | Some (Change f k) => Some (mkConfig (f (shared c)) (holder c) (setAt i (k (shared c)) (threads c)))
    | Some (Done _) | None => None
    end.
  (** The threads in some order of turns; a turn of a waiting thread passes (e.g. StringTable.cpp:53). *)
  Fixpoint run (turns : list nat) (c : config) : config :=
    match turns with
    | [] => c
    | i :: turns' => run turns' match stepThread i c with Some c' => c' | None => c end
    end.
  (** Threads before their first step (e.g. StringTable.cpp:48). *)
  Definition start (s : S) (ts : list code) : config := mkConfig s None ts.
End Threads.
Arguments Done {S R}. Arguments Acquire {S R}. Arguments Release {S R}. Arguments Look {S R}. Arguments Change {S R}.
Arguments shared {S R}. Arguments holder {S R}. Arguments threads {S R}. Arguments mkConfig {S R}.
Arguments stepThread {S R}. Arguments run {S R}. Arguments start {S R}.

Section Clients.
  (** Calls of an object and their answers (e.g. StringTable.cpp:48, 74). *)
  Context {S C A : Type}.
  (** How a call goes on: the rest of the thread depends on the answer (e.g. StringTable.cpp:48-84). *)
  Variable method : C -> (A -> code S (list A)) -> code S (list A).
  (** A thread which makes calls, each of which may depend on the answers so far; in the end it has its answers
      (e.g. the calls of StringTable.cpp:48 by Style.hpp:95, 133 in every thread which builds a tile). *)
  Fixpoint client (calls : list (list A -> C)) (answers : list A) : code S (list A) :=
    match calls with
    | [] => Done answers
    | c :: calls' => method (c answers) (fun a => client calls' (answers ++ [a]))
    end.
End Clients.

(** * StringTable.cpp *)
Section Strings.
  (** MurmurHash3_x86_32 and the size of the cache (StringTable.cpp:50, 27). *)
  Variables (hash : bytes -> N) (cap : nat).
  (** The answer of a call, or [None] for undefined behaviour (StringTable.cpp:48, 74). *)
  Definition sanswer := option sres.
  (** The two calls (StringTable.cpp:48, 74). *)
  Inductive scall := CId (s : bytes) | CString (id : N).

  Section Result.
    Context {R : Type}.
    Variable k : sanswer -> code table R.
    (** StringTable.cpp:98-114 and 71, write by write: the data file, the index file, the map, the offsets and the counter. *)
    Definition writeCode (h : N) (s : bytes) : code table R :=
      Look (fun t =>
        let off := if dataFail t then 4294967295%N else u32 (N.of_nat (length (dataF t))) in
        Change (fun t => mkTable (indexF t) (if dataFail t then dataF t else dataF t ++ cstr s ++ [0%N]) (dataFail t) (nextId t)
                                 (hmap t) (offsets t) (scache t)) (fun _ =>
        Change (fun t => mkTable (indexF t ++ le 4 h ++ le 4 off) (dataF t) (dataFail t) (nextId t) (hmap t) (offsets t) (scache t)) (fun _ =>
        Change (fun t => mkTable (indexF t) (dataF t) (dataFail t) (nextId t) (pushBucket h (nextId t) (hmap t)) (offsets t) (scache t)) (fun _ =>
        Change (fun t => mkTable (indexF t) (dataF t) (dataFail t) (nextId t) (hmap t) (offsets t ++ [off]) (scache t)) (fun _ =>
        Change (fun t => mkTable (indexF t) (dataF t) (dataFail t) (u32 (nextId t + 1)) (hmap t) (offsets t) (scache t)) (fun t =>
        Release (k (Some (SId (nextId t)))))))))).
    (** StringTable.cpp:48-72, getId; the loop over the ids (lines 56-67) is one access here. *)
    Definition getIdCode (s : bytes) : code table R :=
      Acquire (Look (fun t =>
        match alookup N.eqb (hash s) (hmap t) with
        | None => writeCode (hash s) s
        | Some ids =>
            Change (fun t => match scan s ids t with Ok (_, t') => t' | _ => t end) (fun t =>
              match scan s ids t with
              | Ok (Some id, _) => Release (k (Some (SId id)))
              | Ok (None, _) => writeCode (hash s) s
              | Throw e => Release (k (Some (SThrow e)))
              | UB => Release (k None)
              end)
        end)).
    (** StringTable.cpp:74-84, getString; the body is one access here. *)
    Definition getStringCode (id : N) : code table R :=
      Acquire (Change (fun t => match getString id t with Ok (_, t') => t' | _ => t end) (fun t =>
        match getString id t with
        | Ok (s, _) => Release (k (Some (SStr s)))
        | Throw e => Release (k (Some (SThrow e)))
        | UB => Release (k None)
        end)).
    (** StringTable.cpp:48, 74. *)
    Definition stringMethod (c : scall) : code table R :=
      match c with CId s => getIdCode s | CString id => getStringCode id end.
  End Result.
End Strings.

(** * MeshPool.hpp *)
(** The calls of MeshPool.hpp:25-40: getSmall and getLarge with a name, and release. *)
Inductive pcall := PGet (name : bytes) (isLower : bool) | PRelease (m : pmesh).
(** The mesh, if the call gives one (MeshPool.hpp:25-40). *)
Definition panswer := option pmesh.
(** MeshPool.hpp:25-56; [cap] is the capacity of a new mesh (Mesh.hpp:20).  Lines 43-55 are a read and a write of the map. *)
Definition poolMethod {R} (cap : N) (c : pcall) (k : panswer -> code pool R) : code pool R :=
  match c with
  | PGet name isLower =>
      Acquire (Look (fun p => Change (fun p => snd (getMesh cap p name isLower)) (fun _ =>
        Release (k (Some (fst (getMesh cap p name isLower)))))))
  | PRelease m => Acquire (Change (fun p => release p m) (fun _ => Release (k None)))
  end.

(** * Looking before locking *)
Section Lazy.
  (** Keys, values, and what is computed for a key: parseGradient (StyleProvider.cpp:290), readCell
      (SrtmElevationProvider.hpp:82-84) or a file of heights (GridElevationProvider.hpp:100-126); [None] is an exception. *)
  Variables K V : Type.
  Variable keqb : K -> K -> bool.
  Variable compute : K -> option V.
  (** The maps StyleProvider.cpp:388, GridElevationProvider.hpp:136 and SrtmElevationProvider.hpp:187. *)
  Definition store := list (K * V).
  Section Result.
    Context {R : Type}.
    Variable r : option V -> code store R.
    (** StyleProvider.cpp:287-298: find without the mutex; compute; emplace, which keeps an entry which is there, and find
        with it; the value is used by reference. *)
    Definition gradientCode (key : K) : code store R :=
      Look (fun m =>
        match alookup keqb key m with
        | Some v => r (Some v)
        | None =>
            match compute key with
            | None => r None
            | Some v =>
                Acquire (Change (fun m => match alookup keqb key m with Some _ => m | None => (key, v) :: m end) (fun _ =>
                Look (fun m => Release (r (alookup keqb key m)))))
            end
        end).
    (** GridElevationProvider.hpp:43-58 with 94-130 and SrtmElevationProvider.hpp:91-103 with 62-87 (here the cells of a tile are one
        key): find without the mutex, find and emplace with it, and find without it again. *)
    Definition elevationCode (key : K) : code store R :=
      Look (fun m =>
        match alookup keqb key m with
        | Some v => r (Some v)
        | None =>
            Acquire (Look (fun m =>
              match alookup keqb key m with
              | Some _ => Release (Look (fun m => r (alookup keqb key m)))
              | None =>
                  match compute key with
                  | None => Release (r None)
                  | Some v =>
                      Change (fun m => match alookup keqb key m with Some _ => m | None => (key, v) :: m end) (fun _ =>
                      Release (Look (fun m => r (alookup keqb key m))))
                  end
              end))
        end).
  End Result.
End Lazy.
