(** Threads which use one open tile of core/src/index/PersistentElementStore.cpp: its two streams are shared and no mutex
    guards them.  Operations on a stream are single accesses here, which is more than the code promises. *)
From Verif Require Import Base Bytes GeoModel ElementModel LruModel StoreModel ThreadModel.
Local Open Scope nat_scope.

(** The open streams and the files (PersistentElementStore.cpp:38-40). *)
Record tile := mkTile { streams : handle; filesOf : files }.
(** Moving the data stream (PersistentElementStore.cpp:128, 160, 197). *)
Definition seekData (n : nat) (t : tile) : tile := mkTile (mkHandle n (ipos (streams t))) (filesOf t).
(** Moving the index stream (PersistentElementStore.cpp:123, 155, 195). *)
Definition seekIndex (n : nat) (t : tile) : tile := mkTile (mkHandle (dpos (streams t)) n) (filesOf t).
(** Writing to the index, which is open for appending (PersistentElementStore.cpp:53, 124-125). *)
Definition appendIndex (bs : bytes) (t : tile) : tile :=
  let f := mkFiles (dat (filesOf t)) (idf (filesOf t) ++ bs) in mkTile (mkHandle (dpos (streams t)) (length (idf f))) f.
(** Writing to the data file, which is open for appending (PersistentElementStore.cpp:52, 129). *)
Definition appendData (bs : bytes) (t : tile) : tile :=
  let f := mkFiles (dat (filesOf t) ++ bs) (idf (filesOf t)) in mkTile (mkHandle (length (dat f)) (ipos (streams t))) f.

(** Calls which use the streams: search of a tile, save and one hit of a text search (PersistentElementStore.cpp:117, 148, 189). *)
Inductive tcall := TSearch | TSave (e : element) | TNotify (order : N).
(** What a call gives: elements, or the order of the saved one (PersistentElementStore.cpp:121, 162, 199). *)
Inductive tanswer := TFound (es : outcome (list element)) | TSaved (order : N).

Section Calls.
  Context {R : Type}.
  Variable k : tanswer -> code tile R.
  (** PersistentElementStore.cpp:159-162: an index entry is read, the data stream moved and the element read from where the
      stream is then. *)
  Definition entryCode (r : outcome element -> code tile R) : code tile R :=
    Change (fun t => match readIndexEntry (filesOf t) (ipos (streams t)) with Ok (_, _, n) => seekIndex n t | _ => t end) (fun t =>
      match readIndexEntry (filesOf t) (ipos (streams t)) with
      | Ok (id, off, _) =>
          Change (seekData (N.to_nat off)) (fun _ =>
          Change (fun t => match readAt (filesOf t) id (N.of_nat (dpos (streams t))) with Ok (_, n) => seekData n t | _ => t end) (fun t =>
            r (omap fst (readAt (filesOf t) id (N.of_nat (dpos (streams t)))))))
      | Throw x => r (Throw x)
      | UB => r UB
      end).
  (** PersistentElementStore.cpp:156-163, without cancellation. *)
  Fixpoint entriesCode (n : nat) (found : list element) : code tile R :=
    match n with
    | O => k (TFound (Ok found))
    | S n' => entryCode (fun a => match a with
                                  | Ok e => entriesCode n' (found ++ [e])
                                  | Throw x => k (TFound (Throw x))
                                  | UB => k (TFound UB)
                                  end)
    end.
  (** PersistentElementStore.cpp:148-164, search. *)
  Definition searchCode : code tile R :=
    Look (fun t =>
      let count := N.to_nat (u32 (N.of_nat (ipos (streams t) / entrySize))) in
      Change (seekIndex 0) (fun _ => entriesCode count [])).
  (** PersistentElementStore.cpp:117-129, store. *)
  Definition saveCode (e : element) : code tile R :=
    Look (fun t => let offset := u32 (N.of_nat (dpos (streams t))) in
    Look (fun t => let order := u32 (N.of_nat (ipos (streams t) / entrySize)) in
    Change (fun t => seekIndex (length (idf (filesOf t))) t) (fun _ =>
    Change (appendIndex (le 8 (eid e))) (fun _ =>
    Change (appendIndex (le 4 offset)) (fun _ =>
    Change (fun t => seekData (length (dat (filesOf t))) t) (fun _ =>
    Change (appendData (write e)) (fun _ => k (TSaved order)))))))).
  (** PersistentElementStore.cpp:189-200, notify. *)
  Definition notifyCode (order : N) : code tile R :=
    Change (seekIndex (N.to_nat order * entrySize)) (fun _ => entryCode (fun a => k (TFound (omap (fun e => [e]) a)))).
  (** PersistentElementStore.cpp:117, 148, 189. *)
  Definition tileMethod (c : tcall) : code tile R :=
    match c with TSearch => searchCode | TSave e => saveCode e | TNotify order => notifyCode order end.
End Calls.

(** * The cache of open tiles *)
Section Cache.
  (** The cache (PersistentElementStore.cpp:240) and what getQuadKeyData does with it (PersistentElementStore.cpp:208-219). *)
  Variables X D : Type.
  Variable getQuadKeyData : N -> X -> D * X.
  Variable clearAll : X -> X.
  (** A tile is asked for, or all are closed (PersistentElementStore.cpp:184, 208). *)
  Inductive ccall := COpen (key : N) | CFlush.
  (** PersistentElementStore.cpp:184-186 and 208-219. *)
  Definition cacheMethod {R} (k : option D -> code X R) (c : ccall) : code X R :=
    match c with
    | COpen key => Acquire (Look (fun _ => Change (fun x => snd (getQuadKeyData key x)) (fun x => Release (k (Some (fst (getQuadKeyData key x)))))))
    | CFlush => Change clearAll (fun _ => k None)
    end.
End Cache.
