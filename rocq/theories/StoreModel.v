(** Model of core/src/index/InMemoryElementStore.cpp and
    core/src/index/PersistentElementStore.cpp, without the text index they carry along (that
    is BitmapModel.v).  A tile search reports elements to a visitor; here the visits are
    returned as a list. *)
From Verif Require Import Base Bytes StreamModel ElementModel GeoModel LruModel.

(** A cancellation token as the code sees it (core/src/CancellationToken.hpp): the answer of
    the n-th call of isCancelled().  Nothing is assumed about it (lines 9-11). *)
Definition token := nat -> bool.
(** A token nobody cancels (CancellationToken.hpp:9-11). *)
Definition never : token := fun _ => false.

(** * core/src/index/InMemoryElementStore.cpp *)

(** InMemoryElementStore.cpp:16-17: std::map with QuadKey::Comparator; two keys are the same
    entry when neither is less than the other. *)
Definition memory := list (quadKey * list element).
(** Equality of keys of such a map (InMemoryElementStore.cpp:16-17). *)
Definition sameKey (a b : quadKey) : bool := negb (keyLess a b) && negb (keyLess b a).

(** InMemoryElementStore.cpp:116-122: operator[] creates the entry, push_back appends a copy.
    The order handed to the text index is returned. *)
Definition memStore (k : quadKey) (e : element) (m : memory) : N * memory :=
  let es := match alookup sameKey k m with Some es => es | None => [] end in
  (u32 (N.of_nat (length es)), aset sameKey k (es ++ [e]) m).

(** InMemoryElementStore.cpp:106-109. *)
Fixpoint visitUntil (t : token) (i : nat) (es : list element) : list element :=
  match es with
  | [] => []
  | e :: es' => if t i then [] else e :: visitUntil t (S i) es'
  end.

(** InMemoryElementStore.cpp:98-110. *)
Definition memSearch (k : quadKey) (t : token) (m : memory) : list element :=
  match alookup sameKey k m with
  | None => []
  | Some es => visitUntil t 0 es
  end.

(** InMemoryElementStore.cpp:112-114. *)
Definition memHasData (k : quadKey) (m : memory) : bool :=
  match alookup sameKey k m with None => false | Some _ => true end.

(** InMemoryElementStore.cpp:124-127. *)
Definition memErase (k : quadKey) (m : memory) : memory := aremove sameKey k m.

(** InMemoryElementStore.cpp:129-131. *)
Definition memEraseBox (b : box dbl) (r : lodRange) (m : memory) : outcome memory := Throw DomainError.

(** * core/src/index/PersistentElementStore.cpp *)

(** PersistentElementStore.cpp:222-227: directory (level) and file name; the extensions
    .dat, .idf are the two fields of [files]. *)
Definition path := (Z * list N)%type.
(** Equality of names of files (PersistentElementStore.cpp:222-227). *)
Definition pathEqb (a b : path) : bool := Z.eqb (fst a) (fst b) && beqb (snd a) (snd b).
(** PersistentElementStore.cpp:222-227. *)
Definition pathOf (k : quadKey) : outcome path := omap (fun s => (lod k, s)) (keyString k).

(** The data and the index file of a tile; they are created (lines 52-53) and removed
    (lines 83-84) together.  The directory of the level is assumed to exist and to be
    writable. *)
Record files := mkFiles { dat : bytes; idf : bytes }.
(** The files by their names (PersistentElementStore.cpp:222-227). *)
Definition disk := list (path * files).

(** PersistentElementStore.cpp:38-40: two open streams.  A std::fstream has one position;
    what it wrote is in the file for every later reader, because a tile is only accessed
    through its one open QuadKeyData (lines 208-219) or after that was closed. *)
Record handle := mkHandle { dpos : nat; ipos : nat }.

(** PersistentElementStore.cpp:238-240: the cache of open tiles holds shared pointers; [heap]
    is what they point to. *)
Record pstore := mkStore {
  onDisk : disk;
  opened : @cache quadKey nat;
  heap : list (nat * handle);
  nextPtr : nat
}.

(** PersistentElementStore.cpp:115, for any size; the code has 12. *)
Definition newStore (n : nat) (d : disk) : pstore := mkStore d (empty n) [] 0.
(** PersistentElementStore.cpp:115. *)
Definition cacheSize : nat := 12.

(** Opening the files with app and ate (lines 42-54): created when missing, positioned at
    the end. *)
Definition openFiles (p : path) (d : disk) : files * disk :=
  match alookup pathEqb p d with
  | Some f => (f, d)
  | None => (mkFiles [] [], aset pathEqb p (mkFiles [] []) d)
  end.

(** PersistentElementStore.cpp:208-219. *)
Definition getData (k : quadKey) (s : pstore) : outcome (nat * pstore) :=
  if exists_ sameKey k (opened s) then
    bind (get sameKey k (opened s)) (fun '(ptr, c) =>
      Ok (ptr, mkStore (onDisk s) c (heap s) (nextPtr s)))
  else
    bind (pathOf k) (fun p =>
      let '(f, d) := openFiles p (onDisk s) in
      let h := mkHandle (length (dat f)) (length (idf f)) in
      bind (put sameKey k (nextPtr s) (opened s)) (fun c =>
      bind (get sameKey k c) (fun '(ptr, c) =>
        Ok (ptr, mkStore d c (aset Nat.eqb (nextPtr s) h (heap s)) (S (nextPtr s)))))).

(** What the pointer and the open streams give access to (PersistentElementStore.cpp:38-40, 208-219). *)
Definition deref (k : quadKey) (ptr : nat) (s : pstore) : outcome (path * handle * files) :=
  bind (pathOf k) (fun p =>
    match alookup Nat.eqb ptr (heap s), alookup pathEqb p (onDisk s) with
    | Some h, Some f => Ok (p, h, f)
    | _, _ => UB
    end).

(** sizeof(std::uint64_t) + sizeof(std::uint32_t), PersistentElementStore.cpp:121, 153, 193. *)
Definition entrySize : nat := 12.

(** PersistentElementStore.cpp:117-133.  Offset and order come from the positions before the
    seeks to the end; writing appends and leaves the position at the end.  Returns the order
    handed to the text index. *)
Definition pStore (k : quadKey) (e : element) (s : pstore) : outcome (N * pstore) :=
  bind (getData k s) (fun '(ptr, s) =>
  bind (deref k ptr s) (fun '(p, h, f) =>
    let offset := u32 (N.of_nat (dpos h)) in
    let order := u32 (N.of_nat (ipos h / entrySize)%nat) in
    let f' := mkFiles (dat f ++ write e) (idf f ++ le 8 (eid e) ++ le 4 offset) in
    let h' := mkHandle (length (dat f')) (length (idf f')) in
    Ok (order, mkStore (aset pathEqb p f' (onDisk s)) (opened s) (aset Nat.eqb ptr h' (heap s)) (nextPtr s)))).

(** PersistentElementStore.cpp:230-236: id and offset are uninitialised when the read is
    incomplete. *)
Definition readIndexEntry (f : files) (ipos : nat) : outcome (N * N * nat) :=
  let bs := skipn ipos (idf f) in
  if Nat.ltb (length bs) entrySize then UB
  else Ok (unle (firstn 8 bs), unle (firstn 4 (skipn 8 bs)), (ipos + entrySize)%nat).

(** PersistentElementStore.cpp:160-162 and 197-199.  A record that runs past the end of the
    file leaves the stream in failed state; that is not followed further (UB). *)
Definition readAt (f : files) (id off : N) : outcome (element * nat) :=
  match read (skipn (N.to_nat off) (dat f)) id with
  | Some (Ok (e, st)) => if failed st then UB else Ok (e, (length (dat f) - length (rem st))%nat)
  | Some (Throw x) => Throw x
  | _ => UB
  end.

(** The loop PersistentElementStore.cpp:156-163; [n] iterations are left. *)
Fixpoint readEntries (t : token) (f : files) (i n : nat) (h : handle) : outcome (list element * handle) :=
  match n with
  | O => Ok ([], h)
  | S n' =>
      if t i then Ok ([], h)
      else
        bind (readIndexEntry f (ipos h)) (fun '(id, off, ipos') =>
        bind (readAt f id off) (fun '(e, dpos') =>
        bind (readEntries t f (S i) n' (mkHandle dpos' ipos')) (fun '(es, h) =>
          Ok (e :: es, h))))
  end.

(** PersistentElementStore.cpp:148-164. *)
Definition pSearch (k : quadKey) (t : token) (s : pstore) : outcome (list element * pstore) :=
  bind (getData k s) (fun '(ptr, s) =>
  bind (deref k ptr s) (fun '(p, h, f) =>
    let count := N.to_nat (u32 (N.of_nat (ipos h / entrySize)%nat)) in
    bind (readEntries t f 0 count (mkHandle (dpos h) 0)) (fun '(es, h) =>
      Ok (es, mkStore (onDisk s) (opened s) (aset Nat.eqb ptr h (heap s)) (nextPtr s))))).

(** PersistentElementStore.cpp:189-200: one hit of a text search. *)
Definition pNotify (k : quadKey) (order : N) (s : pstore) : outcome (element * pstore) :=
  bind (getData k s) (fun '(ptr, s) =>
  bind (deref k ptr s) (fun '(p, h, f) =>
    bind (readIndexEntry f (N.to_nat order * entrySize)%nat) (fun '(id, off, ipos') =>
    bind (readAt f id off) (fun '(e, dpos') =>
      Ok (e, mkStore (onDisk s) (opened s) (aset Nat.eqb ptr (mkHandle dpos' ipos') (heap s)) (nextPtr s)))))).

(** PersistentElementStore.cpp:166-169: the data file can be opened. *)
Definition pHasData (k : quadKey) (s : pstore) : outcome bool :=
  omap (fun p => match alookup pathEqb p (onDisk s) with None => false | Some _ => true end) (pathOf k).

(** PersistentElementStore.cpp:171-178: the files are closed and removed, the whole cache is
    cleared. *)
Definition pErase (k : quadKey) (s : pstore) : outcome pstore :=
  bind (getData k s) (fun '(ptr, s) =>
  bind (deref k ptr s) (fun '(p, _, _) =>
    Ok (mkStore (aremove pathEqb p (onDisk s)) (clear (opened s)) (heap s) (nextPtr s)))).

(** PersistentElementStore.cpp:180-182. *)
Definition pEraseBox (b : box dbl) (r : lodRange) (s : pstore) : outcome pstore := Throw DomainError.

(** PersistentElementStore.cpp:184-186. *)
Definition pFlush (s : pstore) : pstore := mkStore (onDisk s) (clear (opened s)) (heap s) (nextPtr s).

(** Destroying the store (its cache closes the files, lines 77-79) and creating a new one on
    the same directory (lines 110-115). *)
Definition pReopen (n : nat) (s : pstore) : pstore := newStore n (onDisk s).

(** * Histories *)

(** Calls on a store, as core/src/index/ElementStore.hpp declares them (lines 22-64). *)
Inductive call :=
| Store (k : quadKey) (e : element)
| Search (k : quadKey) (t : token)
| HasData (k : quadKey)
| Erase (k : quadKey)
| Notify (k : quadKey) (order : N)
| Flush
| Reopen.

(** What a call reports (ElementStore.hpp:22-64). *)
Inductive answer :=
| AOrder (n : N)
| AFound (es : list element)
| ABool (b : bool)
| AUnit.

(** One call on the in-memory store; flushing does nothing
    (core/src/index/InMemoryElementStore.hpp), reopening is not an operation of it and is
    treated likewise (lines 14-45). *)
Definition memStep (m : memory) (c : call) : outcome (memory * answer) :=
  match c with
  | Store k e => let '(n, m) := memStore k e m in Ok (m, AOrder n)
  | Search k t => Ok (m, AFound (memSearch k t m))
  | HasData k => Ok (m, ABool (memHasData k m))
  | Erase k => Ok (memErase k m, AUnit)
  | Notify k n => (* InMemoryElementStore.cpp:58-66 *)
      match alookup sameKey k m with
      | None => Throw DomainError
      | Some es => match nth_error es (N.to_nat n) with
                   | Some e => Ok (m, AFound [e])
                   | None => Throw OutOfRange
                   end
      end
  | Flush | Reopen => Ok (m, AUnit)
  end.

(** One call on the on-disk store with a cache of size [n] (PersistentElementStore.cpp:117-206). *)
Definition diskStep (n : nat) (s : pstore) (c : call) : outcome (pstore * answer) :=
  match c with
  | Store k e => omap (fun '(o, s) => (s, AOrder o)) (pStore k e s)
  | Search k t => omap (fun '(es, s) => (s, AFound es)) (pSearch k t s)
  | HasData k => omap (fun b => (s, ABool b)) (pHasData k s)
  | Erase k => omap (fun s => (s, AUnit)) (pErase k s)
  | Notify k o => omap (fun '(e, s) => (s, AFound [e])) (pNotify k o s)
  | Flush => Ok (pFlush s, AUnit)
  | Reopen => Ok (pReopen n s, AUnit)
  end.

(** A history: the answers until the first exception or undefined behaviour (ElementStore.hpp:22-64). *)
Fixpoint runCalls {S} (step : S -> call -> outcome (S * answer)) (s : S) (cs : list call)
  : outcome (S * list answer) :=
  match cs with
  | [] => Ok (s, [])
  | c :: cs' =>
      bind (step s c) (fun '(s, a) =>
      bind (runCalls step s cs') (fun '(s, r) => Ok (s, a :: r)))
  end.
