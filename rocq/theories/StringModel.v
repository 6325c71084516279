(** Model of core/src/index/StringTable.cpp over byte files.  The hash function and the
    capacity of the cache are parameters; the code uses MurmurHash3_x86_32 with seed 0
    (line 118, [murmur] below) and capacity 1024 (line 27). *)
From Verif Require Import Base Bytes LruModel.

(** core/lib/hashing/MurmurHash3.cpp:34-37. *)
Definition rotl32 (x r : N) : N :=
  N.lor (u32 (N.shiftl x r)) (N.shiftr x (32 - r)).

(** MurmurHash3.cpp:68-77. *)
Definition fmix32 (h : N) : N :=
  let h := N.lxor h (N.shiftr h 16) in
  let h := u32 (h * 2246822507) in
  let h := N.lxor h (N.shiftr h 13) in
  let h := u32 (h * 3266489909) in
  N.lxor h (N.shiftr h 16).

(** MurmurHash3.cpp:114-116 and 135: mixing of one block. *)
Definition mixK (k : N) : N :=
  u32 (rotl32 (u32 (k * 3432918353)) 15 * 461845907).

(** MurmurHash3.cpp:110-121 and 126-136: whole blocks of four bytes, then the tail. *)
Fixpoint murmurBody (bs : bytes) (h : N) : N :=
  match bs with
  | a :: b :: c :: d :: bs' =>
      let h := N.lxor h (mixK (unle [a; b; c; d])) in
      murmurBody bs' (u32 (rotl32 h 13 * 5 + 3864292196))
  | [] => h
  | tail => N.lxor h (mixK (unle tail))
  end.

(** MurmurHash3.cpp:94-146 with the given seed; [len] is an int, so strings of 2^31
    bytes or more are outside the model. *)
Definition murmurSeed (seed : N) (bs : bytes) : N :=
  fmix32 (N.lxor (murmurBody bs seed) (u32 (N.of_nat (length bs)))).
(** The hash with the seed 0 (StringTable.cpp:50, 130). *)
Definition murmur : bytes -> N := murmurSeed 0.

Section Table.
  Variable hash : bytes -> N.
  Variable cap : nat.

  (** StringTable.cpp:116-127: the two files, nextId_, map_, offsets_, cache_, and the fail
      bit of the data stream. *)
  Record table := mkTable {
    indexF : bytes;
    dataF : bytes;
    dataFail : bool;
    nextId : N;
    hmap : list (N * list N);
    offsets : list N;
    scache : @cache N bytes
  }.

  (** map_[hash].push_back(id), StringTable.cpp:43 and 112. *)
  Definition bucketOf (h : N) (m : list (N * list N)) : list N :=
    match alookup N.eqb h m with Some l => l | None => [] end.
  (** map_[hash].push_back(id), StringTable.cpp:43 and 112. *)
  Definition pushBucket (h id : N) (m : list (N * list N)) : list (N * list N) :=
    aset N.eqb h (bucketOf h m ++ [id]) m.

  (** StringTable.cpp:38-44: the loop over index entries.  Each entry is eight bytes. *)
  Fixpoint loadEntries (n : nat) (i : N) (bs : bytes) (offs : list N) (m : list (N * list N))
    : list N * list (N * list N) :=
    match n with
    | O => (offs, m)
    | S n' =>
        let h := unle (firstn 4 bs) in
        let off := unle (firstn 4 (skipn 4 bs)) in
        loadEntries n' (i + 1) (skipn 8 bs) (offs ++ [off]) (pushBucket h i m)
    end.

  (** StringTable.cpp:20-46: constructor on the given file contents (missing files are empty ones:
      the mode in|out|app creates them). *)
  Definition openTable (index data : bytes) : table :=
    let count := u32 (N.of_nat (length index) / 8) in
    let '(offs, m) := loadEntries (N.to_nat count) 0 index [] [] in
    mkTable index data false count m offs (empty cap).

  (** The fail bit of dataFile_ (StringTable.cpp:117). *)
  Definition setFail (t : table) (b : bool) : table :=
    mkTable (indexF t) (dataF t) b (nextId t) (hmap t) (offsets t) (scache t).
  (** Assignment to cache_ (StringTable.cpp:126). *)
  Definition setCache (t : table) (c : @cache N bytes) : table :=
    mkTable (indexF t) (dataF t) (dataFail t) (nextId t) (hmap t) (offsets t) c.

  (** StringTable.cpp:89-95, readString into an empty string.  On a stream whose fail bit is set
      neither seekg nor getline does anything.  getline that extracts nothing because it
      starts at the end sets the fail bit (nothing ever clears it); reaching the end after
      some characters only sets the eof bit, which the next seekg clears. *)
  Definition readString (id : N) (t : table) : bytes * table :=
    match nth_error (offsets t) (N.to_nat id) with
    | None => ([], t)
    | Some off =>
        if dataFail t then ([], t) else
        match skipn (N.to_nat off) (dataF t) with
        | [] => ([], setFail t true)
        | rest => (fst (fst (getline rest)), t)
        end
    end.

  (** StringTable.cpp:98-114, writeString, followed by the increment in line 71.  On a failed data
      stream tellg returns -1 and nothing is appended. *)
  Definition writeString (h : N) (s : bytes) (t : table) : N * table :=
    let off := if dataFail t then 4294967295%N else u32 (N.of_nat (length (dataF t))) in
    let data := if dataFail t then dataF t else dataF t ++ cstr s ++ [0%N] in
    (nextId t,
     mkTable (indexF t ++ le 4 h ++ le 4 off) data (dataFail t) (u32 (nextId t + 1))
             (pushBucket h (nextId t) (hmap t)) (offsets t ++ [off]) (scache t)).

  (** StringTable.cpp:56-67: the loop over the ids of the bucket. *)
  Fixpoint scan (s : bytes) (ids : list N) (t : table) : outcome (option N * table) :=
    match ids with
    | [] => Ok (None, t)
    | id :: ids' =>
        let miss (t : table) :=
          let '(d, t') := readString id t in
          if beqb s d then Ok (Some id, t') else scan s ids' t' in
        if exists_ N.eqb id (scache t) then
          bind (peek N.eqb id (scache t)) (fun v =>
            if beqb v s then
              bind (promote N.eqb id (scache t)) (fun c => Ok (Some id, setCache t c))
            else miss t)
        else miss t
    end.

  (** StringTable.cpp:48-72, getId. *)
  Definition getId (s : bytes) (t : table) : outcome (N * table) :=
    let h := hash s in
    match alookup N.eqb h (hmap t) with
    | None => Ok (writeString h s t)
    | Some ids =>
        bind (scan s ids t) (fun r =>
          match r with
          | (Some id, t') => Ok (id, t')
          | (None, t') => Ok (writeString h s t')
          end)
    end.

  (** StringTable.cpp:74-84, getString. *)
  Definition getString (id : N) (t : table) : outcome (bytes * table) :=
    if exists_ N.eqb id (scache t) then
      bind (get N.eqb id (scache t)) (fun vc => Ok (fst vc, setCache t (snd vc)))
    else
      let '(d, t') := readString id t in
      bind (put N.eqb id d (scache t')) (fun c =>
      bind (get N.eqb id c) (fun vc => Ok (fst vc, setCache t' (snd vc)))).

  (** Public calls; [Reopen] destroys the table (flushing both files) and constructs a new
      one on the same directory (StringTable.cpp:129-133). *)
  Inductive sop := GetId (s : bytes) | GetString (id : N) | Reopen.
  (** What a call answers (StringTable.cpp:48, 74). *)
  Inductive sres := SId (id : N) | SStr (s : bytes) | SUnit | SThrow (e : exn).

  (** One call (StringTable.cpp:48-84). *)
  Definition sstep (t : table) (o : sop) : option (table * sres) :=
    match o with
    | GetId s => match getId s t with
                 | Ok (id, t') => Some (t', SId id) | Throw e => Some (t, SThrow e) | UB => None end
    | GetString id => match getString id t with
                      | Ok (s, t') => Some (t', SStr s) | Throw e => Some (t, SThrow e) | UB => None end
    | Reopen => Some (openTable (indexF t) (dataF t), SUnit)
    end.

  (** A sequence of calls (StringTable.cpp:48-84). *)
  Fixpoint srunT (t : table) (os : list sop) : option (table * list sres) :=
    match os with
    | [] => Some (t, [])
    | o :: os' =>
        match sstep t o with
        | None => None
        | Some (t', r) => match srunT t' os' with
                          | None => None | Some (t'', rs) => Some (t'', r :: rs) end
        end
    end.

  (** The answers to a sequence of calls on a fresh directory (StringTable.cpp:129-131). *)
  Definition srun (os : list sop) : option (list sres) :=
    option_map snd (srunT (openTable [] []) os).

  (** Calls interleaved with crashes.  Both files are only ever appended to, so a crash
      leaves a prefix of each: [Crash i d] keeps the first [i] bytes of the index file and
      the first [d] bytes of the data file and reopens the table on them (StringTable.cpp:104-110). *)
  Inductive cop := Call (o : sop) | Crash (i d : nat).

  (** One call, or a crash and opening again (StringTable.cpp:20-46). *)
  Definition cstep (t : table) (o : cop) : option (table * sres) :=
    match o with
    | Call o => sstep t o
    | Crash i d => Some (openTable (firstn i (indexF t)) (firstn d (dataF t)), SUnit)
    end.

  (** A sequence of those (StringTable.cpp:20-84). *)
  Fixpoint crunT (t : table) (os : list cop) : option (table * list sres) :=
    match os with
    | [] => Some (t, [])
    | o :: os' =>
        match cstep t o with
        | None => None
        | Some (t', r) => match crunT t' os' with
                          | None => None | Some (t'', rs) => Some (t'', r :: rs) end
        end
    end.

  (** The same from an empty directory (StringTable.cpp:20-46). *)
  Definition crun (os : list cop) : option (list sres) :=
    option_map snd (crunT (openTable [] []) os).
End Table.
