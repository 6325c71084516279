(** The text index: core/src/index/BitmapIndex.cpp and core/src/index/BitmapStream.cpp.
    A Bitmap (BitmapIndex.hpp:18, std::unordered_map from term id to bitmap) is an association
    list in iteration order. *)
From Verif Require Import Base Bytes StreamModel EwahModel.
From Coq Require Import NArith.
Local Open Scope N_scope.

(** BitmapIndex.hpp:17-18. *)
Definition bitmap := list (N * ewah).

(** unordered_map::find by term, BitmapIndex.cpp:21. *)
Definition find (k : N) (m : bitmap) : option ewah := alookup N.eqb k m.

(** Replacing the value behind a reference obtained with operator[], BitmapIndex.cpp:35. *)
Fixpoint store (k : N) (c : ewah) (m : bitmap) : bitmap :=
  match m with
  | [] => [(k, c)]
  | (k', c') :: m' => if k =? k' then (k', c) :: m' else (k', c') :: store k c m'
  end.

(** bitmap.emplace(key, bitset), BitmapStream.cpp:13: no effect when the key is there. *)
Definition emplace (k : N) (c : ewah) (m : bitmap) : bitmap :=
  match find k m with Some _ => m | None => m ++ [(k, c)] end.

(** BitmapStream.cpp:17-23, write. *)
Definition writeMap (m : bitmap) : bytes := flat_map (fun kv => le 4 (fst kv) ++ writeEwah (snd kv)) m.

(** The loop of read, BitmapStream.cpp:9-14.  [key] and [bitset] live outside the loop, so a
    failed read leaves their old value. *)
Fixpoint readLoop (fuel : nat) (key : N) (bitset : ewah) (m : bitmap) (s : istream) : res bitmap :=
  match fuel with
  | O => NoFuel
  | S f =>
      let '(kb, s) := readInto 4 (le 4 key) s in
      let '(bitset, s) := readEwah bitset s in
      let m := emplace (unle kb) bitset m in
      if failed s then Done m else readLoop f (unle kb) bitset m s
  end.

(** BitmapStream.cpp:5-15, read into an empty map.  [junk] is what the uninitialised variable key
    (line 6) contains; [None] for the file is a file that could not be opened
    (core/src/index/PersistentElementStore.cpp:60-61), a stream in failed state. *)
Definition readMap (junk : N) (file : option bytes) : res bitmap :=
  match file with
  | Some bs => readLoop (S (length bs)) junk empty [] (mkStream bs false)
  | None => readLoop 1 junk empty [] (mkStream [] true)
  end.

(** The characters of BitmapIndex.cpp:13. *)
Definition delimiters : list N :=
  [32; 95; 58; 59; 33; 64; 35; 36; 37; 94; 38; 42; 40; 41; 123; 125; 91; 93; 44; 46; 63; 96; 92; 47; 34; 39].
(** Membership test of boost::char_separator with the characters of BitmapIndex.cpp:13. *)
Definition isDelimiter (c : N) : bool := existsb (N.eqb c) delimiters.

(** boost::tokenizer with char_separator and dropped empty tokens, BitmapIndex.cpp:93-96;
    [cur] holds the characters of the current token, last first. *)
Fixpoint tokens (cur : bytes) (s : bytes) : list bytes :=
  let flush := match cur with [] => [] | _ => [rev cur] end in
  match s with
  | [] => flush
  | c :: s' => if isDelimiter c then flush ++ tokens [] s' else tokens (c :: cur) s'
  end.

(** A tagged element as the index sees it: the strings of its tags' keys and values
    (BitmapIndex.cpp:82-84). *)
Definition document := list (bytes * bytes).

Section Index.
  (** StringTable::getId (core/src/index/StringTable.cpp), called at BitmapIndex.cpp:95. *)
  Variable getId : bytes -> N.

  (** BitmapIndex.cpp:91-97. *)
  Definition tokenIds (s : bytes) : list N := map getId (tokens [] s).

  (** BitmapIndex.cpp:79-89. *)
  Definition docIds (d : document) : list N :=
    flat_map (fun kv => tokenIds (fst kv) ++ tokenIds (snd kv)) d.

  (** The loop of add, BitmapIndex.cpp:34-36. *)
  Fixpoint addIds (order : N) (ids : list N) (m : bitmap) : res bitmap :=
    match ids with
    | [] => Done m
    | k :: ids' =>
        let c := match find k m with Some c => c | None => empty end in
        rbind (set order c) (fun '(_, c) => addIds order ids' (store k c m))
    end.

  (** BitmapIndex.cpp:32-37, add. *)
  Definition addDoc (order : N) (d : document) (m : bitmap) : res bitmap := addIds order (docIds d) m.

  (** The first applyOperation call, BitmapIndex.cpp:53-55 with 16-29. *)
  Fixpoint orLoop (terms : list N) (m : bitmap) (b : ewah) : res ewah :=
    match terms with
    | [] => Done b
    | k :: terms' =>
        match find k m with
        | None => orLoop terms' m b
        | Some c => rbind (logicalor c b) (fun b => orLoop terms' m b)
        end
    end.

  (** The second, BitmapIndex.cpp:57-66: a missing term resets the answer and ends the loop. *)
  Fixpoint andLoop (terms : list N) (m : bitmap) (b : ewah) : res ewah :=
    match terms with
    | [] => Done b
    | k :: terms' =>
        match find k m with
        | None => Done empty
        | Some c => if bits b =? 0 then andLoop terms' m c
                    else rbind (logicaland c b) (fun b => andLoop terms' m b)
        end
    end.

  (** The third, BitmapIndex.cpp:68-70. *)
  Fixpoint notLoop (terms : list N) (m : bitmap) (b : ewah) : res ewah :=
    match terms with
    | [] => Done b
    | k :: terms' =>
        match find k m with
        | None => notLoop terms' m b
        | Some c => rbind (logicalxor c b) (fun x => rbind (logicaland x b) (fun b => notLoop terms' m b))
        end
    end.

  (** The part of search that concerns one tile, BitmapIndex.cpp:50-75: the positions notified, in
      order (the cast of line 73 keeps values below 2^32). *)
  Definition searchIds (orT andT notT : list N) (m : bitmap) : res (list N) :=
    rbind (orLoop orT m empty) (fun b =>
    rbind (andLoop andT m b) (fun b =>
    rbind (notLoop notT m b) (fun b =>
    rbind (enumerate b) (fun l => Done (map u32 l))))).

  (** BitmapIndex.hpp:22-33, the term part of a query, and BitmapIndex.cpp:40-43. *)
  Record query := mkQuery { notTerms : bytes; andTerms : bytes; orTerms : bytes }.
  (** BitmapIndex.cpp:39-75, search of the terms in one bitmap. *)
  Definition searchTile (q : query) (m : bitmap) : res (list N) :=
    searchIds (tokenIds (orTerms q)) (tokenIds (andTerms q)) (tokenIds (notTerms q)) m.

  (** Consecutive calls of add by the stores: each element gets the next order number
      (core/src/index/InMemoryElementStore.cpp:116-122). *)
  Fixpoint addDocs (order : N) (ds : list document) (m : bitmap) : res bitmap :=
    match ds with
    | [] => Done m
    | d :: ds' => rbind (addDoc order d m) (fun m => addDocs (order + 1) ds' m)
    end.
End Index.
