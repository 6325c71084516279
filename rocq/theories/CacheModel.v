(** Model of core/src/builders/MeshCache.cpp (and of core/src/builders/CacheBuilder.hpp, which
    calls fetch, wrap and unwrap in this order).
    A call that holds the mutex is one function here; the callbacks and readCache run without
    it.  Streams are buffered: what a stream has written may reach the disk late or, after a
    failure or the end of the process, only up to some point.  *)
From Verif Require Import Base Bytes StreamModel MeshModel ElementModel GeoModel StyleModel.
Local Open Scope nat_scope.

(** What a builder hands to the callbacks of its context, BuilderContext.hpp:23-24. *)
Inductive record := RMesh (m : mesh) | RElem (e : element).

(** MeshCache.cpp:116-133: type byte and body; the constants are lines 14-17. *)
Definition encode (r : record) : bytes :=
  match r with
  | RMesh m => 1%N :: writeMesh m
  | RElem e => 0%N :: le 8 (eid e) ++ write e
  end.

(** MeshCache.cpp:89-95: the file of a tile.  The data path and the extension are those of
    the cache; the variable parts are the fingerprint of the stylesheet and the tile. *)
Definition pathText (dataPath extension tag : bytes) (k : quadKey) : outcome bytes :=
  omap (fun s => dataPath ++ [47; 99; 97; 99; 104; 101; 47]%N ++ tag ++ 47%N :: decimal (Z.to_N (lod k))
                 ++ 47%N :: s ++ 46%N :: extension) (keyString k).

(** A file is named by the variable parts (CacheProps.C27_paths justifies it) (MeshCache.cpp:89-95). *)
Record path := mkPath { ptag : bytes; pkey : quadKey }.
(** Equality of the names of files (MeshCache.cpp:83, 99). *)
Definition pathEqb (a b : path) : bool := beqb (ptag a) (ptag b) && keyEqb (pkey a) (pkey b).

(** A std::fstream made by wrap (MeshCache.cpp:98-99): its number, its file, whether the file could be
    opened, the bytes written so far and the state of the stream. *)
Record ofile := mkOut { onum : nat; opath : path; oopen : bool; obytes : bytes; ogood : bool }.

(** The object of lines 20-21, 165-168 and MeshCache.hpp:45, and the files on disk.  [files]
    says nothing about a file that is being written by an entry of [caching]. *)
Record cache := mkCache {
  enabled : bool; files : list (path * bytes); caching : list (quadKey * ofile); nextNum : nat
}.
(** MeshCache.cpp:24-27 and 171-173: the constructor, over the files of an earlier process. *)
Definition newCache (fs : list (path * bytes)) : cache := mkCache true fs [] 0.
(** MeshCache.hpp:23-30, enable and disable. *)
Definition setEnabled (b : bool) (c : cache) : cache :=
  mkCache b (files c) (caching c) (nextNum c).

(** MeshCache.cpp:157-163, isGood: reading an uninitialised char from an empty file is undefined. *)
Definition isGood (s : istream) : outcome (bool * istream) :=
  match readChar s with
  | (None, _) => UB
  | (Some b, s') => Ok (N.eqb b 1, s')
  end.

(** MeshCache.cpp:78-86, isCacheHit. *)
Definition isCacheHit (c : cache) (p : path) : outcome bool :=
  match alookup keyEqb (pkey p) (caching c) with
  | Some _ => Ok false
  | None =>
      match alookup pathEqb p (files c) with
      | None => Ok false
      | Some bs => omap fst (isGood (mkStream bs false))
      end
  end.

(** The context returned by wrap: the original one (MeshCache.cpp:33), or one whose callbacks write to
    a stream (lines 105-113).  The callbacks refer to the stream, they do not own it. *)
Inductive handle := Plain | Wrapped (k : quadKey) (num : nat).

(** Lines 29-34 and 97-114 with MeshCache.cpp:175-177.  [canOpen]: whether the file can be
    created (its directory may be missing).  The map keeps an entry that exists: then the new
    stream is destroyed at the end of wrap and the callbacks dangle.  Two streams on one file
    are outside the model and counted as undefined. *)
Definition wrap (c : cache) (p : path) (canOpen : bool) : outcome (handle * cache) :=
  if enabled c then
    bind (isCacheHit c p) (fun hit =>
    if hit then Ok (Plain, c) else
    let h := Wrapped (pkey p) (nextNum c) in
    match alookup keyEqb (pkey p) (caching c) with
    | None =>
        Ok (h, mkCache (enabled c)
                 (if canOpen then aset pathEqb p [] (files c) else files c)
                 ((pkey p, mkOut (nextNum c) p canOpen [0%N] canOpen) :: caching c)
                 (S (nextNum c)))
    | Some o =>
        if pathEqb (opath o) p then UB
        else Ok (h, mkCache (enabled c)
                      (if canOpen then aset pathEqb p [0%N] (files c) else files c)
                      (caching c) (S (nextNum c)))
    end)
  else Ok (Plain, c).

(** MeshCache.cpp:116-133: a callback of the context is called with a mesh or an element; whether the
    original callback is called.  [cancelled] is the answer of the token, [canWrite] whether
    the stream can write.  Writing to a destroyed stream is undefined. *)
Definition emit (c : cache) (h : handle) (cancelled canWrite : bool) (r : record)
  : outcome (bool * cache) :=
  match h with
  | Plain => Ok (true, c)
  | Wrapped k n =>
      if cancelled then Ok (false, c) else
      match alookup keyEqb k (caching c) with
      | None => UB
      | Some o =>
          if onum o =? n then
            let o' := if ogood o then mkOut n (opath o) (oopen o) (obytes o ++ encode r) canWrite
                      else o in
            Ok (true, mkCache (enabled c) (files c) (aset keyEqb k o' (caching c)) (nextNum c))
          else UB
      end
  end.

(** How the operating system treats the last writes of a stream: whether they succeed, how
    many bytes are in the file otherwise, and whether a file can be removed (MeshCache.cpp:61-68). *)
Record fate := mkFate { writesOk : bool; kept : nat; removeOk : bool }.

(** The file of a stream that is closed or abandoned with only [n] bytes on disk (MeshCache.cpp:61, 72). *)
Definition leave (o : ofile) (n : nat) (fs : list (path * bytes)) : list (path * bytes) :=
  if oopen o then aset pathEqb (opath o) (firstn n (obytes o)) fs else fs.

(** MeshCache.cpp:50-73 and 183-185, unwrap: the entry is found by the tile alone. *)
Definition unwrap (c : cache) (p : path) (cancelled : bool) (f : fate) : cache :=
  match alookup keyEqb (pkey p) (caching c) with
  | None => c
  | Some o =>
      let fs := files c in
      let fs' :=
        if ogood o then
          if writesOk f then
            if cancelled then
              let closed := leave o (length (obytes o)) fs in
              if removeOk f then aremove pathEqb p closed else closed
            else aset pathEqb (opath o) (1%N :: tl (obytes o)) fs
          else leave o (kept f) fs
        else leave o (kept f) fs in
      mkCache (enabled c) fs' (aremove keyEqb (pkey p) (caching c)) (nextNum c)
  end.

(** The process ends and a new one opens the same directory; [cut] says how many bytes of each
    open stream have reached the disk (MeshCache.cpp:98-103 made the streams). *)
Definition crash (c : cache) (cut : quadKey -> nat) : cache :=
  newCache (fold_right (fun '(k, o) fs => leave o (cut k) fs) (files c) (caching c)).

(** MeshCache.cpp:140-154, the loop of readCache; [calls]: how often the token answers false before it
    is cancelled, [None] for never.  [None] as result is exhausted fuel.  The records before a
    failure are not kept in the result. *)
Fixpoint readRecords (fuel : nat) (calls : option nat) (s : istream)
  : option (outcome (list record)) :=
  match fuel with
  | O => None
  | S fuel' =>
      match calls with
      | Some O => Some (Ok [])
      | _ =>
          let calls' := option_map pred calls in
          match readChar s with
          | (None, _) => Some (Ok [])
          | (Some b, s) =>
              if N.eqb b 1 then
                match readMesh s with
                | Ok (m, s) => option_map (omap (cons (RMesh m))) (readRecords fuel' calls' s)
                | Throw e => Some (Throw e)
                | UB => Some UB
                end
              else if N.eqb b 0 then
                match readUninit 8 s with
                | (None, _) => Some UB
                | (Some i, s) =>
                    match read (rem s) (unle i) with
                    | None => None
                    | Some (Ok (e, s)) => option_map (omap (cons (RElem e))) (readRecords fuel' calls' s)
                    | Some (Throw x) => Some (Throw x)
                    | Some UB => Some UB
                    end
                end
              else Some (Throw InvalidArgument)
          end
      end
  end.

(** MeshCache.cpp:135-155, readCache. *)
Definition readCache (bs : bytes) (calls : option nat) : option (outcome (list record)) :=
  match isGood (mkStream bs false) with
  | Ok (true, s) => readRecords (S (length bs)) calls s
  | Ok (false, _) => Some (Ok [])
  | Throw e => Some (Throw e)
  | UB => Some UB
  end.

(** MeshCache.cpp:36-48 and 179-181, fetch: whether it was a hit, and the records delivered. *)
Definition fetch (c : cache) (p : path) (calls : option nat) : option (outcome (bool * list record)) :=
  if enabled c then
    match isCacheHit c p with
    | Ok false => Some (Ok (false, []))
    | Ok true =>
        match alookup pathEqb p (files c) with
        | Some bs => option_map (omap (pair true)) (readCache bs calls)
        | None => Some (Ok (true, []))
        end
    | Throw e => Some (Throw e)
    | UB => Some UB
    end
  else Some (Ok (false, [])).
