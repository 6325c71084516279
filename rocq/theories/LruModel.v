(** Model of core/src/utils/LruCache.hpp.  A std::list is a list of nodes, each
    with an identity; a std::list iterator is a node identity, so a dangling
    iterator is visible as an identity that is not in the list. *)
From Verif Require Import Base.

Section Lru.
  Context {K V : Type} (keqb : K -> K -> bool).

  (** LruCache.hpp:15-16 and 87-89: itemsList_, itemsMap_, maxSize_.  [fresh] is the
      identity of the next allocated list node (std::list allocates a new node on
      every push_front). *)
  Record cache := mkCache {
    items : list (nat * (K * V));
    imap : list (K * nat);
    maxSize : nat;
    fresh : nat
  }.

  (** LruCache.hpp:19-20, constructor. *)
  Definition empty (n : nat) : cache := mkCache [] [] n 0.

  (** Dereference of a list iterator (it->second) (LruCache.hpp:46, 55). *)
  Fixpoint nodeAt (it : nat) (l : list (nat * (K * V))) : option (K * V) :=
    match l with
    | [] => None
    | (i, kv) :: l' => if Nat.eqb it i then Some kv else nodeAt it l'
    end.

  (** std::list::erase(iterator) (LruCache.hpp:28). *)
  Fixpoint eraseNode (it : nat) (l : list (nat * (K * V))) : list (nat * (K * V)) :=
    match l with
    | [] => []
    | (i, kv) :: l' => if Nat.eqb it i then l' else (i, kv) :: eraseNode it l'
    end.

  (** LruCache.hpp:33-38: eviction of the last node when the map outgrew maxSize_.
      [--last] on an empty list is undefined. *)
  Definition evict (c : cache) : outcome cache :=
    if Nat.ltb (maxSize c) (length (imap c)) then
      match rev (items c) with
      | [] => UB
      | (_, (k, _)) :: _ =>
          Ok (mkCache (removelast (items c)) (aremove keqb k (imap c)) (maxSize c) (fresh c))
      end
    else Ok c.

  (** LruCache.hpp:23-39, put. *)
  Definition put (k : K) (v : V) (c : cache) : outcome cache :=
    let l1 := (fresh c, (k, v)) :: items c in
    bind
      (match alookup keqb k (imap c) with
       | Some it =>
           match nodeAt it l1 with
           | None => UB
           | Some _ => Ok (eraseNode it l1, aremove keqb k (imap c))
           end
       | None => Ok (l1, imap c)
       end)
      (fun lm =>
         match fst lm with
         | [] => UB
         | (b, _) :: _ => (* itemsList_.begin() *)
             evict (mkCache (fst lm) (aset keqb k b (snd lm)) (maxSize c) (S (fresh c)))
         end).

  (** LruCache.hpp:42-47, peek. *)
  Definition peek (k : K) (c : cache) : outcome V :=
    match alookup keqb k (imap c) with
    | None => Throw RangeError
    | Some it => match nodeAt it (items c) with
                 | None => UB
                 | Some kv => Ok (snd kv)
                 end
    end.

  (** LruCache.hpp:54 and 63: list.splice(begin, list, it) moves one node to the front. *)
  Definition spliceFront (it : nat) (c : cache) : outcome cache :=
    match nodeAt it (items c) with
    | None => UB
    | Some kv => Ok (mkCache ((it, kv) :: eraseNode it (items c)) (imap c) (maxSize c) (fresh c))
    end.

  (** LruCache.hpp:50-56, get. *)
  Definition get (k : K) (c : cache) : outcome (V * cache) :=
    match alookup keqb k (imap c) with
    | None => Throw RangeError
    | Some it =>
        bind (spliceFront it c) (fun c' =>
          match nodeAt it (items c') with
          | None => UB
          | Some kv => Ok (snd kv, c')
          end)
    end.

  (** LruCache.hpp:59-64, promote. *)
  Definition promote (k : K) (c : cache) : outcome cache :=
    match alookup keqb k (imap c) with
    | None => Throw RangeError
    | Some it => spliceFront it c
    end.

  (** LruCache.hpp:67-69, exists. *)
  Definition exists_ (k : K) (c : cache) : bool :=
    match alookup keqb k (imap c) with None => false | Some _ => true end.

  (** LruCache.hpp:72-74, size. *)
  Definition size (c : cache) : nat := length (imap c).

  (** LruCache.hpp:77-80, clear. *)
  Definition clear (c : cache) : cache := mkCache [] [] (maxSize c) (fresh c).

  (** One public call.  An exception leaves the cache as it was: LruCache.hpp:44, 52
      and 61 throw before anything is modified.  [None] is undefined behaviour. *)
  Inductive op := Put (k : K) (v : V) | Get (k : K) | Peek (k : K) | Promote (k : K)
                | Exists (k : K) | Size | Clear.
  (** What a call returns (LruCache.hpp:23-80). *)
  Inductive res := RUnit | RVal (v : V) | RBool (b : bool) | RNat (n : nat) | RThrow (e : exn).

  (** One of the calls of LruCache.hpp:23-80. *)
  Definition step (c : cache) (o : op) : option (cache * res) :=
    match o with
    | Put k v => match put k v c with
                 | Ok c' => Some (c', RUnit) | Throw e => Some (c, RThrow e) | UB => None end
    | Get k => match get k c with
               | Ok (v, c') => Some (c', RVal v) | Throw e => Some (c, RThrow e) | UB => None end
    | Peek k => match peek k c with
                | Ok v => Some (c, RVal v) | Throw e => Some (c, RThrow e) | UB => None end
    | Promote k => match promote k c with
                   | Ok c' => Some (c', RUnit) | Throw e => Some (c, RThrow e) | UB => None end
    | Exists k => Some (c, RBool (exists_ k c))
    | Size => Some (c, RNat (size c))
    | Clear => Some (clear c, RUnit)
    end.

  (** A sequence of calls and what each of them returned (LruCache.hpp:23-80). *)
  Fixpoint run (c : cache) (os : list op) : option (list res) :=
    match os with
    | [] => Some []
    | o :: os' =>
        match step c o with
        | None => None
        | Some (c', r) => match run c' os' with None => None | Some rs => Some (r :: rs) end
        end
    end.
End Lru.
