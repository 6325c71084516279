(** Calls on an open tile made alone, and programs of threads. *)
From Verif Require Import Base Bytes GeoModel ElementModel LruModel StoreModel ThreadModel ThreadSpec TileThreadModel.
Local Open Scope nat_scope.

(** What a call gives and how it leaves the tile; nothing is said about the tile after a failure. *)
Definition tileAlone (c : tcall) (t : tile) : tanswer * option tile :=
  let h := streams t in let f := filesOf t in
  match c with
  | TSearch =>
      match readEntries never f 0 (N.to_nat (u32 (N.of_nat (ipos h / entrySize)))) (mkHandle (dpos h) 0) with
      | Ok (es, h') => (TFound (Ok es), Some (mkTile h' f))
      | Throw x => (TFound (Throw x), None)
      | UB => (TFound UB, None)
      end
  | TSave e =>
      let f' := mkFiles (dat f ++ write e) (idf f ++ le 8 (eid e) ++ le 4 (u32 (N.of_nat (dpos h)))) in
      (TSaved (u32 (N.of_nat (ipos h / entrySize))), Some (mkTile (mkHandle (length (dat f')) (length (idf f'))) f'))
  | TNotify order =>
      match bind (readIndexEntry f (N.to_nat order * entrySize)) (fun '(id, off, n) =>
            bind (readAt f id off) (fun '(e, m) => Ok (e, mkHandle m n))) with
      | Ok (e, h') => (TFound (Ok [e]), Some (mkTile h' f))
      | Throw x => (TFound (Throw x), None)
      | UB => (TFound UB, None)
      end
  end.

(** Threads with programs of calls on one open tile. *)
Definition tileThreads (t : tile) (programs : list (list tcall)) : config tile (list tanswer) :=
  start t (map (fun p => client (fun c k => tileMethod k c) (map (fun c _ => c) p) []) programs).
(** Threads which ask the cache for tiles or flush it. *)
Definition cacheThreads {X D} (open : N -> X -> D * X) (clear : X -> X) (x : X) (programs : list (list ccall)) : config X (list (option D)) :=
  start x (map (fun p => client (fun c k => cacheMethod X D open clear k c) (map (fun c _ => c) p) []) programs).
