(** What the element stores are expected to do, in terms of the calls made so far. *)
From Verif Require Import Base Bytes ElementModel ElementSpec GeoModel GeoSpec StoreModel.

(** What a tile holds after the calls [past] (latest first). *)
Fixpoint contents (k : quadKey) (past : list call) : list element :=
  match past with
  | [] => []
  | Store k' e :: past' => if keyEqb k k' then contents k past' ++ [e] else contents k past'
  | Erase k' :: past' => if keyEqb k k' then [] else contents k past'
  | _ :: past' => contents k past'
  end.

(** A call on the tile other than erasing it, none of them being hasData. *)
Definition accesses (k : quadKey) (c : call) : Prop :=
  match c with
  | Store k' _ | Search k' _ | Notify k' _ => k' = k
  | _ => False
  end.

(** The tile was accessed after it was last erased; [past] has the latest call first. *)
Fixpoint touched (k : quadKey) (past : list call) : Prop :=
  match past with
  | [] => False
  | Erase k' :: past' => k' <> k /\ touched k past'
  | c :: past' => accesses k c \/ touched k past'
  end.

(** [found] is what a search over [all] may report when its token answers [t]: a prefix of
    it, ending exactly where the token first says cancelled. *)
Definition prefixUntil (t : token) (all found : list element) : Prop :=
  exists rest, all = found ++ rest /\
    (forall i, (i < length found)%nat -> t i = false) /\
    (rest <> [] -> t (length found) = true).

(** Tiles with a name. *)
Definition named (k : quadKey) : Prop := tile k /\ lod k <= 31.

(** The tile a call is about. *)
Definition tileOfCall (c : call) : option quadKey :=
  match c with
  | Store k _ | Search k _ | HasData k | Erase k | Notify k _ => Some k
  | Flush | Reopen => None
  end.

(** Calls are on tiles with a name, and stored elements can be represented (C06). *)
Definition usable (c : call) : Prop :=
  (forall k, tileOfCall c = Some k -> named k) /\
  match c with Store _ e => wfElement e /\ fitsElement e | _ => True end.

(** Bytes written for a tile. *)
Fixpoint volume (k : quadKey) (cs : list call) : N :=
  match cs with
  | [] => 0
  | Store k' e :: cs' => (if keyEqb k k' then N.of_nat (length (write e)) else 0) + volume k cs'
  | _ :: cs' => volume k cs'
  end.

(** The tiles' data files stay below 4 GB. *)
Definition small (cs : list call) : Prop := forall k, (volume k cs < 2 ^ 32)%N.

(** [careful d cs]: after a text search hit or a cancelled search in a tile, the tile is not
    stored to or searched again before the store was flushed, reopened or something was
    erased.  [d] are the tiles for which this is pending. *)
Fixpoint careful (d : list quadKey) (cs : list call) : Prop :=
  match cs with
  | [] => True
  | Store k _ :: cs' => ~ In k d /\ careful d cs'
  | Search k t :: cs' => ~ In k d /\ (((forall i, t i = false) /\ careful d cs') \/ careful (k :: d) cs')
  | Notify k _ :: cs' => careful (k :: d) cs'
  | Erase _ :: cs' | Flush :: cs' | Reopen :: cs' => careful [] cs'
  | HasData _ :: cs' => False
  end.
