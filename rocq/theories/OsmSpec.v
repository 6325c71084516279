(** What resolution of relations should give. *)
From Verif Require Import Base Bytes ElementModel TagModel GeoModel RingModel OsmModel.
From Coq Require Import Sorted.
Local Open Scope nat_scope.

Definition known {V} (m : list (N * V)) (id : N) : bool := existsb (fun p => N.eqb id (fst p)) m.

Section Expected.
  Context {T : Type}.

  (** The element a member refers to, if it is in the data: for ways the closed one first. *)
  Definition memberItem (st : octx T) (m : member) : list (item T) :=
    match mtype m with
    | TNode => if known (nodes st) (refId m) then [INode (refId m)] else []
    | TWay => if known (areas st) (refId m) then [IArea (refId m)]
              else if known (ways st) (refId m) then [IWay (refId m)] else []
    | TOther => if known (rels st) (refId m) then [IRel (refId m)] else []
    end.

  (** The first item of each id. *)
  Fixpoint firsts (seen : list N) (l : list (item T)) : list (item T) :=
    match l with
    | [] => []
    | i :: l' => if existsb (N.eqb (itemId i)) seen then firsts seen l' else i :: firsts (itemId i :: seen) l'
    end.

  (** Plain relations: the members that are in the data, in order, an id once. *)
  Definition plainItems (st : octx T) (ms : list member) : list (item T) := firsts [] (flat_map (memberItem st) ms).
  (** Buildings: the members that are in the data, in order, without outlines. *)
  Definition buildingItems (st : octx T) (ms : list member) : list (item T) :=
    flat_map (fun m => match role m with ROutline => [] | _ => memberItem st m end) ms.

  (** Multipolygons: the line of a member of type way; [None] if it is not in the data. *)
  Definition memberLine (st : octx T) (m : member) : option (list (point T)) :=
    match alookup N.eqb (refId m) (ways st) with
    | Some w => Some (lcoords w)
    | None =>
        match alookup N.eqb (refId m) (areas st) with
        | Some a => Some (lcoords a ++ firstn 1 (lcoords a))
        | None => None
        end
    end.
  (** The sequences of a multipolygon: non-empty lines of outer and inner ways. *)
  Fixpoint sequencesOf (st : octx T) (ms : list member) : option (list (bool * sequence (point T))) :=
    match ms with
    | [] => Some []
    | m :: ms' =>
        match mtype m with
        | TWay =>
            match memberLine st m, sequencesOf st ms' with
            | Some cs, Some l =>
                match cs, role m with
                | _ :: _, ROuter => Some ((true, mkSeq (refId m) cs) :: l)
                | _ :: _, RInner => Some ((false, mkSeq (refId m) cs) :: l)
                | _, _ => Some l
                end
            | _, _ => None
            end
        | _ => sequencesOf st ms'
        end
    end.

  Fixpoint copies (k : nat) (l : list (item T)) : list (item T) :=
    match k with O => [] | S k' => l ++ copies k' l end.
End Expected.

(** Tags as the import gives them: keys ascending (an equal key allowed), below [2^32], and
    at most one value for a key. *)
Definition sortedTags (t : list tag) : Prop := StronglySorted (fun a b => (tkey a <= tkey b)%N) t.
Definition oneValue (k : N) (t : list tag) : Prop :=
  forall v v', In (mkTag k v) t -> In (mkTag k v') t -> v = v'.
Definition goodTags (k : N) (t : list tag) : Prop :=
  sortedTags t /\ oneValue k t /\ Forall (fun x => (tkey x <= noId)%N) t.

(** Visited data without cycles, and with no id shared by a node or way member and a relation. *)
Record scene {T} (typeK : N) (rank : N -> nat) (st : octx T) : Prop := {
  sc_rels : forall r e, alookup N.eqb r (rels st) = Some e -> relems e = [] /\ goodTags typeK (rtags e);
  sc_members : forall r, known (rels st) r = true -> exists ms, alookup N.eqb r (members st) = Some ms;
  sc_rank : forall r ms m, alookup N.eqb r (members st) = Some ms -> In m ms -> mtype m = TOther ->
    known (rels st) (refId m) = true -> rank (refId m) < rank r;
  sc_ids : forall r ms m, alookup N.eqb r (members st) = Some ms -> In m ms -> mtype m <> TOther ->
    known (rels st) (refId m) = false;
  sc_areas : forall a l, alookup N.eqb a (areas st) = Some l -> lcoords l <> [] /\
    Forall (fun x => (tkey x <= noId)%N /\ tkey x <> typeK) (ltags l)
}.

Section Relations.
  Context {T : Type} (n : nums T).
  Variable same : point T -> point T -> bool.
  Variables typeK multiV buildV : N.
  Variable st0 : octx T.

  (** The members of a relation and its kind, by the tags it was visited with. *)
  Definition mem (r : N) : list member := match alookup N.eqb r (members st0) with Some ms => ms | None => [] end.
  Definition kindR (r : N) : kind :=
    match alookup N.eqb r (rels st0) with
    | Some e => match kindOf typeK multiV buildV (rtags e) with Ok k => k | _ => Plain end
    | None => Plain
    end.
  Definition multiItems (ms : list member) : list (item T) :=
    match sequencesOf st0 ms with
    | None => []
    | Some l => match assemble n same l with Some (Ok new) => map INew new | _ => [] end
    end.
  (** What a relation should consist of. *)
  Definition expected (r : N) : list (item T) :=
    match kindR r with
    | Plain => plainItems st0 (mem r)
    | Building => buildingItems st0 (mem r)
    | Multipolygon => multiItems (mem r)
    end.
  Definition referenced (x : N) : Prop :=
    exists r m, In m (mem r) /\ mtype m = TOther /\ refId m = x.
End Relations.
