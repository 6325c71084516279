(** What OSM PBF files hold (the format's documentation, and osmformat.proto), independent of the parser. *)
From Coq Require Import QArith.
From Verif Require Import Base Bytes PbfModel.
Local Open Scope Z_scope.

(** A node as its writer knows it: coordinates are numbers of steps of the block's granularity. *)
Record snode := mkSNode { sId : Z; sLat : Z; sLon : Z; sTags : list (bytes * bytes) }.

(** Differences of successive numbers. *)
Fixpoint deltas (last : Z) (l : list Z) : list Z :=
  match l with [] => [] | x :: l' => (x - last) :: deltas x l' end.

(** [i] is the place of [s] in the table. *)
Definition names (table : list bytes) (i : Z) (s : bytes) : Prop := 0 <= i /\ nth_error table (Z.to_nat i) = Some s.

(** Keys and values of tags as places in the table. *)
Definition tagged (table : list bytes) (keys vals : list Z) (tags : list (bytes * bytes)) : Prop :=
  Forall2 (fun k t => names table k (fst t)) keys tags /\ Forall2 (fun v t => names table v (snd t)) vals tags.

(** One node's part of keys_vals, without the closing zero. *)
Inductive pairsOf (table : list bytes) : list (bytes * bytes) -> list Z -> Prop :=
| pairs_nil : pairsOf table [] []
| pairs_cons k v tags ki vi kv : ki <> 0 -> names table ki k -> names table vi v -> pairsOf table tags kv ->
    pairsOf table ((k, v) :: tags) (ki :: vi :: kv).
(** keys_vals of nodes: every node's part is closed by a zero. *)
Inductive kvOf (table : list bytes) : list snode -> list Z -> Prop :=
| kv_nil : kvOf table [] []
| kv_cons n ns ps kv : pairsOf table (sTags n) ps -> kvOf table ns kv -> kvOf table (n :: ns) (ps ++ 0 :: kv).

(** The dense form of nodes; keys_vals may be left out when no node has a tag. *)
Definition densely (b : pblock) (ns : list snode) (d : dense) : Prop :=
  dnIds d = deltas 0 (map sId ns) /\ dnLats d = deltas 0 (map sLat ns) /\ dnLons d = deltas 0 (map sLon ns) /\
  (kvOf (bStrings b) ns (dnKeysVals d) \/ (Forall (fun n => sTags n = []) ns /\ dnKeysVals d = [])).

(** A 64 bit number. *)
Definition fits (z : Z) : Prop := - 2 ^ 63 <= z < 2 ^ 63.
(** A coordinate, or a difference of two, can be computed with 64 bits. *)
Definition storable (b : pblock) (offset v : Z) : Prop := fits (bGranularity b * v) /\ fits (offset + bGranularity b * v).

(** Documented: latitude = .000000001 * (lat_offset + (granularity * lat)). *)
Definition coordinate (b : pblock) (offset v : Z) : Q := (inject_Z (offset + bGranularity b * v) / inject_Z 1000000000)%Q.
(** The number as an identifier. *)
Definition ident (z : Z) : Z := z mod 2 ^ 64.

(** The node is visited with the coordinates given. *)
Definition visits (n : snode) (lat lon : Q) (e : event) : Prop :=
  match e with
  | ENode id la lo tags => id = ident (sId n) /\ (la == lat)%Q /\ (lo == lon)%Q /\ tags = sTags n
  | _ => False
  end.
(** ... with the documented coordinates. *)
Definition visitsRight (b : pblock) (n : snode) (e : event) : Prop :=
  visits n (coordinate b (bLatOffset b) (sLat n)) (coordinate b (bLonOffset b) (sLon n)) e.

(** A block reads only entries which exist: lists of the same sizes and strings of the table. *)
Definition inTable (b : pblock) (i : Z) : Prop := 0 <= i < Z.of_nat (length (bStrings b)).
Definition goodTags (b : pblock) (keys vals : list Z) : Prop :=
  (length keys <= length vals)%nat /\ Forall (inTable b) keys /\ Forall (inTable b) (firstn (length keys) vals).
Definition goodNode (b : pblock) (n : pnode) : Prop :=
  storable b (bLatOffset b) (pnLat n) /\ storable b (bLonOffset b) (pnLon n) /\ goodTags b (pnKeys n) (pnVals n).
Definition goodWay (b : pblock) (w : pway) : Prop := goodTags b (pwKeys w) (pwVals w).
Definition goodRel (b : pblock) (r : prel) : Prop :=
  (length (prIds r) <= length (prTypes r))%nat /\ (length (prIds r) <= length (prRoles r))%nat /\
  Forall (inTable b) (firstn (length (prIds r)) (prRoles r)) /\ goodTags b (prKeys r) (prVals r).
Definition goodGroup (b : pblock) (g : pgroup) : Prop :=
  Forall (goodNode b) (gNodes g) /\ Forall (goodWay b) (gWays g) /\ Forall (goodRel b) (gRels g).

(** A number as four bytes, the highest first. *)
Definition be32 (z : Z) : bytes :=
  map Z.to_N [z / 2 ^ 24 mod 256; z / 2 ^ 16 mod 256; z / 2 ^ 8 mod 256; z mod 256].

(** protobuf: a number in groups of seven bits, the lowest first; the top bit tells of more. *)
Fixpoint varintFrom (fuel : nat) (z : Z) : bytes :=
  match fuel with
  | O => []
  | S fuel' => if z <? 128 then [Z.to_N z] else Z.to_N (z mod 128 + 128) :: varintFrom fuel' (z / 128)
  end.
Definition varint (z : Z) : bytes := varintFrom 10 z.
(** protobuf: a field of number 1 with bytes: its tag, the length and the bytes. *)
Definition field1 (payload : bytes) : bytes := 10%N :: varint (Z.of_nat (length payload)) ++ payload.

Section File.
  Variable parseHeader : bytes -> option (bool * Z).
  Variable parseBlob : bytes -> option blob.
  Variable parseBlock : bytes -> option pblock.
  Variable inflated : bytes -> option bytes.

  (** One part of a file: size of the header, header and blob.  [es] is what it tells. *)
  Definition frame (header message : bytes) : bytes := be32 (Z.of_nat (length header)) ++ header ++ message.
  Definition saneFrame (isData : bool) (header message : bytes) : Prop :=
    Z.of_nat (length header) <= 64 * 1024 /\ Z.of_nat (length message) <= 32 * 1024 * 1024 /\
    parseHeader header = Some (isData, Z.of_nat (length message)).
  Definition zlibFrame (header message : bytes) (es : list event) : Prop :=
    exists isData data rawSize out,
      saneFrame isData header message /\ parseBlob message = Some (BZlib data rawSize) /\ inflated data = Some out /\
      Z.of_nat (length out) <= rawSize < 2 ^ 31 /\ Z.of_nat (length out) <= 32 * 1024 * 1024 /\
      if isData then exists b, parseBlock out = Some b /\ visitBlock b = Ok es else es = [].

  (** A file of such parts. *)
  Inductive fileOf : bytes -> list event -> Prop :=
  | file_nil : fileOf [] []
  | file_cons header message es s rest : zlibFrame header message es -> fileOf s rest ->
      fileOf (frame header message ++ s) (es ++ rest).
End File.
