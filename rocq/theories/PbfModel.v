(** Model of core/src/formats/osm/pbf/OsmPbfParser.hpp.  The messages of fileformat.proto and
    osmformat.proto are records; parsing their bytes (the protobuf library) and zlib are parameters.
    Doubles are exact rationals.  Reading a repeated field outside of its size and overflow of 64 bit
    numbers are undefined.  The visitor is the list of its calls; calls before a failure are not kept. *)
From Coq Require Import QArith.
From Verif Require Import Base Bytes ElevModel.
Local Open Scope Z_scope.

(** osmformat.proto, Node (lines 159-168). *)
Record pnode := mkPNode { pnId : Z; pnKeys : list Z; pnVals : list Z; pnLat : Z; pnLon : Z }.
(** osmformat.proto, DenseNodes (lines 183-195). *)
Record dense := mkDense { dnIds : list Z; dnLats : list Z; dnLons : list Z; dnKeysVals : list Z }.
(** osmformat.proto, Way (lines 197-206). *)
Record pway := mkPWay { pwId : Z; pwKeys : list Z; pwVals : list Z; pwRefs : list Z }.
(** osmformat.proto, Relation.MemberType (lines 209-213). *)
Inductive memType := MNode | MWay | MRelation.
(** osmformat.proto, Relation (lines 208-225). *)
Record prel := mkPRel { prId : Z; prKeys : list Z; prVals : list Z; prRoles : list Z; prIds : list Z; prTypes : list memType }.
(** osmformat.proto, PrimitiveGroup (lines 103-110). *)
Record pgroup := mkGroup { gNodes : list pnode; gDense : option dense; gWays : list pway; gRels : list prel }.
(** osmformat.proto, PrimitiveBlock (lines 84-101). *)
Record pblock := mkBlock { bStrings : list bytes; bGranularity : Z; bLatOffset : Z; bLonOffset : Z; bGroups : list pgroup }.

(** core/src/formats/FormatTypes.hpp:34-38; the type is the letter of lines 221-228. *)
Record pmember := mkPMember { pmRef : Z; pmType : N; pmRole : bytes }.
(** The calls of the visitor at OsmPbfParser.hpp:149, 179, 196 and 216. *)
Inductive event :=
| ENode (id : Z) (lat lon : Q) (tags : list (bytes * bytes))
| EWay (id : Z) (refs : list Z) (tags : list (bytes * bytes))
| ERelation (id : Z) (members : list pmember) (tags : list (bytes * bytes)).

(** A loop over the elements of a list which may fail (e.g. OsmPbfParser.hpp:141-150). *)
Fixpoint each {A B} (f : A -> outcome B) (l : list A) : outcome (list B) :=
  match l with
  | [] => Ok []
  | a :: l' => bind (f a) (fun b => omap (cons b) (each f l'))
  end.
(** Arithmetic on std::int64_t (e.g. OsmPbfParser.hpp:144). *)
Definition check64 (z : Z) : outcome Z := if (- 2 ^ 63 <=? z) && (z <? 2 ^ 63) then Ok z else UB.
(** Arithmetic on std::uint64_t (e.g. OsmPbfParser.hpp:162). *)
Definition u64 (z : Z) : Z := z mod 2 ^ 64.
(** The factor 0.000000001 of OsmPbfParser.hpp:144-145 and 163-164. *)
Definition nano (z : Z) : Q := (inject_Z z * (1 # 1000000000))%Q.

Section Block.
  Variable b : pblock.

  (** OsmPbfParser.hpp:144, 145, 163, 164: the coordinate for a stored number. *)
  Definition degrees (offset v : Z) : outcome Q :=
    bind (check64 (bGranularity b * v)) (fun p => omap nano (check64 (offset + p))).

  (** OsmPbfParser.hpp:233-240, setTags, from the index [i] on. *)
  Fixpoint setTagsFrom (i : Z) (keys vals : list Z) : outcome (list (bytes * bytes)) :=
    match keys with
    | [] => Ok []
    | key :: keys' =>
        bind (readAt vals i) (fun val =>
        bind (readAt (bStrings b) key) (fun k =>
        bind (readAt (bStrings b) val) (fun v =>
        omap (cons (k, v)) (setTagsFrom (i + 1) keys' vals))))
    end.
  (** OsmPbfParser.hpp:230-241, setTags. *)
  Definition setTags (keys vals : list Z) : outcome (list (bytes * bytes)) := setTagsFrom 0 keys vals.

  (** OsmPbfParser.hpp:142-149. *)
  Definition visitPNode (n : pnode) : outcome event :=
    bind (degrees (bLatOffset b) (pnLat n)) (fun lat =>
    bind (degrees (bLonOffset b) (pnLon n)) (fun lon =>
    bind (setTags (pnKeys n) (pnVals n)) (fun tags => Ok (ENode (u64 (pnId n)) lat lon tags)))).

  (** OsmPbfParser.hpp:168-176: the tags of a dense node, and the entries left.  At a key the next entry is read
      without a check. *)
  Fixpoint denseTags (kv : list Z) : outcome (list (bytes * bytes) * list Z) :=
    match kv with
    | [] => Ok ([], [])
    | key :: kv' =>
        if key =? 0 then Ok ([], kv) else
        match kv' with
        | [] => UB
        | val :: kv'' =>
            bind (readAt (bStrings b) key) (fun k =>
            bind (readAt (bStrings b) val) (fun v =>
            bind (denseTags kv'') (fun '(tags, r) => Ok ((k, v) :: tags, r))))
        end
    end.
  (** OsmPbfParser.hpp:161-180: the loop over the dense nodes from [i] on.  Line 177 passes the delimiter. *)
  Fixpoint denseFrom (d : dense) (i : Z) (ids : list Z) (id : Z) (lat lon : Q) (kv : list Z) : outcome (list event) :=
    match ids with
    | [] => Ok []
    | di :: ids' =>
        let id' := u64 (id + di) in
        bind (bind (readAt (dnLats d) i) (degrees (bLatOffset b))) (fun dlat =>
        bind (bind (readAt (dnLons d) i) (degrees (bLonOffset b))) (fun dlon =>
        let lat' := (lat + dlat)%Q in
        let lon' := (lon + dlon)%Q in
        bind (denseTags kv) (fun '(tags, r) =>
        omap (cons (ENode id' lat' lon' tags)) (denseFrom d (i + 1) ids' id' lat' lon' (tl r)))))
    end.
  (** OsmPbfParser.hpp:153-181. *)
  Definition visitDense (d : dense) : outcome (list event) := denseFrom d 0 (dnIds d) 0 0 0 (dnKeysVals d).

  (** OsmPbfParser.hpp:189-192 and 204-205: running sums. *)
  Fixpoint sumsFrom (acc : Z) (l : list Z) : list Z :=
    match l with [] => [] | d :: l' => u64 (acc + d) :: sumsFrom (u64 (acc + d)) l' end.
  (** OsmPbfParser.hpp:184-196. *)
  Definition visitPWay (w : pway) : outcome event :=
    omap (EWay (u64 (pwId w)) (sumsFrom 0 (pwRefs w))) (setTags (pwKeys w) (pwVals w)).

  (** OsmPbfParser.hpp:221-228, parseType. *)
  Definition parseType (t : memType) : N := match t with MNode => 110%N | MWay => 119%N | MRelation => 114%N end.
  (** OsmPbfParser.hpp:204-211, from the member [i] on. *)
  Fixpoint membersFrom (r : prel) (i : Z) (refs : list Z) : outcome (list pmember) :=
    match refs with
    | [] => Ok []
    | ref :: refs' =>
        bind (readAt (prTypes r) i) (fun t =>
        bind (readAt (prRoles r) i) (fun sid =>
        bind (readAt (bStrings b) sid) (fun role =>
        omap (cons (mkPMember ref (parseType t) role)) (membersFrom r (i + 1) refs'))))
    end.
  (** OsmPbfParser.hpp:200-216. *)
  Definition visitPRel (r : prel) : outcome event :=
    bind (membersFrom r 0 (sumsFrom 0 (prIds r))) (fun ms =>
    omap (ERelation (u64 (prId r)) ms) (setTags (prKeys r) (prVals r))).

  (** OsmPbfParser.hpp:138-217: one group. *)
  Definition visitGroup (g : pgroup) : outcome (list event) :=
    bind (each visitPNode (gNodes g)) (fun ns =>
    bind (match gDense g with Some d => visitDense d | None => Ok [] end) (fun ds =>
    bind (each visitPWay (gWays g)) (fun ws =>
    bind (each visitPRel (gRels g)) (fun rs => Ok (ns ++ ds ++ ws ++ rs))))).
  (** OsmPbfParser.hpp:137-218, parsePrimitiveBlock of a parsed block. *)
  Definition visitBlock : outcome (list event) := omap (@concat event) (each visitGroup (bGroups b)).
End Block.

(** fileformat.proto, Blob, with the parts used: raw bytes, or zlib data and the raw size, or lzma data (lines 29-46). *)
Inductive blob := BRaw (raw : bytes) | BZlib (data : bytes) (rawSize : Z) | BLzma | BNone.

Section File.
  (** fileformat.proto, BlobHeader: whether the type is "OSMData", and the size of the blob. *)
  Variable parseHeader : bytes -> option (bool * Z).
  Variable parseBlob : bytes -> option blob.
  Variable parseBlock : bytes -> option pblock.
  (** The bytes of a complete zlib stream. *)
  Variable inflated : bytes -> option bytes.

  (** OsmPbfParser.hpp:21. *)
  Definition maxHeader : Z := 64 * 1024.
  (** OsmPbfParser.hpp:22. *)
  Definition maxBlob : Z := 32 * 1024 * 1024.

  (** istream::read of a size (OsmPbfParser.hpp:70, 88); a negative size is undefined. *)
  Definition readBytes (size : Z) (s : bytes) : outcome (bytes * bytes) :=
    if size <? 0 then UB
    else if Z.of_nat (length s) <? size then Throw DomainError
    else Ok (firstn (Z.to_nat size) s, skipn (Z.to_nat size) s).

  (** OsmPbfParser.hpp:59-65: the size of the header, a signed number of big endian bytes. *)
  Definition headerSize (b0 b1 b2 b3 : N) : Z :=
    let v := ((Z.of_N b0 * 256 + Z.of_N b1) * 256 + Z.of_N b2) * 256 + Z.of_N b3 in
    if v <? 2 ^ 31 then v else v - 2 ^ 32.

  (** OsmPbfParser.hpp:101-123: zlib writes at most [rawSize] bytes, as an unsigned number, to a buffer of
      [maxBlob] bytes. *)
  Definition unpackZlib (data : bytes) (rawSize : Z) : outcome bytes :=
    let avail := rawSize mod 2 ^ 32 in
    match inflated data with
    | None => Throw DomainError
    | Some out =>
        if avail <? Z.of_nat (length out) then Throw DomainError
        else if maxBlob <? Z.of_nat (length out) then UB
        else Ok out
    end.
  (** OsmPbfParser.hpp:80-129, readBlob: what [unpack_buffer_] begins with.  Raw data is copied from the beginning
      of [buffer_], which holds the message and not the data. *)
  Definition readBlob (size : Z) (s : bytes) : outcome (bytes * bytes) :=
    if maxBlob <? size then Throw DomainError
    else bind (readBytes size s) (fun '(message, r) =>
      match parseBlob message with
      | None => Throw DomainError
      | Some (BRaw raw) => Ok (firstn (length raw) message, r)
      | Some (BZlib data rawSize) => omap (fun out => (out, r)) (unpackZlib data rawSize)
      | Some BLzma => Throw DomainError
      | Some BNone => Ok ([], r)
      end).

  (** OsmPbfParser.hpp:35-45 and 54-78: the loop.  Fewer than four bytes end the file.  [None] would be a lack of
      fuel; every round takes at least four bytes. *)
  Fixpoint parseFrom (fuel : nat) (s : bytes) : option (outcome (list event)) :=
    match fuel with
    | O => None
    | S fuel' =>
        match s with
        | b0 :: b1 :: b2 :: b3 :: s1 =>
            let size := headerSize b0 b1 b2 b3 in
            if maxHeader <? size then Some (Throw DomainError)
            else match readBytes size s1 with
            | Throw e => Some (Throw e)
            | UB => Some UB
            | Ok (hbytes, s2) =>
                match parseHeader hbytes with
                | None => Some (Throw DomainError)
                | Some (isData, dataSize) =>
                    match readBlob dataSize s2 with
                    | Throw e => Some (Throw e)
                    | UB => Some UB
                    | Ok (data, s3) =>
                        let here := if isData : bool then match parseBlock data with
                                      | None => Throw DomainError
                                      | Some b => visitBlock b
                                      end else Ok [] in
                        match here with
                        | Throw e => Some (Throw e)
                        | UB => Some UB
                        | Ok es => option_map (omap (app es)) (parseFrom fuel' s3)
                        end
                    end
                end
            end
        | _ => Some (Ok [])
        end
    end.
  (** OsmPbfParser.hpp:32-46, parse. *)
  Definition parsePbf (s : bytes) : option (outcome (list event)) := parseFrom (S (length s)) s.
End File.
