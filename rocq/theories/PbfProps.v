(** C55: what the PBF importer tells its visitor. *)
From Coq Require Import QArith.
From Verif Require Import Base Bytes ElevModel PbfModel PbfSpec PbfProofs.
Local Open Scope Z_scope.

(** Dense nodes, exactly: identifiers and tags are those written, but the offset of the block is added
    once more for every node. *)
Theorem C55_dense_exact : forall b ns d, densely b ns d ->
  Forall (storable b (bLatOffset b)) (dnLats d) -> Forall (storable b (bLonOffset b)) (dnLons d) ->
  exists es, visitDense b d = Ok es /\ length es = length ns /\
    forall k n e, nth_error ns k = Some n -> nth_error es k = Some e ->
      visits n (coordinate b (bLatOffset b) (sLat n) + inject_Z (Z.of_nat k * bLatOffset b) / inject_Z 1000000000)%Q
               (coordinate b (bLonOffset b) (sLon n) + inject_Z (Z.of_nat k * bLonOffset b) / inject_Z 1000000000)%Q e.
Proof.
  intros b ns d D S1 S2. destruct (dense_all b ns d D S1 S2) as (es & E & L & G). exists es. split; [exact E|]. split; [exact L|].
  assert (Q1 : forall k off v, (drift b (k + 1) off v ==
    coordinate b off v + inject_Z (k * off) / inject_Z 1000000000)%Q).
  { intros k off v. unfold drift, coordinate. rewrite nano_div. unfold Qdiv. rewrite <- Qmult_plus_distr_l, <- inject_Z_plus.
    replace ((k + 1) * off + bGranularity b * v) with (off + bGranularity b * v + k * off) by ring. reflexivity. }
  intros k n e Hn He. specialize (G k n e Hn He). destruct e as [id la lo tags| |]; [|exact G|exact G].
  cbn in *. destruct G as (A & B & C & T). rewrite B, C, !Q1. repeat split; auto; reflexivity.
Qed.

(** Without offsets dense nodes are read as they were written, whatever the granularity. *)
Theorem C55_dense_partial : forall b ns d, densely b ns d -> bLatOffset b = 0 -> bLonOffset b = 0 ->
  Forall (storable b 0) (dnLats d) -> Forall (storable b 0) (dnLons d) ->
  exists es, visitDense b d = Ok es /\ Forall2 (visitsRight b) ns es.
Proof.
  intros b ns d D O1 O2 S1 S2. rewrite <- O1 in S1. rewrite <- O2 in S2.
  destruct (C55_dense_exact b ns d D S1 S2) as (es & E & L & G). exists es. split; [exact E|].
  assert (G' : forall k n e, nth_error ns k = Some n -> nth_error es k = Some e -> visitsRight b n e).
  { intros k n e Hn He. specialize (G k n e Hn He). unfold visitsRight. destruct e as [id la lo tags| |]; [|exact G|exact G].
    cbn in *. destruct G as (A & B & C & T). rewrite O1, O2, Z.mul_0_r in *. rewrite B, C.
    repeat split; auto; unfold Qdiv; rewrite Qmult_0_l, Qplus_0_r; reflexivity. }
  clear - L G'. revert es L G'. induction ns as [|n ns IH]; intros [|e es] L G'; try discriminate; constructor.
  - exact (G' 0%nat n e eq_refl eq_refl).
  - apply IH; [now injection L|]. intros k. exact (G' (S k)).
Qed.

(** With an offset every dense node but the first is misplaced. *)
Theorem C55_dense_refuted : forall b ns d k n, densely b ns d ->
  Forall (storable b (bLatOffset b)) (dnLats d) -> Forall (storable b (bLonOffset b)) (dnLons d) ->
  nth_error ns (S k) = Some n -> bLatOffset b <> 0 ->
  exists es e, visitDense b d = Ok es /\ nth_error es (S k) = Some e /\ ~ visitsRight b n e.
Proof.
  intros b ns d k n D S1 S2 Hn NZ. destruct (C55_dense_exact b ns d D S1 S2) as (es & E & L & G).
  destruct (nth_error es (S k)) as [e|] eqn:He.
  2:{ apply nth_error_None in He. assert (S k < length ns)%nat by (apply nth_error_Some; congruence). lia. }
  exists es, e. split; [exact E|]. split; [exact He|]. specialize (G _ n e Hn He). intros V. unfold visitsRight in V.
  destruct e as [id la lo tags| |]; [|exact V|exact V]. cbn [visits] in *. destruct G as (_ & B & _). destruct V as (_ & B' & _).
  rewrite B' in B. set (q := coordinate b (bLatOffset b) (sLat n)) in *.
  assert (Z0 : (inject_Z (Z.of_nat (S k) * bLatOffset b) / inject_Z 1000000000 == 0)%Q).
  { rewrite <- (Qplus_inj_l _ _ q). rewrite Qplus_0_r. symmetry. exact B. }
  assert (Z1 : (inject_Z (Z.of_nat (S k) * bLatOffset b) == 0)%Q).
  { rewrite <- (Qmult_div_r (inject_Z (Z.of_nat (S k) * bLatOffset b)) (inject_Z 1000000000)) by discriminate.
    rewrite Z0. apply Qmult_0_r. }
  unfold Qeq, inject_Z in Z1. cbn [Qnum Qden] in Z1. nia.
Qed.

(** Plain nodes are read as they were written, offset and granularity included. *)
Theorem C55_node : forall b id lat lon keys vals tags, tagged (bStrings b) keys vals tags ->
  storable b (bLatOffset b) lat -> storable b (bLonOffset b) lon ->
  exists e, visitPNode b (mkPNode id keys vals lat lon) = Ok e /\ visitsRight b (mkSNode id lat lon tags) e.
Proof.
  intros b id lat lon keys vals tags T S1 S2. unfold visitPNode, setTags. cbn [pnLat pnLon pnKeys pnVals pnId].
  rewrite (degrees_ok _ _ _ S1), (degrees_ok _ _ _ S2), (setTags_ok b tags keys vals 0 vals T ltac:(lia) eq_refl).
  cbn [bind]. eexists. split; [reflexivity|]. unfold visitsRight, coordinate. cbn. split; [reflexivity|].
  split; [apply nano_div|]. split; [apply nano_div|reflexivity].
Qed.

(** So are ways ... *)
Theorem C55_way : forall b id refs keys vals tags, tagged (bStrings b) keys vals tags ->
  visitPWay b (mkPWay id keys vals (deltas 0 refs)) = Ok (EWay (ident id) (map ident refs) tags).
Proof.
  intros b id refs keys vals tags T. unfold visitPWay, setTags. cbn [pwId pwKeys pwVals pwRefs].
  rewrite (setTags_ok b tags keys vals 0 vals T ltac:(lia) eq_refl). rewrite (sums_deltas refs 0 : sumsFrom 0 (deltas 0 refs) = _). reflexivity.
Qed.

(** ... and relations; the kind of a member becomes a letter. *)
Theorem C55_relation : forall b id refs types sids roles keys vals tags, tagged (bStrings b) keys vals tags ->
  length types = length refs -> length roles = length refs -> Forall2 (names (bStrings b)) sids roles ->
  exists ms, visitPRel b (mkPRel id keys vals sids (deltas 0 refs) types) = Ok (ERelation (ident id) ms tags) /\
    map pmRef ms = map ident refs /\ map pmRole ms = roles /\
    map pmType ms = map (fun t => match t with MNode => 110%N | MWay => 119%N | MRelation => 114%N end) types.
Proof.
  intros b id refs types sids roles keys vals tags T LT LR F. unfold visitPRel, setTags. cbn [prId prKeys prVals prIds].
  rewrite (setTags_ok b tags keys vals 0 vals T ltac:(lia) eq_refl). rewrite (sums_deltas refs 0 : sumsFrom 0 (deltas 0 refs) = _).
  erewrite (members_ok b _ (map ident refs) types roles sids 0); [|lia|reflexivity|reflexivity|now rewrite map_length|exact F|now rewrite map_length].
  cbn [bind omap]. eexists. split; [reflexivity|]. rewrite !map_map. clear F T.
  revert types roles LT LR. induction refs as [|r refs IH]; intros [|t types] [|ro roles] LT LR; try discriminate; [repeat split|].
  destruct (IH types roles) as (A & B & C); [now injection LT|now injection LR|]. cbn in *.
  split; [f_equal; exact A|]. split; [f_equal; exact B|]. f_equal. exact C.
Qed.

(** A block without dense nodes never throws: it is read if it only refers to entries which exist, and
    undefined otherwise. *)
Theorem C55_block : forall b, Forall (fun g => gDense g = None) (bGroups b) ->
  ((exists es, visitBlock b = Ok es) <-> Forall (goodGroup b) (bGroups b)) /\
  ((exists es, visitBlock b = Ok es) \/ visitBlock b = UB).
Proof.
  intros b D. unfold visitBlock.
  assert (EQ : (exists es, omap (@concat event) (each (visitGroup b) (bGroups b)) = Ok es) <-> exists bs, each (visitGroup b) (bGroups b) = Ok bs).
  { split; [intros (es & H); destruct (each (visitGroup b) (bGroups b)); try discriminate; eauto|intros (bs & ->); cbn; eauto]. }
  rewrite EQ. split.
  - rewrite each_total. rewrite !Forall_forall. rewrite Forall_forall in D.
    split; intros H g I; [apply group_total|apply <- group_total]; auto.
  - destruct (each_UB_on (visitGroup b) (bGroups b)) as [(bs & ->)| ->]; [|left; eauto|right; reflexivity].
    eapply Forall_impl; [|exact D]. cbn beta. intros g. apply group_UB.
Qed.

(** A file of zlib blobs tells everything its blocks tell, in order. *)
Theorem C55_file : forall parseHeader parseBlob parseBlock inflated s es,
  fileOf parseHeader parseBlob parseBlock inflated s es ->
  parsePbf parseHeader parseBlob parseBlock inflated s = Some (Ok es).
Proof.
  intros parseHeader parseBlob parseBlock inflated s es F. unfold parsePbf.
  destruct (file_run _ _ _ _ s es F [] (S (length s)) ltac:(lia)) as (f & L & E). rewrite app_nil_r in E. rewrite E.
  destruct f as [|f]; [lia|]. cbn. now rewrite app_nil_r.
Qed.

(** A file cut within a part: nobody notices when fewer than four of its bytes are left, and the import
    fails otherwise, whatever the part holds. *)
Theorem C55_cut : forall parseHeader parseBlob parseBlock inflated s es isData header message pre suf,
  fileOf parseHeader parseBlob parseBlock inflated s es ->
  saneFrame parseHeader isData header message -> frame header message = pre ++ suf -> suf <> [] ->
  parsePbf parseHeader parseBlob parseBlock inflated (s ++ pre) =
    Some (if (length pre <? 4)%nat then Ok es else Throw DomainError).
Proof.
  intros parseHeader parseBlob parseBlock inflated s es isData header message pre suf F SF E NE. unfold parsePbf.
  destruct (file_run _ _ _ _ s es F pre (S (length (s ++ pre))) ltac:(rewrite app_length; lia)) as (f & L & EQ). rewrite EQ.
  destruct f as [|f]; [rewrite app_length in L; lia|].
  rewrite (frame_cut _ _ _ _ f isData header message pre suf SF E NE).
  destruct (length pre <? 4)%nat; cbn; [now rewrite app_nil_r|reflexivity].
Qed.

(** Every input has an outcome: the loop ends. *)
Theorem C55_ends : forall parseHeader parseBlob parseBlock inflated s,
  parsePbf parseHeader parseBlob parseBlock inflated s <> None.
Proof. intros. apply parse_total. lia. Qed.

(** A blob stored without compression can never be read: the message around the data is parsed in place
    of the data, and as it begins like a string table of the data's size it is incomplete. *)
Theorem C55_raw_refuted : forall parseHeader parseBlob parseBlock inflated header raw more t,
  saneFrame parseHeader true header (field1 raw ++ more) -> parseBlob (field1 raw ++ more) = Some (BRaw raw) ->
  (forall payload p q, field1 payload = p ++ q -> q <> [] -> parseBlock p = None) ->
  parsePbf parseHeader parseBlob parseBlock inflated (frame header (field1 raw ++ more) ++ t) = Some (Throw DomainError).
Proof.
  intros parseHeader parseBlob parseBlock inflated header raw more t SF PB LAW. unfold parsePbf.
  rewrite (frame_round _ _ _ _ _ true header (field1 raw ++ more) t SF). destruct SF as (_ & LM & _).
  unfold readBlob, maxBlob. destruct (Z.ltb_spec (32 * 1024 * 1024) (Z.of_nat (length (field1 raw ++ more)))); [lia|].
  rewrite readBytes_app. cbn [bind]. rewrite PB.
  assert (LF : (length raw < length (field1 raw))%nat) by (unfold field1; cbn [length]; rewrite app_length; lia).
  rewrite firstn_app. replace (length raw - length (field1 raw))%nat with O by lia. cbn [firstn]. rewrite app_nil_r.
  rewrite (LAW raw (firstn (length raw) (field1 raw)) (skipn (length raw) (field1 raw))); [reflexivity| |].
  - symmetry. apply firstn_skipn.
  - intros E. apply (f_equal (@length N)) in E. rewrite skipn_length in E. cbn [length] in E. lia.
Qed.

(** Data which unpacks to more than 32 MB, with a size which says so, is written past the buffer. *)
Theorem C55_big_refuted : forall parseHeader parseBlob parseBlock inflated isData header message data rawSize out t,
  saneFrame parseHeader isData header message -> parseBlob message = Some (BZlib data rawSize) -> inflated data = Some out ->
  32 * 1024 * 1024 < Z.of_nat (length out) <= rawSize -> rawSize < 2 ^ 31 ->
  parsePbf parseHeader parseBlob parseBlock inflated (frame header message ++ t) = Some UB.
Proof.
  intros parseHeader parseBlob parseBlock inflated isData header message data rawSize out t SF PB I B1 B2. unfold parsePbf.
  rewrite (frame_round _ _ _ _ _ isData header message t SF). destruct SF as (_ & LM & _).
  unfold readBlob, maxBlob. destruct (Z.ltb_spec (32 * 1024 * 1024) (Z.of_nat (length message))); [lia|].
  rewrite readBytes_app. cbn [bind]. rewrite PB. unfold unpackZlib. rewrite I, Z.mod_small by lia.
  destruct (Z.ltb_spec rawSize (Z.of_nat (length out))); [lia|]. unfold maxBlob.
  destruct (Z.ltb_spec (32 * 1024 * 1024) (Z.of_nat (length out))); [reflexivity|lia].
Qed.

(** A blob whose size is missing or too small fails the import. *)
Theorem C55_size : forall parseHeader parseBlob parseBlock inflated isData header message data rawSize out t,
  saneFrame parseHeader isData header message -> parseBlob message = Some (BZlib data rawSize) -> inflated data = Some out ->
  0 <= rawSize < Z.of_nat (length out) -> rawSize < 2 ^ 31 ->
  parsePbf parseHeader parseBlob parseBlock inflated (frame header message ++ t) = Some (Throw DomainError).
Proof.
  intros parseHeader parseBlob parseBlock inflated isData header message data rawSize out t SF PB I B1 B2. unfold parsePbf.
  rewrite (frame_round _ _ _ _ _ isData header message t SF). destruct SF as (_ & LM & _).
  unfold readBlob, maxBlob. destruct (Z.ltb_spec (32 * 1024 * 1024) (Z.of_nat (length message))); [lia|].
  rewrite readBytes_app. cbn [bind]. rewrite PB. unfold unpackZlib. rewrite I, Z.mod_small by lia.
  destruct (Z.ltb_spec rawSize (Z.of_nat (length out))); [reflexivity|lia].
Qed.

(** A file which is none at all, with a top bit at the start, asks for a negative number of bytes. *)
Theorem C55_negative_refuted : forall parseHeader parseBlob parseBlock inflated b0 b1 b2 b3 t,
  (128 <= b0 < 256)%N -> (b1 < 256)%N -> (b2 < 256)%N -> (b3 < 256)%N ->
  parsePbf parseHeader parseBlob parseBlock inflated (b0 :: b1 :: b2 :: b3 :: t) = Some UB.
Proof.
  intros parseHeader parseBlob parseBlock inflated b0 b1 b2 b3 t H0 H1 H2 H3. unfold parsePbf. cbn [length parseFrom].
  assert (S : headerSize b0 b1 b2 b3 < 0).
  { unfold headerSize. destruct (Z.ltb_spec (((Z.of_N b0 * 256 + Z.of_N b1) * 256 + Z.of_N b2) * 256 + Z.of_N b3) (2 ^ 31)); lia. }
  unfold maxHeader. destruct (Z.ltb_spec (64 * 1024) (headerSize b0 b1 b2 b3)); [lia|].
  unfold readBytes. destruct (Z.ltb_spec (headerSize b0 b1 b2 b3) 0); [reflexivity|lia].
Qed.

(** Instances: a block with a table of three strings and two nodes. *)
Definition exTable : list bytes := [[]; [97%N]; [98%N]].
Definition exNodes : list snode := [mkSNode 5 100 200 [([97%N], [98%N])]; mkSNode 3 110 190 []].
Definition exDense : dense := mkDense [5; -2] [100; 10] [200; -10] [1; 2; 0; 0].
Definition exBlock (off : Z) : pblock :=
  mkBlock exTable 100 off 0 [mkGroup [mkPNode 7 [1] [2] 50 60] (Some exDense) [mkPWay 9 [] [] [5; -2; 2]] [mkPRel 1 [2] [1] [0; 1] [9; -2] [MWay; MNode]]].

Lemma exDensely off : densely (exBlock off) exNodes exDense.
Proof.
  repeat split. left. change (dnKeysVals exDense) with ([1; 2] ++ 0 :: ([] ++ 0 :: [])).
  repeat constructor; cbn; try lia; try discriminate.
Qed.

Lemma exStorable off : - 1000000 < off < 1000000 ->
  Forall (storable (exBlock off) off) (dnLats exDense) /\ Forall (storable (exBlock off) 0) (dnLons exDense).
Proof. intros H. split; repeat constructor; unfold fits; cbn; lia. Qed.

Example C55_dense_case : exists es, visitDense (exBlock 0) exDense = Ok es /\ Forall2 (visitsRight (exBlock 0)) exNodes es.
Proof. apply C55_dense_partial; try reflexivity; [apply exDensely| |]; apply (exStorable 0); lia. Qed.

Example C55_dense_refuted_case : exists es e,
  visitDense (exBlock 1000) exDense = Ok es /\ nth_error es 1 = Some e /\ ~ visitsRight (exBlock 1000) (mkSNode 3 110 190 []) e.
Proof.
  refine (C55_dense_refuted (exBlock 1000) exNodes exDense 0 _ (exDensely _) _ _ eq_refl ltac:(discriminate)); apply (exStorable 1000); lia.
Qed.

Example C55_block_case : let b := exBlock 7 in exists es, visitBlock b = Ok es /\ length es = 5%nat /\
  nth_error es 3 = Some (EWay 9 [5; 3; 5] []) /\
  nth_error es 4 = Some (ERelation 1 [mkPMember 9 119%N []; mkPMember 7 110%N [97%N]] [([98%N], [97%N])]).
Proof. eexists. split; [vm_compute; reflexivity|]. repeat split. Qed.

Example C55_block_undefined : visitBlock (mkBlock exTable 100 0 0 [mkGroup [mkPNode 7 [1; 1] [2] 0 0] None [] []]) = UB.
Proof. reflexivity. Qed.

Definition exFile : bytes := frame [8%N] [3%N; 1%N].
Definition exHeader (s : bytes) : option (bool * Z) := match s with [8%N] => Some (true, 2) | _ => None end.
Definition exBlob (s : bytes) : option blob := match s with [a; _] => Some (BZlib [a] 5) | 10%N :: 2%N :: r => Some (BRaw (firstn 2 r)) | _ => None end.
Definition exParse (s : bytes) : option pblock := match s with 10%N :: 0%N :: _ => Some (exBlock 0) | _ => None end.
Definition exInflated (s : bytes) : option bytes := match s with [3%N] => Some [10%N; 0%N] | _ => None end.

Example C55_file_case : exists es, length es = 5%nat /\ fileOf exHeader exBlob exParse exInflated (exFile ++ []) (es ++ []) /\
  parsePbf exHeader exBlob exParse exInflated (exFile ++ firstn 3 exFile) = Some (Ok (es ++ [])) /\
  parsePbf exHeader exBlob exParse exInflated (exFile ++ firstn 4 exFile) = Some (Throw DomainError).
Proof.
  destruct (visitBlock (exBlock 0)) as [es| |] eqn:E; [|vm_compute in E; discriminate|vm_compute in E; discriminate].
  exists es. split; [vm_compute in E; injection E as <-; reflexivity|].
  assert (F : fileOf exHeader exBlob exParse exInflated (exFile ++ []) (es ++ [])).
  { constructor; [|constructor]. exists true, [3%N], 5, [10%N; 0%N]. unfold saneFrame. cbn. repeat split; try lia. exists (exBlock 0). split; [reflexivity|exact E]. }
  assert (SF : saneFrame exHeader true [8%N] [3%N; 1%N]) by (unfold saneFrame; cbn; repeat split; lia).
  split; [exact F|]. split.
  - change (exFile ++ firstn 3 exFile) with ((exFile ++ []) ++ firstn 3 exFile).
    now rewrite (C55_cut _ _ _ _ _ _ true [8%N] [3%N; 1%N] (firstn 3 exFile) (skipn 3 exFile) F SF eq_refl ltac:(discriminate)).
  - change (exFile ++ firstn 4 exFile) with ((exFile ++ []) ++ firstn 4 exFile).
    now rewrite (C55_cut _ _ _ _ _ _ true [8%N] [3%N; 1%N] (firstn 4 exFile) (skipn 4 exFile) F SF eq_refl ltac:(discriminate)).
Qed.

(** A block of two bytes, stored plainly. *)
Example C55_raw_case : let header s := match s with [8%N] => Some (true, 4) | _ => None end in
  exParse [10%N; 0%N] = Some (exBlock 0) /\
  parsePbf header exBlob exParse exInflated (frame [8%N] (field1 [10%N; 0%N] ++ []) ++ []) = Some (Throw DomainError).
Proof.
  split; [reflexivity|]. apply C55_raw_refuted; [unfold saneFrame; cbn; repeat split; lia|reflexivity|].
  intros payload p q E NE. unfold field1 in E. destruct p as [|c0 [|c1 p]]; try reflexivity.
  { clear. destruct c0 as [|c0]; [reflexivity|]. do 4 (try destruct c0 as [c0|c0|]; try reflexivity). }
  cbn [app] in E. injection E as <- E. cbn [exParse]. destruct c1 as [|c1]; [|reflexivity]. exfalso.
  unfold varint in E. cbn [varintFrom] in E. destruct (Z.ltb_spec (Z.of_nat (length payload)) 128) as [L|L].
  - cbn [app] in E. injection E as E1 E2. destruct payload as [|x payload]; [|cbn [length] in E1; lia].
    symmetry in E2. apply app_eq_nil in E2 as (_ & E2). contradiction.
  - cbn [app] in E. injection E as E1 _. pose proof (Z.mod_pos_bound (Z.of_nat (length payload)) 128). lia.
Qed.

Example C55_negative_case : parsePbf exHeader exBlob exParse exInflated [255%N; 216%N; 255%N; 224%N; 0%N] = Some UB.
Proof. apply C55_negative_refuted; reflexivity || (split; [discriminate|reflexivity]). Qed.

Print Assumptions C55_dense_exact.
Print Assumptions C55_dense_partial.
Print Assumptions C55_dense_refuted.
Print Assumptions C55_node.
Print Assumptions C55_way.
Print Assumptions C55_relation.
Print Assumptions C55_block.
Print Assumptions C55_file.
Print Assumptions C55_cut.
Print Assumptions C55_ends.
Print Assumptions C55_raw_refuted.
Print Assumptions C55_big_refuted.
Print Assumptions C55_size.
Print Assumptions C55_negative_refuted.
