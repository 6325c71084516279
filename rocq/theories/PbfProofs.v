(** Proofs about the PBF parser. *)
From Coq Require Import QArith.
From Verif Require Import Base Bytes ElevModel ElevProofs PbfModel PbfSpec.
Local Open Scope Z_scope.

Lemma check64_ok z : fits z -> check64 z = Ok z.
Proof. unfold fits, check64. intros H. destruct ((- 2 ^ 63 <=? z) && (z <? 2 ^ 63)) eqn:E; [reflexivity|lia]. Qed.

Lemma check64_inv z w : check64 z = Ok w -> fits z /\ w = z.
Proof. unfold fits, check64. destruct ((- 2 ^ 63 <=? z) && (z <? 2 ^ 63)) eqn:E; [|discriminate]. intros [= <-]. split; [lia|reflexivity]. Qed.

Lemma degrees_ok b off v : storable b off v -> degrees b off v = Ok (nano (off + bGranularity b * v)).
Proof. intros (A & B). unfold degrees. rewrite (check64_ok _ A). cbn [bind]. rewrite (check64_ok _ B). reflexivity. Qed.

Lemma degrees_inv b off v q : degrees b off v = Ok q -> storable b off v.
Proof.
  unfold degrees. destruct (check64 (bGranularity b * v)) as [p| |] eqn:E; cbn; try discriminate.
  apply check64_inv in E as (F & ->). destruct (check64 (off + bGranularity b * v)) as [p| |] eqn:E; cbn; try discriminate.
  apply check64_inv in E as (G & ->). intros _. split; assumption.
Qed.

Lemma nano_plus x y : (nano x + nano y == nano (x + y))%Q.
Proof. unfold nano. rewrite inject_Z_plus. ring. Qed.

Lemma nano_div x : (nano x == inject_Z x / inject_Z 1000000000)%Q.
Proof. unfold nano, Qdiv. apply Qmult_comp; reflexivity. Qed.

Lemma u64_plus x d : u64 (u64 x + d) = u64 (x + d).
Proof. unfold u64. apply Zplus_mod_idemp_l. Qed.

Lemma names_read {t i s} : names t i s -> readAt t i = Ok s.
Proof. intros (A & B). unfold readAt. destruct (Z.ltb_spec i 0); [lia|]. now rewrite B. Qed.

Lemma names_in {b i s} : names (bStrings b) i s -> inTable b i.
Proof. intros (A & B). split; [exact A|]. assert (Z.to_nat i < length (bStrings b))%nat by (apply nth_error_Some; congruence). lia. Qed.

Lemma read_skip {A} (l : list A) i x r : 0 <= i -> skipn (Z.to_nat i) l = x :: r ->
  readAt l i = Ok x /\ skipn (Z.to_nat (i + 1)) l = r.
Proof.
  intros P H. unfold readAt. destruct (Z.ltb_spec i 0); [lia|].
  assert (G : forall n (m : list A), skipn n m = x :: r -> nth_error m n = Some x /\ skipn (S n) m = r).
  { clear. induction n as [|n IH]; intros [|y m]; cbn; try discriminate.
    - intros [= -> ->]. split; reflexivity.
    - intros H. apply IH in H as (A1 & A2). split; [exact A1|]. exact A2. }
  destruct (G _ _ H) as (A1 & A2). rewrite A1. split; [reflexivity|].
  replace (Z.to_nat (i + 1)) with (S (Z.to_nat i)) by lia. exact A2.
Qed.

Lemma setTags_ok b : forall tags keys vals i all, tagged (bStrings b) keys vals tags -> 0 <= i ->
  skipn (Z.to_nat i) all = vals -> setTagsFrom b i keys all = Ok tags.
Proof.
  induction tags as [|[k v] tags IH]; intros keys vals i all (A & B) P E.
  - inversion A; subst. reflexivity.
  - inversion A as [|ki ? keys' ? K KS]; subst. inversion B as [|vi ? vals' ? V VS]; subst.
    rename H into E. symmetry in E. destruct (read_skip _ _ _ _ P E) as (R1 & R2).
    cbn [setTagsFrom]. rewrite R1. cbn [bind]. rewrite (names_read K), (names_read V). cbn [bind fst snd].
    erewrite IH; [reflexivity|split; eassumption|lia|assumption].
Qed.

Lemma pairs_read b tags ps : pairsOf (bStrings b) tags ps -> forall kv,
  denseTags b (ps ++ 0 :: kv) = Ok (tags, 0 :: kv).
Proof.
  induction 1 as [|k v tags ki vi ps N K V _ IH]; intros kv; cbn [app denseTags].
  - reflexivity.
  - destruct (Z.eqb_spec ki 0); [contradiction|]. rewrite (names_read K), (names_read V). cbn [bind]. rewrite IH. reflexivity.
Qed.

Definition kvFine (b : pblock) (ns : list snode) (kv : list Z) : Prop :=
  kvOf (bStrings b) ns kv \/ (Forall (fun n => sTags n = []) ns /\ kv = []).

Lemma kv_step b n ns kv : kvFine b (n :: ns) kv ->
  exists r, denseTags b kv = Ok (sTags n, r) /\ kvFine b ns (tl r).
Proof.
  intros [K|(F & ->)].
  - inversion K as [|? ? ps kv' P K']; subst. exists (0 :: kv'). split; [now apply pairs_read|]. left. exact K'.
  - inversion F as [|? ? T F']; subst. exists []. split; [cbn; now rewrite T|]. right. split; [exact F'|reflexivity].
Qed.

Definition drift (b : pblock) (k off v : Z) : Q := nano (k * off + bGranularity b * v).

Lemma dense_run b d : forall ns i idl latl lonl lat lon kv,
  0 <= i ->
  skipn (Z.to_nat i) (dnLats d) = deltas latl (map sLat ns) ->
  skipn (Z.to_nat i) (dnLons d) = deltas lonl (map sLon ns) ->
  Forall (storable b (bLatOffset b)) (deltas latl (map sLat ns)) ->
  Forall (storable b (bLonOffset b)) (deltas lonl (map sLon ns)) ->
  (lat == drift b i (bLatOffset b) latl)%Q -> (lon == drift b i (bLonOffset b) lonl)%Q -> kvFine b ns kv ->
  exists es, denseFrom b d i (deltas idl (map sId ns)) (u64 idl) lat lon kv = Ok es /\ length es = length ns /\
    forall k n e, nth_error ns k = Some n -> nth_error es k = Some e ->
      visits n (drift b (i + Z.of_nat k + 1) (bLatOffset b) (sLat n))
               (drift b (i + Z.of_nat k + 1) (bLonOffset b) (sLon n)) e.
Proof.
  induction ns as [|n ns IH]; intros i idl latl lonl lat lon kv P ELat ELon SLat SLon QLat QLon K.
  - exists []. cbn. repeat split. intros [|k]; discriminate.
  - cbn [map deltas] in *. inversion SLat as [|? ? S1 S1']; subst. inversion SLon as [|? ? S2 S2']; subst.
    destruct (read_skip _ _ _ _ P ELat) as (R1 & R1'). destruct (read_skip _ _ _ _ P ELon) as (R2 & R2').
    destruct (kv_step _ _ _ _ K) as (r & T & K').
    assert (Q1 : (lat + nano (bLatOffset b + bGranularity b * (sLat n - latl)) == drift b (i + 1) (bLatOffset b) (sLat n))%Q).
    { rewrite QLat. unfold drift. rewrite nano_plus. replace (_ + _ + _) with ((i + 1) * bLatOffset b + bGranularity b * sLat n) by ring. reflexivity. }
    assert (Q2 : (lon + nano (bLonOffset b + bGranularity b * (sLon n - lonl)) == drift b (i + 1) (bLonOffset b) (sLon n))%Q).
    { rewrite QLon. unfold drift. rewrite nano_plus. replace (_ + _ + _) with ((i + 1) * bLonOffset b + bGranularity b * sLon n) by ring. reflexivity. }
    destruct (IH (i + 1) (sId n) (sLat n) (sLon n) _ _ (tl r) ltac:(lia) R1' R2' S1' S2' Q1 Q2 K') as (es & E & L & G).
    eexists. split; [|split].
    + cbn [denseFrom]. rewrite R1, R2. cbn [bind]. rewrite (degrees_ok _ _ _ S1), (degrees_ok _ _ _ S2). cbn [bind].
      rewrite T. cbn [bind]. rewrite u64_plus. replace (idl + (sId n - idl)) with (sId n) by ring. rewrite E. cbn [omap bind]. reflexivity.
    + cbn [length]. now rewrite L.
    + intros [|k] m e Hm He; cbn [nth_error] in Hm, He.
      * injection Hm as ->. injection He as <-. cbn [visits]. replace (i + Z.of_nat 0 + 1) with (i + 1) by lia.
        split; [reflexivity|]. split; [exact Q1|]. split; [exact Q2|reflexivity].
      * replace (i + Z.of_nat (S k) + 1) with (i + 1 + Z.of_nat k + 1) by lia. eapply G; eassumption.
Qed.

Lemma dense_all b ns d : densely b ns d ->
  Forall (storable b (bLatOffset b)) (dnLats d) -> Forall (storable b (bLonOffset b)) (dnLons d) ->
  exists es, visitDense b d = Ok es /\ length es = length ns /\
    forall k n e, nth_error ns k = Some n -> nth_error es k = Some e ->
      visits n (drift b (Z.of_nat k + 1) (bLatOffset b) (sLat n)) (drift b (Z.of_nat k + 1) (bLonOffset b) (sLon n)) e.
Proof.
  intros (A & B & C & K) S1 S2. unfold visitDense. rewrite A.
  change 0 with (u64 0) at 3. rewrite B in S1. rewrite C in S2.
  apply (dense_run b d ns 0 0 0 0); try assumption; try lia; unfold drift, nano; rewrite Z.mul_0_l, Z.mul_0_r; reflexivity.
Qed.

Lemma sums_deltas : forall l last, sumsFrom (u64 last) (deltas last l) = map ident l.
Proof.
  induction l as [|x l IH]; intros last; cbn [deltas sumsFrom map]; [reflexivity|].
  rewrite u64_plus. replace (last + (x - last)) with x by ring. f_equal. apply IH.
Qed.

Lemma members_ok b r : forall refs types roles sids i, 0 <= i ->
  skipn (Z.to_nat i) (prTypes r) = types -> skipn (Z.to_nat i) (prRoles r) = sids ->
  length types = length refs -> Forall2 (names (bStrings b)) sids roles -> length roles = length refs ->
  membersFrom b r i refs = Ok (map (fun '(ref, (t, role)) => mkPMember ref (parseType t) role) (combine refs (combine types roles))).
Proof.
  induction refs as [|ref refs IH]; intros types roles sids i P T R LT F LR.
  - reflexivity.
  - destruct types as [|t types]; [discriminate|]. destruct roles as [|role roles]; [discriminate|].
    inversion F as [|sid ? sids' ? N F']; subst. symmetry in H.
    destruct (read_skip _ _ _ _ P T) as (A1 & A2). destruct (read_skip _ _ _ _ P H) as (B1 & B2).
    cbn [membersFrom combine map]. rewrite A1, B1. cbn [bind]. rewrite (names_read N). cbn [bind].
    rewrite (IH types roles sids' (i + 1)); cbn in *; auto; lia.
Qed.

(** Blocks which read only what exists. *)
Lemma read_total {A} (l : list A) i : 0 <= i < Z.of_nat (length l) <-> exists a, readAt l i = Ok a.
Proof.
  split; [intros H; destruct (readAt_ok l i H) as (a & E & _); eauto|].
  intros (a & E). destruct (Z.lt_ge_cases i 0); [rewrite readAt_out in E by lia; discriminate|].
  destruct (Z.lt_ge_cases i (Z.of_nat (length l))); [lia|]. rewrite readAt_out in E by lia. discriminate.
Qed.

Lemma read_UB {A} (l : list A) i : (exists a, readAt l i = Ok a) \/ readAt l i = UB.
Proof. unfold readAt. destruct (i <? 0); [now right|]. destruct (nth_error l (Z.to_nat i)) as [a|]; [left|right]; eauto. Qed.

Lemma tags_total b all : forall keys vals i, 0 <= i -> skipn (Z.to_nat i) all = vals ->
  (exists tags, setTagsFrom b i keys all = Ok tags) <-> goodTags b keys vals.
Proof.
  unfold goodTags. induction keys as [|key keys IH]; intros vals i P E.
  - cbn. split; [intros _; repeat split; auto; lia|intros _; eauto].
  - destruct vals as [|v vals].
    + split; [|cbn; lia]. intros (tags & H). cbn [setTagsFrom] in H.
      rewrite readAt_out in H; [discriminate|]. right.
      assert (length (skipn (Z.to_nat i) all) = 0)%nat as L by now rewrite E. rewrite skipn_length in L. lia.
    + destruct (read_skip _ _ _ _ P E) as (R1 & R2). cbn [setTagsFrom]. rewrite R1. cbn [bind].
      specialize (IH vals (i + 1) ltac:(lia) R2). unfold inTable in *. split.
      * intros (tags & H). destruct (read_UB (bStrings b) key) as [(a & RA)|RA]; rewrite RA in H; [|discriminate].
        cbn [bind] in H. destruct (read_UB (bStrings b) v) as [(c & RC)|RC]; rewrite RC in H; [|discriminate]. cbn [bind] in H.
        destruct (setTagsFrom b (i + 1) keys all) as [ts| |] eqn:ES; try discriminate.
        destruct (proj1 IH (ex_intro _ _ eq_refl)) as (I1 & I2 & I3). cbn [length firstn].
        split; [lia|]. split; constructor; try assumption; apply read_total; eauto.
      * intros (L & F1 & F2). cbn [length firstn] in *. inversion F1; inversion F2; subst.
        destruct (proj2 IH) as (ts & ES); [repeat split; try assumption; lia|].
        destruct (proj1 (read_total _ _) H1) as (a & ->). destruct (proj1 (read_total _ _) H5) as (c & ->).
        cbn [bind]. rewrite ES. cbn. eauto.
Qed.

Lemma setTags_total b keys vals : (exists tags, setTags b keys vals = Ok tags) <-> goodTags b keys vals.
Proof. apply tags_total; [lia|reflexivity]. Qed.

Lemma each_total {A B} (f : A -> outcome B) l : (exists bs, each f l = Ok bs) <-> Forall (fun a => exists b, f a = Ok b) l.
Proof.
  induction l as [|a l IH]; cbn [each].
  - split; eauto.
  - split.
    + intros (bs & H). destruct (f a) as [b| |] eqn:E; try discriminate. cbn [bind] in H.
      destruct (each f l) as [bs'| |] eqn:E'; try discriminate. constructor; [eauto|]. apply IH. eauto.
    + intros F. inversion F as [|? ? (b & E) F']; subst. apply IH in F' as (bs & E'). rewrite E. cbn [bind]. rewrite E'. cbn. eauto.
Qed.

Lemma each_UB {A B} (f : A -> outcome B) l : (forall a, (exists b, f a = Ok b) \/ f a = UB) ->
  (exists bs, each f l = Ok bs) \/ each f l = UB.
Proof.
  intros F. induction l as [|a l IH]; cbn [each]; [left; eauto|].
  destruct (F a) as [(b & ->)| ->]; [cbn [bind]|now right].
  destruct IH as [(bs & ->)| ->]; [left; cbn; eauto|now right].
Qed.

Lemma check64_UB z : (exists w, check64 z = Ok w) \/ check64 z = UB.
Proof. unfold check64. destruct (_ && _); [left; eauto|now right]. Qed.

Lemma degrees_UB b off v : (exists q, degrees b off v = Ok q) \/ degrees b off v = UB.
Proof.
  unfold degrees. destruct (check64_UB (bGranularity b * v)) as [(p & ->)| ->]; [cbn [bind]|now right].
  destruct (check64_UB (off + p)) as [(q & ->)| ->]; [left; cbn; eauto|now right].
Qed.

Lemma setTags_UB b : forall keys i all, (exists t, setTagsFrom b i keys all = Ok t) \/ setTagsFrom b i keys all = UB.
Proof.
  induction keys as [|k keys IH]; intros i all; cbn [setTagsFrom]; [left; eauto|].
  destruct (read_UB all i) as [(v & ->)| ->]; [cbn [bind]|now right].
  destruct (read_UB (bStrings b) k) as [(? & ->)| ->]; [cbn [bind]|now right].
  destruct (read_UB (bStrings b) v) as [(? & ->)| ->]; [cbn [bind]|now right].
  destruct (IH (i + 1) all) as [(? & ->)| ->]; [left; cbn; eauto|now right].
Qed.

Lemma node_UB b n : (exists e, visitPNode b n = Ok e) \/ visitPNode b n = UB.
Proof.
  unfold visitPNode. destruct (degrees_UB b (bLatOffset b) (pnLat n)) as [(? & ->)| ->]; [cbn [bind]|now right].
  destruct (degrees_UB b (bLonOffset b) (pnLon n)) as [(? & ->)| ->]; [cbn [bind]|now right].
  unfold setTags. destruct (setTags_UB b (pnKeys n) 0 (pnVals n)) as [(? & ->)| ->]; [left; cbn; eauto|now right].
Qed.

Lemma node_total b n : (exists e, visitPNode b n = Ok e) <-> goodNode b n.
Proof.
  unfold visitPNode, goodNode. split.
  - intros (e & H). destruct (degrees b (bLatOffset b) (pnLat n)) as [q1| |] eqn:E1; try discriminate.
    cbn [bind] in H. destruct (degrees b (bLonOffset b) (pnLon n)) as [q2| |] eqn:E2; try discriminate.
    cbn [bind] in H. destruct (setTags b (pnKeys n) (pnVals n)) as [t| |] eqn:E3; try discriminate.
    split; [eapply degrees_inv; eassumption|]. split; [eapply degrees_inv; eassumption|]. apply setTags_total. eauto.
  - intros (A & B & C). rewrite (degrees_ok _ _ _ A), (degrees_ok _ _ _ B). apply setTags_total in C as (t & C).
    cbn [bind]. rewrite C. cbn. eauto.
Qed.

Lemma way_UB b w : (exists e, visitPWay b w = Ok e) \/ visitPWay b w = UB.
Proof. unfold visitPWay, setTags. destruct (setTags_UB b (pwKeys w) 0 (pwVals w)) as [(? & ->)| ->]; [left; cbn; eauto|now right]. Qed.

Lemma way_total b w : (exists e, visitPWay b w = Ok e) <-> goodWay b w.
Proof.
  unfold goodWay. rewrite <- setTags_total. unfold visitPWay. split.
  - intros (e & H). destruct (setTags b (pwKeys w) (pwVals w)); try discriminate. eauto.
  - intros (t & ->). cbn. eauto.
Qed.

Lemma members_UB b r : forall refs i, (exists ms, membersFrom b r i refs = Ok ms) \/ membersFrom b r i refs = UB.
Proof.
  induction refs as [|ref refs IH]; intros i; cbn [membersFrom]; [left; eauto|].
  destruct (read_UB (prTypes r) i) as [(? & ->)| ->]; [cbn [bind]|now right].
  destruct (read_UB (prRoles r) i) as [(sid & ->)| ->]; [cbn [bind]|now right].
  destruct (read_UB (bStrings b) sid) as [(? & ->)| ->]; [cbn [bind]|now right].
  destruct (IH (i + 1)) as [(? & ->)| ->]; [left; cbn; eauto|now right].
Qed.

Lemma skipn_empty {A} (l : list A) i : 0 <= i -> skipn (Z.to_nat i) l = [] -> readAt l i = UB.
Proof. intros P E. apply readAt_out. right. apply (f_equal (@length A)) in E. rewrite skipn_length in E. cbn in E. lia. Qed.

Lemma members_total b r : forall refs i types roles, 0 <= i ->
  skipn (Z.to_nat i) (prTypes r) = types -> skipn (Z.to_nat i) (prRoles r) = roles ->
  (exists ms, membersFrom b r i refs = Ok ms) <->
  ((length refs <= length types)%nat /\ (length refs <= length roles)%nat /\ Forall (inTable b) (firstn (length refs) roles)).
Proof.
  induction refs as [|ref refs IH]; intros i types roles P ET ER; cbn [membersFrom].
  - cbn. split; [intros _; repeat split; auto; lia|eauto].
  - destruct types as [|t types].
    { rewrite (skipn_empty _ _ P ET). cbn. split; [intros (? & [=])|lia]. }
    destruct (read_skip _ _ _ _ P ET) as (T1 & T2). rewrite T1. cbn [bind].
    destruct roles as [|sid roles].
    { rewrite (skipn_empty _ _ P ER). cbn. split; [intros (? & [=])|lia]. }
    destruct (read_skip _ _ _ _ P ER) as (R1 & R2). rewrite R1. cbn [bind].
    specialize (IH (i + 1) types roles ltac:(lia) T2 R2). unfold inTable in *. cbn [length firstn]. split.
    + intros (ms & H). destruct (read_UB (bStrings b) sid) as [(a & RA)|RA]; rewrite RA in H; [|discriminate]. cbn [bind] in H.
      destruct (membersFrom b r (i + 1) refs) as [ms'| |] eqn:EM; try discriminate.
      destruct (proj1 IH (ex_intro _ _ eq_refl)) as (I1 & I2 & I3). split; [lia|]. split; [lia|].
      constructor; [apply read_total; eauto|assumption].
    + intros (L1 & L2 & F). inversion F; subst. destruct (proj2 IH) as (ms & EM); [repeat split; try assumption; lia|].
      destruct (proj1 (read_total _ _) H1) as (a & ->). cbn [bind]. rewrite EM. cbn. eauto.
Qed.

Lemma sums_length : forall l acc, length (sumsFrom acc l) = length l.
Proof. induction l as [|d l IH]; intros acc; cbn; [reflexivity|]. now rewrite IH. Qed.

Lemma rel_UB b r : (exists e, visitPRel b r = Ok e) \/ visitPRel b r = UB.
Proof.
  unfold visitPRel, setTags. destruct (members_UB b r (sumsFrom 0 (prIds r)) 0) as [(? & ->)| ->]; [cbn [bind]|now right].
  destruct (setTags_UB b (prKeys r) 0 (prVals r)) as [(? & ->)| ->]; [left; cbn; eauto|now right].
Qed.

Lemma rel_total b r : (exists e, visitPRel b r = Ok e) <-> goodRel b r.
Proof.
  unfold goodRel. pose proof (members_total b r (sumsFrom 0 (prIds r)) 0 _ _ ltac:(lia) eq_refl eq_refl) as M.
  rewrite sums_length in M. cbn [Z.to_nat skipn] in M. rewrite <- setTags_total. unfold visitPRel. split.
  - intros (e & H). destruct (membersFrom b r 0 (sumsFrom 0 (prIds r))) as [ms| |]; try discriminate. cbn [bind] in H.
    destruct (proj1 M (ex_intro _ _ eq_refl)) as (A & B & C). repeat (split; [assumption|]).
    destruct (setTags b (prKeys r) (prVals r)); try discriminate. eauto.
  - intros (A & B & C & t & T). destruct (proj2 M) as (ms & ->); [auto|]. cbn [bind]. rewrite T. cbn. eauto.
Qed.

Lemma group_total b g : gDense g = None -> (exists es, visitGroup b g = Ok es) <-> goodGroup b g.
Proof.
  intros D. unfold goodGroup, visitGroup. rewrite D. 
  assert (A1 : forall l, Forall (goodNode b) l <-> exists es, each (visitPNode b) l = Ok es).
  { intros l. rewrite each_total. split; apply Forall_impl; intros a; apply node_total. }
  assert (A2 : forall l, Forall (goodWay b) l <-> exists es, each (visitPWay b) l = Ok es).
  { intros l. rewrite each_total. split; apply Forall_impl; intros a; apply way_total. }
  assert (A3 : forall l, Forall (goodRel b) l <-> exists es, each (visitPRel b) l = Ok es).
  { intros l. rewrite each_total. split; apply Forall_impl; intros a; apply rel_total. }
  rewrite A1, A2, A3. split.
  - intros (es & H). destruct (each (visitPNode b) (gNodes g)) as [x| |]; try discriminate. cbn [bind] in H.
    destruct (each (visitPWay b) (gWays g)) as [y| |]; try discriminate. cbn [bind] in H.
    destruct (each (visitPRel b) (gRels g)) as [z| |]; try discriminate. split; [eauto|]. split; eauto.
  - intros ((x & ->) & (y & ->) & (z & ->)). cbn. eauto.
Qed.

Lemma group_UB b g : gDense g = None -> (exists es, visitGroup b g = Ok es) \/ visitGroup b g = UB.
Proof.
  intros D. unfold visitGroup. rewrite D.
  destruct (each_UB (visitPNode b) (gNodes g) (node_UB b)) as [(? & ->)| ->]; [cbn [bind]|now right].
  destruct (each_UB (visitPWay b) (gWays g) (way_UB b)) as [(? & ->)| ->]; [cbn [bind]|now right].
  destruct (each_UB (visitPRel b) (gRels g) (rel_UB b)) as [(? & ->)| ->]; [left; cbn; eauto|now right].
Qed.

Lemma each_UB_on {A B} (f : A -> outcome B) l : Forall (fun a => (exists b, f a = Ok b) \/ f a = UB) l ->
  (exists bs, each f l = Ok bs) \/ each f l = UB.
Proof.
  induction 1 as [|a l H _ IH]; cbn [each]; [left; eauto|].
  destruct H as [(b & ->)| ->]; [cbn [bind]|now right].
  destruct IH as [(bs & ->)| ->]; [left; cbn; eauto|now right].
Qed.

(** Files. *)
Lemma headerSize_be32 z s : 0 <= z < 2 ^ 31 -> exists b0 b1 b2 b3, be32 z ++ s = b0 :: b1 :: b2 :: b3 :: s /\ headerSize b0 b1 b2 b3 = z.
Proof.
  intros R. unfold be32. cbn [map app]. do 4 eexists. split; [reflexivity|]. unfold headerSize. rewrite !Z2N.id by (apply Z.mod_pos_bound; lia).
  assert (E : ((z / 2 ^ 24 mod 256 * 256 + z / 2 ^ 16 mod 256) * 256 + z / 2 ^ 8 mod 256) * 256 + z mod 256 = z).
  { change (2 ^ 24) with (2 ^ 16 * 256). change (2 ^ 16) with (2 ^ 8 * 256). change (2 ^ 8) with 256.
    rewrite <- !Z.div_div by lia. pose proof (Z.div_mod z 256). pose proof (Z.div_mod (z / 256) 256). pose proof (Z.div_mod (z / 256 / 256) 256).
    rewrite (Z.mod_small (z / 256 / 256 / 256)); [lia|].
    split; [repeat apply Z.div_pos; lia|]. rewrite !Z.div_div by lia. apply Z.div_lt_upper_bound; lia. }
  rewrite E. destruct (Z.ltb_spec z (2 ^ 31)); [reflexivity|lia].
Qed.

Lemma readBytes_app l s : readBytes (Z.of_nat (length l)) (l ++ s) = Ok (l, s).
Proof.
  unfold readBytes. destruct (Z.ltb_spec (Z.of_nat (length l)) 0); [lia|].
  destruct (Z.ltb_spec (Z.of_nat (length (l ++ s))) (Z.of_nat (length l))); [rewrite app_length in *; lia|].
  rewrite Nat2Z.id, firstn_app, firstn_all, Nat.sub_diag, skipn_app, skipn_all, Nat.sub_diag. cbn. now rewrite app_nil_r.
Qed.

Lemma readBytes_short z s : Z.of_nat (length s) < z -> readBytes z s = Throw DomainError.
Proof. intros H. unfold readBytes. destruct (Z.ltb_spec z 0); [lia|]. destruct (Z.ltb_spec (Z.of_nat (length s)) z); [reflexivity|lia]. Qed.

Section FileProofs.
  Variable parseHeader : bytes -> option (bool * Z).
  Variable parseBlob : bytes -> option blob.
  Variable parseBlock : bytes -> option pblock.
  Variable inflated : bytes -> option bytes.
  Notation parseFrom := (parseFrom parseHeader parseBlob parseBlock inflated).
  Notation zlibFrame := (zlibFrame parseHeader parseBlob parseBlock inflated).
  Notation fileOf := (fileOf parseHeader parseBlob parseBlock inflated).

  Lemma frame_round fuel isData header message s : saneFrame parseHeader isData header message ->
    parseFrom (S fuel) (frame header message ++ s) =
    match readBlob parseBlob inflated (Z.of_nat (length message)) (message ++ s) with
    | Throw e => Some (Throw e)
    | UB => Some UB
    | Ok (data, s3) =>
        match (if isData then match parseBlock data with None => Throw DomainError | Some b => visitBlock b end else Ok []) with
        | Throw e => Some (Throw e)
        | UB => Some UB
        | Ok es => option_map (omap (app es)) (parseFrom fuel s3)
        end
    end.
  Proof.
    intros (A & B & C). unfold frame. rewrite <- !app_assoc.
    destruct (headerSize_be32 (Z.of_nat (length header)) (header ++ message ++ s)) as (b0 & b1 & b2 & b3 & E & H); [lia|].
    rewrite E. cbn [PbfModel.parseFrom]. rewrite H. unfold maxHeader. destruct (Z.ltb_spec (64 * 1024) (Z.of_nat (length header))); [lia|].
    rewrite readBytes_app, C. reflexivity.
  Qed.

  Lemma zlib_round fuel header message es s : zlibFrame header message es ->
    parseFrom (S fuel) (frame header message ++ s) = option_map (omap (app es)) (parseFrom fuel s).
  Proof.
    intros (isData & data & rs & out & F & PB & I & RS & LO & T). rewrite (frame_round _ _ _ _ _ F).
    destruct F as (_ & LM & _). unfold readBlob, maxBlob. destruct (Z.ltb_spec (32 * 1024 * 1024) (Z.of_nat (length message))); [lia|].
    rewrite readBytes_app. cbn [bind]. rewrite PB. unfold unpackZlib. rewrite I, Z.mod_small by lia.
    destruct (Z.ltb_spec rs (Z.of_nat (length out))); [lia|]. unfold maxBlob. destruct (Z.ltb_spec (32 * 1024 * 1024) (Z.of_nat (length out))); [lia|].
    cbn [omap bind]. destruct isData; [destruct T as (b & -> & ->)|subst es]; reflexivity.
  Qed.

  Lemma frame_length header message : length (frame header message) = (4 + length header + length message)%nat.
  Proof. unfold frame, be32. rewrite !app_length. cbn. lia. Qed.

  Lemma file_run s es : fileOf s es -> forall t fuel, (length s + 1 <= fuel)%nat ->
    exists fuel', (fuel - length s <= fuel')%nat /\
      parseFrom fuel (s ++ t) = option_map (omap (app es)) (parseFrom fuel' t).
  Proof.
    induction 1 as [|header message es s rest Z _ IH]; intros t fuel F.
    - exists fuel. split; [cbn; lia|]. cbn [app]. destruct (parseFrom fuel t) as [[| |]|]; reflexivity.
    - rewrite app_length, frame_length in F. destruct fuel as [|fuel]; [lia|].
      destruct (IH t fuel ltac:(lia)) as (f' & L & E). exists f'. split; [rewrite app_length, frame_length; lia|].
      rewrite <- app_assoc, (zlib_round _ _ _ _ _ Z), E.
      destruct (parseFrom f' t) as [[| |]|]; cbn; try reflexivity. now rewrite app_assoc.
  Qed.

  (** A frame cut somewhere. *)
  Lemma frame_cut fuel isData header message pre suf : saneFrame parseHeader isData header message ->
    frame header message = pre ++ suf -> suf <> [] ->
    parseFrom (S fuel) pre = if (length pre <? 4)%nat then Some (Ok []) else Some (Throw DomainError).
  Proof.
    intros (A & B & C) E NE. unfold frame in E.
    destruct (headerSize_be32 (Z.of_nat (length header)) (header ++ message)) as (b0 & b1 & b2 & b3 & E' & H); [lia|].
    rewrite E' in E. assert (LS : (0 < length suf)%nat) by (destruct suf; [contradiction|cbn; lia]).
    destruct pre as [|c0 [|c1 [|c2 [|c3 pre]]]]; try reflexivity. cbn [app] in E. injection E as <- <- <- <- E.
    cbn [length Nat.ltb Nat.leb]. cbn [PbfModel.parseFrom]. rewrite H. unfold maxHeader.
    destruct (Z.ltb_spec (64 * 1024) (Z.of_nat (length header))); [lia|].
    assert (LEN : (length header + length message = length pre + length suf)%nat) by (rewrite <- !app_length; now rewrite E).
    destruct (Nat.lt_ge_cases (length pre) (length header)) as [G|G].
    - rewrite readBytes_short by lia. reflexivity.
    - assert (exists p2, pre = header ++ p2 /\ message = p2 ++ suf) as (p2 & -> & M).
      { exists (skipn (length header) pre). assert (F : firstn (length header) pre = header).
        { apply (f_equal (firstn (length header))) in E. rewrite !firstn_app in E. rewrite firstn_all, Nat.sub_diag in E.
          replace (length header - length pre)%nat with O in E by lia. cbn in E. rewrite !app_nil_r in E. congruence. }
        assert (PP : pre = header ++ skipn (length header) pre) by (rewrite <- F at 1; symmetry; apply firstn_skipn).
        split; [exact PP|]. rewrite PP, <- app_assoc in E. now apply app_inv_head in E. }
      rewrite readBytes_app, C. unfold readBlob, maxBlob. destruct (Z.ltb_spec (32 * 1024 * 1024) (Z.of_nat (length message))); [lia|].
      rewrite readBytes_short; [reflexivity|]. rewrite M, app_length. lia.
  Qed.

  (** Fuel is never short. *)
  Lemma parse_total : forall fuel s, (length s < fuel)%nat -> parseFrom fuel s <> None.
  Proof.
    induction fuel as [|fuel IH]; intros s L; [lia|].
    cbn [PbfModel.parseFrom]. destruct s as [|b0 [|b1 [|b2 [|b3 s]]]]; try discriminate.
    destruct (maxHeader <? _); [discriminate|].
    assert (RB : forall z x p q, readBytes z x = Ok (p, q) -> (length q <= length x)%nat).
    { unfold readBytes. intros z x p q. destruct (z <? 0); [discriminate|]. destruct (_ <? _); [discriminate|]. intros [= <- <-]. rewrite skipn_length. lia. }
    destruct (readBytes _ s) as [[h s2]| |] eqn:E; try discriminate. apply RB in E.
    destruct (parseHeader h) as [[isData size]|]; [|discriminate].
    destruct (readBlob parseBlob inflated size s2) as [[data s3]| |] eqn:E2; try discriminate.
    assert (L3 : (length s3 <= length s2)%nat).
    { unfold readBlob in E2. destruct (maxBlob <? size); [discriminate|]. destruct (readBytes size s2) as [[m r]| |] eqn:E3; try discriminate.
      apply RB in E3. cbn [bind] in E2. destruct (parseBlob m) as [[| | |]|]; try discriminate.
      - injection E2 as <- <-. exact E3.
      - destruct (unpackZlib inflated data0 rawSize); try discriminate. injection E2 as <- <-. exact E3.
      - injection E2 as <- <-. exact E3. }
    destruct (if isData then _ else _) as [es| |]; try discriminate. cbn [length] in L.
    specialize (IH s3 ltac:(lia)). destruct (parseFrom fuel s3); [discriminate|contradiction].
  Qed.
End FileProofs.

Lemma varint_nonempty z : varint z <> [].
Proof. unfold varint. cbn [varintFrom]. destruct (z <? 128); discriminate. Qed.
