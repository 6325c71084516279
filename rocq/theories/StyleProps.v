(** Properties C24, C25, C26, C46 and C47: stylesheets. *)
From Verif Require Import Base Bytes BytesProofs ElementModel GeoModel TagModel TagSpec TagProofs
  LruProofs StyleModel StyleSpec StyleProofs StyleTag.
From Coq Require Import Permutation Sorted.
Local Open Scope nat_scope.

(** C24: the style of an element at a level holds, for every key, exactly the last value among
    the declarations in force: those of the first identifier rule for the element, or, without
    such a rule, those of all rules with a selector that covers kind, level and tags. *)
Theorem C24_cascade :
  forall intern text num gradient sortConds, (forall c, Permutation (sortConds c) c) ->
  forall sh f, compile intern gradient sortConds sh = Ok f ->
  forall e kvs, tagged intern e kvs ->
  forall l k, tableOk intern text (k :: sheetStrings sh ++ stringsOf kvs) ->
    let ds := inForce num sh (kindName e) l (eid e) kvs in
    (forall v, getDecl (intern k) (forElement intern text num f e l) = Ok v <-> lastValue k ds v) /\
    (has (intern k) (forElement intern text num f e l) = true <-> exists v, In (mkDecl k v) ds).
Proof.
  intros intern text num gradient sortConds SC sh f C e kvs G l k [[I1 I2] T] ds.
  destruct (style_decls intern gradient sortConds text num sh f e kvs l SC C) as (ds' & S & E & _); auto.
  { split; [split|].
    - intros a b Ha Hb. apply I1; right; auto.
    - intros a Ha. apply I2; right; auto.
    - intros a Ha. apply T; right; auto. }
  assert (I : forall d, In d ds -> intern (dkey d) = intern k -> dkey d = k).
  { intros d Hd. apply I1; [right; apply in_or_app; left|left; reflexivity].
    apply (inForce_keys num sh _ _ _ _ _ Hd). }
  rewrite E. split.
  - apply read_style; auto.
  - apply read_has; auto.
Qed.
Print Assumptions C24_cascade.

(** The builders of an element are all different values declared for "builder" by the
    declarations in force (not only the last one), in ascending order. *)
Theorem C24_builders :
  forall intern text num gradient sortConds, (forall c, Permutation (sortConds c) c) ->
  forall sh f, compile intern gradient sortConds sh = Ok f ->
  forall e kvs, tagged intern e kvs ->
  forall l, tableOk intern text (sBuilder :: sheetStrings sh ++ stringsOf kvs) ->
    let bs := sbuilders (forElement intern text num f e l) in
    stringsAscending bs /\
    forall v, In v bs <-> In v (valuesOf sBuilder (inForce num sh (kindName e) l (eid e) kvs)).
Proof.
  intros intern text num gradient sortConds SC sh f C e kvs G l [[I1 I2] T] bs. subst bs.
  destruct (style_decls intern gradient sortConds text num sh f e kvs l SC C) as (ds' & S & E & _); auto.
  { split; [split|].
    - intros a b Ha Hb. apply I1; right; auto.
    - intros a Ha. apply I2; right; auto.
    - intros a Ha. apply T; right; auto. }
  set (ds := inForce num sh (kindName e) l (eid e) kvs) in *.
  assert (I : forall d, In d ds -> intern (dkey d) = intern sBuilder -> dkey d = sBuilder).
  { intros d Hd. apply I1; [right; apply in_or_app; left|left; reflexivity].
    apply (inForce_keys num sh _ _ _ _ _ Hd). }
  rewrite E. destruct (read_builders intern ds' ds S I) as [A B]. split; [exact A|].
  intros v. rewrite B. unfold valuesOf. rewrite in_map_iff. split.
  - intros H. exists (mkDecl sBuilder v). split; [reflexivity|]. apply filter_In. split; auto.
  - intros ([k w] & <- & H). apply filter_In in H as [H K]. apply beqb_eq in K. cbn [dkey dvalue] in *.
    subst k. exact H.
Qed.
Print Assumptions C24_builders.

(** The constructor accepts exactly the stylesheets with known selector names and operations,
    element selectors with a numeric id, and readable gradients. *)
Theorem C24_accepts :
  forall intern gradient sortConds sh,
    (exists f, compile intern gradient sortConds sh = Ok f) <-> acceptable gradient sh.
Proof. exact compile_total. Qed.
Print Assumptions C24_accepts.

(** C25: an element has a style at a level iff some rule applies to it; without one its style
    is empty. *)
Theorem C25_hasStyle :
  forall intern text num gradient sortConds, (forall c, Permutation (sortConds c) c) ->
  forall sh f, compile intern gradient sortConds sh = Ok f ->
  forall e kvs, tagged intern e kvs ->
  tableOk intern text (sheetStrings sh ++ stringsOf kvs) ->
  forall l,
    (hasStyle intern text num f e l = true <->
     exists r s, In r (rules sh) /\ In s (selectors r) /\
       (selects num (kindName e) l kvs s = true \/
        selectsId l (eid e) s = true /\ declarations r <> [])) /\
    (hasStyle intern text num f e l = false -> forElement intern text num f e l = emptyStyle).
Proof.
  intros intern text num gradient sortConds SC sh f C e kvs G T l.
  destruct (style_decls intern gradient sortConds text num sh f e kvs l SC C T G) as (ds & S & E & H).
  rewrite E, H. split.
  - destruct (idRules sh l (eid e)) as [|r rs] eqn:Eid.
    + rewrite existsb_exists. split.
      * intros (r & Hr & Hs). apply existsb_exists in Hs as (s & Hs & Hb). exists r, s. auto.
      * intros (r & s & Hr & Hs & [Hb|[Hb Hd]]).
        -- exists r. split; auto. apply existsb_exists. eauto.
        -- exfalso. assert (X : In r (idRules sh l (eid e))).
           { unfold idRules, applicable. apply filter_In. split.
             - apply filter_In. split; auto. apply existsb_exists. eauto.
             - destruct (declarations r); congruence. }
           rewrite Eid in X. contradiction.
    + split; [intros _|reflexivity].
      assert (X : In r (idRules sh l (eid e))) by (rewrite Eid; left; reflexivity).
      unfold idRules, applicable in X. apply filter_In in X as [X Hd]. apply filter_In in X as [X Hs].
      apply existsb_exists in Hs as (s & Hs & Hb). exists r, s. split; auto. split; auto. right.
      split; auto. destruct (declarations r); [discriminate|discriminate].
  - intros Hf. destruct (idRules sh l (eid e)) as [|r rs] eqn:Eid; [|discriminate].
    assert (D : inForce num sh (kindName e) l (eid e) kvs = []).
    { unfold inForce. rewrite Eid. unfold applicable.
      clear H Eid. induction (rules sh) as [|r rs IH]; [reflexivity|]. cbn [existsb List.filter] in *.
      apply orb_false_iff in Hf as [Hf1 Hf2]. rewrite Hf1. apply IH. exact Hf2. }
    rewrite D in S. destruct S as [_ S]. destruct ds as [|d ds]; [reflexivity|].
    exfalso. apply (S d). left; reflexivity.
Qed.
Print Assumptions C25_hasStyle.

(** C46: the canvas style is the cascade of all canvas rules covering the level; their
    conditions are not looked at. *)
Theorem C46_canvas :
  forall intern text gradient sortConds sh f, compile intern gradient sortConds sh = Ok f ->
  forall l k, tableOk intern text (k :: sheetStrings sh) ->
  forall v, getDecl (intern k) (forCanvas intern f l) = Ok v <->
            lastValue k (flat_map declarations (applicable (selectsCanvas l) (rules sh))) v.
Proof.
  intros intern text gradient sortConds sh f C l k [[I1 I2] T] v.
  destruct (compiled_same intern gradient sortConds sCanvas l (fun _ => true) (selectsCanvas l) sh f) as [S _]; auto.
  { cbn; tauto. }
  { intros r s _ _. unfold selectsCanvas. rewrite andb_true_r. reflexivity. }
  assert (E : forCanvas intern f l =
    fold_left (put intern) (flat_map fdecls (List.filter (fun _ => true) (at_ l (mapOf sCanvas f)))) emptyStyle).
  { unfold forCanvas. change (mapOf sCanvas f) with (fCanvases f). generalize emptyStyle.
    induction (at_ l (fCanvases f)) as [|g gs IH]; intros s; [reflexivity|].
    cbn [List.filter flat_map fold_left]. rewrite fold_left_app. apply IH. }
  rewrite E. apply read_style; auto.
  intros d Hd. apply I1; [right|left; reflexivity]. apply (applicable_keys (selectsCanvas l) sh d Hd).
Qed.
Print Assumptions C46_canvas.

(** ** C26 *)

(** Full statement: stylesheets which style some element differently have different
    fingerprints.  What holds: editing the value of one declaration of a rule which is not an
    identifier rule and covers at least one level changes the text that is hashed (for any
    order in which unordered_map is visited); so fingerprints differ unless MD5 collides.
    Missing: every other pair of stylesheets, see the refutations. *)
Theorem C26_single_edit_partial :
  forall v v' k, v <> v' ->
  forall R1 R2 sels D1 D2 tx tx' ls ls' intern gradient sortConds f f',
    compile intern gradient sortConds
      (mkSheet (R1 ++ mkRule sels (D1 ++ mkDecl k v :: D2) :: R2) tx ls) = Ok f ->
    compile intern gradient sortConds
      (mkSheet (R1 ++ mkRule sels (D1 ++ mkDecl k v' :: D2) :: R2) tx' ls') = Ok f' ->
  forall s kind, In s sels -> In kind (names s) -> kind <> sElement -> (zstart (szoom s) <= zend (szoom s))%N ->
  forall orderZ orderN, (forall l, Permutation (orderZ l) l) ->
    tagText orderZ orderN f <> tagText orderZ orderN f'.
Proof.
  intros v v' k V R1 R2 sels D1 D2 tx tx' ls ls' intern gradient sortConds f f' C C' s kind Hs Hk NE Hz orderZ orderN OZ.
  assert (K : In kind kinds).
  { assert (Acc : acceptable gradient (mkSheet (R1 ++ mkRule sels (D1 ++ mkDecl k v :: D2) :: R2) tx ls))
      by (apply (compile_total intern gradient sortConds); eauto).
    destruct (Acc (mkRule sels (D1 ++ mkDecl k v :: D2)) s kind) as [_ [[X _]|[X _]]]; auto.
    - cbn [rules]. apply in_or_app. right. left. reflexivity.
    - contradiction. }
  apply (tagText_differs v v' intern gradient sortConds R1 R2 sels D1 D2 k tx tx' ls ls' f f' C C'
           orderZ orderN OZ kind (Z.of_N (zstart (szoom s))) K); [|exact V].
  unfold covered. apply existsb_exists. exists s. split; auto.
  apply andb_true_iff. split; [apply existsb_exists; exists kind; split; auto; apply beqb_refl|].
  unfold inZoom. rewrite andb_true_iff, !Z.leb_le. lia.
Qed.
Print Assumptions C26_single_edit_partial.

(** A table with the strings "", "a", "p", "q", "builder". *)
Definition demoIntern (s : bytes) : N :=
  match s with
  | [] => 5 | [97] => 0 | [112] => 1 | [113] => 12 | 98 :: _ => 7 | [51] => 30 | [50; 51] => 31 | _ => 40
  end%N.
Definition demoText (n : N) : bytes :=
  match n with
  | 5 => [] | 0 => [97] | 1 => [112] | 12 => [113] | 7 => sBuilder | 30 => [51] | 31 => [50; 51]
  | _ => [63]
  end%N.
Definition demoStrings : list bytes := [[]; [97]; [112]; [113]; sBuilder; [51]; [50; 51]]%N.

Lemma demoTable : tableOk demoIntern demoText demoStrings.
Proof.
  split; [split|].
  - intros a b Ha Hb. cbn [demoStrings In] in Ha, Hb.
    repeat (destruct Ha as [<-|Ha]; [|]); try contradiction;
    repeat (destruct Hb as [<-|Hb]; [|]); try contradiction; cbn; intros E; congruence.
  - intros a Ha. cbn [demoStrings In] in Ha.
    repeat (destruct Ha as [<-|Ha]; [cbn; lia|]). contradiction.
  - intros a Ha. cbn [demoStrings In] in Ha.
    repeat (destruct Ha as [<-|Ha]; [reflexivity|]). contradiction.
Qed.

(** The stylesheet  node|z1[a] { key: value; } *)
Definition demoSheet (key value : bytes) : sheet :=
  mkSheet [mkRule [mkSelector [sNode] (mkZoom 1 1) [mkCondition [97]%N [] []]] [mkDecl key value]] [] [].
Definition demoNode : element := Node 1 [mkTag 0 30] (mkCoord 0 0).

Lemma perm1 {A} (f : list A -> list A) x : (forall l, Permutation (f l) l) -> f [x] = [x].
Proof. intros H. apply Permutation_length_1_inv. apply Permutation_sym. apply H. Qed.

(** C26 is false: the key ids and values are concatenated without separators, so "p: 23" and
    "q: 3" hash the same text when "p" has id 1 and "q" has id 12. *)
Theorem C26_fingerprint_refuted :
  exists intern text sh sh' f f' e kvs,
    tableOk intern text (sheetStrings sh ++ sheetStrings sh' ++ stringsOf kvs) /\
    compile intern (fun _ => Ok tt) (fun c => c) sh = Ok f /\
    compile intern (fun _ => Ok tt) (fun c => c) sh' = Ok f' /\
    tagged intern e kvs /\
    has 1 (forElement intern text (fun _ => NaN) f e 1) = true /\
    has 1 (forElement intern text (fun _ => NaN) f' e 1) = false /\
    forall orderZ orderN md5, (forall l, Permutation (orderZ l) l) ->
      hashTag orderZ orderN md5 f = hashTag orderZ orderN md5 f'.
Proof.
  exists demoIntern, demoText, (demoSheet [112]%N [50; 51]%N), (demoSheet [113]%N [51]%N).
  eexists. eexists. exists demoNode, [([97], [51])]%N.
  split; [|split; [vm_compute; reflexivity|split; [vm_compute; reflexivity|split; [|split; [reflexivity|split; [reflexivity|]]]]]].
  - destruct demoTable as [[I1 I2] T].
    assert (X : incl (sheetStrings (demoSheet [112]%N [50; 51]%N) ++
        sheetStrings (demoSheet [113]%N [51]%N) ++ stringsOf [([97], [51])]%N) demoStrings).
    { intros x Hx. cbn in Hx. cbn. tauto. }
    split; [split|]; intros; auto.
  - split; [repeat constructor|]. cbn. apply Permutation_refl.
  - intros orderZ orderN md5 OZ. unfold hashTag, tagText, filterMapText, idMapText. cbn.
    assert (O0 : orderZ [] = []) by (apply Permutation_nil; apply Permutation_sym; apply OZ).
    assert (O1 : orderZ [1%Z] = [1%Z]) by (apply perm1; exact OZ). rewrite O0, O1. reflexivity.
Qed.
Print Assumptions C26_fingerprint_refuted.

(** Nor does the fingerprint depend on textures (or L-systems). *)
Theorem C26_textures_refuted :
  exists sh sh' f,
    compile demoIntern (fun _ => Ok tt) (fun c => c) sh = Ok f /\
    compile demoIntern (fun _ => Ok tt) (fun c => c) sh' = Ok f /\
    getTexture sh 1 [97]%N <> getTexture sh' 1 [97]%N.
Proof.
  exists (demoSheet [112]%N [51]%N),
    (mkSheet (rules (demoSheet [112]%N [51]%N)) [mkAtlas 1 [([97]%N, [(8, 8, 0, 0, 4, 4)%N])]] []).
  eexists. split; [reflexivity|]. split; [reflexivity|]. discriminate.
Qed.
Print Assumptions C26_textures_refuted.

(** ** C47 *)

(** A texture lookup never fails: it answers from the first atlas with the index, and with an
    empty region for unknown indices, unknown keys and the reserved index 65535. *)
Theorem C47_texture :
  forall sh index key,
    (forall before a after, textures sh = before ++ a :: after -> aindex a = index ->
       index <> 65535%N -> (forall b, In b before -> aindex b <> index) ->
       getTexture sh index key =
         Ok (match alookup beqb key (agroups a) with Some g => g | None => emptyGroup end)) /\
    ((index = 65535%N \/ forall a, In a (textures sh) -> aindex a <> index) ->
       getTexture sh index key = Ok emptyGroup).
Proof.
  intros sh index key. unfold getTexture, textureMap.
  assert (F : forall (ts : list atlas) m i,
    alookup N.eqb i (fold_left (fun m a => match alookup N.eqb (aindex a) m with
                          | Some _ => m | None => m ++ [(aindex a, a)] end) ts m) =
    orElse (alookup N.eqb i m) (hd_error (List.filter (fun a => N.eqb (aindex a) i) ts))).
  { induction ts as [|t ts IH]; intros m i; cbn [fold_left List.filter].
    - destruct (alookup N.eqb i m); reflexivity.
    - rewrite IH. destruct (alookup N.eqb (aindex t) m) as [x|] eqn:L.
      + destruct (N.eqb_spec (aindex t) i) as [<-|K]; [rewrite L; reflexivity|reflexivity].
      + assert (A : forall (mm : list (N * atlas)), alookup N.eqb i (mm ++ [(aindex t, t)]) =
            orElse (alookup N.eqb i mm) (if N.eqb (aindex t) i then Some t else None)).
        { induction mm as [|[k y] mm IHm]; cbn [app alookup orElse].
          - rewrite (N.eqb_sym i). destruct (N.eqb (aindex t) i); reflexivity.
          - destruct (N.eqb i k); auto. }
        rewrite A, orElse_assoc. destruct (N.eqb (aindex t) i); reflexivity. }
  rewrite !F. cbn [alookup]. rewrite N.eqb_refl. split.
  - intros before a after E Ha N1 Hb. subst index. destruct (N.eqb_spec (aindex a) defaultTexture) as [X|_]; [contradiction|].
    cbn [orElse]. rewrite E, filter_app.
    assert (Z0 : List.filter (fun b => N.eqb (aindex b) (aindex a)) before = []).
    { clear E. induction before as [|b bs IH]; [reflexivity|]. cbn [List.filter].
      destruct (N.eqb_spec (aindex b) (aindex a)) as [X|_]; [exfalso; apply (Hb b); auto; left; reflexivity|].
      apply IH. intros c Hc. apply Hb. right; auto. }
    rewrite Z0. cbn [app List.filter]. rewrite N.eqb_refl. reflexivity.
  - intros H. destruct (N.eqb_spec index defaultTexture) as [->|X]; [reflexivity|].
    destruct H as [H|H]; [contradiction|]. cbn [orElse].
    assert (Z0 : List.filter (fun b => N.eqb (aindex b) index) (textures sh) = []).
    { induction (textures sh) as [|b bs IH]; [reflexivity|]. cbn [List.filter].
      destruct (N.eqb_spec (aindex b) index) as [Y|_]; [exfalso; apply (H b); auto; left; reflexivity|].
      apply IH. intros c Hc. apply H. right; auto. }
    rewrite Z0. reflexivity.
Qed.
Print Assumptions C47_texture.

(** The pseudo random choice of a region is one of the group's regions. *)
Theorem C47_random :
  forall g seed, g <> [] -> exists r, randomRegion g seed = Ok r /\ In r g.
Proof.
  intros g seed H. destruct g as [|r g]; [contradiction|]. eexists. split; [reflexivity|].
  apply nth_In. assert ((seed mod N.of_nat (length (r :: g)) < N.of_nat (length (r :: g)))%N)
    by (apply N.mod_lt; discriminate). lia.
Qed.
Print Assumptions C47_random.

(** ** Concrete cases *)

Definition ruleFor (name : bytes) (cs : list condition) (ds : list declaration) : rule :=
  mkRule [mkSelector [name] (mkZoom 1 3) cs] ds.
(** node|z1-3[a]{p:3;} node|z1-3[a=3]{p:23;builder:3;} node|z1-3[a!=3]{p:builder;}
    element|z1-3[a=3]{q:3;} *)
Definition cascadeSheet : sheet :=
  mkSheet [ruleFor sNode [mkCondition [97] [] []]%N [mkDecl [112] [51]; mkDecl sBuilder [50; 51]]%N;
           ruleFor sNode [mkCondition [97] sEq [51]]%N [mkDecl [112] [50; 51]; mkDecl sBuilder [51]]%N;
           ruleFor sNode [mkCondition [97] sNe [51]]%N [mkDecl [112] sBuilder]%N;
           ruleFor sElement [mkCondition [97] sEq [51]]%N [mkDecl [113] [51]]%N] [] [].

Example C24_case :
  exists f, compile demoIntern (fun _ => Ok tt) (fun c => c) cascadeSheet = Ok f /\
    tagged demoIntern demoNode [([97], [51])]%N /\
    tableOk demoIntern demoText (sBuilder :: sheetStrings cascadeSheet ++ stringsOf [([97], [51])]%N) /\
    getDecl 1 (forElement demoIntern demoText (fun _ => NaN) f demoNode 2) = Ok [50; 51]%N /\
    sbuilders (forElement demoIntern demoText (fun _ => NaN) f demoNode 2) = [[50; 51]; [51]]%N /\
    hasStyle demoIntern demoText (fun _ => NaN) f demoNode 2 = true /\
    hasStyle demoIntern demoText (fun _ => NaN) f demoNode 4 = false /\
    (* the identifier rule for element 3 replaces everything *)
    getDecl 12 (forElement demoIntern demoText (fun _ => NaN) f (setId 3 demoNode) 2) = Ok [51]%N /\
    has 1 (forElement demoIntern demoText (fun _ => NaN) f (setId 3 demoNode) 2) = false.
Proof.
  eexists. split; [reflexivity|]. split; [split; [repeat constructor|cbn; apply Permutation_refl]|].
  split; [|repeat split; reflexivity].
  destruct demoTable as [[I1 I2] T].
  assert (X : incl (sBuilder :: sheetStrings cascadeSheet ++ stringsOf [([97], [51])]%N) demoStrings).
  { intros x Hx. cbn in Hx. cbn. tauto. }
  split; [split|]; intros; auto.
Qed.

Example C26_single_edit_case :
  exists f f',
    compile demoIntern (fun _ => Ok tt) (fun c => c) (demoSheet [112]%N [51]%N) = Ok f /\
    compile demoIntern (fun _ => Ok tt) (fun c => c) (demoSheet [112]%N [50; 51]%N) = Ok f' /\
    tagText (fun l => l) (fun l => l) f = [49; 48; 126; 53; 49; 51]%N /\
    tagText (fun l => l) (fun l => l) f' = [49; 48; 126; 53; 49; 50; 51]%N.
Proof. do 2 eexists. repeat split; reflexivity. Qed.

Example C46_case :
  exists f,
    compile demoIntern (fun _ => Ok tt) (fun c => c)
      (mkSheet [ruleFor sCanvas [] [mkDecl [112] [51]]%N; ruleFor sCanvas [mkCondition [97] [] []]%N [mkDecl [112] [50; 51]]%N] [] []) = Ok f /\
    getDecl 1 (forCanvas demoIntern f 3) = Ok [50; 51]%N /\
    getDecl 1 (forCanvas demoIntern f 4) = Throw MapcssError.
Proof. eexists. repeat split; reflexivity. Qed.

Example C47_case :
  getTexture (mkSheet [] [mkAtlas 1 [([97]%N, [(8, 8, 0, 0, 4, 4)%N])]; mkAtlas 1 []] []) 1 [97]%N
    = Ok [(8, 8, 0, 0, 4, 4)%N].
Proof. reflexivity. Qed.

(** Findings: an identifier rule ignores the key and the operation of its condition, and the
    first of two identifier rules wins while the last of two other rules wins. *)
Example C24_identifier_first_wins :
  exists f,
    compile demoIntern (fun _ => Ok tt) (fun c => c)
      (mkSheet [ruleFor sElement [mkCondition [112] sNe [51]]%N [mkDecl [112] [51]]%N;
                ruleFor sElement [mkCondition [97] sEq [51]]%N [mkDecl [112] [50; 51]]%N] [] []) = Ok f /\
    getDecl 1 (forElement demoIntern demoText (fun _ => NaN) f (setId 3 demoNode) 2) = Ok [51]%N.
Proof. eexists. repeat split; reflexivity. Qed.
