(** Proofs about the terrain builder. *)
From Coq Require Import Sorted Permutation.
From Verif Require Import Base LineGridSpec TerraModel TerraSpec.
Local Open Scope Z_scope.

Section ElementInd.
  Context {P G : Type} (Q : element (P := P) (G := G) -> Prop).
  Context (hn : forall g, Q (Node g)) (hw : forall g p, Q (Way g p)) (ha : forall g p, Q (Area g p))
          (hr : forall g es, Forall Q es -> Q (Relation g es)).
  Fixpoint element_rect' (e : element) : Q e :=
    match e with
    | Node g => hn g
    | Way g p => hw g p
    | Area g p => ha g p
    | Relation g es => hr g es ((fix all (es : list element) : Forall Q es :=
        match es with [] => Forall_nil _ | m :: es => Forall_cons _ (element_rect' m) (all es) end) es)
    end.
End ElementInd.

Section Clippers.
  Context {P : Type}.
  Definition allClip (c : clipper (P := P)) : Prop := (forall e, In e (clEdges c) -> isClip e = true) /\ (clStart c <= List.length (clEdges c))%nat.
  Lemma filter_clip l : (forall e, In e l -> isClip (P := P) e = true) -> filter isClip l = l /\ filter (fun e => negb (isClip e)) l = [].
  Proof.
    induction l as [|e l IH]; intros H; [split; reflexivity|]. cbn. rewrite (H e) by (now left). cbn.
    destruct IH as (-> & ->); [|split; reflexivity]. intros; apply H; now right.
  Qed.
  Lemma filter_subjects (g : list P) :
    filter isClip (map (fun p => (Subject, p)) g) = [] /\
    filter (fun e => negb (isClip e)) (map (fun p => (Subject, p)) g) = map (fun p => (Subject, p)) g.
  Proof. induction g as [|p g (E1 & E2)]; cbn; [split; reflexivity|]. rewrite E1, E2. split; reflexivity. Qed.
  Lemma filter_clips (g : list P) :
    filter isClip (map (fun p => (Clip, p)) g) = map (fun p => (Clip, p)) g /\
    filter (fun e => negb (isClip e)) (map (fun p => (Clip, p)) g) = [].
  Proof. induction g as [|p g (E1 & E2)]; cbn; [split; reflexivity|]. rewrite E1, E2. split; reflexivity. Qed.
  Lemma map_snd_pair (t : polyType) (g : list P) : map snd (map (fun p => (t, p)) g) = g.
  Proof. rewrite map_map. cbn. apply map_id. Qed.
  Lemma subjects_added c g : allClip c -> subjectsOf (addPaths Subject c g) = g /\ clipsOf (addPaths Subject c g) = clipsOf c.
  Proof.
    intros (A & _). unfold subjectsOf, clipsOf, addPaths. cbn. rewrite !filter_app.
    destruct (filter_clip _ A) as (E1 & E2). destruct (filter_subjects g) as (F1 & F2). rewrite E1, E2, F1, F2.
    cbn. rewrite app_nil_r, map_snd_pair. split; reflexivity.
  Qed.
  Lemma clips_added c g : allClip c -> allClip (addPaths Clip c g) /\ clipsOf (addPaths Clip c g) = clipsOf c ++ g.
  Proof.
    intros (A & S). split; [split|].
    - unfold addPaths. cbn. intros e E. apply in_app_or in E as [E | E]; [now apply A|]. apply in_map_iff in E as (p & <- & _). reflexivity.
    - unfold addPaths. cbn. rewrite app_length. lia.
    - unfold clipsOf, addPaths. cbn. rewrite filter_app, map_app. destruct (filter_clips g) as (-> & _). now rewrite map_snd_pair.
  Qed.
  Lemma moved c g : allClip c ->
    allClip (moveSubjectToClip (addPaths Subject c g)) /\ clipsOf (moveSubjectToClip (addPaths Subject c g)) = clipsOf c ++ g.
  Proof.
    intros (A & S). destruct c as [l k]. cbn in A, S.
    set (m := firstn k l ++ map (fun e => (Clip, snd e)) (skipn k l ++ map (fun p => (Subject, p)) g)).
    assert (Hm : m = l ++ map (fun p => (Clip, p)) g).
    { unfold m. rewrite map_app, map_map. cbn. rewrite app_assoc. f_equal.
      transitivity (firstn k l ++ skipn k l); [|apply firstn_skipn]. f_equal.
      rewrite <- (map_id (skipn k l)) at 2. apply map_ext_in. intros e E.
      assert (I : In e l) by (rewrite <- (firstn_skipn k l); apply in_or_app; now right).
      specialize (A e I). destruct e as [[] p]; [discriminate A|reflexivity]. }
    assert (E : moveSubjectToClip (addPaths Subject (mkClipper l k) g) =
                match l ++ map (fun p => (Subject, p)) g with
                | [] => mkClipper [] k
                | _ => mkClipper (l ++ map (fun p => (Clip, p)) g) (List.length (l ++ map (fun p => (Subject, p)) g) - 1)
                end).
    { unfold moveSubjectToClip, addPaths. cbn. destruct (l ++ map (fun p => (Subject, p)) g) as [|e0 r0] eqn:El; [reflexivity|].
      rewrite <- El. rewrite firstn_app, skipn_app. replace (k - List.length l)%nat with 0%nat by lia.
      cbn [firstn skipn]. rewrite app_nil_r. fold m. now rewrite Hm. }
    rewrite E. destruct (l ++ map (fun p => (Subject, p)) g) as [|e0 r0] eqn:El.
    - apply app_eq_nil in El as (-> & El). apply map_eq_nil in El as ->. cbn in S. split; [split|reflexivity].
      + intros ? [].
      + exact S.
    - rewrite <- El. clear e0 r0 El E. split; [split|].
      + cbn. intros e E. apply in_app_or in E as [E | E]; [now apply A|]. apply in_map_iff in E as (p & <- & _). reflexivity.
      + cbn. rewrite !app_length, !map_length. lia.
      + unfold clipsOf. cbn. rewrite filter_app, map_app. destruct (filter_clips g) as (-> & _). now rewrite map_snd_pair.
  Qed.
  Lemma removed c g : allClip c -> removeSubject (addPaths Subject c g) = c.
  Proof.
    intros (A & _). destruct c as [l k]. unfold removeSubject, addPaths. cbn in *. f_equal. rewrite filter_app.
    destruct (filter_clip _ A) as (-> & _). destruct (filter_subjects g) as (-> & _). apply app_nil_r.
  Qed.
  Lemma new_clip : allClip newClipper.
  Proof. split; [intros ? []|cbn; lia]. Qed.
End Clippers.

Section Winding.
  Context {P X : Type} (wind : P -> X -> Z).
  Local Notation winding := (winding wind).
  Local Notation covers := (covers wind).
  Local Notation oriented := (oriented wind).
  Lemma winding_app a b x : winding (a ++ b) x = winding a x + winding b x.
  Proof. induction a as [|p a IH]; cbn; lia. Qed.
  Lemma covers_dec ps x : {covers ps x} + {~ covers ps x}.
  Proof. unfold TerraSpec.covers. destruct (Z.eq_dec (winding ps x) 0) as [E | E]; [right; lia|left; exact E]. Qed.
  Lemma oriented_app a b : oriented a -> oriented b -> oriented (a ++ b).
  Proof. intros A B x. rewrite winding_app. specialize (A x). specialize (B x). lia. Qed.
  Lemma covers_app a b x : oriented a -> oriented b -> (covers (a ++ b) x <-> covers a x \/ covers b x).
  Proof. intros A B. unfold TerraSpec.covers. rewrite winding_app. specialize (A x). specialize (B x). lia. Qed.
  Lemma covers_nil x : ~ covers [] x.
  Proof. unfold TerraSpec.covers. cbn. lia. Qed.
  Lemma oriented_nil : oriented [].
  Proof. intros x. cbn. lia. Qed.
End Winding.


Section Terra.
  Context {P W G X : Type} (wind : P -> X -> Z).
  Local Notation region := (TerraModel.region (P := P)).
  Local Notation element := (TerraModel.element (P := P) (G := G)).
  Local Notation clipper := (TerraModel.clipper (P := P)).
  Local Notation surface := (TerraModel.surface (P := P)).
  Context (execute : clipType -> fillType -> fillType -> list P -> list P -> list P) (clean : list P -> list P)
          (widen : W -> list P -> list P) (area2 : P -> Z).
  Context (noTags : G -> bool) (styleOf : kind -> G -> style (W := W)) (hasStyle : kind -> G -> bool).
  Context (canvasContext : name -> context) (canvasOrder : name -> Z) (tile : P).
  Context (sortRegions : (region -> region -> bool) -> list (region) -> list region)
          (sortLayers : (Z * list region -> Z * list region -> bool) -> list (Z * list (region)) -> list (Z * list region)).
  Hypothesis (EX : exactClipper wind execute) (CL : keepsWinding wind clean).
  Local Notation winding := (winding wind).
  Local Notation covers := (covers wind).
  Local Notation oriented := (oriented wind).
  Local Notation covered := (covered wind).
  Local Notation tidy := (tidy execute clean).
  Local Notation kept := (kept area2).
  Local Notation buildForeground := (buildForeground execute clean area2).
  Local Notation buildRegion := (buildRegion execute clean area2).
  Local Notation addGeometry := (addGeometry execute clean area2).

  Lemma b2z_odd b : Z.odd (Z.b2z b) = b.
  Proof. now destruct b. Qed.
  Lemma winding_tidy g x b : winding g x = Z.b2z b -> winding (tidy g) x = Z.b2z b.
  Proof. intros E. unfold TerraModel.tidy. rewrite CL, EX. cbn. rewrite E, b2z_odd, orb_false_r. reflexivity. Qed.
  Lemma winding_difference s c x :
    winding (execute Difference NonZero NonZero s c) x = Z.b2z (negb (winding s x =? 0) && (winding c x =? 0)).
  Proof. rewrite EX. cbn. now rewrite negb_involutive. Qed.
  Lemma covers_tidy_difference s c x : covers (tidy (execute Difference NonZero NonZero s c)) x <-> covers s x /\ winding c x = 0.
  Proof.
    unfold TerraSpec.covers. rewrite (winding_tidy _ x _ (winding_difference s c x)).
    destruct (Z.eqb_spec (winding s x) 0), (Z.eqb_spec (winding c x) 0); cbn; lia.
  Qed.

  (** Drawn one after another, [D] being what was there before. *)
  Fixpoint drawn (D : list P) (ss : list surface) : Prop :=
    match ss with
    | [] => True
    | s :: ss => sfAll s = tidy (execute Difference NonZero NonZero (rGeometry (sfRegion s)) D) /\
                 sfKept s = filter kept (sfAll s) /\ drawn (D ++ rGeometry (sfRegion s)) ss
    end.
  Lemma addGeometry_ok g k all ps parts : addGeometry g k = Ok (all, ps, parts) -> all = tidy g /\ ps = filter kept all.
  Proof.
    unfold TerraModel.addGeometry. destruct (filter kept (tidy g)) eqn:E.
    - intros [= <- <- _]. now split.
    - destruct (addPolygon _ _); cbn; intros [= <- <- _]. now split.
  Qed.
  Lemma foreground_ok rs : forall fg bg bg' ss, allClip fg -> allClip bg -> buildForeground fg bg rs = Ok (bg', ss) ->
    map (fun s => (sfOrder s, sfRegion s)) ss = rs /\ drawn (clipsOf fg) ss /\ allClip bg' /\ clipsOf bg' = clipsOf bg ++ flat_map sfKept ss.
  Proof.
    induction rs as [|[o r] rs IH]; intros fg bg bg' ss F B E.
    - cbn in E. injection E as <- <-. cbn. rewrite app_nil_r. repeat split; try assumption; apply B.
    - cbn in E. unfold TerraModel.buildRegion in E. destruct (rContext r) as [k|]; [|discriminate E].
      destruct (addGeometry _ k) as [[[all ps] parts]| |] eqn:A; try discriminate E. cbn in E.
      destruct (buildForeground _ _ rs) as [[bg2 ss2]| |] eqn:E2; try discriminate E. cbn in E. injection E as <- <-.
      apply addGeometry_ok in A as (A1 & A2). unfold executeDifference in A1.
      destruct (subjects_added fg (rGeometry r) F) as (S1 & S2). rewrite S1, S2 in A1.
      destruct (moved fg (rGeometry r) F) as (M1 & M2). destruct (clips_added bg ps B) as (C1 & C2).
      apply IH in E2 as (I1 & I2 & I3 & I4); [|exact M1|exact C1]. rewrite M2 in I2. rewrite C2 in I4.
      cbn. rewrite I1, I4, <- app_assoc. repeat split; try assumption; apply I3.
  Qed.
  Lemma drawn_at ss : forall D, drawn D ss -> (forall s, In s ss -> oriented (rGeometry (sfRegion s))) -> oriented D ->
    forall s1 s s2 x, ss = s1 ++ s :: s2 ->
    (covers (sfAll s) x <-> covers (rGeometry (sfRegion s)) x /\ ~ covers D x /\ forall s', In s' s1 -> ~ covers (rGeometry (sfRegion s')) x).
  Proof.
    induction ss as [|s0 ss IH]; intros D H O OD s1 s s2 x E; [destruct s1; discriminate E|].
    destruct H as (H1 & _ & H2). destruct s1 as [|s1' s1].
    - cbn in E. injection E as <- <-. rewrite H1, covers_tidy_difference. unfold TerraSpec.covers at 3. split.
      + intros (A & B). repeat split; [exact A|lia|intros ? []].
      + intros (A & B & _). split; [exact A|lia].
    - cbn in E. injection E as <- E.
      assert (O0 : oriented (rGeometry (sfRegion s0))) by (apply O; now left).
      rewrite (IH _ H2 (fun s I => O s (or_intror I)) (oriented_app wind _ _ OD O0) s1 s s2 x E).
      rewrite (covers_app wind D (rGeometry (sfRegion s0)) x OD O0). split.
      + intros (A & B & C). repeat split; [exact A|tauto|]. intros s' [<- | I]; [tauto|now apply C].
      + intros (A & B & C). repeat split; [exact A| |].
        * intros [B' | B']; [tauto|]. revert B'. apply C. now left.
        * intros s' I. apply C. now right.
  Qed.
  Lemma drawn_kept ss : forall D, drawn D ss -> forall s, In s ss -> sfKept s = filter kept (sfAll s).
  Proof. induction ss as [|s0 ss IH]; intros D H s I; [destruct I|]. destruct H as (_ & H & H2), I as [<- | I]; [exact H|now apply (IH _ H2)]. Qed.

  (** Layers. *)
  Lemma weak_area : weakOrder (lessThanByArea (P := P)).
  Proof. clear. unfold weakOrder, lessThanByArea. repeat split; intros; lia. Qed.
  Lemma weak_order : weakOrder (moreThanSortOrder (P := P)).
  Proof. clear. unfold weakOrder, moreThanSortOrder. repeat split; intros; lia. Qed.

  Definition levels_ok (ls : list (Z * clipper)) : Prop := forall lc, In lc ls -> clipsOf (P := P) (snd lc) = [] /\ oriented (subjectsOf (snd lc)).
  Lemma added_subjects (c : clipper) (g : list P) :
    subjectsOf (addPaths Subject c g) = subjectsOf c ++ g /\ clipsOf (addPaths Subject c g) = clipsOf c.
  Proof.
    unfold subjectsOf, clipsOf, addPaths. cbn. rewrite !filter_app, !map_app.
    destruct (filter_subjects g) as (-> & ->). rewrite map_snd_pair. cbn. now rewrite app_nil_r.
  Qed.
  Lemma joined r ls : levels_ok ls -> oriented (rGeometry r) -> levels_ok (joinLevel r ls) /\
    forall x, (exists lc, In lc (joinLevel r ls) /\ covers (subjectsOf (snd lc)) x) <->
              (exists lc, In lc ls /\ covers (subjectsOf (snd lc)) x) \/ covers (rGeometry r) x.
  Proof.
    intros L O. induction ls as [|[l c] ls IH]; cbn.
    - pose proof (proj1 (added_subjects newClipper (rGeometry r)) : subjectsOf (addPaths Subject newClipper (rGeometry r)) = rGeometry r) as E1.
      pose proof (proj2 (added_subjects newClipper (rGeometry r)) : clipsOf (addPaths Subject newClipper (rGeometry r)) = []) as E2. split.
      + intros lc [<- | []]. cbn [snd]. rewrite E1, E2. split; [reflexivity|exact O].
      + intros x. split.
        * intros (lc & [<- | []] & C). right. cbn [snd] in C. now rewrite E1 in C.
        * intros [(lc & [] & _) | C]. eexists. split; [now left|]. cbn [snd]. now rewrite E1.
    - assert (L' : levels_ok ls) by (intros lc I; apply L; now right). destruct (IH L') as (I1 & I2).
      destruct (L (l, c) (or_introl eq_refl)) as (C1 & C2). cbn in C1, C2.
      destruct (rLevel r =? l).
      + destruct (added_subjects c (rGeometry r)) as (E1 & E2). split.
        * intros lc [<- | I]; [|now apply L']. cbn [snd]. rewrite E1, E2. split; [exact C1|now apply oriented_app].
        * intros x. split.
          -- intros (lc & [<- | I] & C); [|left; exists lc; split; [now right|exact C]]. cbn [snd] in C. rewrite E1 in C.
             apply (covers_app wind _ _ _ C2 O) in C as [C | C]; [|now right]. left. exists (l, c). split; [now left|exact C].
          -- intros [(lc & [<- | I] & C) | C].
             ++ eexists. split; [now left|]. cbn [snd]. rewrite E1. apply (covers_app wind _ _ _ C2 O). now left.
             ++ exists lc. split; [now right|exact C].
             ++ eexists. split; [now left|]. cbn [snd]. rewrite E1. apply (covers_app wind _ _ _ C2 O). now right.
      + split.
        * intros lc [<- | I]; [|now apply I1]. now split.
        * intros x. specialize (I2 x). split.
          -- intros (lc & [<- | I] & C); [left; exists (l, c); split; [now left|exact C]|].
             destruct (proj1 I2 (ex_intro _ lc (conj I C))) as [(lc' & I' & C') | C']; [|now right].
             left. exists lc'. split; [now right|exact C'].
          -- intros [(lc & [<- | I] & C) | C].
             ++ exists (l, c). split; [now left|exact C].
             ++ destruct (proj2 I2 (or_introl (ex_intro _ lc (conj I C)))) as (lc' & I' & C'). exists lc'. split; [now right|exact C'].
             ++ destruct (proj2 I2 (or_intror C)) as (lc' & I' & C'). exists lc'. split; [now right|exact C'].
  Qed.
  Lemma joined_all rs : forall ls, levels_ok ls -> (forall r, In r rs -> oriented (rGeometry r)) ->
    levels_ok (fold_left (fun ls r => joinLevel r ls) rs ls) /\
    forall x, (exists lc, In lc (fold_left (fun ls r => joinLevel r ls) rs ls) /\ covers (subjectsOf (snd lc)) x) <->
              (exists lc, In lc ls /\ covers (subjectsOf (snd lc)) x) \/ covered rs x.
  Proof.
    induction rs as [|r rs IH]; intros ls L O; cbn [fold_left].
    - split; [exact L|]. intros x. split; [now left|]. intros [C | (r & [] & _)]. exact C.
    - destruct (joined r ls L (O r (or_introl eq_refl))) as (J1 & J2).
      destruct (IH _ J1 (fun r' I => O r' (or_intror I))) as (I1 & I2). split; [exact I1|]. intros x.
      rewrite I2, J2. unfold TerraSpec.covered. split.
      + intros [[C | C] | (r' & I & C)]; [now left|right; exists r; split; [now left|exact C]|right; exists r'; split; [now right|exact C]].
      + intros [C | (r' & [<- | I] & C)]; [now left; left|now left; right|right; now exists r'].
  Qed.
  Lemma covers_union c x : clipsOf c = [] -> (covers (executeUnion execute c) x <-> covers (subjectsOf c) x).
  Proof.
    intros E. unfold TerraSpec.covers, executeUnion. rewrite EX, E. cbn. rewrite orb_false_r.
    destruct (Z.eqb_spec (winding (subjectsOf c) x) 0); cbn; lia.
  Qed.
  Lemma execute_oriented op fs fc s c : oriented (execute op fs fc s c).
  Proof. intros x. rewrite EX. destruct (operate _ _ _); cbn; lia. Qed.
  Lemma merged k rs : (forall r, In r rs -> oriented (rGeometry r)) ->
    (forall r, In r (mergeRegions execute area2 k rs) -> oriented (rGeometry r) /\ rContext r = Some k) /\
    forall x, covered (mergeRegions execute area2 k rs) x <-> covered rs x.
  Proof.
    intros O. destruct (joined_all rs [] (fun lc (I : In lc []) => match I with end) O) as (J1 & J2).
    unfold mergeRegions. split.
    - intros r I. apply in_map_iff in I as (lc & <- & _). cbn. split; [apply execute_oriented|reflexivity].
    - intros x. specialize (J2 x). split.
      + intros (r & I & C). apply in_map_iff in I as (lc & <- & I). cbn in C. apply covers_union in C; [|now apply J1].
        destruct (proj1 J2 (ex_intro _ lc (conj I C))) as [(? & [] & _) | C']. exact C'.
      + intros C. destruct (proj2 J2 (or_intror C)) as (lc & I & C'). eexists. split.
        * apply in_map_iff. exists lc. split; [reflexivity|exact I].
        * cbn. apply covers_union; [now apply J1|exact C'].
  Qed.

  Hypothesis (SR : sorts sortRegions) (SL : sorts sortLayers).
  Local Notation finishLayer := (finishLayer execute area2 canvasContext canvasOrder sortRegions).
  Local Notation finishLayers := (finishLayers execute area2 canvasContext canvasOrder sortRegions sortLayers).
  Definition layers_oriented (ls : list (name * list region)) : Prop := forall n rs r, In (n, rs) ls -> In r rs -> oriented (rGeometry r).
  Lemma finished_layer n rs : (forall r, In r rs -> oriented (rGeometry r)) ->
    fst (finishLayer (n, rs)) = orderOf canvasOrder n /\ (forall r, In r (snd (finishLayer (n, rs))) -> oriented (rGeometry r)) /\
    forall x, covered (snd (finishLayer (n, rs))) x <-> covered rs x.
  Proof.
    intros O. unfold TerraModel.finishLayer. cbn [fst snd]. destruct n as [|c n]; cbn [fst snd orderOf].
    - destruct (SR lessThanByArea rs weak_area) as (Pm & _). split; [reflexivity|]. split.
      + intros r I. apply O. apply (Permutation_in _ (Permutation_sym Pm) I).
      + intros x. split; intros (r & I & C); exists r; (split; [|exact C]).
        * apply (Permutation_in _ (Permutation_sym Pm) I).
        * apply (Permutation_in _ Pm I).
    - destruct (SR lessThanByArea (mergeRegions execute area2 (canvasContext (c :: n)) rs) weak_area) as (Pm & _).
      destruct (merged (canvasContext (c :: n)) rs O) as (M1 & M2). split; [reflexivity|]. split.
      + intros r I. apply M1. apply (Permutation_in _ (Permutation_sym Pm) I).
      + intros x. rewrite <- M2. split; intros (r & I & C); exists r; (split; [|exact C]).
        * apply (Permutation_in _ (Permutation_sym Pm) I).
        * apply (Permutation_in _ Pm I).
  Qed.
  Definition flatten (layers : list (Z * list region)) : list (Z * region) :=
    flat_map (fun l => map (fun r => (fst l, r)) (snd l)) layers.
  Lemma flatten_in layers o r : In (o, r) (flatten layers) <-> exists rs, In (o, rs) layers /\ In r rs.
  Proof.
    unfold flatten. rewrite in_flat_map. split.
    - intros ([o' rs] & I & J). apply in_map_iff in J as (r' & [= <- <-] & J). now exists rs.
    - intros (rs & I & J). exists (o, rs). split; [exact I|]. apply in_map_iff. now exists r.
  Qed.
  Lemma flatten_sorted layers : StronglySorted (fun a b => moreThanSortOrder b a = false) layers ->
    StronglySorted (fun a b => fst b <= fst a) (flatten layers).
  Proof.
    induction 1 as [|[o rs] ls S IH F]; [constructor|]. cbn.
    assert (F' : forall o' rs', In (o', rs') ls -> o' <= o).
    { intros o' rs' I. rewrite Forall_forall in F. specialize (F _ I). unfold moreThanSortOrder in F. cbn [fst] in F. lia. }
    clear F. induction rs as [|r rs IHr]; [exact IH|]. cbn. constructor; [exact IHr|].
    apply Forall_forall. intros [o' r'] I. cbn. apply in_app_or in I as [I | I].
    - apply in_map_iff in I as (? & [= <- _] & _). lia.
    - apply flatten_in in I as (rs' & I & _). now apply F' in I.
  Qed.
  Definition inLayers (ls : list (name * list (region))) (n : name) (x : X) : Prop := exists rs, In (n, rs) ls /\ covered rs x.
  Lemma finished ls : layers_oriented ls ->
    StronglySorted (fun a b => fst b <= fst a) (flatten (finishLayers ls)) /\
    (forall o r, In (o, r) (flatten (finishLayers ls)) -> oriented (rGeometry r)) /\
    forall o x, (exists r, In (o, r) (flatten (finishLayers ls)) /\ covers (rGeometry r) x) <->
                (exists n, o = orderOf canvasOrder n /\ inLayers ls n x).
  Proof.
    intros O. unfold TerraModel.finishLayers. destruct (SL moreThanSortOrder (map finishLayer ls) weak_order) as (Pm & So).
    set (fl := sortLayers moreThanSortOrder (map finishLayer ls)) in *.
    assert (M : forall o rs, In (o, rs) fl <-> exists n rs0, In (n, rs0) ls /\ finishLayer (n, rs0) = (o, rs)).
    { intros o rs. split.
      - intros I. apply (Permutation_in _ (Permutation_sym Pm)) in I. apply in_map_iff in I as ([n rs0] & E & I). now exists n, rs0.
      - intros (n & rs0 & I & E). apply (Permutation_in _ Pm). apply in_map_iff. now exists (n, rs0). }
    split; [now apply flatten_sorted|]. split.
    - intros o r I. apply flatten_in in I as (rs & I & J). apply M in I as (n & rs0 & I & E).
      destruct (finished_layer n rs0 (fun r' => O n rs0 r' I)) as (_ & F & _). rewrite E in F. now apply F.
    - intros o x. split.
      + intros (r & I & C). apply flatten_in in I as (rs & I & J). apply M in I as (n & rs0 & I & E).
        destruct (finished_layer n rs0 (fun r' => O n rs0 r' I)) as (F1 & _ & F3). rewrite E in F1, F3. cbn in F1, F3.
        exists n. split; [exact F1|]. exists rs0. split; [exact I|]. apply F3. now exists r.
      + intros (n & -> & rs0 & I & C). destruct (finished_layer n rs0 (fun r' => O n rs0 r' I)) as (F1 & _ & F3).
        apply F3 in C as (r & J & C). exists r. split; [|exact C]. apply flatten_in.
        exists (snd (finishLayer (n, rs0))). split; [|exact J]. apply M. exists n, rs0. split; [exact I|].
        rewrite <- F1. now destruct (finishLayer (n, rs0)).
  Qed.

  (** Visits. *)
  Local Notation tileClipper := (addPaths Clip newClipper [tile]).
  Local Notation visitAs := (visitAs execute widen noTags styleOf hasStyle).
  Local Notation claims := (claims wind widen noTags styleOf hasStyle tile).
  Local Notation proper := (proper wind noTags hasStyle).
  Local Notation rings := (rings noTags hasStyle).
  Local Notation inherited := (inherited noTags).
  Lemma tile_clip : allClip tileClipper /\ clipsOf tileClipper = [tile].
  Proof. exact (clips_added newClipper [tile] new_clip). Qed.
  Lemma name_eqb_eq a b : name_eqb a b = true <-> a = b.
  Proof. unfold name_eqb. destruct (list_eq_dec N.eq_dec a b); split; congruence. Qed.
  Lemma pushed n (r : region) ls : forall m x, inLayers (pushRegion n r ls) m x <-> inLayers ls m x \/ (m = n /\ covers (rGeometry r) x).
  Proof.
    induction ls as [|[k rs] ls IH]; intros m x; cbn [pushRegion].
    - split.
      + intros (rs & [[= <- <-] | []] & (r' & [<- | []] & C)). now right.
      + intros [(rs & [] & _) | (-> & C)]. exists [r]. split; [now left|]. exists r. split; [now left|exact C].
    - destruct (name_eqb n k) eqn:E.
      + apply name_eqb_eq in E. subst k. split.
        * intros (rs' & [[= <- <-] | I] & (r' & J & C)).
          -- apply in_app_or in J as [J | [<- | []]]; [|now right]. left. exists rs. split; [now left|now exists r'].
          -- left. exists rs'. split; [now right|now exists r'].
        * intros [(rs' & [[= <- <-] | I] & (r' & J & C)) | (-> & C)].
          -- exists (rs ++ [r]). split; [now left|]. exists r'. split; [apply in_or_app; now left|exact C].
          -- exists rs'. split; [now right|now exists r'].
          -- exists (rs ++ [r]). split; [now left|]. exists r. split; [apply in_or_app; right; now left|exact C].
      + specialize (IH m x). split.
        * intros (rs' & [[= <- <-] | I] & C); [left; exists rs; split; [now left|exact C]|].
          destruct (proj1 IH (ex_intro _ rs' (conj I C))) as [(rs2 & I2 & C2) | C2]; [|now right].
          left. exists rs2. split; [now right|exact C2].
        * intros [(rs' & [[= <- <-] | I] & C) | C].
          -- exists rs. split; [now left|exact C].
          -- destruct (proj2 IH (or_introl (ex_intro _ rs' (conj I C)))) as (rs2 & I2 & C2). exists rs2. split; [now right|exact C2].
          -- destruct (proj2 IH (or_intror C)) as (rs2 & I2 & C2). exists rs2. split; [now right|exact C2].
  Qed.
  Lemma pushed_in n (r : region) ls : forall m rs q, In (m, rs) (pushRegion n r ls) -> In q rs -> (m = n /\ q = r) \/ exists rs', In (m, rs') ls /\ In q rs'.
  Proof.
    induction ls as [|[k ks] ls IH]; intros m rs q; cbn [pushRegion].
    - intros [[= <- <-] | []] [<- | []]. left; split; reflexivity.
    - destruct (name_eqb n k) eqn:E.
      + apply name_eqb_eq in E. subst k. intros [[= <- <-] | I] J.
        * apply in_app_or in J as [J | [<- | []]]; [|left; split; reflexivity]. right. exists ks. split; [now left|exact J].
        * right. exists rs. split; [now right|exact J].
      + intros [[= <- <-] | I] J.
        * right. exists ks. split; [now left|exact J].
        * destruct (IH m rs q I J) as [H | (rs' & I' & J')]; [now left|]. right. exists rs'. split; [now right|exact J'].
  Qed.
  (** What one visit does to the builder: [C] are the claims and [Q] holds for every new region of a layer. *)
  Definition step (Q : name -> region -> Prop) (C : name -> X -> Prop) (b b' : builder) : Prop :=
    bClipper b' = bClipper b /\
    (forall n x, inLayers (bLayers b') n x <-> inLayers (bLayers b) n x \/ C n x) /\
    (forall n rs r, In (n, rs) (bLayers b') -> In r rs -> Q n r \/ exists rs', In (n, rs') (bLayers b) /\ In r rs').
  Definition fresh (n : name) (r : region) : Prop := rContext r = None -> exists k g, sLayer (styleOf k g) = Some n.
  Definition contextFrom (r : region) : Prop := forall k, rContext r = Some k -> exists q g, k = sContext (styleOf q g).
  Definition good (p : Prop) (n : name) (r : region) : Prop := (p -> oriented (rGeometry r)) /\ fresh n r /\ contextFrom r.
  Lemma step_add (p : Prop) k g level area geo b :
    (p -> oriented geo) ->
    step (good p) (fun n x => n = layerOf (styleOf k g) /\ covers geo x) b
      (addRegion (styleOf k g) (mkRegion level area (contextOf (styleOf k g)) geo) b).
  Proof.
    intros O. unfold step, addRegion. cbn [bClipper bLayers]. split; [reflexivity|].
    assert (T : (if isLayer (mkRegion level area (contextOf (styleOf k g)) geo)
                 then match sLayer (styleOf k g) with Some n => n | None => [] end else []) = layerOf (styleOf k g)).
    { unfold isLayer, contextOf, layerOf. cbn. now destruct (sLayer (styleOf k g)). }
    rewrite T. split.
    - intros n x. rewrite pushed. reflexivity.
    - intros n rs r I J. apply (pushed_in _ _ _ _ _ _ I) in J as [(-> & ->) | J]; [|right; exact J]. left. unfold good, fresh, contextFrom. cbn.
      split; [exact O|]. unfold contextOf, layerOf. destruct (sLayer (styleOf k g)) as [m|] eqn:L; (split; [|intros q]); try discriminate.
      + intros _. exists k, g. exact L.
      + intros [= <-]. now exists k, g.
  Qed.
  Lemma step_way (p0 : Prop) g p b : bClipper b = tileClipper ->
    step (good p0) (fun n x => n = layerOf (styleOf KWay g) /\ Z.odd (winding (widen (sWidth (styleOf KWay g)) [p]) x) = true /\
                                Z.odd (winding [tile] x) = true) b (visitWay execute widen (styleOf KWay g) p b).
  Proof.
    intros B. unfold visitWay. rewrite B. destruct tile_clip as (T1 & T2). rewrite removed by exact T1.
    cbn [createRegion rGeometry rLevel rArea rContext]. set (w := widen _ _).
    pose proof (step_add p0 KWay g (sLevel (styleOf KWay g)) 0 (executeIntersection execute (addPaths Subject tileClipper w)) (mkBuilder tileClipper (bLayers b))) as S.
    unfold executeIntersection in *. destruct (subjects_added tileClipper w T1) as (E1 & E2). rewrite E1, E2, T2 in *.
    specialize (S (fun _ => execute_oriented _ _ _ _ _)). destruct S as (S1 & S2 & S3). split; [rewrite S1, B; reflexivity|].
    split; [|exact S3]. intros n x. rewrite (S2 n x). cbn [bLayers]. unfold TerraSpec.covers. rewrite EX. cbn [operate filled].
    split; (intros [H | (H & K)]; [now left|right; split; [exact H|]]).
    - destruct (Z.odd (winding w x)), (Z.odd (winding [tile] x)); cbn in K; try (exfalso; lia). now split.
    - destruct K as (-> & ->). cbn. lia.
  Qed.
  Lemma step_trans (Q1 Q2 Q : name -> region -> Prop) (C1 C2 C : name -> X -> Prop) b1 b2 b3 :
    step Q1 C1 b1 b2 -> step Q2 C2 b2 b3 -> (forall n r, Q1 n r -> Q n r) -> (forall n r, Q2 n r -> Q n r) ->
    (forall n x, C n x <-> C1 n x \/ C2 n x) -> step Q C b1 b3.
  Proof.
    intros (A1 & A2 & A3) (B1 & B2 & B3) H1 H2 H3. split; [congruence|]. split.
    - intros n x. rewrite B2, A2, H3. tauto.
    - intros n rs r I J. destruct (B3 n rs r I J) as [K | (rs' & I' & J')]; [left; now apply H2|].
      destruct (A3 n rs' r I' J') as [K | K]; [left; now apply H1|now right].
  Qed.
  Lemma step_refl Q b : step Q (fun _ _ => False) b b.
  Proof. split; [reflexivity|]. split; [tauto|]. intros n rs r I J. right. now exists rs. Qed.
  Lemma step_weaken (Q1 Q2 : name -> region -> Prop) (C1 C2 : name -> X -> Prop) b1 b2 :
    step Q1 C1 b1 b2 -> (forall n r, Q1 n r -> Q2 n r) -> (forall n x, C1 n x <-> C2 n x) -> step Q2 C2 b1 b2.
  Proof.
    intros (A1 & A2 & A3) H1 H2. split; [exact A1|]. split.
    - intros n x. rewrite A2, H2. tauto.
    - intros n rs r I J. destruct (A3 n rs r I J) as [K | K]; [left; now apply H1|now right].
  Qed.

  (** The loop over members, named. *)
  Definition members (g : G) : list (element) -> builder -> list P -> builder * list P :=
    fix members (es : list element) (b : builder) (geometry : list P) : builder * list P :=
      match es with
      | [] => (b, geometry)
      | m :: es =>
        let mg := memberTags noTags g m in
        if hasStyle (kindOf m) mg then
          match m with
          | Area _ p => members es b (geometry ++ [p])
          | _ => members es (visitAs mg m b) geometry
          end
        else members es b geometry
      end.
  Lemma visit_relation g g0 es b : visitAs g (Relation g0 es) b =
    let '(b, geometry) := members g es b [] in
    match geometry with
    | [] => b
    | _ => let s := styleOf KRelation g in addRegion s (mkRegion 0 0 (contextOf s) geometry) b
    end.
  Proof. reflexivity. Qed.
  Definition memberClaims (g : G) (es : list element) (n : name) (x : X) : Prop :=
    exists m, In m es /\ kindOf m <> KArea /\ hasStyle (kindOf m) (inherited g m) = true /\ claims (inherited g m) m n x.
  Definition visits (e : element) : Prop := forall g b, bClipper b = tileClipper -> step (good (proper g e)) (claims g e) b (visitAs g e b).
  Lemma members_ok g es : Forall visits es -> forall b geo, bClipper b = tileClipper ->
    snd (members g es b geo) = geo ++ rings g es /\
    step (good (forall m, In m es -> kindOf m <> KArea -> proper (inherited g m) m)) (memberClaims g es) b (fst (members g es b geo)).
  Proof.
    induction 1 as [|m es V F IH]; intros b geo B.
    - cbn. rewrite app_nil_r. split; [reflexivity|]. apply (step_weaken _ _ _ _ _ _ (step_refl _ b)) with (1 := fun n r H => H).
      intros n x. split; [intros []|]. intros (m & [] & _).
    - assert (Skip : kindOf m = KArea \/ hasStyle (kindOf m) (inherited g m) = false -> forall b', 
        step (good (forall m, In m es -> kindOf m <> KArea -> proper (inherited g m) m)) (memberClaims g es) b b' ->
        step (good (forall m0, In m0 (m :: es) -> kindOf m0 <> KArea -> proper (inherited g m0) m0)) (memberClaims g (m :: es)) b b').
      { intros K b' S. apply (step_weaken _ _ _ _ _ _ S).
        - intros n r (H1 & H2). split; [|exact H2]. intros H. apply H1. intros m' I. apply H. now right.
        - intros n x. split; intros (m' & I & A1 & A2 & A3).
          + exists m'. split; [now right|]. now repeat split.
          + destruct I as [<- | I]; [destruct K; congruence|]. exists m'. now repeat split. }
      assert (Take : kindOf m <> KArea -> hasStyle (kindOf m) (inherited g m) = true -> forall b',
        step (good (forall m, In m es -> kindOf m <> KArea -> proper (inherited g m) m)) (memberClaims g es) (visitAs (inherited g m) m b) b' ->
        step (good (forall m0, In m0 (m :: es) -> kindOf m0 <> KArea -> proper (inherited g m0) m0)) (memberClaims g (m :: es)) b b').
      { intros K1 K2 b' S. apply (step_trans _ _ _ _ _ _ _ _ _ (V (inherited g m) b B) S).
        - intros n r (H1 & H2). split; [|exact H2]. intros H. apply H1. apply H; [now left|exact K1].
        - intros n r (H1 & H2). split; [|exact H2]. intros H. apply H1. intros m' I. apply H. now right.
        - intros n x. split.
          + intros (m' & [<- | I] & A1 & A2 & A3); [now left|right]. exists m'. now repeat split.
          + intros [A | (m' & I & A)]; [exists m; split; [now left|now repeat split]|exists m'; split; [now right|exact A]]. }
      destruct (V (inherited g m) b B) as (VB & _ & _). rewrite B in VB.
      cbn [members rings TerraSpec.rings flat_map]. change (memberTags noTags g m) with (inherited g m).
      destruct (hasStyle (kindOf m) (inherited g m)) eqn:Hs; [destruct m as [g1|g1 p|g1 p|g1 es1]|].
      + destruct (IH (visitAs (inherited g (Node g1)) (Node g1) b) geo VB) as (I1 & I2). split; [exact I1|]. apply Take; [discriminate|reflexivity|exact I2].
      + destruct (IH (visitAs (inherited g (Way g1 p)) (Way g1 p) b) geo VB) as (I1 & I2). split; [exact I1|]. apply Take; [discriminate|reflexivity|exact I2].
      + cbn [kindOf] in Hs. rewrite Hs. destruct (IH b (geo ++ [p]) B) as (I1 & I2). split.
        * rewrite I1, <- app_assoc. reflexivity.
        * apply Skip; [now left|exact I2].
      + destruct (IH (visitAs (inherited g (Relation g1 es1)) (Relation g1 es1) b) geo VB) as (I1 & I2). split; [exact I1|].
        apply Take; [discriminate|reflexivity|exact I2].
      + destruct (IH b geo B) as (I1 & I2). split.
        * rewrite I1. destruct m; try reflexivity. cbn [kindOf] in Hs. now rewrite Hs.
        * apply Skip; [now right|exact I2].
  Qed.
  Lemma visit_ok e : visits e.
  Proof.
    induction e as [g0|g0 p|g0 p|g0 es V] using element_rect'; intros g b B.
    - cbn. apply (step_weaken _ _ _ _ _ _ (step_refl _ b)) with (1 := fun n r H => H). intros n x. split; [intros []|intros H; inversion H].
    - cbn. apply (step_weaken _ _ _ _ _ _ (step_way _ g p b B)) with (1 := fun n r H => H). intros n x. split.
      + intros (-> & H1 & H2). now constructor.
      + intros H. inversion H; subst. now repeat split.
    - cbn. unfold visitArea, createRegion.
      assert (O : proper g (Area g0 p) -> oriented [p]) by (intros H; now inversion H).
      apply (step_weaken _ _ _ _ _ _ (step_add (proper g (Area g0 p)) KArea g (sLevel (styleOf KArea g)) 0 [p] b O)) with (1 := fun n r H => H).
      intros n x. split.
      + intros (-> & H). now constructor.
      + intros H. inversion H; subst. now split.
    - rewrite visit_relation. destruct (members_ok g es V b [] B) as (M1 & M2). destruct (members g es b []) as [b' geo].
      cbn [fst snd app] in M1, M2. subst geo.
      assert (O1 : proper g (Relation g0 es) -> oriented (rings g es)) by (intros H; now inversion H).
      assert (O2 : proper g (Relation g0 es) -> forall m, In m es -> kindOf m <> KArea -> proper (inherited g m) m) by (intros H; now inversion H).
      assert (Q2 : forall n r, good (forall m, In m es -> kindOf m <> KArea -> proper (inherited g m) m) n r -> good (proper g (Relation g0 es)) n r).
      { intros n r (H1 & H2). split; [|exact H2]. intros H. apply H1. now apply O2. }
      assert (CE : forall n x, claims g (Relation g0 es) n x <-> memberClaims g es n x \/ (n = layerOf (styleOf KRelation g) /\ covers (rings g es) x)).
      { intros n x. split.
        - intros H. inversion H; subst; [now right|left]. now exists m.
        - intros [(m & A1 & A2 & A3 & A4) | (-> & A)]; [now apply ClaimsMember with m|now constructor]. }
      destruct (rings g es) as [|p0 ps0] eqn:R.
      + apply (step_weaken _ _ _ _ _ _ M2 Q2). intros n x. rewrite CE. split; [now left|]. intros [H | (_ & H)]; [exact H|now apply covers_nil in H].
      + rewrite <- R in *. cbv zeta.
        apply (step_trans _ _ _ _ _ _ _ _ _ M2 (step_add (proper g (Relation g0 es)) KRelation g 0 0 (rings g es) b' O1) Q2 (fun n r H => H) CE).
  Qed.
  Local Notation visit := (visit execute widen noTags styleOf hasStyle).
  Lemma visits_ok es : forall b, bClipper b = tileClipper ->
    step (good (forall e, In e es -> proper (tagsOf e) e)) (fun n x => exists e, In e es /\ claims (tagsOf e) e n x) b (fold_left visit es b).
  Proof.
    induction es as [|e es IH]; intros b B; cbn [fold_left].
    - apply (step_weaken _ _ _ _ _ _ (step_refl _ b)) with (1 := fun n r H => H). intros n x. split; [intros []|intros (e & [] & _)].
    - pose proof (visit_ok e (tagsOf e) b B) as V.
      assert (VB : bClipper (visit b e) = tileClipper) by (rewrite <- B; apply V).
      apply (step_trans _ _ _ _ _ _ _ _ _ V (IH _ VB)).
      + intros n r (H1 & H2). split; [|exact H2]. intros H. apply H1, H. now left.
      + intros n r (H1 & H2). split; [|exact H2]. intros H. apply H1. intros e' I. apply H. now right.
      + intros n x. split.
        * intros (e' & [<- | I] & C); [now left|right; now exists e'].
        * intros [C | (e' & I & C)]; [exists e; split; [now left|exact C]|exists e'; split; [now right|exact C]].
  Qed.
  Local Notation newBuilder := (newBuilder tile).
  Local Notation claimed := (claimed wind widen noTags styleOf hasStyle tile).
  Local Notation generateFrom := (generateFrom execute clean area2 canvasContext tile).
  Local Notation buildTerrain := (buildTerrain execute clean widen area2 noTags styleOf hasStyle canvasContext canvasOrder tile sortRegions sortLayers).
  Lemma layers_after es : (forall e, In e es -> proper (tagsOf e) e) ->
    layers_oriented (bLayers (fold_left visit es newBuilder)) /\
    forall o x, (exists n, o = orderOf canvasOrder n /\ inLayers (bLayers (fold_left visit es newBuilder)) n x) <-> claimed canvasOrder es o x.
  Proof.
    intros H. destruct (visits_ok es newBuilder eq_refl) as (_ & V2 & V3). split.
    - intros n rs r I J. destruct (V3 n rs r I J) as [(K & _) | (rs' & [] & _)]. now apply K.
    - intros o x. unfold TerraSpec.claimed. split.
      + intros (n & E & L). apply V2 in L as [(rs & [] & _) | (e & I & C)]. now exists e, n.
      + intros (e & n & I & C & E). exists n. split; [exact E|]. apply V2. right. now exists e.
  Qed.

  Lemma generate_ok layers t : generateFrom layers = Ok t ->
    map (fun s => (sfOrder s, sfRegion s)) (teSurfaces t) = flatten layers /\ drawn [] (teSurfaces t) /\
    (forall x, covers (teAll t) x <-> covers [tile] x /\ winding (flat_map sfKept (teSurfaces t)) x = 0) /\ teKept t = filter kept (teAll t).
  Proof.
    unfold TerraModel.generateFrom. intros E. fold (flatten layers) in E.
    destruct (buildForeground newClipper newClipper (flatten layers)) as [[bg ss]| |] eqn:F; try discriminate E. cbn [bind] in E.
    apply foreground_ok in F as (F1 & F2 & F3 & F4); [|exact new_clip|exact new_clip]. cbn in F2, F4.
    unfold buildBackground, executeDifference in E. destruct (subjects_added bg [tile] F3) as (S1 & S2). rewrite S1, S2, F4 in E.
    pose proof (fun x => winding_difference [tile] (flat_map sfKept ss) x) as D.
    destruct (execute Difference NonZero NonZero [tile] (flat_map sfKept ss)) as [|p ps] eqn:X0.
    - cbn [bind] in E. injection E as <-. cbn [teSurfaces teAll teKept]. repeat split; try assumption; try reflexivity.
      + now apply covers_nil in H.
      + now apply covers_nil in H.
      + intros (H1 & H2). specialize (D x). unfold TerraSpec.covers in H1. cbn in D, H1, H2 |- *. rewrite H2 in D.
        destruct (Z.eqb_spec (wind tile x + 0) 0); [lia|cbn in D; lia].
    - rewrite <- X0 in E. destruct (addGeometry _ _) as [[[all kp] parts]| |] eqn:A; try discriminate E. cbn [bind] in E. injection E as <-.
      apply addGeometry_ok in A as (-> & ->). cbn [teSurfaces teAll teKept].
      split; [exact F1|]. split; [exact F2|]. split; [|reflexivity]. intros x. apply covers_tidy_difference.
  Qed.

  Lemma terrain_surfaces es t : (forall e, In e es -> proper (tagsOf e) e) -> buildTerrain false es = Ok (Some t) ->
    (forall s, In s (teSurfaces t) -> oriented (rGeometry (sfRegion s))) /\
    StronglySorted (fun a b => sfOrder b <= sfOrder a) (teSurfaces t) /\
    (forall o x, (exists s, In s (teSurfaces t) /\ sfOrder s = o /\ covers (rGeometry (sfRegion s)) x) <-> claimed canvasOrder es o x).
  Proof.
    intros H E. unfold TerraModel.buildTerrain, complete in E. cbn in E.
    destruct (generateFrom _) as [t'| |] eqn:Gn; try discriminate E. cbn in E. injection E as ->.
    apply generate_ok in Gn as (G1 & _). destruct (layers_after es H) as (L1 & L2). destruct (finished _ L1) as (F1 & F2 & F3).
    assert (M : forall s, In s (teSurfaces t) -> In (sfOrder s, sfRegion s) (flatten (finishLayers (bLayers (fold_left visit es newBuilder))))).
    { intros s I. rewrite <- G1. apply in_map_iff. now exists s. }
    split; [|split].
    - intros s I. apply (F2 _ _ (M s I)).
    - rewrite <- G1 in F1. clear - F1. induction (teSurfaces t) as [|s ss IH]; [constructor|]. cbn in F1.
      apply StronglySorted_inv in F1 as (F1 & F2). constructor; [now apply IH|]. apply Forall_forall. intros s' I.
      rewrite Forall_forall in F2. specialize (F2 (sfOrder s', sfRegion s')). cbn in F2. apply F2. apply in_map_iff. now exists s'.
    - intros o x. rewrite <- L2, <- F3. split.
      + intros (s & I & <- & C). exists (sfRegion s). split; [now apply M|exact C].
      + intros (r & I & C). rewrite <- G1 in I. apply in_map_iff in I as (s & [= <- <-] & I). now exists s.
  Qed.
  Lemma terrain_drawn es t : buildTerrain false es = Ok (Some t) -> drawn [] (teSurfaces t) /\
    (forall x, covers (teAll t) x <-> covers [tile] x /\ winding (flat_map sfKept (teSurfaces t)) x = 0) /\ teKept t = filter kept (teAll t).
  Proof.
    intros E. unfold TerraModel.buildTerrain, complete in E. cbn in E.
    destruct (generateFrom _) as [t'| |] eqn:Gn; try discriminate E. cbn in E. injection E as ->. now apply generate_ok in Gn.
  Qed.
  Lemma first_covering (ss : list surface) x : (exists s, In s ss /\ covers (rGeometry (sfRegion s)) x) ->
    exists s1 s s2, ss = s1 ++ s :: s2 /\ covers (rGeometry (sfRegion s)) x /\ forall s', In s' s1 -> ~ covers (rGeometry (sfRegion s')) x.
  Proof.
    induction ss as [|s0 ss IH]; intros (s & I & C); [destruct I|].
    destruct (covers_dec wind (rGeometry (sfRegion s0)) x) as [C0 | C0].
    - exists [], s0, ss. split; [reflexivity|]. split; [exact C0|intros ? []].
    - destruct I as [<- | I]; [contradiction|]. destruct IH as (s1 & s' & s2 & -> & C' & N); [now exists s|].
      exists (s0 :: s1), s', s2. split; [reflexivity|]. split; [exact C'|]. intros s3 [<- | I3]; [exact C0|now apply N].
  Qed.
  Lemma surface_first es t : (forall e, In e es -> proper (tagsOf e) e) -> buildTerrain false es = Ok (Some t) ->
    forall s1 s s2 x, teSurfaces t = s1 ++ s :: s2 ->
    (covers (sfAll s) x <-> covers (rGeometry (sfRegion s)) x /\ forall s', In s' s1 -> ~ covers (rGeometry (sfRegion s')) x).
  Proof.
    intros H E s1 s s2 x Es. destruct (terrain_drawn es t E) as (D & _). destruct (terrain_surfaces es t H E) as (O & _).
    rewrite (drawn_at _ [] D O (oriented_nil wind) s1 s s2 x Es). split.
    - intros (A & _ & B). now split.
    - intros (A & B). repeat split; [exact A|apply covers_nil|exact B].
  Qed.
  Lemma highest es t : (forall e, In e es -> proper (tagsOf e) e) -> buildTerrain false es = Ok (Some t) ->
    forall o x, (exists s, In s (teSurfaces t) /\ sfOrder s = o /\ covers (sfAll s) x) <->
                (claimed canvasOrder es o x /\ forall o', claimed canvasOrder es o' x -> o' <= o).
  Proof.
    intros H E o x. destruct (terrain_surfaces es t H E) as (O & S & C).
    assert (Up : forall s1 s s2, teSurfaces t = s1 ++ s :: s2 -> (forall s', In s' s1 -> ~ covers (rGeometry (sfRegion s')) x) ->
      forall o', claimed canvasOrder es o' x -> o' <= sfOrder s).
    { intros s1 s s2 Es N o' Cl. apply C in Cl as (s' & I & <- & K). rewrite Es in I, S. apply in_app_or in I as [I | [<- | I]].
      - now apply N in I.
      - lia.
      - clear - I S. induction s1 as [|a s1 IH]; cbn in S; apply StronglySorted_inv in S as (S1 & S2).
        + rewrite Forall_forall in S2. now apply S2.
        + now apply IH. }
    split.
    - intros (s & I & <- & K). apply in_split in I as (s1 & s2 & Es). apply (surface_first es t H E s1 s s2 x Es) in K as (K1 & K2). split.
      + apply C. exists s. split; [rewrite Es; apply in_or_app; right; now left|now split].
      + now apply (Up s1 s s2).
    - intros (Cl & Mx). pose proof Cl as Cl'. apply C in Cl' as (s0 & I0 & E0 & K0).
      destruct (first_covering (teSurfaces t) x) as (s1 & s & s2 & Es & K & N); [now exists s0|].
      exists s. assert (I : In s (teSurfaces t)) by (rewrite Es; apply in_or_app; right; now left). split; [exact I|]. split.
      + pose proof (Up s1 s s2 Es N o Cl). assert (sfOrder s <= o); [|lia]. apply Mx. apply C. now exists s.
      + apply (surface_first es t H E s1 s s2 x Es). now split.
  Qed.
  Lemma alone es t : (forall e, In e es -> proper (tagsOf e) e) -> buildTerrain false es = Ok (Some t) ->
    forall s1 s s2 s' x, teSurfaces t = s1 ++ s :: s2 -> In s' s2 -> covers (sfAll s) x -> ~ covers (sfAll s') x.
  Proof.
    intros H E s1 s s2 s' x Es I C C'. apply in_split in I as (a & b & ->).
    assert (Es' : teSurfaces t = (s1 ++ s :: a) ++ s' :: b) by (rewrite Es, <- app_assoc; reflexivity).
    apply (surface_first es t H E _ s' b x Es') in C' as (_ & N). apply (N s); [apply in_or_app; right; now left|].
    now apply (surface_first es t H E s1 s _ x Es) in C.
  Qed.
  Lemma background es t : buildTerrain false es = Ok (Some t) -> (forall s, In s (teSurfaces t) -> oriented (sfKept s)) ->
    forall x, covers (teAll t) x <-> covers [tile] x /\ forall s, In s (teSurfaces t) -> ~ covers (sfKept s) x.
  Proof.
    intros E O x. destruct (terrain_drawn es t E) as (_ & B & _). rewrite B. clear B E.
    split; intros (A & B); (split; [exact A|]).
    - induction (teSurfaces t) as [|s ss IH]; [intros s []|]. cbn in B. rewrite winding_app in B.
      assert (0 <= winding (flat_map sfKept ss) x).
      { clear IH B. assert (O' : forall s, In s ss -> oriented (sfKept s)) by (intros; apply O; now right). clear O.
        induction ss as [|s' ss IH]; cbn; [lia|]. rewrite winding_app. pose proof (O' s' (or_introl eq_refl) x).
        specialize (IH (fun s I => O' s (or_intror I))). lia. }
      pose proof (O s (or_introl eq_refl) x). intros s' [<- | I]; [unfold TerraSpec.covers; lia|].
      apply IH; [intros; apply O; now right|lia|exact I].
    - induction (teSurfaces t) as [|s ss IH]; [reflexivity|]. cbn. rewrite winding_app.
      rewrite IH; [|intros; apply O; now right|intros; apply B; now right].
      pose proof (B s (or_introl eq_refl)) as N. unfold TerraSpec.covers in N. lia.
  Qed.

  (** Contexts and extras. *)
  Definition known (k : context) : Prop := cExtras k = [] \/ cExtras k = forestName \/ cExtras k = waterName.
  Lemma extras_known k : known k -> extrasFor k = Ok tt.
  Proof. unfold extrasFor. intros [-> | [-> | ->]]; reflexivity. Qed.
  Lemma addGeometry_known g k : known k -> exists r, addGeometry g k = Ok r.
  Proof.
    intros K. unfold TerraModel.addGeometry, addPolygon. rewrite (extras_known k K). cbn [bind].
    destruct (filter kept (tidy g)); eexists; reflexivity.
  Qed.
  Lemma foreground_total rs : (forall o r, In (o, r) rs -> exists k, rContext r = Some k /\ known k) ->
    forall fg bg, exists r, buildForeground fg bg rs = Ok r.
  Proof.
    induction rs as [|[o r] rs IH]; intros H fg bg; [eexists; reflexivity|]. cbn. unfold TerraModel.buildRegion.
    destruct (H o r (or_introl eq_refl)) as (k & -> & K). destruct (addGeometry_known (executeDifference execute (addPaths Subject fg (rGeometry r))) k K) as ([[all ps] parts] & ->).
    cbn. destruct (IH (fun o r I => H o r (or_intror I)) (moveSubjectToClip (addPaths Subject fg (rGeometry r))) (addPaths Clip bg ps)) as ([bg' ss] & ->).
    eexists; reflexivity.
  Qed.
  Lemma generate_total layers : known (canvasContext []) -> (forall o r, In (o, r) (flatten layers) -> exists k, rContext r = Some k /\ known k) ->
    exists t, generateFrom layers = Ok t.
  Proof.
    intros K H. unfold TerraModel.generateFrom. fold (flatten layers). destruct (foreground_total _ H newClipper newClipper) as ([bg ss] & ->).
    cbn [bind]. unfold buildBackground. destruct (executeDifference _ _) as [|p ps]; [eexists; reflexivity|].
    destruct (addGeometry_known (p :: ps) (canvasContext []) K) as ([[all kp] parts] & ->). eexists; reflexivity.
  Qed.
  Lemma merged_context k rs r : In r (mergeRegions execute area2 k rs) -> rContext r = Some k.
  Proof. unfold mergeRegions. intros I. apply in_map_iff in I as (lc & <- & _). reflexivity. Qed.
  Lemma terrain_total es : (forall k g, sLayer (styleOf k g) <> Some []) -> (forall k g, known (sContext (styleOf k g))) -> (forall n, known (canvasContext n)) ->
    exists t, buildTerrain false es = Ok (Some t).
  Proof.
    intros L K1 K2. unfold TerraModel.buildTerrain, complete. cbv iota.
    destruct (generate_total (finishLayers (bLayers (fold_left visit es newBuilder)))) as (t & ->); [apply K2| |exists t; reflexivity].
    intros o r I. apply flatten_in in I as (rs & I & J). unfold TerraModel.finishLayers in I.
    destruct (SL moreThanSortOrder (map finishLayer (bLayers (fold_left visit es newBuilder))) weak_order) as (Pm & _).
    apply (Permutation_in _ (Permutation_sym Pm)) in I. apply in_map_iff in I as ([n rs0] & E & I).
    unfold TerraModel.finishLayer in E. cbn [fst snd] in E. destruct n as [|c n].
    - injection E as _ <-. destruct (SR lessThanByArea rs0 weak_area) as (Pr & _). apply (Permutation_in _ (Permutation_sym Pr)) in J.
      destruct (visits_ok es newBuilder eq_refl) as (_ & _ & V). destruct (V [] rs0 r I J) as [(_ & F & C) | (? & [] & _)].
      destruct (rContext r) as [k|] eqn:R.
      + exists k. split; [reflexivity|]. destruct (C k R) as (q & g & ->). apply K1.
      + destruct (F R) as (k & g & S). now apply L in S.
    - injection E as _ <-. destruct (SR lessThanByArea (mergeRegions execute area2 (canvasContext (c :: n)) rs0) weak_area) as (Pr & _).
      apply (Permutation_in _ (Permutation_sym Pr)) in J. apply merged_context in J. exists (canvasContext (c :: n)). split; [exact J|apply K2].
  Qed.

  (** Parts of meshes. *)
  Definition partsOf (s : surface) : Prop :=
    exists k, rContext (sfRegion s) = Some k /\
      sfParts s = (if cRaised k then map (fun p => mkPart [] true [p]) (sfKept s) else []) ++
                  (match sfKept s with [] => [] | _ => [mkPart (cMesh k) false (sfKept s)] end).
  Lemma addGeometry_parts g k all ps parts : addGeometry g k = Ok (all, ps, parts) ->
    parts = (if cRaised k then map (fun p => mkPart [] true [p]) ps else []) ++ match ps with [] => [] | _ => [mkPart (cMesh k) false ps] end.
  Proof.
    unfold TerraModel.addGeometry, addPolygon. destruct (filter kept (tidy g)) as [|p l] eqn:E.
    - intros [= _ <- <-]. cbn. now destruct (cRaised k).
    - destruct (extrasFor k); cbn; intros [= _ <- <-]. reflexivity.
  Qed.
  Lemma foreground_parts rs : forall fg bg bg' ss, buildForeground fg bg rs = Ok (bg', ss) -> Forall partsOf ss.
  Proof.
    induction rs as [|[o r] rs IH]; intros fg bg bg' ss E.
    - cbn in E. injection E as _ <-. constructor.
    - cbn in E. unfold TerraModel.buildRegion in E. destruct (rContext r) as [k|] eqn:R; [|discriminate E].
      destruct (addGeometry _ k) as [[[all ps] parts]| |] eqn:A; try discriminate E. cbn in E.
      destruct (buildForeground _ _ rs) as [[bg2 ss2]| |] eqn:E2; try discriminate E. cbn in E. injection E as _ <-.
      constructor; [|exact (IH _ _ _ _ E2)]. exists k. split; [exact R|]. cbn [sfKept sfParts]. exact (addGeometry_parts _ _ _ _ _ A).
  Qed.
  Lemma generate_parts layers t : generateFrom layers = Ok t -> Forall partsOf (teSurfaces t) /\
    teParts t = flat_map sfParts (teSurfaces t) ++
      (let k := canvasContext [] in (if cRaised k then map (fun p => mkPart [] true [p]) (teKept t) else []) ++
       match teKept t with [] => [] | _ => [mkPart (cMesh k) false (teKept t)] end).
  Proof.
    unfold TerraModel.generateFrom. intros E. fold (flatten layers) in E.
    destruct (buildForeground newClipper newClipper (flatten layers)) as [[bg ss]| |] eqn:F; try discriminate E. cbn [bind] in E.
    apply foreground_parts in F. unfold buildBackground in E. destruct (executeDifference _ _) as [|p ps].
    - cbn [bind] in E. injection E as <-. cbn [teSurfaces teKept teParts]. split; [exact F|]. f_equal. cbn. now destruct (cRaised _).
    - destruct (addGeometry (p :: ps) _) as [[[all kp] parts]| |] eqn:A; try discriminate E. cbn [bind] in E. injection E as <-.
      apply addGeometry_parts in A. cbn [teSurfaces teKept teParts]. split; [exact F|]. now rewrite A.
  Qed.
  Lemma terrain_parts es t : buildTerrain false es = Ok (Some t) -> Forall partsOf (teSurfaces t) /\
    teParts t = flat_map sfParts (teSurfaces t) ++
      (let k := canvasContext [] in (if cRaised k then map (fun p => mkPart [] true [p]) (teKept t) else []) ++
       match teKept t with [] => [] | _ => [mkPart (cMesh k) false (teKept t)] end).
  Proof.
    intros E. unfold TerraModel.buildTerrain, complete in E. cbv iota in E.
    destruct (generateFrom _) as [t'| |] eqn:Gn; try discriminate E. cbn in E. injection E as ->. exact (generate_parts _ _ Gn).
  Qed.
End Terra.
