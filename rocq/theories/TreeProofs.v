(** Proofs about trees made by L-systems. *)
From Coq Require Import Reals Lra Lia Permutation.
From Verif Require Import Base Bytes GeoModel RingModel MeshBuildModel MeshBuildSpec MeshBuildProofs QuatModel QuatSpec QuatProofs
  GenModel GenSpec GenProofs GenCylinderProofs MetreModel LsysModel LsysParseModel PlaneSpec PlaneProofs RowModel RowSpec TreeModel TreeSpec.
Local Open Scope nat_scope.

(** * Texts *)
Lemma split_some c s : exists p ps, splitBy c s = p :: ps.
Proof.
  induction s as [|b s (p & ps & E)]; cbn [splitBy]; [eauto|]. rewrite E. destruct (N.eqb b c); eauto.
Qed.
Lemma split_parts c s : partsOf c s (splitBy c s).
Proof.
  induction s as [|b s (_ & J & F)]; [split; [discriminate|]; split; [reflexivity|]; repeat constructor; intros []|].
  destruct (split_some c s) as (p & ps & E). cbn [splitBy]. rewrite E in *. destruct (N.eqb_spec b c) as [->|Ne].
  - split; [discriminate|]. split; [|constructor; [intros []|exact F]]. cbn [joined app] in *. now rewrite J.
  - split; [discriminate|]. inversion_clear F as [|? ? Fp Fs]. split.
    + cbn [joined] in *. destruct ps; cbn [app]; now rewrite <- J.
    + constructor; [|exact Fs]. intros [<-|I]; [now apply Ne|now apply Fp].
Qed.
Lemma parts_split c s l : partsOf c s l -> l = splitBy c s.
Proof.
  revert s. induction l as [|p l IH]; intros s (Ne & J & F); [contradiction|]. clear Ne. inversion_clear F as [|? ? Fp Fs].
  destruct l as [|q l].
  - cbn [joined] in J. subst s. clear IH Fs. induction p as [|b p IH]; [reflexivity|]. cbn [splitBy].
    destruct (N.eqb_spec b c) as [->|N]; [exfalso; apply Fp; now left|]. rewrite <- IH; [reflexivity|]. intros I. apply Fp. now right.
  - specialize (IH (joined c (q :: l))). subst s. change (joined c (p :: q :: l)) with (p ++ c :: joined c (q :: l)).
    assert (E : q :: l = splitBy c (joined c (q :: l))) by (apply IH; repeat split; [discriminate|exact Fs]).
    rewrite E at 1. clear IH E Fs. induction p as [|b p IH].
    + cbn [app splitBy]. now rewrite N.eqb_refl.
    + cbn [app splitBy]. destruct (N.eqb_spec b c) as [->|N]; [exfalso; apply Fp; now left|]. rewrite <- IH; [reflexivity|].
      intros I. apply Fp. now right.
Qed.
Lemma parts_iff c s l : partsOf c s l <-> l = splitBy c s.
Proof. split; [apply parts_split|]. intros ->. apply split_parts. Qed.

(** * Short numbers *)
Definition decimalFrom (a : N) (ds : bytes) : N := fold_left (fun a b => (10 * a + (b - 48))%N) ds a.
Lemma decimal_grows ds : forall a, (a <= decimalFrom a ds)%N.
Proof.
  induction ds as [|b ds IH]; intros a; cbn [decimalFrom fold_left]; [lia|].
  etransitivity; [|apply IH]. lia.
Qed.
Lemma short_digits ds : forall a v, shortDigits ds a = Some v <->
  Forall isDigit ds /\ v = decimalFrom a ds /\ (ds = [] \/ (v < 65536)%N).
Proof.
  induction ds as [|b ds IH]; intros a v; cbn [shortDigits].
  - unfold decimalFrom. cbn [fold_left]. split.
    + intros [= ->]. repeat split; auto.
    + intros (_ & -> & _). reflexivity.
  - change (decimalFrom a (b :: ds)) with (decimalFrom (10 * a + (b - 48)) ds).
    replace (a * 10 + (b - 48))%N with (10 * a + (b - 48))%N by lia.
    destruct (N.leb_spec 48 b) as [L|L]; [|split; [discriminate|intros (F & _); inversion_clear F as [|? ? D _]; unfold isDigit in D; lia]].
    destruct (N.leb_spec b 57) as [L'|L']; [|split; [discriminate|intros (F & _); inversion_clear F as [|? ? D _]; unfold isDigit in D; lia]].
    cbn [andb]. pose proof (decimal_grows ds (10 * a + (b - 48))) as G.
    destruct (N.ltb_spec (10 * a + (b - 48)) 65536) as [M|M].
    + rewrite IH. split.
      * intros (F & E & B). split; [constructor; [split; assumption|exact F]|]. split; [exact E|]. right.
        destruct B as [->|B]; [|exact B]. rewrite E. exact M.
      * intros (F & E & B). inversion_clear F. split; [assumption|]. split; [exact E|]. right. destruct B as [B|B]; [discriminate|exact B].
    + split; [discriminate|]. intros (_ & E & B). destruct B as [B|B]; [discriminate|lia].
Qed.
Lemma digit_plus b : isDigit b -> b <> 43%N /\ b <> 45%N.
Proof. unfold isDigit. lia. Qed.
Lemma cast_cases bs : castShort bs =
  match bs with
  | [] => None
  | b :: ds =>
      if N.eqb b 43 then match ds with [] => None | _ => shortDigits ds 0 end
      else if N.eqb b 45 then match ds with [] => None | _ => option_map (fun x => ((65536 - x) mod 65536)%N) (shortDigits ds 0) end
      else shortDigits bs 0
  end.
Proof.
  destruct bs as [|b ds]; [reflexivity|]. destruct (N.eqb_spec b 43) as [->|A]; [destruct ds; reflexivity|].
  destruct (N.eqb_spec b 45) as [->|B]; [destruct ds; reflexivity|].
  unfold castShort. destruct b as [|p]; [reflexivity|].
  do 6 (destruct p as [p|p|]; try reflexivity); try (now contradiction A); try (now contradiction B).
Qed.
Lemma cast_short bs v : castShort bs = Some v <-> shortText bs v.
Proof.
  rewrite cast_cases. unfold shortText. destruct bs as [|b ds].
  { split; [discriminate|]. intros (sign & ds & E & Ne & _). symmetry in E. apply app_eq_nil in E. destruct E as (_ & E). contradiction. }
  destruct (N.eqb_spec b 43) as [->|A]; [|destruct (N.eqb_spec b 45) as [->|B]].
  - destruct ds as [|d ds].
    + split; [discriminate|]. intros (sign & ds & E & Ne & F & _ & _ & S). exfalso.
      destruct S as [([->| ->] & _)|(-> & _)]; cbn [app] in E.
      * subst ds. inversion_clear F as [|? ? D _]. now apply digit_plus in D.
      * injection E as E. now symmetry in E.
      * discriminate.
    + rewrite short_digits. split.
      * intros (F & E & [Bd|Bd]); [discriminate|]. exists [43%N], (d :: ds). subst v. change (decimal (d :: ds)) with (decimalFrom 0 (d :: ds)).
        repeat split; auto. discriminate.
      * intros (sign & ds' & E & Ne & F & L & _ & S). destruct S as [([->| ->] & ->)|(-> & _)]; cbn [app] in E.
        -- subst ds'. inversion_clear F as [|? ? D _]. now apply digit_plus in D.
        -- injection E as <-. repeat split; auto.
        -- discriminate.
  - destruct ds as [|d ds].
    + split; [discriminate|]. intros (sign & ds & E & Ne & F & _ & _ & S). exfalso.
      destruct S as [([->| ->] & _)|(-> & _)]; cbn [app] in E.
      * subst ds. inversion_clear F as [|? ? D _]. now apply digit_plus in D.
      * discriminate.
      * injection E as E. now symmetry in E.
    + split.
      * destruct (shortDigits (d :: ds) 0) as [x|] eqn:E; [|discriminate]. apply short_digits in E. destruct E as (F & E & [Bd|Bd]); [discriminate|].
        cbn [option_map]. intros [= <-]. exists [45%N], (d :: ds). change (decimal (d :: ds)) with (decimalFrom 0 (d :: ds)). rewrite <- E.
        split; [reflexivity|]. split; [discriminate|]. split; [exact F|]. split; [exact Bd|].
        split; [apply N.mod_lt; discriminate|]. right. split; [reflexivity|].
        clear -Bd. destruct (N.eq_dec x 0) as [->|Z]; [reflexivity|]. rewrite (N.mod_small (65536 - x)) by lia.
        rewrite N.sub_add by lia. reflexivity.
      * intros (sign & ds' & E & Ne & F & L & V & S). destruct S as [([->| ->] & _)|(-> & M)]; cbn [app] in E.
        -- subst ds'. inversion_clear F as [|? ? D _]. now apply digit_plus in D.
        -- discriminate.
        -- injection E as <-. set (x := decimal (d :: ds)) in *.
           assert (Q : shortDigits (d :: ds) 0 = Some x) by (apply short_digits; repeat split; auto).
           rewrite Q. cbn [option_map]. f_equal.
           apply N.mod_divide in M; [|discriminate]. destruct M as (q & M).
           destruct (N.eq_dec x 0) as [Z|Z].
           ++ rewrite Z, N.sub_0_r, N.mod_same by discriminate. nia.
           ++ rewrite N.mod_small by lia. nia.
  - rewrite short_digits. split.
    + intros (F & E & [Bd|Bd]); [discriminate|]. exists [], (b :: ds). subst v. change (decimal (b :: ds)) with (decimalFrom 0 (b :: ds)).
      repeat split; auto. discriminate.
    + intros (sign & ds' & E & Ne & F & L & _ & S). destruct S as [([->| ->] & ->)|(-> & _)]; cbn [app] in E.
      * subst ds'. repeat split; auto.
      * injection E as E _. now contradiction A.
      * injection E as E _. now contradiction B.
Qed.

(** * Appearances *)
Section Looks.
  Context {T : Type} (n : nums T) (te : treeEnv T).
  Lemma look_no colors indices types scales i look :
    lookNo n te colors indices types scales i = Ok look <->
    exists color index type scale,
      nth_error colors i = Some color /\ nth_error indices i = Some index /\ nth_error types i = Some type /\
      nth_error scales i = Some scale /\ lookFrom n te color index type scale look.
  Proof.
    unfold lookNo, lookFrom, atOf, castOf. split.
    - destruct (nth_error indices i) as [index|]; [cbn [bind]|discriminate].
      destruct (castShort index) as [ix|] eqn:Ci; [cbn [bind]|discriminate].
      destruct (nth_error colors i) as [color|]; [cbn [bind]|discriminate].
      destruct (teGradient te color) as [gr| |] eqn:Cg; [cbn [bind]|discriminate|discriminate].
      destruct (nth_error types i) as [type|]; [cbn [bind]|discriminate].
      destruct (teTexture te ix type) as [tx| |] eqn:Ct; [cbn [bind]|discriminate|discriminate].
      destruct (nth_error scales i) as [scale|]; [cbn [bind]|discriminate].
      destruct (teDouble te scale) as [s|] eqn:Cs; [cbn [bind]|discriminate]. intros [= <-].
      exists color, index, type, scale. repeat (split; [reflexivity|]). exists ix. apply cast_short in Ci. cbn. auto 10.
    - intros (color & index & type & scale & -> & -> & -> & -> & ix & Ci & Cg & No & Tx & Ct & Cs). apply cast_short in Ci.
      cbn [bind]. rewrite Ci. cbn [bind]. rewrite Cg. cbn [bind]. rewrite Ct. cbn [bind]. rewrite Cs. cbn [bind].
      rewrite <- No, <- Tx. now destruct look.
  Qed.
  Lemma looks_of colors indices types scales is : forall looks,
    looksOf n te colors indices types scales is = Ok looks <->
    Forall2 (fun i look => lookNo n te colors indices types scales i = Ok look) is looks.
  Proof.
    induction is as [|i is IH]; intros looks; cbn [looksOf].
    - split; [intros [= <-]; constructor|]. intros F. now inversion_clear F.
    - split.
      + destruct (lookNo n te colors indices types scales i) as [l| |] eqn:E; [cbn [bind]|discriminate|discriminate].
        destruct (looksOf n te colors indices types scales is) as [r| |]; [cbn [bind]|discriminate|discriminate].
        intros [= <-]. constructor; [exact E|]. now apply IH.
      + intros F. inversion_clear F as [|? look ? ls E Es]. rewrite E. cbn [bind]. apply IH in Es. now rewrite Es.
  Qed.
  Lemma seq_forall2 {A} (P : nat -> A -> Prop) m s (l : list A) :
    Forall2 P (seq s m) l <-> length l = m /\ forall i a, nth_error l i = Some a -> P (s + i) a.
  Proof.
    revert s l. induction m as [|m IH]; intros s l; cbn [seq].
    - split.
      + intros F. inversion_clear F. split; [reflexivity|]. intros [|i] a; discriminate.
      + intros (L & _). destruct l; [constructor|discriminate].
    - split.
      + intros F. inversion_clear F as [|? a ? l' H Hs]. apply IH in Hs. destruct Hs as (L & Hs). split; [cbn [length]; now f_equal|].
        intros [|i] b; cbn [nth_error].
        * intros [= <-]. now rewrite Nat.add_0_r.
        * intros E. replace (s + S i) with (S s + i) by lia. now apply Hs.
      + intros (L & H). destruct l as [|a l]; [discriminate|]. injection L as L. constructor.
        * rewrite <- (Nat.add_0_r s). now apply H.
        * apply IH. split; [exact L|]. intros i b E. replace (S s + i) with (s + S i) by lia. now apply H.
  Qed.
  Lemma appearances_ok st colors indices types scales looks :
    partsOf 44 (tsColors st) colors -> partsOf 44 (tsIndices st) indices -> partsOf 44 (tsTypes st) types ->
    partsOf 44 (tsScales st) scales ->
    createAppearances n te st = Ok looks <-> looksFrom n te colors indices types scales looks.
  Proof.
    rewrite !parts_iff. intros -> -> -> ->. unfold createAppearances, looksFrom. rewrite looks_of, seq_forall2. cbn [Nat.add].
    split; intros (L & H); (split; [exact L|]); intros i look E; apply look_no, H, E.
  Qed.
  Lemma appearances_some st looks : createAppearances n te st = Ok looks -> looks <> [].
  Proof.
    intros E. apply (appearances_ok st _ _ _ _ _ (split_parts _ _) (split_parts _ _) (split_parts _ _) (split_parts _ _)) in E.
    destruct E as (L & _). destruct (split_some 44 (tsColors st)) as (p & ps & S). rewrite S in L. now destruct looks.
  Qed.
  Definition defined {A} (o : outcome A) : Prop := o <> UB.
  Lemma look_defined colors indices types scales i :
    (forall b, defined (teGradient te b)) -> (forall i b, defined (teTexture te i b)) ->
    defined (lookNo n te colors indices types scales i).
  Proof.
    intros Dg Dt. unfold lookNo, atOf, castOf, defined in *.
    destruct (nth_error indices i) as [index|]; [cbn [bind]|discriminate].
    destruct (castShort index) as [ix|]; [cbn [bind]|discriminate].
    destruct (nth_error colors i) as [color|]; [cbn [bind]|discriminate].
    specialize (Dg color). destruct (teGradient te color); [cbn [bind]|discriminate|contradiction].
    destruct (nth_error types i) as [type|]; [cbn [bind]|discriminate].
    specialize (Dt ix type). destruct (teTexture te ix type); [cbn [bind]|discriminate|contradiction].
    destruct (nth_error scales i) as [scale|]; [cbn [bind]|discriminate].
    destruct (teDouble te scale); [cbn [bind]|discriminate]. discriminate.
  Qed.
  Lemma looks_defined colors indices types scales is :
    (forall b, defined (teGradient te b)) -> (forall i b, defined (teTexture te i b)) ->
    defined (looksOf n te colors indices types scales is).
  Proof.
    intros Dg Dt. induction is as [|i is IH]; [discriminate|]. cbn [looksOf].
    pose proof (look_defined colors indices types scales i Dg Dt) as D. unfold defined in *.
    destruct (lookNo n te colors indices types scales i); [cbn [bind]|discriminate|contradiction].
    destruct (looksOf n te colors indices types scales is); [discriminate|discriminate|contradiction].
  Qed.
  Lemma by_index (looks : list (lookOptions T)) i : looks <> [] ->
    exists look, lookByIndex looks i = Ok look /\ inTurnOf looks i look.
  Proof.
    intros Ne. unfold lookByIndex, atOf, inTurnOf. assert (L : length looks <> 0) by (destruct looks; [contradiction|discriminate]).
    destruct (nth_error looks (i mod length looks)) as [look|] eqn:E.
    - exists look. split; [now destruct looks|].
      exists (i / length looks), (i mod length looks). split; [|exact E]. rewrite Nat.mul_comm. apply Nat.div_mod, L.
    - apply nth_error_None in E. pose proof (Nat.mod_upper_bound i _ L). lia.
  Qed.
  Lemma by_index_iff (looks : list (lookOptions T)) i look : lookByIndex looks i = Ok look <-> inTurnOf looks i look.
  Proof.
    split.
    - intros E. destruct looks as [|l looks]; [discriminate|]. destruct (by_index (l :: looks) i) as (look' & E' & H); [discriminate|].
      rewrite E in E'. now injection E' as <-.
    - intros (q & r & -> & E). assert (R : r < length looks) by (apply nth_error_Some; congruence).
      unfold lookByIndex, atOf. destruct looks as [|l looks]; [cbn in R; lia|].
      rewrite Nat.add_comm, Nat.mod_add by discriminate. rewrite Nat.mod_small by exact R. now rewrite E.
  Qed.
End Looks.

(** * Drawings in a mesh *)
Section Meshes.
  Context {T : Type} (n : nums T) (k : trig T) (env : builderEnv T).
  Local Notation triOps look ts := (map (fun '(a, b, c) => triangleOp n k env (nzero n) look a b c) ts).
  Definition partOps (p : part) : list meshOp := triOps (fst p) (snd p) ++ [OpTexture (fst p)].

  Lemma run_app (ops ops' : list meshOp) m :
    meshRun n env (ops ++ ops') m = bind (meshRun n env ops m) (meshRun n env ops').
  Proof.
    revert m. induction ops as [|o ops IH]; intros m; cbn [app meshRun bind]; [reflexivity|].
    destruct (meshStep n env o m); cbn [bind]; [apply IH|reflexivity|reflexivity].
  Qed.
  Lemma tri_corners look t : length (newCorners n env (let '(a, b, c) := t in triangleOp n k env (nzero n) look a b c)) = 3.
  Proof. now destruct t as [[a b] c]. Qed.
  Lemma tri_faces look t : newFaces n env (let '(a, b, c) := t in triangleOp n k env (nzero n) look a b c) = [faceIn n k env look t].
  Proof. now destruct t as [[a b] c]. Qed.
  Lemma triangles_run look (ts : list (triangle T)) : forall m q, wellFormed m q -> (Z.of_nat (q + 3 * length ts) < 2 ^ 31)%Z ->
    exists m', meshRun n env (triOps look ts) m = Ok m' /\ wellFormed m' (q + 3 * length ts) /\ bmap m' = bmap m /\
      faces m' = faces m ++ map (faceIn n k env look) ts.
  Proof.
    induction ts as [|t ts IH]; intros m q W L.
    - exists m. cbn [map meshRun length]. rewrite Nat.mul_0_r, Nat.add_0_r, app_nil_r. auto.
    - cbn [length] in L. destruct t as [[a b] c].
      destruct (triangle_ok n env m q a b c (mkV2 (nzero n) (nzero n)) (mkV2 (kone k) (nzero n)) (mkV2 (kone k) (kone k))
        (geoWith n env (nzero n)) look W) as (m1 & E & W1 & B1 & _ & F1); [cbn; lia|].
      destruct (IH m1 (q + 3)) as (m' & E' & W' & B' & F'); [exact W1|lia|].
      exists m'. cbn [map meshRun triangleOp meshStep]. rewrite E. cbn [bind]. split; [exact E'|]. cbn [length].
      replace (q + 3 * S (length ts)) with (q + 3 + 3 * length ts) by lia. split; [exact W'|]. split; [congruence|].
      rewrite F', F1, <- app_assoc. reflexivity.
  Qed.
  Lemma ascending_mono l : forall from limit limit', (limit <= limit')%Z -> ascending from l limit -> ascending from l limit'.
  Proof. induction l as [|e l IH]; intros from limit limit' H; cbn [ascending]; [lia|]. intros (A & B). split; [exact A|]. now apply IH with (limit := limit). Qed.
  Lemma cov_uvs (m : bmesh T) q : wellFormed m q -> Z.of_nat (length (buvs m)) = (2 * Z.of_nat q)%Z.
  Proof. intros ((_ & _ & U) & _). rewrite U. lia. Qed.
  Lemma part_run p (m : bmesh T) q : wellFormed m q -> goodMap m -> covered m = Z.of_nat (length (buvs m)) ->
    (2 * Z.of_nat (q + 3 * length (snd p)) < 2 ^ 31)%Z ->
    exists m', meshRun n env (partOps p) m = Ok m' /\ wellFormed m' (q + 3 * length (snd p)) /\ goodMap m' /\
      covered m' = Z.of_nat (length (buvs m')) /\ faces m' = faces m ++ facesIn n k env p /\
      (forall i, (0 <= i < 2 * Z.of_nat q)%Z -> textureAt m' i = textureAt m i) /\
      (forall i, (2 * Z.of_nat q <= i < 2 * Z.of_nat (q + 3 * length (snd p)))%Z -> textureAt m' i = Some (textureOf (fst p))).
  Proof.
    destruct p as [look ts]. cbn [fst snd]. intros W G Cv L. unfold partOps. cbn [fst snd]. rewrite run_app.
    destruct (triangles_run look ts m q W) as (m1 & E & W1 & B & F); [lia|]. rewrite E. cbn [bind meshRun meshStep].
    pose proof (cov_uvs _ _ W) as U. pose proof (cov_uvs _ _ W1) as U1.
    assert (G1 : goodMap m1).
    { destruct G as (M & A). unfold goodMap. rewrite B. split; [exact M|]. apply ascending_mono with (limit := Z.of_nat (length (buvs m))); [lia|exact A]. }
    destruct (texture_ok m1 look G1) as (mp & Et & Gt & Ct & Old & New); [lia|]. cbv zeta in *. rewrite Et. cbn [bind].
    eexists. split; [reflexivity|]. split; [exact W1|]. split; [exact Gt|]. split; [exact Ct|]. split; [exact F|].
    assert (C1 : covered m1 = (2 * Z.of_nat q)%Z) by (unfold covered in *; rewrite B; lia).
    rewrite C1 in Old, New. rewrite U1 in New. split.
    - intros i H. rewrite Old by exact H. unfold textureAt. now rewrite B.
    - exact New.
  Qed.
  Lemma parts_run ps : forall (m : bmesh T) q, wellFormed m q -> goodMap m -> covered m = Z.of_nat (length (buvs m)) ->
    (2 * Z.of_nat (q + cornersIn ps) < 2 ^ 31)%Z ->
    exists m', meshRun n env (flat_map partOps ps) m = Ok m' /\ wellFormed m' (q + cornersIn ps) /\ goodMap m' /\
      covered m' = Z.of_nat (length (buvs m')) /\ faces m' = faces m ++ flat_map (facesIn n k env) ps /\
      (forall i, (0 <= i < 2 * Z.of_nat q)%Z -> textureAt m' i = textureAt m i) /\
      (forall ps1 p ps2 i, ps = ps1 ++ p :: ps2 ->
         (2 * Z.of_nat (q + cornersIn ps1) <= i < 2 * Z.of_nat (q + cornersIn (ps1 ++ [p])))%Z ->
         textureAt m' i = Some (textureOf (fst p))).
  Proof.
    induction ps as [|p ps IH]; intros m q W G Cv L.
    - exists m. unfold cornersIn. cbn [flat_map meshRun length]. rewrite Nat.mul_0_r, Nat.add_0_r, app_nil_r. split; [reflexivity|].
      split; [exact W|]. split; [exact G|]. split; [exact Cv|]. split; [reflexivity|]. split; [reflexivity|]. intros ps1 p ps2 i H. now apply app_cons_not_nil in H.
    - assert (N : cornersIn (p :: ps) = 3 * length (snd p) + cornersIn ps)
        by (unfold cornersIn; cbn [flat_map]; rewrite app_length; lia). rewrite N in *.
      destruct (part_run p m q W G Cv) as (m1 & E1 & W1 & G1 & C1 & F1 & O1 & N1); [lia|].
      destruct (IH m1 _ W1 G1 C1) as (m' & E & W' & G' & C' & F' & O' & N'); [lia|].
      exists m'. cbn [flat_map]. rewrite run_app, E1. cbn [bind]. split; [exact E|].
      replace (q + (3 * length (snd p) + cornersIn ps)) with (q + 3 * length (snd p) + cornersIn ps) by lia.
      split; [exact W'|]. split; [exact G'|]. split; [exact C'|]. split; [rewrite F', F1; now rewrite <- app_assoc|]. split.
      + intros i H. rewrite O' by lia. apply O1, H.
      + intros ps1 p' ps2 i Eq H. destruct ps1 as [|p1 ps1].
        * injection Eq as <- _. unfold cornersIn in H. cbn [app flat_map length] in H. rewrite app_nil_r in H.
          rewrite O' by lia. apply N1. lia.
        * injection Eq as <- Eq. apply (N' ps1 p' ps2 i Eq).
          assert (Nc : forall l, cornersIn (p :: l) = 3 * length (snd p) + cornersIn l)
            by (intros l; unfold cornersIn; cbn [flat_map]; rewrite app_length; lia).
          cbn [app] in H. rewrite !Nc in H. lia.
  Qed.
End Meshes.

(** * The mesh of a tree *)
Section Tree.
  Context {T : Type} (n : nums T) (k : trig T) (g : gens T) (c : metres T) (env : builderEnv T) (te : treeEnv T).
  Definition isPart (tr : vec3 T -> vec3 T) (looks : list (lookOptions T)) (d : drawing T) (p : part) : Prop :=
    inTurnOf looks (dstyle d) (fst p) /\ drawingTriangles n k g tr d = Ok (snd p).
  Lemma segments_one (cy : @cylinder T) : cmaxHeight cy = nzero n -> (forall x, nlt n x x = false) -> heightSegments n g cy = Some 1%Z.
  Proof. intros E I. unfold heightSegments. now rewrite E, I. Qed.
  Lemma drawing_some tr d : (forall x, nlt n x x = false) -> exists ts, drawingTriangles n k g tr d = Ok ts.
  Proof.
    intros I. unfold drawingTriangles. destruct (dshape d).
    - eexists. apply cylinder_grid, segments_one; [reflexivity|exact I].
    - eexists. apply cylinder_grid, segments_one; [reflexivity|exact I].
    - rewrite (ico_triangles n k g tr) by lia. eauto.
  Qed.
  Lemma drawings_ops tr looks ds ps : Forall2 (isPart tr looks) ds ps ->
    drawingsOps n k g env tr looks ds = Ok (flat_map (partOps n k env) ps).
  Proof.
    intros F. induction F as [|d p ds ps (L & E) F IH]; [reflexivity|]. cbn [drawingsOps flat_map]. unfold drawingOps.
    apply by_index_iff in L. rewrite L. cbn [bind]. rewrite E. cbn [bind]. rewrite IH. reflexivity.
  Qed.
  Lemma parts_exist tr looks ds : looks <> [] -> (forall x, nlt n x x = false) -> exists ps, Forall2 (isPart tr looks) ds ps.
  Proof.
    intros Ne I. induction ds as [|d ds (ps & F)]; [exists []; constructor|].
    destruct (by_index looks (dstyle d) Ne) as (look & _ & L). destruct (drawing_some tr d I) as (ts & E).
    exists ((look, ts) :: ps). constructor; [split; assumption|exact F].
  Qed.
End Tree.
