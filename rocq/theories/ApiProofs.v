From Verif Require Import Base Bytes BytesProofs LruModel LruProofs LruApi StringModel StringSpec StringProofs ElementModel GeoModel MeshModel ApiModel ApiSpec.
Local Open Scope Z_scope.

(** * The string table *)
Definition sane (cap : nat) (t : table) : Prop := Inv (scache t) /\ maxSize (scache t) = cap.

Section Table.
  Context (hash : bytes -> N) (cap : nat) (cap1 : (1 <= cap)%nat).

  Lemma sane_open i d : sane cap (openTable cap i d).
  Proof.
    unfold openTable, sane. destruct (loadEntries _ 0 i [] []) as [o m]. cbn [scache]. destruct (api_empty (K:=N) (V:=bytes) cap) as (Ie & _ & Me). split; [exact Ie|exact Me].
  Qed.
  Lemma sane_read id t : sane cap t -> sane cap (snd (readString id t)).
  Proof.
    intros H. unfold readString. destruct (nth_error _ _); [|exact H]. destruct (dataFail t); [exact H|].
    destruct (skipn _ _); exact H.
  Qed.
  Lemma sane_string id t : sane cap t -> exists s t', getString id t = Ok (s, t') /\ sane cap t'.
  Proof.
    intros [I M]. unfold getString.
    destruct (api_lookup N.eqb Neqb_eq id (scache t) I) as [[E _]|(v & _ & E & _ & c' & _ & Eg & I' & M' & _)]; rewrite E.
    - pose proof (sane_read id t (conj I M)) as [I1 M1]. destruct (readString id t) as [d t1]. cbn [snd] in *.
      destruct (api_put N.eqb Neqb_eq id d (scache t1) I1) as (c1 & E1 & I2 & M2 & Hin & _); [lia|].
      rewrite E1. cbn [bind].
      destruct (api_lookup N.eqb Neqb_eq id c1 I2) as [[_ C]|(v & _ & _ & _ & c' & _ & Eg & I' & M' & _)].
      + exfalso. apply C. apply in_map_iff. exists (id, d). auto.
      + rewrite Eg. cbn [bind fst snd]. eexists _, _. split; [reflexivity|]. split; cbn [setCache scache]; [exact I'|congruence].
    - rewrite Eg. cbn [bind fst snd]. eexists _, _. split; [reflexivity|]. split; cbn [setCache scache]; [exact I'|congruence].
  Qed.
  Lemma sane_scan s : forall ids t, sane cap t -> exists r t', scan s ids t = Ok (r, t') /\ sane cap t'.
  Proof.
    induction ids as [|id ids IH]; intros t H; cbn [scan]; [eauto|].
    assert (Hm : exists r t', (let '(d, t'0) := readString id t in if beqb s d then Ok (Some id, t'0) else scan s ids t'0) = Ok (r, t') /\ sane cap t').
    { pose proof (sane_read id t H) as H1. destruct (readString id t) as [d t1]. cbn [snd] in H1. destruct (beqb s d); eauto. }
    destruct H as [I M].
    destruct (api_lookup N.eqb Neqb_eq id (scache t) I) as [[E _]|(v & _ & E & Ep & c' & Epr & _ & I' & M' & _)]; rewrite E; [exact Hm|].
    rewrite Ep. cbn [bind]. destruct (beqb v s); [|exact Hm]. rewrite Epr. cbn [bind].
    eexists _, _. split; [reflexivity|]. split; cbn [setCache scache]; [exact I'|congruence].
  Qed.
  Lemma sane_id s t : sane cap t -> exists i t', getId hash s t = Ok (i, t') /\ sane cap t'.
  Proof.
    intros H. unfold getId. destruct (alookup _ _ _) as [ids|].
    - destruct (sane_scan s ids t H) as (r & t' & E & H'). rewrite E. cbn [bind]. destruct r; [eauto|].
      eexists _, _. split; [reflexivity|]. exact H'.
    - eexists _, _. split; [reflexivity|]. exact H.
  Qed.
  Lemma sane_step t o t' r : sane cap t -> sstep hash cap t o = Some (t', r) -> sane cap t'.
  Proof.
    intros H E. destruct o; cbn [sstep] in E.
    - destruct (sane_id s t H) as (i & t1 & E1 & H1). rewrite E1 in E. injection E as <- <-. exact H1.
    - destruct (sane_string id t H) as (i & t1 & E1 & H1). rewrite E1 in E. injection E as <- <-. exact H1.
    - injection E as <- <-. apply sane_open.
  Qed.
  Lemma sane_run os : forall t t' rs, sane cap t -> srunT hash cap t os = Some (t', rs) -> sane cap t'.
  Proof.
    induction os as [|o os IH]; intros t t' rs H E; cbn [srunT] in E; [injection E as <- <-; exact H|].
    destruct (sstep hash cap t o) as [[t1 r]|] eqn:E1; [|discriminate].
    destruct (srunT hash cap t1 os) as [[t2 rs2]|] eqn:E2; [|discriminate]. injection E as <- <-.
    eapply IH; [|exact E2]. eapply sane_step; eauto.
  Qed.
  Lemma opened_sane t : opened hash cap t -> sane cap t.
  Proof. intros (i & d & os & rs & E). eapply sane_run; [|exact E]. apply sane_open. Qed.

  Lemma srunT_snoc os : forall t t1 rs o t2 r, srunT hash cap t os = Some (t1, rs) -> sstep hash cap t1 o = Some (t2, r) ->
    srunT hash cap t (os ++ [o]) = Some (t2, rs ++ [r]).
  Proof.
    induction os as [|a os IH]; intros t t1 rs o t2 r E E2; cbn [srunT app] in *.
    - injection E as <- <-. rewrite E2. reflexivity.
    - destruct (sstep hash cap t a) as [[t' r']|]; [|discriminate].
      destruct (srunT hash cap t' os) as [[t3 rs3]|] eqn:E3; [|discriminate]. injection E as <- <-.
      rewrite (IH _ _ _ _ _ _ E3 E2). reflexivity.
  Qed.
  Lemma opened_step t o t' r : opened hash cap t -> sstep hash cap t o = Some (t', r) -> opened hash cap t'.
  Proof. intros (i & d & os & rs & E) E2. exists i, d, (os ++ [o]), (rs ++ [r]). eapply srunT_snoc; eauto. Qed.
  Lemma opened_string id t : opened hash cap t -> exists s t', getString id t = Ok (s, t') /\ opened hash cap t'.
  Proof.
    intros H. destruct (sane_string id t (opened_sane t H)) as (s & t' & E & _). exists s, t'. split; [exact E|].
    apply (opened_step t (GetString id) t' (SStr s) H). cbn [sstep]. rewrite E. reflexivity.
  Qed.
  Lemma opened_id s t : opened hash cap t -> exists i t', getId hash s t = Ok (i, t') /\ opened hash cap t'.
  Proof.
    intros H. destruct (sane_id s t (opened_sane t H)) as (i & t' & E & _). exists i, t'. split; [exact E|].
    apply (opened_step t (GetId s) t' (SId i) H). cbn [sstep]. rewrite E. reflexivity.
  Qed.

  (** ** A table which holds given strings *)
  Context (hash32 : forall s, (hash s < 4294967296)%N).
  Lemma specRun_snoc os : forall l o, fst (specRun l (os ++ [o])) = fst (specStep (fst (specRun l os)) o).
  Proof.
    induction os as [|a os IH]; intros l o; cbn [specRun app fst].
    - destruct (specStep l o); reflexivity.
    - destruct (specStep l a) as [l1 r]. specialize (IH l1 o). destruct (specRun l1 os), (specRun l1 (os ++ [o])). exact IH.
  Qed.
  Lemma allocated_snoc os : forall l o, allocatedOnly l os ->
    match o with GetString i => (N.to_nat i < length (fst (specRun l os)))%nat | _ => True end -> allocatedOnly l (os ++ [o]).
  Proof.
    induction os as [|a os IH]; intros l o H Ho; cbn [allocatedOnly app specRun fst] in *.
    - split; [exact Ho|exact Logic.I].
    - destruct H as [H1 H2]. split; [exact H1|]. destruct (specStep l a) as [l1 r]. cbn [fst] in *.
      apply IH; [exact H2|]. destruct (specRun l1 os). exact Ho.
  Qed.
  Lemma holds_inv l t : holds hash cap l t -> TInv hash cap 0 false l t.
  Proof.
    intros (os & rs & E & Hs & Ha & El & Hd).
    destruct (run_ok hash hash32 cap cap1 0 false os [] _ (empty_inv hash hash32 cap cap1 false) (opsOk_legal os [] Hs Ha)) as (t' & rs' & E' & _ & I).
    - rewrite El. exact Hd.
    - rewrite E in E'. injection E' as <- <-. rewrite El in I. exact I.
  Qed.
  Lemma holds_step l t o t' r : holds hash cap l t -> sstep hash cap t o = Some (t', r) ->
    match o with GetString i => knownId l i | GetId s => nulFree s | Reopen => True end ->
    (diskBytes (fst (specStep l o)) < 4294967296)%N -> holds hash cap (fst (specStep l o)) t'.
  Proof.
    intros (os & rs & E & Hs & Ha & El & Hd) E2 Ho Hsz.
    exists (os ++ [o]), (rs ++ [r]). split; [eapply srunT_snoc; eauto|]. split.
    { intros s Hin. apply in_app_or in Hin as [Hin|[->|[]]]; [apply Hs; exact Hin|exact Ho]. }
    split; [apply allocated_snoc; [exact Ha|]; rewrite El; destruct o; auto|].
    rewrite specRun_snoc, El. split; [reflexivity|exact Hsz].
  Qed.
  Lemma holds_string l t id : holds hash cap l t -> knownId l id ->
    exists t', getString id t = Ok (nameOf l id, t') /\ holds hash cap l t'.
  Proof.
    intros H K. pose proof (holds_inv l t H) as I.
    destruct (getString_spec hash cap cap1 0 false l t id I) as (t' & v & E & _ & Ev & _); [intros _; exact K|].
    specialize (Ev eq_refl). subst v.
    assert (H' : holds hash cap l t').
    { apply (holds_step l t (GetString id) t' _ H E K). destruct H as (os & rs & _ & _ & _ & _ & Hd). exact Hd. }
    exists t'. split; [|exact H']. cbn [sstep] in E. destruct (getString id t) as [[s t1]| |]; try discriminate.
    injection E as -> ->. reflexivity.
  Qed.
  Lemma holds_id l t s : holds hash cap l t -> nulFree s -> (diskBytes l + N.of_nat (length s) + 1 < 4294967296)%N ->
    exists i t' l', getId hash s t = Ok (i, t') /\ holds hash cap l' t' /\ (exists m, l' = l ++ m) /\ knownId l' i /\ nameOf l' i = s /\
      (diskBytes l' <= diskBytes l + N.of_nat (length s) + 1)%N.
  Proof.
    intros H Hn Hsz. pose proof (holds_inv l t H) as I.
    assert (Hb : (diskBytes (fst (specStep l (GetId s))) <= diskBytes l + N.of_nat (length s) + 1)%N).
    { cbn [specStep]. destruct (position s l); cbn [fst]; [lia|]. rewrite (diskBytes_app hash hash32 cap cap1). lia. }
    assert (Hc : (diskBytes (fst (specStep l (GetId s))) < 4294967296)%N) by lia.
    destruct (getId_spec hash hash32 cap cap1 0 false l t s I Hn) as (t' & E & _); [discriminate|lia|].
    pose proof (holds_step l t (GetId s) t' _ H E Hn Hc) as H'.
    cbn [sstep] in E. destruct (getId hash s t) as [[i t1]| |]; try discriminate; [|injection E as _ E; cbn [specStep] in E; destruct (position s l); discriminate].
    injection E as -> Ei. exists i, t', (fst (specStep l (GetId s))). split; [reflexivity|]. split; [exact H'|].
    cbn [specStep] in *. destruct (position s l) as [j|] eqn:Ej; cbn [fst snd] in *; injection Ei as ->.
    - apply position_some in Ej. split; [exists []; now rewrite app_nil_r|]. unfold knownId, nameOf. rewrite Nat2N.id.
      split; [apply nth_error_Some; congruence|]. split; [now apply nth_error_nth|lia].
    - split; [eauto|]. unfold knownId, nameOf. rewrite Nat2N.id, app_length. cbn [length]. split; [lia|].
      split; [rewrite app_nth2, Nat.sub_diag by lia; reflexivity|exact Hb].
  Qed.
  Lemma holds_nul l t id : holds hash cap l t -> nulFree (nameOf l id).
  Proof.
    intros H. pose proof (ti_nul _ _ _ _ _ _ (holds_inv l t H)) as F. unfold nameOf.
    destruct (Nat.lt_ge_cases (N.to_nat id) (length l)) as [L|L].
    - rewrite Forall_forall in F. apply F, nth_In, L.
    - rewrite nth_overflow by exact L. intros [].
  Qed.
  Lemma holds_opened l t : holds hash cap l t -> opened hash cap t.
  Proof. intros (os & rs & E & _). exists [], [], os, rs. exact E. Qed.
End Table.

(** * Vectors of strings *)
Definition ptrs (v : strings) (n : nat) : list cptr := map (pair (sAge v)) (seq (length (sItems v)) n).
Lemma push_room s v : (length (sItems v) < sRoom v)%nat -> push s v = mkStrings (sItems v ++ [s]) (sRoom v) (sAge v).
Proof. intros H. unfold push. apply Nat.ltb_lt in H. now rewrite H. Qed.
Lemma pushPair_room a b v : (length (sItems v) + 2 <= sRoom v)%nat ->
  pushPair a b v = (mkStrings (sItems v ++ [a; b]) (sRoom v) (sAge v), ptrs v 2).
Proof.
  intros H. unfold pushPair. rewrite (push_room a) by lia. rewrite push_room by (cbn [sItems sRoom]; rewrite app_length; cbn [length]; lia).
  cbn [sItems sRoom sAge]. rewrite <- app_assoc. cbn [app]. f_equal. unfold ptrs. cbn [seq map]. rewrite app_length. cbn [length].
  repeat f_equal; lia.
Qed.
Lemma reserve_room n v : sItems v = [] -> (length (sItems (reserve n v)) + n <= sRoom (reserve n v))%nat /\ sItems (reserve n v) = [].
Proof.
  intros H. unfold reserve. destruct (sRoom v <? n)%nat eqn:E; cbn [sItems sRoom].
  - rewrite H. cbn [length]. split; [lia|reflexivity].
  - apply Nat.ltb_ge in E. rewrite H. cbn [length]. split; [lia|reflexivity].
Qed.
Lemma Forall2_length {A B} (R : A -> B -> Prop) l l' : Forall2 R l l' -> length l = length l'.
Proof. induction 1; cbn [length]; congruence. Qed.
Lemma skipn_S {A} : forall a (l : list A), skipn (S a) l = tl (skipn a l).
Proof. induction a as [|a IH]; intros [|x l]; try reflexivity. apply (IH l). Qed.
Lemma readAll_spec v : forall n a l, skipn a (sItems v) = l -> (n = length l)%nat ->
  readAllC v (map (pair (sAge v)) (seq a n)) = Ok (map cstr l).
Proof.
  induction n as [|n IH]; intros a l E L; destruct l as [|x l]; try discriminate; [reflexivity|].
  cbn [seq map readAllC readC fst snd]. unfold readC. cbn [fst snd]. rewrite Nat.eqb_refl.
  assert (Ex : nth_error (sItems v) a = Some x).
  { rewrite <- (firstn_skipn a (sItems v)), E. rewrite nth_error_app2; rewrite firstn_length.
    - replace (a - Nat.min a (length (sItems v)))%nat with 0%nat; [reflexivity|].
      assert (length (skipn a (sItems v)) <> 0)%nat by (rewrite E; discriminate). rewrite skipn_length in H. lia.
    - lia. }
  rewrite Ex. cbn [bind]. rewrite (IH (S a) l); [reflexivity| |cbn in L; lia].
  rewrite skipn_S, E. reflexivity.
Qed.

Section Loops.
  Context (I : table -> Prop) (K : N -> Prop) (R : N -> bytes -> Prop).
  Context (HI : forall t i, I t -> K i -> exists s t', getString i t = Ok (s, t') /\ I t' /\ R i s).

  Lemma pushTags_spec : forall ts t v, I t -> Forall (fun x => K (tkey x) /\ K (tvalue x)) ts ->
    (length (sItems v) + length ts * 2 <= sRoom v)%nat ->
    exists t' ps, pushTags ts t v = (t', Ok (mkStrings (sItems v ++ flatPairs ps) (sRoom v) (sAge v), ptrs v (length ts * 2))) /\ I t' /\
      Forall2 (fun x p => R (tkey x) (fst p) /\ R (tvalue x) (snd p)) ts ps.
  Proof.
    induction ts as [|x ts IH]; intros t v Ht Hk Hr; cbn [pushTags length Nat.mul] in *.
    - exists t, []. cbn [flatPairs flat_map]. rewrite app_nil_r. split; [destruct v; reflexivity|]. auto.
    - inversion_clear Hk as [|? ? [K1 K2] Hk'].
      destruct (HI t _ Ht K1) as (s1 & t1 & E1 & H1 & R1). rewrite E1. cbn [bind].
      destruct (HI t1 _ H1 K2) as (s2 & t2 & E2 & H2 & R2). rewrite E2. cbn [bind].
      rewrite pushPair_room by lia.
      destruct (IH t2 (mkStrings (sItems v ++ [s1; s2]) (sRoom v) (sAge v)) H2 Hk') as (t3 & ps & E3 & H3 & F).
      { cbn [sItems sRoom]. rewrite app_length. cbn [length]. lia. }
      rewrite E3. cbn [bind]. exists t3, ((s1, s2) :: ps). split; [|split; [exact H3|constructor; auto]].
      cbn [flatPairs flat_map app fst snd sItems sRoom sAge]. rewrite <- app_assoc. cbn [app]. do 3 f_equal.
      unfold ptrs. cbn [sItems sAge]. rewrite <- map_app, app_length. cbn [length].
      change (S (S (length ts * 2)))%nat with (2 + length ts * 2)%nat. now rewrite seq_app.
  Qed.
  Lemma pushStyles_spec : forall ds t v, I t -> Forall (fun d => K (fst d)) ds ->
    (length (sItems v) + length ds * 2 <= sRoom v)%nat ->
    exists t' ps, pushStyles ds t v = (t', Ok (mkStrings (sItems v ++ flatPairs ps) (sRoom v) (sAge v), ptrs v (length ds * 2))) /\ I t' /\
      Forall2 (fun (d : N * bytes) p => R (fst d) (fst p) /\ snd d = snd p) ds ps.
  Proof.
    induction ds as [|[k w] ds IH]; intros t v Ht Hk Hr; cbn [pushStyles length Nat.mul] in *.
    - exists t, []. cbn [flatPairs flat_map]. rewrite app_nil_r. split; [destruct v; reflexivity|]. auto.
    - inversion_clear Hk as [|? ? K1 Hk']. cbn [fst] in K1.
      destruct (HI t _ Ht K1) as (s1 & t1 & E1 & H1 & R1). rewrite E1.
      rewrite pushPair_room by lia.
      destruct (IH t1 (mkStrings (sItems v ++ [s1; w]) (sRoom v) (sAge v)) H1 Hk') as (t3 & ps & E3 & H3 & F).
      { cbn [sItems sRoom]. rewrite app_length. cbn [length]. lia. }
      rewrite E3. cbn [bind]. exists t3, ((s1, w) :: ps). split; [|split; [exact H3|constructor; auto]].
      cbn [flatPairs flat_map app fst snd sItems sRoom sAge]. rewrite <- app_assoc. cbn [app]. do 3 f_equal.
      unfold ptrs. cbn [sItems sAge]. rewrite <- map_app, app_length. cbn [length].
      change (S (S (length ds * 2)))%nat with (2 + length ds * 2)%nat. now rewrite seq_app.
  Qed.
  Lemma flatPairs_length {A} (ps : list (A * A)) : length (flatPairs ps) = (length ps * 2)%nat.
  Proof. induction ps; cbn [flatPairs flat_map app length] in *; [reflexivity|]. unfold flatPairs in IHps. lia. Qed.

  Definition fresh2 (v : visitor) : Prop := sItems (vTags v) = [] /\ sItems (vStyles v) = [].
  (** What visitElement comes to, with some strings for the ids. *)
  Lemma visitElement_spec n style ele e t v : I t -> fresh2 v -> Forall (fun x => K (tkey x) /\ K (tvalue x)) (etags e) ->
    (forall f ds, style = Some f -> f e = Ok ds -> Forall (fun d => K (fst d)) ds) ->
    exists t' v' r, visitElement n style ele e t v = (t', v', r) /\ I t' /\
      match (match style with None => Ok [] | Some f => f e end) with
      | Throw x => r = Throw x
      | UB => r = UB
      | Ok ds => fresh2 v' /\ exists ps ss,
          Forall2 (fun x p => R (tkey x) (fst p) /\ R (tvalue x) (snd p)) (etags e) ps /\
          Forall2 (fun (d : N * bytes) p => R (fst d) (fst p) /\ snd d = snd p) ds ss /\
          r = bind (fillVertices ele (placesOf e)) (fun vs =>
                Ok (EElement n (eid e) (map cstr (flatPairs ps)) (asInt (length (etags e) * 2)) vs (asInt (length vs))
                      (map cstr (flatPairs ss)) (asInt (length ds * 2))))
      end.
  Proof.
    intros Ht [F1 F2] Hk Hs. unfold visitElement.
    destruct (reserve_room (length (etags e) * 2) (vTags v) F1) as [L1 E1].
    destruct (pushTags_spec (etags e) t _ Ht Hk L1) as (t1 & ps & Ep & H1 & R1). rewrite Ep.
    assert (Ht1 : forall vs' vs (ds : list (N * bytes)) ss pp, length ds = length ss -> sItems vs = [] -> pp = ptrs vs (length ds * 2) ->
      bind (fillVertices ele (placesOf e)) (fun ws => bind (readAllC (mkStrings (sItems vs' ++ flatPairs ps) (sRoom vs') (sAge vs')) (ptrs vs' (length (etags e) * 2)))
        (fun tags => bind (readAllC (mkStrings (sItems vs ++ flatPairs ss) (sRoom vs) (sAge vs)) pp) (fun styles =>
        Ok (EElement n (eid e) tags (asInt (length (ptrs vs' (length (etags e) * 2)))) ws (asInt (length ws)) styles (asInt (length pp)))))) =
      bind (fillVertices ele (placesOf e)) (fun vs =>
        Ok (EElement n (eid e) (map cstr (flatPairs ps)) (asInt (length (etags e) * 2)) vs (asInt (length vs))
                      (map cstr (flatPairs ss)) (asInt (length ds * 2))))).
    { intros vs' vs ds ss pp Hl Hv ->. destruct (fillVertices ele (placesOf e)) as [ws| |]; try reflexivity. cbn [bind].
      unfold ptrs. set (w := mkStrings (sItems vs' ++ flatPairs ps) (sRoom vs') (sAge vs')).
      change (sAge vs') with (sAge w). rewrite (readAll_spec w (length (etags e) * 2) (length (sItems vs')) (flatPairs ps)).
      2:{ unfold w. cbn [sItems]. rewrite skipn_app, skipn_all, Nat.sub_diag. reflexivity. }
      2:{ rewrite flatPairs_length. apply Forall2_length in R1. lia. }
      cbn [bind]. set (u := mkStrings (sItems vs ++ flatPairs ss) (sRoom vs) (sAge vs)).
      change (sAge vs) with (sAge u). rewrite (readAll_spec u (length ds * 2) (length (sItems vs)) (flatPairs ss)).
      2:{ unfold u. cbn [sItems]. rewrite skipn_app, skipn_all, Nat.sub_diag. reflexivity. }
      2:{ rewrite flatPairs_length. lia. }
      cbn [bind]. rewrite !map_length, !seq_length. reflexivity. }
    destruct style as [f|].
    - destruct (f e) as [ds|x|] eqn:Ef.
      + destruct (reserve_room (length ds * 2) (vStyles v) F2) as [L2 E2].
        destruct (pushStyles_spec ds t1 _ H1 (Hs f ds eq_refl Ef) L2) as (t2 & ss & Es & H2 & R2). rewrite Es.
        eexists _, _, _. split; [reflexivity|]. split; [exact H2|]. split; [split; reflexivity|].
        exists ps, ss. split; [exact R1|]. split; [exact R2|]. apply Ht1; [now apply Forall2_length in R2|exact E2|reflexivity].
      + eexists _, _, _. split; [reflexivity|]. split; [exact H1|reflexivity].
      + eexists _, _, _. split; [reflexivity|]. split; [exact H1|reflexivity].
    - eexists _, _, _. split; [reflexivity|]. split; [exact H1|]. split; [split; reflexivity|].
      exists ps, []. split; [exact R1|]. split; [constructor|].
      specialize (Ht1 (reserve (length (etags e) * 2) (vTags v)) (vStyles v) [] [] [] eq_refl F2 eq_refl).
      cbn [flatPairs flat_map] in Ht1. rewrite app_nil_r in Ht1.
      replace (mkStrings (sItems (vStyles v)) (sRoom (vStyles v)) (sAge (vStyles v))) with (vStyles v) in Ht1 by (destruct (vStyles v); reflexivity).
      exact Ht1.
  Qed.
End Loops.

(** * One element *)
Lemma asInt_small n : Z.of_nat n < 2 ^ 31 -> asInt n = Z.of_nat n.
Proof. intros H. unfold asInt. rewrite Z.mod_small by lia. lia. Qed.
Lemma fillVertices_ok (ele : coord -> outcome N) h cs : Forall (fun c => ele c = Ok (h c)) cs ->
  fillVertices ele cs = Ok (flat_map (fun c => [clon c; clat c; h c]) cs).
Proof. induction 1 as [|c cs E F IH]; [reflexivity|]. cbn [fillVertices flat_map app]. rewrite E, IH. reflexivity. Qed.
Lemma fillVertices_defined (ele : coord -> outcome N) cs : (forall c, ele c <> UB) -> fillVertices ele cs <> UB.
Proof.
  intros H. induction cs as [|c cs IH]; cbn [fillVertices]; [discriminate|]. specialize (H c). destruct (ele c); try discriminate; [|congruence].
  cbn [bind]. destruct (fillVertices ele cs); try discriminate. congruence.
Qed.
Lemma placesOf_eq e : placesOf e = pointsOf e. Proof. destruct e; reflexivity. Qed.
Lemma flatVertices_length (h : coord -> N) cs : length (flat_map (fun c => [clon c; clat c; h c]) cs) = (3 * length cs)%nat.
Proof. induction cs as [|c cs IH]; [reflexivity|]. cbn [flat_map app length]. rewrite IH. lia. Qed.

  Lemma steps_even k : 0 <= k -> steps (2 * k) = Z.to_nat k.
  Proof. intros H. unfold steps. f_equal. rewrite Z.mul_comm, Z.div_add_l by lia. change (1 / 2) with 0. lia. Qed.
  Lemma new_fresh : fresh2 newVisitor. Proof. split; reflexivity. Qed.
  Lemma entry_some {A} (l : list A) i : (i < length l)%nat -> exists x, entry l i = Ok x.
  Proof. intros H. unfold entry. apply nth_error_Some in H. destruct (nth_error l i); [eauto|congruence]. Qed.
  Lemma places_defined vs : forall n i, (i + 2 * n <= length vs)%nat -> exists cs, places vs i n = Ok cs /\ length cs = n.
  Proof.
    induction n as [|n IH]; intros i H; cbn [places]; [exists []; auto|].
    destruct (entry_some vs i) as [x Ex]; [lia|]. destruct (entry_some vs (i + 1)) as [y Ey]; [lia|].
    rewrite Ex. cbn [bind]. rewrite Ey. cbn [bind]. destruct (IH (i + 2)%nat) as (cs & E & L); [lia|]. rewrite E. cbn [bind].
    eexists. split; [reflexivity|]. cbn [length]. congruence.
  Qed.
  Lemma elementOf_defined {P S} (q : parts P S) id vs k ts : 1 <= k -> 2 * k <= Z.of_nat (length vs) -> exists e, elementOf q id vs (2 * k) ts = Ok e.
  Proof.
    intros Hk Hl. unfold elementOf. rewrite Z.mul_comm, Z.quot_mul by lia. destruct (Z.eqb_spec k 1) as [->|Hn].
    - destruct (entry_some vs 0) as [x Ex]; [lia|]. destruct (entry_some vs 1) as [y Ey]; [lia|].
      rewrite Ex. cbn [bind]. rewrite Ey. cbn [bind]. eauto.
    - replace (k * 2 <=? -2) with false by (symmetry; apply Z.leb_gt; lia).
      rewrite Z.mul_comm, steps_even by lia. destruct (places_defined vs (Z.to_nat k) 0) as (cs & E & Hc); [lia|]. rewrite E. cbn [bind].
      destruct cs; [cbn in Hc; lia|]. eauto.
  Qed.
  Lemma newRange_spec s e : 1 <= s <= 19 /\ 1 <= e <= 19 -> newRange s e = Ok (mkRange s e).
  Proof.
    intros H. unfold newRange, MinLod, MaxLod.
    replace ((s <? 1) || (s >? 19) || (e <? 1) || (e >? 19))%bool with false; [reflexivity|]. symmetry. lia.
  Qed.

Section Calls.
  Context (hash : bytes -> N) (cap : nat) (cap1 : (1 <= cap)%nat).

  Lemma visit_opened n style ele e t v : opened hash cap t -> fresh2 v -> (forall f, style = Some f -> f e <> UB) -> (forall c, ele c <> UB) ->
    exists t' v' r, visitElement n style ele e t v = (t', v', r) /\ opened hash cap t' /\ r <> UB /\
      (forall ev, r = Ok ev -> isError ev = false /\ fresh2 v').
  Proof.
    intros Ht Hv Hs He.
    destruct (visitElement_spec (opened hash cap) (fun _ => True) (fun _ _ => True)) with (n := n) (style := style) (ele := ele) (e := e) (t := t) (v := v)
      as (t' & v' & r & E & H' & M); auto.
    { intros t0 i H0 _. destruct (opened_string hash cap cap1 i t0 H0) as (s & t1 & E & H1). eauto. }
    { apply Forall_forall. auto. }
    { intros f ds _ _. apply Forall_forall. auto. }
    exists t', v', r. split; [exact E|]. split; [exact H'|].
    assert (Hst : match style with None => Ok [] | Some f => f e end <> UB) by (destruct style as [f|]; [apply Hs; reflexivity|discriminate]).
    destruct (match style with None => Ok [] | Some f => f e end) as [ds|x|].
    - destruct M as (Hf & ps & ss & _ & _ & ->). pose proof (fillVertices_defined ele (placesOf e) He) as D.
      destruct (fillVertices ele (placesOf e)); cbn [bind]; [|split; [discriminate|intros ev C; discriminate]|congruence].
      split; [discriminate|]. intros ev [= <-]. split; [reflexivity|exact Hf].
    - subst r. split; [discriminate|]. intros ev C; discriminate.
    - congruence.
  Qed.
  Lemma visitAll_opened n style ele : (forall f e, style = Some f -> f e <> UB) -> (forall c, ele c <> UB) -> forall es t v,
    opened hash cap t -> fresh2 v ->
    exists t' evs r, visitAll n style ele es t v = (t', evs, r) /\ opened hash cap t' /\ r <> UB /\ existsb isError evs = false.
  Proof.
    intros Hs He. induction es as [|e es IH]; intros t v Ht Hv; cbn [visitAll].
    - eexists _, _, _. split; [reflexivity|]. split; [exact Ht|]. split; [discriminate|reflexivity].
    - destruct (visit_opened n style ele e t v Ht Hv) as (t' & v' & r & E & H' & D & M); [intros f Ef; now apply Hs|exact He|].
      rewrite E. destruct r as [ev|x|]; [|eexists _, _, _; split; [reflexivity|]; split; [exact H'|]; split; [discriminate|reflexivity]|congruence].
      destruct (M ev eq_refl) as [Q F]. destruct (IH t' v' H' F) as (t2 & evs & r2 & E2 & H2 & D2 & Q2). rewrite E2.
      eexists _, _, _. split; [reflexivity|]. split; [exact H2|]. split; [exact D2|]. cbn [existsb]. now rewrite Q, Q2.
  Qed.
  Lemma tellAll_opened n style ele : (forall f e, style = Some f -> f e <> UB) -> (forall c, ele c <> UB) -> forall os t v,
    opened hash cap t -> fresh2 v ->
    exists t' evs r, tellAll n style ele os t v = (t', evs, r) /\ opened hash cap t' /\ r <> UB /\ existsb isError evs = false.
  Proof.
    intros Hs He. induction os as [|[m|e] es IH]; intros t v Ht Hv; cbn [tellAll].
    - eexists _, _, _. split; [reflexivity|]. split; [exact Ht|]. split; [discriminate|reflexivity].
    - destruct (IH t v Ht Hv) as (t2 & evs & r2 & E2 & H2 & D2 & Q2). rewrite E2.
      eexists _, _, _. split; [reflexivity|]. split; [exact H2|]. split; [exact D2|]. rewrite existsb_app, Q2.
      destruct (vertices m); reflexivity.
    - destruct (visit_opened n style ele e t v Ht Hv) as (t' & v' & r & E & H' & D & M); [intros f Ef; now apply Hs|exact He|].
      rewrite E. destruct r as [ev|x|]; [|eexists _, _, _; split; [reflexivity|]; split; [exact H'|]; split; [discriminate|reflexivity]|congruence].
      destruct (M ev eq_refl) as [Q F]. destruct (IH t' v' H' F) as (t2 & evs & r2 & E2 & H2 & D2 & Q2). rewrite E2.
      eexists _, _, _. split; [reflexivity|]. split; [exact H2|]. split; [exact D2|]. cbn [existsb]. now rewrite Q, Q2.
  Qed.

  Lemma tagIds_opened tags : forall n i t, opened hash cap t -> (i + 2 * n <= length tags)%nat ->
    exists t' ts, tagIds hash tags i n t = (t', Ok ts) /\ opened hash cap t'.
  Proof.
    induction n as [|n IH]; intros i t Ht H; cbn [tagIds]; [eauto|].
    destruct (entry_some tags i) as [x Ex]; [lia|]. destruct (entry_some tags (i + 1)) as [y Ey]; [lia|].
    rewrite Ex. cbn [bind]. destruct (opened_id hash cap cap1 x t Ht) as (k & t1 & E1 & H1). rewrite E1. cbn [bind]. rewrite Ey. cbn [bind].
    destruct (opened_id hash cap cap1 y t1 H1) as (w & t2 & E2 & H2). rewrite E2. cbn [bind].
    destruct (IH (i + 2)%nat t2 H2) as (t3 & ts & E3 & H3); [lia|]. rewrite E3. cbn [omap bind]. eauto.
  Qed.

  Context {P S : Type} (q : parts P S) (L : lawful hash cap q).


  Lemma provider_opened disk path a : opened hash cap (aTable a) ->
    exists a' p, provider q disk path a = (a', p) /\ opened hash cap (aTable a') /\ p <> UB.
  Proof.
    intros H. unfold provider. destruct (alookup beqb path (aStyles a)) as [p|].
    { eexists _, _. split; [reflexivity|]. split; [exact H|discriminate]. }
    destruct (disk path) as [text|]. 2:{ eexists _, _. split; [reflexivity|]. split; [exact H|discriminate]. }
    destruct (law_provide _ _ _ L (dirOf path) text _ H) as [H1 H2].
    destruct (qProvide q (dirOf path) text (aTable a)) as [t r]. cbn [fst snd] in *.
    destruct r; (eexists _, _; split; [reflexivity|]; split; [exact H1|discriminate || congruence]).
  Qed.
  Definition errorsLast (evs : list event) : Prop :=
    exists quiet, existsb isError quiet = false /\ (evs = quiet \/ exists e, evs = quiet ++ [EError e]).
  Lemma safely_spec evs r : existsb isError evs = false -> r <> UB -> exists evs', safely evs r = (evs', Ok Nothing) /\ errorsLast evs'.
  Proof.
    intros Q D. destruct r as [u|e|]; [| |congruence]; cbn [safely]; eexists; (split; [reflexivity|]); exists evs; eauto.
  Qed.
  Lemma addWith_opened disk key style r a : opened hash cap (aTable a) ->
    exists a' evs, addWith q disk key style r a = (a', evs, Ok Nothing) /\ opened hash cap (aTable a') /\ errorsLast evs.
  Proof.
    intros H. unfold addWith. destruct (provider_opened disk style a H) as (a1 & p & E & H1 & D). rewrite E.
    destruct p as [p|e|]; [| |congruence].
    - destruct (law_store _ _ _ L key r p (aTable a1) (aStores a1) H1) as [H2 D2].
      destruct (qStore q key r p (aTable a1) (aStores a1)) as [[t s] o]. cbn [fst snd] in *.
      destruct (safely_spec [] o eq_refl D2) as (evs & Es & Q). rewrite Es. eexists _, _. split; [reflexivity|]. split; [exact H2|exact Q].
    - destruct (safely_spec [] (Throw e) eq_refl) as (evs & Es & Q); [discriminate|]. rewrite Es. eexists _, _. split; [reflexivity|]. auto.
  Qed.
  Lemma withRange_spec s e (a : application P S) f (Q : application P S * list event * outcome answer -> Prop) :
    (forall x, Q (a, [], Throw x)) -> (forall r, newRange s e = Ok r -> Q (f r)) -> Q (withRange s e a f).
  Proof.
    intros H1 H2. unfold withRange. destruct (newRange s e) as [r|x|] eqn:E; auto.
    unfold newRange in E. destruct (_ || _ || _ || _)%bool; discriminate.
  Qed.
  Definition goodCall (c : call) (x : application P S * list event * outcome answer) : Prop :=
    opened hash cap (aTable (fst (fst x))) /\ snd x <> UB /\
    (hasCallback c = true -> lodsOk c -> snd x = Ok Nothing /\ errorsLast (snd (fst x))).
  Lemma good_ok c (a : application P S) evs : opened hash cap (aTable a) -> errorsLast evs -> goodCall c (a, evs, Ok Nothing).
  Proof. intros H E. split; [exact H|]. split; [discriminate|]. auto. Qed.

  Lemma range_good c s e (a : application P S) f : (lodsOk c -> 1 <= s <= 19 /\ 1 <= e <= 19) -> opened hash cap (aTable a) ->
    (forall r, goodCall c (f r)) -> goodCall c (withRange s e a f).
  Proof.
    intros Hl Ht Hf. unfold withRange. destruct (newRange s e) as [r|x|] eqn:E; [apply Hf| |].
    - split; [exact Ht|]. split; [discriminate|]. intros _ K. apply Hl in K. rewrite (newRange_spec _ _ K) in E. discriminate.
    - unfold newRange in E. destruct (_ || _ || _ || _)%bool; discriminate.
  Qed.
  Lemma serve_good disk c a : opened hash cap (aTable a) -> arraysOk c -> goodCall c (serve hash q disk c a).
  Proof.
    intros H A. destruct c; cbn [serve].
    - destruct (provider_opened disk path a H) as (a1 & p & E & H1 & D). rewrite E.
      destruct p as [p|e|]; [| |congruence]; (split; [exact H1|]; split; [discriminate|]; intros C; discriminate).
    - split; [exact H|]. split; [discriminate|]. intros C; discriminate.
    - split; [exact H|]. split; [discriminate|]. intros C; discriminate.
    - split; [exact H|]. split; [discriminate|]. intros C; discriminate.
    - apply range_good; auto. intros r. destruct (addWith_opened disk key style (InRange path r) a H) as (a1 & evs & E & H1 & Q). rewrite E.
      now apply good_ok.
    - apply range_good; auto. intros r. destruct (addWith_opened disk key style (InBox path least most r) a H) as (a1 & evs & E & H1 & Q). rewrite E.
      now apply good_ok.
    - destruct (addWith_opened disk key style (InTile path k) a H) as (a1 & evs & E & H1 & Q). rewrite E. now apply good_ok.
    - apply range_good; auto. intros r. cbn [arraysOk] in A. destruct A as ((k & -> & Hk) & Lv & (m & -> & Hm) & Lt).
      unfold tagsOf. replace (2 * m <=? -2) with false by lia. replace (2 * m <? 0) with false by lia.
      rewrite (steps_even m) by lia. destruct (tagIds_opened tags (Z.to_nat m) 0 (aTable a) H) as (t & ts & E & H1); [lia|]. rewrite E.
      cbn [bind]. destruct (elementOf_defined q id vertices k ts Hk Lv) as [x Ex]. rewrite Ex.
      destruct (addWith_opened disk key style (OneElement x r) (setTable a t) H1) as (a1 & evs & E2 & H2 & Q). rewrite E2. now apply good_ok.
    - split; [exact H|]. split; [|intros C; discriminate]. cbn [snd]. pose proof (law_has _ _ _ L k (aStores a)) as D.
      destruct (qHas q k (aStores a)); [discriminate|discriminate|congruence].
    - apply range_good; auto. intros r.
      destruct (law_search _ _ _ L (mkQuery nots ands ors least most r) (aTable a) (aStores a) H) as [H1 D1].
      destruct (qSearch q (mkQuery nots ands ors least most r) (aTable a) (aStores a)) as [[[t st] es] found]. cbn [fst snd] in *.
      destruct (visitAll_opened tag None (fun _ => Ok 0%N)) with (es := es) (t := t) (v := newVisitor) as (t' & evs & told & E & H2 & D2 & Q);
        [intros; discriminate|intros; discriminate|exact H1|apply new_fresh|]. rewrite E.
      destruct (safely_spec evs (bind told (fun _ => found)) Q) as (evs' & Es & Q'); [destruct told; [exact D1|discriminate|congruence]|].
      rewrite Es. now apply good_ok.
    - destruct (provider_opened disk style a H) as (a1 & p & E & H1 & D). rewrite E. destruct p as [p|e|]; [| |congruence].
      + destruct (law_build _ _ _ L k p (kindOf ele) (aTable a1) (aStores a1) H1) as [H2 D2].
        destruct (qBuild q k p (kindOf ele) (aTable a1) (aStores a1)) as [[[t st] os] built]. cbn [fst snd] in *.
        destruct (tellAll_opened tag (Some (fun e => qStyle q p e (lod k))) (qElevation q (kindOf ele) k)) with (os := os) (t := t) (v := newVisitor)
          as (t' & evs & told & E2 & H3 & D3 & Q); [intros f e [= <-]; apply (law_style _ _ _ L)|apply (law_elevation _ _ _ L)|exact H2|apply new_fresh|].
        rewrite E2. destruct (safely_spec evs (bind told (fun _ => built)) Q) as (evs' & Es & Q'); [destruct told; [exact D2|discriminate|congruence]|].
        rewrite Es. now apply good_ok.
      + destruct (safely_spec [] (Throw e) eq_refl) as (evs & Es & Q); [discriminate|]. rewrite Es. now apply good_ok.
    - split; [exact H|]. split; [|intros C; discriminate]. cbn [snd]. pose proof (law_elevation _ _ _ L (kindOf ele) k c) as D.
      destruct (qElevation q (kindOf ele) k c); [discriminate|discriminate|congruence].
  Qed.

  (** * The order of calls *)
  Definition matches (p : pointer P S) (s : life) : Prop :=
    match p, s with
    | Null, Before => True
    | Live a, Connected => opened hash cap (aTable a)
    | Gone, After => True
    | _, _ => False
    end.
  Definition goodOp (o : op) : Prop := match o with Use _ c => arraysOk c | _ => True end.
  Lemma step_protocol o p s : matches p s -> goodOp o ->
    match lives (creates q) o s with
    | Some s' => exists p' evs r, step hash q o p = (p', evs, r) /\ r <> UB /\ matches p' s'
    | None => exists p', step hash q o p = (p', [], UB)
    end.
  Proof.
    intros M G. destruct o as [index| |disk c]; cbn [lives step].
    - destruct (law_create _ _ _ L index) as [D Ho]. unfold creates, create. destruct (qCreate q index) as [[t st]|e|]; [| |congruence].
      + cbn [omap bind]. eexists _, _, _. split; [reflexivity|]. split; [discriminate|]. cbn [matches aTable]. eapply Ho; reflexivity.
      + cbn [omap bind]. eexists _, _, _. split; [reflexivity|]. split; [discriminate|exact M].
    - destruct p, s; try contradiction M; eauto; (eexists _, _, _; split; [reflexivity|]; split; [discriminate|exact Logic.I]).
    - destruct p as [|a|], s; try contradiction M; eauto.
      destruct (serve_good disk c a M G) as (H1 & D & _). destruct (serve hash q disk c a) as [[a' evs] r]. cbn [fst snd] in *.
      eexists _, _, _. split; [reflexivity|]. split; [exact D|exact H1].
  Qed.
  Lemma run_protocol : forall os p s, matches p s -> Forall goodOp os ->
    (snd (run hash q os p) = UB <-> respects (creates q) os s = false).
  Proof.
    induction os as [|o os IH]; intros p s M G; cbn [run respects snd]; [split; discriminate|].
    inversion_clear G as [|? ? G1 G2]. pose proof (step_protocol o p s M G1) as H.
    destruct (lives (creates q) o s) as [s'|].
    - destruct H as (p' & evs & r & E & D & M'). rewrite E. specialize (IH p' s' M' G2).
      destruct (run hash q os p') as [[p2 evs2] r2] eqn:E2. cbn [snd] in IH.
      destruct r; [| |congruence]; cbn [snd]; rewrite <- IH; destruct r2; cbn [omap bind]; split; try discriminate; auto.
    - destruct H as (p' & E). rewrite E. cbn [snd]. split; reflexivity.
  Qed.
End Calls.

(** * What is told about elements *)
Lemma pairs_names l ts ps : Forall2 (fun x p => fst p = nameOf l (tkey x) /\ snd p = nameOf l (tvalue x)) ts ps -> ps = namesOf l ts.
Proof. induction 1 as [|x [a b] ts ps [E1 E2] F IH]; [reflexivity|]. cbn [fst snd] in *. subst. reflexivity. Qed.
Lemma pairs_styles l (ds : list (N * bytes)) ss : Forall2 (fun (d : N * bytes) (p : bytes * bytes) => fst p = nameOf l (fst d) /\ snd d = snd p) ds ss ->
  ss = map (fun d => (nameOf l (fst d), snd d)) ds.
Proof. induction 1 as [|[x y] [a b] ts ps [E1 E2] F IH]; [reflexivity|]. cbn [fst snd] in *. subst. reflexivity. Qed.
  Lemma nameOf_app l m i : knownId l i -> nameOf (l ++ m) i = nameOf l i.
  Proof. intros H. unfold nameOf. now rewrite app_nth1. Qed.
  Lemma knownId_app l m i : knownId l i -> knownId (l ++ m) i.
  Proof. unfold knownId. rewrite app_length. lia. Qed.
  Definition flatCoords (cs : list coord) : list N := flat_map (fun c => [clat c; clon c]) cs.
  Lemma flatCoords_length cs : length (flatCoords cs) = (length cs * 2)%nat.
  Proof. induction cs; cbn [flatCoords flat_map app length] in *; [reflexivity|]. unfold flatCoords in IHcs. lia. Qed.
  Lemma places_flat : forall cs pre, places (pre ++ flatCoords cs) (length pre) (length cs) = Ok cs.
  Proof.
    induction cs as [|c cs IH]; intros pre; cbn [places length]; [reflexivity|]. cbn [flatCoords flat_map app].
    unfold entry. rewrite nth_error_app2, Nat.sub_diag by lia. cbn [nth_error bind]. rewrite nth_error_app2 by lia.
    replace (length pre + 1 - length pre)%nat with 1%nat by lia. cbn [nth_error bind].
    specialize (IH (pre ++ [clat c; clon c])). rewrite <- app_assoc, app_length in IH. cbn [app length] in IH.
    unfold flatCoords in IH. rewrite IH. destruct c. reflexivity.
  Qed.
  Lemma elementOf_flat {P S} (q : parts P S) id ts cs : cs <> [] -> exists x, elementOf q id (flatCoords cs) (Z.of_nat (length (flatCoords cs))) ts = Ok x /\ shapeOf (qSame q) id ts cs x.
  Proof.
    intros Hc. unfold elementOf. rewrite flatCoords_length, Nat2Z.inj_mul. change (Z.of_nat 2) with 2. rewrite Z.quot_mul by lia.
    destruct cs as [|c [|d cs]]; [congruence| |].
    - destruct c. eexists. split; reflexivity.
    - replace (Z.of_nat (length (c :: d :: cs)) =? 1) with false by (cbn [length]; lia).
      replace (Z.of_nat (length (c :: d :: cs)) * 2 <=? -2) with false by lia.
      rewrite Z.mul_comm, steps_even, Nat2Z.id by lia. pose proof (places_flat (c :: d :: cs) []) as Ep; cbn [app length] in Ep |- *; rewrite Ep. cbn [bind].
      eexists. split; [reflexivity|]. cbn [shapeOf]. destruct (qSame q c _); reflexivity.
  Qed.
  Lemma provider_loaded {P S} (q : parts P S) disk path (a : application P S) p : alookup beqb path (aStyles a) = Some p -> provider q disk path a = (a, Ok p).
  Proof. intros E. unfold provider. now rewrite E. Qed.

Section Report.
  Context (hash : bytes -> N) (cap : nat) (cap1 : (1 <= cap)%nat) (hash32 : forall s, (hash s < 4294967296)%N).

  Lemma cstr_names l t ts : holds hash cap l t -> map cstr (flatPairs (namesOf l ts)) = flatPairs (namesOf l ts).
  Proof.
    intros H. induction ts as [|x ts IH]; [reflexivity|]. cbn [namesOf map flatPairs flat_map app fst snd].
    rewrite !cstr_nulFree by (eapply holds_nul; eauto). f_equal. f_equal. exact IH.
  Qed.
  Lemma cstr_styles l t (ds : list (N * bytes)) : holds hash cap l t ->
    map cstr (flatPairs (map (fun d => (nameOf l (fst d), snd d)) ds)) = flatPairs (map (fun d => (nameOf l (fst d), cstr (snd d))) ds).
  Proof.
    intros H. induction ds as [|x ts IH]; [reflexivity|]. cbn [map flatPairs flat_map app fst snd].
    rewrite (cstr_nulFree (nameOf l (fst x))) by (eapply holds_nul; eauto). f_equal. f_equal. exact IH.
  Qed.

  Lemma visit_holds l n style ele h ds e t v : holds hash cap l t -> fresh2 v -> known l e -> small e ->
    match style with None => Ok [] | Some f => f e end = Ok ds -> Forall (fun d => knownId l (fst d)) ds -> fits 2 ds ->
    Forall (fun c => ele c = Ok (h c)) (pointsOf e) ->
    exists t' v', visitElement n style ele e t v = (t', v', Ok (reported l n ds h e)) /\ holds hash cap l t' /\ fresh2 v'.
  Proof.
    intros Ht Hv Hk [Hs1 Hs2] Hst Hd Hf He.
    destruct (visitElement_spec (holds hash cap l) (knownId l) (fun i s => s = nameOf l i)) with (n := n) (style := style) (ele := ele) (e := e) (t := t) (v := v)
      as (t' & v' & r & E & H' & M); auto.
    { intros t0 i H0 K. destruct (holds_string hash cap cap1 hash32 l t0 i H0 K) as (t1 & E & H1). eauto. }
    { intros f ds' -> E. rewrite Hst in E. injection E as <-. exact Hd. }
    rewrite Hst in M. destruct M as (Hv' & ps & ss & F1 & F2 & ->). exists t', v'. split; [|auto]. rewrite E. f_equal.
    rewrite placesOf_eq, (fillVertices_ok ele h) by exact He. cbn [bind].
    apply pairs_names in F1. apply pairs_styles in F2. subst ps ss. unfold reported.
    rewrite (cstr_names l t) by exact Ht. rewrite (cstr_styles l t) by exact Ht.
    unfold fits in *. rewrite !flatPairs_length, flatVertices_length. unfold namesOf. rewrite !map_length.
    rewrite !asInt_small by lia. reflexivity.
  Qed.

  Lemma visitAll_holds l n es : forall t v, holds hash cap l t -> fresh2 v -> Forall (known l) es -> Forall small es ->
    exists t', visitAll n None (fun _ => Ok 0%N) es t v = (t', map (reported l n [] (fun _ => 0%N)) es, Ok tt) /\ holds hash cap l t'.
  Proof.
    induction es as [|e es IH]; intros t v Ht Hv Hk Hs; cbn [visitAll map]; [eauto|].
    inversion_clear Hk. inversion_clear Hs.
    destruct (visit_holds l n None (fun _ => Ok 0%N) (fun _ => 0%N) [] e t v) as (t' & v' & E & H' & Hv'); auto.
    { unfold fits. cbn [length]. lia. }
    { apply Forall_forall. reflexivity. }
    rewrite E. destruct (IH t' v' H' Hv') as (t2 & E2 & H2'); auto. rewrite E2. eauto.
  Qed.
  (** What is told about one product. *)
  Definition toldOf (l : list bytes) (n : Z) (styles : element -> list (N * bytes)) (h : coord -> N) (o : product) : list event :=
    match o with Built m => match vertices m with [] => [] | _ => [EMesh n m] end | Found e => [reported l n (styles e) h e] end.
  Lemma tellAll_holds l n f styles ele h os : forall t v, holds hash cap l t -> fresh2 v ->
    (forall e, In (Found e) os -> known l e /\ small e /\ f e = Ok (styles e) /\ Forall (fun d => knownId l (fst d)) (styles e) /\
       fits 2 (styles e) /\ Forall (fun c => ele c = Ok (h c)) (pointsOf e)) ->
    exists t', tellAll n (Some f) ele os t v = (t', flat_map (toldOf l n styles h) os, Ok tt) /\ holds hash cap l t'.
  Proof.
    induction os as [|[m|e] os IH]; intros t v Ht Hv Ho; cbn [tellAll flat_map toldOf].
    - eauto.
    - destruct (IH t v Ht Hv) as (t2 & E2 & H2'). { intros e He. apply Ho. right. exact He. } rewrite E2. eauto.
    - destruct (Ho e (or_introl eq_refl)) as (A1 & A2 & A3 & A4 & A5 & A6).
      destruct (visit_holds l n (Some f) ele h (styles e) e t v) as (t' & v' & E & H' & Hv'); auto.
      rewrite E. destruct (IH t' v' H' Hv') as (t2 & E2 & H2'). { intros e' He. apply Ho. right. exact He. } rewrite E2. eauto.
  Qed.

  (** * Elements made of arrays *)
  Lemma tagIds_holds : forall kvs pre l t, holds hash cap l t -> Forall nulFree (flatPairs kvs) ->
    (diskBytes l + diskBytes (flatPairs kvs) < 4294967296)%N ->
    exists t' ts m, tagIds hash (pre ++ flatPairs kvs) (length pre) (length kvs) t = (t', Ok ts) /\ holds hash cap (l ++ m) t' /\
      Forall (fun x => knownId (l ++ m) (tkey x) /\ knownId (l ++ m) (tvalue x)) ts /\ namesOf (l ++ m) ts = kvs.
  Proof.
    induction kvs as [|[k w] kvs IH]; intros pre l t Ht Hn Hd; cbn [tagIds length flatPairs flat_map app fst snd] in *.
    - exists t, [], []. rewrite app_nil_r. split; [reflexivity|]. auto.
    - inversion_clear Hn as [|? ? N1 Hn']. inversion_clear Hn' as [|? ? N2 Hn2]. cbn [diskBytes] in Hd.
      unfold entry. rewrite nth_error_app2, Nat.sub_diag by lia. cbn [nth_error bind].
      destruct (holds_id hash cap cap1 hash32 l t k Ht N1) as (i & t1 & l1 & E1 & H1 & [m1 ->] & K1 & Q1 & D1); [lia|].
      rewrite E1. cbn [bind]. rewrite nth_error_app2 by lia. replace (length pre + 1 - length pre)%nat with 1%nat by lia. cbn [nth_error bind].
      destruct (holds_id hash cap cap1 hash32 _ t1 w H1 N2) as (j & t2 & l2 & E2 & H2 & [m2 ->] & K2 & Q2 & D2); [lia|].
      rewrite E2. cbn [bind].
      destruct (IH (pre ++ [k; w]) _ t2 H2 Hn2) as (t3 & ts & m3 & E3 & H3 & K3 & Q3); [fold (flatPairs kvs); unfold flatPairs in *; lia|].
      rewrite <- app_assoc, app_length in E3. cbn [app length] in E3. fold (flatPairs kvs). unfold flatPairs in E3 |- *. rewrite E3.
      exists t3, (mkTag i j :: ts), (m1 ++ m2 ++ m3). cbn [omap bind]. rewrite !app_assoc. split; [reflexivity|]. split; [exact H3|].
      split.
      + constructor; [|exact K3]. cbn [tkey tvalue]. split; [|now apply knownId_app]. now apply knownId_app, knownId_app.
      + cbn [namesOf map tkey tvalue]. f_equal; [|exact Q3]. rewrite (nameOf_app _ m3) by now apply knownId_app. rewrite (nameOf_app _ m2) by exact K1.
        rewrite (nameOf_app _ m3) by exact K2. now rewrite Q1, Q2.
  Qed.

  Context {P S : Type} (q : parts P S).
  Lemma tagsOf_holds kvs l t : holds hash cap l t -> Forall nulFree (flatPairs kvs) ->
    (diskBytes l + diskBytes (flatPairs kvs) < 4294967296)%N ->
    exists t' ts m, tagsOf hash (flatPairs kvs) (Z.of_nat (length (flatPairs kvs))) t = (t', Ok ts) /\ holds hash cap (l ++ m) t' /\
      Forall (fun x => knownId (l ++ m) (tkey x) /\ knownId (l ++ m) (tvalue x)) ts /\ namesOf (l ++ m) ts = kvs.
  Proof.
    intros Ht Hn Hd. unfold tagsOf. rewrite flatPairs_length, Nat2Z.inj_mul. change (Z.of_nat 2) with 2.
    replace (_ <=? -2) with false by lia. replace (_ <? 0) with false by lia.
    rewrite Z.mul_comm, steps_even, Nat2Z.id by lia. apply (tagIds_holds kvs []); auto.
  Qed.

  (** * Stylesheets *)
  Lemma serve_same disk disk' c (a : application P S) : (forall path, styleOf c = Some path -> loaded path a) ->
    serve hash q disk c a = serve hash q disk' c a.
  Proof.
    intros H. assert (E : forall path, styleOf c = Some path -> provider q disk path a = provider q disk' path a).
    { intros path Ep. destruct (H path Ep) as [p E]. now rewrite !(provider_loaded q _ _ _ _ E). }
    destruct c; cbn [serve styleOf] in *; try reflexivity; try (unfold addWith; now rewrite (E _ eq_refl)); try now rewrite (E _ eq_refl).
    - unfold withRange. destruct (newRange s e); try reflexivity. destruct (tagsOf hash tags tagLength (aTable a)) as [t ts].
      destruct (bind ts (elementOf q id vertices vertexLength)) as [x| |]; try reflexivity. unfold addWith.
      destruct (H style eq_refl) as [p Ep]. now rewrite !(provider_loaded q _ style (setTable a t) p) by exact Ep.
  Qed.
  Lemma provider_keeps disk path (a a' : application P S) o x p : provider q disk path a = (a', o) -> alookup beqb x (aStyles a) = Some p ->
    alookup beqb x (aStyles a') = Some p.
  Proof.
    unfold provider. intros E Ex. destruct (alookup beqb path (aStyles a)) eqn:Ep; [injection E as <- <-; exact Ex|].
    destruct (disk path) as [text|]; [|injection E as <- <-; exact Ex].
    destruct (qProvide q (dirOf path) text (aTable a)) as [t r]. destruct r; injection E as <- <-; cbn [aStyles setTable]; try exact Ex.
    cbn [alookup]. destruct (beqb x path) eqn:Eb; [|exact Ex]. apply beqb_eq in Eb. subst. congruence.
  Qed.
  Lemma addWith_keeps disk key style r (a a' : application P S) evs o x p : addWith q disk key style r a = (a', evs, o) ->
    alookup beqb x (aStyles a) = Some p -> alookup beqb x (aStyles a') = Some p.
  Proof.
    unfold addWith. intros E Ex. destruct (provider q disk style a) as [a1 o1] eqn:Ep. pose proof (provider_keeps _ _ _ _ _ _ _ Ep Ex) as H.
    destruct o1 as [p1|e|].
    - destruct (qStore q key r p1 (aTable a1) (aStores a1)) as [[t s] u]. destruct (safely [] u). injection E as <- <- <-. exact H.
    - cbn [safely] in E. injection E as <- <- <-. exact H.
    - injection E as <- <- <-. exact H.
  Qed.
  Lemma serve_keeps disk c (a a' : application P S) evs o x p : serve hash q disk c a = (a', evs, o) ->
    alookup beqb x (aStyles a) = Some p -> alookup beqb x (aStyles a') = Some p.
  Proof.
    intros E Ex. destruct c; cbn [serve] in E.
    - destruct (provider q disk path a) as [a1 o1] eqn:Ep. pose proof (provider_keeps _ _ _ _ _ _ _ Ep Ex) as H.
      destruct o1; injection E as <- <- <-; exact H.
    - injection E as <- <- <-. exact Ex.
    - injection E as <- <- <-. exact Ex.
    - injection E as <- <- <-. exact Ex.
    - unfold withRange in E. destruct (newRange s e); [eapply addWith_keeps; eauto| |]; injection E as <- <- <-; exact Ex.
    - unfold withRange in E. destruct (newRange s e); [eapply addWith_keeps; eauto| |]; injection E as <- <- <-; exact Ex.
    - eapply addWith_keeps; eauto.
    - unfold withRange in E. destruct (newRange s e); [|injection E as <- <- <-; exact Ex|injection E as <- <- <-; exact Ex].
      destruct (tagsOf hash tags tagLength (aTable a)) as [t ts].
      destruct (bind ts (elementOf q id vertices vertexLength)) as [y| |]; [|injection E as <- <- <-; exact Ex|injection E as <- <- <-; exact Ex].
      eapply addWith_keeps; eauto.
    - injection E as <- <- <-. exact Ex.
    - unfold withRange in E. destruct (newRange s e) as [r| |]; [|injection E as <- <- <-; exact Ex|injection E as <- <- <-; exact Ex].
      destruct (qSearch q (mkQuery nots ands ors least most r) (aTable a) (aStores a)) as [[[t st] es] found].
      destruct (visitAll tag None (fun _ => Ok 0%N) es t newVisitor) as [[t1 ev1] told].
      destruct (safely ev1 (bind told (fun _ => found))). injection E as <- <- <-. exact Ex.
    - destruct (provider q disk style a) as [a1 o1] eqn:Ep. pose proof (provider_keeps _ _ _ _ _ _ _ Ep Ex) as H.
      destruct o1 as [p1|e1|].
      + destruct (qBuild q k p1 (kindOf ele) (aTable a1) (aStores a1)) as [[[t st] os] built].
        destruct (tellAll tag _ (qElevation q (kindOf ele) k) os t newVisitor) as [[t1 ev1] told].
        destruct (safely ev1 (bind told (fun _ => built))). injection E as <- <- <-. exact H.
      + cbn [safely] in E. injection E as <- <- <-. exact H.
      + injection E as <- <- <-. exact H.
    - injection E as <- <- <-. exact Ex.
  Qed.
  Lemma run_same : forall os os' (a : application P S), Forall isUse os -> Forall2 sameCall os os' ->
    (forall disk c path, In (Use disk c) os -> styleOf c = Some path -> loaded path a) ->
    run hash q os (Live a) = run hash q os' (Live a).
  Proof.
    induction os as [|o os IH]; intros os' a Hu Hs Hl; inversion Hs as [|? o' ? os2 Hso Hss]; subst; [reflexivity|].
    inversion Hu as [|? ? (disk & c & Eo) Hu' E1]; subst. clear Hu Hs. destruct o' as [| |disk' c']; cbn [sameCall] in Hso; try discriminate Hso. subst c'.
    cbn [run step]. rewrite (serve_same disk disk' c a) by (intros path Ep; eapply Hl; [left; reflexivity|exact Ep]).
    destruct (serve hash q disk' c a) as [[a1 evs] r] eqn:E.
    rewrite (IH os2 a1 Hu' Hss); [reflexivity|]. intros d2 c2 path Hin Ep. destruct (Hl d2 c2 path (or_intror Hin) Ep) as [p Hp].
    exists p. eapply serve_keeps; eauto.
  Qed.
End Report.

(** * Directories *)
Lemma dirOf_spec path : exists name, path = dirOf path ++ name /\ (forall c, In c name -> c <> 47%N /\ c <> 92%N) /\
  (dirOf path = [] \/ exists d c, dirOf path = d ++ [c] /\ (c = 47%N \/ c = 92%N)).
Proof.
  induction path as [|c path IH]; [exists []; cbn; auto|]. destruct IH as (name & E & Hn & Hd). cbn [dirOf].
  destruct (dirOf path) as [|x d] eqn:Ed.
  - destruct (N.eqb c 47 || N.eqb c 92)%bool eqn:Ec.
    + exists name. split; [cbn [app] in *; now rewrite <- E|]. split; [exact Hn|]. right. exists [], c. split; [reflexivity|].
      apply orb_true_iff in Ec as [Ec|Ec]; apply N.eqb_eq in Ec; auto.
    + exists (c :: name). cbn [app] in *. split; [now rewrite <- E|]. split; [|auto].
      apply orb_false_iff in Ec as [E1 E2]. apply N.eqb_neq in E1, E2. intros y [<-|Hy]; auto.
  - exists name. split; [cbn [app] in *; now rewrite <- E|]. split; [exact Hn|]. right.
    destruct Hd as [Hd|(d' & c' & Hd & Hc)]; [discriminate|]. exists (c :: d'), c'. split; [rewrite Hd; reflexivity|exact Hc].
Qed.
Lemma squeeze_slash b : exists r, squeeze (47%N :: b) = 47%N :: r.
Proof. cbn. destruct (squeeze b) as [|x r]; [eauto|]. destruct (N.eqb_spec x 47) as [->|]; cbn; eauto. Qed.
Lemma squeeze_mid a b : squeeze (a ++ 47%N :: 47%N :: b) = squeeze (a ++ 47%N :: b).
Proof.
  induction a as [|x a IH]; cbn [app].
  - destruct (squeeze_slash b) as [r E]. change (squeeze (47 :: 47 :: b)%N) with
      (match squeeze (47 :: b)%N with (b0 :: _) as r0 => if ((47 =? 47) && (b0 =? 47))%N%bool then r0 else 47%N :: r0 | [] => [47%N] end).
    rewrite E. reflexivity.
  - cbn [squeeze]. now rewrite IH.
Qed.
Lemma squeeze_name d name : ~ In 47%N name -> squeeze (d ++ 47%N :: name) = squeeze (d ++ [47%N]) ++ name.
Proof.
  intros H. assert (E : squeeze name = name).
  { induction name as [|x name IH]; [reflexivity|]. cbn [squeeze]. rewrite IH by (intros C; apply H; now right).
    destruct name; [reflexivity|]. destruct (N.eqb_spec x 47) as [->|]; [exfalso; apply H; now left|reflexivity]. }
  induction d as [|x d IH].
  - cbn [app squeeze]. rewrite E. destruct name as [|y name]; [reflexivity|]. cbn [app].
    destruct (N.eqb_spec y 47) as [->|]; [exfalso; apply H; now left|]. now rewrite andb_false_r.
  - cbn [app squeeze]. rewrite IH.
    assert (N : squeeze (d ++ [47%N]) <> []). { destruct d as [|y d]; [discriminate|]. cbn [app squeeze]. destruct (squeeze (d ++ [47%N])) as [|z w]; [discriminate|]. destruct (_ && _)%bool; discriminate. }
    destruct (squeeze (d ++ [47%N])) as [|z w]; [congruence|]. cbn [app]. destruct (_ && _)%bool; reflexivity.
Qed.
