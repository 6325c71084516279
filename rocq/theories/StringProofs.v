From Verif Require Import Base Bytes BytesProofs LruModel LruSpec LruProofs LruApi StringModel StringSpec.

Lemma Neqb_eq a b : N.eqb a b = true <-> a = b.
Proof. apply N.eqb_eq. Qed.

Section Proofs.
  Variable hash : bytes -> N.
  Hypothesis hash32 : forall s, (hash s < 4294967296)%N.
  Variable cap : nat.
  Hypothesis cap1 : 1 <= cap.

  (** Ids of the strings with a given hash. *)
  Fixpoint idsWith (i : N) (h : N) (l : list bytes) : list N :=
    match l with
    | [] => []
    | s :: l' => (if N.eqb (hash s) h then [i] else []) ++ idsWith (i + 1) h l'
    end.

  Lemma idsWith_app i h l s :
    idsWith i h (l ++ [s]) = idsWith i h l ++ (if N.eqb (hash s) h then [(i + N.of_nat (length l))%N] else []).
  Proof.
    revert i; induction l as [|s' l IH]; intros i; cbn [idsWith app length].
    - rewrite N.add_0_r. rewrite app_nil_r. reflexivity.
    - rewrite IH, <- app_assoc. do 2 f_equal. destruct (N.eqb (hash s) h); [|reflexivity]. f_equal. lia.
  Qed.

  Lemma idsWith_in i h l id :
    In id (idsWith i h l) -> exists n s, id = (i + N.of_nat n)%N /\ nth_error l n = Some s /\ hash s = h.
  Proof.
    revert i; induction l as [|s' l IH]; intros i H; [contradiction|]. cbn [idsWith] in H.
    apply in_app_or in H as [H|H].
    - destruct (N.eqb_spec (hash s') h); [|contradiction]. destruct H as [<-|[]].
      exists 0, s'. split; [lia|]. auto.
    - apply IH in H as (n & s & -> & Hn & Hh). exists (S n), s. split; [lia|]. auto.
  Qed.

  Lemma in_idsWith i l n s :
    nth_error l n = Some s -> In (i + N.of_nat n)%N (idsWith i (hash s) l).
  Proof.
    revert i n; induction l as [|s' l IH]; intros i [|n] H; try discriminate; cbn [idsWith].
    - injection H as ->. rewrite N.eqb_refl. left; lia.
    - apply in_or_app; right. replace (i + N.of_nat (S n))%N with (i + 1 + N.of_nat n)%N by lia. auto.
  Qed.

  Lemma bucketOf_push h h' id m :
    bucketOf h (pushBucket h' id m) = bucketOf h m ++ (if N.eqb h' h then [id] else []).
  Proof.
    unfold bucketOf at 1, pushBucket. rewrite (alookup_aset N.eqb Neqb_eq).
    destruct (N.eqb_spec h h'), (N.eqb_spec h' h); subst; try congruence.
    rewrite app_nil_r. reflexivity.
  Qed.

  Definition encEntry (p : bytes * N) : bytes := le 4 (hash (fst p)) ++ le 4 (snd p).

  Lemma encEntry_length p : length (encEntry p) = 8.
  Proof. unfold encEntry. rewrite app_length, !le_length. reflexivity. Qed.

  Lemma encEntries_length ps : length (flat_map encEntry ps) = 8 * length ps.
  Proof. induction ps; [reflexivity|]. cbn [flat_map]. rewrite app_length, encEntry_length, IHps. cbn [length]. lia. Qed.

  Lemma load_spec l : forall offs i rest acc m,
    length offs = length l -> Forall (fun o => o < 4294967296)%N offs ->
    exists m', loadEntries (length l) i (flat_map encEntry (combine l offs) ++ rest) acc m = (acc ++ offs, m')
      /\ forall h, bucketOf h m' = bucketOf h m ++ idsWith i h l.
  Proof.
    induction l as [|s l IH]; intros [|o offs] i rest acc m HL HF; try discriminate.
    - exists m. cbn [loadEntries length]. rewrite app_nil_r. split; [reflexivity|].
      intros; cbn [idsWith]. rewrite app_nil_r; reflexivity.
    - inversion HF; subst. injection HL as HL.
      cbn [length loadEntries combine flat_map].
      set (E := flat_map encEntry (combine l offs)).
      replace (unle (firstn 4 ((encEntry (s, o) ++ E) ++ rest))) with (hash s).
      2:{ unfold encEntry; cbn [fst snd]. rewrite <- !app_assoc.
          rewrite firstn_app_exact by apply le_length. symmetry; apply unle_le. apply hash32. }
      replace (unle (firstn 4 (skipn 4 ((encEntry (s, o) ++ E) ++ rest)))) with o.
      2:{ unfold encEntry; cbn [fst snd]. rewrite <- !app_assoc.
          rewrite (skipn_app_exact (le 4 (hash s))) by apply le_length.
          rewrite firstn_app_exact by apply le_length. symmetry; apply unle_le. assumption. }
      replace (skipn 8 ((encEntry (s, o) ++ E) ++ rest)) with (E ++ rest).
      2:{ rewrite <- app_assoc, skipn_app_exact by apply encEntry_length. reflexivity. }
      destruct (IH offs (i + 1)%N rest (acc ++ [o]) (pushBucket (hash s) i m) HL H2) as (m' & E1 & E2).
      exists m'. fold E in E1. rewrite E1. split; [rewrite <- app_assoc; reflexivity|].
      intros h. rewrite E2, bucketOf_push. cbn [idsWith]. rewrite <- app_assoc. reflexivity.
  Qed.

  (** The invariant: [l] is the list of strings in order of allocation, [G] the number of
      bytes in the data file that belong to no string (after a crash), [P] tells whether
      ids may have been looked up before their allocation. *)
  Record TInv (G : N) (P : bool) (l : list bytes) (t : table) : Prop := {
    ti_next : nextId t = N.of_nat (length l);
    ti_fail : dataFail t = false;
    ti_len : length (offsets t) = length l;
    ti_off32 : Forall (fun o => o < 4294967296)%N (offsets t);
    ti_index : indexF t = flat_map encEntry (combine l (offsets t));
    ti_data : forall i s o, nth_error l i = Some s -> nth_error (offsets t) i = Some o ->
                exists rest, skipn (N.to_nat o) (dataF t) = s ++ 0%N :: rest;
    ti_size : N.of_nat (length (dataF t)) = (G + diskBytes l)%N;
    ti_pos : forall i s o, nth_error l i = Some s -> nth_error (offsets t) i = Some o ->
                (o + N.of_nat (length s) + 1 + diskBytes (skipn (S i) l) <= G + diskBytes l)%N;
    ti_nodup : NoDup l;
    ti_nul : Forall nulFree l;
    ti_map : forall h, bucketOf h (hmap t) = idsWith 0 h l;
    ti_cinv : Inv (scache t);
    ti_ccap : maxSize (scache t) = cap;
    ti_cache : forall id v, In (id, v) (recency (scache t)) ->
                 nth_error l (N.to_nat id) = Some v \/ (P = true /\ v = []);
    ti_nonempty : P = true -> Forall (fun s => s <> []) l;
    ti_small : (G + diskBytes l < 4294967296)%N
  }.

  Lemma diskBytes_app l s : diskBytes (l ++ [s]) = (diskBytes l + N.of_nat (length s) + 1)%N.
  Proof. induction l; cbn [diskBytes app]; [lia|]. rewrite IHl. lia. Qed.

  Lemma diskBytes_len l : (N.of_nat (length l) <= diskBytes l)%N.
  Proof. induction l; cbn [diskBytes length]; lia. Qed.

  Lemma read_spec G P l t id s : TInv G P l t -> nth_error l (N.to_nat id) = Some s ->
    readString id t = (s, t).
  Proof.
    intros I H. unfold readString.
    destruct (nth_error (offsets t) (N.to_nat id)) as [o|] eqn:E.
    2:{ apply nth_error_None in E. rewrite (ti_len _ _ _ _ I) in E.
        apply nth_error_None in E. congruence. }
    rewrite (ti_fail _ _ _ _ I).
    destruct (ti_data _ _ _ _ I _ _ _ H E) as [rest Hr]. rewrite Hr.
    assert (Hn : nulFree s).
    { pose proof (ti_nul _ _ _ _ I) as F. rewrite Forall_forall in F. apply F.
      eapply nth_error_In; eauto. }
    pose proof (getline_nul s rest Hn) as Hg.
    destruct (s ++ 0%N :: rest) eqn:Es; [destruct s; discriminate|].
    rewrite Hg. reflexivity.
  Qed.

  Lemma read_none G P l t id : TInv G P l t -> nth_error l (N.to_nat id) = None ->
    readString id t = ([], t).
  Proof.
    intros I H. unfold readString.
    apply nth_error_None in H. rewrite <- (ti_len _ _ _ _ I) in H. apply nth_error_None in H.
    rewrite H. reflexivity.
  Qed.

  Lemma setCache_inv G P l t c : TInv G P l t -> Inv c -> maxSize c = cap ->
    (forall id v, In (id, v) (recency c) -> nth_error l (N.to_nat id) = Some v \/ (P = true /\ v = [])) ->
    TInv G P l (setCache t c).
  Proof. intros []; constructor; cbn [setCache nextId dataFail offsets indexF dataF hmap scache]; auto. Qed.

  (** Position in a list without duplicates. *)
  Lemma position_some s l i : position s l = Some i -> nth_error l i = Some s.
  Proof.
    revert i; induction l as [|s' l IH]; intros i; [discriminate|]. cbn [position].
    destruct (beqb s s') eqn:E.
    - apply beqb_eq in E; subst. intros [= <-]; reflexivity.
    - destruct (position s l) as [j|]; [|discriminate]. cbn. intros [= <-]. cbn. auto.
  Qed.

  Lemma position_none s l : position s l = None -> ~ In s l.
  Proof.
    induction l as [|s' l IH]; [auto|]. cbn [position]. destruct (beqb s s') eqn:E; [discriminate|].
    apply beqb_neq in E. destruct (position s l); [discriminate|]. intros _ [H|H]; [congruence|].
    apply IH; auto.
  Qed.

  Lemma position_in s l : In s l -> exists i, position s l = Some i.
  Proof.
    destruct (position s l) eqn:E; [eauto|]. apply position_none in E. tauto.
  Qed.

  Definition found (s : bytes) (l : list bytes) (ids : list N) : Prop :=
    exists i, position s l = Some i /\ In (N.of_nat i) ids.

  (** The bucket scan finds [s] iff it is in the bucket and answers its position. *)
  Lemma scan_spec G P l s t : forall ids, 
    (P = true -> s <> []) ->
    (forall id, In id ids -> exists s', nth_error l (N.to_nat id) = Some s') ->
    TInv G P l t ->
    exists t', scan s ids t = Ok (match position s l with
                                  | Some i => if existsb (N.eqb (N.of_nat i)) ids then Some (N.of_nat i) else None
                                  | None => None end, t') /\ TInv G P l t'.
  Proof.
    induction ids as [|id ids IH]; intros HP Hids I.
    - exists t. cbn [scan existsb]. split; [|exact I]. destruct (position s l); reflexivity.
    - cbn [scan]. destruct (Hids id (or_introl eq_refl)) as [s' Hs'].
      assert (Hids' : forall id, In id ids -> exists s', nth_error l (N.to_nat id) = Some s').
      { intros; apply Hids; right; auto. }
      specialize (IH HP Hids' I). destruct IH as (tn & En & In').
      assert (Hhit : s' = s -> position s l = Some (N.to_nat id)).
      { intros ->. destruct (position_in s l) as [j Hj]; [eapply nth_error_In; eauto|].
        rewrite Hj. f_equal. apply position_some in Hj.
        eapply (proj1 (NoDup_nth_error l)); [apply (ti_nodup _ _ _ _ I)|apply nth_error_Some; congruence|congruence]. }
      assert (Hmiss : s' <> s -> forall i, position s l = Some i -> N.eqb (N.of_nat i) id = false).
      { intros Hne i Hi. apply position_some in Hi. apply N.eqb_neq. intros <-.
        rewrite Nat2N.id in Hs'. congruence. }
      assert (Hm : exists t', (let '(d, t'0) := readString id t in
          if beqb s d then Ok (Some id, t'0) else scan s ids t'0)
          = Ok (match position s l with
                | Some i => if existsb (N.eqb (N.of_nat i)) (id :: ids) then Some (N.of_nat i) else None
                | None => None end, t') /\ TInv G P l t').
      { rewrite (read_spec _ _ _ _ _ _ I Hs'). cbn beta iota.
        destruct (beqb s s') eqn:Eb.
        - apply beqb_eq in Eb. rewrite (Hhit (eq_sym Eb)). exists t. split; [|exact I].
          cbn [existsb]. rewrite N2Nat.id, N.eqb_refl. reflexivity.
        - apply beqb_neq in Eb. exists tn. split; [|exact In']. rewrite En.
          destruct (position s l) as [i|] eqn:Ei; [|reflexivity]. cbn [existsb].
          rewrite (Hmiss (not_eq_sym Eb) i eq_refl). reflexivity. }
      destruct (api_lookup N.eqb Neqb_eq id (scache t) (ti_cinv _ _ _ _ I))
        as [[Ee _]|(v & Hv & Ee & Ep & c' & Epr & _ & Ic & Hm' & Hin)]; rewrite Ee; [exact Hm|].
      rewrite Ep. cbn [bind]. destruct (beqb v s) eqn:Eb; [|exact Hm].
      apply beqb_eq in Eb; subst v. rewrite Epr. cbn [bind].
      exists (setCache t c'). split.
      + assert (s' = s).
        { destruct (ti_cache _ _ _ _ I _ _ Hv) as [H|[HPt H]]; [congruence|]. exfalso; apply HP; auto. }
        rewrite (Hhit H). cbn [existsb]. rewrite N2Nat.id, N.eqb_refl. reflexivity.
      + apply setCache_inv; auto; [rewrite Hm'; apply (ti_ccap _ _ _ _ I)|].
        intros id0 v0 H0. apply Hin in H0. apply (ti_cache _ _ _ _ I); auto.
  Qed.

  Lemma combine_app {A B} (l1 l2 : list A) (m1 m2 : list B) :
    length l1 = length m1 -> combine (l1 ++ l2) (m1 ++ m2) = combine l1 m1 ++ combine l2 m2.
  Proof.
    revert m1; induction l1; intros [|b m1] H; try discriminate; [reflexivity|].
    cbn. f_equal. apply IHl1. auto.
  Qed.

  Lemma NoDup_snoc {A} (l : list A) x : NoDup l -> ~ In x l -> NoDup (l ++ [x]).
  Proof.
    induction l; cbn; intros H Hx; [constructor; auto; constructor|].
    inversion H; subst. constructor; [|apply IHl; tauto].
    intros C. apply in_app_or in C as [C|[C|[]]]; [tauto|subst; tauto].
  Qed.

  Lemma write_spec G P l t s : TInv G P l t -> nulFree s -> (P = true -> s <> []) -> ~ In s l ->
    (G + diskBytes (l ++ [s]) < 4294967296)%N ->
    exists t', writeString (hash s) s t = (N.of_nat (length l), t') /\ TInv G P (l ++ [s]) t'.
  Proof.
    intros I Hs HP Hni Hsz. unfold writeString. rewrite (ti_next _ _ _ _ I), (ti_fail _ _ _ _ I), (cstr_nulFree s Hs).
    eexists; split; [reflexivity|]. pose proof (ti_size _ _ _ _ I) as HS.
    pose proof (diskBytes_len (l ++ [s])) as HDL. rewrite app_length in HDL; cbn [length] in HDL.
    rewrite diskBytes_app in Hsz, HDL.
    assert (Hoff : u32 (N.of_nat (length (dataF t))) = N.of_nat (length (dataF t))).
    { apply N.mod_small. lia. }
    rewrite Hoff.
    constructor; cbn [nextId dataFail offsets indexF dataF hmap scache]; auto.
    - rewrite app_length; cbn [length]. unfold u32. rewrite N.mod_small by lia. lia.
    - rewrite !app_length, (ti_len _ _ _ _ I). reflexivity.
    - apply Forall_app. split; [apply (ti_off32 _ _ _ _ I)|]. constructor; [lia|constructor].
    - rewrite combine_app by (rewrite (ti_len _ _ _ _ I); reflexivity).
      rewrite flat_map_app, <- (ti_index _ _ _ _ I). cbn [combine flat_map].
      unfold encEntry; cbn [fst snd]. rewrite app_nil_r. reflexivity.
    - intros i s' o Hi Ho. destruct (Nat.lt_ge_cases i (length l)) as [Hlt|Hge].
      + rewrite nth_error_app1 in Hi by lia. rewrite nth_error_app1 in Ho by (rewrite (ti_len _ _ _ _ I); lia).
        destruct (ti_data _ _ _ _ I _ _ _ Hi Ho) as [rest Hr].
        exists (rest ++ s ++ [0%N]). rewrite skipn_app, Hr.
        assert (Hlen : N.to_nat o < length (dataF t)).
        { destruct (Nat.lt_ge_cases (N.to_nat o) (length (dataF t))) as [|Hge]; [auto|].
          rewrite skipn_all2 in Hr by lia. destruct s'; discriminate. }
        replace (N.to_nat o - length (dataF t)) with 0 by lia. cbn [skipn].
        rewrite <- app_assoc. reflexivity.
      + rewrite nth_error_app2 in Hi by lia. rewrite nth_error_app2 in Ho by (rewrite (ti_len _ _ _ _ I); lia).
        rewrite (ti_len _ _ _ _ I) in Ho.
        destruct (i - length l) as [|n]; cbn [nth_error] in Hi, Ho; [|destruct n; discriminate].
        injection Hi as <-. injection Ho as <-. exists [].
        rewrite Nat2N.id, skipn_app, skipn_all, Nat.sub_diag. reflexivity.
    - rewrite !app_length. cbn [length]. rewrite diskBytes_app. lia.
    - intros i s' o Hi Ho. destruct (Nat.lt_ge_cases i (length l)) as [Hlt|Hge].
      + rewrite nth_error_app1 in Hi by lia. rewrite nth_error_app1 in Ho by (rewrite (ti_len _ _ _ _ I); lia).
        pose proof (ti_pos _ _ _ _ I _ _ _ Hi Ho) as Hp.
        rewrite skipn_app, diskBytes_app. replace (S i - length l) with 0 by lia. change (skipn 0 [s]) with [s].
        rewrite diskBytes_app. lia.
      + rewrite nth_error_app2 in Hi by lia. rewrite nth_error_app2 in Ho by (rewrite (ti_len _ _ _ _ I); lia).
        rewrite (ti_len _ _ _ _ I) in Ho.
        destruct (i - length l) as [|n]; cbn [nth_error] in Hi, Ho; [|destruct n; discriminate].
        injection Hi as <-. injection Ho as <-.
        rewrite skipn_all2 by (rewrite app_length; cbn [length]; lia). cbn [diskBytes].
        rewrite diskBytes_app. lia.
    - apply NoDup_snoc; [apply (ti_nodup _ _ _ _ I)|auto].
    - apply Forall_app. split; [apply (ti_nul _ _ _ _ I)|]. auto.
    - intros h. rewrite bucketOf_push, (ti_map _ _ _ _ I), idsWith_app. reflexivity.
    - apply (ti_cinv _ _ _ _ I).
    - apply (ti_ccap _ _ _ _ I).
    - intros id v Hv. destruct (ti_cache _ _ _ _ I _ _ Hv) as [H|H]; [left|right; auto].
      rewrite nth_error_app1; [exact H|]. apply nth_error_Some. congruence.
    - intros HPt. apply Forall_app. split; [apply (ti_nonempty _ _ _ _ I HPt)|]. auto.
    - rewrite diskBytes_app. lia.
  Qed.

  Lemma getId_spec G P l t s : TInv G P l t -> nulFree s -> (P = true -> s <> []) ->
    (G + diskBytes (fst (specStep l (GetId s))) < 4294967296)%N ->
    exists t', sstep hash cap t (GetId s) = Some (t', snd (specStep l (GetId s))) /\
               TInv G P (fst (specStep l (GetId s))) t'.
  Proof.
    intros I Hs HP Hsz. cbn [sstep specStep] in *. unfold getId.
    assert (Hw : position s l = None -> exists t', writeString (hash s) s t = (N.of_nat (length l), t') /\ TInv G P (l ++ [s]) t').
    { intros E. rewrite E in Hsz. apply write_spec; auto. apply position_none; auto. }
    pose proof (ti_map _ _ _ _ I (hash s)) as HB. unfold bucketOf in HB.
    destruct (alookup N.eqb (hash s) (hmap t)) as [ids|] eqn:EL.
    - subst ids.
      assert (Hids : forall id, In id (idsWith 0 (hash s) l) -> exists s', nth_error l (N.to_nat id) = Some s').
      { intros id Hid. apply idsWith_in in Hid as (n & s' & -> & Hn & _). exists s'.
        replace (N.to_nat (0 + N.of_nat n)) with n by lia. exact Hn. }
      destruct (scan_spec G P l s t (idsWith 0 (hash s) l) HP Hids I) as (t1 & E1 & I1).
      rewrite E1. cbn [bind]. destruct (position s l) as [i|] eqn:Ep.
      + assert (Hin : existsb (N.eqb (N.of_nat i)) (idsWith 0 (hash s) l) = true).
        { apply existsb_exists. exists (N.of_nat i). split; [|apply N.eqb_refl].
          apply position_some in Ep. pose proof (in_idsWith 0 l i s Ep) as H. exact H. }
        rewrite Hin. exists t1. split; [reflexivity|exact I1].
      + assert (Hw1 : exists t', writeString (hash s) s t1 = (N.of_nat (length l), t') /\ TInv G P (l ++ [s]) t').
        { apply write_spec; auto. apply position_none; auto. }
        destruct Hw1 as (t' & Ew & It). rewrite Ew. exists t'. split; [reflexivity|exact It].
    - destruct (position s l) as [i|] eqn:Ep.
      + exfalso. apply position_some in Ep. pose proof (in_idsWith 0 l i s Ep) as H.
        rewrite <- HB in H. contradiction.
      + destruct (Hw eq_refl) as (t' & Ew & It). rewrite Ew. exists t'. split; [reflexivity|exact It].
  Qed.

  Lemma getString_spec G P l t i : TInv G P l t -> (P = false -> N.to_nat i < length l) ->
    exists t' v, sstep hash cap t (GetString i) = Some (t', SStr v) /\ TInv G P l t' /\
      (P = false -> v = nth (N.to_nat i) l []) /\ (v = nth (N.to_nat i) l [] \/ v = []).
  Proof.
    intros I HP. cbn [sstep]. unfold getString.
    destruct (api_lookup N.eqb Neqb_eq i (scache t) (ti_cinv _ _ _ _ I))
      as [[Ee _]|(v & Hv & Ee & _ & c' & _ & Eg & Ic & Hm' & Hin)]; rewrite Ee.
    - destruct (nth_error l (N.to_nat i)) as [s|] eqn:En.
      + rewrite (read_spec _ _ _ _ _ _ I En).
        destruct (api_put N.eqb Neqb_eq i s (scache t) (ti_cinv _ _ _ _ I)) as (c1 & E1 & I1 & M1 & Hin1 & Hsub1).
        { rewrite (ti_ccap _ _ _ _ I); exact cap1. }
        rewrite E1. cbn [bind].
        destruct (api_lookup N.eqb Neqb_eq i c1 I1) as [[_ C]|(v & Hv & _ & _ & c' & _ & Eg & Ic & Hm' & Hin)].
        { exfalso; apply C. apply in_map_iff. exists (i, s); auto. }
        assert (v = s).
        { apply Hsub1 in Hv as [E|[_ C]]; [injection E; auto|cbn in C; congruence]. } subst v.
        rewrite Eg. cbn [bind fst snd].
        exists (setCache t c'), s. split; [reflexivity|]. split; [|rewrite (nth_error_nth _ _ _ En); auto].
        apply setCache_inv; auto; [rewrite Hm', M1; apply (ti_ccap _ _ _ _ I)|].
        intros id0 v0 H0. apply Hin, Hsub1 in H0 as [E|[H0 _]]; [injection E as -> ->; left; exact En|].
        apply (ti_cache _ _ _ _ I); auto.
      + rewrite (read_none _ _ _ _ _ I En).
        destruct (api_put N.eqb Neqb_eq i [] (scache t) (ti_cinv _ _ _ _ I)) as (c1 & E1 & I1 & M1 & Hin1 & Hsub1).
        { rewrite (ti_ccap _ _ _ _ I); exact cap1. }
        rewrite E1. cbn [bind].
        destruct (api_lookup N.eqb Neqb_eq i c1 I1) as [[_ C]|(v & Hv & _ & _ & c' & _ & Eg & Ic & Hm' & Hin)].
        { exfalso; apply C. apply in_map_iff. exists (i, []); auto. }
        assert (v = []).
        { apply Hsub1 in Hv as [E|[_ C]]; [injection E; auto|cbn in C; congruence]. } subst v.
        rewrite Eg. cbn [bind fst snd]. apply nth_error_None in En.
        destruct P; [|specialize (HP eq_refl); lia].
        exists (setCache t c'), []. split; [reflexivity|]. split; [|split; [discriminate|auto]].
        apply setCache_inv; auto; [rewrite Hm', M1; apply (ti_ccap _ _ _ _ I)|].
        intros id0 v0 H0. apply Hin, Hsub1 in H0 as [E|[H0 _]]; [injection E as -> ->; right; auto|].
        apply (ti_cache _ _ _ _ I); auto.
    - rewrite Eg. cbn [bind fst snd]. exists (setCache t c'), v. split; [reflexivity|]. split.
      + apply setCache_inv; auto; [rewrite Hm'; apply (ti_ccap _ _ _ _ I)|].
        intros id0 v0 H0. apply Hin in H0. apply (ti_cache _ _ _ _ I); auto.
      + destruct (ti_cache _ _ _ _ I _ _ Hv) as [H|[-> ->]].
        * rewrite (nth_error_nth _ _ [] H). auto.
        * split; [discriminate|auto].
  Qed.

  Lemma open_inv G P l idx data offs :
    length offs = length l -> Forall (fun o => o < 4294967296)%N offs ->
    idx = flat_map encEntry (combine l offs) ->
    (forall i s o, nth_error l i = Some s -> nth_error offs i = Some o ->
                exists rest, skipn (N.to_nat o) data = s ++ 0%N :: rest) ->
    N.of_nat (length data) = (G + diskBytes l)%N ->
    (forall i s o, nth_error l i = Some s -> nth_error offs i = Some o ->
                (o + N.of_nat (length s) + 1 + diskBytes (skipn (S i) l) <= G + diskBytes l)%N) ->
    NoDup l -> Forall nulFree l -> (P = true -> Forall (fun s => s <> []) l) ->
    (G + diskBytes l < 4294967296)%N ->
    TInv G P l (openTable cap idx data).
  Proof.
    intros HL HF HI HD HS HPos HN HZ HP Hsm. unfold openTable.
    assert (HC : u32 (N.of_nat (length idx) / 8) = N.of_nat (length l)).
    { rewrite HI, encEntries_length, combine_length, HL, Nat.min_id.
      rewrite Nat2N.inj_mul. change (N.of_nat 8) with 8%N.
      rewrite N.mul_comm, N.div_mul by lia.
      apply N.mod_small. pose proof (diskBytes_len l). lia. }
    rewrite HC, Nat2N.id.
    destruct (load_spec l offs 0%N [] [] [] HL HF) as (m' & E & Hb).
    rewrite app_nil_r in E. rewrite HI, E.
    destruct (api_empty (K:=N) (V:=bytes) cap) as (Ie & Re & Me).
    constructor; cbn [nextId dataFail offsets indexF dataF hmap scache app]; auto.
    intros id v. rewrite Re. contradiction.
  Qed.

  Lemma reopen_spec G P l t : TInv G P l t ->
    TInv G P l (openTable cap (indexF t) (dataF t)).
  Proof.
    intros I. destruct I. eapply open_inv; eauto.
  Qed.

  (** One call. *)
  Definition opOk (P : bool) (l : list bytes) (o : sop) : Prop :=
    match o with
    | GetId s => nulFree s /\ (P = true -> s <> [])
    | GetString i => P = false -> N.to_nat i < length l
    | Reopen => True
    end.

  (** Answers equal; an answer of getString may be the empty string when [P] holds. *)
  Definition ansRel (P : bool) (r r' : sres) : Prop :=
    match r, r' with
    | SStr v, SStr v' => v = v' \/ (P = true /\ v = [])
    | _, _ => r = r'
    end.

  Lemma step_ok G P l t o : TInv G P l t -> opOk P l o ->
    (G + diskBytes (fst (specStep l o)) < 4294967296)%N ->
    exists t' r, sstep hash cap t o = Some (t', r) /\ ansRel P r (snd (specStep l o)) /\
      TInv G P (fst (specStep l o)) t'.
  Proof.
    intros I Ho Hsz. destruct o as [s|i|].
    - destruct Ho as [Hs HP]. destruct (getId_spec G P l t s I Hs HP Hsz) as (t' & E & I').
      exists t', (snd (specStep l (GetId s))). split; [exact E|split; [|exact I']].
      cbn [specStep]. destruct (position s l); reflexivity.
    - destruct (getString_spec G P l t i I Ho) as (t' & v & E & I' & H1 & H2).
      exists t', (SStr v). split; [exact E|split; [|exact I']]. cbn [specStep snd ansRel].
      destruct P; [destruct H2; auto|auto].
    - exists (openTable cap (indexF t) (dataF t)), SUnit.
      split; [reflexivity|split; [reflexivity|]]. apply reopen_spec; auto.
  Qed.

  Lemma specStep_mono l o : (diskBytes l <= diskBytes (fst (specStep l o)))%N.
  Proof.
    destruct o; cbn [specStep fst]; try lia. destruct (position s l); cbn [fst]; [lia|].
    rewrite diskBytes_app. lia.
  Qed.

  Lemma specRun_mono os : forall l, (diskBytes l <= diskBytes (fst (specRun l os)))%N.
  Proof.
    induction os as [|o os IH]; intros l; cbn [specRun fst]; [lia|].
    pose proof (specStep_mono l o) as H. destruct (specStep l o) as [l1 r]. cbn [fst] in H.
    specialize (IH l1). destruct (specRun l1 os). cbn [fst] in *. lia.
  Qed.

  Fixpoint opsOk (P : bool) (l : list bytes) (os : list sop) : Prop :=
    match os with
    | [] => True
    | o :: os' => opOk P l o /\ opsOk P (fst (specStep l o)) os'
    end.

  Lemma run_ok G P os : forall l t, TInv G P l t -> opsOk P l os ->
    (G + diskBytes (fst (specRun l os)) < 4294967296)%N ->
    exists t' rs, srunT hash cap t os = Some (t', rs) /\ Forall2 (ansRel P) rs (snd (specRun l os)) /\
      TInv G P (fst (specRun l os)) t'.
  Proof.
    induction os as [|o os IH]; intros l t I Ho Hsz.
    - exists t, []. split; [reflexivity|split; [constructor|exact I]].
    - destruct Ho as [Ho Hos]. cbn [specRun srunT] in *.
      assert (Hsz1 : (G + diskBytes (fst (specStep l o)) < 4294967296)%N).
      { destruct (specStep l o) as [l1 r1] eqn:E1. cbn [fst].
        pose proof (specRun_mono os l1). destruct (specRun l1 os); cbn [fst] in *. lia. }
      destruct (step_ok G P l t o I Ho Hsz1) as (t1 & r & E & Hr & I1).
      rewrite E. destruct (specStep l o) as [l1 r1] eqn:E1. cbn [fst snd] in *.
      specialize (IH l1 t1 I1 Hos).
      destruct (specRun l1 os) as [l2 rs2] eqn:E2. cbn [fst snd] in *.
      destruct (IH Hsz) as (t' & rs & E' & Hrs & I').
      exists t', (r :: rs). rewrite E'. split; [reflexivity|split; [constructor; auto|auto]].
  Qed.

  Lemma empty_inv P : TInv 0 P [] (openTable cap [] []).
  Proof.
    apply (open_inv 0 P [] [] [] []); cbn; auto; try lia; try constructor.
    all: intros [|i] s o H; discriminate.
  Qed.

  Lemma opsOk_legal os : forall l, stringsOk nulFree os -> allocatedOnly l os -> opsOk false l os.
  Proof.
    induction os as [|o os IH]; intros l Hs Ha; [exact Logic.I|].
    destruct Ha as [Ha Has]. split; [|apply IH; auto; intros s H; apply Hs; right; auto].
    destruct o; cbn [opOk]; auto. split; [apply Hs; left; reflexivity|discriminate].
  Qed.

  Lemma opsOk_nonempty os : forall l, stringsOk (fun s => nulFree s /\ s <> []) os -> opsOk true l os.
  Proof.
    induction os as [|o os IH]; intros l Hs; [exact Logic.I|].
    split; [|apply IH; intros s H; apply Hs; right; auto].
    destruct o; cbn [opOk]; auto; [|discriminate].
    destruct (Hs s (or_introl eq_refl)). auto.
  Qed.

  Lemma Forall2_ansRel_false rs rs' : Forall2 (ansRel false) rs rs' -> rs = rs'.
  Proof.
    induction 1; [reflexivity|]. f_equal; auto.
    destruct x, y; cbn in H; auto; try (destruct H as [->|[? _]]; [reflexivity|discriminate]); congruence.
  Qed.

  Lemma table_refines os :
    stringsOk nulFree os -> allocatedOnly [] os ->
    (diskBytes (fst (specRun [] os)) < 4294967296)%N ->
    srun hash cap os = Some (snd (specRun [] os)).
  Proof.
    intros Hs Ha Hsz.
    destruct (run_ok 0 false os [] _ (empty_inv false) (opsOk_legal os [] Hs Ha) Hsz)
      as (t' & rs & E & H & _).
    unfold srun. rewrite E. cbn. f_equal. apply Forall2_ansRel_false; auto.
  Qed.

  Lemma table_ids os :
    stringsOk (fun s => nulFree s /\ s <> []) os ->
    (diskBytes (fst (specRun [] os)) < 4294967296)%N ->
    exists rs, srun hash cap os = Some rs /\ Forall2 (ansRel true) rs (snd (specRun [] os)).
  Proof.
    intros Hs Hsz.
    destruct (run_ok 0 true os [] _ (empty_inv true) (opsOk_nonempty os [] Hs) Hsz)
      as (t' & rs & E & H & _).
    exists rs. unfold srun. rewrite E. cbn. auto.
  Qed.
End Proofs.
