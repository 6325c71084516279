From Verif Require Import Base Bytes BytesProofs StringModel StringSpec StringProofs.
From Coq Require Import Permutation.

Lemma specRun_app os1 : forall l os2,
  specRun l (os1 ++ os2) =
  (fst (specRun (fst (specRun l os1)) os2), snd (specRun l os1) ++ snd (specRun (fst (specRun l os1)) os2)).
Proof.
  induction os1 as [|o os1 IH]; intros l os2; cbn [specRun app fst snd].
  - destruct (specRun l os2); reflexivity.
  - destruct (specStep l o) as [l1 r]. rewrite IH. destruct (specRun l1 os1) as [l2 rs]. reflexivity.
Qed.

Lemma specRun_len os : forall l, length (snd (specRun l os)) = length os.
Proof.
  induction os as [|o os IH]; intros l; cbn [specRun]; [reflexivity|].
  destruct (specStep l o) as [l1 r]. specialize (IH l1). destruct (specRun l1 os). cbn in *. auto.
Qed.

Lemma specRun_nth os i o l : nth_error os i = Some o ->
  nth_error (snd (specRun l os)) i = Some (snd (specStep (fst (specRun l (firstn i os))) o)).
Proof.
  intros H. pose proof (nth_error_split _ _ H) as (o1 & o2 & -> & Hl).
  rewrite firstn_app_exact by exact Hl.
  rewrite specRun_app. cbn [snd]. rewrite nth_error_app2 by (rewrite specRun_len; lia).
  rewrite specRun_len, Hl, Nat.sub_diag. cbn [specRun].
  destruct (specStep (fst (specRun l o1)) o) as [l1 r]. destruct (specRun l1 o2). reflexivity.
Qed.

Lemma specStep_grow l o : exists e, fst (specStep l o) = l ++ e.
Proof.
  destruct o; cbn [specStep]; try (exists []; rewrite app_nil_r; reflexivity).
  destruct (position s l); cbn [fst]; [exists []; rewrite app_nil_r|exists [s]]; reflexivity.
Qed.

Lemma specRun_grow os : forall l, exists e, fst (specRun l os) = l ++ e.
Proof.
  induction os as [|o os IH]; intros l; cbn [specRun]; [exists []; rewrite app_nil_r; reflexivity|].
  destruct (specStep_grow l o) as [e1 E1]. destruct (specStep l o) as [l1 r]. cbn in E1; subst.
  destruct (IH (l ++ e1)) as [e2 E2]. destruct (specRun (l ++ e1) os). cbn in *; subst.
  exists (e1 ++ e2). rewrite app_assoc. reflexivity.
Qed.

Lemma specStep_nodup l o : NoDup l -> NoDup (fst (specStep l o)).
Proof.
  intros H. destruct o; cbn [specStep]; auto. destruct (position s l) eqn:E; cbn [fst]; auto.
  apply NoDup_snoc; auto. apply position_none; auto.
Qed.

Lemma specRun_nodup os : forall l, NoDup l -> NoDup (fst (specRun l os)).
Proof.
  induction os as [|o os IH]; intros l H; cbn [specRun]; auto.
  pose proof (specStep_nodup l o H). destruct (specStep l o) as [l1 r]. cbn in *.
  specialize (IH l1 H0). destruct (specRun l1 os). auto.
Qed.

Lemma specStep_in l o s : In s (fst (specStep l o)) <-> In s l \/ o = GetId s.
Proof.
  destruct o as [s'|i|]; cbn [specStep fst]; try (split; [auto|intros [H|H]; [auto|discriminate]]).
  destruct (position s' l) as [n|] eqn:E; cbn [fst].
  - split; [auto|]. intros [H|H]; [auto|]. injection H as ->.
    apply position_some in E. eapply nth_error_In; eauto.
  - rewrite in_app_iff. cbn [In]. split; [intros [H|[->|[]]]; auto|].
    intros [H|H]; [auto|injection H as ->; auto].
Qed.

Lemma specRun_in os s : forall l, In s (fst (specRun l os)) <-> In s l \/ In (GetId s) os.
Proof.
  induction os as [|o os IH]; intros l; cbn [specRun]; [cbn; tauto|].
  pose proof (specStep_in l o s) as H. destruct (specStep l o) as [l1 r]. cbn [fst] in H.
  specialize (IH l1). destruct (specRun l1 os). cbn [fst In] in *. rewrite IH, H.
  split; [intros [[?|?]|?]|intros [?|[?|?]]]; auto.
Qed.

Lemma in_requested os s : In s (requested os) <-> In (GetId s) os.
Proof.
  unfold requested. rewrite in_flat_map. split.
  - intros (o & Ho & Hs). destruct o; try contradiction. destruct Hs as [->|[]]; auto.
  - intros H. exists (GetId s). split; [auto|left; reflexivity].
Qed.

Lemma table_perm os :
  Permutation (fst (specRun [] os)) (nodup (list_eq_dec N.eq_dec) (requested os)).
Proof.
  apply NoDup_Permutation; [apply specRun_nodup; constructor|apply NoDup_nodup|].
  intros s. rewrite nodup_In, in_requested, specRun_in. cbn; tauto.
Qed.

Lemma diskBytes_perm l l' : Permutation l l' -> diskBytes l = diskBytes l'.
Proof. induction 1; cbn [diskBytes]; lia. Qed.

Lemma table_disk os :
  diskBytes (fst (specRun [] os)) = diskBytes (nodup (list_eq_dec N.eq_dec) (requested os)).
Proof. apply diskBytes_perm, table_perm. Qed.

Lemma table_len os : length (fst (specRun [] os)) = countDistinct (requested os).
Proof. unfold countDistinct. rewrite (Permutation_length (table_perm os)). reflexivity. Qed.

Lemma specStep_id l s : NoDup l -> exists n,
  snd (specStep l (GetId s)) = SId (N.of_nat n) /\ nth_error (fst (specStep l (GetId s))) n = Some s.
Proof.
  intros ND. cbn [specStep]. destruct (position s l) as [n|] eqn:E; cbn [fst snd].
  - exists n. split; [reflexivity|]. apply position_some; auto.
  - exists (length l). split; [reflexivity|]. rewrite nth_error_app2, Nat.sub_diag by lia. reflexivity.
Qed.

(** The id answered at position [i] is the place of the string in the final table. *)
Lemma spec_id os i s : nth_error os i = Some (GetId s) ->
  exists n, nth_error (snd (specRun [] os)) i = Some (SId (N.of_nat n)) /\
    (forall j, i < j -> nth_error (fst (specRun [] (firstn j os))) n = Some s) /\
    nth_error (fst (specRun [] os)) n = Some s.
Proof.
  intros H. rewrite (specRun_nth _ _ _ _ H).
  destruct (specStep_id (fst (specRun [] (firstn i os))) s) as (n & E1 & E2).
  { apply specRun_nodup; constructor. }
  exists n. rewrite E1. split; [reflexivity|].
  pose proof (nth_error_split _ _ H) as (o1 & o2 & -> & Hl).
  rewrite firstn_app_exact in E2 by exact Hl.
  assert (G : forall o3, nth_error (fst (specRun [] (o1 ++ GetId s :: o3))) n = Some s).
  { intros o3. rewrite specRun_app. cbn [fst specRun].
    destruct (specStep (fst (specRun [] o1)) (GetId s)) as [l1 r] eqn:E. cbn [fst] in E2.
    destruct (specRun_grow o3 l1) as [e Ee]. destruct (specRun l1 o3). cbn [fst] in *. subst.
    rewrite nth_error_app1; auto. apply nth_error_Some; congruence. }
  split; [|apply G]. intros j Hj. rewrite firstn_app.
  destruct (j - length o1) as [|m] eqn:Em; [lia|]. rewrite firstn_cons.
  rewrite (firstn_all2 o1) by lia. apply G.
Qed.

Lemma Forall2_nth {A B} (R : A -> B -> Prop) l1 l2 i x y :
  Forall2 R l1 l2 -> nth_error l1 i = Some x -> nth_error l2 i = Some y -> R x y.
Proof.
  intros F; revert i; induction F; intros [|i]; try discriminate; cbn.
  - intros [= <-] [= <-]; auto.
  - eauto.
Qed.

Lemma Forall2_nth_ex {A B} (R : A -> B -> Prop) l1 l2 i y :
  Forall2 R l1 l2 -> nth_error l2 i = Some y -> exists x, nth_error l1 i = Some x /\ R x y.
Proof.
  intros F; revert i; induction F; intros [|i]; try discriminate; cbn.
  - intros [= <-]; eauto.
  - eauto.
Qed.

Section Top.
  Variable hash : bytes -> N.
  Hypothesis hash32 : forall s, (hash s < 4294967296)%N.
  Variable cap : nat.
  Hypothesis cap1 : 1 <= cap.

  Lemma good_run os : goodHistory os ->
    exists rs, srun hash cap os = Some rs /\ Forall2 (ansRel true) rs (snd (specRun [] os)).
  Proof.
    intros (Hn & [He|Ha] & Hd); rewrite <- table_disk in Hd.
    - apply table_ids; auto. intros s Hs; split; [apply Hn|apply He]; auto.
    - exists (snd (specRun [] os)). split; [apply table_refines; auto|].
      assert (R : forall l, Forall2 (ansRel true) l l).
      { induction l; constructor; auto. destruct a; cbn; auto. }
      apply R.
  Qed.

  Lemma good_id os : goodHistory os -> exists rs, srun hash cap os = Some rs /\
    forall i s, nth_error os i = Some (GetId s) ->
      exists n, nth_error rs i = Some (SId (N.of_nat n)) /\
        nth_error (snd (specRun [] os)) i = Some (SId (N.of_nat n)) /\
        nth_error (fst (specRun [] os)) n = Some s.
  Proof.
    intros H. destruct (good_run os H) as (rs & E & F). exists rs. split; [exact E|].
    intros i s Hi. destruct (spec_id os i s Hi) as (n & En & _ & Ef). exists n.
    destruct (Forall2_nth_ex _ _ _ _ _ F En) as (x & Ex & Rx).
    rewrite Ex. destruct x; cbn in Rx; try discriminate; try contradiction. rewrite <- Rx in *. auto.
  Qed.

  Lemma stable os : goodHistory os -> exists rs, srun hash cap os = Some rs /\
    forall i j s, nth_error os i = Some (GetId s) -> nth_error os j = Some (GetId s) ->
      exists n, nth_error rs i = Some (SId n) /\ nth_error rs j = Some (SId n).
  Proof.
    intros H. destruct (good_id os H) as (rs & E & F). exists rs. split; [exact E|].
    intros i j s Hi Hj. destruct (F i s Hi) as (n & En & _ & Fn). destruct (F j s Hj) as (m & Em & _ & Fm).
    assert (n = m).
    { eapply (proj1 (NoDup_nth_error (fst (specRun [] os)))).
      - apply specRun_nodup; constructor.
      - apply nth_error_Some; congruence.
      - congruence. }
    subst m. exists (N.of_nat n). auto.
  Qed.

  Lemma distinct_dense os : goodHistory os -> exists rs, srun hash cap os = Some rs /\
    (forall i j s s', nth_error os i = Some (GetId s) -> nth_error os j = Some (GetId s') -> s <> s' ->
      exists n m, nth_error rs i = Some (SId n) /\ nth_error rs j = Some (SId m) /\ n <> m) /\
    (forall i s, nth_error os i = Some (GetId s) -> ~ In s (requested (firstn i os)) ->
      nth_error rs i = Some (SId (N.of_nat (countDistinct (requested (firstn i os)))))).
  Proof.
    intros H. destruct (good_id os H) as (rs & E & F). exists rs. split; [exact E|]. split.
    - intros i j s s' Hi Hj Hne. destruct (F i s Hi) as (n & En & _ & Fn).
      destruct (F j s' Hj) as (m & Em & _ & Fm). exists (N.of_nat n), (N.of_nat m).
      do 2 (split; [auto|]). intros C. apply Nat2N.inj in C. congruence.
    - intros i s Hi Hs. destruct (F i s Hi) as (n & En & Es & _). rewrite En, <- Es.
      rewrite (specRun_nth _ _ _ _ Hi), <- table_len. cbn [specStep].
      destruct (position s (fst (specRun [] (firstn i os)))) as [p|] eqn:Ep; [|reflexivity].
      exfalso. apply Hs, in_requested. apply position_some, nth_error_In in Ep.
      apply specRun_in in Ep as [[]|Ep]. exact Ep.
  Qed.

  Lemma inverse os : goodHistory os -> allocatedOnly [] os -> exists rs, srun hash cap os = Some rs /\
    forall i j s n, i < j -> nth_error os i = Some (GetId s) -> nth_error rs i = Some (SId n) ->
      nth_error os j = Some (GetString n) -> nth_error rs j = Some (SStr s).
  Proof.
    intros (Hn & _ & Hd) Ha. rewrite <- table_disk in Hd.
    exists (snd (specRun [] os)). split; [apply table_refines; auto|].
    intros i j s n Hij Hi Hri Hj. rewrite (specRun_nth _ _ _ _ Hj).
    destruct (spec_id os i s Hi) as (m & Em & Fm & _). rewrite Em in Hri. injection Hri as <-.
    cbn [specStep snd]. rewrite Nat2N.id. rewrite (nth_error_nth _ _ [] (Fm j Hij)). reflexivity.
  Qed.

  Lemma inverse_or_empty os : goodHistory os -> exists rs, srun hash cap os = Some rs /\
    forall i j s n, i < j -> nth_error os i = Some (GetId s) -> nth_error rs i = Some (SId n) ->
      nth_error os j = Some (GetString n) ->
      nth_error rs j = Some (SStr s) \/ nth_error rs j = Some (SStr []).
  Proof.
    intros H. destruct (good_run os H) as (rs & E & F). exists rs. split; [exact E|].
    intros i j s n Hij Hi Hri Hj.
    destruct (spec_id os i s Hi) as (m & Em & Fm & _).
    assert (n = N.of_nat m).
    { pose proof (Forall2_nth _ _ _ _ _ _ F Hri Em) as R. cbn in R. congruence. }
    subst n. pose proof (specRun_nth os j _ [] Hj) as Sj.
    destruct (Forall2_nth_ex _ _ _ _ _ F Sj) as (x & Ex & Rx). rewrite Ex.
    cbn [specStep snd] in Rx. rewrite Nat2N.id, (nth_error_nth _ _ [] (Fm j Hij)) in Rx.
    destruct x; cbn in Rx; try discriminate. destruct Rx as [->|[_ ->]]; auto.
  Qed.

  (** Crash: the index file keeps the entries of the first [k] strings, the data file keeps
      at least the bytes of those strings. *)
  Lemma skipn_firstn_app (o : nat) (s rest data : bytes) b :
    skipn o data = s ++ 0%N :: rest -> o + length s + 1 <= b ->
    exists rest', skipn o (firstn b data) = s ++ 0%N :: rest'.
  Proof.
    intros E H. rewrite skipn_firstn_comm, E, firstn_app. exists (firstn (b - o - length s - 1) rest).
    rewrite (firstn_all2 s) by lia. f_equal.
    destruct (b - o - length s) as [|m] eqn:Em; [lia|]. rewrite firstn_cons.
    replace (S m - 1) with m by lia. reflexivity.
  Qed.

  Lemma combine_firstn_l {A B} n (l : list A) (m : list B) :
    combine (firstn n l) (firstn n m) = firstn n (combine l m).
  Proof.
    revert l m; induction n; intros [|a l] [|b m]; cbn; auto; f_equal; auto.
  Qed.

  Lemma flat_map_firstn k ps : firstn (8 * k) (flat_map (encEntry hash) ps) = flat_map (encEntry hash) (firstn k ps).
  Proof.
    revert k; induction ps as [|p ps IH]; intros k.
    - rewrite !firstn_nil. reflexivity.
    - destruct k as [|k]; [reflexivity|]. rewrite firstn_cons. cbn [flat_map].
      rewrite firstn_app, encEntry_length. replace (8 * S k - 8) with (8 * k) by lia.
      rewrite IH, firstn_all2 by (rewrite encEntry_length; lia). reflexivity.
  Qed.

  Lemma nth_error_firstn_lt {A} (l : list A) k i : i < k -> nth_error (firstn k l) i = nth_error l i.
  Proof.
    revert k i; induction l; intros [|k] [|i] H; cbn; auto; try lia. apply IHl; lia.
  Qed.

  Lemma nth_error_firstn_some {A} (l : list A) k i x : nth_error (firstn k l) i = Some x ->
    i < k /\ nth_error l i = Some x.
  Proof.
    intros H. assert (i < k).
    { assert (i < length (firstn k l)) by (apply nth_error_Some; congruence).
      rewrite firstn_length in H0. lia. }
    split; [auto|]. rewrite nth_error_firstn_lt in H; auto.
  Qed.

  Lemma diskBytes_app2 l1 l2 : diskBytes (l1 ++ l2) = (diskBytes l1 + diskBytes l2)%N.
  Proof. induction l1; cbn [diskBytes app]; [lia|]. rewrite IHl1. lia. Qed.

  Lemma crash_inv G l t k d : TInv hash cap G false l t -> k <= length l ->
    (N.of_nat d <= G + diskBytes l)%N -> (G + diskBytes l <= N.of_nat d + diskBytes (skipn k l))%N ->
    exists G', TInv hash cap G' false (firstn k l) (openTable cap (firstn (8 * k) (indexF t)) (firstn d (dataF t)))
      /\ (G' + diskBytes (firstn k l) = N.of_nat d)%N.
  Proof.
    intros I Hk Hd1 Hd2.
    assert (Hsplit : diskBytes l = (diskBytes (firstn k l) + diskBytes (skipn k l))%N).
    { rewrite <- diskBytes_app2, firstn_skipn. reflexivity. }
    assert (Hge : forall i s o, nth_error (firstn k l) i = Some s -> nth_error (firstn k (offsets t)) i = Some o ->
       (o + N.of_nat (length s) + 1 + diskBytes (skipn (S i) (firstn k l)) <= N.of_nat d)%N).
    { intros i s o Hi Ho. apply nth_error_firstn_some in Hi as [Hik Hi]. apply nth_error_firstn_some in Ho as [_ Ho].
      pose proof (ti_pos _ _ _ _ _ _ I _ _ _ Hi Ho) as Hp.
      assert (Hs : diskBytes (skipn (S i) l) = (diskBytes (skipn (S i) (firstn k l)) + diskBytes (skipn k l))%N).
      { rewrite <- diskBytes_app2. f_equal. rewrite <- (firstn_skipn k l) at 1.
        rewrite skipn_app, firstn_length. replace (S i - min k (length l)) with 0 by lia. reflexivity. }
      lia. }
    exists (N.of_nat d - diskBytes (firstn k l))%N.
    assert (Hle : (diskBytes (firstn k l) <= N.of_nat d)%N) by lia.
    split; [|lia].
    pose proof (ti_len _ _ _ _ _ _ I) as HL. pose proof (ti_size _ _ _ _ _ _ I) as HS.
    apply (open_inv hash hash32 cap cap1) with (offs := firstn k (offsets t)).
    - rewrite !firstn_length. lia.
    - pose proof (ti_off32 _ _ _ _ _ _ I) as F. rewrite <- (firstn_skipn k) in F. apply Forall_app in F; tauto.
    - rewrite (ti_index _ _ _ _ _ _ I), flat_map_firstn, combine_firstn_l. reflexivity.
    - intros i s o Hi Ho. pose proof (Hge i s o Hi Ho) as Hb.
      apply nth_error_firstn_some in Hi as [Hik Hi]. apply nth_error_firstn_some in Ho as [_ Ho].
      destruct (ti_data _ _ _ _ _ _ I _ _ _ Hi Ho) as [rest Hr].
      apply (skipn_firstn_app _ _ _ _ d Hr). lia.
    - rewrite firstn_length. lia.
    - intros i s o Hi Ho. pose proof (Hge i s o Hi Ho) as Hb. lia.
    - pose proof (ti_nodup _ _ _ _ _ _ I) as F. rewrite <- (firstn_skipn k) in F.
      apply LruProofs.NoDup_app_l in F; exact F.
    - pose proof (ti_nul _ _ _ _ _ _ I) as F. rewrite <- (firstn_skipn k) in F. apply Forall_app in F; tauto.
    - discriminate.
    - pose proof (ti_small _ _ _ _ _ _ I). lia.
  Qed.

  Lemma crash_run os : forall l G t, TInv hash cap G false l t ->
    orderly (l, (G + diskBytes l)%N) os ->
    exists t', crunT hash cap t os = Some (t', crashRun (l, (G + diskBytes l)%N) os).
  Proof.
    induction os as [|o os IH]; intros l G t I Ho.
    - exists t. reflexivity.
    - destruct Ho as (Ho & Hsz & Hos). cbn [crunT crashRun]. destruct o as [o|i d].
      + cbn [crashStep cstep] in *. cbn [fst snd] in *.
        pose proof (specStep_mono hash hash32 cap cap1 l o) as Hm.
        assert (Hok : opOk false l o) by (destruct o; cbn; auto; split; [auto|discriminate]).
        destruct (specStep l o) as [l' r] eqn:E. cbn [fst snd] in *.
        assert (Hs2 : (G + diskBytes (fst (specStep l o)) < 4294967296)%N) by (rewrite E; cbn [fst]; lia).
        destruct (step_ok hash hash32 cap cap1 G false l t o I Hok Hs2) as (t' & r' & E' & Hr & I').
        rewrite E in Hr, I'. cbn [fst snd] in Hr, I'. rewrite E'.
        assert (r' = r).
        { destruct r', r; cbn in Hr; auto; try (destruct Hr as [->|[? _]]; [reflexivity|discriminate]); congruence. }
        subst r'.
        replace (G + diskBytes l + (diskBytes l' - diskBytes l))%N with (G + diskBytes l')%N in * by lia.
        destruct (IH l' G t' I' Hos) as (t'' & E''). rewrite E''. eauto.
      + destruct Ho as (k & -> & Hk & Hd1 & Hd2). cbn [crashStep cstep fst snd] in *.
        destruct (crash_inv G l t k d I Hk Hd1 Hd2) as (G' & I' & HG').
        replace (8 * k / 8) with k in * by (symmetry; rewrite Nat.mul_comm; apply Nat.div_mul; lia).
        rewrite <- HG' in *. destruct (IH _ G' _ I' Hos) as (t'' & E''). rewrite E''. eauto.
  Qed.

  Lemma crash_refines os : orderly ([], 0%N) os -> crun hash cap os = Some (crashRun ([], 0%N) os).
  Proof.
    intros H. destruct (crash_run os [] 0%N _ (empty_inv hash hash32 cap cap1 false) H) as (t' & E).
    unfold crun. rewrite E. reflexivity.
  Qed.
End Top.

Lemma u32_lt x : (u32 x < 4294967296)%N.
Proof. apply N.mod_lt. lia. Qed.

Lemma lxor_lt a b n : (a < 2 ^ n -> b < 2 ^ n -> N.lxor a b < 2 ^ n)%N.
Proof.
  intros Ha Hb. destruct (N.eq_dec (N.lxor a b) 0) as [->|Hne]; [lia|].
  apply N.log2_lt_pow2; [lia|]. eapply N.le_lt_trans; [apply N.log2_lxor|].
  apply N.max_lub_lt.
  - destruct (N.eq_dec a 0) as [->|Ha0]; [|apply N.log2_lt_pow2; lia].
    rewrite N.lxor_0_l in Hne. cbn. destruct n; [|lia]. cbn in Hb. lia.
  - destruct (N.eq_dec b 0) as [->|Hb0]; [|apply N.log2_lt_pow2; lia].
    rewrite N.lxor_0_r in Hne. cbn. destruct n; [|lia]. cbn in Ha. lia.
Qed.

Lemma shiftr_le a n : (N.shiftr a n <= a)%N.
Proof. rewrite N.shiftr_div_pow2. apply N.div_le_upper_bound; [apply N.pow_nonzero; lia|]. 
  pose proof (N.pow_nonzero 2 n). nia. Qed.

Lemma murmur32 s : (murmur s < 4294967296)%N.
Proof.
  unfold murmur, murmurSeed, fmix32.
  change 4294967296%N with (2 ^ 32)%N. set (h := u32 (_ * 3266489909)).
  assert (h < 2 ^ 32)%N by apply u32_lt.
  apply lxor_lt; [exact H|]. eapply N.le_lt_trans; [apply shiftr_le|exact H].
Qed.
