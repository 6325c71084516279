From Verif Require Import Base Bytes BytesProofs StreamModel ElementProofs EwahModel EwahMarker EwahRep EwahIter EwahLogic
  EwahSet EwahEnum EwahSpec EwahFacts BitmapModel BitmapSpec.
From Coq Require Import NArith Sorted.
Local Open Scope N_scope.

(** ** The file *)
Lemma readWords_write ws : Forall (fun w => w < 2 ^ 32) ws -> forall old rest,
  readWords (length ws) old (mkStream (flat_map (le 4) ws ++ rest) false) = (ws, mkStream rest false).
Proof.
  induction 1 as [|w ws Hw F IH]; intros old rest; [reflexivity|].
  cbn [length readWords flat_map]. rewrite <- app_assoc, readInto_full by (auto using le_length).
  rewrite IH, unle_le by auto. reflexivity.
Qed.

Definition reload (c : ewah) : ewah := mkEwah (buf c) (bits c) 0.

Lemma readEwah_write c old rest : bits c < 2 ^ 64 -> N.of_nat (length (buf c)) < 2 ^ 64 -> Forall (fun w => w < 2 ^ 32) (buf c) ->
  readEwah old (mkStream (writeEwah c ++ rest) false) = (mkEwah (buf c) (bits c) (last old), mkStream rest false).
Proof.
  intros H1 H2 H3. unfold readEwah, writeEwah. rewrite <- !app_assoc, readInto_full by (auto using le_length).
  rewrite readInto_full by (auto using le_length). rewrite !unle_le by auto. rewrite Nat2N.id.
  rewrite readWords_write by auto. reflexivity.
Qed.

Lemma find_app k m1 m2 : find k (m1 ++ m2) = match find k m1 with Some c => Some c | None => find k m2 end.
Proof. unfold find. induction m1 as [|[k' c] m1 IH]; cbn; [reflexivity|]. destruct (k =? k'); auto. Qed.
Lemma find_none k m : find k m = None <-> ~ In k (map fst m).
Proof.
  unfold find. induction m as [|[k' c] m IH]; cbn; [tauto|]. destruct (N.eqb_spec k k') as [->|N].
  - split; [discriminate|]. intros H. exfalso. apply H. auto.
  - rewrite IH. intuition.
Qed.


Lemma readEnd f key bitset m : key < 2 ^ 32 -> find key m <> None -> readLoop (S f) key bitset m (mkStream [] false) = Done m.
Proof.
  intros Hk H. cbn [readLoop]. unfold readEwah, readInto. cbn [failed rem firstn skipn length app Nat.ltb Nat.leb].
  assert (L8 : unle (le 8 0) = 0) by reflexivity. rewrite L8. cbn [N.to_nat readWords failed].
  f_equal. unfold emplace. rewrite unle_le by auto. destruct (find key m); congruence.
Qed.

Definition reloadMap (m : bitmap) : bitmap := map (fun kv => (fst kv, reload (snd kv))) m.
Lemma reload_keys m : map fst (reloadMap m) = map fst m.
Proof. unfold reloadMap. rewrite map_map. reflexivity. Qed.

Lemma writeMap_cons k c m : writeMap ((k, c) :: m) = le 4 k ++ writeEwah c ++ writeMap m.
Proof. unfold writeMap. cbn [flat_map fst snd]. rewrite <- app_assoc. reflexivity. Qed.

Lemma readLoop_write : forall kvs fuel key bitset m,
  fileable kvs -> (length (writeMap kvs) < fuel)%nat -> key < 2 ^ 32 -> last bitset = 0%nat ->
  (forall k, In k (map fst kvs) -> find k m = None) -> (find key m <> None \/ kvs <> []) ->
  readLoop fuel key bitset m (mkStream (writeMap kvs) false) = Done (m ++ reloadMap kvs).
Proof.
  induction kvs as [|[k c] kvs IH]; intros fuel key bitset m (HN & HF) Hfu Hk Hl Hd Hor.
  - destruct fuel as [|f]; [lia|]. destruct Hor as [H|H]; [|congruence]. rewrite app_nil_r. apply readEnd; auto.
  - inversion HN as [|? ? N1 N2]; subst. inversion HF as [|? ? (F1 & F2 & F3 & F4) F5]; subst. cbn [fst snd] in *.
    rewrite writeMap_cons in Hfu. rewrite !app_length, le_length in Hfu.
    destruct fuel as [|f]; [lia|]. rewrite writeMap_cons. cbn [readLoop].
    rewrite readInto_full by (auto using le_length). rewrite readEwah_write by auto.
    cbn [failed]. rewrite unle_le by auto. unfold emplace. rewrite (Hd k) by (left; auto).
    rewrite IH; auto.
    + rewrite <- app_assoc. unfold reloadMap. cbn [map app fst snd]. unfold reload. rewrite Hl. reflexivity.
    + split; auto.
    + lia.
    + intros k' Hk'. rewrite find_app, (Hd k') by (right; auto). unfold find. cbn.
      destruct (N.eqb_spec k' k) as [->|]; [contradiction|reflexivity].
    + left. rewrite find_app. destruct (find k m); [discriminate|]. unfold find. cbn. rewrite N.eqb_refl. discriminate.
Qed.

Lemma readMap_write m junk : fileable m -> m <> [] -> junk < 2 ^ 32 -> readMap junk (Some (writeMap m)) = Done (reloadMap m).
Proof.
  intros F H J. unfold readMap. rewrite (readLoop_write m); auto.
Qed.

(** An empty or missing file leaves one entry with an arbitrary key and no buffer. *)
Lemma readMap_none junk : junk < 2 ^ 32 -> readMap junk None = Done [(junk, mkEwah [] 0 0)] /\
  readMap junk (Some []) = Done [(junk, mkEwah [] 0 0)].
Proof.
  intros H. unfold readMap. cbn [readLoop length]. unfold readEwah, readInto.
  cbn [failed rem firstn skipn length app Nat.ltb Nat.leb].
  assert (L8 : unle (le 8 0) = 0) by reflexivity. change (bits empty) with 0. rewrite L8.
  cbn [N.to_nat readWords failed]. rewrite unle_le by auto. split; reflexivity.
Qed.

(** Reading never runs out of the model's fuel, whatever the bytes. *)
Lemma readInto_rem n old s : (length (rem (snd (readInto n old s))) <= length (rem s))%nat.
Proof. unfold readInto. destruct (failed s); cbn [snd rem]; [lia|]. rewrite skipn_length. lia. Qed.
Lemma readInto_less n old s : failed (snd (readInto (S n) old s)) = false -> (length (rem (snd (readInto (S n) old s))) < length (rem s))%nat.
Proof.
  unfold readInto. destruct (failed s) eqn:E; cbn [snd rem failed]; [congruence|]. intros H.
  apply Nat.ltb_ge in H. rewrite firstn_length in H. rewrite skipn_length. lia.
Qed.
Lemma readInto_failed n old s : failed s = true -> failed (snd (readInto n old s)) = true.
Proof. intros H. unfold readInto. rewrite H. auto. Qed.
Lemma readWords_mono n : forall old s, (length (rem (snd (readWords n old s))) <= length (rem s))%nat /\
  (failed s = true -> failed (snd (readWords n old s)) = true).
Proof.
  induction n as [|n IH]; intros old s; [cbn; auto|]. cbn [readWords].
  pose proof (readInto_rem 4 (le 4 (hd 0 old)) s) as R. pose proof (readInto_failed 4 (le 4 (hd 0 old)) s) as G.
  destruct (readInto 4 (le 4 (hd 0 old)) s) as [b s1]. cbn [snd] in *.
  specialize (IH (tl old) s1). destruct (readWords n (tl old) s1) as [l s2]. cbn [snd] in *. split; [lia|]. intros; apply IH; auto.
Qed.
Lemma readEwah_mono old s : (length (rem (snd (readEwah old s))) <= length (rem s))%nat /\
  (failed s = true -> failed (snd (readEwah old s)) = true).
Proof.
  unfold readEwah.
  pose proof (readInto_rem 8 (le 8 (bits old)) s) as R. pose proof (readInto_failed 8 (le 8 (bits old)) s) as G.
  destruct (readInto 8 (le 8 (bits old)) s) as [b s1]. cbn [snd] in *.
  pose proof (readInto_rem 8 (le 8 0) s1) as R1. pose proof (readInto_failed 8 (le 8 0) s1) as G1.
  destruct (readInto 8 (le 8 0) s1) as [n s2]. cbn [snd] in *.
  destruct (readWords_mono (N.to_nat (unle n)) (buf old) s2) as [R2 G2].
  destruct (readWords (N.to_nat (unle n)) (buf old) s2) as [l s3]. cbn [snd] in *. split; [lia|]. auto.
Qed.
Lemma readLoop_total fuel : forall key bitset m s, (length (rem s) < fuel)%nat -> exists m', readLoop fuel key bitset m s = Done m'.
Proof.
  induction fuel as [|f IH]; intros key bitset m s Hf; [lia|]. cbn [readLoop].
  pose proof (readInto_less 3 (le 4 key) s) as L. destruct (readInto 4 (le 4 key) s) as [kb s1]. cbn [snd] in L.
  destruct (readEwah_mono bitset s1) as [R G]. destruct (readEwah bitset s1) as [bs s2]. cbn [snd] in R, G.
  destruct (failed s2) eqn:E; [eauto|]. apply IH. destruct (failed s1); [specialize (G eq_refl); discriminate|].
  specialize (L eq_refl). lia.
Qed.
Lemma readMap_total junk file : exists m, readMap junk file = Done m.
Proof. destruct file; apply readLoop_total; cbn [rem length]; lia. Qed.

(** ** Searching a loaded index *)
Lemma or_reload c b b' : reload b = reload b' -> logicalor (reload c) b' = logicalor c b.
Proof. destruct b, b'. unfold reload. cbn. intros H; inversion H; subst. reflexivity. Qed.
Lemma and_reload c b b' : reload b = reload b' -> logicaland (reload c) b' = logicaland c b.
Proof. destruct b, b'. unfold reload. cbn. intros H; inversion H; subst. reflexivity. Qed.
Lemma and_reload2 c b b' : reload b = reload b' -> logicaland c b' = logicaland c b.
Proof. destruct b, b'. unfold reload. cbn. intros H; inversion H; subst. reflexivity. Qed.
Lemma xor_reload c b b' : reload b = reload b' -> logicalxor (reload c) b' = logicalxor c b.
Proof. destruct b, b'. unfold reload. cbn. intros H; inversion H; subst. reflexivity. Qed.

Definition same (r r' : res ewah) : Prop :=
  match r, r' with
  | Done a, Done b => reload a = reload b
  | Bad, Bad | NoFuel, NoFuel => True
  | _, _ => False
  end.
Lemma same_refl r : same r r.
Proof. destruct r; cbn; auto. Qed.
Lemma find_reload k m : find k (reloadMap m) = option_map reload (find k m).
Proof. unfold find. induction m as [|[k' c] m IH]; cbn; [reflexivity|]. destruct (k =? k'); auto. Qed.

Lemma orLoop_reload terms m : forall b b', reload b = reload b' -> same (orLoop terms m b) (orLoop terms (reloadMap m) b').
Proof.
  induction terms as [|k terms IH]; intros b b' H; cbn [orLoop]; [exact H|]. rewrite find_reload.
  destruct (find k m) as [c|]; cbn [option_map]; [|auto]. rewrite (or_reload c b b' H).
  destruct (logicalor c b); cbn [rbind]; [|exact I|exact I]. apply IH. reflexivity.
Qed.
Lemma andLoop_reload terms m : forall b b', reload b = reload b' -> same (andLoop terms m b) (andLoop terms (reloadMap m) b').
Proof.
  induction terms as [|k terms IH]; intros b b' H; cbn [andLoop]; [exact H|]. rewrite find_reload.
  destruct (find k m) as [c|]; cbn [option_map]; [|reflexivity]. rewrite (and_reload c b b' H).
  assert (E : bits b = bits b') by (unfold reload in H; congruence). rewrite <- E.
  destruct (bits b =? 0); [apply IH; reflexivity|].
  destruct (logicaland c b); cbn [rbind]; [|exact I|exact I]. apply IH. reflexivity.
Qed.
Lemma notLoop_reload terms m : forall b b', reload b = reload b' -> same (notLoop terms m b) (notLoop terms (reloadMap m) b').
Proof.
  induction terms as [|k terms IH]; intros b b' H; cbn [notLoop]; [exact H|]. rewrite find_reload.
  destruct (find k m) as [c|]; cbn [option_map]; [|auto]. rewrite (xor_reload c b b' H).
  destruct (logicalxor c b) as [x| |]; cbn [rbind]; [|exact I|exact I]. rewrite (and_reload2 x b b' H).
  destruct (logicaland x b); cbn [rbind]; [|exact I|exact I]. apply IH. reflexivity.
Qed.
Lemma searchIds_reload o a n m : searchIds o a n (reloadMap m) = searchIds o a n m.
Proof.
  unfold searchIds. pose proof (orLoop_reload o m empty empty eq_refl) as H.
  destruct (orLoop o m empty) as [b| |], (orLoop o (reloadMap m) empty) as [b'| |]; try contradiction; try reflexivity.
  cbn [rbind]. pose proof (andLoop_reload a m b b' H) as H1.
  destruct (andLoop a m b) as [b1| |], (andLoop a (reloadMap m) b') as [b1'| |]; try contradiction; try reflexivity.
  cbn [rbind]. pose proof (notLoop_reload n m b1 b1' H1) as H2.
  destruct (notLoop n m b1) as [b2| |], (notLoop n (reloadMap m) b1') as [b2'| |]; try contradiction; try reflexivity.
  cbn [rbind]. assert (E : enumerate b2' = enumerate b2).
  { cbn in H2. unfold reload in H2. unfold enumerate. inversion H2. reflexivity. }
  rewrite E. reflexivity.
Qed.

(** ** Words of a string *)
Lemma word_single w t : Forall (fun c => isDelimiter c = false) w -> wordOf w t <-> (t = w /\ w <> []).
Proof.
  intros F. split.
  - intros (H1 & H2 & a & b & E & Ha & Hb). subst w. apply Forall_app in F. destruct F as [F1 F2].
    apply Forall_app in F2. destruct F2 as [F2 F3].
    assert (a = []). { destruct Ha as [|(a' & c & -> & Hc)]; [auto|]. apply Forall_app in F1. destruct F1 as [_ F1]. inversion F1; congruence. }
    assert (b = []). { destruct Hb as [|(c & b' & -> & Hc)]; [auto|]. inversion F3; congruence. }
    subst. rewrite app_nil_r. auto.
  - intros [-> H]. split; [auto|]. split; [auto|]. exists [], []. rewrite app_nil_r. auto.
Qed.

Lemma word_split x c y t : isDelimiter c = true -> wordOf (x ++ c :: y) t <-> wordOf x t \/ wordOf y t.
Proof.
  intros Hc. split.
  - intros (H1 & H2 & a & b & E & Ha & Hb).
    apply app_eq_app in E. destruct E as (l & [[E1 E2]|[E1 E2]]).
    + (* a is inside x *)
      subst x. symmetry in E2. apply app_eq_app in E2. destruct E2 as (l' & [[E3 E4]|[E3 E4]]).
      * left. split; [auto|]. split; [auto|]. subst l. exists a, l'. split; [reflexivity|]. split; [auto|].
        destruct l' as [|c' l']; [auto|]. right. destruct Hb as [Hb|(c2 & b' & Hb & Hd)]; [|].
        -- subst b. discriminate.
        -- subst b. cbn in Hb. inversion Hb; subst. exists c2, l'. auto.
      * destruct l' as [|c' l'].
        -- cbn in E4. subst b. rewrite app_nil_r in E3. subst l. left. split; [auto|]. split; [auto|].
           exists a, []. rewrite app_nil_r. auto.
        -- exfalso. cbn in E4. inversion E4; subst. apply Forall_app in H2. destruct H2 as [_ H2]. inversion H2; congruence.
    + (* a reaches the delimiter *)
      destruct l as [|c' l].
      * rewrite app_nil_r in E1. subst a. cbn in E2. destruct t as [|t0 t]; [congruence|]. cbn in E2. inversion E2; subst.
        exfalso. inversion H2; congruence.
      * cbn in E2. inversion E2; subst c' y. right. split; [auto|]. split; [auto|]. exists l, b. split; [reflexivity|].
        split; [|auto]. destruct Ha as [Ha|(a' & d & Ha & Hd)].
        -- exfalso. subst a. destruct x; discriminate.
        -- destruct l as [|l0 l]; [auto|]. right.
           assert (Hn : l0 :: l <> []) by discriminate. destruct (exists_last Hn) as (l' & d' & El).
           try rewrite E1 in Ha. rewrite El in Ha. replace (x ++ c :: l' ++ [d']) with ((x ++ c :: l') ++ [d']) in Ha by (rewrite <- app_assoc; reflexivity).
           apply app_inj_tail in Ha. destruct Ha as [_ ->]. exists l', d. rewrite El. auto.
  - intros [(H1 & H2 & a & b & E & Ha & Hb)|(H1 & H2 & a & b & E & Ha & Hb)]; (split; [auto|]); (split; [auto|]); subst.
    + exists a, (b ++ c :: y). split; [rewrite <- !app_assoc; reflexivity|]. split; [auto|]. right.
      destruct Hb as [->|(d & b' & -> & Hd)]; [exists c, y; auto|]. exists d, (b' ++ c :: y). auto.
    + exists (x ++ c :: a), b. split; [rewrite <- !app_assoc; reflexivity|]. split; [|auto]. right.
      destruct Ha as [->|(a' & d & -> & Hd)]; [exists x, c; auto|]. exists (x ++ c :: a'), d. rewrite <- app_assoc. auto.
Qed.

Lemma tokens_spec s : forall cur t, Forall (fun c => isDelimiter c = false) cur ->
  In t (tokens cur s) <-> wordOf (rev cur ++ s) t.
Proof.
  induction s as [|c s IH]; intros cur t F.
  - cbn [tokens]. rewrite app_nil_r, word_single by (apply Forall_rev; auto). destruct cur as [|c cur].
    + cbn. intuition.
    + cbn [In]. split; [intros [H|[]]; split; [auto|]|intros [H _]; auto].
      intros K. apply (f_equal (@length _)) in K. rewrite rev_length in K. discriminate.
  - cbn [tokens]. destruct (isDelimiter c) eqn:Ec.
    + rewrite word_split by auto. rewrite in_app_iff, IH by constructor. cbn [rev app].
      rewrite (word_single (rev cur)) by (apply Forall_rev; auto). destruct cur as [|d cur].
      * cbn. intuition.
      * cbn [In]. split; intros [H|H]; auto; left.
        -- destruct H as [H|[]]. split; [auto|]. intros K. apply (f_equal (@length _)) in K. rewrite rev_length in K. discriminate.
        -- destruct H as [H _]. auto.
    + rewrite IH by (constructor; auto). cbn [rev]. rewrite <- app_assoc. reflexivity.
Qed.

(** ** Index of term ids *)
Definition SInvK (P : N -> Prop) (n : N) (c : ewah) : Prop :=
  exists ws, SInv c ws /\ 0 < bits c <= n /\ bitAt ws (bits c - 1) = true /\ forall p, bitAt ws p = true <-> P p.
Definition InvP (P : N -> N -> Prop) (n : N) (m : bitmap) : Prop :=
  forall k, match find k m with None => forall p, ~ P k p | Some c => SInvK (P k) n c end.

Lemma find_store k k' c m : find k (store k' c m) = if k =? k' then Some c else find k m.
Proof.
  unfold find. induction m as [|[k1 c1] m IH]; cbn; [destruct (k =? k'); reflexivity|].
  destruct (N.eqb_spec k' k1) as [->|N1]; cbn.
  - destruct (N.eqb_spec k k1); reflexivity.
  - rewrite IH. destruct (N.eqb_spec k k1) as [->|]; [|reflexivity].
    rewrite (proj2 (N.eqb_neq k1 k')) by congruence. reflexivity.
Qed.

Lemma InvP_ext P Q n n' m : (forall k p, P k p <-> Q k p) -> n <= n' -> InvP P n m -> InvP Q n' m.
Proof.
  intros E L H k. specialize (H k). destruct (find k m) as [c|].
  - destruct H as (ws & H1 & H2 & H3 & H4). exists ws. split; [auto|]. split; [lia|]. split; [auto|].
    intros p. rewrite H4. apply E.
  - intros p Hp. apply (H p), E, Hp.
Qed.

Lemma bitAt_nil p : bitAt [] p = false.
Proof. unfold bitAt. destruct (N.to_nat (p / 32)); apply N.bits_0. Qed.

Lemma addIds_spec order ids : forall P m, InvP P (order + 1) m ->
  (forall k p, P k p -> p <= order) ->
  exists m', addIds order ids m = Done m' /\ InvP (fun k p => P k p \/ (p = order /\ In k ids)) (order + 1) m'.
Proof.
  induction ids as [|k ids IH]; intros P m HI HP; cbn [addIds].
  - exists m. split; [reflexivity|]. eapply InvP_ext; [|apply N.le_refl|exact HI]. intros; cbn; tauto.
  - set (P1 := fun k' p => P k' p \/ (p = order /\ k' = k)).
    assert (G : exists b c', set order (match find k m with Some c => c | None => empty end) = Done (b, c') /\
               InvP P1 (order + 1) (store k c' m)).
    { assert (HK : forall c', SInvK (P1 k) (order + 1) c' -> InvP P1 (order + 1) (store k c' m)).
      { intros c' Hc k'. rewrite find_store. destruct (N.eqb_spec k' k) as [->|Hne]; [auto|].
        specialize (HI k'). destruct (find k' m) as [c|].
        - destruct HI as (ws & H1 & H2 & H3 & H4). exists ws. split; [auto|]. split; [auto|]. split; [auto|].
          intros p. rewrite H4. unfold P1. tauto.
        - intros p [H|[_ H]]; [apply (HI p H)|congruence]. }
      pose proof (HI k) as Hk. destruct (find k m) as [c|].
      - destruct Hk as (ws & H1 & H2 & H3 & H4). destruct (set_spec order c ws H1) as [S1 S2].
        destruct (N.lt_ge_cases order (bits c)) as [L|L].
        + exists false, c. split; [auto|]. apply HK. exists ws. split; [auto|]. split; [auto|]. split; [auto|].
          intros p. rewrite H4. unfold P1. split; [auto|]. intros [H|[-> _]]; [auto|]. apply H4.
          replace order with (bits c - 1) by lia. auto.
        + destruct (S2 L) as (c' & ws' & E & I' & B' & P'). exists true, c'. split; [auto|]. apply HK. exists ws'.
          split; [auto|]. split; [lia|]. split.
          * rewrite P', B'. replace (order + 1 - 1) with order by lia. rewrite N.eqb_refl, orb_true_r. reflexivity.
          * intros p. rewrite P', orb_true_iff, N.eqb_eq, H4. unfold P1. tauto.
      - destruct (set_spec order empty [] SInv_empty) as [_ S2].
        destruct S2 as (c' & ws' & E & I' & B' & P'); [cbn; lia|]. exists true, c'. split; [auto|]. apply HK. exists ws'.
        split; [auto|]. split; [lia|]. split.
        + rewrite P', B'. replace (order + 1 - 1) with order by lia. rewrite N.eqb_refl, orb_true_r. reflexivity.
        + intros p. rewrite P', bitAt_nil. cbn [orb]. rewrite N.eqb_eq. unfold P1. specialize (Hk p). tauto. }
    destruct G as (b & c' & E & HI1). rewrite E. cbn [rbind].
    destruct (IH P1 (store k c' m) HI1) as (m' & E' & HI').
    { intros k' p [H|[-> _]]; [apply (HP _ _ H)|lia]. }
    exists m'. split; [exact E'|]. eapply InvP_ext; [|apply N.le_refl|exact HI']. unfold P1. intros k' p. cbn [In].
    split; intros; intuition congruence.
Qed.

Section Docs.
  Variable getId : bytes -> N.

  Definition PD (ds : list document) (k p : N) : Prop :=
    exists d, nth_error ds (N.to_nat p) = Some d /\ In k (docIds getId d).

  Lemma PD_bound ds k p : PD ds k p -> p < N.of_nat (length ds).
  Proof.
    intros (d & E & _). assert (K : nth_error ds (N.to_nat p) <> None) by congruence. apply nth_error_Some in K. lia.
  Qed.

  Lemma PD_snoc ds d k p : PD (ds ++ [d]) k p <-> PD ds k p \/ (p = N.of_nat (length ds) /\ In k (docIds getId d)).
  Proof.
    unfold PD. split.
    - intros (d' & E & H). destruct (Nat.lt_ge_cases (N.to_nat p) (length ds)) as [L|L].
      + rewrite nth_error_app1 in E by auto. left. eauto.
      + rewrite nth_error_app2 in E by auto. right.
        destruct (N.to_nat p - length ds)%nat as [|j] eqn:Ej; cbn in E; [inversion E; subst; split; [lia|auto]|].
        destruct j; discriminate.
    - intros [(d' & E & H)|[-> H]].
      + exists d'. split; [|auto]. rewrite nth_error_app1; auto. apply nth_error_Some. congruence.
      + exists d. split; [|auto]. rewrite Nat2N.id, nth_error_app2 by lia. rewrite Nat.sub_diag. reflexivity.
  Qed.

  Lemma addDocs_spec ds2 : forall ds1 m, InvP (PD ds1) (N.of_nat (length ds1)) m ->
    exists m', addDocs getId (N.of_nat (length ds1)) ds2 m = Done m' /\
      InvP (PD (ds1 ++ ds2)) (N.of_nat (length (ds1 ++ ds2))) m'.
  Proof.
    induction ds2 as [|d ds2 IH]; intros ds1 m HI; cbn [addDocs].
    - exists m. rewrite app_nil_r. auto.
    - unfold addDoc. destruct (addIds_spec (N.of_nat (length ds1)) (docIds getId d) (PD ds1) m) as (m1 & E1 & H1).
      + eapply InvP_ext; [| |exact HI]; [tauto|lia].
      + intros k p H. apply PD_bound in H. lia.
      + rewrite E1. cbn [rbind]. destruct (IH (ds1 ++ [d]) m1) as (m2 & E2 & H2).
        * eapply InvP_ext; [| |exact H1]; [|rewrite app_length; cbn; lia]. intros k p. rewrite PD_snoc. tauto.
        * rewrite app_length in E2. cbn [length] in E2.
          replace (N.of_nat (length ds1 + 1)) with (N.of_nat (length ds1) + 1) in E2 by lia.
          exists m2. split; [exact E2|]. rewrite <- app_assoc in H2. exact H2.
  Qed.

  Lemma InvP_nil : InvP (PD []) 0 [].
  Proof. intros k. cbn. intros p (d & E & _). destruct (N.to_nat p); discriminate. Qed.
End Docs.

(** ** The search *)
Section Search.
  Variables (P : N -> N -> Prop) (n : N) (m : bitmap).
  Hypothesis HI : InvP P n m.

  Lemma orLoop_spec terms : forall b B, EInv b B -> bits b <= n ->
    exists b' B', orLoop terms m b = Done b' /\ EInv b' B' /\ bits b' <= n /\
      (bits b' = 0 <-> bits b = 0 /\ forall k p, In k terms -> ~ P k p) /\
      forall p, bitAt B' p = true <-> bitAt B p = true \/ exists k, In k terms /\ P k p.
  Proof.
    induction terms as [|k terms IH]; intros b B HE Hb; cbn [orLoop].
    - exists b, B. split; [reflexivity|]. split; [auto|]. split; [auto|]. split.
      + split; [intros; split; auto|tauto].
      + intros p. split; [auto|]. intros [H|(k & [] & _)]; auto.
    - pose proof (HI k) as Hk. destruct (find k m) as [c|].
      + destruct Hk as (ws & H1 & H2 & H3 & H4).
        destruct (or_facts c b ws B (SInv_EInv c ws H1) HE) as (b1 & B1 & E1 & I1 & N1 & P1). rewrite E1. cbn [rbind].
        destruct (IH b1 B1 I1) as (b' & B' & E' & I' & N' & Z' & P'); [lia|].
        exists b', B'. split; [exact E'|]. split; [auto|]. split; [auto|]. split.
        * rewrite Z'. split.
          -- intros [Hz _]. lia.
          -- intros [_ Hz]. exfalso. apply (Hz k (bits c - 1)); [left; auto|]. apply H4; auto.
        * intros p. rewrite P', P1, H4. split.
          -- intros [[H|H]|(k' & H & K)]; [right; exists k; split; [left; auto|auto]|auto|right; exists k'; split; [right; auto|auto]].
          -- intros [H|(k' & [->|H] & K)]; [auto|auto|right; eauto].
      + destruct (IH b B HE Hb) as (b' & B' & E' & I' & N' & Z' & P').
        exists b', B'. split; [exact E'|]. split; [auto|]. split; [auto|]. split.
        * rewrite Z'. split; intros [Hz Hp]; split; auto.
          -- intros k' p [<-|H]; auto.
          -- intros k' p H. apply Hp. right; auto.
        * intros p. rewrite P'. split; intros [H|(k' & H & K)]; auto; right.
          -- exists k'; split; [right; auto|auto].
          -- destruct H as [<-|H]; [exfalso; apply (Hk _ K)|eauto].
  Qed.

  Lemma EInv_zero b B : EInv b B -> bits b = 0 -> B = [].
  Proof. intros (_ & L) Z. rewrite Z in L. change ((0 + 31) / 32) with 0 in L. unfold len in L. destruct B; [auto|cbn in L; lia]. Qed.

  Lemma andLoop_spec terms : forall b B, EInv b B -> bits b <= n ->
    exists b' B', andLoop terms m b = Done b' /\ EInv b' B' /\ bits b' <= n /\
      forall p, bitAt B' p = true <-> (bits b = 0 /\ terms <> [] \/ bitAt B p = true) /\ forall k, In k terms -> P k p.
  Proof.
    induction terms as [|k terms IH]; intros b B HE Hb; cbn [andLoop].
    - exists b, B. split; [reflexivity|]. split; [auto|]. split; [auto|]. intros p. split.
      + intros H. split; [auto|]. intros k [].
      + intros [[[_ H]|H] _]; [congruence|auto].
    - pose proof (HI k) as Hk. destruct (find k m) as [c|].
      + destruct Hk as (ws & H1 & H2 & H3 & H4). destruct (N.eqb_spec (bits b) 0) as [Hz|Hz].
        * destruct (IH c ws (SInv_EInv c ws H1)) as (b' & B' & E' & I' & N' & P'); [lia|].
          exists b', B'. split; [exact E'|]. split; [auto|]. split; [auto|]. intros p. rewrite P', H4.
          rewrite (EInv_zero b B HE Hz), bitAt_nil. split.
          -- intros [[[Hc _]|H] K]; [lia|]. split; [left; split; [auto|discriminate]|]. intros k' [<-|Hk']; auto.
          -- intros [_ K]. split; [right; apply K; left; auto|]. intros; apply K; right; auto.
        * destruct (and_facts c b ws B (SInv_EInv c ws H1) HE) as (b1 & B1 & E1 & I1 & N1 & P1). rewrite E1. cbn [rbind].
          destruct (IH b1 B1 I1) as (b' & B' & E' & I' & N' & P'); [lia|].
          exists b', B'. split; [exact E'|]. split; [auto|]. split; [auto|]. intros p. rewrite P', P1, H4. split.
          -- intros [[[Hc _]|[H H']] K]; [lia|]. split; [auto|]. intros k' [<-|Hk']; auto.
          -- intros [[[Hc _]|H] K]; [congruence|]. split; [right; split; [apply K; left; auto|auto]|]. intros; apply K; right; auto.
      + exists empty, []. split; [reflexivity|]. split; [apply SInv_EInv, SInv_empty|]. split; [cbn; lia|].
        intros p. rewrite bitAt_nil. split; [discriminate|]. intros [_ K]. exfalso. apply (Hk p). apply K. left; auto.
  Qed.

  Lemma notLoop_spec terms : (terms <> [] -> n <= 1048544) -> forall b B, EInv b B -> bits b <= n ->
    exists b' B', notLoop terms m b = Done b' /\ EInv b' B' /\ bits b' <= n /\
      forall p, bitAt B' p = true <-> bitAt B p = true /\ forall k, In k terms -> ~ P k p.
  Proof.
    induction terms as [|k terms IH]; intros Hn b B HE Hb; cbn [notLoop].
    - exists b, B. split; [reflexivity|]. split; [auto|]. split; [auto|]. intros p. split; [|tauto].
      intros H. split; [auto|]. intros k [].
    - specialize (Hn ltac:(discriminate)). specialize (IH (fun _ => Hn)).
      pose proof (HI k) as Hk. destruct (find k m) as [c|].
      + destruct Hk as (ws & H1 & H2 & H3 & H4).
        destruct (xor_facts c b ws B (SInv_EInv c ws H1) HE) as (x & X & E1 & I1 & N1 & P1); [lia|lia|]. rewrite E1. cbn [rbind].
        destruct (and_facts x b X B I1 HE) as (y & Y & E2 & I2 & N2 & P2). rewrite E2. cbn [rbind].
        destruct (IH y Y I2) as (b' & B' & E' & I' & N' & P'); [lia|].
        exists b', B'. split; [exact E'|]. split; [auto|]. split; [auto|]. intros p. rewrite P', P2, P1.
        specialize (H4 p). split.
        * intros [[H H'] K]. rewrite H' in H. split; [auto|]. intros k' [<-|Hk']; [|auto]. intros Hp. apply H4 in Hp.
          rewrite Hp in H. discriminate.
        * intros [H K]. split; [|intros; apply K; right; auto]. split; [|auto].
          rewrite H. destruct (bitAt ws p); [|reflexivity]. exfalso. apply (K k); [left; auto|]. apply H4. auto.
      + destruct (IH b B HE Hb) as (b' & B' & E' & I' & N' & P').
        exists b', B'. split; [exact E'|]. split; [auto|]. split; [auto|]. intros p. rewrite P'. split; intros [H K]; (split; [auto|]).
        * intros k' [<-|Hk']; auto.
        * intros; apply K; right; auto.
  Qed.

  Lemma searchIds_spec o a t : (t <> [] -> n <= 1048544) -> n <= 2 ^ 32 -> (forall k p, P k p -> p < n) ->
    exists l, searchIds o a t m = Done l /\ StronglySorted N.lt l /\
      forall p, In p l <->
        ((forall k q, In k o -> ~ P k q) /\ a <> [] \/ exists k, In k o /\ P k p) /\
        (forall k, In k a -> P k p) /\ (forall k, In k t -> ~ P k p).
  Proof.
    intros Hn H32 HP. unfold searchIds.
    destruct (orLoop_spec o empty [] (SInv_EInv _ _ SInv_empty)) as (b1 & B1 & E1 & I1 & N1 & Z1 & P1); [cbn; lia|].
    rewrite E1. cbn [rbind].
    destruct (andLoop_spec a b1 B1 I1 N1) as (b2 & B2 & E2 & I2 & N2 & P2). rewrite E2. cbn [rbind].
    destruct (notLoop_spec t Hn b2 B2 I2 N2) as (b3 & B3 & E3 & I3 & N3 & P3). rewrite E3. cbn [rbind].
    destruct (enumerate_spec b3 B3 (proj1 I3)) as (l & El & Sl & Hl). rewrite El. cbn [rbind].
    assert (Hp : forall p, In p l <->
        ((forall k q, In k o -> ~ P k q) /\ a <> [] \/ exists k, In k o /\ P k p) /\
        (forall k, In k a -> P k p) /\ (forall k, In k t -> ~ P k p)).
    { intros p. rewrite Hl, P3, P2, P1, Z1, bitAt_nil. change (bits empty) with 0. split.
      - intros [[[[[_ H] H']|[H|H]] K] K']; [|discriminate|]; split; auto.
      - intros [[[H H']|H] [K K']]; (split; [|auto]); (split; [|auto]); auto. }
    assert (Hs : Forall (fun p => p < 2 ^ 32) l).
    { apply Forall_forall. intros p H. apply Hp in H. destruct H as [[[_ H]|(k & H & K)] [K' _]].
      - destruct a as [|k a]; [congruence|]. pose proof (HP k p (K' k (or_introl eq_refl))). lia.
      - pose proof (HP k p K). lia. }
    exists l. split; [|auto]. f_equal. rewrite <- (map_id l) at 2. apply map_ext_in. intros p H. rewrite Forall_forall in Hs.
    unfold u32. apply N.mod_small. apply (Hs p H).
  Qed.
End Search.

Section Final.
  Variable getId : bytes -> N.
  Variable U : bytes -> Prop.
  Hypothesis inj : forall a b, U a -> U b -> getId a = getId b -> a = b.

  Lemma in_tokenIds s k : In k (tokenIds getId s) <-> exists t, k = getId t /\ wordOf s t.
  Proof using.
    unfold tokenIds. rewrite in_map_iff. split; intros (t & H1 & H2); exists t; (split; [auto|]).
    - apply (tokens_spec s [] t); [constructor|auto].
    - apply (tokens_spec s [] t) in H2; [auto|constructor].
  Qed.
  Lemma hasTerm_docIds d t : hasTerm d t -> In (getId t) (docIds getId d).
  Proof using.
    unfold docIds, hasTerm. rewrite in_flat_map.
    intros (k & v & H & W). exists (k, v). split; [auto|]. apply in_app_iff. cbn [fst snd]. rewrite !in_tokenIds.
    destruct W; [left|right]; eauto.
  Qed.
  Lemma docIds_hasTerm d i : In i (docIds getId d) -> exists t, i = getId t /\ hasTerm d t.
  Proof using.
    unfold docIds, hasTerm. rewrite in_flat_map.
    intros ([k v] & H & K). apply in_app_iff in K. cbn [fst snd] in K.
    rewrite !in_tokenIds in K. destruct K as [(t & E & W)|(t & E & W)]; exists t; (split; [auto|]); exists k, v; auto.
  Qed.
  Lemma in_docIds d t : (forall t', hasTerm d t' -> U t') -> U t -> In (getId t) (docIds getId d) <-> hasTerm d t.
  Proof using inj.
    intros Hd Ht. split; [|apply hasTerm_docIds].
    intros H. apply docIds_hasTerm in H. destruct H as (t' & E & H). apply inj in E; auto. subst; auto.
  Qed.

  Definition known (ds : list document) : Prop := forall d t, In d ds -> hasTerm d t -> U t.
  Lemma PD_term ds t p : known ds -> U t ->
    PD getId ds (getId t) p <-> exists d, nth_error ds (N.to_nat p) = Some d /\ hasTerm d t.
  Proof using inj.
    intros HK Ht. unfold PD. split; intros (d & E & H); exists d; (split; [auto|]).
    - apply in_docIds in H; auto. intros t'. apply HK. eapply nth_error_In; eauto.
    - apply hasTerm_docIds; auto.
  Qed.

  Lemma some_term ds d p terms : known ds -> (forall t, wordOf terms t -> U t) -> nth_error ds (N.to_nat p) = Some d ->
    (exists k, In k (tokenIds getId terms) /\ PD getId ds k p) <-> hasSome d terms.
  Proof using inj.
    intros HK HW E. unfold hasSome. split.
    - intros (k & H & K). apply in_tokenIds in H. destruct H as (t & -> & W). apply PD_term in K; auto. destruct K as (d' & E' & H).
      exists t. split; [auto|]. congruence.
    - intros (t & W & H). exists (getId t). split; [apply in_tokenIds; eauto|]. apply PD_term; eauto.
  Qed.

  Lemma tokenIds_nil s : tokenIds getId s <> [] <-> exists t, wordOf s t.
  Proof using.
    split.
    - destruct (tokenIds getId s) as [|k l] eqn:E; [congruence|]. intros _.
      assert (H : In k (tokenIds getId s)) by (rewrite E; left; auto). apply in_tokenIds in H. destruct H as (t & _ & W). eauto.
    - intros (t & W) E. assert (H : In (getId t) (tokenIds getId s)) by (apply in_tokenIds; eauto). rewrite E in H. destruct H.
  Qed.

  Lemma search_of_inv ds m q : known ds ->
    (forall t, wordOf (orTerms q) t \/ wordOf (andTerms q) t \/ wordOf (notTerms q) t -> U t) ->
    InvP (PD getId ds) (N.of_nat (length ds)) m -> N.of_nat (length ds) <= 2 ^ 32 ->
    ((exists t, wordOf (notTerms q) t) -> N.of_nat (length ds) <= 1048544) ->
    exists l, searchTile getId q m = Done l /\ answers ds q l.
  Proof using inj.
    intros HK HU HI H32 Hn. unfold searchTile.
    assert (Uo : forall t, wordOf (orTerms q) t -> U t) by (intros; apply HU; auto).
    assert (Ua : forall t, wordOf (andTerms q) t -> U t) by (intros; apply HU; auto).
    assert (Un : forall t, wordOf (notTerms q) t -> U t) by (intros; apply HU; auto).
    destruct (searchIds_spec _ _ m HI (tokenIds getId (orTerms q)) (tokenIds getId (andTerms q)) (tokenIds getId (notTerms q)))
      as (l & E & S & H); [intros K; apply Hn, tokenIds_nil, K|auto|apply PD_bound|].
    exists l. split; [exact E|]. split; [auto|]. intros p. rewrite H. clear H.
    assert (Ho : (forall k q0, In k (tokenIds getId (orTerms q)) -> ~ PD getId ds k q0) <-> forall d', In d' ds -> ~ hasSome d' (orTerms q)).
    { split.
      - intros H d' Hd (t & W & Ht). apply In_nth_error in Hd. destruct Hd as [j Hj].
        apply (H (getId t) (N.of_nat j)); [apply in_tokenIds; eauto|]. apply PD_term; auto. exists d'. rewrite Nat2N.id. auto.
      - intros H k p' Hk K. apply in_tokenIds in Hk. destruct Hk as (t & -> & W). apply PD_term in K; auto. destruct K as (d & Ed & Ht).
        apply (H d); [eapply nth_error_In; eauto|]. exists t. auto. }
    split.
    - intros (H1 & H2 & H3).
      assert (Hd : exists d, nth_error ds (N.to_nat p) = Some d).
      { destruct H1 as [[_ Ha]|(k & _ & d & Ed & _)]; [|eauto]. destruct (tokenIds getId (andTerms q)) as [|k l0]; [congruence|].
        destruct (H2 k (or_introl eq_refl)) as (d & Ed & _). eauto. }
      destruct Hd as (d & Ed). exists d. split; [auto|]. split; [|split].
      + intros t W. assert (K : PD getId ds (getId t) p) by (apply H2, in_tokenIds; eauto). apply PD_term in K; auto.
        destruct K as (d' & E' & K). congruence.
      + intros K. rewrite <- (some_term ds d p) in K by auto. destruct K as (k & K1 & K2). apply (H3 k K1 K2).
      + destruct H1 as [[H1 Ha]|H1]; [left|right].
        * split; [apply tokenIds_nil; auto|]. apply Ho. auto.
        * rewrite <- (some_term ds d p) by auto. auto.
    - intros (d & Ed & Ma & Mn & Mo). split; [|split].
      + destruct Mo as [[Ht Mo]|Mo]; [left|right].
        * split; [apply Ho; auto|apply tokenIds_nil; auto].
        * rewrite (some_term ds d p) by auto. auto.
      + intros k Hk. apply in_tokenIds in Hk. destruct Hk as (t & -> & W). apply PD_term; auto. exists d. auto.
      + intros k Hk K. apply Mn. rewrite <- (some_term ds d p) by auto. eauto.
  Qed.
End Final.

Lemma search_correct getId ds q : injectiveOn getId (usedBy ds q) -> N.of_nat (length ds) <= 2 ^ 32 ->
  ((exists t, wordOf (notTerms q) t) -> N.of_nat (length ds) <= 1048544) ->
  exists m l, addDocs getId 0 ds [] = Done m /\ searchTile getId q m = Done l /\ answers ds q l.
Proof.
  intros HJ H1 H2. destruct (addDocs_spec getId ds [] [] (InvP_nil getId)) as (m & E & HI).
  destruct (search_of_inv getId (usedBy ds q) HJ ds m q) as (l & El & A); auto.
  - intros d t Hd Ht. left. eauto.
  - intros t Ht. right. auto.
  - exists m, l. auto.
Qed.

(** ** Files of a built index *)
Lemma buf_length c ws : rep c ws -> N.of_nat (length (buf c)) <= 2 * len ws + 1.
Proof.
  intros (pre & s & (H1 & _ & _ & _ & H5) & HL & ->). rewrite H1, app_length.
  assert (G : N.of_nat (length (flat pre)) <= 2 * len (expand pre)).
  { clear -H5. induction H5 as [|x pre L F IH]; [cbn; lia|]. cbn [flat flat_map expand].
    fold (flat pre) (expand pre). rewrite len_app, app_length. unfold live in L. unfold flatSeg, wordsOf. rewrite len_app.
    unfold len in *. rewrite fills_len. cbn [length]. lia. }
  rewrite len_app. unfold flatSeg, wordsOf. rewrite len_app. unfold len in *. rewrite fills_len. cbn [length].
  destruct HL as [->|L]; [unfold flat, expand; cbn [flat_map length]; lia|]. unfold live, len in L. lia.
Qed.

Lemma flat_ok segs : Forall wfSeg segs -> Forall (fun w => w < 2 ^ 32) (flat segs).
Proof.
  induction 1 as [|s segs (W1 & W2 & W3) F IH]; [constructor|]. cbn [flat flat_map]. apply Forall_app. split; [|auto].
  unfold flatSeg. constructor; [apply mk_bound; auto|auto].
Qed.
Lemma buf_ok c ws : rep c ws -> Forall (fun w => w < 2 ^ 32) (buf c).
Proof.
  intros (pre & s & (H1 & _ & H3 & H4 & _) & _ & _). rewrite H1. apply Forall_app. split; [apply flat_ok; auto|].
  assert (F : Forall wfSeg [s]) by (constructor; auto). apply flat_ok in F. unfold flat in F. cbn [flat_map] in F.
  rewrite app_nil_r in F. auto.
Qed.

Lemma store_keys k c m : forall k', In k' (map fst (store k c m)) <-> k' = k \/ In k' (map fst m).
Proof.
  induction m as [|[k1 c1] m IH]; intros k'; cbn; [intuition|]. destruct (N.eqb_spec k k1) as [->|]; cbn; [intuition|].
  rewrite IH. intuition.
Qed.
Lemma store_nodup k c m : NoDup (map fst m) -> NoDup (map fst (store k c m)).
Proof.
  induction m as [|[k1 c1] m IH]; intros H; cbn; [constructor; [intros []|constructor]|].
  inversion H as [|? ? H1 H2]; subst. destruct (N.eqb_spec k k1) as [->|]; cbn; [auto|]. constructor; [|auto].
  rewrite store_keys. intros [|]; congruence.
Qed.
Definition keysOk (m : bitmap) : Prop := NoDup (map fst m) /\ Forall (fun k => k < 2 ^ 32) (map fst m).
Lemma addIds_keys order ids : Forall (fun k => k < 2 ^ 32) ids -> forall m m', keysOk m -> addIds order ids m = Done m' -> keysOk m'.
Proof.
  induction 1 as [|k ids Hk F IH]; intros m m' HK E; cbn [addIds] in E; [inversion E; subst; auto|].
  destruct (set order _) as [[b c]| |]; cbn [rbind] in E; try discriminate. apply (IH _ _) in E; auto.
  destruct HK as [K1 K2]. split; [apply store_nodup; auto|]. apply Forall_forall. intros x Hx. apply store_keys in Hx.
  rewrite Forall_forall in K2. destruct Hx as [->|]; auto.
Qed.
Lemma addDocs_keys getId : forall ds order m m', (forall d t, In d ds -> hasTerm d t -> getId t < 2 ^ 32) ->
  keysOk m -> addDocs getId order ds m = Done m' -> keysOk m'.
Proof.
  induction ds as [|d ds IH]; intros order m m' HG HK E; cbn [addDocs] in E; [inversion E; subst; auto|].
  unfold addDoc in E. destruct (addIds order (docIds getId d) m) as [m1| |] eqn:E1; cbn [rbind] in E; try discriminate.
  apply (IH _ _ _) in E; [exact E|intros; eapply HG; [right|]; eauto|]. refine (addIds_keys _ _ _ _ _ HK E1).
  apply Forall_forall. intros k Hk. apply docIds_hasTerm in Hk. destruct Hk as (t & -> & Ht). apply (HG d); [left|]; auto.
Qed.

Lemma find_in k c m : NoDup (map fst m) -> In (k, c) m -> find k m = Some c.
Proof.
  unfold find. induction m as [|[k1 c1] m IH]; intros H Hi; [destruct Hi|]. inversion H as [|? ? H1 H2]; subst. cbn.
  destruct Hi as [E|Hi]; [inversion E; subst; rewrite N.eqb_refl; auto|].
  destruct (N.eqb_spec k k1) as [->|]; [|auto]. exfalso. apply H1. apply in_map_iff. exists (k1, c). auto.
Qed.

Lemma fileable_inv P n m : InvP P n m -> keysOk m -> n <= 2 ^ 32 -> fileable m.
Proof.
  intros HI (K1 & K2) Hn. split; [auto|]. apply Forall_forall. intros [k c] Hi. cbn [fst snd].
  pose proof (HI k) as Hk. rewrite (find_in k c m K1 Hi) in Hk. destruct Hk as (ws & (R & L & _) & Hb & _).
  rewrite Forall_forall in K2. split; [apply K2; apply in_map_iff; exists (k, c); auto|]. split; [lia|]. split; [|eapply buf_ok; eauto].
  pose proof (buf_length c ws R) as Hl. assert ((bits c + 31) / 32 <= (2 ^ 32 + 31) / 32) by (apply N.div_le_mono; lia).
  change ((2 ^ 32 + 31) / 32) with 134217728 in H. lia.
Qed.

(** With at most 32 elements every bitmap has one marker and is read back unchanged. *)
Lemma reload_small P n m : InvP P n m -> NoDup (map fst m) -> n <= 32 -> reloadMap m = m.
Proof.
  intros HI K Hn. unfold reloadMap. rewrite <- (map_id m) at 2. apply map_ext_in. intros [k c] Hi. cbn [fst snd]. f_equal.
  pose proof (HI k) as Hk. rewrite (find_in k c m K Hi) in Hk. destruct Hk as (ws & (R & L & _) & Hb & _).
  assert (Hl : len ws <= 1). { rewrite L. change 1 with ((32 + 31) / 32). apply N.div_le_mono; lia. }
  destruct R as (pre & s & (H1 & H2 & _ & _ & H5) & HL & ->). destruct pre as [|x pre].
  - unfold reload. destruct c; cbn in *. rewrite H2. reflexivity.
  - exfalso. destruct HL as [HL|HL]; [discriminate|]. inversion H5 as [|? ? L1 _]; subst. revert Hl. unfold expand. cbn [flat_map].
    rewrite !len_app. unfold live, wordsOf in *. rewrite !len_app. unfold len in *. rewrite !fills_len. lia.
Qed.
Lemma reload_single m : Forall (fun kv => last (snd kv) = 0%nat) m -> reloadMap m = m.
Proof.
  induction 1 as [|[k [b n l]] m H F IH]; [reflexivity|]. cbn in *. subst l. f_equal. auto.
Qed.

Section Reload.
  Variable getId : bytes -> N.

  Lemma built ds : (forall d t, In d ds -> hasTerm d t -> getId t < 2 ^ 32) ->
    exists m, addDocs getId 0 ds [] = Done m /\ InvP (PD getId ds) (N.of_nat (length ds)) m /\ keysOk m.
  Proof.
    intros small. destruct (addDocs_spec getId ds [] [] (InvP_nil getId)) as (m & E & HI). exists m. split; [exact E|]. split; [exact HI|].
    eapply addDocs_keys; [exact small| |exact E]. split; constructor.
  Qed.
  Lemma built_nonempty ds m : InvP (PD getId ds) (N.of_nat (length ds)) m -> (exists d t, In d ds /\ hasTerm d t) -> m <> [].
  Proof.
    intros HI (d & t & Hd & Ht) ->. apply In_nth_error in Hd. destruct Hd as [j Hj].
    apply (HI (getId t) (N.of_nat j)). exists d. rewrite Nat2N.id. split; [auto|]. apply hasTerm_docIds; auto.
  Qed.

  Lemma reload_search ds junk : (forall d t, In d ds -> hasTerm d t -> getId t < 2 ^ 32) ->
    N.of_nat (length ds) <= 2 ^ 32 -> junk < 2 ^ 32 -> (exists d t, In d ds /\ hasTerm d t) ->
    exists m m', addDocs getId 0 ds [] = Done m /\ readMap junk (Some (writeMap m)) = Done m' /\
      forall q, searchTile getId q m' = searchTile getId q m.
  Proof.
    intros small Hn HJ Ht. destruct (built ds small) as (m & E & HI & K). exists m, (reloadMap m). split; [auto|]. split.
    - apply readMap_write; auto; [eapply fileable_inv; eauto|eapply built_nonempty; eauto].
    - intros q. apply searchIds_reload.
  Qed.

  Lemma reload_add ds1 ds2 q junk : injectiveOn getId (usedBy (ds1 ++ ds2) q) ->
    (forall d t, In d ds1 -> hasTerm d t -> getId t < 2 ^ 32) ->
    N.of_nat (length ds1) <= 32 -> junk < 2 ^ 32 -> (exists d t, In d ds1 /\ hasTerm d t) ->
    N.of_nat (length (ds1 ++ ds2)) <= 1048544 ->
    exists m m' m2 l, addDocs getId 0 ds1 [] = Done m /\ readMap junk (Some (writeMap m)) = Done m' /\
      addDocs getId (N.of_nat (length ds1)) ds2 m' = Done m2 /\ searchTile getId q m2 = Done l /\ answers (ds1 ++ ds2) q l.
  Proof.
    intros inj small Hn HJ Ht Ht2. destruct (built ds1 small) as (m & E & HI & K).
    assert (Er : reloadMap m = m) by (eapply reload_small; eauto; apply K).
    destruct (addDocs_spec getId ds2 ds1 m HI) as (m2 & E2 & HI2).
    destruct (search_of_inv getId (usedBy (ds1 ++ ds2) q) inj (ds1 ++ ds2) m2 q) as (l & El & A); auto; try lia.
    - intros d t Hd Htt. left. eauto.
    - intros t Htt. right. auto.
    - exists m, m, m2, l. split; [auto|]. split; [|auto]. rewrite <- Er at 2.
      apply readMap_write; auto; [eapply fileable_inv; eauto; lia|eapply built_nonempty; eauto].
  Qed.
End Reload.
