From Coq Require Import Sorted Permutation.
From Verif Require Import Base ElementModel GeoModel GeoSpec.
Open Scope Z_scope.

(** * Tile strings *)

Lemma keyDigits_length : forall k n, length (keyDigits k n) = n.
Proof. induction n; simpl; auto. Qed.

Lemma keyDigit_range : forall k i, (48 <= keyDigit k i <= 51)%N.
Proof.
  intros. unfold keyDigit. destruct (Z.testbit (tileX k) _), (Z.testbit (tileY k) _); lia.
Qed.

Lemma keyDigits_range : forall k n, Forall (fun d => (48 <= d <= 51)%N) (keyDigits k n).
Proof.
  induction n; cbn [keyDigits]; constructor; auto using keyDigit_range.
Qed.

Lemma keyDigit_bits : forall k k' i, keyDigit k i = keyDigit k' i ->
  Z.testbit (tileX k) (i - 1) = Z.testbit (tileX k') (i - 1) /\
  Z.testbit (tileY k) (i - 1) = Z.testbit (tileY k') (i - 1).
Proof.
  intros k k' i. unfold keyDigit.
  destruct (Z.testbit (tileX k) _), (Z.testbit (tileY k) _),
    (Z.testbit (tileX k') _), (Z.testbit (tileY k') _); intro; split; try reflexivity; lia.
Qed.

Lemma keyDigits_bits : forall k k' n, keyDigits k n = keyDigits k' n ->
  forall i, 0 <= i < Z.of_nat n ->
    Z.testbit (tileX k) i = Z.testbit (tileX k') i /\ Z.testbit (tileY k) i = Z.testbit (tileY k') i.
Proof.
  induction n; intros H i Hi; [lia|].
  change (keyDigit k (Z.of_nat (S n)) :: keyDigits k n = keyDigit k' (Z.of_nat (S n)) :: keyDigits k' n) in H.
  remember (Z.of_nat (S n)) as sn eqn:Esn. injection H as H1 H2. subst sn.
  destruct (Z.eq_dec i (Z.of_nat n)) as [->|]; [|apply IHn; auto; lia].
  apply keyDigit_bits in H1.
  replace (Z.of_nat (S n) - 1) with (Z.of_nat n) in H1 by lia. exact H1.
Qed.

Lemma small_bits : forall l x i, 0 <= l -> 0 <= x < 2 ^ l -> l <= i -> Z.testbit x i = false.
Proof.
  intros l x i Hl Hx Hi. destruct (Z.eq_dec x 0) as [->|]; [apply Z.testbit_0_l|].
  apply Z.bits_above_log2; [lia|].
  assert (Z.log2 x < l) by (apply Z.log2_lt_pow2; lia). lia.
Qed.

Lemma keyString_inj : forall k k' s,
  tile k -> tile k' -> keyString k = Ok s -> keyString k' = Ok s -> k = k'.
Proof.
  intros k k' s (Hl & Hx & Hy) (Hl' & Hx' & Hy') H H'. unfold keyString in *.
  destruct (lod k <=? 31), (lod k' <=? 31); try discriminate.
  destruct (lod k <? 0), (lod k' <? 0); try discriminate.
  injection H as H. injection H' as H'.
  assert (E : lod k = lod k').
  { apply (f_equal (@length N)) in H, H'. rewrite keyDigits_length in H, H'. lia. }
  rewrite <- H' in H. rewrite <- E in H.
  pose proof (keyDigits_bits _ _ _ H) as B.
  rewrite Z2Nat.id in B by lia.
  destruct k as [l x y], k' as [l' x' y']; cbn in *. subst l'.
  assert (forall i, 0 <= i -> Z.testbit x i = Z.testbit x' i /\ Z.testbit y i = Z.testbit y' i) as B'.
  { intros i Hi. destruct (Z_lt_ge_dec i l); [apply B; lia|].
    rewrite !(small_bits l) by lia. auto. }
  f_equal; apply Z.bits_inj'; intros; apply B'; auto.
Qed.

Lemma keyDigits_parent : forall k n,
  keyDigits k (S n) = keyDigits (parent k) n ++ [keyDigit k 1].
Proof.
  intros k n. induction n; [reflexivity|].
  change (keyDigits k (S (S n))) with (keyDigit k (Z.of_nat (S (S n))) :: keyDigits k (S n)).
  rewrite IHn. cbn [keyDigits app]. f_equal.
  unfold keyDigit, parent; cbn [tileX tileY].
  replace (Z.of_nat (S (S n)) - 1) with (Z.succ (Z.of_nat n)) by lia.
  replace (Z.of_nat (S n) - 1) with (Z.of_nat n) by lia.
  rewrite <- !Z.div2_div, !Z.div2_spec, !Z.shiftr_spec by lia.
  replace (Z.of_nat n + 1) with (Z.succ (Z.of_nat n)) by lia. reflexivity.
Qed.

Lemma keyDigit_quarter : forall k, keyDigit k 1 = quarter k.
Proof.
  intros. unfold keyDigit, quarter. change (1 - 1) with 0. rewrite !Z.bit0_odd, !Zmod_odd.
  destruct (Z.odd (tileX k)), (Z.odd (tileY k)); reflexivity.
Qed.

Lemma keyString_shape : forall k, tile k -> lod k <= 31 ->
  exists s, keyString k = Ok s /\ length s = Z.to_nat (lod k) /\
            Forall (fun d => (48 <= d <= 51)%N) s.
Proof.
  intros k (Hl & _) H31. exists (keyDigits k (Z.to_nat (lod k))).
  unfold keyString. destruct (Z.leb_spec (lod k) 31); [|lia]. destruct (Z.ltb_spec (lod k) 0); [lia|].
  auto using keyDigits_length, keyDigits_range.
Qed.

Lemma parent_tile : forall k, tile k -> 0 < lod k -> tile (parent k).
Proof.
  intros [l x y] (Hl & Hx & Hy) H. unfold tile, parent; cbn in *.
  replace l with (Z.succ (l - 1)) in Hx, Hy by lia. rewrite Z.pow_succ_r in Hx, Hy by lia.
  repeat split; try lia; try (apply Z.div_pos; lia); apply Z.div_lt_upper_bound; lia.
Qed.

Lemma keyString_parent : forall k s, tile k -> 0 < lod k -> keyString k = Ok s ->
  exists s', keyString (parent k) = Ok s' /\ s = s' ++ [quarter k].
Proof.
  intros k s (Hl & _) H E. unfold keyString in *.
  destruct (Z.leb_spec (lod k) 31); [|discriminate].
  destruct (Z.ltb_spec (lod k) 0); [lia|].
  cbn [parent lod]. destruct (Z.leb_spec (lod k - 1) 31); [|lia].
  destruct (Z.ltb_spec (lod k - 1) 0); [lia|].
  eexists; split; [reflexivity|]. injection E as <-.
  replace (Z.to_nat (lod k)) with (S (Z.to_nat (lod k - 1))) by lia.
  rewrite keyDigits_parent, keyDigit_quarter. reflexivity.
Qed.

(** * Comparator *)

Lemma keyLess_irrefl : forall k, keyLess k k = false.
Proof. intros. unfold keyLess. rewrite !Z.eqb_refl. apply Z.ltb_irrefl. Qed.

Lemma keyLess_trans : forall a b c, keyLess a b = true -> keyLess b c = true -> keyLess a c = true.
Proof.
  unfold keyLess. intros [l x y] [l' x' y'] [l'' x'' y'']; cbn.
  destruct (Z.eqb_spec l l'), (Z.eqb_spec l' l''), (Z.eqb_spec l l''),
    (Z.eqb_spec x x'), (Z.eqb_spec x' x''), (Z.eqb_spec x x''); lia.
Qed.

Lemma keyEqb_eq : forall a b, keyEqb a b = true <-> a = b.
Proof.
  intros [l x y] [l' x' y']. unfold keyEqb; cbn. rewrite !andb_true_iff, !Z.eqb_eq.
  split; [intros [[-> ->] ->]; reflexivity | intro E; injection E as -> -> ->; auto].
Qed.

Lemma keyLess_total : forall a b, a <> b -> keyLess a b = true \/ keyLess b a = true.
Proof.
  intros [l x y] [l' x' y'] H. unfold keyLess; cbn.
  destruct (Z.eqb_spec l l'), (Z.eqb_spec x x'), (Z.eqb_spec l' l), (Z.eqb_spec x' x); subst; try lia.
  destruct (Z.eq_dec y y'); [subst; contradiction | lia].
Qed.

Lemma keyEqb_less : forall a b,
  keyEqb a b = true <-> keyLess a b = false /\ keyLess b a = false.
Proof.
  intros a b. rewrite keyEqb_eq. split.
  - intros ->. rewrite keyLess_irrefl. auto.
  - intros [H1 H2]. destruct (keyEqb a b) eqn:E; [apply keyEqb_eq; auto|].
    destruct (keyLess_total a b); try congruence.
    intro. subst. assert (keyEqb b b = true) by (apply keyEqb_eq; auto). congruence.
Qed.

(** * Boxes *)

Ltac dcase :=
  repeat match goal with
    | d : dbl |- _ => destruct d as [|[]|?]
    end; cbn in *; try discriminate; try congruence; try tauto; try lia.

Lemma dleb_dle : forall a b, dleb a b = true <-> dle a b.
Proof. intros a b; dcase; intuition lia. Qed.

Lemma dle_refl : forall a, isNumber a -> dle a a.
Proof. unfold isNumber; intros a; dcase. Qed.
Lemma dle_trans : forall a b c, dle a b -> dle b c -> dle a c.
Proof. intros a b c; dcase. Qed.
Lemma dle_antisym : forall a b, dle a b -> dle b a -> a = b.
Proof. intros a b; dcase. intros; f_equal; lia. Qed.
Lemma dle_number : forall a b, dle a b -> isNumber a /\ isNumber b.
Proof. unfold isNumber; intros a b; dcase; intros; split; congruence. Qed.

Lemma min_le_l : forall a b, isNumber a -> dle (stdMin dord a b) a.
Proof.
  unfold isNumber, stdMin; intros a b; dcase.
  destruct (Z.ltb_spec m m0); cbn; lia.
Qed.
Lemma min_le_r : forall a b, isNumber a -> isNumber b -> dle (stdMin dord a b) b.
Proof.
  unfold isNumber, stdMin; intros a b; dcase.
  destruct (Z.ltb_spec m m0); cbn; lia.
Qed.
Lemma max_ge_l : forall a b, isNumber a -> dle a (stdMax dord a b).
Proof.
  unfold isNumber, stdMax; intros a b; dcase.
  destruct (Z.ltb_spec m0 m); cbn; lia.
Qed.
Lemma max_ge_r : forall a b, isNumber a -> isNumber b -> dle b (stdMax dord a b).
Proof.
  unfold isNumber, stdMax; intros a b; dcase.
  destruct (Z.ltb_spec m0 m); cbn; lia.
Qed.
Lemma min_glb : forall a b c, dle c a -> dle c b -> dle c (stdMin dord a b).
Proof. unfold stdMin; intros. destruct (ltb dord b a); auto. Qed.
Lemma max_lub : forall a b c, dle a c -> dle b c -> dle (stdMax dord a b) c.
Proof. unfold stdMax; intros. destruct (ltb dord a b); auto. Qed.
Lemma min_cases : forall a b : dbl, stdMin dord a b = a \/ stdMin dord a b = b.
Proof. unfold stdMin; intros. destruct (ltb dord b a); auto. Qed.
Lemma max_cases : forall a b : dbl, stdMax dord a b = a \/ stdMax dord a b = b.
Proof. unfold stdMax; intros. destruct (ltb dord a b); auto. Qed.
Lemma min_number : forall a b, isNumber a -> isNumber (stdMin dord a b).
Proof. unfold isNumber, stdMin. intros a b; dcase. destruct (m <? m0); congruence. Qed.
Lemma max_number : forall a b, isNumber a -> isNumber (stdMax dord a b).
Proof. unfold isNumber, stdMax. intros a b; dcase. destruct (m0 <? m); congruence. Qed.

Lemma min_swap : forall a b c, isNumber a ->
  stdMin dord (stdMin dord a b) c = stdMin dord (stdMin dord a c) b.
Proof.
  intros a b c Ha. unfold stdMin, isNumber in *.
  destruct a as [|[]|x], b as [|[]|y], c as [|[]|z]; cbn; try congruence; try reflexivity;
    repeat (match goal with |- context[?u <? ?v] => destruct (Z.ltb_spec u v) end; cbn);
    try reflexivity; try (f_equal; lia); try lia.
Qed.
Lemma max_swap : forall a b c, isNumber a ->
  stdMax dord (stdMax dord a b) c = stdMax dord (stdMax dord a c) b.
Proof.
  intros a b c Ha. unfold stdMax, isNumber in *.
  destruct a as [|[]|x], b as [|[]|y], c as [|[]|z]; cbn; try congruence; try reflexivity;
    repeat (match goal with |- context[?u <? ?v] => destruct (Z.ltb_spec u v) end; cbn);
    try reflexivity; try (f_equal; lia); try lia.
Qed.
Lemma min_twice : forall a b, stdMin dord (stdMin dord a b) b = stdMin dord a b.
Proof.
  intros. unfold stdMin. destruct (ltb dord b a) eqn:E; [|rewrite E; reflexivity].
  destruct (ltb dord b b); reflexivity.
Qed.
Lemma max_twice : forall a b, stdMax dord (stdMax dord a b) b = stdMax dord a b.
Proof.
  intros. unfold stdMax. destruct (ltb dord a b) eqn:E; [|rewrite E; reflexivity].
  destruct (ltb dord b b); reflexivity.
Qed.

Lemma expand_twice : forall b p, expand dord (expand dord b p) p = expand dord b p.
Proof. intros. unfold expand; cbn [bmin bmax plat plon]. rewrite !min_twice, !max_twice. reflexivity. Qed.

Lemma expand_number : forall b p, numberBox b -> numberBox (expand dord b p).
Proof.
  intros b p [[] []]. unfold expand. repeat split; cbn [bmin bmax plat plon];
    auto using min_number, max_number.
Qed.

Lemma expand_swap : forall b p q, numberBox b ->
  expand dord (expand dord b p) q = expand dord (expand dord b q) p.
Proof.
  intros b p q [[] []]. unfold expand; cbn [bmin bmax plat plon].
  f_equal; f_equal; auto using min_swap, max_swap.
Qed.

Lemma expandAll_perm : forall ps qs, Permutation ps qs -> forall b, numberBox b ->
  expandAll dord b ps = expandAll dord b qs.
Proof.
  induction 1; intros b Hb; unfold expandAll in *; cbn [fold_left]; auto.
  - apply IHPermutation. apply expand_number; auto.
  - rewrite expand_swap; auto.
  - rewrite IHPermutation1; auto.
Qed.

Lemma emptyBox_number : numberBox emptyBox.
Proof. repeat split; cbn; discriminate. Qed.

Lemma expandAll_number : forall ps b, numberBox b -> numberBox (expandAll dord b ps).
Proof.
  induction ps; intros; cbn; auto. apply IHps. apply expand_number; auto.
Qed.

(** [b] encloses [c]. *)
Definition encloses (b c : box dbl) : Prop :=
  dle (plat (bmin b)) (plat (bmin c)) /\ dle (plon (bmin b)) (plon (bmin c)) /\
  dle (plat (bmax c)) (plat (bmax b)) /\ dle (plon (bmax c)) (plon (bmax b)).

Lemma encloses_refl : forall b, numberBox b -> encloses b b.
Proof. intros b [[] []]; split; [|split; [|split]]; apply dle_refl; auto. Qed.

Lemma encloses_trans : forall a b c, encloses a b -> encloses b c -> encloses a c.
Proof. unfold encloses; intuition eauto using dle_trans. Qed.

Lemma expand_encloses : forall b p, numberBox b -> encloses (expand dord b p) b.
Proof.
  intros b p [[] []]. split; [|split; [|split]]; cbn [expand bmin bmax plat plon];
    auto using min_le_l, max_ge_l.
Qed.

Lemma expand_in : forall b p, numberBox b -> numberPoint p -> inBox (expand dord b p) p.
Proof.
  intros b p [[] []] []. split; [|split; [|split]]; cbn [expand bmin bmax plat plon];
    auto using min_le_r, max_ge_r.
Qed.

Lemma encloses_in : forall a b p, encloses a b -> inBox b p -> inBox a p.
Proof. unfold encloses, inBox; intuition eauto using dle_trans. Qed.

Lemma expandAll_encloses : forall ps b, numberBox b -> encloses (expandAll dord b ps) b.
Proof.
  induction ps; intros b Hb; [apply encloses_refl; auto|].
  change (expandAll dord b (a :: ps)) with (expandAll dord (expand dord b a) ps).
  eapply encloses_trans; [apply IHps; apply expand_number; auto | apply expand_encloses; auto].
Qed.

Lemma expandAll_in : forall ps b, numberBox b -> Forall numberPoint ps ->
  forall p, In p ps -> inBox (expandAll dord b ps) p.
Proof.
  induction ps; intros b Hb Hps p []; inversion Hps; subst;
    change (expandAll dord b (?a :: ps)) with (expandAll dord (expand dord b a) ps).
  - eapply encloses_in; [apply expandAll_encloses; apply expand_number; auto|].
    apply expand_in; auto.
  - apply IHps; auto. apply expand_number; auto.
Qed.

(** A bound is either the one of the initial box or the coordinate of a point. *)
Lemma expandAll_bounds : forall ps b,
  let r := expandAll dord b ps in
  (plat (bmin r) = plat (bmin b) \/ exists p, In p ps /\ plat p = plat (bmin r)) /\
  (plon (bmin r) = plon (bmin b) \/ exists p, In p ps /\ plon p = plon (bmin r)) /\
  (plat (bmax r) = plat (bmax b) \/ exists p, In p ps /\ plat p = plat (bmax r)) /\
  (plon (bmax r) = plon (bmax b) \/ exists p, In p ps /\ plon p = plon (bmax r)).
Proof.
  induction ps as [|a ps IH]; intros b; [cbn; auto|].
  change (expandAll dord b (a :: ps)) with (expandAll dord (expand dord b a) ps).
  destruct (IH (expand dord b a)) as (H1 & H2 & H3 & H4). cbn zeta.
  set (r := expandAll dord (expand dord b a) ps) in *. clearbody r.
  cbn [expand bmin bmax plat plon] in *.
  repeat split.
  - destruct H1 as [E|(p & ? & ?)]; [|right; exists p; cbn; auto].
    destruct (min_cases (plat (bmin b)) (plat a)) as [M|M]; rewrite M in E; auto.
    right; exists a; cbn; auto.
  - destruct H2 as [E|(p & ? & ?)]; [|right; exists p; cbn; auto].
    destruct (min_cases (plon (bmin b)) (plon a)) as [M|M]; rewrite M in E; auto.
    right; exists a; cbn; auto.
  - destruct H3 as [E|(p & ? & ?)]; [|right; exists p; cbn; auto].
    destruct (max_cases (plat (bmax b)) (plat a)) as [M|M]; rewrite M in E; auto.
    right; exists a; cbn; auto.
  - destruct H4 as [E|(p & ? & ?)]; [|right; exists p; cbn; auto].
    destruct (max_cases (plon (bmax b)) (plon a)) as [M|M]; rewrite M in E; auto.
    right; exists a; cbn; auto.
Qed.

Lemma onGlobe_number : forall p, onGlobe p -> numberPoint p.
Proof.
  intros p (H1 & _ & H2 & _). apply dle_number in H1, H2. split; tauto.
Qed.

Lemma smallest_box : forall ps, ps <> [] -> Forall onGlobe ps ->
  smallestBox (expandAll dord emptyBox ps) ps.
Proof.
  intros ps Hne Hg.
  assert (Hn : Forall numberPoint ps) by (eapply Forall_impl; [|exact Hg]; apply onGlobe_number).
  assert (Hin : forall p, In p ps -> inBox (expandAll dord emptyBox ps) p)
    by (apply expandAll_in; auto; apply emptyBox_number).
  destruct ps as [|q ps]; [congruence|].
  assert (Hq : inBox (expandAll dord emptyBox (q :: ps)) q) by (apply Hin; left; auto).
  destruct (expandAll_bounds (q :: ps) emptyBox) as (B1 & B2 & B3 & B4).
  assert (Gq : onGlobe q) by (inversion Hg; auto).
  destruct Hq as (I1 & I2 & I3 & I4). destruct Gq as (G1 & G2 & G3 & G4).
  split; [exact Hin|].
  split; [|split; [|split]].
  - destruct B1 as [E|]; auto. exists q. split; [left; auto|].
    apply dle_antisym; auto. rewrite E. exact G2.
  - destruct B2 as [E|]; auto. exists q. split; [left; auto|].
    apply dle_antisym; auto. rewrite E. exact G4.
  - destruct B3 as [E|]; auto. exists q. split; [left; auto|].
    apply dle_antisym; auto. rewrite E. exact G1.
  - destruct B4 as [E|]; auto. exists q. split; [left; auto|].
    apply dle_antisym; auto. rewrite E. exact G3.
Qed.

(** * Elements *)

Lemma expandAll_app : forall b ps qs,
  expandAll dord b (ps ++ qs) = expandAll dord (expandAll dord b ps) qs.
Proof. intros. apply fold_left_app. Qed.

Fixpoint element_size (e : element) : nat :=
  match e with
  | Relation _ _ es => S (fold_right (fun m n => element_size m + n)%nat O es)
  | _ => O
  end.

Lemma geometryVisit_coords : forall e b,
  geometryVisit b e = expandAll dord b (map pointOf (coordsOf e)).
Proof.
  fix IH 1. intros [i t c|i t cs|i t cs|i t es] b; try reflexivity.
  cbn [geometryVisit coordsOf]. revert b.
  induction es as [|m es IHes]; intros b; cbn [fold_left flat_map map]; [reflexivity|].
  rewrite map_app, expandAll_app, <- IH. apply IHes.
Qed.

(** * Intersection *)

Lemma interval_meet : forall lo hi lo' hi',
  isNumber lo -> isNumber hi -> isNumber lo' -> isNumber hi' ->
  dleb (stdMax dord lo' lo) (stdMin dord hi' hi) = true <->
  exists x, dle lo x /\ dle x hi /\ dle lo' x /\ dle x hi'.
Proof.
  intros lo hi lo' hi' H1 H2 H3 H4. rewrite dleb_dle. split.
  - intro H. exists (stdMax dord lo' lo).
    split; [apply max_ge_r; auto|]. split; [eapply dle_trans; [exact H|apply min_le_r; auto]|].
    split; [apply max_ge_l; auto|eapply dle_trans; [exact H|apply min_le_l; auto]].
  - intros (x & A & B & C & D). eapply dle_trans; [apply max_lub|apply min_glb]; eauto.
Qed.

Lemma intersects_meet : forall b c, numberBox b -> numberBox c ->
  intersects dord b c = true <-> meet b c.
Proof.
  intros b c [[] []] [[] []]. unfold intersects, meet, inBox. rewrite andb_true_iff.
  change (leb dord) with dleb.
  rewrite !interval_meet by assumption. split.
  - intros [(x & ?) (y & ?)]. exists (mkPoint x y). cbn. tauto.
  - intros ([x y] & ? & ?). cbn in *. split; [exists x|exists y]; tauto.
Qed.

Lemma intersects_sym : forall b c, numberBox b -> numberBox c ->
  intersects dord b c = intersects dord c b.
Proof.
  intros b c Hb Hc. apply eq_true_iff_eq. rewrite !intersects_meet by assumption.
  unfold meet. split; intros (p & ?); exists p; tauto.
Qed.

Lemma isValid_number : forall b, isValid dord b = true -> numberBox b.
Proof.
  intros b H. unfold isValid in H. apply andb_true_iff in H. destruct H as [H1 H2].
  apply dleb_dle in H1, H2. apply dle_number in H1, H2. repeat split; tauto.
Qed.

(** * Ranges *)

Lemma in_interval : forall a b x, In x (interval a b) <-> a <= x <= b.
Proof.
  intros a b x. unfold interval. rewrite in_map_iff. split.
  - intros (i & <- & H). apply in_seq in H. lia.
  - intro H. exists (Z.to_nat (x - a)). split; [lia|]. apply in_seq. lia.
Qed.

Lemma interval_cons : forall a b, a <= b -> interval a b = a :: interval (a + 1) b.
Proof.
  intros a b H. unfold interval. replace (Z.to_nat (b - a + 1)) with (S (Z.to_nat (b - (a + 1) + 1))) by lia.
  cbn [seq map]. f_equal; [lia|]. rewrite <- seq_shift, map_map. apply map_ext. intros; lia.
Qed.

Lemma interval_nil : forall a b, b < a -> interval a b = [].
Proof. intros a b H. unfold interval. replace (Z.to_nat (b - a + 1)) with O by lia. reflexivity. Qed.

Lemma interval_sorted : forall a b, StronglySorted Z.lt (interval a b).
Proof.
  intros a b. unfold interval. generalize (Z.to_nat (b - a + 1)) as n. intro n.
  enough (forall s, StronglySorted Z.lt (map (fun i => a + Z.of_nat i) (seq s n))) by auto.
  induction n; intros s; cbn [seq map]; constructor; auto.
  apply Forall_forall. intros x Hx. apply in_map_iff in Hx. destruct Hx as (i & <- & Hi).
  apply in_seq in Hi. lia.
Qed.

Lemma newRange_spec : forall s e,
  newRange s e = if ((1 <=? s) && (s <=? 19) && (1 <=? e) && (e <=? 19))%bool
                 then Ok (mkRange s e) else Throw DomainError.
Proof.
  intros. unfold newRange, MinLod, MaxLod.
  destruct (Z.leb_spec 1 s), (Z.leb_spec s 19), (Z.leb_spec 1 e), (Z.leb_spec e 19),
    (Z.ltb_spec s 1), (Z.gtb_spec s 19), (Z.ltb_spec e 1), (Z.gtb_spec e 19); cbn; try reflexivity; lia.
Qed.

(** * visitTileRange *)

Lemma rowBefore_irrefl : forall k, ~ rowBefore k k.
Proof. intros k [H|[_ H]]; lia. Qed.

Section Tiles.
  Context {A : Type} (o : ord A).
  Variable tileOf : point A -> Z -> quadKey.
  Variable tileBox : quadKey -> box A.

  Lemma in_visit : forall b l k kb,
    In (k, kb) (visitTileRange o tileOf tileBox b l) <->
    isValid o b = true /\ kb = tileBox k /\ lod k = l /\
    tileX (tileOf (bmin b) l) <= tileX k <= tileX (tileOf (bmax b) l) /\
    tileY (tileOf (bmax b) l) <= tileY k <= tileY (tileOf (bmin b) l) /\
    intersects o b (tileBox k) = true.
  Proof.
    intros b l k kb. unfold visitTileRange. destruct (isValid o b); [|split; [intros []|intros []; discriminate]].
    rewrite in_flat_map. split.
    - intros (y & Hy & H). apply in_flat_map in H. destruct H as (x & Hx & H).
      apply in_interval in Hx, Hy.
      destruct (intersects o b _) eqn:E; [|destruct H].
      destruct H as [H|[]]. injection H as <- <-. cbn. repeat split; auto; lia.
    - intros (_ & -> & <- & Hx & Hy & E). exists (tileY k). split; [apply in_interval; auto|].
      apply in_flat_map. exists (tileX k). split; [apply in_interval; auto|].
      destruct k as [l x y]; cbn [lod tileX tileY] in *. rewrite E. left; reflexivity.
  Qed.

  Lemma sorted_app : forall (l1 l2 : list quadKey),
    StronglySorted rowBefore l1 -> StronglySorted rowBefore l2 ->
    (forall a b, In a l1 -> In b l2 -> rowBefore a b) -> StronglySorted rowBefore (l1 ++ l2).
  Proof using.
    induction l1; intros l2 H1 H2 H; cbn; auto. inversion H1; subst. constructor.
    - apply IHl1; auto. intros; apply H; auto. right; auto.
    - apply Forall_app. split; auto. apply Forall_forall. intros; apply H; auto. left; auto.
  Qed.

  Lemma visit_sorted : forall b l,
    StronglySorted rowBefore (map fst (visitTileRange o tileOf tileBox b l)).
  Proof.
    intros b l. unfold visitTileRange. destruct (isValid o b); [|constructor].
    set (xs := interval (tileX _) _). set (ys := interval (tileY _) _).
    assert (Hxs : StronglySorted Z.lt xs) by apply interval_sorted.
    assert (Hys : StronglySorted Z.lt ys) by apply interval_sorted.
    clearbody xs ys.
    set (row := fun y => flat_map _ xs).
    assert (Hrow : forall y k, In k (map fst (row y)) -> tileY k = y /\ In (tileX k) xs).
    { intros y k Hk. apply in_map_iff in Hk. destruct Hk as ([k' kb] & <- & Hk).
      apply in_flat_map in Hk. destruct Hk as (x & Hx & Hk).
      cbn zeta in Hk. destruct (intersects o b _); [|destruct Hk]. destruct Hk as [Hk|[]].
      injection Hk as <- <-. cbn. auto. }
    assert (Hs : forall y, StronglySorted rowBefore (map fst (row y))).
    { intro y. subst row. cbn beta. clear Hrow. induction Hxs as [|x xs Hxs IH Hall]; [constructor|].
      cbn [flat_map]. rewrite map_app. apply sorted_app; auto.
      - destruct (intersects o b _); cbn; repeat constructor.
      - intros a c Ha Hc. destruct (intersects o b _); [|destruct Ha].
        destruct Ha as [<-|[]]. apply in_map_iff in Hc. destruct Hc as ([k kb] & <- & Hc).
        apply in_flat_map in Hc. destruct Hc as (x' & Hx' & Hc). cbn zeta in Hc.
        destruct (intersects o b _); [|destruct Hc]. destruct Hc as [Hc|[]].
        injection Hc as <- <-. right. cbn. rewrite Forall_forall in Hall. auto. }
    clearbody row. induction Hys as [|y ys Hys IH Hall]; [constructor|].
    cbn [flat_map]. rewrite map_app. apply sorted_app; auto.
    intros a c Ha Hc. apply Hrow in Ha. left.
    apply in_map_iff in Hc. destruct Hc as ([k kb] & <- & Hc).
    apply in_flat_map in Hc. destruct Hc as (y' & Hy' & Hc).
    assert (tileY k = y') by (apply Hrow; apply (in_map fst) in Hc; exact Hc).
    rewrite Forall_forall in Hall. cbn. destruct Ha as [-> _]. subst. auto.
  Qed.

  Lemma visit_nodup : forall b l, NoDup (map fst (visitTileRange o tileOf tileBox b l)).
  Proof.
    intros b l. assert (H := visit_sorted b l).
    induction H as [|k ks H IH Hall]; constructor; auto.
    intro Hin. rewrite Forall_forall in Hall. apply (rowBefore_irrefl k). auto.
  Qed.
End Tiles.

Lemma in_visit_dbl : forall tileOf tileBox, (forall k, numberBox (tileBox k)) ->
  forall b l k,
    In k (map fst (visitTileRange dord tileOf tileBox b l)) <->
    isValid dord b = true /\ lod k = l /\
    tileX (tileOf (bmin b) l) <= tileX k <= tileX (tileOf (bmax b) l) /\
    tileY (tileOf (bmax b) l) <= tileY k <= tileY (tileOf (bmin b) l) /\
    meet b (tileBox k).
Proof.
  intros tileOf tileBox Hn b l k. rewrite in_map_iff. split.
  - intros ([k' kb] & <- & H). apply in_visit in H. destruct H as (V & _ & L & X & Y & I).
    cbn [fst]. split; auto. split; auto. split; auto. split; auto.
    apply intersects_meet in I; auto using isValid_number.
  - intros (V & L & X & Y & M). exists (k, tileBox k). split; [reflexivity|].
    apply in_visit. split; auto. split; auto. split; auto. split; auto. split; auto.
    apply intersects_meet; auto using isValid_number.
Qed.
