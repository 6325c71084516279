(** From words to sets of positions. *)
From Verif Require Import Base EwahModel EwahMarker EwahRep EwahIter EwahLogic EwahSet EwahEnum EwahSpec.
From Coq Require Import NArith Sorted.
Local Open Scope N_scope.

Lemma addAll_spec l : forall c ws, SInv c ws ->
  exists c' ws', addAll l c = Done c' /\ SInv c' ws' /\
    (bits c <= bits c') /\
    (forall q, In q l -> q < bits c') /\
    (forall n, bits c <= n -> Forall (fun p => p < n) l -> bits c' <= n) /\
    (forall p, bitAt ws' p = true <-> bitAt ws p = true \/ (bits c <= p /\ accepted l p)).
Proof.
  induction l as [|i l IH]; intros c ws HS; cbn [addAll].
  - exists c, ws. split; [reflexivity|]. split; [auto|]. split; [lia|]. split; [intros q []|]. split; [auto|].
    intros p. split; [auto|]. intros [|[_ (l1 & l2 & E & _)]]; [auto|]. destruct l1; discriminate.
  - destruct (set_spec i c ws HS) as [S1 S2]. destruct (N.lt_ge_cases i (bits c)) as [L|L].
    + rewrite (S1 L). cbn [rbind]. destruct (IH c ws HS) as (c' & ws' & E & K1 & K2 & K3 & K4 & K5).
      exists c', ws'. split; [exact E|]. split; [auto|]. split; [auto|]. split; [intros q [<-|Hq]; [lia|auto]|].
      split; [intros n Hn F; inversion F; auto|].
      intros p. rewrite K5. split; intros [|[Hb (l1 & l2 & El & F)]]; auto; right; (split; [auto|]).
      * exists (i :: l1), l2. subst l. split; [reflexivity|]. constructor; [lia|auto].
      * destruct l1 as [|x l1]; inversion El; subst; [lia|]. exists l1, l2. inversion F; auto.
    + destruct (S2 L) as (c1 & ws1 & E1 & HS1 & B1 & P1). rewrite E1. cbn [rbind].
      destruct (IH c1 ws1 HS1) as (c' & ws' & E & K1 & K2 & K3 & K4 & K5).
      exists c', ws'. split; [exact E|]. split; [auto|]. split; [lia|]. split; [intros q [<-|Hq]; [lia|auto]|].
      split; [intros n Hn F; inversion F; subst; apply K4; auto; lia|].
      intros p. rewrite K5, P1, orb_true_iff, N.eqb_eq. split.
      * intros [[H|H]|[Hb (l1 & l2 & El & F)]]; [auto|right; split; [lia|]|right; split; [lia|]].
        -- subst p. exists [], l. auto.
        -- exists (i :: l1), l2. subst l. split; [reflexivity|]. constructor; [lia|auto].
      * intros [H|[Hb (l1 & l2 & El & F)]]; [auto|]. destruct l1 as [|x l1]; inversion El; subst; [auto|].
        inversion F; subst. right. split; [lia|]. exists l1, l2. auto.
Qed.

(** What evaluation keeps: the words and their number. *)
Definition EInv (c : ewah) (ws : list N) : Prop := rep c ws /\ len ws <= (bits c + 31) / 32.

Lemma SInv_EInv c ws : SInv c ws -> EInv c ws.
Proof. intros (H1 & H2 & _). split; [auto|lia]. Qed.

Lemma max_words a b (x y : list N) : len x <= (a + 31) / 32 -> len y <= (b + 31) / 32 ->
  N.max (len x) (len y) <= (N.max a b + 31) / 32.
Proof.
  intros H1 H2. assert ((a + 31) / 32 <= (N.max a b + 31) / 32) by (apply N.div_le_mono; lia).
  assert ((b + 31) / 32 <= (N.max a b + 31) / 32) by (apply N.div_le_mono; lia). lia.
Qed.

Lemma or_facts a b A B : EInv a A -> EInv b B ->
  exists c C, logicalor a b = Done c /\ EInv c C /\ bits c = N.max (bits a) (bits b) /\
    forall p, bitAt C p = true <-> bitAt A p = true \/ bitAt B p = true.
Proof.
  intros (Ha & La) (Hb & Lb). destruct (or_spec b a B A Hb Ha) as (c & C & E & R & L & Bt & P).
  exists c, C. split; [exact E|]. split; [split; [auto|]|split; [lia|]].
  - rewrite Bt, N.max_comm. pose proof (max_words _ _ _ _ La Lb). unfold len in *. lia.
  - intros p. unfold bitAt. rewrite P, N.lor_spec, orb_true_iff. tauto.
Qed.

Lemma and_facts a b A B : EInv a A -> EInv b B ->
  exists c C, logicaland a b = Done c /\ EInv c C /\ bits c = N.max (bits a) (bits b) /\
    forall p, bitAt C p = true <-> bitAt A p = true /\ bitAt B p = true.
Proof.
  intros (Ha & La) (Hb & Lb). destruct (and_spec b a B A Hb Ha) as (c & C & E & R & L & Bt & P).
  exists c, C. split; [exact E|]. split; [split; [auto|]|split; [lia|]].
  - rewrite Bt, N.max_comm. pose proof (max_words _ _ _ _ La Lb). unfold len in *. lia.
  - intros p. unfold bitAt. rewrite P, N.land_spec, andb_true_iff. tauto.
Qed.

Lemma words_small n w : n <= 1048544 -> w <= (n + 31) / 32 -> w <= 32767.
Proof.
  intros H1 H2. assert ((n + 31) / 32 <= (1048544 + 31) / 32) by (apply N.div_le_mono; lia).
  change ((1048544 + 31) / 32) with 32767 in H. lia.
Qed.

Lemma xor_facts a b A B : EInv a A -> EInv b B -> bits a <= 1048544 -> bits b <= 1048544 ->
  exists c C, logicalxor a b = Done c /\ EInv c C /\ bits c = N.max (bits a) (bits b) /\
    forall p, bitAt C p = xorb (bitAt A p) (bitAt B p).
Proof.
  intros (Ha & La) (Hb & Lb) Sa Sb.
  destruct (xor_spec b a B A Hb Ha) as (c & C & E & R & L & Bt & P);
    [exact (words_small _ _ Sb Lb)|exact (words_small _ _ Sa La)|].
  exists c, C. split; [exact E|]. split; [split; [auto|]|split; [lia|]].
  - rewrite Bt, N.max_comm. pose proof (max_words _ _ _ _ La Lb). unfold len in *. lia.
  - intros p. unfold bitAt. rewrite P, N.lxor_spec, xorb_comm. reflexivity.
Qed.

Lemma eval_spec e : xorBelow 1048544 e ->
  exists c ws, eval e = Done c /\ EInv c ws /\ (forall n, below n e -> bits c <= n) /\
    forall p, bitAt ws p = true <-> member e p.
Proof.
  induction e as [l|x IHx y IHy|x IHx y IHy|x IHx y IHy]; intros HX; cbn [eval member].
  - destruct (addAll_spec l empty [] SInv_empty) as (c & ws & E & HS & _ & _ & Hb & Hp).
    exists c, ws. split; [exact E|]. split; [apply SInv_EInv; auto|]. split; [intros n Hn; apply Hb; auto; cbn; lia|].
    intros p. rewrite Hp. split; [intros [H|H]; [|tauto]|intros; right; split; [cbn; lia|auto]].
    exfalso. unfold bitAt in H. destruct (N.to_nat (p / 32)); discriminate.
  - destruct HX as [HX HY]. destruct (IHx HX) as (a & A & Ea & Ia & Ba & Pa). destruct (IHy HY) as (b & B & Eb & Ib & Bb & Pb).
    rewrite Ea, Eb. cbn [rbind]. destruct (or_facts a b A B Ia Ib) as (c & C & E & I & Bc & P).
    exists c, C. split; [exact E|]. split; [auto|]. split; [intros n [H1 H2]; specialize (Ba n H1); specialize (Bb n H2); lia|].
    intros p. rewrite P, Pa, Pb. tauto.
  - destruct HX as [HX HY]. destruct (IHx HX) as (a & A & Ea & Ia & Ba & Pa). destruct (IHy HY) as (b & B & Eb & Ib & Bb & Pb).
    rewrite Ea, Eb. cbn [rbind]. destruct (and_facts a b A B Ia Ib) as (c & C & E & I & Bc & P).
    exists c, C. split; [exact E|]. split; [auto|]. split; [intros n [H1 H2]; specialize (Ba n H1); specialize (Bb n H2); lia|].
    intros p. rewrite P, Pa, Pb. tauto.
  - destruct HX as (HX & HY & H1 & H2). destruct (IHx HX) as (a & A & Ea & Ia & Ba & Pa). destruct (IHy HY) as (b & B & Eb & Ib & Bb & Pb).
    rewrite Ea, Eb. cbn [rbind]. destruct (xor_facts a b A B Ia Ib (Ba _ H1) (Bb _ H2)) as (c & C & E & I & Bc & P).
    exists c, C. split; [exact E|]. split; [auto|]. split; [intros n [G1 G2]; specialize (Ba n G1); specialize (Bb n G2); lia|].
    intros p. rewrite P, <- Pa, <- Pb. destruct (bitAt A p), (bitAt B p); cbn; intuition congruence.
Qed.

Lemma eval_enumerates e : xorBelow 1048544 e -> exists c, eval e = Done c /\ enumerates c (member e).
Proof.
  intros H. destruct (eval_spec e H) as (c & ws & E & (R & _) & _ & P). exists c. split; [exact E|].
  destruct (enumerate_spec c ws R) as (l & El & Sl & Pl). exists l. split; [auto|]. split; [auto|].
  intros p. rewrite Pl. apply P.
Qed.

(** Increasing positions are all accepted. *)
Lemma accepted_sorted l : StronglySorted N.lt l -> forall p, accepted l p <-> In p l.
Proof.
  intros S p. split.
  - intros (l1 & l2 & -> & _). apply in_or_app. right; left; auto.
  - intros H. apply in_split in H. destruct H as (l1 & l2 & ->). exists l1, l2. split; [reflexivity|].
    apply Forall_forall. intros q Hq. clear -S Hq. induction l1 as [|x l1 IH]; [destruct Hq|].
    cbn in S. inversion S; subst. destruct Hq as [->|Hq]; [|auto].
    rewrite Forall_forall in H2. apply H2. apply in_or_app. right; left; auto.
Qed.

Lemma sorted_unique : forall l1 l2, StronglySorted N.lt l1 -> StronglySorted N.lt l2 ->
  (forall p, In p l1 <-> In p l2) -> l1 = l2.
Proof.
  induction l1 as [|x l1 IH]; intros l2 S1 S2 H.
  - destruct l2 as [|y l2]; [reflexivity|]. exfalso. apply (H y). left; auto.
  - destruct l2 as [|y l2]; [exfalso; apply (H x); left; auto|].
    inversion S1 as [|? ? S1' F1]; inversion S2 as [|? ? S2' F2]; subst. rewrite Forall_forall in F1, F2.
    assert (x = y).
    { destruct (proj1 (H x) (or_introl eq_refl)) as [|Hx]; [auto|].
      destruct (proj2 (H y) (or_introl eq_refl)) as [|Hy]; [auto|].
      specialize (F2 _ Hx). specialize (F1 _ Hy). lia. }
    subst y. f_equal. apply IH; auto. intros p. split; intros Hp.
    + destruct (proj1 (H p) (or_intror Hp)) as [<-|]; [|auto]. specialize (F1 _ Hp). lia.
    + destruct (proj2 (H p) (or_intror Hp)) as [<-|]; [|auto]. specialize (F2 _ Hp). lia.
Qed.

Lemma build_enumerates l : StronglySorted N.lt l -> exists c, build l = Done c /\ enumerate c = Done l.
Proof.
  intros S. destruct (eval_enumerates (Build l) I) as (c & E & l' & El & Sl & P).
  exists c. split; [exact E|]. rewrite El. f_equal. apply sorted_unique; auto.
  intros p. rewrite P. cbn [member]. apply accepted_sorted; auto.
Qed.

Lemma set_refused l c i q : build l = Done c -> In q l -> i <= q -> set i c = Done (false, c).
Proof.
  intros E Hq Hi. destruct (addAll_spec l empty [] SInv_empty) as (c' & ws & E' & HS & _ & Hm & _).
  unfold build in E. rewrite E in E'. inversion E'; subst c'. apply (set_spec i c ws HS). specialize (Hm q Hq). lia.
Qed.

Lemma set_accepted l c i : build l = Done c -> Forall (fun q => q < i) l ->
  exists c', set i c = Done (true, c') /\ build (l ++ [i]) = Done c'.
Proof.
  intros E Hi. destruct (addAll_spec l empty [] SInv_empty) as (c' & ws & E' & HS & _ & _ & Hm & _).
  unfold build in E. rewrite E in E'. inversion E'; subst c'.
  destruct (set_spec i c ws HS) as [_ S2]. destruct S2 as (c2 & ws2 & E2 & _); [apply Hm; [cbn; lia|auto]|].
  exists c2. split; [exact E2|]. unfold build.
  assert (G : forall l c0, addAll (l ++ [i]) c0 = rbind (addAll l c0) (fun c => rbind (set i c) (fun '(_, c) => Done c))).
  { clear. induction l as [|x l IH]; intros c0; cbn [app addAll]; [reflexivity|].
    destruct (set x c0) as [[b c1]| |]; cbn [rbind]; auto. }
  rewrite G, E. cbn [rbind]. rewrite E2. reflexivity.
Qed.

(** The wrong xor: literal words beyond the 32767th are not negated. *)
Definition every32 (n : nat) : list N := map (fun k => 32 * N.of_nat k) (seq 0 n).

Lemma addAll_app l1 l2 c : addAll (l1 ++ l2) c = rbind (addAll l1 c) (addAll l2).
Proof.
  revert c. induction l1 as [|x l IH]; intros c; cbn [app addAll]; [reflexivity|].
  destruct (set x c) as [[b c1]| |]; cbn [rbind]; auto.
Qed.

Lemma build_every32 n : N.of_nat (S n) <= 32767 ->
  build (every32 (S n)) = Done (mkEwah (mk false 0 (N.of_nat (S n)) :: repeat 1 (S n)) (32 * N.of_nat n + 1) 0).
Proof.
  induction n as [|n IH]; intros H; [vm_compute; reflexivity|].
  unfold build, every32. rewrite seq_S, map_app, addAll_app. cbn [Nat.add map].
  unfold build, every32 in IH. rewrite IH by lia. cbn [rbind addAll]. unfold set. cbn [bits last buf length].
  rewrite (proj2 (N.ltb_ge _ _)) by lia. cbn [Nat.ltb Nat.leb negb].
  replace ((32 * N.of_nat (S n) + 32) / 32) with (N.of_nat n + 2).
  2:{ replace (32 * N.of_nat (S n) + 32) with ((N.of_nat n + 2) * 32) by lia. symmetry; apply N.div_mul; lia. }
  replace ((32 * N.of_nat n + 1 + 31) / 32) with (N.of_nat n + 1).
  2:{ replace (32 * N.of_nat n + 1 + 31) with ((N.of_nat n + 1) * 32) by lia. symmetry; apply N.div_mul; lia. }
  replace (N.of_nat n + 2 - (N.of_nat n + 1)) with 1 by lia. cbn [N.ltb N.compare Pos.compare Pos.compare_cont].
  replace (32 * N.of_nat (S n) mod 32) with 0 by (rewrite N.mul_comm, N.mod_mul by lia; reflexivity).
  unfold addLiteralWord, lastMarker, setBits. cbn [buf last nth]. rewrite litCount_mk by lia.
  unfold maxLit. rewrite (proj2 (N.leb_gt _ _)) by lia. cbn [rbind]. f_equal.
  unfold push, updLast. cbn [buf bits last upd]. rewrite setLitCount_mk by lia. change (N.shiftl 1 0) with 1.
  f_equal. cbn [app]. f_equal; [f_equal; lia|]. rewrite <- repeat_cons. reflexivity.
Qed.

(** Consecutive positions make a run of ones. *)
Lemma build_prefix n j : N.of_nat n < 65535 -> (1 <= j <= 31)%nat ->
  build (upto (32 * n)) = Done (mkEwah [mk true (N.of_nat n) 0] (32 * N.of_nat n) 0) ->
  build (upto (32 * n + j)) = Done (mkEwah [mk true (N.of_nat n) 1; N.ones (N.of_nat j)] (32 * N.of_nat n + N.of_nat j) 0).
Proof.
  intros Hn Hj H0. unfold build, upto in *. induction j as [|j IH]; [lia|].
  rewrite Nat.add_succ_r, seq_S, map_app, addAll_app. cbn [Nat.add map].
  destruct (Nat.eq_dec j 0) as [->|Hj0].
  - rewrite Nat.add_0_r, H0. cbn [rbind addAll]. unfold set. cbn [bits last buf length].
    rewrite (proj2 (N.ltb_ge _ _)) by lia. cbn [Nat.ltb Nat.leb negb].
    replace ((N.of_nat (32 * n) + 32) / 32) with (N.of_nat n + 1).
    2:{ replace (N.of_nat (32 * n) + 32) with ((N.of_nat n + 1) * 32) by lia. symmetry; apply N.div_mul; lia. }
    replace ((32 * N.of_nat n + 31) / 32) with (N.of_nat n).
    2:{ apply N.div_unique with 31; lia. }
    replace (N.of_nat n + 1 - N.of_nat n) with 1 by lia. cbn [N.ltb N.compare Pos.compare Pos.compare_cont].
    replace (N.of_nat (32 * n) mod 32) with 0.
    2:{ replace (N.of_nat (32 * n)) with (N.of_nat n * 32) by lia. symmetry; apply N.mod_mul; lia. }
    unfold addLiteralWord, lastMarker, setBits. cbn [buf last nth]. rewrite litCount_mk by lia.
    unfold maxLit. cbn [N.leb N.compare rbind]. f_equal.
    unfold push, updLast. cbn [buf bits last upd app]. rewrite setLitCount_mk by lia. f_equal. lia.
  - rewrite IH by lia. cbn [rbind addAll]. unfold set. cbn [bits last buf length].
    rewrite (proj2 (N.ltb_ge _ _)) by lia. cbn [Nat.ltb Nat.leb negb].
    replace ((N.of_nat (32 * n + j) + 32) / 32) with (N.of_nat n + 1) by (apply N.div_unique with (N.of_nat j); lia).
    replace ((32 * N.of_nat n + N.of_nat j + 31) / 32) with (N.of_nat n + 1) by (apply N.div_unique with (N.of_nat j - 1); lia).
    rewrite N.sub_diag. cbn [N.ltb N.compare]. unfold lastMarker, setBits. cbn [buf last nth bits].
    rewrite litCount_mk by lia. cbn [N.eqb Pos.eqb]. cbn [List.last removelast app].
    replace (N.of_nat (32 * n + j) mod 32) with (N.of_nat j) by (apply N.mod_unique with (N.of_nat n); lia).
    assert (E : N.lor (N.ones (N.of_nat j)) (N.shiftl 1 (N.of_nat j)) = N.ones (N.of_nat (S j))).
    { apply N.bits_inj. intros b. rewrite N.lor_spec, N.shiftl_1_l.
      destruct (N.lt_trichotomy b (N.of_nat j)) as [G|[->|G]].
      - rewrite (N.ones_spec_low (N.of_nat j)), (N.ones_spec_low (N.of_nat (S j))) by lia. reflexivity.
      - rewrite N.pow2_bits_true, orb_true_r, N.ones_spec_low by lia. reflexivity.
      - rewrite !N.ones_spec_high by lia. rewrite N.pow2_bits_false by lia. reflexivity. }
    rewrite E. replace (N.ones (N.of_nat (S j)) =? ones) with false.
    2:{ symmetry. apply N.eqb_neq. change ones with (N.ones 32). intros E2.
        assert (G : N.testbit (N.ones (N.of_nat (S j))) 31 = N.testbit (N.ones 32) 31) by (rewrite E2; reflexivity).
        rewrite N.ones_spec_high, N.ones_spec_low in G by lia. discriminate. }
    cbn [rbind]. f_equal. f_equal. lia.
Qed.

Lemma build_run n : N.of_nat n <= 65535 ->
  build (upto (32 * n)) = Done (mkEwah [mk true (N.of_nat n) 0] (32 * N.of_nat n) 0) \/ n = O.
Proof.
  induction n as [|n IH]; intros H; [right; reflexivity|]. left.
  assert (H31 : (build (upto (32 * n + 31)) = Done (mkEwah [mk true (N.of_nat n) 1; N.ones 31] (32 * N.of_nat n + 31) 0) /\ n <> O) \/ n = O).
  { destruct IH as [IH|IH]; [lia| |auto]. destruct n as [|n]; [auto|]. left. split; [|discriminate].
    rewrite (build_prefix (S n) 31) by (try lia; auto). reflexivity. }
  destruct H31 as [[H31 Hn]| ->]; [|vm_compute; reflexivity].
  replace (32 * S n)%nat with (S (32 * n + 31)) by lia. unfold build, upto in *.
  rewrite seq_S, map_app, addAll_app, H31. cbn [rbind map addAll Nat.add]. unfold set. cbn [bits last buf length].
  rewrite (proj2 (N.ltb_ge _ _)) by lia. cbn [Nat.ltb Nat.leb negb].
  replace ((N.of_nat (32 * n + 31) + 32) / 32) with (N.of_nat n + 1) by (apply N.div_unique with 31; lia).
  replace ((32 * N.of_nat n + 31 + 31) / 32) with (N.of_nat n + 1) by (apply N.div_unique with 30; lia).
  rewrite N.sub_diag. cbn [N.ltb N.compare]. unfold lastMarker, setBits. cbn [buf last nth bits].
  rewrite litCount_mk by lia. cbn [N.eqb Pos.eqb]. cbn [List.last removelast app].
  replace (N.of_nat (32 * n + 31) mod 32) with 31 by (apply N.mod_unique with (N.of_nat n); lia).
  change (N.lor (N.ones 31) (N.shiftl 1 31)) with ones. rewrite N.eqb_refl. cbn [removelast buf bits last].
  unfold updLast. cbn [buf last upd bits]. rewrite litCount_mk by lia. rewrite setLitCount_mk by lia.
  replace (1 - 1) with 0 by lia.
  unfold addEmptyWord, lastMarker. cbn [buf last nth bits]. rewrite litCount_mk, runLen_mk by lia. cbn [N.eqb andb].
  rewrite (proj2 (N.eqb_neq (N.of_nat n) 0)) by lia. cbn [buf last nth bits].
  rewrite litCount_mk, runLen_mk, runBit_mk by lia. cbn [N.eqb andb Bool.eqb].
  unfold maxRun. rewrite (proj2 (N.ltb_lt _ _)) by lia. unfold updLast. cbn [buf last upd bits rbind].
  rewrite setRunLen_mk by lia. f_equal. f_equal; [|lia]. f_equal. f_equal. lia.
Qed.
