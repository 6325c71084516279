(** The set-bit iterator lists exactly the set positions, in increasing order. *)
From Verif Require Import Base Bytes StreamModel EwahModel EwahMarker EwahRep EwahIter EwahLogic EwahSet.
From Coq Require Import NArith Sorted.
Local Open Scope N_scope.

Definition upto (n : nat) : list N := map N.of_nat (seq 0 n).
Definition range (base : N) (n : nat) : list N := map (fun k => base + N.of_nat k) (seq 0 n).
Definition bitsOf (w : N) : list N := filter (N.testbit w) (upto 32).
Definition posW (base w : N) : list N := map (N.add base) (bitsOf w).
Fixpoint posWs (base : N) (ws : list N) : list N :=
  match ws with [] => [] | w :: ws' => posW base w ++ posWs (base + 32) ws' end.

Lemma range_0 base : range base (N.to_nat 0) = [].
Proof. reflexivity. Qed.
Lemma posWs_cons base w ws : posWs base (w :: ws) = posW base w ++ posWs (base + 32) ws.
Proof. reflexivity. Qed.

Lemma posWs_app a : forall base b, posWs base (a ++ b) = posWs base a ++ posWs (base + 32 * len a) b.
Proof.
  induction a as [|w a IH]; intros base b; cbn [app posWs].
  - change (len (@nil N)) with 0. rewrite N.mul_0_r, N.add_0_r. reflexivity.
  - rewrite IH, <- app_assoc. do 3 f_equal. unfold len. cbn [length]. lia.
Qed.

Lemma posW_0 base : posW base 0 = [].
Proof. reflexivity. Qed.
Lemma range_app base m n : range base (m + n) = range base m ++ range (base + N.of_nat m) n.
Proof.
  unfold range. rewrite seq_app, map_app. f_equal. cbn [Nat.add].
  replace (seq m n) with (map (Nat.add m) (seq 0 n)).
  - rewrite map_map. apply map_ext. intros; lia.
  - clear. revert m. induction n as [|n IH]; intros m; [reflexivity|]. cbn [seq map]. f_equal; [lia|].
    rewrite <- (IH (S m)). rewrite <- seq_shift, map_map. apply map_ext. intros; lia.
Qed.
Lemma range_S base n : range base (S n) = base :: range (base + 1) n.
Proof. change (S n) with (1 + n)%nat. rewrite range_app. unfold range at 1. cbn. f_equal. lia. Qed.
Lemma posW_ones base : posW base ones = range base 32.
Proof. reflexivity. Qed.

Lemma posWs_false n : forall base, posWs base (fills false n) = [].
Proof.
  unfold fills. induction (N.to_nat n) as [|k IH]; intros base; [reflexivity|].
  cbn [repeat posWs]. rewrite IH. reflexivity.
Qed.
Lemma posWs_true n : forall base, posWs base (fills true n) = range base (32 * N.to_nat n).
Proof.
  unfold fills. induction (N.to_nat n) as [|k IH]; intros base; [reflexivity|].
  cbn [repeat posWs]. rewrite IH. change (fill true) with ones. rewrite posW_ones.
  replace (32 * S k)%nat with (32 + 32 * k)%nat by lia. rewrite range_app. reflexivity.
Qed.

(** The lowest set bit. *)
Lemma odd_part w : w <> 0 -> exists k m, w = 2 ^ k * (2 * m + 1).
Proof.
  assert (H : forall n w, w < n -> w <> 0 -> exists k m, w = 2 ^ k * (2 * m + 1)).
  { clear w. intros n. induction n as [|n IH] using N.peano_ind; intros w Hw H0; [lia|].
    destruct (N.even w) eqn:E.
    - apply N.even_spec in E. destruct E as [v ->]. destruct (IH v) as (k & m & ->); [lia|lia|].
      exists (N.succ k), m. rewrite N.pow_succ_r'. lia.
    - assert (O : N.odd w = true) by (rewrite <- N.negb_even, E; reflexivity).
      apply N.odd_spec in O. destruct O as [m ->]. exists 0, m. rewrite N.pow_0_r. lia. }
  intros Hw. apply (H (w + 1)); lia.
Qed.

Lemma land_odd a b : N.land (2 * a + 1) (2 * b + 1) = 2 * N.land a b + 1.
Proof.
  apply N.bits_inj. intros j. rewrite N.land_spec. destruct j as [|j] using N.peano_ind.
  - rewrite !N.testbit_odd_0. reflexivity.
  - rewrite !N.testbit_odd_succ by lia. rewrite N.land_spec. reflexivity.
Qed.

Lemma land_compl j m : m < 2 ^ j -> N.land m (N.ones j - m) = 0.
Proof.
  intros H. assert (Z : N.ldiff m (N.ones j) = 0).
  { destruct (N.eq_dec m 0) as [->|]; [apply N.ldiff_0_l|]. apply N.ldiff_ones_r_low. apply N.log2_lt_pow2; lia. }
  rewrite N.sub_nocarry_ldiff by auto. apply N.bits_inj. intros i.
  rewrite N.land_spec, N.ldiff_spec, N.bits_0. destruct (N.testbit m i); [|reflexivity].
  rewrite andb_false_r. reflexivity.
Qed.

Lemma neg_word w : 0 < w -> w < 2 ^ 32 -> u32 (N.lxor w ones + 1) = 2 ^ 32 - w.
Proof.
  intros H0 H. change ones with (N.ones 32).
  assert (E : N.lxor w (N.ones 32) = N.ones 32 - w).
  { change (N.lxor w (N.ones 32)) with (N.lnot w 32). apply N.lnot_sub_low. apply N.log2_lt_pow2; auto. }
  rewrite E. unfold u32. change (N.ones 32) with (2 ^ 32 - 1). rewrite N.mod_small by lia. lia.
Qed.

Lemma lowest w : w <> 0 -> w < 2 ^ 32 -> exists k, k < 32 /\
  N.land w (u32 (N.lxor w ones + 1)) = 2 ^ k /\ N.testbit w k = true /\
  forall j, j < k -> N.testbit w j = false.
Proof.
  intros H0 H. destruct (odd_part w H0) as (k & m & E).
  assert (Hk : k < 32).
  { destruct (N.lt_ge_cases k 32) as [|G]; [auto|]. exfalso.
    assert (2 ^ 32 <= 2 ^ k) by (apply N.pow_le_mono_r; lia). nia. }
  exists k. split; [auto|]. rewrite neg_word by lia.
  assert (Ep : 2 ^ 32 = 2 ^ k * 2 ^ (32 - k)) by (rewrite <- N.pow_add_r; f_equal; lia).
  assert (Ep2 : 2 ^ (32 - k) = 2 * 2 ^ (31 - k)) by (rewrite <- N.pow_succ_r'; f_equal; lia).
  assert (Hpos : 0 < 2 ^ k) by (apply N.neq_0_lt_0; apply N.pow_nonzero; lia).
  assert (Hm : m < 2 ^ (31 - k)) by nia.
  split; [|split].
  - assert (En : 2 ^ 32 - w = 2 ^ k * (2 * (N.ones (31 - k) - m) + 1)).
    { rewrite N.ones_equiv. rewrite E, Ep, Ep2. rewrite <- N.mul_sub_distr_l. f_equal. lia. }
    rewrite En, E. rewrite !(N.mul_comm (2 ^ k)), <- !N.shiftl_mul_pow2, <- N.shiftl_land, land_odd, land_compl by auto.
    rewrite N.mul_0_r, N.add_0_l, N.shiftl_1_l. reflexivity.
  - rewrite E, N.mul_comm, <- N.shiftl_mul_pow2. rewrite N.shiftl_spec_high' by lia. rewrite N.sub_diag. apply N.testbit_odd_0.
  - intros j Hj. rewrite E, N.mul_comm, <- N.shiftl_mul_pow2. apply N.shiftl_spec_low. auto.
Qed.

Lemma popcount_pow k : k < 32 -> popcount (2 ^ k - 1) = k.
Proof.
  intros H. assert (F : Forall (fun k => popcount (2 ^ N.of_nat k - 1) = N.of_nat k) (seq 0 32)).
  { repeat constructor; vm_compute; reflexivity. }
  rewrite Forall_forall in F. specialize (F (N.to_nat k)). rewrite N2Nat.id in F. apply F.
  apply in_seq. lia.
Qed.

Lemma upto_split n k : (k < n)%nat -> upto n = upto k ++ N.of_nat k :: map N.of_nat (seq (S k) (n - S k)).
Proof.
  intros H. unfold upto. replace n with (k + S (n - S k))%nat at 1 by lia.
  rewrite seq_app, map_app. cbn [Nat.add seq map]. reflexivity.
Qed.

Lemma filter_none {A} (f : A -> bool) l : (forall x, In x l -> f x = false) -> filter f l = [].
Proof.
  induction l as [|x l IH]; intros H; [reflexivity|]. cbn. rewrite (H x) by (left; auto). apply IH. intros; apply H; right; auto.
Qed.

Lemma bitsOf_lowest w k : k < 32 -> N.testbit w k = true -> (forall j, j < k -> N.testbit w j = false) ->
  bitsOf w = k :: bitsOf (N.lxor w (2 ^ k)).
Proof.
  intros Hk Ht Hl. unfold bitsOf. rewrite (upto_split 32 (N.to_nat k)) by lia. rewrite N2Nat.id.
  rewrite !filter_app. cbn [filter]. rewrite Ht, N.lxor_spec, Ht, N.pow2_bits_true. cbn [xorb].
  rewrite (filter_none (N.testbit w)), (filter_none (N.testbit (N.lxor w (2 ^ k)))).
  - cbn [app]. f_equal. apply filter_ext_in. intros x Hx. apply in_map_iff in Hx. destruct Hx as (y & <- & Hy).
    apply in_seq in Hy. rewrite N.lxor_spec, N.pow2_bits_false by lia. rewrite xorb_false_r. reflexivity.
  - intros x Hx. apply in_map_iff in Hx. destruct Hx as (y & <- & Hy). apply in_seq in Hy.
    rewrite N.lxor_spec, N.pow2_bits_false, Hl by lia. reflexivity.
  - intros x Hx. apply in_map_iff in Hx. destruct Hx as (y & <- & Hy). apply in_seq in Hy. apply Hl. lia.
Qed.

Lemma bitsOf_nonempty w : w <> 0 -> w < 2 ^ 32 -> exists k,
  bitsOf w = k :: bitsOf (N.lxor w (N.land w (u32 (N.lxor w ones + 1)))) /\
  popcount (N.land w (u32 (N.lxor w ones + 1)) - 1) = k.
Proof.
  intros H0 H. destruct (lowest w H0 H) as (k & Hk & E & Ht & Hl). exists k. rewrite E. split.
  - apply bitsOf_lowest; auto.
  - apply popcount_pow; auto.
Qed.

(** What an iterator state still has to deliver. *)
Definition runLeft (it : bititer) : list N := range (position it) (N.to_nat (runningLength it - position it)).
Definition left (it : bititer) (ws : list N) : list N :=
  runLeft it ++ posW (literalPosition it) (word it) ++ posWs (N.max (position it) (runningLength it)) ws.
Definition bI (b : list N) (it : bititer) (lw : list N) (segs : list seg) : Prop :=
  skipn (wordPosition it) b = lw ++ flat segs /\ wordLength it = (wordPosition it + length lw)%nat /\
  (wordPosition it <= length b)%nat /\ Forall wfSeg segs /\ okWords lw /\ word it < 2 ^ 32 /\
  (position it < runningLength it -> word it = 0).

Lemma skipn_cons_nth {A} (b : list A) n x l : skipn n b = x :: l -> nth_error b n = Some x /\ skipn (S n) b = l /\ (S n <= length b)%nat.
Proof.
  revert b. induction n as [|n IH]; intros b H; destruct b as [|y b]; cbn in *; try discriminate.
  - inversion H; subst. repeat split; auto. lia.
  - destruct (IH b H) as (H1 & H2 & H3). repeat split; auto; try lia.
Qed.

Lemma literalHasNext_spec b lw segs : forall fuel it, bI b it lw segs -> runningLength it <= position it ->
  (length lw < fuel)%nat ->
  exists h it', literalHasNext fuel b it = Done (h, it') /\ runningLength it' <= position it' /\
    answer it' = answer it /\
    exists lw', bI b it' lw' segs /\ left it' (lw' ++ expand segs) = left it (lw ++ expand segs) /\
      (h = true -> word it' <> 0) /\ (h = false -> word it' = 0 /\ lw' = []).
Proof.
  induction lw as [|x lw IH]; intros fuel it HB Hr Hf; destruct fuel as [|f]; [lia| |lia|];
    pose proof HB as (H1 & H2 & H3 & H4 & H5 & H6 & H7); cbn [literalHasNext].
  - assert (Nat.ltb (wordPosition it) (wordLength it) = false) as -> by (apply Nat.ltb_ge; cbn in H2; lia).
    rewrite andb_false_r. do 2 eexists. split; [reflexivity|]. split; [auto|]. split; [auto|].
    exists []. split; [exact HB|]. split; [reflexivity|].
    destruct (N.eqb_spec (word it) 0); cbn; split; intros; try discriminate; auto.
  - destruct (N.eqb_spec (word it) 0) as [E0|E0]; cbn [andb negb].
    + assert (Nat.ltb (wordPosition it) (wordLength it) = true) as -> by (apply Nat.ltb_lt; cbn in H2; lia).
      cbn [app] in H1. destruct (skipn_cons_nth _ _ _ _ H1) as (K1 & K2 & K3). rewrite K1.
      inversion H5; subst.
      set (it1 := mkBI x (position it + 32) (runningLength it) (position it) (S (wordPosition it)) (wordLength it) (answer it)).
      destruct (IH f it1) as (h & it' & E & R & A & lw' & B' & L' & T' & F'); [| |cbn in Hf; lia|].
      * repeat split; cbn; auto; try lia. cbn in H2. lia.
      * unfold it1; cbn. lia.
      * exists h, it'. split; [exact E|]. split; [exact R|]. split; [exact A|]. exists lw'. split; [exact B'|].
        split; [|auto]. rewrite L'. unfold left, runLeft, it1; cbn [position runningLength literalPosition word].
        rewrite E0, posW_0. replace (runningLength it - position it) with 0 by lia.
        replace (runningLength it - (position it + 32)) with 0 by lia. rewrite ?range_0, ?app_nil_l.
        rewrite !N.max_l by lia. rewrite <- app_comm_cons, posWs_cons. reflexivity.
    + do 2 eexists. split; [reflexivity|]. split; [auto|]. split; [auto|]. exists (x :: lw).
      split; [exact HB|]. split; [reflexivity|]. split; intros; [auto|discriminate].
Qed.

Lemma setRunningLengthWord_spec b it s segs : bI b it [] (s :: segs) -> runningLength it <= position it -> word it = 0 ->
  exists it', setRunningLengthWord b it = Done it' /\ bI b it' (sl s) segs /\ answer it' = answer it /\
    left it' (sl s ++ expand segs) = left it (expand (s :: segs)).
Proof.
  intros (H1 & H2 & H3 & H4 & H5 & H6 & H7) Hr Hw. unfold setRunningLengthWord.
  cbn [app flat flat_map flatSeg] in H1. destruct (skipn_cons_nth _ _ _ _ H1) as (K1 & K2 & K3). rewrite K1.
  inversion H4 as [|? ? (W1 & W2 & W3) F]; subst.
  rewrite runBit_mk, runLen_mk, litCount_mk by lia.
  eexists. split; [reflexivity|]. split; [|split; [reflexivity|]].
  - repeat split; cbn [word position runningLength literalPosition wordPosition wordLength answer]; auto.
    unfold len. lia.
  - unfold left, runLeft; cbn [word position runningLength literalPosition wordPosition wordLength answer].
    cbn [expand flat_map]. fold (expand segs). unfold wordsOf. rewrite <- app_assoc.
    rewrite (posWs_app (fills (sb s) (sr s))). unfold len at 1. rewrite fills_len, N2Nat.id.
    replace (runningLength it - position it) with 0 by lia. rewrite ?range_0, ?app_nil_l.
    rewrite Hw, !posW_0. cbn [app]. rewrite (N.max_l (position it) (runningLength it)) by lia. destruct (sb s).
    + rewrite posWs_true. f_equal.
      * f_equal. lia.
      * rewrite N.max_r by lia. f_equal. lia.
    + rewrite posWs_false, N.sub_diag. rewrite ?range_0, ?app_nil_l. rewrite N.max_id. f_equal. lia.
Qed.

Definition ready (it : bititer) : Prop := position it < runningLength it \/ word it <> 0.

Lemma lw_bound b it lw segs : bI b it lw segs -> (length lw + length (flat segs) <= length b)%nat.
Proof.
  intros (H1 & _). apply (f_equal (@length N)) in H1. rewrite skipn_length, app_length in H1. lia.
Qed.
Lemma segs_bound segs : (length segs <= length (flat segs))%nat.
Proof.
  induction segs as [|s segs IH]; [cbn; lia|]. cbn [flat flat_map]. fold (flat segs). rewrite app_length.
  unfold flatSeg. cbn [length]. lia.
Qed.

Lemma moveToNext_spec b : forall segs fuel it lw, bI b it lw segs -> (length segs <= fuel)%nat ->
  exists h it' lw' segs', moveToNext fuel b it = Done (h, it') /\ bI b it' lw' segs' /\ answer it' = answer it /\
    left it' (lw' ++ expand segs') = left it (lw ++ expand segs) /\
    (h = true -> ready it') /\ (h = false -> left it (lw ++ expand segs) = []).
Proof.
  induction segs as [|s segs IH]; intros fuel it lw HB Hf.
  - assert (G : exists h it' lw' segs', (if position it <? runningLength it then Done (true, it) else
        rbind (literalHasNext (S (length b)) b it) (fun '(h, it) => if h : bool then Done (true, it)
          else if Nat.leb (length b) (wordPosition it) then Done (false, it)
          else match fuel with O => NoFuel | S f => rbind (setRunningLengthWord b it) (fun it => moveToNext f b it) end))
        = Done (h, it') /\ bI b it' lw' segs' /\ answer it' = answer it /\
        left it' (lw' ++ expand segs') = left it (lw ++ expand []) /\
        (h = true -> ready it') /\ (h = false -> left it (lw ++ expand []) = [])).
    { destruct (N.ltb_spec (position it) (runningLength it)) as [L|L].
      - exists true, it, lw, []. repeat split; auto; try apply HB; [intros _; left; auto|discriminate].
      - destruct (literalHasNext_spec b lw [] (S (length b)) it HB L) as (h & it1 & E & R & A & lw1 & B1 & L1 & T1 & F1).
        { apply lw_bound in HB. lia. }
        rewrite E. cbn [rbind]. destruct h.
        + exists true, it1, lw1, []. split; [reflexivity|]. split; [exact B1|]. split; [exact A|]. split; [exact L1|].
          split; [right; auto|discriminate].
        + destruct (F1 eq_refl) as [W0 ->]. destruct B1 as (H1 & H2 & H3 & H4 & H5 & H6 & H7).
          cbn [app flat flat_map] in H1. apply (f_equal (@length N)) in H1. rewrite skipn_length in H1. cbn in H1.
          rewrite (proj2 (Nat.leb_le _ _)) by lia.
          assert (Z : left it (lw ++ expand []) = []).
          { rewrite <- L1. unfold left, runLeft. rewrite W0, posW_0. replace (runningLength it1 - position it1) with 0 by lia. reflexivity. }
          exists false, it1, [], []. split; [reflexivity|]. split.
          * repeat split; auto. cbn [app flat flat_map]. apply length_zero_iff_nil. rewrite skipn_length. lia.
          * repeat split; auto. discriminate. }
    destruct fuel; exact G.
  - destruct fuel as [|f]; [cbn in Hf; lia|]. cbn [moveToNext].
    destruct (N.ltb_spec (position it) (runningLength it)) as [L|L].
    { exists true, it, lw, (s :: segs). repeat split; auto; try apply HB; [intros _; left; auto|discriminate]. }
    destruct (literalHasNext_spec b lw (s :: segs) (S (length b)) it HB L) as (h & it1 & E & R & A & lw1 & B1 & L1 & T1 & F1).
    { apply lw_bound in HB. lia. }
    rewrite E. cbn [rbind]. destruct h.
    { exists true, it1, lw1, (s :: segs). split; [reflexivity|]. split; [exact B1|]. split; [exact A|]. split; [exact L1|].
      split; [right; auto|discriminate]. }
    destruct (F1 eq_refl) as [W0 ->].
    assert (Nat.leb (length b) (wordPosition it1) = false) as ->.
    { destruct B1 as (H1 & _). cbn [app flat flat_map flatSeg] in H1. apply (f_equal (@length N)) in H1.
      rewrite skipn_length in H1. cbn in H1. apply Nat.leb_gt. lia. }
    destruct (setRunningLengthWord_spec b it1 s segs B1 R W0) as (it2 & E2 & B2 & A2 & L2).
    rewrite E2. cbn [rbind]. destruct (IH f it2 (sl s) B2) as (h & it3 & lw3 & segs3 & E3 & B3 & A3 & L3 & T3 & F3); [cbn in Hf; lia|].
    exists h, it3, lw3, segs3. split; [exact E3|]. split; [exact B3|]. split; [congruence|].
    assert (X : left it2 (sl s ++ expand segs) = left it (lw ++ expand (s :: segs))) by (rewrite L2, <- L1; reflexivity).
    rewrite <- X. auto.
Qed.

Lemma bitNext_spec b it lw segs : bI b it lw segs -> ready it ->
  exists h it' lw' segs', bitNext b it = Done (h, it') /\ bI b it' lw' segs' /\
    left it (lw ++ expand segs) = answer it' :: left it' (lw' ++ expand segs') /\
    (h = true -> ready it') /\ (h = false -> left it' (lw' ++ expand segs') = []).
Proof.
  intros HB HR. pose proof HB as (H1 & H2 & H3 & H4 & H5 & H6 & H7). unfold bitNext.
  assert (Hseg : (length segs <= S (length b))%nat).
  { pose proof (lw_bound _ _ _ _ HB). pose proof (segs_bound segs). lia. }
  destruct (N.ltb_spec (position it) (runningLength it)) as [L|L].
  - set (it1 := mkBI (word it) (position it + 1) (runningLength it) (literalPosition it) (wordPosition it) (wordLength it) (position it)).
    change (position it1 <? runningLength it1) with (position it + 1 <? runningLength it).
    assert (B1 : bI b it1 lw segs).
    { repeat split; auto; cbn in *. }
    assert (E1 : left it (lw ++ expand segs) = answer it1 :: left it1 (lw ++ expand segs)).
    { unfold left, runLeft, it1; cbn [answer position runningLength literalPosition word].
      replace (N.to_nat (runningLength it - position it)) with (S (N.to_nat (runningLength it - (position it + 1)))) by lia.
      rewrite range_S. cbn [app]. do 4 f_equal. lia. }
    destruct (N.ltb_spec (position it + 1) (runningLength it)) as [L2|L2].
    + exists true, it1, lw, segs. split; [reflexivity|]. split; [exact B1|]. split; [exact E1|].
      split; [intros _; left; exact L2|discriminate].
    + destruct (moveToNext_spec b segs (S (length b)) it1 lw B1 Hseg) as (h & it2 & lw2 & segs2 & E2 & B2 & A2 & L3 & T2 & F2).
      rewrite E2. exists h, it2, lw2, segs2. split; [reflexivity|]. split; [exact B2|].
      split; [rewrite E1, A2, L3; reflexivity|]. split; [auto|]. intros; rewrite L3; auto.
  - destruct HR as [HR|HR]; [lia|].
    destruct (bitsOf_nonempty (word it) HR H6) as (k & Ek & Ep).
    set (t := N.land (word it) (u32 (N.lxor (word it) ones + 1))) in *.
    set (it1 := mkBI (N.lxor (word it) t) (position it) (runningLength it) (literalPosition it) (wordPosition it) (wordLength it)
                  (literalPosition it + popcount (t - 1))).
    assert (B1 : bI b it1 lw segs).
    { repeat split; auto; unfold it1; cbn [word position runningLength wordPosition wordLength]; [|lia].
      apply lxor_bound; auto. unfold t. apply land_bound; auto. }
    assert (E1 : left it (lw ++ expand segs) = answer it1 :: left it1 (lw ++ expand segs)).
    { unfold left, runLeft, it1; cbn [answer position runningLength literalPosition word].
      replace (runningLength it - position it) with 0 by lia. rewrite ?range_0, ?app_nil_l.
      unfold posW. rewrite Ek, Ep, map_cons, <- app_comm_cons. reflexivity. }
    destruct (moveToNext_spec b segs (S (length b)) it1 lw B1 Hseg) as (h & it2 & lw2 & segs2 & E2 & B2 & A2 & L3 & T2 & F2).
    rewrite E2. exists h, it2, lw2, segs2. split; [reflexivity|]. split; [exact B2|].
    split; [rewrite E1, A2, L3; reflexivity|]. split; [auto|]. intros; rewrite L3; auto.
Qed.

Lemma collect_spec b : forall fuel h it lw segs, bI b it lw segs ->
  (h = true -> ready it) -> (h = false -> left it (lw ++ expand segs) = []) ->
  (length (left it (lw ++ expand segs)) < fuel)%nat ->
  collect fuel b h it = Done (left it (lw ++ expand segs)).
Proof.
  induction fuel as [|f IH]; intros h it lw segs HB HT HF Hl; [lia|]. cbn [collect]. destruct h.
  - destruct (bitNext_spec b it lw segs HB (HT eq_refl)) as (h & it1 & lw1 & segs1 & E & B1 & L1 & T1 & F1).
    rewrite E. cbn [rbind]. rewrite L1 in Hl. cbn [length] in Hl.
    rewrite (IH h it1 lw1 segs1 B1 T1 F1) by lia. cbn [rbind]. rewrite L1. reflexivity.
  - rewrite HF; reflexivity.
Qed.

Lemma bitsOf_len w : (length (bitsOf w) <= 32)%nat.
Proof.
  unfold bitsOf. assert (G : forall l, (length (filter (N.testbit w) l) <= length l)%nat).
  { induction l as [|x l IH]; cbn; [lia|]. destruct (N.testbit w x); cbn; lia. }
  etransitivity; [apply G|]. unfold upto. rewrite map_length, seq_length. lia.
Qed.
Lemma posWs_len ws : forall base, (length (posWs base ws) <= 32 * length ws)%nat.
Proof.
  induction ws as [|w ws IH]; intros base; cbn [posWs length]; [lia|]. rewrite app_length. unfold posW. rewrite map_length.
  pose proof (bitsOf_len w). specialize (IH (base + 32)). lia.
Qed.

Definition runsFrom (a : N) (b : list N) : N := fold_right (fun m n => (if runBit m then runLen m else 0) + n) a b.
Lemma runsFrom_ge l a : a <= runsFrom a l.
Proof. induction l as [|x l IH]; unfold runsFrom in *; cbn [fold_right]; lia. Qed.

Lemma collectFuel_le segs : Forall wfSeg segs -> forall base,
  N.of_nat (length (posWs base (expand segs))) <= 32 * N.of_nat (length (flat segs)) + 32 * runsFrom 0 (flat segs).
Proof.
  induction 1 as [|s segs (W1 & W2 & W3) F IH]; intros base; [cbn; lia|].
  cbn [expand flat_map flat]. fold (expand segs). fold (flat segs). unfold wordsOf. rewrite <- app_assoc.
  rewrite posWs_app, posWs_app, !app_length.
  specialize (IH (base + 32 * len (fills (sb s) (sr s)) + 32 * len (sl s))).
  pose proof (posWs_len (sl s) (base + 32 * len (fills (sb s) (sr s)))) as P.
  assert (Q : N.of_nat (length (posWs base (fills (sb s) (sr s)))) <= 32 * (if sb s then sr s else 0)).
  { destruct (sb s).
    - rewrite posWs_true. unfold range. rewrite map_length, seq_length. lia.
    - rewrite posWs_false. cbn. lia. }
  assert (E : runsFrom 0 (flatSeg s ++ flat segs) =
     (if sb s then sr s else 0) + runsFrom (runsFrom 0 (flat segs)) (sl s)).
  { unfold runsFrom at 1. rewrite fold_right_app. unfold flatSeg. cbn [fold_right]. rewrite runBit_mk, runLen_mk by lia. reflexivity. }
  pose proof (runsFrom_ge (sl s) (runsFrom 0 (flat segs))) as G. rewrite E.
  assert (Lf : length (flatSeg s) = S (length (sl s))) by reflexivity. rewrite Lf. lia.
Qed.

Lemma collectFuel_ok segs : Forall wfSeg segs -> forall base, (length (posWs base (expand segs)) < collectFuel (flat segs))%nat.
Proof.
  intros F base. unfold collectFuel. pose proof (collectFuel_le segs F base) as G. unfold runsFrom in G. lia.
Qed.

(** The iterator visits the set bits of the words, in order. *)
Lemma enumerate_words c ws : rep c ws -> enumerate c = Done (posWs 0 ws).
Proof.
  intros (pre & s & (H1 & H2 & H3 & H4 & H5) & HL & ->).
  assert (Eb : buf c = flat (pre ++ [s])) by (rewrite flat_snoc; auto).
  assert (Ew : expand pre ++ wordsOf s = expand (pre ++ [s])) by (rewrite expand_snoc; auto).
  assert (F : Forall wfSeg (pre ++ [s])) by (apply Forall_app; auto).
  rewrite Ew. unfold enumerate. rewrite Eb. remember (pre ++ [s]) as segs.
  destruct segs as [|s0 segs]; [destruct pre; discriminate|]. clear Heqsegs.
  remember (flat (s0 :: segs)) as b. destruct b as [|m b]; [discriminate|]. rewrite Heqb. clear Eb Ew H1 H2 H3 H4 H5 HL. clear m b Heqb.
  set (b := flat (s0 :: segs)). set (it := mkBI 0 0 0 0 0%nat 0%nat 0).
  assert (B0 : bI b it [] (s0 :: segs)).
  { repeat split; auto; cbn; try lia. constructor. }
  destruct (setRunningLengthWord_spec b it s0 segs B0) as (it1 & E1 & B1 & A1 & L1); [cbn; lia|reflexivity|].
  rewrite E1. cbn [rbind].
  destruct (moveToNext_spec b segs (S (length b)) it1 (sl s0) B1) as (h & it2 & lw2 & segs2 & E2 & B2 & A2 & L2 & T2 & F2).
  { pose proof (segs_bound (s0 :: segs)). cbn [length] in H. fold b in H. lia. }
  rewrite E2. cbn [rbind].
  assert (E0 : left it2 (lw2 ++ expand segs2) = posWs 0 (expand (s0 :: segs))).
  { rewrite L2, L1. reflexivity. }
  rewrite <- E0. apply collect_spec; auto.
  - intros; rewrite L2; auto.
  - rewrite E0. apply collectFuel_ok. auto.
Qed.

(** ... that is, exactly the positions with their bit set. *)
Lemma posWs_bitAt ws : posWs 0 ws = filter (bitAt ws) (upto (32 * length ws)).
Proof.
  assert (G : forall ws base, posWs (32 * N.of_nat base) ws =
     filter (fun p => bitAt ws (p - 32 * N.of_nat base)) (map N.of_nat (seq (32 * base) (32 * length ws)))).
  { clear. induction ws as [|w ws IH]; intros base; [reflexivity|].
    cbn [posWs length]. replace (32 * S (length ws))%nat with (32 + 32 * length ws)%nat by lia.
    rewrite seq_app, map_app, filter_app. f_equal.
    - unfold posW, bitsOf, upto.
      replace (seq (32 * base) 32) with (map (Nat.add (32 * base)) (seq 0 32)).
      + rewrite map_map. assert (Hin : forall k, In k (seq 0 32) -> (k < 32)%nat) by (intros k Hk; apply in_seq in Hk; lia).
        revert Hin. generalize (seq 0 32). induction l as [|k l IHl]; intros Hin; [reflexivity|].
        cbn [map filter].
        assert (E : bitAt (w :: ws) (N.of_nat (32 * base + k) - 32 * N.of_nat base) = N.testbit w (N.of_nat k)).
        { unfold bitAt. assert (Hk : (k < 32)%nat) by (apply Hin; left; auto).
          replace (N.of_nat (32 * base + k) - 32 * N.of_nat base) with (N.of_nat k) by lia.
          rewrite N.div_small, N.mod_small by lia. reflexivity. }
        rewrite E. destruct (N.testbit w (N.of_nat k)); cbn [map]; rewrite IHl by (intros; apply Hin; right; auto).
        * f_equal. lia.
        * reflexivity.
      + generalize 32%nat at 2 4. generalize (32 * base)%nat. clear. intros a n. revert a. induction n as [|n IH]; intros a; [reflexivity|].
        cbn [seq map]. f_equal; [lia|]. rewrite <- (IH (S a)), <- seq_shift, map_map. apply map_ext. intros; lia.
    - replace (32 * N.of_nat base + 32) with (32 * N.of_nat (S base)) by lia. rewrite IH.
      replace (32 * S base)%nat with (32 * base + 32)%nat by lia.
      apply filter_ext_in. intros p Hp. apply in_map_iff in Hp. destruct Hp as (y & <- & Hy). apply in_seq in Hy.
      unfold bitAt. set (q := N.of_nat y - 32 * N.of_nat (S base)).
      replace (N.of_nat y - 32 * N.of_nat base) with (q + 1 * 32) by (unfold q; lia).
      rewrite N.div_add, N.mod_add by lia. rewrite N2Nat.inj_add. replace (N.to_nat (q / 32) + N.to_nat 1)%nat with (S (N.to_nat (q / 32))) by lia.
      reflexivity. }
  specialize (G ws 0%nat). cbn [N.of_nat N.mul Nat.mul Nat.add] in G. rewrite N.mul_0_r in G || idtac. rewrite G. unfold upto.
  apply filter_ext. intros; rewrite N.sub_0_r; reflexivity.
Qed.

Lemma upto_sorted n : StronglySorted N.lt (upto n).
Proof.
  unfold upto. generalize 0%nat. induction n as [|n IH]; intros a; cbn [seq map]; constructor; auto.
  apply Forall_forall. intros x Hx. apply in_map_iff in Hx. destruct Hx as (y & <- & Hy). apply in_seq in Hy. lia.
Qed.
Lemma filter_sorted f l : StronglySorted N.lt l -> StronglySorted N.lt (filter f l).
Proof.
  induction 1 as [|x l S IH F]; cbn; [constructor|]. destruct (f x); auto. constructor; auto.
  rewrite Forall_forall in *. intros y Hy. apply filter_In in Hy. apply F. tauto.
Qed.

Lemma enumerate_spec c ws : rep c ws -> exists l, enumerate c = Done l /\ StronglySorted N.lt l /\
  forall p, In p l <-> bitAt ws p = true.
Proof.
  intros R. exists (posWs 0 ws). split; [apply enumerate_words; auto|]. rewrite posWs_bitAt.
  split; [apply filter_sorted, upto_sorted|]. intros p. rewrite filter_In. split; [tauto|]. intros H. split; [|auto].
  unfold upto. apply in_map_iff. exists (N.to_nat p). split; [lia|]. apply in_seq. split; [lia|].
  destruct (Nat.lt_ge_cases (N.to_nat p) (32 * length ws)) as [|G]; [lia|]. exfalso.
  unfold bitAt in H. rewrite nth_overflow in H; [rewrite N.bits_0 in H; discriminate|].
  destruct (div32 p). lia.
Qed.
