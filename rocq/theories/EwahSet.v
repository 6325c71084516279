(** Setting bits one after the other. *)
From Verif Require Import Base Bytes StreamModel EwahModel EwahMarker EwahRep.
From Coq Require Import NArith.
Local Open Scope N_scope.

Definition bitAt (ws : list N) (p : N) : bool := N.testbit (nth (N.to_nat (p / 32)) ws 0) (p mod 32).

Definition SInv (c : ewah) (ws : list N) : Prop :=
  rep c ws /\ len ws = (bits c + 31) / 32 /\ (forall p, bits c <= p -> bitAt ws p = false).

Lemma SInv_empty : SInv empty [].
Proof.
  split; [apply rep_empty|]. split; [reflexivity|]. intros p _. unfold bitAt.
  destruct (N.to_nat (p / 32)); reflexivity.
Qed.

Lemma bit_shift k j : k < 32 -> N.testbit (N.shiftl 1 k) j = (j =? k).
Proof.
  intros H. rewrite N.shiftl_1_l. destruct (N.eqb_spec j k) as [->|E]; [apply N.pow2_bits_true|].
  apply N.pow2_bits_false. congruence.
Qed.
Lemma shift_bound k : k < 32 -> N.shiftl 1 k < 2 ^ 32.
Proof. intros H. rewrite N.shiftl_1_l. apply N.pow_lt_mono_r; lia. Qed.

Lemma div32 p : p = 32 * (p / 32) + p mod 32 /\ p mod 32 < 32.
Proof. split; [apply N.div_mod; lia|apply N.mod_lt; lia]. Qed.

Lemma eq_parts p i : (p =? i) = ((p / 32 =? i / 32) && (p mod 32 =? i mod 32))%bool.
Proof.
  destruct (div32 p) as [Ep _], (div32 i) as [Ei _].
  destruct (N.eqb_spec p i) as [->|E]; [rewrite !N.eqb_refl; reflexivity|].
  symmetry. apply andb_false_iff. destruct (N.eqb_spec (p / 32) (i / 32)); [right|left; reflexivity].
  apply N.eqb_neq. lia.
Qed.

(** Appending zero words and one word with a single bit. *)
Lemma bitAt_append ws n i p : i / 32 = len ws + n ->
  (forall q, len ws * 32 <= q -> bitAt ws q = false) ->
  bitAt ((ws ++ fills false n) ++ [N.shiftl 1 (i mod 32)]) p = (bitAt ws p || (p =? i))%bool.
Proof.
  intros Hi Hz. destruct (div32 p) as [Ep Lp], (div32 i) as [Ei Li]. rewrite eq_parts. unfold bitAt.
  assert (Lc : length (ws ++ fills false n) = N.to_nat (len ws + n)) by (rewrite app_length, fills_len; unfold len; lia).
  destruct (N.lt_trichotomy (p / 32) (i / 32)) as [G|[G|G]].
  - rewrite app_nth1 by lia. destruct (N.eqb_spec (p / 32) (i / 32)); [lia|]. cbn [andb]. rewrite orb_false_r.
    destruct (N.lt_ge_cases (p / 32) (len ws)) as [K|K].
    + rewrite app_nth1 by (unfold len in K; lia). reflexivity.
    + rewrite app_nth2 by (unfold len in K; lia). rewrite (nth_overflow ws) by (unfold len in K; lia).
      unfold fills. rewrite nth_repeat. reflexivity.
  - rewrite app_nth2 by lia. rewrite Lc. replace (N.to_nat (p / 32) - N.to_nat (len ws + n))%nat with O by lia.
    cbn [nth]. rewrite bit_shift by lia. rewrite G, N.eqb_refl. cbn [andb].
    rewrite (nth_overflow ws) by (unfold len in Hi; lia). rewrite N.bits_0. reflexivity.
  - destruct (N.eqb_spec (p / 32) (i / 32)); [lia|]. cbn [andb]. rewrite orb_false_r.
    rewrite (nth_overflow ws) by (unfold len in Hi; lia). rewrite nth_overflow; [reflexivity|].
    rewrite app_length, Lc. cbn [length]. lia.
Qed.

(** Setting a bit of the last word. *)
Lemma bitAt_last ws0 x i p : i / 32 = len ws0 ->
  bitAt (ws0 ++ [N.lor x (N.shiftl 1 (i mod 32))]) p = (bitAt (ws0 ++ [x]) p || (p =? i))%bool.
Proof.
  intros Hi. destruct (div32 p) as [Ep Lp], (div32 i) as [Ei Li]. rewrite eq_parts. unfold bitAt.
  unfold len in Hi. destruct (N.lt_trichotomy (p / 32) (i / 32)) as [G|[G|G]].
  - rewrite !app_nth1 by lia. destruct (N.eqb_spec (p / 32) (i / 32)); [lia|]. cbn [andb]. rewrite orb_false_r. reflexivity.
  - rewrite !app_nth2 by lia. replace (N.to_nat (p / 32) - length ws0)%nat with O by lia. cbn [nth].
    rewrite N.lor_spec, bit_shift by lia. rewrite G, N.eqb_refl. reflexivity.
  - destruct (N.eqb_spec (p / 32) (i / 32)); [lia|]. cbn [andb]. rewrite orb_false_r.
    rewrite !nth_overflow by (rewrite app_length; cbn; lia). reflexivity.
Qed.

Lemma setBits_repW n c pre s : repW c pre s -> repW (setBits n c) pre s.
Proof. intros H. exact H. Qed.

Lemma fills_snoc b n : 0 < n -> fills b n = fills b (n - 1) ++ [fill b].
Proof. intros H. rewrite <- fills_1, fills_app. f_equal. lia. Qed.

Lemma set_spec i c ws : SInv c ws ->
  (i < bits c -> set i c = Done (false, c)) /\
  (bits c <= i -> exists c' ws', set i c = Done (true, c') /\ SInv c' ws' /\ bits c' = i + 1 /\
     forall p, bitAt ws' p = (bitAt ws p || (p =? i))%bool).
Proof.
  intros (R & HL & HZ). split; intros Hi; unfold set.
  { rewrite (proj2 (N.ltb_lt _ _)) by auto. reflexivity. }
  rewrite (proj2 (N.ltb_ge _ _)) by auto.
  assert (Hlast : Nat.ltb (last c) (length (buf c)) = true).
  { destruct R as (pre & s & (H1 & H2 & _) & _). apply Nat.ltb_lt. rewrite H1, H2, app_length. cbn. lia. }
  rewrite Hlast. cbn [negb].
  rewrite <- HL. set (dist := (i + 32) / 32 - len ws).
  destruct (div32 i) as [Ei Li].
  assert (Ed : (i + 32) / 32 = i / 32 + 1) by (replace (i + 32) with (i + 1 * 32) by lia; apply N.div_add; lia).
  assert (Hle : len ws <= i / 32 + 1).
  { rewrite HL. rewrite <- Ed. apply N.div_le_mono; lia. }
  assert (Hb : (i + 1 + 31) / 32 = i / 32 + 1) by (replace (i + 1 + 31) with (i + 32) by lia; exact Ed).
  assert (Hz32 : forall q, len ws * 32 <= q -> bitAt ws q = false).
  { intros q Hq. unfold bitAt. rewrite nth_overflow; [apply N.bits_0|].
    destruct (div32 q) as [Eq Lq]. unfold len in Hq. lia. }
  assert (Fin : forall c' ws', repL c' ws' -> bits c' = i + 1 -> len ws' = i / 32 + 1 ->
     (forall p, bitAt ws' p = (bitAt ws p || (p =? i))%bool) ->
     SInv c' ws' /\ bits c' = i + 1 /\ forall p, bitAt ws' p = (bitAt ws p || (p =? i))%bool).
  { intros c' ws' R' B' L' P'. split; [|auto]. split; [apply repL_rep; auto|]. rewrite B'. split; [lia|].
    intros p Hp. rewrite P', HZ by lia. destruct (N.eqb_spec p i); [lia|reflexivity]. }
  change (buf (setBits (i + 1) c)) with (buf c).
  destruct (N.ltb_spec 0 dist) as [G|G].
  - set (c1 := if 1 <? dist then fastAddEmpty false (dist - 1) (setBits (i + 1) c) else setBits (i + 1) c).
    assert (R1 : rep c1 (ws ++ fills false (dist - 1)) /\ bits c1 = i + 1).
    { unfold c1. destruct (N.ltb_spec 1 dist) as [G2|G2].
      - destruct (fastAddEmpty_rep false (dist - 1) _ _ (setBits_rep (i + 1) c ws R)) as [K1 K2]; [lia|].
        split; [apply repL_rep; auto|exact K2].
      - assert (dist - 1 = 0) as -> by lia. rewrite fills_0, app_nil_r. split; [apply setBits_rep; auto|reflexivity]. }
    destruct R1 as [R1 B1].
    destruct (addLiteralWord_rep c1 _ (N.shiftl 1 (i mod 32)) R1 (shift_bound _ Li)) as [R2 B2].
    do 2 eexists. split; [reflexivity|]. apply Fin; [exact R2|congruence| |].
    + rewrite !len_app. unfold len at 2. rewrite fills_len. change (len [N.shiftl 1 (i mod 32)]) with 1. unfold dist in *. lia.
    + intros p. apply bitAt_append; [|exact Hz32]. unfold dist in *. lia.
  - assert (Eq : len ws = i / 32 + 1) by (unfold dist in G; lia).
    destruct R as (pre & s & R & HLs & Ews).
    assert (Hlive : live s).
    { destruct HLs as [->|?]; [|auto]. cbn in Ews. unfold live. rewrite Ews in Eq. unfold wordsOf in Eq.
      rewrite len_app in Eq. unfold len at 1 in Eq. rewrite fills_len in Eq. lia. }
    pose proof (setBits_repW (i + 1) c pre s R) as R0. set (c0 := setBits (i + 1) c) in *.
    assert (B0 : bits c0 = i + 1) by reflexivity.
    assert (Ebuf : buf c = buf c0) by reflexivity. clearbody c0.
    pose proof R0 as (H1 & H2 & H3 & (Ha & Hbb & Hc) & H5).
    rewrite (lastMarker_rep c0 pre s R0), litCount_mk by lia.
    assert (Hclear : bitAt ws i = false) by (apply HZ; auto).
    destruct (N.eqb_spec (len (sl s)) 0) as [El|El].
    + (* the last word is the end of a run *)
      assert (Esl : sl s = []) by (destruct (sl s); [reflexivity|cbn in El; lia]).
      assert (Hsr : 0 < sr s) by (unfold live in Hlive; lia).
      assert (Ews' : ws = (expand pre ++ fills (sb s) (sr s - 1)) ++ [fill (sb s)]).
      { rewrite Ews. unfold wordsOf. rewrite Esl, app_nil_r, fills_snoc, app_assoc by auto. reflexivity. }
      assert (Hw0 : len (expand pre ++ fills (sb s) (sr s - 1)) = i / 32).
      { rewrite Ews', len_app in Eq. change (len [fill (sb s)]) with 1 in Eq. lia. }
      assert (Esb : sb s = false).
      { destruct (sb s) eqn:E; [|reflexivity]. exfalso. rewrite Ews' in Hclear. unfold bitAt in Hclear.
        rewrite app_nth2 in Hclear by (unfold len in Hw0; lia).
        replace (N.to_nat (i / 32) - length (expand pre ++ fills true (sr s - 1)))%nat with O in Hclear by (unfold len in Hw0; lia).
        cbn [nth fill] in Hclear. change ones with (N.ones 32) in Hclear. rewrite N.ones_spec_low in Hclear by lia. discriminate. }
      assert (R1 : repW (updLast (fun m => setRunLen m (u32 (runLen m + 4294967295))) c0) pre (Seg false (sr s - 1) [])).
      { rewrite <- Esl. apply updLast_repW; auto; [|lia]. rewrite runLen_mk by lia. rewrite Esb.
        replace (u32 (sr s + 4294967295)) with (sr s - 1).
        - apply setRunLen_mk; lia.
        - unfold u32. replace (sr s + 4294967295) with ((sr s - 1) + 1 * 2 ^ 32) by lia.
          rewrite N.mod_add by lia. symmetry. apply N.mod_small. lia. }
      destruct (addLiteralWord_repW _ _ _ (N.shiftl 1 (i mod 32)) R1 (shift_bound _ Li)) as [R2 B2].
      do 2 eexists. split; [reflexivity|]. apply Fin; [exact R2|rewrite B2; exact B0| |].
      * rewrite wordsOf_seg, app_nil_r. rewrite <- Esb, len_app, Hw0. reflexivity.
      * intros p. rewrite wordsOf_seg, app_nil_r. rewrite Ews'.
        change (N.shiftl 1 (i mod 32)) with (N.lor (fill false) (N.shiftl 1 (i mod 32))).
        rewrite <- Esb. apply bitAt_last. rewrite Hw0. reflexivity.
    + (* the last word is a literal *)
      destruct (exists_last (l := sl s)) as (l0 & x & Esl).
      { intros E. rewrite E in El. apply El. reflexivity. }
      assert (Eb : buf c0 = (flat pre ++ mk (sb s) (sr s) (len (sl s)) :: l0) ++ [x]).
      { rewrite H1. unfold flatSeg. rewrite Esl at 2. rewrite <- app_assoc. reflexivity. }
      rewrite Ebuf, Eb, last_last, removelast_last.
      assert (Hx : x < 2 ^ 32 /\ okWords l0).
      { unfold okWords in *. rewrite Esl in Hc. apply Forall_app in Hc. destruct Hc as [Q1 Q2]. inversion Q2; auto. }
      assert (Ll : len (sl s) = len l0 + 1) by (rewrite Esl, len_app; reflexivity).
      assert (Hlw : N.lor x (N.shiftl 1 (i mod 32)) < 2 ^ 32) by (apply lor_bound; [tauto|apply shift_bound; auto]).
      set (lw := N.lor x (N.shiftl 1 (i mod 32))) in *.
      assert (Ews' : ws = (expand pre ++ fills (sb s) (sr s) ++ l0) ++ [x]).
      { rewrite Ews. unfold wordsOf. rewrite Esl, <- !app_assoc. reflexivity. }
      assert (Hw0 : len (expand pre ++ fills (sb s) (sr s) ++ l0) = i / 32).
      { rewrite Ews', len_app in Eq. change (len [x]) with 1 in Eq. lia. }
      cbn [buf bits last]. rewrite removelast_last.
      assert (Elw : lw =? ones = true -> fill true = lw) by (intros E; apply N.eqb_eq in E; symmetry; exact E).
      destruct (N.eqb_spec lw ones) as [E1|E1].
      * set (c1 := mkEwah (flat pre ++ mk (sb s) (sr s) (len (sl s)) :: l0) (bits c0) (last c0)).
        assert (R1 : repW (updLast (fun m => setLitCount m (litCount m - 1)) c1) pre (Seg (sb s) (sr s) l0)).
        { unfold updLast, c1; cbn [buf bits last]. rewrite H2, upd_app.
          rewrite litCount_mk by lia. rewrite setLitCount_mk by lia.
          repeat split; cbn [buf last sb sr sl]; auto; try lia; [|tauto].
          unfold flatSeg; cbn [sb sr sl]. do 3 f_equal. lia. }
        destruct (addEmptyWord_repW true _ _ _ R1) as [R2 B2].
        do 2 eexists. split; [reflexivity|]. apply Fin; [exact R2|rewrite B2; exact B0| |].
        -- rewrite wordsOf_seg, len_app, Hw0. reflexivity.
        -- intros p. rewrite wordsOf_seg. cbn [fill]. rewrite <- E1, Ews'. apply bitAt_last. rewrite Hw0. reflexivity.
      * do 2 eexists. split; [reflexivity|].
        apply (Fin _ ((expand pre ++ fills (sb s) (sr s) ++ l0) ++ [lw])).
        -- exists pre, (Seg (sb s) (sr s) (l0 ++ [lw])). split; [|split].
           ++ repeat split; cbn [buf last sb sr sl]; auto.
              ** unfold flatSeg; cbn [sb sr sl]. rewrite Ll, len_app, <- app_assoc. reflexivity.
              ** rewrite len_app. change (len [lw]) with 1. lia.
              ** apply ok_app; [tauto|constructor; auto].
           ++ unfold live; cbn [sr sl]. rewrite len_app. change (len [lw]) with 1. lia.
           ++ rewrite wordsOf_seg, <- !app_assoc. reflexivity.
        -- exact B0.
        -- rewrite len_app, Hw0. reflexivity.
        -- intros p. rewrite Ews'. apply bitAt_last. rewrite Hw0. reflexivity.
Qed.
