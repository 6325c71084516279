(** The buffered iterator: what is left to read, and the loops that move words into a container. *)
From Verif Require Import Base Bytes StreamModel EwahModel EwahMarker EwahRep.
From Coq Require Import NArith.
Local Open Scope N_scope.

Definition irepW (it : iter) (segs : list seg) : Prop :=
  rest it = flat segs /\ Forall wfSeg segs /\ Forall live segs /\
  rl it <= 65535 /\ nlw it <= 32767 /\ okWords (lits it).
Definition irep (it : iter) (ws : list N) : Prop :=
  exists segs, irepW it segs /\ (size it = 0 -> segs = []) /\
    ws = fills (rb it) (rl it) ++ lits it ++ expand segs.

Definition mu (it : iter) : nat :=
  ((if (0 <? rl it)%N then 1 else 0) + length (lits it) + length (rest it))%nat.

Lemma irep_ok it ws : irep it ws -> okWords ws.
Proof.
  intros (segs & (_ & H & _ & _ & _ & Hl) & _ & ->).
  apply ok_app; [apply fills_ok|]. apply ok_app; [auto|]. apply expand_ok; auto.
Qed.

Lemma irep_size0 it ws : irep it ws -> size it = 0 -> ws = [].
Proof.
  intros (segs & _ & H & ->) E. rewrite (H E). unfold size, nlw in E.
  replace (rl it) with 0 by lia. destruct (lits it); [reflexivity|cbn in E; lia].
Qed.

Lemma load_seg s r : wfSeg s ->
  load (mk (sb s) (sr s) (len (sl s))) (sl s ++ r) = Done (mkIter (sb s) (sr s) (sl s) r).
Proof.
  intros (H1 & H2 & H3). unfold load. rewrite litCount_mk, runBit_mk, runLen_mk by lia.
  assert (E : N.to_nat (len (sl s)) = length (sl s)) by (unfold len; lia). rewrite E.
  rewrite app_length. rewrite (proj2 (Nat.leb_le _ _)) by lia.
  rewrite firstn_app, Nat.sub_diag, firstn_all, firstn_O, app_nil_r.
  rewrite skipn_app, Nat.sub_diag, skipn_all, skipn_O. reflexivity.
Qed.

Lemma next_nil it : irepW it [] ->
  next it = Done (false, mkIter (rb it) 0 [] []) /\ irep (mkIter (rb it) 0 [] []) [].
Proof.
  intros (H1 & H2 & H3 & H4). unfold next. rewrite H1. cbn. split; [reflexivity|].
  exists []. repeat split; auto; cbn; try lia. constructor.
Qed.

Lemma next_cons it s segs : irepW it (s :: segs) ->
  exists it', next it = Done (true, it') /\ irep it' (expand (s :: segs)) /\
    (mu it' <= length (rest it))%nat /\ (length (rest it') < length (rest it))%nat.
Proof.
  intros (H1 & H2 & H3 & H4). inversion H2; subst. inversion H3; subst.
  unfold next. rewrite H1. cbn [flat flat_map flatSeg app].
  unfold rbind. rewrite load_seg by auto. eexists. split; [reflexivity|].
  destruct H5 as (Ha & Hb & Hc). cbn [expand flat_map]. split; [|unfold mu; cbn [rl lits rest]].
  - exists segs. repeat split; cbn [rb rl lits rest]; auto.
    + unfold size, nlw; cbn. unfold live, len in H7. lia.
    + unfold wordsOf. rewrite <- app_assoc. reflexivity.
  - cbn [length]. rewrite app_length. destruct (0 <? sr s); lia.
Qed.

Lemma skipn_fills b n x t : x <= n -> skipn (N.to_nat x) (fills b n ++ t) = fills b (n - x) ++ t.
Proof.
  intros H. rewrite <- (fills_app b x (n - x)) || replace n with (x + (n - x)) at 1 by lia.
  rewrite <- fills_app, <- app_assoc, skipn_app, fills_len, Nat.sub_diag, skipn_O.
  rewrite skipn_all2 by (rewrite fills_len; lia). reflexivity.
Qed.
Lemma firstn_fills b n x t : x <= n -> firstn (N.to_nat x) (fills b n ++ t) = fills b x.
Proof.
  intros H. replace n with (x + (n - x)) at 1 by lia.
  rewrite <- fills_app, <- app_assoc, firstn_app, fills_len, Nat.sub_diag, firstn_O, app_nil_r.
  rewrite firstn_all2 by (rewrite fills_len; lia). reflexivity.
Qed.
Lemma skipn_skipn {A} n m (l : list A) : skipn n (skipn m l) = skipn (m + n) l.
Proof.
  revert l; induction m as [|m IH]; intros l; [reflexivity|].
  destruct l; [rewrite !skipn_nil; reflexivity|]. apply IH.
Qed.
Lemma skipn_past {A} (a b : list A) n : (length a <= n)%nat -> skipn n (a ++ b) = skipn (n - length a) b.
Proof. intros H. rewrite skipn_app, (skipn_all2 a) by lia. reflexivity. Qed.
Lemma firstn_past {A} (a b : list A) n : (length a <= n)%nat -> firstn n (a ++ b) = a ++ firstn (n - length a) b.
Proof. intros H. rewrite firstn_app, (firstn_all2 a) by lia. reflexivity. Qed.
Lemma skipn_in {A} (a b : list A) n : (n <= length a)%nat -> skipn n (a ++ b) = skipn n a ++ b.
Proof. intros H. rewrite skipn_app. replace (n - length a)%nat with O by lia. reflexivity. Qed.
Lemma firstn_in {A} (a b : list A) n : (n <= length a)%nat -> firstn n (a ++ b) = firstn n a.
Proof. intros H. rewrite firstn_app. replace (n - length a)%nat with O by lia. rewrite firstn_O, app_nil_r. reflexivity. Qed.

Lemma ok_firstn n l : okWords l -> okWords (firstn n l).
Proof. unfold okWords. intros H. rewrite <- (firstn_skipn n) in H. apply Forall_app in H. tauto. Qed.
Lemma ok_skipn n l : okWords l -> okWords (skipn n l).
Proof. unfold okWords. intros H. rewrite <- (firstn_skipn n) in H. apply Forall_app in H. tauto. Qed.

Lemma discardFirst_0 f it : discardFirst f 0 it = Done it.
Proof. destruct f; reflexivity. Qed.

Lemma discardFirst_spec fuel : forall x it ws, irep it ws -> (length (rest it) < fuel)%nat ->
  exists it', discardFirst fuel x it = Done it' /\ irep it' (skipn (N.to_nat x) ws) /\
    (mu it' <= mu it)%nat /\ (length (rest it') <= length (rest it))%nat /\
    (0 < x -> size it <= x -> size it' = 0 \/ (length (rest it') < length (rest it))%nat).
Proof.
  induction fuel as [|f IH]; intros x it ws H Hf; [lia|].
  cbn [discardFirst]. destruct (N.eqb_spec x 0) as [->|Hx].
  { exists it. repeat split; auto. lia. }
  destruct H as (segs & (H1 & H2 & H3 & H4 & H5 & H6) & H7 & ->).
  destruct (N.ltb_spec x (rl it)) as [L|L].
  { eexists. split; [reflexivity|]. cbn [rl lits rest rb]. split; [|unfold mu; cbn [rl lits rest]].
    - exists segs. repeat split; cbn [rb rl lits rest]; auto; try lia.
      + unfold size, nlw; cbn [rl lits]. lia.
      + rewrite skipn_fills by lia. reflexivity.
    - split; [|split; [lia|unfold size; lia]].
      rewrite !(proj2 (N.ltb_lt _ _)) by lia. lia. }
  set (x1 := x - rl it).
  set (d := if nlw it <? x1 then nlw it else x1).
  assert (Hd : d = N.min (nlw it) x1) by (unfold d; destruct (N.ltb_spec (nlw it) x1); lia).
  set (it1 := mkIter (rb it) 0 (skipn (N.to_nat d) (lits it)) (rest it)).
  assert (W1 : irepW it1 segs).
  { repeat split; cbn; auto; try lia.
    - unfold nlw in *; cbn. rewrite skipn_length. lia.
    - apply ok_skipn; auto. }
  assert (Ews : skipn (N.to_nat x) (fills (rb it) (rl it) ++ lits it ++ expand segs) =
                skipn (N.to_nat x1) (lits it ++ expand segs)).
  { rewrite skipn_past by (rewrite fills_len; lia). rewrite fills_len. f_equal. unfold x1. lia. }
  rewrite Ews.
  assert (Emu : (mu it1 <= mu it)%nat).
  { unfold mu, it1; cbn. rewrite skipn_length. destruct (0 <? rl it); lia. }
  assert (Es1 : size it1 = nlw it - d) by (unfold size, nlw, it1; cbn; rewrite skipn_length; lia).
  destruct ((0 <? x1 - d) || (size it1 =? 0))%bool eqn:Ec.
  - assert (Ed : d = nlw it).
    { apply orb_true_iff in Ec. destruct Ec as [Ec|Ec]; [apply N.ltb_lt in Ec|apply N.eqb_eq in Ec]; lia. }
    assert (Ews2 : skipn (N.to_nat x1) (lits it ++ expand segs) = skipn (N.to_nat (x1 - d)) (expand segs)).
    { rewrite skipn_past by (unfold nlw in *; lia). f_equal. rewrite Ed. unfold nlw. lia. }
    rewrite Ews2. destruct segs as [|s segs].
    + destruct (next_nil it1 W1) as [En Er]. rewrite En. cbn [rbind].
      eexists. split; [reflexivity|]. cbn [expand flat_map]. rewrite skipn_nil. split; [exact Er|].
      unfold mu; cbn. split; [lia|]. split; [lia|]. intros; left; reflexivity.
    + destruct (next_cons it1 s segs W1) as (it2 & En & Er & Em & El). rewrite En. cbn [rbind].
      change (rest it1) with (rest it) in *.
      destruct (IH (x1 - d) it2 _ Er) as (it3 & E3 & R3 & M3 & L3 & _); [lia|].
      exists it3. split; [exact E3|]. split; [exact R3|]. unfold mu in *. split; [lia|]. split; [lia|].
      intros; right; lia.
  - apply orb_false_iff in Ec. destruct Ec as [Ec1 Ec2]. apply N.ltb_ge in Ec1. apply N.eqb_neq in Ec2.
    assert (x1 - d = 0) as -> by lia. rewrite discardFirst_0.
    exists it1. split; [reflexivity|]. split; [|repeat split; auto; unfold size in *; lia].
    exists segs. split; [exact W1|]. split; [lia|]. cbn [rb rl lits rest it1].
    assert (x1 = d) by lia. rewrite H. unfold it1; cbn [rb rl lits rest]. rewrite fills_0. cbn [app].
    rewrite skipn_in by (unfold nlw in *; lia). reflexivity.
Qed.

Lemma discharge_spec fuel : forall c it index max cw ws, rep c cw -> irep it ws -> index <= max ->
  (length (rest it) < fuel)%nat ->
  exists c' it', discharge fuel c it index max = Done (c', it', index + N.min (max - index) (len ws)) /\
    rep c' (cw ++ firstn (N.to_nat (max - index)) ws) /\ bits c' = bits c /\
    irep it' (skipn (N.to_nat (max - index)) ws) /\ (mu it' <= mu it)%nat /\
    (length (rest it') <= length (rest it))%nat.
Proof.
  induction fuel as [|f IH]; intros c it index max cw ws Hc H Hi Hf; [lia|].
  cbn [discharge]. destruct H as (segs & (H1 & H2 & H3 & H4 & H5 & H6) & H7 & ->).
  destruct (N.ltb_spec max (index + rl it)) as [L|L].
  { destruct (fastAddEmpty_rep0 (rb it) (max - index) c cw Hc) as [R B].
    do 2 eexists. split; [|split; [|split; [exact B|]]].
    - f_equal. f_equal. unfold len. rewrite app_length, fills_len. lia.
    - rewrite firstn_fills by lia. exact R.
    - split; [|unfold mu; cbn [rl lits rest]; split; [|lia]].
      + exists segs. repeat split; cbn [rb rl lits rest]; auto; try lia.
        * unfold size; cbn [rl]. lia.
        * rewrite skipn_fills by lia. reflexivity.
      + rewrite !(proj2 (N.ltb_lt _ _)) by lia. lia. }
  destruct (fastAddEmpty_rep0 (rb it) (rl it) c cw Hc) as [R B].
  set (c1 := fastAddEmpty (rb it) (rl it) c) in *. clearbody c1.
  set (T := fills (rb it) (rl it)) in *.
  assert (LT : length T = N.to_nat (rl it)) by apply fills_len.
  assert (LTn : len (T ++ lits it ++ expand segs) = rl it + nlw it + len (expand segs)).
  { rewrite !len_app. unfold len at 1, nlw. rewrite LT. unfold len. lia. }
  destruct (N.ltb_spec max (nlw it + (index + rl it))) as [L2|L2].
  { destruct (addDirty_rep' (S (S f)) (firstn (N.to_nat (max - (index + rl it))) (lits it)) c1 _ R)
      as (c2 & E2 & R2 & B2); [apply ok_firstn; auto| |lia|].
    { unfold len, nlw in *. rewrite firstn_length. lia. }
    rewrite E2. cbn [rbind]. exists c2; eexists. split; [|split; [|split; [congruence|]]].
    - f_equal. f_equal. lia.
    - rewrite firstn_past by lia. rewrite LT. rewrite firstn_in by (unfold nlw in *; lia).
      rewrite <- app_assoc in R2. replace (N.to_nat (max - index) - N.to_nat (rl it))%nat
        with (N.to_nat (max - (index + rl it))) by lia. exact R2.
    - split; [|unfold mu; cbn [rl lits rest]; split; [|lia]].
      + exists segs. repeat split; cbn [rb rl lits rest]; auto; try lia.
        * unfold nlw in *; cbn. rewrite skipn_length. lia.
        * apply ok_skipn; auto.
        * unfold size, nlw in *; cbn [rl lits]. rewrite skipn_length. lia.
        * rewrite skipn_past by lia. rewrite LT. rewrite skipn_in by (unfold nlw in *; lia).
          rewrite fills_0. cbn [app]. do 2 f_equal. lia.
      + rewrite skipn_length. cbn. destruct (0 <? rl it); lia. }
  destruct (addDirty_rep' (S (S f)) (lits it) c1 _ R) as (c2 & E2 & R2 & B2); [auto|exact H5|lia|].
  rewrite E2. cbn [rbind]. rewrite <- app_assoc in R2.
  destruct segs as [|s segs].
  - destruct (next_nil it) as [En Er]; [repeat split; auto|]. rewrite En. cbn [rbind].
    cbn [expand flat_map]. rewrite app_nil_r in *.
    assert (length (T ++ lits it) <= N.to_nat (max - index))%nat by (rewrite app_length; unfold nlw in *; lia).
    exists c2; eexists. split; [|split; [|split; [congruence|]]].
    + f_equal. f_equal. unfold len. rewrite app_length, LT. unfold nlw in *. lia.
    + rewrite firstn_all2 by lia. exact R2.
    + rewrite skipn_all2 by lia. split; [exact Er|]. unfold mu; cbn. lia.
  - destruct (next_cons it s segs) as (it2 & En & Er & Em & El); [repeat split; auto|]. rewrite En. cbn [rbind].
    destruct (IH c2 it2 (index + rl it + nlw it) max _ _ R2 Er) as (c3 & it3 & E3 & R3 & B3 & I3 & M3 & L3); [lia|lia|].
    exists c3, it3.
    replace (N.to_nat (max - (index + rl it + nlw it))) with (N.to_nat (max - index) - length (T ++ lits it))%nat in R3, I3
      by (rewrite app_length, LT; unfold nlw; lia).
    split; [|split; [|split; [congruence|split]]].
    + rewrite E3. f_equal. f_equal. rewrite LTn. lia.
    + rewrite (app_assoc T). rewrite firstn_past by (rewrite app_length, LT; unfold nlw in *; lia).
      rewrite <- app_assoc in R3. exact R3.
    + rewrite (app_assoc T), skipn_past by (rewrite app_length, LT; unfold nlw in *; lia). exact I3.
    + unfold mu in *. lia.
Qed.

Lemma neg_fills b n : map (N.lxor ones) (fills b n) = fills (negb b) n.
Proof.
  unfold fills. assert (E : N.lxor ones (fill b) = fill (negb b)) by (destruct b; reflexivity).
  rewrite <- E. induction (N.to_nat n); [reflexivity|]. cbn [repeat map]. rewrite IHn0. reflexivity.
Qed.

Lemma dischargeNegated_stop fuel c it index max : (max <= index \/ size it = 0) ->
  dischargeNegated fuel c it index max = Done (c, it, index).
Proof.
  intros H. assert (E : ((index <? max) && (0 <? size it))%bool = false).
  { apply andb_false_iff. destruct H; [left; apply N.ltb_ge; lia|right; apply N.ltb_ge; lia]. }
  destruct fuel; cbn [dischargeNegated]; rewrite E; reflexivity.
Qed.

Lemma dischargeNegated_spec fuel : forall c it index max cw ws, rep c cw -> irep it ws -> index <= max ->
  len cw + len ws <= 32767 -> (length (rest it) < fuel)%nat ->
  exists c' it', dischargeNegated fuel c it index max = Done (c', it', index + N.min (max - index) (len ws)) /\
    rep c' (cw ++ map (N.lxor ones) (firstn (N.to_nat (max - index)) ws)) /\ bits c' = bits c /\
    irep it' (skipn (N.to_nat (max - index)) ws) /\ (mu it' <= mu it)%nat /\
    (length (rest it') <= length (rest it))%nat.
Proof.
  induction fuel as [|f IH]; intros c it index max cw ws Hc H Hi HL Hf; [lia|].
  destruct (N.eq_dec index max) as [->|Hne].
  { rewrite dischargeNegated_stop by (left; lia). rewrite N.sub_diag. cbn [N.to_nat firstn skipn map].
    exists c, it. rewrite app_nil_r, N.min_0_l, N.add_0_r. auto 10. }
  destruct (N.eq_dec (size it) 0) as [Hs|Hs].
  { rewrite dischargeNegated_stop by (right; lia). pose proof (irep_size0 it ws H Hs) as E. subst ws.
    rewrite firstn_nil, skipn_nil. change (len (@nil N)) with 0. rewrite N.min_0_r, N.add_0_r.
    exists c, it. cbn [map]. rewrite app_nil_r. auto 10. }
  cbn [dischargeNegated].
  rewrite (proj2 (N.ltb_lt index max)) by lia. rewrite (proj2 (N.ltb_lt 0 (size it))) by lia. cbn [andb].
  pose proof H as (segs & (H1 & H2 & H3 & H4 & H5 & H6) & H7 & Ews).
  set (pl := if max <? index + rl it then max - index else rl it).
  assert (Hpl : pl = N.min (max - index) (rl it)) by (unfold pl; destruct (N.ltb_spec max (index + rl it)); lia).
  set (pd := if max <? nlw it + (index + pl) then max - (index + pl) else nlw it).
  assert (Hpd : pd = N.min (max - index - pl) (nlw it)) by (unfold pd; destruct (N.ltb_spec max (nlw it + (index + pl))); lia).
  clearbody pl pd.
  destruct (fastAddEmpty_rep0 (negb (rb it)) pl c cw Hc) as [R B].
  set (c1 := fastAddEmpty (negb (rb it)) pl c) in *. clearbody c1.
  assert (Ll : len (firstn (N.to_nat pd) (lits it)) = pd) by (unfold len; rewrite firstn_length; unfold nlw in *; lia).
  assert (Lws : rl it + nlw it <= len ws).
  { rewrite Ews, !len_app. unfold len at 1. rewrite fills_len. unfold nlw, len. lia. }
  destruct (addNegatedDirty_rep (S (S f)) (firstn (N.to_nat pd) (lits it)) c1 _ R) as (c2 & E2 & R2 & B2).
  { apply ok_firstn; auto. }
  { rewrite len_app, Ll. unfold len at 2. rewrite fills_len. lia. }
  rewrite E2. cbn [rbind].
  destruct (discardFirst_spec (S (S f)) (pl + pd) it ws H) as (it2 & E3 & I3 & M3 & L3 & D3); [lia|].
  rewrite E3. cbn [rbind].
  assert (Efst : firstn (N.to_nat (pl + pd)) ws = fills (rb it) pl ++ firstn (N.to_nat pd) (lits it)).
  { rewrite Ews. destruct (N.lt_ge_cases (max - index) (rl it)) as [G|G].
    - assert (pd = 0) as -> by lia. rewrite N.add_0_r. cbn [N.to_nat firstn]. rewrite app_nil_r.
      apply firstn_fills. lia.
    - assert (Epl : pl = rl it) by lia. rewrite Epl. rewrite firstn_past by (rewrite fills_len; lia). rewrite fills_len.
      rewrite firstn_in by (unfold nlw in *; lia). do 2 f_equal. lia. }
  assert (R2' : rep c2 (cw ++ map (N.lxor ones) (firstn (N.to_nat (pl + pd)) ws))).
  { rewrite Efst, map_app, neg_fills. rewrite <- app_assoc in R2. exact R2. }
  set (a := N.to_nat (pl + pd)) in *.
  assert (Hcase : index + pl + pd = max \/ (size it2 = 0) \/ (length (rest it2) < length (rest it))%nat).
  { destruct (N.eq_dec (index + pl + pd) max) as [|Hn]; [auto|]. right. apply D3; unfold size in *; lia. }
  assert (Hcomb : exists c' it', dischargeNegated f c2 it2 (index + pl + pd) max =
      Done (c', it', index + pl + pd + N.min (max - (index + pl + pd)) (len (skipn a ws))) /\
    rep c' ((cw ++ map (N.lxor ones) (firstn a ws)) ++ map (N.lxor ones) (firstn (N.to_nat (max - (index + pl + pd))) (skipn a ws))) /\ bits c' = bits c2 /\
    irep it' (skipn (N.to_nat (max - (index + pl + pd))) (skipn a ws)) /\ (mu it' <= mu it2)%nat /\
    (length (rest it') <= length (rest it2))%nat).
  { destruct Hcase as [G|[G|G]].
    - rewrite dischargeNegated_stop by (left; lia). rewrite G, N.sub_diag. cbn [N.to_nat firstn].
      exists c2, it2. cbn [map]. rewrite app_nil_r, N.min_0_l, N.add_0_r, skipn_O. auto 10.
    - rewrite dischargeNegated_stop by (right; lia). pose proof (irep_size0 it2 _ I3 G) as E. rewrite E.
      rewrite firstn_nil, skipn_nil. change (len (@nil N)) with 0. rewrite N.min_0_r, N.add_0_r.
      exists c2, it2. cbn [map]. rewrite app_nil_r. rewrite <- E. auto 10.
    - apply IH; auto; try lia. rewrite len_app. unfold len at 2 3. rewrite map_length, firstn_length, skipn_length.
      unfold len in *. lia. }
  destruct Hcomb as (c' & it' & E4 & R4 & B4 & I4 & M4 & L4). exists c', it'.
  assert (Ea : (a + N.to_nat (max - (index + pl + pd)) = N.to_nat (max - index))%nat) by (unfold a; lia).
  rewrite skipn_skipn, Ea in I4. rewrite <- app_assoc, <- map_app in R4.
  assert (Ef : firstn a ws ++ firstn (N.to_nat (max - (index + pl + pd))) (skipn a ws) = firstn (N.to_nat (max - index)) ws).
  { rewrite <- Ea. clear. revert ws. induction a as [|a IH]; intros ws; [reflexivity|].
    destruct ws; [cbn; rewrite firstn_nil; reflexivity|]. cbn. f_equal. apply IH. }
  rewrite Ef in R4. rewrite E4. split; [|split; [exact R4|split; [congruence|split; [exact I4|lia]]]].
  f_equal. f_equal. unfold len in *. rewrite skipn_length. unfold a. lia.
Qed.

Lemma dischargeAll_spec fuel : forall c it cw ws, rep c cw -> irep it ws -> (length (rest it) < fuel)%nat ->
  exists c', dischargeAll fuel c it = Done c' /\ rep c' (cw ++ ws).
Proof.
  induction fuel as [|f IH]; intros c it cw ws Hc H Hf; [lia|].
  cbn [dischargeAll]. destruct (N.eqb_spec (size it) 0) as [Hs|Hs].
  { exists c. rewrite (irep_size0 it ws H Hs), app_nil_r. auto. }
  destruct H as (segs & (H1 & H2 & H3 & H4 & H5 & H6) & H7 & ->).
  destruct (fastAddEmpty_rep0 (rb it) (rl it) c cw Hc) as [R B].
  destruct (addDirty_rep' (S (S f)) (lits it) _ _ R) as (c2 & E2 & R2 & B2); [auto|exact H5|lia|].
  rewrite E2. cbn [rbind]. rewrite <- app_assoc in R2.
  destruct segs as [|s segs].
  - destruct (next_nil it) as [En Er]; [repeat split; auto|]. rewrite En. cbn [rbind].
    exists c2. cbn [expand flat_map]. rewrite app_nil_r. auto.
  - destruct (next_cons it s segs) as (it2 & En & Er & Em & El); [repeat split; auto|]. rewrite En. cbn [rbind].
    destruct (IH c2 it2 _ _ R2 Er) as (c3 & E3 & R3); [lia|]. exists c3. split; [exact E3|].
    rewrite <- !app_assoc in R3. exact R3.
Qed.

Lemma discardRun_spec it ws : irep it ws -> 0 < rl it ->
  exists it', discardRun it = Done it' /\ irep it' (skipn (N.to_nat (rl it)) ws) /\
    (mu it' < mu it)%nat /\ (length (rest it') <= length (rest it))%nat.
Proof.
  intros (segs & (H1 & H2 & H3 & H4 & H5 & H6) & H7 & ->) Hr. unfold discardRun.
  rewrite skipn_past by (rewrite fills_len; lia). rewrite fills_len, Nat.sub_diag, skipn_O. cbn [lits].
  assert (W : irepW (mkIter (rb it) 0 (lits it) (rest it)) segs) by (repeat split; cbn; auto; lia).
  assert (Em : mu it = (1 + length (lits it) + length (rest it))%nat).
  { unfold mu. rewrite (proj2 (N.ltb_lt _ _)) by lia. reflexivity. }
  destruct (lits it) as [|x l] eqn:El.
  - destruct segs as [|s segs].
    + destruct (next_nil _ W) as [En Er]. rewrite En. cbn [rbind]. eexists. split; [reflexivity|]. split; [exact Er|].
      unfold mu at 1. cbn. lia.
    + destruct (next_cons _ s segs W) as (it2 & En & Er & Em2 & El2). rewrite En. cbn [rbind].
      exists it2. split; [reflexivity|]. split; [exact Er|]. cbn [rest length] in *. lia.
  - eexists. split; [reflexivity|]. split.
    + exists segs. split; [exact W|]. split; [unfold size, nlw; cbn; lia|]. reflexivity.
    + unfold mu at 1. cbn [rl lits rest]. cbn. cbn in Em. lia.
Qed.

Lemma discardLits_spec n it ws : irep it ws -> rl it = 0 -> (0 < n <= length (lits it))%nat ->
  exists it', discardLits n it = Done it' /\ irep it' (skipn n ws) /\
    (mu it' < mu it)%nat /\ (length (rest it') <= length (rest it))%nat.
Proof.
  intros (segs & (H1 & H2 & H3 & H4 & H5 & H6) & H7 & ->) Hr Hn. unfold discardLits. cbn [lits].
  rewrite Hr, fills_0. cbn [app]. rewrite skipn_in by lia.
  assert (W : irepW (mkIter (rb it) 0 (skipn n (lits it)) (rest it)) segs).
  { repeat split; cbn; auto; try lia; [|apply ok_skipn; auto]. unfold nlw in *; cbn. rewrite skipn_length. lia. }
  assert (Em : mu it = (length (lits it) + length (rest it))%nat) by (unfold mu; rewrite Hr; reflexivity).
  pose proof (skipn_length n (lits it)) as Ls.
  destruct (skipn n (lits it)) as [|x l] eqn:El.
  - cbn [app]. destruct segs as [|s segs].
    + destruct (next_nil _ W) as [En Er]. rewrite En. cbn [rbind]. eexists. split; [reflexivity|]. split; [exact Er|].
      unfold mu at 1. cbn. lia.
    + destruct (next_cons _ s segs W) as (it2 & En & Er & Em2 & El2). rewrite En. cbn [rbind].
      exists it2. split; [reflexivity|]. split; [exact Er|]. cbn [rest length] in *. lia.
  - eexists. split; [reflexivity|]. split.
    + exists segs. split; [exact W|]. split; [unfold size, nlw; cbn; lia|]. reflexivity.
    + unfold mu at 1. cbn [rl lits rest]. cbn [length] in *. cbn. lia.
Qed.
