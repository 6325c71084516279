(** What a buffer of marker and literal words stands for, and how additions change it. *)
From Verif Require Import Base Bytes StreamModel EwahModel EwahMarker.
From Coq Require Import NArith.
Local Open Scope N_scope.

Record seg := Seg { sb : bool; sr : N; sl : list N }.
Definition len {A} (l : list A) : N := N.of_nat (length l).
Definition flatSeg (s : seg) : list N := mk (sb s) (sr s) (len (sl s)) :: sl s.
Definition flat (l : list seg) : list N := flat_map flatSeg l.
Definition fill (b : bool) : N := if b then ones else 0.
Definition fills (b : bool) (n : N) : list N := repeat (fill b) (N.to_nat n).
Definition wordsOf (s : seg) : list N := fills (sb s) (sr s) ++ sl s.
Lemma wordsOf_seg b r l : wordsOf (Seg b r l) = fills b r ++ l.
Proof. reflexivity. Qed.
Definition expand (l : list seg) : list N := flat_map wordsOf l.
Definition okWords (l : list N) : Prop := Forall (fun w => w < 2 ^ 32) l.
Definition wfSeg (s : seg) : Prop := sr s <= 65535 /\ len (sl s) <= 32767 /\ okWords (sl s).
Definition live (s : seg) : Prop := 0 < sr s + len (sl s).

(** The buffer of [c] is [pre] followed by the segment [s] of the last marker. *)
Definition repW (c : ewah) (pre : list seg) (s : seg) : Prop :=
  buf c = flat pre ++ flatSeg s /\ last c = length (flat pre) /\
  Forall wfSeg pre /\ wfSeg s /\ Forall live pre.
(** ... and the last segment is not empty, or it is the only one. *)
Definition rep (c : ewah) (ws : list N) : Prop :=
  exists pre s, repW c pre s /\ (pre = [] \/ live s) /\ ws = expand pre ++ wordsOf s.
Definition repL (c : ewah) (ws : list N) : Prop :=
  exists pre s, repW c pre s /\ live s /\ ws = expand pre ++ wordsOf s.

Lemma repL_rep c ws : repL c ws -> rep c ws.
Proof. intros (pre & s & H1 & H2 & H3). exists pre, s. auto. Qed.

Lemma rep_empty : rep empty [].
Proof.
  exists [], (Seg false 0 []). split; [|split; [left; reflexivity|reflexivity]].
  repeat split; cbn; try constructor; unfold len; cbn; lia.
Qed.

Lemma fills_app b n m : fills b n ++ fills b m = fills b (n + m).
Proof. unfold fills. rewrite <- repeat_app. f_equal. lia. Qed.
Lemma fills_0 b : fills b 0 = [].
Proof. reflexivity. Qed.
Lemma fills_len b n : length (fills b n) = N.to_nat n.
Proof. apply repeat_length. Qed.
Lemma fills_1 b : fills b 1 = [fill b].
Proof. reflexivity. Qed.
Lemma len_app {A} (a b : list A) : len (a ++ b) = len a + len b.
Proof. unfold len. rewrite app_length. lia. Qed.
Lemma fill_ok b : fill b < 2 ^ 32.
Proof. destruct b; reflexivity. Qed.
Lemma fills_ok b n : okWords (fills b n).
Proof. unfold okWords, fills. apply Forall_forall. intros w Hw. apply repeat_spec in Hw. subst. apply fill_ok. Qed.
Lemma ok_app a b : okWords a -> okWords b -> okWords (a ++ b).
Proof. intros. apply Forall_app; auto. Qed.

Lemma expand_ok l : Forall wfSeg l -> okWords (expand l).
Proof.
  induction 1 as [|s l (H1 & H2 & H3) F IH]; [constructor|]. cbn. unfold wordsOf.
  apply ok_app; [apply ok_app; [apply fills_ok|auto]|auto].
Qed.

Lemma upd_app l1 x l2 f : upd (length l1) f (l1 ++ x :: l2) = l1 ++ f x :: l2.
Proof. induction l1; cbn; congruence. Qed.

Lemma lastMarker_rep c pre s : repW c pre s -> lastMarker c = mk (sb s) (sr s) (len (sl s)).
Proof.
  intros (H1 & H2 & _). unfold lastMarker. rewrite H1, H2. unfold flatSeg.
  rewrite app_nth2 by lia. rewrite Nat.sub_diag. reflexivity.
Qed.

Lemma updLast_buf c pre s f : repW c pre s ->
  updLast f c = mkEwah (flat pre ++ f (mk (sb s) (sr s) (len (sl s))) :: sl s) (bits c) (last c).
Proof.
  intros (H1 & H2 & _). unfold updLast. rewrite H1, H2. unfold flatSeg. rewrite upd_app. reflexivity.
Qed.

Lemma flat_snoc pre s : flat (pre ++ [s]) = flat pre ++ flatSeg s.
Proof. unfold flat. rewrite flat_map_app. cbn. rewrite app_nil_r. reflexivity. Qed.
Lemma expand_snoc pre s : expand (pre ++ [s]) = expand pre ++ wordsOf s.
Proof. unfold expand. rewrite flat_map_app. cbn. rewrite app_nil_r. reflexivity. Qed.

(** Marker updates. *)
Lemma updLast_repW c pre s f b r : repW c pre s ->
  f (mk (sb s) (sr s) (len (sl s))) = mk b r (len (sl s)) -> r <= 65535 ->
  repW (updLast f c) pre (Seg b r (sl s)).
Proof.
  intros H E Hr. rewrite (updLast_buf c pre s f H), E.
  destruct H as (H1 & H2 & H3 & (Ha & Hb & Hc) & H5). repeat split; auto.
Qed.

Lemma pushMarker_repW c pre s b r : repW c pre s -> live s -> r <= 65535 ->
  repW (pushMarker (mk b r 0) c) (pre ++ [s]) (Seg b r []).
Proof.
  intros (H1 & H2 & H3 & H4 & H5) HL Hr. unfold pushMarker, repW. cbn [buf last].
  rewrite flat_snoc, H1. repeat split; auto.
  - apply Forall_app; auto.
  - unfold len; cbn; lia.
  - constructor.
  - apply Forall_app; auto.
Qed.

(** Adding literal words behind an updated marker. *)
Lemma add_lits_repW c pre s ws : repW c pre s -> okWords ws -> len (sl s) + len ws <= 32767 ->
  repW (mkEwah (buf (updLast (fun m => setLitCount m (len (sl s) + len ws)) c) ++ ws) (bits c) (last c))
       pre (Seg (sb s) (sr s) (sl s ++ ws)).
Proof.
  intros H Hw HL. rewrite (updLast_buf c pre s _ H).
  destruct H as (H1 & H2 & H3 & (Ha & Hb & Hc) & H5).
  rewrite setLitCount_mk by lia. repeat split; cbn [buf last bits sb sr sl]; auto.
  - unfold flatSeg; cbn [sb sr sl]. rewrite len_app, <- app_assoc. reflexivity.
  - rewrite len_app. lia.
  - apply ok_app; auto.
Qed.

Lemma addLiteralWord_repW c pre s w : repW c pre s -> w < 2 ^ 32 ->
  repL (addLiteralWord w c) ((expand pre ++ wordsOf s) ++ [w]) /\ bits (addLiteralWord w c) = bits c.
Proof.
  intros H Hw. unfold addLiteralWord.
  rewrite (lastMarker_rep c pre s H). pose proof H as (H1 & H2 & H3 & (Ha & Hb & Hc) & H5).
  rewrite litCount_mk by lia. unfold maxLit. destruct (N.leb_spec 32767 (len (sl s))) as [L|L].
  - split; [|reflexivity].
    assert (Hlive : live s) by (unfold live; lia).
    exists (pre ++ [s]), (Seg false 0 [w]). split; [|split; [unfold live; cbn; lia|]].
    + change (setLitCount 0 1) with (mk false 0 1). unfold repW, push, pushMarker; cbn [buf last].
      rewrite flat_snoc, H1, <- !app_assoc. split; [reflexivity|]. split; [reflexivity|].
      split; [apply Forall_app; split; auto; constructor; auto; repeat split; auto|].
      split; [|apply Forall_app; auto].
      split; [cbn; lia|]. split; [unfold len; cbn; lia|]. constructor; auto.
    + rewrite expand_snoc. rewrite wordsOf_seg. rewrite fills_0. cbn [app].
      reflexivity.
  - split; [|reflexivity].
    exists pre, (Seg (sb s) (sr s) (sl s ++ [w])). split; [|split].
    + apply (add_lits_repW c pre s [w] H); [constructor; auto|unfold len in *; cbn; lia].
    + unfold live; cbn [sr sl]. rewrite len_app. unfold len; cbn. lia.
    + unfold wordsOf; cbn [sb sr sl]. rewrite <- !app_assoc. reflexivity.
Qed.

Lemma addLiteralWord_rep c ws w : rep c ws -> w < 2 ^ 32 ->
  repL (addLiteralWord w c) (ws ++ [w]) /\ bits (addLiteralWord w c) = bits c.
Proof. intros (pre & s & H & _ & ->). apply addLiteralWord_repW; auto. Qed.

Lemma runMarker_mk v n : n <= 65535 -> runMarker v n = mk v n 0.
Proof.
  intros Hn. unfold runMarker.
  assert (E : (if v then setRunBit 0 v else 0) = mk v 0 0) by (destruct v; reflexivity).
  rewrite E. apply setRunLen_mk; lia.
Qed.

Lemma pushRuns k : forall v c ws, repL c ws ->
  repL (Nat.iter k (pushMarker (runMarker v maxRun)) c) (ws ++ fills v (N.of_nat k * 65535)) /\
  bits (Nat.iter k (pushMarker (runMarker v maxRun)) c) = bits c.
Proof.
  induction k as [|k IH]; intros v c ws H.
  - cbn [Nat.iter N.of_nat N.mul]. rewrite fills_0, app_nil_r. auto.
  - destruct (IH v c ws H) as [(pre & s & H1 & H2 & H3) HB]. cbn [Nat.iter].
    split; [|cbn [pushMarker bits]; exact HB].
    rewrite runMarker_mk in * by (unfold maxRun; lia).
    exists (pre ++ [s]), (Seg v maxRun []). split; [|split].
    + apply pushMarker_repW; auto. unfold maxRun. lia.
    + unfold live, maxRun; cbn [sr]. lia.
    + rewrite expand_snoc, <- H3. unfold wordsOf; cbn [sb sr sl]. rewrite app_nil_r, <- app_assoc, fills_app.
      f_equal. f_equal. unfold maxRun. lia.
Qed.

Lemma fastAddEmpty_rep v n c ws : rep c ws -> 0 < n ->
  repL (fastAddEmpty v n c) (ws ++ fills v n) /\ bits (fastAddEmpty v n c) = bits c.
Proof.
  intros (pre & s & H & HL & ->) Hn. unfold fastAddEmpty.
  destruct (N.eqb_spec n 0) as [->|_]; [lia|].
  rewrite (lastMarker_rep c pre s H). pose proof H as (H1 & H2 & H3 & (Ha & Hb & Hc) & H5).
  rewrite runBit_mk, runLen_mk, litCount_mk by lia.
  set (c1 := if (negb (Bool.eqb (sb s) v) && (sr s + len (sl s) =? 0))%bool
             then updLast (fun m => setRunBit m v) c
             else if (negb (len (sl s) =? 0) || negb (Bool.eqb (sb s) v))%bool
                  then pushMarker (if v then setRunBit 0 v else 0) c else c).
  assert (C1 : exists pre1 s1, repW c1 pre1 s1 /\ sb s1 = v /\ sl s1 = [] /\ bits c1 = bits c /\
                 expand pre1 ++ wordsOf s1 = expand pre ++ wordsOf s).
  { unfold c1. destruct (Bool.eqb_spec (sb s) v) as [Ev|Ev]; cbn [negb andb orb].
    - destruct (N.eqb_spec (len (sl s)) 0) as [El|El]; cbn [negb orb].
      + exists pre, s. repeat split; auto. destruct (sl s); [reflexivity|cbn in El; lia].
      + assert (E : (if v then setRunBit 0 v else 0) = mk v 0 0) by (destruct v; reflexivity). rewrite E.
        exists (pre ++ [s]), (Seg v 0 []). split; [apply pushMarker_repW; auto; [unfold live; lia|lia]|].
        split; [reflexivity|]. split; [reflexivity|]. split; [reflexivity|].
        rewrite expand_snoc. rewrite wordsOf_seg, fills_0. cbn [app]. rewrite app_nil_r. reflexivity.
    - destruct (N.eqb_spec (sr s + len (sl s)) 0) as [E0|E0].
      + exists pre, (Seg v (sr s) (sl s)).
        split; [apply updLast_repW; auto; apply setRunBit_mk; lia|].
        split; [reflexivity|]. split; [|split; [reflexivity|]].
        * cbn. destruct (sl s); [reflexivity|cbn in E0; lia].
        * unfold wordsOf; cbn [sb sr sl]. replace (sr s) with 0 by lia. reflexivity.
      + rewrite orb_true_r.
        assert (E : (if v then setRunBit 0 v else 0) = mk v 0 0) by (destruct v; reflexivity). rewrite E.
        exists (pre ++ [s]), (Seg v 0 []). split; [apply pushMarker_repW; auto; [unfold live; lia|lia]|].
        split; [reflexivity|]. split; [reflexivity|]. split; [reflexivity|].
        rewrite expand_snoc. rewrite wordsOf_seg, fills_0. cbn [app]. rewrite app_nil_r. reflexivity. }
  clearbody c1. destruct C1 as (pre1 & s1 & R1 & B1 & L1 & Eb & Ew).
  rewrite (lastMarker_rep c1 pre1 s1 R1). pose proof R1 as (_ & _ & _ & (Ha1 & _) & _).
  rewrite runLen_mk by lia. unfold maxRun.
  set (can := if n <? 65535 - sr s1 then n else 65535 - sr s1).
  assert (Hcan : can <= n /\ sr s1 + can <= 65535 /\ 0 < sr s1 + can).
  { unfold can. destruct (N.ltb_spec n (65535 - sr s1)); lia. }
  assert (R2 : repW (updLast (fun m => setRunLen m (sr s1 + can)) c1) pre1 (Seg v (sr s1 + can) [])).
  { rewrite <- L1. apply updLast_repW; auto; [|lia]. rewrite L1, B1. apply setRunLen_mk; cbn; lia. }
  set (c2 := updLast (fun m => setRunLen m (sr s1 + can)) c1) in *.
  assert (Eb2 : bits c2 = bits c1) by reflexivity. clearbody c2.
  assert (L2 : repL c2 (expand pre ++ wordsOf s ++ fills v can)).
  { exists pre1, (Seg v (sr s1 + can) []). split; [exact R2|]. split; [unfold live; cbn; lia|].
    rewrite app_assoc, <- Ew. unfold wordsOf; cbn [sb sr sl]. rewrite L1, B1, !app_nil_r.
    rewrite <- app_assoc, fills_app. reflexivity. }
  set (k := N.to_nat ((n - can) / 65535)).
  destruct (pushRuns k v c2 _ L2) as [L3 Eb3]. unfold maxRun in L3, Eb3.
  set (c3 := Nat.iter k (pushMarker (runMarker v 65535)) c2) in *.
  assert (DM : n - can = 65535 * ((n - can) / 65535) + (n - can) mod 65535) by (apply N.div_mod; lia).
  pose proof (N.mod_lt (n - can) 65535 ltac:(lia)) as ML.
  assert (Ek : N.of_nat k = (n - can) / 65535) by (unfold k; lia).
  destruct (N.eqb_spec ((n - can) mod 65535) 0) as [E0|E0].
  - split; [|congruence]. rewrite <- !app_assoc in L3. rewrite fills_app in L3. rewrite <- app_assoc.
    replace (can + N.of_nat k * 65535) with n in L3 by lia. exact L3.
  - split; [|cbn [pushMarker bits]; congruence].
    destruct L3 as (pre3 & s3 & R3 & V3 & E3). rewrite runMarker_mk by lia.
    exists (pre3 ++ [s3]), (Seg v ((n - can) mod 65535) []). split; [|split].
    + apply pushMarker_repW; auto. lia.
    + unfold live; cbn [sr]. lia.
    + rewrite expand_snoc, <- E3. rewrite wordsOf_seg. rewrite app_nil_r.
      rewrite <- !app_assoc, !fills_app. do 3 f_equal. lia.
Qed.

Lemma fastAddEmpty_rep0 v n c ws : rep c ws ->
  rep (fastAddEmpty v n c) (ws ++ fills v n) /\ bits (fastAddEmpty v n c) = bits c.
Proof.
  intros H. destruct (N.eq_dec n 0) as [->|Hn].
  - unfold fastAddEmpty. cbn [N.eqb]. rewrite fills_0, app_nil_r. auto.
  - destruct (fastAddEmpty_rep v n c ws H) as [H1 H2]; [lia|]. split; [apply repL_rep|]; auto.
Qed.

Lemma addEmptyWord_repW v c pre s : repW c pre s ->
  repL (addEmptyWord v c) ((expand pre ++ wordsOf s) ++ [fill v]) /\ bits (addEmptyWord v c) = bits c.
Proof.
  intros H. unfold addEmptyWord.
  rewrite (lastMarker_rep c pre s H). pose proof H as (H1 & H2 & H3 & (Ha & Hb & Hc) & H5).
  rewrite runLen_mk, litCount_mk by lia.
  set (c1 := if ((len (sl s) =? 0) && (sr s =? 0))%bool then updLast (fun m => setRunBit m v) c else c).
  assert (C1 : exists s1, repW c1 pre s1 /\ sr s1 = sr s /\ sl s1 = sl s /\ bits c1 = bits c /\
                 wordsOf s1 = wordsOf s /\ (live s -> live s1) /\ (~ live s -> sb s1 = v)).
  { unfold c1. destruct (N.eqb_spec (len (sl s)) 0) as [E1|E1]; cbn [andb].
    - destruct (N.eqb_spec (sr s) 0) as [E2|E2].
      + exists (Seg v (sr s) (sl s)).
        split; [apply updLast_repW; auto; apply setRunBit_mk; lia|].
        split; [reflexivity|]. split; [reflexivity|]. split; [reflexivity|]. split; [|auto].
        unfold wordsOf; cbn [sb sr sl]. rewrite E2. reflexivity.
      + exists s. repeat split; auto. intros N; exfalso; apply N; unfold live; lia.
    - exists s. repeat split; auto. intros N; exfalso; apply N; unfold live; lia. }
  clearbody c1. destruct C1 as (s1 & R1 & Er & El & Eb & Ew & Hl & Hd).
  rewrite (lastMarker_rep c1 pre s1 R1). pose proof R1 as (_ & _ & _ & (Ha1 & _) & _).
  rewrite runBit_mk, runLen_mk, litCount_mk by lia.
  destruct ((len (sl s1) =? 0) && Bool.eqb (sb s1) v && (sr s1 <? maxRun))%bool eqn:E.
  - apply andb_true_iff in E. destruct E as [E E3]. apply andb_true_iff in E. destruct E as [E1 E2].
    apply N.eqb_eq in E1. apply Bool.eqb_prop in E2. apply N.ltb_lt in E3. unfold maxRun in E3.
    assert (El0 : sl s1 = []) by (destruct (sl s1); [reflexivity|cbn in E1; lia]).
    split; [|exact Eb]. exists pre, (Seg v (sr s1 + 1) (sl s1)). split; [|split].
    + apply updLast_repW; auto; [|lia]. rewrite E2. rewrite setRunLen_mk by lia. reflexivity.
    + unfold live; cbn [sr]. lia.
    + rewrite <- Ew. unfold wordsOf; cbn [sb sr sl]. rewrite El0, E2, !app_nil_r, <- app_assoc, <- fills_1, fills_app.
      reflexivity.
  - assert (Hlive : live s1).
    { destruct (N.lt_ge_cases 0 (sr s + len (sl s))) as [G|G]; [apply Hl; exact G|]. exfalso.
      assert (~ live s) by (unfold live; lia). rewrite (Hd H0) in E.
      assert (Ez : len (sl s1) = 0) by (rewrite El; lia). assert (Ez2 : sr s1 = 0) by lia.
      rewrite Ez, Ez2, Bool.eqb_reflx in E. discriminate. }
    assert (E0 : setRunLen (setRunBit 0 v) 1 = mk v 1 0) by (destruct v; reflexivity). rewrite E0.
    split; [|exact Eb]. exists (pre ++ [s1]), (Seg v 1 []). split; [|split].
    + apply pushMarker_repW; auto. lia.
    + unfold live; cbn. lia.
    + rewrite expand_snoc, Ew. rewrite wordsOf_seg. rewrite fills_1. reflexivity.
Qed.

Lemma addEmptyWord_rep v c ws : rep c ws ->
  repL (addEmptyWord v c) (ws ++ [fill v]) /\ bits (addEmptyWord v c) = bits c.
Proof. intros (pre & s & H & _ & ->). apply addEmptyWord_repW; auto. Qed.

Lemma addDirty_rep fuel v c pre s : repW c pre s -> v <> [] -> okWords v -> len v <= 32767 -> (2 <= fuel)%nat ->
  exists c', addDirty fuel v c = Done c' /\ repL c' (expand pre ++ wordsOf s ++ v) /\ bits c' = bits c.
Proof.
  intros H Hv Ho Hl Hf.
  assert (One : forall f c pre s v, repW c pre s -> v <> [] -> okWords v -> len (sl s) + len v <= 32767 ->
     exists c', addDirty (S f) v c = Done c' /\ repL c' (expand pre ++ wordsOf s ++ v) /\ bits c' = bits c).
  { clear. intros f c pre s v H Hv Ho Hl. destruct v as [|x v]; [congruence|]. set (xs := x :: v) in *.
    pose proof H as (H1 & H2 & H3 & (Ha & Hb & Hc) & H5).
    change (addDirty (S f) xs c) with (addDirty (S f) (x :: v) c). cbn [addDirty]. fold xs.
    rewrite (lastMarker_rep c pre s H), litCount_mk by lia. fold (len xs). unfold maxLit.
    rewrite (proj2 (N.leb_le _ _) Hl). eexists. split; [reflexivity|]. split; [|reflexivity].
    exists pre, (Seg (sb s) (sr s) (sl s ++ xs)). split; [apply (add_lits_repW c pre s xs H Ho Hl)|]. split.
    + unfold live; cbn [sr sl]. rewrite len_app. unfold xs, len; cbn. lia.
    + unfold wordsOf; cbn [sb sr sl]. rewrite <- app_assoc. reflexivity. }
  destruct fuel as [|f]; [lia|].
  destruct (N.le_gt_cases (len (sl s) + len v) 32767) as [L|L]; [apply One; auto|].
  destruct v as [|x v]; [congruence|]. set (xs := x :: v) in *.
  change (addDirty (S f) xs c) with (addDirty (S f) (x :: v) c). cbn [addDirty]. fold xs.
  pose proof H as (H1 & H2 & H3 & (Ha & Hb & Hc) & H5).
  rewrite (lastMarker_rep c pre s H), litCount_mk by lia. fold (len xs). unfold maxLit at 1.
  rewrite (proj2 (N.leb_gt _ _)) by lia. unfold maxLit.
  set (can := N.to_nat (32767 - len (sl s))).
  assert (Lc : len (firstn can xs) = 32767 - len (sl s)).
  { unfold len. rewrite firstn_length. unfold can, len in *. lia. }
  assert (R1 := add_lits_repW c pre s (firstn can xs) H).
  replace (len (sl s) + len (firstn can xs)) with 32767 in R1 by lia.
  assert (Hof : okWords (firstn can xs)) by (unfold okWords in *; rewrite <- (firstn_skipn can) in Ho; apply Forall_app in Ho; tauto).
  assert (Hos : okWords (skipn can xs)) by (unfold okWords in *; rewrite <- (firstn_skipn can) in Ho; apply Forall_app in Ho; tauto).
  specialize (R1 Hof ltac:(lia)).
  set (c1 := {| buf := buf (updLast (fun m => setLitCount m 32767) c) ++ firstn can xs; bits := bits c; last := last c |}) in *.
  change {| buf := buf (updLast (fun m : N => setLitCount m 32767) c) ++ firstn can xs;
            bits := bits (updLast (fun m : N => setLitCount m 32767) c);
            last := last (updLast (fun m : N => setLitCount m 32767) c) |} with c1.
  assert (R2 : repW (pushMarker 0 c1) (pre ++ [Seg (sb s) (sr s) (sl s ++ firstn can xs)]) (Seg false 0 [])).
  { change (pushMarker 0 c1) with (pushMarker (mk false 0 0) c1). apply pushMarker_repW; [exact R1| |lia]. unfold live; cbn [sr sl]. rewrite len_app. lia. }
  destruct f as [|f]; [lia|].
  assert (Lrest : len (skipn can xs) = len xs - (32767 - len (sl s))) by (unfold len; rewrite skipn_length; unfold can, len; lia).
  destruct (One f _ _ _ (skipn can xs) R2) as (c' & E' & L' & B').
  - intros E0. apply (f_equal len) in E0. change (len (@nil N)) with 0 in E0. lia.
  - exact Hos.
  - change (len (sl {| sb := false; sr := 0; sl := [] |})) with 0. lia.
  - exists c'. split; [exact E'|]. split; [|exact B'].
    rewrite expand_snoc in L'. rewrite !wordsOf_seg in L'. rewrite fills_0 in L'.
    cbn [app] in L'. rewrite <- !app_assoc, firstn_skipn in L'. unfold wordsOf. rewrite <- !app_assoc. exact L'.
Qed.

(** As used: any words, onto a container. *)
Lemma addDirty_rep' fuel v c ws : rep c ws -> okWords v -> len v <= 32767 -> (2 <= fuel)%nat ->
  exists c', addDirty fuel v c = Done c' /\ rep c' (ws ++ v) /\ bits c' = bits c.
Proof.
  intros (pre & s & H & HL & ->) Ho Hl Hf. destruct v as [|x v].
  - exists c. rewrite app_nil_r. destruct fuel; cbn [addDirty]; (split; [reflexivity|]); (split; [|reflexivity]);
      exists pre, s; auto.
  - destruct (addDirty_rep fuel (x :: v) c pre s) as (c' & E & R & B); auto; [discriminate|].
    exists c'. split; [exact E|]. split; [|exact B]. apply repL_rep. rewrite <- app_assoc. exact R.
Qed.

Lemma neg_ok v : okWords v -> okWords (map (N.lxor ones) v).
Proof. induction 1; constructor; auto. apply lxor_bound; auto. reflexivity. Qed.

Lemma addNegatedDirty_rep fuel v c ws : rep c ws -> okWords v -> len ws + len v <= 32767 ->
  exists c', addNegatedDirty fuel v c = Done c' /\ rep c' (ws ++ map (N.lxor ones) v) /\
    (bits c' = bits c).
Proof.
  intros (pre & s & H & HL & ->) Ho Hl. destruct v as [|x v].
  - exists c. cbn [map]. rewrite app_nil_r. split; [reflexivity|]. split; [|reflexivity]. exists pre, s; auto.
  - set (xs := x :: v) in *. change (addNegatedDirty fuel xs c) with (addNegatedDirty fuel (x :: v) c).
    cbn [addNegatedDirty]. fold xs.
    pose proof H as (H1 & H2 & H3 & (Ha & Hb & Hc) & H5).
    rewrite (lastMarker_rep c pre s H), litCount_mk by lia. fold (len xs). unfold maxLit.
    assert (Lm : len (map (N.lxor ones) xs) = len xs) by (unfold len; rewrite map_length; reflexivity).
    assert (Hs : len (sl s) <= len (expand pre ++ wordsOf s)) by (unfold wordsOf; rewrite !len_app; lia).
    rewrite (proj2 (N.leb_le _ _)) by lia. eexists. split; [reflexivity|]. split; [|reflexivity].
    apply repL_rep. exists pre, (Seg (sb s) (sr s) (sl s ++ map (N.lxor ones) xs)). split; [|split].
    + pose proof (add_lits_repW c pre s (map (N.lxor ones) xs) H (neg_ok _ Ho)) as G.
      rewrite Lm in G. apply G. lia.
    + unfold live; cbn [sr sl]. rewrite len_app, Lm. unfold xs, len; cbn. lia.
    + unfold wordsOf; cbn [sb sr sl]. rewrite <- !app_assoc. reflexivity.
Qed.

Lemma addWord_rep w c ws : rep c ws -> w < 2 ^ 32 -> repL (addWord w c) (ws ++ [w]).
Proof.
  intros H Hw. unfold addWord.
  assert (H' : rep (setBits (bits c + 32) c) ws).
  { destruct H as (pre & s & R & HL & E). exists pre, s. repeat split; try apply R; auto. }
  destruct (N.eqb_spec w 0) as [->|_]; [apply (addEmptyWord_rep false); auto|].
  destruct (N.eqb_spec w ones) as [->|_]; [apply (addEmptyWord_rep true); auto|].
  apply addLiteralWord_rep; auto.
Qed.

Lemma setBits_rep n c ws : rep c ws -> rep (setBits n c) ws.
Proof. intros (pre & s & R & HL & E). exists pre, s. repeat split; try apply R; auto. Qed.

Lemma rep_ok c ws : rep c ws -> okWords ws.
Proof.
  intros (pre & s & (_ & _ & H3 & (Ha & Hb & Hc) & _) & _ & ->).
  apply ok_app; [apply expand_ok; auto|]. apply ok_app; [apply fills_ok|auto].
Qed.
