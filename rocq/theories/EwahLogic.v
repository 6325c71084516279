(** The logical operations, word by word. *)
From Verif Require Import Base Bytes StreamModel EwahModel EwahMarker EwahRep EwahIter.
From Coq Require Import NArith.
Local Open Scope N_scope.

Fixpoint zipn (op : N -> N -> N) (n : nat) (a b : list N) : list N :=
  match n with
  | O => []
  | S n' => op (hd 0 a) (hd 0 b) :: zipn op n' (tl a) (tl b)
  end.

Lemma zipn_length op n : forall a b, length (zipn op n a b) = n.
Proof. induction n; intros; cbn; auto. Qed.

Lemma zipn_app op m n : forall a b, zipn op (m + n) a b = zipn op m a b ++ zipn op n (skipn m a) (skipn m b).
Proof.
  induction m as [|m IH]; intros a b; [reflexivity|]. cbn [Nat.add zipn app]. rewrite IH. do 2 f_equal.
  destruct a; destruct b; cbn [tl skipn]; rewrite ?skipn_nil; reflexivity.
Qed.

Lemma zipn_nth op n : forall k a b, (k < n)%nat -> nth k (zipn op n a b) 0 = op (nth k a 0) (nth k b 0).
Proof.
  induction n as [|n IH]; intros k a b H; [lia|]. destruct k as [|k].
  - destruct a; destruct b; reflexivity.
  - cbn [zipn nth]. rewrite IH by lia. destruct a; destruct b; cbn [tl nth]; destruct k; reflexivity.
Qed.

Lemma zipn_comm op n : (forall x y, op x y = op y x) -> forall a b, zipn op n a b = zipn op n b a.
Proof. intros H. induction n; intros; cbn; [reflexivity|]. rewrite H, IHn. reflexivity. Qed.

Lemma zipn_l op n : forall a t b, (n <= length a)%nat -> zipn op n (a ++ t) b = zipn op n a b.
Proof.
  induction n as [|n IH]; intros a t b H; [reflexivity|]. destruct a as [|x a]; [cbn in H; lia|].
  cbn [zipn app hd tl]. rewrite IH by (cbn in H; lia). reflexivity.
Qed.

Lemma zipn_repeat op v n : forall l,
  zipn op n (repeat v n) l = map (op v) (firstn n l) ++ repeat (op v 0) (n - length l).
Proof.
  induction n as [|n IH]; intros l; [reflexivity|]. cbn [repeat zipn hd tl]. rewrite IH.
  destruct l as [|x l]; cbn [hd tl firstn map app length]; [rewrite firstn_nil, Nat.sub_0_r; reflexivity|].
  rewrite Nat.sub_succ. reflexivity.
Qed.

Lemma zipn_combine op n : forall a b, (n <= length a)%nat -> (n <= length b)%nat ->
  zipn op n a b = map (fun '(x, y) => op x y) (combine (firstn n a) (firstn n b)).
Proof.
  induction n as [|n IH]; intros a b Ha Hb; [reflexivity|].
  destruct a as [|x a]; [cbn in Ha; lia|]. destruct b as [|y b]; [cbn in Hb; lia|].
  cbn [zipn hd tl firstn combine map]. f_equal. apply IH; cbn in *; lia.
Qed.

(** What the treatment of a run must achieve; [L] bounds the words involved. *)
Definition stepOk (op : N -> N -> N) (step : runStep) (L : N) : Prop :=
  forall f c prey b n cw pw, rep c cw -> irep prey pw -> (length (rest prey) < f)%nat ->
    len cw + len pw <= L -> len cw + n <= L ->
    exists c' prey', step f c prey b n = Done (c', prey') /\
      rep c' (cw ++ zipn op (N.to_nat n) (fills b n) pw) /\
      irep prey' (skipn (N.to_nat n) pw) /\ (mu prey' <= mu prey)%nat /\
      (length (rest prey') <= length (rest prey))%nat.

Lemma fills_sub b n (l : list N) : fills b (n - N.min n (len l)) = repeat (fill b) (N.to_nat n - length l).
Proof. unfold fills, len. f_equal. lia. Qed.

Lemma map_id_ok (f : N -> N) l : okWords l -> (forall w, w < 2 ^ 32 -> f w = w) -> map f l = l.
Proof. intros H E. induction H; cbn; [reflexivity|]. rewrite E, IHForall; auto. Qed.

Lemma map_const_ok (f : N -> N) v l : okWords l -> (forall w, w < 2 ^ 32 -> f w = v) -> map f l = repeat v (length l).
Proof. intros H E. induction H; cbn; [reflexivity|]. rewrite E, IHForall; auto. Qed.

Lemma zipn_const op b v n l : okWords l -> (forall w, w < 2 ^ 32 -> op (fill b) w = v) ->
  zipn op (N.to_nat n) (fills b n) l = repeat v (N.to_nat n).
Proof.
  intros H E. unfold fills. rewrite zipn_repeat, (E 0) by reflexivity.
  rewrite (map_const_ok _ v) by (try apply ok_firstn; auto).
  rewrite <- repeat_app, firstn_length. f_equal. lia.
Qed.

Lemma stepOr_ok L : stepOk N.lor stepOr L.
Proof.
  intros f c prey b n cw pw Hc Hp Hf _ _. pose proof (irep_ok _ _ Hp) as Ho. unfold stepOr. destruct b.
  - destruct (discardFirst_spec f n prey pw Hp Hf) as (p' & E & I & M & L' & _). rewrite E. cbn [rbind].
    destruct (fastAddEmpty_rep0 true n c cw Hc) as [R _].
    do 2 eexists. split; [reflexivity|]. split; [|auto].
    rewrite (zipn_const N.lor true ones) by (auto; intros w Hw; rewrite N.lor_comm; apply (ones_lor w 32); auto). exact R.
  - destruct (discharge_spec f c prey 0 n cw pw Hc Hp) as (c1 & p1 & E & R & _ & I & M & L'); [lia|auto|].
    rewrite N.sub_0_r, N.add_0_l in *. rewrite E. cbn [rbind].
    destruct (fastAddEmpty_rep0 false (n - N.min n (len pw)) c1 _ R) as [R2 _].
    do 2 eexists. split; [reflexivity|]. split; [|auto].
    unfold fills at 1. rewrite zipn_repeat. rewrite (map_id_ok (N.lor (fill false))) by (try apply ok_firstn; auto).
    rewrite fills_sub, <- app_assoc in R2. exact R2.
Qed.

Lemma stepXor_ok : stepOk N.lxor stepXor 32767.
Proof.
  intros f c prey b n cw pw Hc Hp Hf HL1 HL2. pose proof (irep_ok _ _ Hp) as Ho. unfold stepXor. destruct b.
  - destruct (dischargeNegated_spec f c prey 0 n cw pw Hc Hp) as (c1 & p1 & E & R & _ & I & M & L'); [lia|auto|auto|].
    rewrite N.sub_0_r, N.add_0_l in *. rewrite E. cbn [rbind].
    destruct (fastAddEmpty_rep0 true (n - N.min n (len pw)) c1 _ R) as [R2 _].
    do 2 eexists. split; [reflexivity|]. split; [|auto].
    unfold fills at 1. rewrite zipn_repeat. rewrite fills_sub, <- app_assoc in R2. exact R2.
  - destruct (discharge_spec f c prey 0 n cw pw Hc Hp) as (c1 & p1 & E & R & _ & I & M & L'); [lia|auto|].
    rewrite N.sub_0_r, N.add_0_l in *. rewrite E. cbn [rbind].
    destruct (fastAddEmpty_rep0 false (n - N.min n (len pw)) c1 _ R) as [R2 _].
    do 2 eexists. split; [reflexivity|]. split; [|auto].
    unfold fills at 1. rewrite zipn_repeat. rewrite (map_id_ok (N.lxor (fill false))) by (try apply ok_firstn; auto).
    rewrite fills_sub, <- app_assoc in R2. exact R2.
Qed.

Lemma stepAnd_ok L : stepOk N.land stepAnd L.
Proof.
  intros f c prey b n cw pw Hc Hp Hf _ _. pose proof (irep_ok _ _ Hp) as Ho. unfold stepAnd. destruct b.
  - destruct (discharge_spec f c prey 0 n cw pw Hc Hp) as (c1 & p1 & E & R & _ & I & M & L'); [lia|auto|].
    rewrite N.sub_0_r, N.add_0_l in *. rewrite E. cbn [rbind].
    destruct (fastAddEmpty_rep0 false (n - N.min n (len pw)) c1 _ R) as [R2 _].
    do 2 eexists. split; [reflexivity|]. split; [|auto].
    unfold fills at 1. rewrite zipn_repeat.
    rewrite (map_id_ok (N.land (fill true))) by (try apply ok_firstn; auto; intros w Hw; rewrite N.land_comm; apply (ones_land w 32); auto).
    rewrite fills_sub, <- app_assoc in R2. exact R2.
  - destruct (discardFirst_spec f n prey pw Hp Hf) as (p' & E & I & M & L' & _). rewrite E. cbn [rbind].
    destruct (fastAddEmpty_rep0 false n c cw Hc) as [R _].
    do 2 eexists. split; [reflexivity|]. split; [|auto].
    rewrite (zipn_const N.land false 0) by (auto; intros; reflexivity). exact R.
Qed.

Section Loops.
  Context (op : N -> N -> N) (step : runStep) (A B : list N) (L : N).
  Context (opC : forall x y, op x y = op y x).
  Context (opB : forall x y, x < 2 ^ 32 -> y < 2 ^ 32 -> op x y < 2 ^ 32).
  Context (st : stepOk op step L).
  Context (LA : len A <= L) (LB : len B <= L).

  Definition Inv (d : nat) (c : ewah) (i j : iter) : Prop :=
    rep c (zipn op d A B) /\ irep i (skipn d A) /\ irep j (skipn d B) /\ (d <= Nat.max (length A) (length B))%nat.

  Lemma Inv_bounds d c i j : Inv d c i j ->
    len (zipn op d A B) + len (skipn d A) <= L /\ len (zipn op d A B) + len (skipn d B) <= L.
  Proof using LA LB.
    clear st opC opB. intros (_ & _ & _ & H). unfold len in *. rewrite zipn_length, !skipn_length. lia.
  Qed.

  Lemma run_split it ws : irep it ws -> (N.to_nat (rl it) <= length ws)%nat /\
    exists t, ws = fills (rb it) (rl it) ++ t.
  Proof using.
    clear. intros (segs & _ & _ & ->). split; [rewrite app_length, fills_len; lia|eauto].
  Qed.

  Lemma runLoop_spec f0 fuel : forall d c i j, Inv d c i j -> (mu i + mu j <= fuel)%nat ->
    (length (rest i) < f0)%nat -> (length (rest j) < f0)%nat ->
    exists d' c' i' j', runLoop step f0 fuel c i j = Done (c', i', j') /\ Inv d' c' i' j' /\
      rl i' = 0 /\ rl j' = 0 /\ (mu i' + mu j' <= mu i + mu j)%nat /\
      (0 < rl i + rl j -> (mu i' + mu j' < mu i + mu j)%nat) /\
      (length (rest i') <= length (rest i))%nat /\ (length (rest j') <= length (rest j))%nat.
  Proof using LA LB opC st.
    clear opB.
    induction fuel as [|f IH]; intros d c i j HI Hf H1 H2.
    - assert (rl i = 0 /\ rl j = 0) as [Ei Ej].
      { unfold mu in Hf. destruct (N.ltb_spec 0 (rl i)); destruct (N.ltb_spec 0 (rl j)); lia. }
      exists d, c, i, j. cbn [runLoop]. rewrite Ei, Ej. cbn [N.ltb orb N.compare]. repeat split; auto; try apply HI; lia.
    - cbn [runLoop]. destruct ((0 <? rl i) || (0 <? rl j))%bool eqn:Ec.
      2:{ apply orb_false_iff in Ec. destruct Ec as [E1 E2]. apply N.ltb_ge in E1, E2.
          exists d, c, i, j. repeat split; auto; try apply HI; lia. }
      assert (Hpos : 0 < rl i \/ 0 < rl j).
      { apply orb_true_iff in Ec. destruct Ec as [E|E]; apply N.ltb_lt in E; auto. }
      pose proof (Inv_bounds _ _ _ _ HI) as [B1 B2]. destruct HI as (Rc & Ri & Rj & Hd).
      destruct (N.ltb_spec (rl i) (rl j)) as [G|G].
      + destruct (run_split j _ Rj) as [Lj [t Et]].
        destruct (st f0 c i (rb j) (rl j) _ _ Rc Ri H1 B1) as (c1 & i1 & E1 & R1 & I1 & M1 & L1).
        { unfold len in *. rewrite zipn_length, skipn_length in *. lia. }
        rewrite E1. cbn [rbind].
        destruct (discardRun_spec j _ Rj) as (j1 & E2 & J1 & M2 & L2); [lia|]. rewrite E2. cbn [rbind].
        rewrite skipn_skipn in I1, J1.
        destruct (IH (d + N.to_nat (rl j))%nat c1 i1 j1) as (d' & c' & i' & j' & E3 & K1 & K2 & K3 & K4 & K5 & K6 & K7); [|lia|lia|lia|].
        * repeat split; auto; [|rewrite skipn_length in Lj; lia].
          rewrite zipn_app. rewrite Et, (zipn_comm op _ opC (skipn d A)), zipn_l by (rewrite fills_len; lia). exact R1.
        * exists d', c', i', j'. split; [exact E3|]. split; [exact K1|]. repeat split; auto; lia.
      + destruct (run_split i _ Ri) as [Li [t Et]].
        destruct (st f0 c j (rb i) (rl i) _ _ Rc Rj H2 B2) as (c1 & j1 & E1 & R1 & J1 & M1 & L1).
        { unfold len in *. rewrite zipn_length, skipn_length in *. lia. }
        rewrite E1. cbn [rbind].
        destruct (discardRun_spec i _ Ri) as (i1 & E2 & I1 & M2 & L2); [lia|]. rewrite E2. cbn [rbind].
        rewrite skipn_skipn in I1, J1.
        destruct (IH (d + N.to_nat (rl i))%nat c1 i1 j1) as (d' & c' & i' & j' & E3 & K1 & K2 & K3 & K4 & K5 & K6 & K7); [|lia|lia|lia|].
        * repeat split; auto; [|rewrite skipn_length in Li; lia].
          rewrite zipn_app. rewrite Et, zipn_l by (rewrite fills_len; lia). exact R1.
        * exists d', c', i', j'. split; [exact E3|]. split; [exact K1|]. repeat split; auto; lia.
  Qed.

  Lemma addWords_rep l : forall c cw, rep c cw -> Forall (fun '(x, y) => x < 2 ^ 32 /\ y < 2 ^ 32) l ->
    rep (fold_left (fun c '(x, y) => addWord (op x y) c) l c) (cw ++ map (fun '(x, y) => op x y) l).
  Proof using opB.
    clear - opB.
    induction l as [|[x y] l IH]; intros c cw H F; cbn [fold_left map].
    - rewrite app_nil_r. auto.
    - inversion F as [|? ? Hxy F']; subst. destruct Hxy as [Hx Hy]. change (op x y :: map (fun '(x0, y0) => op x0 y0) l) with
        ([op x y] ++ map (fun '(x0, y0) => op x0 y0) l). rewrite app_assoc. apply IH; auto.
      apply repL_rep. apply addWord_rep; auto.
  Qed.

  Lemma combine_ok a : forall b, okWords a -> okWords b -> Forall (fun '(x, y) => x < 2 ^ 32 /\ y < 2 ^ 32) (combine a b).
  Proof using.
    clear. induction a; intros b Ha Hb; [constructor|]. destruct b; [constructor|].
    inversion Ha; inversion Hb; subst. cbn [combine]. constructor; auto.
  Qed.

  Lemma opLoop_spec f0 fuel : forall d c i j, Inv d c i j -> (mu i + mu j <= fuel)%nat -> (fuel <= f0)%nat ->
    (length (rest i) < f0)%nat -> (length (rest j) < f0)%nat ->
    exists d' c' i' j', opLoop step op f0 fuel c i j = Done (c', i', j') /\ Inv d' c' i' j' /\
      (size i' = 0 \/ size j' = 0) /\
      (length (rest i') <= length (rest i))%nat /\ (length (rest j') <= length (rest j))%nat.
  Proof using LA LB opC opB st.
    induction fuel as [|f IH]; intros d c i j HI Hf Hf0 H1 H2.
    - cbn [opLoop]. assert (size i = 0 /\ size j = 0) as [Ei Ej].
      { unfold mu in Hf. unfold size, nlw. destruct (N.ltb_spec 0 (rl i)); destruct (N.ltb_spec 0 (rl j)); lia. }
      rewrite Ei. cbn [N.ltb N.compare andb]. exists d, c, i, j. repeat split; auto; apply HI.
    - cbn [opLoop]. destruct ((0 <? size i) && (0 <? size j))%bool eqn:Ec.
      2:{ exists d, c, i, j. split; [reflexivity|]. split; [exact HI|]. split; [|lia].
          apply andb_false_iff in Ec. destruct Ec as [E|E]; apply N.ltb_ge in E; lia. }
      apply andb_true_iff in Ec. destruct Ec as [S1 S2]. apply N.ltb_lt in S1, S2.
      destruct (runLoop_spec f0 f0 d c i j HI) as (d1 & c1 & i1 & j1 & E1 & K1 & Ri & Rj & K4 & K5 & K6 & K7); [lia|auto|auto|].
      rewrite E1. cbn [rbind].
      set (n := Nat.min (length (lits i1)) (length (lits j1))).
      destruct n as [|n'] eqn:En.
      + unfold n in En. destruct (N.eq_dec (rl i + rl j) 0) as [Z|Z].
        * (* no runs at all: the run loop did nothing *)
          exfalso. assert (Es : runLoop step f0 f0 c i j = Done (c, i, j)).
          { destruct f0; cbn [runLoop]; replace (rl i) with 0 by lia; replace (rl j) with 0 by lia; reflexivity. }
          rewrite Es in E1. inversion E1; subst. unfold size, nlw in *. lia.
        * destruct (IH d1 c1 i1 j1 K1) as (d' & c' & i' & j' & E3 & Q1 & Q2 & Q3 & Q4); try lia.
          exists d', c', i', j'. repeat split; auto; try apply Q1; lia.
      + rewrite <- En. fold n. assert (Hn : (0 < n)%nat) by lia.
        destruct K1 as (Rc & Ii & Ij & Hd).
        assert (Hsi : exists t, skipn d1 A = lits i1 ++ t /\ okWords (lits i1)).
        { destruct Ii as (segs & (_ & _ & _ & _ & _ & Hok) & _ & E). rewrite Ri, fills_0 in E. eauto. }
        assert (Hsj : exists t, skipn d1 B = lits j1 ++ t /\ okWords (lits j1)).
        { destruct Ij as (segs & (_ & _ & _ & _ & _ & Hok) & _ & E). rewrite Rj, fills_0 in E. eauto. }
        destruct Hsi as (ti & Ei & Oki). destruct Hsj as (tj & Ej & Okj).
        destruct (discardLits_spec n i1 _ Ii Ri) as (i2 & E2 & I2 & M2 & L2); [lia|].
        destruct (discardLits_spec n j1 _ Ij Rj) as (j2 & E3 & J2 & M3 & L3); [lia|].
        rewrite skipn_skipn in I2, J2.
        assert (RR := addWords_rep (combine (firstn n (lits i1)) (firstn n (lits j1))) c1 _ Rc
                        (combine_ok _ _ (ok_firstn n _ Oki) (ok_firstn n _ Okj))).
        rewrite <- (zipn_combine op n) in RR by lia.
        rewrite E2. cbn [rbind]. rewrite E3. cbn [rbind].
        set (c2 := fold_left (fun c '(x, y) => addWord (op x y) c) (combine (firstn n (lits i1)) (firstn n (lits j1))) c1) in *.
        assert (HI2 : Inv (d1 + n) c2 i2 j2).
        { split; [|split; [exact I2|split; [exact J2|]]].
          - rewrite zipn_app, Ei, Ej. rewrite zipn_l by lia. rewrite (zipn_comm op n opC (lits i1)), zipn_l by lia.
            rewrite (zipn_comm op n opC). exact RR.
          - apply (f_equal (@length N)) in Ei, Ej. rewrite skipn_length, app_length in Ei, Ej. lia. }
        destruct (IH (d1 + n)%nat c2 i2 j2 HI2) as (d' & c' & i' & j' & E4 & Q1 & Q2 & Q3 & Q4); try lia.
        exists d', c', i', j'. split; [exact E4|]. split; [exact Q1|]. split; [exact Q2|]. lia.
  Qed.

  Lemma Inv_start i j : irep i A -> irep j B -> Inv 0 empty i j.
  Proof using. clear. intros. repeat split; auto; [|lia]. apply rep_empty. Qed.
End Loops.

Lemma start_spec c ws : rep c ws -> exists it, start c = Done it /\ irep it ws /\
  (mu it <= length (buf c))%nat /\ (length (rest it) < length (buf c))%nat.
Proof.
  intros (pre & s & (H1 & H2 & H3 & H4 & H5) & HL & ->). unfold start. rewrite H1.
  assert (G : forall s segs, wfSeg s -> Forall wfSeg segs -> Forall live segs -> (live s \/ segs = []) ->
    exists it, load (mk (sb s) (sr s) (len (sl s))) (sl s ++ flat segs) = Done it /\ irep it (wordsOf s ++ expand segs) /\
      (mu it <= S (length (sl s ++ flat segs)))%nat /\ (length (rest it) < S (length (sl s ++ flat segs)))%nat).
  { clear. intros s segs W Ws Ls Hl. rewrite load_seg by auto. eexists. split; [reflexivity|].
    destruct W as (Ha & Hb & Hc). split.
    - exists segs. repeat split; cbn [rb rl lits rest]; auto.
      + unfold size, nlw; cbn. intros E. destruct Hl as [Hl|Hl]; [|auto]. unfold live, len in Hl. lia.
      + unfold wordsOf. rewrite <- app_assoc. reflexivity.
    - unfold mu; cbn [rl lits rest]. rewrite app_length. destruct (0 <? sr s); lia. }
  destruct pre as [|s0 pre].
  - cbn [flat flat_map app flatSeg expand]. destruct (G s [] H4) as (it & E & I & M & R); auto.
    cbn [flat flat_map expand] in *. rewrite !app_nil_r in *. exists it. auto.
  - inversion H3; subst. inversion H5; subst. destruct HL as [HL|HL]; [discriminate|].
    destruct (G s0 (pre ++ [s])) as (it & E & I & M & R); auto.
    { apply Forall_app; auto. } { apply Forall_app; auto. }
    rewrite flat_snoc in E, M, R. rewrite expand_snoc in I. cbn [flat flat_map flatSeg app expand].
    exists it. cbn [length]. fold (flat pre). rewrite <- !app_assoc. fold (expand pre). auto.
Qed.

(** The three operations agree with the bitwise ones on every word. *)
Lemma logicalWith_spec op step a b A B L : (forall x y, op x y = op y x) ->
  (forall x y, x < 2 ^ 32 -> y < 2 ^ 32 -> op x y < 2 ^ 32) -> (forall x, op x 0 = x) ->
  stepOk op step L -> len A <= L -> len B <= L -> rep a A -> rep b B ->
  exists c C, logicalWith step op b a = Done c /\ rep c C /\ length C = Nat.max (length A) (length B) /\
    bits c = N.max (bits a) (bits b) /\ forall k, nth k C 0 = op (nth k A 0) (nth k B 0).
Proof.
  intros opC opB op0 st LA LB Ha Hb. unfold logicalWith.
  destruct (start_spec a A Ha) as (i & Ei & Ii & Mi & Ri). destruct (start_spec b B Hb) as (j & Ej & Ij & Mj & Rj).
  rewrite Ei, Ej. cbn [rbind].
  destruct (opLoop_spec op step A B L opC opB st LA LB (fuelFor b a) (fuelFor b a) 0 empty i j)
    as (d & c & i' & j' & E & (Rc & Ii' & Ij' & Hd) & Hs & L1 & L2); try (unfold fuelFor; lia).
  { apply Inv_start; auto. }
  rewrite E. cbn [rbind].
  assert (Fin : exists c' X, dischargeAll (fuelFor b a) c (if 0 <? size i' then i' else j') = Done c' /\
     rep c' (zipn op d A B ++ X) /\ ((X = skipn d A /\ skipn d B = []) \/ (X = skipn d B /\ skipn d A = []))).
  { destruct (N.ltb_spec 0 (size i')) as [G|G].
    - destruct (dischargeAll_spec (fuelFor b a) c i' _ _ Rc Ii') as (c' & E' & R'); [unfold fuelFor; lia|].
      exists c', (skipn d A). repeat split; auto. left. split; [reflexivity|]. apply (irep_size0 j'); auto. lia.
    - destruct (dischargeAll_spec (fuelFor b a) c j' _ _ Rc Ij') as (c' & E' & R'); [unfold fuelFor; lia|].
      exists c', (skipn d B). repeat split; auto. right. split; [reflexivity|]. apply (irep_size0 i'); auto. lia. }
  destruct Fin as (c' & X & E' & R' & HX). rewrite E'. cbn [rbind].
  eexists _, _. split; [reflexivity|]. split; [apply setBits_rep; exact R'|].
  assert (LX : (d + length X = Nat.max (length A) (length B))%nat).
  { destruct HX as [[-> E0]|[-> E0]]; apply (f_equal (@length N)) in E0; cbn in E0; rewrite skipn_length in *; lia. }
  split; [rewrite app_length, zipn_length; exact LX|].
  split; [cbn [setBits bits]; destruct (N.ltb_spec (bits a) (bits b)); lia|].
  intros k. destruct (Nat.lt_ge_cases k d) as [G|G].
  - rewrite app_nth1 by (rewrite zipn_length; auto). apply zipn_nth; auto.
  - rewrite app_nth2 by (rewrite zipn_length; auto). rewrite zipn_length.
    assert (Hnth : forall l, nth (k - d) (skipn d l) 0 = nth k l 0).
    { clear - G. intros l. revert k G. induction d as [|d IH] in l |- *; intros k G; [rewrite Nat.sub_0_r; reflexivity|].
      destruct k as [|k]; [lia|]. destruct l; [rewrite skipn_nil; cbn; destruct (k - d)%nat; reflexivity|].
      apply (IH l k). lia. }
    destruct HX as [[-> E0]|[-> E0]]; rewrite Hnth.
    + assert (nth k B 0 = 0) as -> by (rewrite <- Hnth, E0; destruct (k - d)%nat; reflexivity). symmetry; apply op0.
    + assert (nth k A 0 = 0) as -> by (rewrite <- Hnth, E0; destruct (k - d)%nat; reflexivity).
      rewrite opC. symmetry; apply op0.
Qed.

Lemma or_spec a b A B : rep a A -> rep b B ->
  exists c C, logicalor b a = Done c /\ rep c C /\ length C = Nat.max (length A) (length B) /\
    bits c = N.max (bits a) (bits b) /\ forall k, nth k C 0 = N.lor (nth k A 0) (nth k B 0).
Proof.
  intros Ha Hb. apply (logicalWith_spec N.lor stepOr a b A B (N.max (len A) (len B)));
    auto using N.lor_comm, lor_bound, N.lor_0_r, stepOr_ok; lia.
Qed.

Lemma xor_spec a b A B : rep a A -> rep b B -> len A <= 32767 -> len B <= 32767 ->
  exists c C, logicalxor b a = Done c /\ rep c C /\ length C = Nat.max (length A) (length B) /\
    bits c = N.max (bits a) (bits b) /\ forall k, nth k C 0 = N.lxor (nth k A 0) (nth k B 0).
Proof.
  intros Ha Hb La Lb. apply (logicalWith_spec N.lxor stepXor a b A B 32767);
    auto using N.lxor_comm, lxor_bound, N.lxor_0_r, stepXor_ok.
Qed.

Lemma and_spec a b A B : rep a A -> rep b B ->
  exists c C, logicaland b a = Done c /\ rep c C /\ (length C <= Nat.max (length A) (length B))%nat /\
    bits c = N.max (bits a) (bits b) /\ forall k, nth k C 0 = N.land (nth k A 0) (nth k B 0).
Proof.
  intros Ha Hb. unfold logicaland.
  destruct (start_spec a A Ha) as (i & Ei & Ii & Mi & Ri). destruct (start_spec b B Hb) as (j & Ej & Ij & Mj & Rj).
  rewrite Ei, Ej. cbn [rbind].
  destruct (opLoop_spec N.land stepAnd A B (N.max (len A) (len B)) N.land_comm (fun x y H _ => land_bound x y 32 H) (stepAnd_ok _) ltac:(lia) ltac:(lia)
     (fuelFor b a) (fuelFor b a) 0 empty i j)
    as (d & c & i' & j' & E & (Rc & Ii' & Ij' & Hd) & Hs & L1 & L2); try (unfold fuelFor; lia).
  { apply Inv_start; auto. }
  rewrite E. cbn [rbind]. eexists _, _. split; [reflexivity|]. split; [apply setBits_rep; exact Rc|].
  split; [rewrite zipn_length; exact Hd|].
  split; [cbn [setBits bits]; destruct (N.ltb_spec (bits a) (bits b)); lia|].
  intros k. destruct (Nat.lt_ge_cases k d) as [G|G]; [apply zipn_nth; auto|].
  rewrite nth_overflow by (rewrite zipn_length; auto).
  destruct Hs as [Hs|Hs].
  - pose proof (irep_size0 _ _ Ii' Hs) as E0. apply (f_equal (@length N)) in E0. cbn in E0. rewrite skipn_length in E0.
    rewrite (nth_overflow A) by lia. reflexivity.
  - pose proof (irep_size0 _ _ Ij' Hs) as E0. apply (f_equal (@length N)) in E0. cbn in E0. rewrite skipn_length in E0.
    rewrite (nth_overflow B) by lia. symmetry. apply N.land_0_r.
Qed.
