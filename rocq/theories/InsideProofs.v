(** Proofs about the tests for a point in a polygon. *)
From Coq Require Import Reals Lra Lia Psatz.
From Verif Require Import Base GeoModel RingModel QuatModel MeshBuildModel InsideModel InsideSpec InsideEdge.
Local Open Scope R_scope.

Lemma leftb_flat p a b : v2y a = v2y b -> leftb p a b = false.
Proof. intros H. unfold leftb. rewrite H. generalize (orient a b p). intros o. dec. Qed.

Lemma change_flat_edge p q a b : v2y p < v2y q -> v2y a = v2y b ->
  ~ onSegment p a b -> ~ onSegment a p q -> ~ onSegment b p q ->
  xorb (leftb p a b) (leftb q a b) = xorb (crossSegments p q a b) (xorb (strip p q a) (strip p q b)).
Proof.
  intros PQ AB NP NA NB. rewrite !leftb_flat by exact AB. cbn [xorb].
  unfold strip. rewrite (ltb_true (v2y p) (v2y q)) by lra. unfold above. rewrite <- AB.
  assert (SQ := Rle_0_sqr (v2x b - v2x a)). unfold Rsqr in SQ.
  assert (PR : orient a b p * orient a b q = (v2x b - v2x a) * (v2x b - v2x a) * ((v2y p - v2y a) * (v2y q - v2y a))).
  { unfold orient. rewrite <- AB. ring. }
  destruct (Rlt_dec (v2y a) (v2y p)) as [C|C]; [|destruct (Rlt_dec (v2y a) (v2y q)) as [C2|C2]].
  - rewrite (leb_false (v2y p) (v2y a)) by lra. rewrite cross_false by (right; rewrite PR; apply Rmult_le_pos; [exact SQ|nra]). reflexivity.
  - rewrite (leb_true (v2y p)), (leb_false (v2y q)) by lra. cbn [negb andb].
    assert (OA : orient p q a <> 0) by (intros O; apply NA, on_slope; lra).
    assert (OB : orient p q b <> 0) by (intros O; apply NB, on_slope; lra).
    assert (DF : orient p q a - orient p q b = (v2y q - v2y p) * (v2x b - v2x a)) by (unfold orient; rewrite <- AB; ring).
    destruct (Rlt_dec 0 (orient p q a * orient p q b)) as [S|S].
    + rewrite cross_false by (left; lra).
      destruct (Rlt_dec 0 (orient p q a)) as [P|P]; [assert (0 < orient p q b) by nra|assert (orient p q b < 0) by nra]; known; reflexivity.
    + assert (S2 : orient p q a * orient p q b < 0) by nra.
      assert (DX : v2x b - v2x a <> 0) by (intros Z; rewrite Z in DF; nra).
      destruct (Req_dec (v2y a) (v2y p)) as [E|E].
      * exfalso. apply NP. assert (EA : orient p q a = - (v2y q - v2y p) * (v2x a - v2x p)) by (unfold orient; rewrite E; ring).
        assert (EB : orient p q b = - (v2y q - v2y p) * (v2x b - v2x p)) by (unfold orient; rewrite <- AB, E; ring).
        assert (S3 : (v2x a - v2x p) * (v2x b - v2x p) < 0).
        { rewrite EA, EB in S2. replace (- (v2y q - v2y p) * (v2x a - v2x p) * (- (v2y q - v2y p) * (v2x b - v2x p)))
            with ((v2y q - v2y p) * (v2y q - v2y p) * ((v2x a - v2x p) * (v2x b - v2x p))) in S2 by ring.
          assert (0 < (v2y q - v2y p) * (v2y q - v2y p)) by nra. nra. }
        destruct (Rle_dec (v2x a) (v2x p)) as [L|L].
        -- apply on_flat; [lra|lra|]. split; [lra|nra].
        -- apply on_swap, on_flat; [lra|lra|]. split; nra.
      * rewrite cross_true.
        -- destruct (Rlt_dec 0 (orient p q a)) as [P|P]; [assert (orient p q b < 0) by nra|assert (0 < orient p q b) by nra]; known; reflexivity.
        -- exact S2.
        -- rewrite PR. assert (0 < (v2x b - v2x a) * (v2x b - v2x a)) by nra. assert ((v2y p - v2y a) * (v2y q - v2y a) < 0) by nra. nra.
  - rewrite (leb_true (v2y q) (v2y a)) by lra. rewrite cross_false by (right; rewrite PR; apply Rmult_le_pos; [exact SQ|nra]). cbn [negb].
    rewrite !andb_false_r. reflexivity.
Qed.

Lemma change_flat_move p q a b : v2y p = v2y q -> v2y a <= v2y b ->
  ~ onSegment p a b -> ~ onSegment q a b -> ~ onSegment b p q ->
  xorb (leftb p a b) (leftb q a b) = crossSegments p q a b.
Proof.
  intros PQ AB NP NQ NB.
  assert (SQ := Rle_0_sqr (v2x q - v2x p)). unfold Rsqr in SQ.
  assert (PR : orient p q a * orient p q b = (v2x q - v2x p) * (v2x q - v2x p) * ((v2y a - v2y p) * (v2y b - v2y p))).
  { unfold orient. rewrite <- PQ. ring. }
  destruct AB as [AB|AB].
  2:{ rewrite !leftb_flat by exact AB. symmetry. apply cross_false. left. rewrite PR, AB. apply Rmult_le_pos; [exact SQ|apply Rle_0_sqr]. }
  destruct (heights (v2y a) (v2y b) (v2y p)) as [Y|[Y|[Y|Y]]]; [|lra| |].
  - unfold leftb. rewrite <- PQ. rewrite !(no_down (v2y a) (v2y b)) by exact AB. cbn [andb]. rewrite !orb_false_r.
    rewrite (ltb_true (v2y a)), (leb_true (v2y p)) by lra. cbn [andb].
    assert (OP : orient a b p <> 0) by (intros O; apply NP, on_slope; lra).
    assert (OQ : orient a b q <> 0) by (intros O; apply NQ, on_slope; lra).
    assert (DF : orient a b p - orient a b q = (v2y b - v2y a) * (v2x q - v2x p)) by (unfold orient; rewrite <- PQ; ring).
    destruct (Rlt_dec 0 (orient a b p * orient a b q)) as [S|S].
    + rewrite cross_false by (right; lra).
      destruct (Rlt_dec 0 (orient a b p)) as [P|P]; [assert (0 < orient a b q) by nra|assert (orient a b q < 0) by nra]; known; reflexivity.
    + assert (S2 : orient a b p * orient a b q < 0) by nra.
      assert (DX : v2x q - v2x p <> 0) by (intros Z; rewrite Z in DF; nra).
      destruct (Req_dec (v2y b) (v2y p)) as [E|E].
      * exfalso. apply NB. assert (EA : orient a b p = (v2y b - v2y a) * (v2x b - v2x p)) by (unfold orient; rewrite <- E; ring).
        assert (EB : orient a b q = (v2y b - v2y a) * (v2x b - v2x q)) by (unfold orient; rewrite <- PQ, <- E; ring).
        assert (S3 : (v2x b - v2x p) * (v2x b - v2x q) < 0).
        { rewrite EA, EB in S2. replace ((v2y b - v2y a) * (v2x b - v2x p) * ((v2y b - v2y a) * (v2x b - v2x q)))
            with ((v2y b - v2y a) * (v2y b - v2y a) * ((v2x b - v2x p) * (v2x b - v2x q))) in S2 by ring.
          assert (0 < (v2y b - v2y a) * (v2y b - v2y a)) by nra. nra. }
        destruct (Rle_dec (v2x p) (v2x b)) as [L|L].
        -- apply on_flat; [lra|lra|]. split; [lra|nra].
        -- apply on_swap, on_flat; [lra|lra|]. split; nra.
      * rewrite cross_true.
        -- destruct (Rlt_dec 0 (orient a b p)) as [P|P]; [assert (orient a b q < 0) by nra|assert (0 < orient a b q) by nra]; known; reflexivity.
        -- rewrite PR. assert (0 < (v2x q - v2x p) * (v2x q - v2x p)) by nra. assert ((v2y a - v2y p) * (v2y b - v2y p) < 0) by nra. nra.
        -- exact S2.
  - rewrite cross_false by (left; rewrite PR; apply Rmult_le_pos; [exact SQ|nra]).
    unfold leftb. rewrite <- PQ, (leb_false (v2y p) (v2y b)), (leb_false (v2y p) (v2y a)) by lra. rewrite !andb_false_r. reflexivity.
  - rewrite cross_false by (left; rewrite PR; apply Rmult_le_pos; [exact SQ|nra]).
    unfold leftb. rewrite <- PQ, (ltb_false (v2y a) (v2y p)), (ltb_false (v2y b) (v2y p)) by lra. reflexivity.
Qed.

Lemma on_segment_swap v a b : ~ onSegment v a b -> ~ onSegment v b a.
Proof. intros H X. apply H, on_swap, X. Qed.

Lemma change p q a b : ~ onSegment p a b -> ~ onSegment q a b -> ~ onSegment a p q -> ~ onSegment b p q ->
  xorb (leftb p a b) (leftb q a b) = xorb (crossSegments p q a b) (xorb (strip p q a) (strip p q b)).
Proof.
  assert (W : forall p q a b, v2y a <= v2y b -> v2y p <= v2y q ->
    ~ onSegment p a b -> ~ onSegment q a b -> ~ onSegment a p q -> ~ onSegment b p q ->
    xorb (leftb p a b) (leftb q a b) = xorb (crossSegments p q a b) (xorb (strip p q a) (strip p q b))).
  { clear. intros p q a b [AB|AB] [PQ|PQ] NP NQ NA NB.
    - apply change_slopes; assumption.
    - rewrite change_flat_move by (assumption || lra). unfold strip. rewrite !ltb_false by lra. cbn [xorb].
      symmetry. apply xorb_false_r.
    - apply change_flat_edge; assumption.
    - rewrite change_flat_move by (assumption || lra). unfold strip. rewrite !ltb_false by lra. cbn [xorb].
      symmetry. apply xorb_false_r. }
  intros NP NQ NA NB.
  destruct (Rle_dec (v2y a) (v2y b)) as [AB|AB]; destruct (Rle_dec (v2y p) (v2y q)) as [PQ|PQ].
  - apply W; assumption.
  - rewrite cross_swap1, !(strip_swap p q), xorb_comm. apply W; try assumption; try lra; apply on_segment_swap; assumption.
  - rewrite cross_swap2, (xorb_comm (strip p q a)), !(leftb_sym _ a b).
    apply W; try assumption; try lra; apply on_segment_swap; assumption.
  - rewrite cross_swap1, cross_swap2, !(strip_swap p q), (xorb_comm (strip q p a)), !(leftb_sym _ a b), xorb_comm.
    apply W; try lra; apply on_segment_swap; assumption.
Qed.

(** A segment that avoids the corners, and whose ends are not on the ring, crosses an odd number of
    edges exactly if one of its ends is inside and the other is not. *)
Lemma left_segment p q ring : ~ onRing p ring -> ~ onRing q ring -> (forall v, In v ring -> ~ onSegment v p q) ->
  xorb (leftSum p ring) (leftSum q ring) = oddCrossings p q ring.
Proof.
  intros NP NQ NV. unfold leftSum, oddCrossings. rewrite xsum_odd, <- xsum_xor.
  rewrite (xsum_ext _ (fun e => xorb (crossSegments p q (fst e) (snd e)) (xorb (strip p q (fst e)) (strip p q (snd e))))).
  - rewrite xsum_xor, edges_telescope. apply xorb_false_r.
  - intros [a b] H. cbn [fst snd]. destruct (edges_in ring a b H) as [Ha Hb]. apply change.
    + intros X. apply NP. exists a, b. auto.
    + intros X. apply NQ. exists a, b. auto.
    + apply NV, Ha.
    + apply NV, Hb.
Qed.

(** * Reaching a point *)
Lemma cross_meets p q a b : crossSegments p q a b = true -> meet p q a b.
Proof.
  rewrite cross_ltb. intros H. apply andb_prop in H as [H1 H2].
  assert (A : orient p q a * orient p q b < 0) by (unfold ltb in H1; destruct (Rlt_dec _ _); [assumption|discriminate]).
  assert (B : orient a b p * orient a b q < 0) by (unfold ltb in H2; destruct (Rlt_dec _ _); [assumption|discriminate]).
  clear H1 H2.
  set (D := (v2x q - v2x p) * (v2y b - v2y a) - (v2y q - v2y p) * (v2x b - v2x a)).
  assert (E1 : orient a b p - orient a b q = D) by (unfold orient, D; ring).
  assert (E2 : orient p q b - orient p q a = D) by (unfold orient, D; ring).
  assert (FR : forall x y d, x * y < 0 -> x - y = d -> d <> 0 /\ 0 <= x / d <= 1).
  { clear. intros x y d H <-. assert (Z : x - y <> 0) by (intros Z; assert (x = y) by lra; subst; nra). split; [exact Z|].
    destruct (Rlt_dec 0 x) as [P|P].
    - assert (N : y < 0) by nra. assert (I := Rinv_0_lt_compat (x - y) ltac:(lra)). split; [unfold Rdiv; nra|].
      apply (Rmult_le_reg_r (x - y)); [lra|]. unfold Rdiv. rewrite Rmult_assoc, Rinv_l by lra. lra.
    - assert (N : 0 < y) by nra. assert (N2 : x < 0) by nra. replace (x / (x - y)) with ((- x) / (y - x)) by (field; lra).
      assert (I := Rinv_0_lt_compat (y - x) ltac:(lra)). split; [unfold Rdiv; nra|].
      apply (Rmult_le_reg_r (y - x)); [lra|]. unfold Rdiv. rewrite Rmult_assoc, Rinv_l by lra. lra. }
  destruct (FR _ _ D B E1) as [Z S]. destruct (FR (- orient p q a) (- orient p q b) D ltac:(nra) ltac:(lra)) as [_ T].
  exists (along p q (orient a b p / D)). split; [exists (orient a b p / D); auto|].
  exists (- orient p q a / D). split; [exact T|]. clear - Z. unfold along, orient, D in *. f_equal; field; exact Z.
Qed.

Lemma steps_into {A} (l : list A) : forall j v, In v l -> exists a, In (a, v) (steps j l).
Proof.
  induction l as [|i l IH]; intros j v H; [destruct H|]. destruct H as [->|H].
  - exists j. left. reflexivity.
  - destruct (IH i v H) as [a X]. exists a. right. exact X.
Qed.
Lemma edges_into {A} (ring : list A) v : In v ring -> exists a, In (a, v) (edges ring).
Proof. destruct ring as [|w l]; [intros []|]. rewrite edges_steps. apply steps_into. Qed.

Lemma on_first a b : onSegment a a b.
Proof. exists 0. split; [lra|]. unfold along. destruct a as [x y]. cbn [v2x v2y]. f_equal; ring. Qed.
Lemma on_last a b : onSegment b a b.
Proof. exists 1. split; [lra|]. unfold along. destruct b as [x y]. cbn [v2x v2y]. f_equal; ring. Qed.

Lemma left_reach p q ring : clearOf p q ring -> leftSum p ring = leftSum q ring.
Proof.
  intros C. apply Bool.xorb_eq. rewrite left_segment.
  - unfold oddCrossings. rewrite xsum_odd. apply xsum_false. intros [a b] H. cbn [fst snd].
    destruct (crossSegments p q a b) eqn:X; [|reflexivity]. apply cross_meets in X. exfalso. exact (C a b H X).
  - intros (a & b & H & X). apply (C a b H). exists p. split; [apply on_first|exact X].
  - intros (a & b & H & X). apply (C a b H). exists q. split; [apply on_last|exact X].
  - intros v Hv X. destruct (edges_into ring v Hv) as [a Ha]. apply (C a v Ha). exists v. split; [exact X|apply on_last].
Qed.

(** * Beside the ring *)
Lemma apart_edge nx ny c p a b :
  c <= nx * v2x p + ny * v2y p -> nx * v2x a + ny * v2y a < c -> nx * v2x b + ny * v2y b < c ->
  v2y a < v2y p <= v2y b -> nx * orient a b p < 0.
Proof.
  intros P A B Y.
  assert (E : nx * orient a b p = (v2y b - v2y p) * (nx * v2x a + ny * v2y a - c) + (v2y p - v2y a) * (nx * v2x b + ny * v2y b - c)
    - (v2y b - v2y a) * (nx * v2x p + ny * v2y p - c)) by (unfold orient; ring).
  rewrite E. set (u := nx * v2x a + ny * v2y a - c) in *. set (w := nx * v2x b + ny * v2y b - c) in *.
  set (z := nx * v2x p + ny * v2y p - c) in *. assert (u < 0) by (unfold u; lra). assert (w < 0) by (unfold w; lra). assert (0 <= z) by (unfold z; lra).
  clearbody u w z. assert (0 <= (v2y b - v2y p) * - u) by (apply Rmult_le_pos; lra).
  assert (0 < (v2y p - v2y a) * - w) by (apply Rmult_lt_0_compat; lra).
  assert (0 <= (v2y b - v2y a) * z) by (apply Rmult_le_pos; lra). lra.
Qed.

Lemma left_apart p ring : apart p ring -> leftSum p ring = false.
Proof.
  intros (nx & ny & c & P & V). unfold leftSum.
  assert (E : forall a b, In (a, b) (edges ring) -> leftb p a b = if Rlt_dec 0 nx then xorb (above p a) (above p b) else false).
  { intros a b H. apply edges_in in H as [Ha Hb]. apply V in Ha, Hb.
    destruct (heights (v2y a) (v2y b) (v2y p)) as [Y|[Y|[Y|Y]]].
    - assert (O := apart_edge nx ny c p a b P Ha Hb Y). unfold leftb, above.
      destruct (Rlt_dec 0 nx) as [X|X]; [assert (orient a b p < 0) by nra|assert (0 < orient a b p) by nra]; known; reflexivity.
    - assert (O := apart_edge nx ny c p b a P Hb Ha Y). rewrite orient_swap in O. unfold leftb, above.
      destruct (Rlt_dec 0 nx) as [X|X]; [assert (0 < orient a b p) by nra|assert (orient a b p < 0) by nra]; known; reflexivity.
    - unfold leftb, above. known. destruct (Rlt_dec 0 nx); reflexivity.
    - unfold leftb, above. known. destruct (Rlt_dec 0 nx); reflexivity. }
  rewrite (xsum_ext _ (fun e => if Rlt_dec 0 nx then xorb (above p (fst e)) (above p (snd e)) else false)).
  - destruct (Rlt_dec 0 nx); [apply edges_telescope|]. apply xsum_false. reflexivity.
  - intros [a b] H. apply E, H.
Qed.

(** * The ring as a list *)
Lemma left_closed p v l : leftSum p (v :: l) = xsum (fun e => leftb p (fst e) (snd e)) (steps v (l ++ [v])).
Proof.
  unfold leftSum. rewrite edges_steps, last_cons, steps_app, xsum_app. cbn [steps xsum fold_right fst snd].
  rewrite xorb_false_r. apply xorb_comm.
Qed.

Lemma left_rotate1 p v l : leftSum p (v :: l) = leftSum p (l ++ [v]).
Proof.
  destruct l as [|w l]; [reflexivity|]. rewrite left_closed.
  cbn [app]. unfold leftSum. rewrite edges_steps, last_cons, last_snoc. reflexivity.
Qed.

Lemma left_rotate p l m : leftSum p (l ++ m) = leftSum p (m ++ l).
Proof.
  revert m. induction l as [|v l IH]; intros m; [rewrite app_nil_r; reflexivity|].
  cbn [app]. rewrite left_rotate1, <- app_assoc, IH, <- app_assoc. reflexivity.
Qed.

Lemma steps_rev p l : forall j k, xsum (fun e => leftb p (fst e) (snd e)) (steps k (rev l ++ [j])) =
  xsum (fun e => leftb p (fst e) (snd e)) (steps j (l ++ [k])).
Proof.
  induction l as [|i l IH]; intros j k.
  - cbn [rev app steps xsum fold_right fst snd]. rewrite leftb_sym. reflexivity.
  - cbn [rev]. rewrite steps_app, xsum_app, IH, last_snoc. cbn [app steps xsum fold_right fst snd].
    rewrite xorb_false_r, xorb_comm, (leftb_sym p i j). reflexivity.
Qed.

Lemma left_rev p ring : leftSum p (rev ring) = leftSum p ring.
Proof.
  destruct ring as [|v l]; [reflexivity|]. cbn [rev]. rewrite <- left_rotate1, !left_closed. apply steps_rev.
Qed.

Lemma left_chord p a l b m :
  leftSum p (a :: l ++ b :: m) = xorb (leftSum p (a :: l ++ [b])) (leftSum p (a :: b :: m)).
Proof.
  rewrite !left_closed. cbn [app]. rewrite <- !app_assoc. cbn [app steps].
  rewrite !steps_app, !xsum_app. cbn [steps xsum fold_right fst snd]. rewrite (leftb_sym p b a).
  match goal with |- context [xsum ?f (steps a l)] => generalize (xsum f (steps a l)) end. intros x.
  rewrite <- (steps_app m [a] b : steps b (m ++ [a]) = steps b m ++ [(last m b, a)]).
  match goal with |- context [fold_right ?f false (steps b (m ++ [a]))] => generalize (fold_right f false (steps b (m ++ [a]))) end. intros y.
  destruct x, y, (leftb p a b), (leftb p (last l a) b); reflexivity.
Qed.

Lemma left_middle p a m b : onSegment m a b -> leftb p a b = xorb (leftb p a m) (leftb p m b).
Proof.
  intros (t & T & ->). unfold leftb.
  assert (E1 : orient a (along a b t) p = t * orient a b p) by (unfold orient, along; cbn [v2x v2y]; ring).
  assert (E2 : orient (along a b t) b p = (1 - t) * orient a b p) by (unfold orient, along; cbn [v2x v2y]; ring).
  rewrite E1, E2. unfold along. cbn [v2x v2y]. generalize (orient a b p). intros o. clear E1 E2.
  set (y := v2y a + t * (v2y b - v2y a)).
  assert (L1 : v2y a < y -> 0 < t) by (unfold y; intros; destruct (Req_dec t 0); [subst; lra|lra]).
  assert (L2 : y < v2y a -> 0 < t) by (unfold y; intros; destruct (Req_dec t 0); [subst; lra|lra]).
  assert (L3 : v2y b < y -> t < 1) by (unfold y; intros; destruct (Req_dec t 1); [subst; lra|lra]).
  assert (L4 : y < v2y b -> t < 1) by (unfold y; intros; destruct (Req_dec t 1); [subst; lra|lra]).
  assert (B : v2y a <= y <= v2y b \/ v2y b <= y <= v2y a).
  { unfold y. destruct (Rle_dec (v2y a) (v2y b)); [left|right]; nra. }
  clearbody y.
  assert (SG : forall s, 0 < s -> ltb (s * o) 0 = ltb o 0 /\ ltb 0 (s * o) = ltb 0 o).
  { intros s S. destruct (sign_ltb s o (s * o) S eq_refl) as (A1 & A2 & _). auto. }
  destruct (heights (v2y a) (v2y b) (v2y p)) as [Y|[Y|[Y|Y]]].
  - destruct (Rlt_dec y (v2y p)) as [C|C].
    + destruct (SG (1 - t)) as [G1 G2]; [specialize (L4 ltac:(lra)); lra|]. rewrite G1. clear SG G1 G2.
      destruct (Rlt_dec o 0); known; reflexivity.
    + destruct (SG t) as [G1 G2]; [apply L1; lra|]. rewrite G1. clear SG G1 G2. destruct (Rlt_dec o 0); known; reflexivity.
  - destruct (Rlt_dec y (v2y p)) as [C|C].
    + destruct (SG t) as [G1 G2]; [apply L2; lra|]. rewrite G2. clear SG G1 G2. destruct (Rlt_dec 0 o); known; reflexivity.
    + destruct (SG (1 - t)) as [G1 G2]; [specialize (L3 ltac:(lra)); lra|]. rewrite G2. clear SG G1 G2.
      destruct (Rlt_dec 0 o); known; reflexivity.
  - rewrite (leb_false (v2y p) (v2y a)), (leb_false (v2y p) (v2y b)), (leb_false (v2y p) y) by lra. rewrite !andb_false_r. reflexivity.
  - rewrite (ltb_false (v2y a) (v2y p)), (ltb_false (v2y b) (v2y p)), (ltb_false y (v2y p)) by lra. reflexivity.
Qed.

Lemma left_added p a m b l : onSegment m a b -> leftSum p (a :: m :: b :: l) = leftSum p (a :: b :: l).
Proof.
  intros H. rewrite !left_closed. cbn [app steps xsum fold_right fst snd]. rewrite (left_middle p a m b H), xorb_assoc. reflexivity.
Qed.
