(** Single edges in the tests for a point in a polygon: the tests as parities of edges crossed, and
    how an edge is crossed when the point moves. *)
From Coq Require Import Reals Lra Lia Psatz.
From Verif Require Import Base GeoModel RingModel QuatModel MeshBuildModel InsideModel InsideSpec.
Local Open Scope R_scope.

(** * Parities *)
Definition xsum {A} (f : A -> bool) (l : list A) : bool := fold_right (fun a c => xorb (f a) c) false l.

Lemma xsum_odd {A} (f : A -> bool) l : Nat.odd (length (filter f l)) = xsum f l.
Proof.
  induction l as [|a l IH]; [reflexivity|]. cbn [filter xsum fold_right]. fold (xsum f l).
  destruct (f a); cbn [length]; [rewrite Nat.odd_succ, <- Nat.negb_odd, IH|rewrite IH];
    destruct (xsum f l); reflexivity.
Qed.

Lemma xsum_ext {A} (f g : A -> bool) l : (forall a, In a l -> f a = g a) -> xsum f l = xsum g l.
Proof.
  induction l as [|a l IH]; intros H; [reflexivity|]. cbn [xsum fold_right]. fold (xsum f l). fold (xsum g l).
  rewrite (H a) by (left; reflexivity). rewrite IH; [reflexivity|]. intros b Hb. apply H. right. exact Hb.
Qed.

Lemma xsum_xor {A} (f g : A -> bool) l : xsum (fun a => xorb (f a) (g a)) l = xorb (xsum f l) (xsum g l).
Proof.
  induction l as [|a l IH]; [reflexivity|]. cbn [xsum fold_right]. fold (xsum f l). fold (xsum g l).
  fold (xsum (fun a => xorb (f a) (g a)) l). rewrite IH.
  destruct (f a), (g a), (xsum f l), (xsum g l); reflexivity.
Qed.

Lemma xsum_false {A} (f : A -> bool) l : (forall a, In a l -> f a = false) -> xsum f l = false.
Proof.
  intros H. rewrite (xsum_ext f (fun _ => false)) by exact H. clear H.
  induction l as [|a l IH]; [reflexivity|]. cbn [xsum fold_right]. fold (xsum (fun _ : A => false) l).
  rewrite IH. reflexivity.
Qed.

Lemma xsum_app {A} (f : A -> bool) l m : xsum f (l ++ m) = xorb (xsum f l) (xsum f m).
Proof.
  induction l as [|a l IH]; [symmetry; apply xorb_false_l|]. cbn [app xsum fold_right].
  fold (xsum f (l ++ m)). fold (xsum f l). rewrite IH. destruct (f a), (xsum f l), (xsum f m); reflexivity.
Qed.

Lemma xsum_rev {A} (f : A -> bool) l : xsum f (rev l) = xsum f l.
Proof.
  induction l as [|a l IH]; [reflexivity|]. cbn [rev]. rewrite xsum_app, IH. cbn [xsum fold_right].
  fold (xsum f l). destruct (f a), (xsum f l); reflexivity.
Qed.

Lemma xsum_map {A B} (g : A -> B) (f : B -> bool) l : xsum f (map g l) = xsum (fun a => f (g a)) l.
Proof. induction l as [|a l IH]; [reflexivity|]. cbn [map xsum fold_right]. f_equal. exact IH. Qed.

(** * Edges *)
(** The edges of an open line. *)
Fixpoint steps {A} (j : A) (l : list A) : list (A * A) :=
  match l with [] => [] | i :: l' => (j, i) :: steps i l' end.

Lemma steps_combine {A} (l : list A) : forall j, combine (j :: l) l = steps j l.
Proof.
  induction l as [|i l IH]; intros j; [reflexivity|]. cbn [combine steps]. f_equal.
  destruct l as [|k l]; [reflexivity|]. exact (IH i).
Qed.

Lemma edges_steps {A} (v : A) l : edges (v :: l) = steps (last (v :: l) v) (v :: l).
Proof. unfold edges. apply steps_combine. Qed.

Lemma steps_app {A} (l m : list A) : forall j, steps j (l ++ m) = steps j l ++ steps (last l j) m.
Proof.
  induction l as [|i l IH]; intros j; [reflexivity|]. cbn [app steps]. rewrite IH. f_equal. f_equal.
  destruct l as [|k l]; [reflexivity|]. f_equal. clear IH. revert k. induction l as [|h l IH]; intros k; [reflexivity|].
  cbn [last]. exact (IH h).
Qed.

Lemma last_cons {A} (a : A) l d : last (a :: l) d = last l a.
Proof.
  revert a d. induction l as [|b l IH]; intros a d; [reflexivity|]. transitivity (last l b); [exact (IH b d)|].
  symmetry. exact (IH b a).
Qed.

Lemma last_snoc {A} (l : list A) a d : last (l ++ [a]) d = a.
Proof. induction l as [|b l IH]; [reflexivity|]. destruct l; [reflexivity|]. exact IH. Qed.

(** A closed line telescopes. *)
Lemma steps_telescope {A} (f : A -> bool) l : forall j,
  xsum (fun e => xorb (f (fst e)) (f (snd e))) (steps j l) = xorb (f j) (f (last l j)).
Proof.
  induction l as [|i l IH]; intros j; [cbn [last]; rewrite xorb_nilpotent; reflexivity|].
  cbn [steps xsum fold_right fst snd]. fold (xsum (fun e : A * A => xorb (f (fst e)) (f (snd e))) (steps i l)).
  rewrite IH, last_cons. destruct (f j), (f i), (f (last l i)); reflexivity.
Qed.

Lemma edges_telescope {A} (f : A -> bool) ring : xsum (fun e => xorb (f (fst e)) (f (snd e))) (edges ring) = false.
Proof.
  destruct ring as [|v l]; [reflexivity|]. rewrite edges_steps, steps_telescope, !last_cons.
  destruct (f (last l v)); reflexivity.
Qed.

Lemma steps_in {A} (l : list A) : forall j a b, In (a, b) (steps j l) -> (a = j \/ In a l) /\ In b l.
Proof.
  induction l as [|i l IH]; intros j a b H; [destruct H|]. cbn [steps] in H. destruct H as [H|H].
  - injection H as <- <-. split; [left; reflexivity|left; reflexivity].
  - apply IH in H as [[H1|H1] H2]; subst; split; cbn [In]; auto.
Qed.

Lemma last_in {A} (l : list A) : forall j, last l j = j \/ In (last l j) l.
Proof.
  induction l as [|i l IH]; intros j; [left; reflexivity|]. right. rewrite last_cons.
  destruct (IH i) as [E|E]; [rewrite E; left; reflexivity|right; exact E].
Qed.

Lemma edges_in {A} (ring : list A) a b : In (a, b) (edges ring) -> In a ring /\ In b ring.
Proof.
  destruct ring as [|v l]; [intros []|]. rewrite edges_steps. intros H. apply steps_in in H as [H1 H2].
  split; [|exact H2]. destruct H1 as [->|H1]; [|exact H1]. rewrite last_cons.
  destruct (last_in l v) as [->|X]; [left; reflexivity|right; exact X].
Qed.

(** * Single edges *)
Definition ltb (x y : R) : bool := if Rlt_dec x y then true else false.

(** The edge crosses the ray from [p] to the left, or to the right. *)
Definition leftb (p a b : pt) : bool :=
  (ltb (v2y a) (v2y p) && Rleb (v2y p) (v2y b) && ltb (orient a b p) 0) ||
  (ltb (v2y b) (v2y p) && Rleb (v2y p) (v2y a) && ltb 0 (orient a b p)).
(** A corner is not below [p]. *)
Definition above (p v : pt) : bool := Rleb (v2y p) (v2y v).

Ltac dec := unfold leftb, above, Rleb, ltb in *;
  repeat match goal with
  | |- context [Rlt_dec ?a ?b] => destruct (Rlt_dec a b)
  | |- context [Rle_dec ?a ?b] => destruct (Rle_dec a b)
  end; cbn [andb orb xorb negb] in *; try reflexivity; try (exfalso; lra).

Lemma orient_swap a b p : orient b a p = - orient a b p.
Proof. unfold orient. ring. Qed.

Lemma leftb_sym p a b : leftb p a b = leftb p b a.
Proof.
  unfold leftb. rewrite (orient_swap a b). generalize (orient a b p). intros o. dec.
Qed.

(** Where a line through two points of different height is at another height. *)
Lemma at_height a b p : v2y b - v2y a <> 0 ->
  v2x a + (v2y p - v2y a) / (v2y b - v2y a) * (v2x b - v2x a) - v2x p = orient a b p / (v2y b - v2y a).
Proof. intros H. unfold orient. field. exact H. Qed.

Lemma quot_pos a d : 0 < d -> (0 < a -> 0 < a / d) /\ (a < 0 -> a / d < 0) /\ (a = 0 -> a / d = 0).
Proof.
  intros D. assert (I := Rinv_0_lt_compat d D). unfold Rdiv. split; [|split]; intros H; [nra|nra|].
  rewrite H. ring.
Qed.
Lemma quot_neg a d : d < 0 -> (0 < a -> a / d < 0) /\ (a < 0 -> 0 < a / d) /\ (a = 0 -> a / d = 0).
Proof.
  intros D. assert (I := Rinv_lt_0_compat d D). unfold Rdiv. split; [|split]; intros H; [nra|nra|].
  rewrite H. ring.
Qed.

Lemma ltb_true x y : x < y -> ltb x y = true.
Proof. intros H. dec. Qed.
Lemma ltb_false x y : y <= x -> ltb x y = false.
Proof. intros H. dec. Qed.
Lemma leb_true x y : x <= y -> Rleb x y = true.
Proof. intros H. dec. Qed.
Lemma leb_false x y : y < x -> Rleb x y = false.
Proof. intros H. dec. Qed.
Ltac known := repeat match goal with
  | |- context [ltb ?x ?y] => first [rewrite (ltb_true x y) by lra | rewrite (ltb_false x y) by lra]
  | |- context [Rleb ?x ?y] => first [rewrite (leb_true x y) by lra | rewrite (leb_false x y) by lra]
  end; cbn [andb orb xorb negb].

(** The heights of two corners and a point: either both on one side, or not. *)
Lemma heights a b y : (a < y <= b) \/ (b < y <= a) \/ (a < y /\ b < y) \/ (y <= a /\ y <= b).
Proof. lra. Qed.

Lemma between_x a b p : (v2y a < v2y p <= v2y b \/ v2y b < v2y p <= v2y a) ->
  Rmin (v2x a) (v2x b) <= v2x a + (v2y p - v2y a) / (v2y b - v2y a) * (v2x b - v2x a).
Proof.
  intros Y. assert (T : 0 <= (v2y p - v2y a) / (v2y b - v2y a) <= 1).
  { destruct Y as [Y|Y].
    - assert (D : 0 < v2y b - v2y a) by lra. assert (I := Rinv_0_lt_compat _ D). split.
      + unfold Rdiv. nra.
      + apply (Rmult_le_reg_r (v2y b - v2y a)); [lra|]. unfold Rdiv. rewrite Rmult_assoc, Rinv_l by lra. lra.
    - replace ((v2y p - v2y a) / (v2y b - v2y a)) with ((v2y a - v2y p) / (v2y a - v2y b)) by (field; lra).
      assert (D : 0 < v2y a - v2y b) by lra. assert (I := Rinv_0_lt_compat _ D). split.
      + unfold Rdiv. nra.
      + apply (Rmult_le_reg_r (v2y a - v2y b)); [lra|]. unfold Rdiv. rewrite Rmult_assoc, Rinv_l by lra. lra. }
  set (t := (v2y p - v2y a) / (v2y b - v2y a)) in *. clearbody t. unfold Rmin.
  destruct (Rle_dec (v2x a) (v2x b)); nra.
Qed.

(** The comparison of the place of the crossing. *)
Lemma crossing_place a b p : (v2y a < v2y p <= v2y b \/ v2y b < v2y p <= v2y a) ->
  ltb (v2x a + (v2y p - v2y a) / (v2y b - v2y a) * (v2x b - v2x a)) (v2x p) = leftb p a b.
Proof.
  intros Y. assert (Z : v2y b - v2y a <> 0) by lra. assert (Hh := at_height a b p Z).
  set (X := v2x a + (v2y p - v2y a) / (v2y b - v2y a) * (v2x b - v2x a)) in *. clearbody X.
  unfold leftb. generalize dependent (orient a b p). intros o Hh.
  destruct Y as [Y|Y]; known; rewrite ?orb_false_r.
  - destruct (quot_pos o (v2y b - v2y a)) as (A1 & A2 & A3); [lra|]. rewrite <- Hh in *.
    destruct (Rtotal_order o 0) as [S|[S|S]]; [specialize (A2 S)|specialize (A3 S)|specialize (A1 S)]; known; reflexivity.
  - destruct (quot_neg o (v2y b - v2y a)) as (A1 & A2 & A3); [lra|]. rewrite <- Hh in *.
    destruct (Rtotal_order o 0) as [S|[S|S]]; [specialize (A2 S)|specialize (A3 S)|specialize (A1 S)]; known; reflexivity.
Qed.

Lemma ray_edge p i j c : rayEdge realNums Rleb p i j c = xorb c (leftb p i j).
Proof.
  unfold rayEdge. cbn [nlt nadd nmul ndiv nsub realNums].
  fold (ltb (v2y i) (v2y p)) (ltb (v2y j) (v2y p)).
  fold (ltb (v2x i + (v2y p - v2y i) / (v2y j - v2y i) * (v2x j - v2x i)) (v2x p)).
  assert (C : (v2y i < v2y p <= v2y j \/ v2y j < v2y p <= v2y i) ->
    (if Rleb (v2x i) (v2x p) || Rleb (v2x j) (v2x p)
     then xorb c (ltb (v2x i + (v2y p - v2y i) / (v2y j - v2y i) * (v2x j - v2x i)) (v2x p)) else c) = xorb c (leftb p i j)).
  { intros Y. rewrite <- (crossing_place i j p Y). assert (B := between_x i j p Y).
    set (X := v2x i + (v2y p - v2y i) / (v2y j - v2y i) * (v2x j - v2x i)) in *. clearbody X.
    unfold Rmin in B. destruct (Rle_dec (v2x i) (v2x j)); dec; destruct c; reflexivity. }
  destruct (heights (v2y i) (v2y j) (v2y p)) as [Y|[Y|[Y|Y]]].
  - known. apply C. left. exact Y.
  - known. apply C. right. exact Y.
  - unfold leftb. known. destruct c; reflexivity.
  - unfold leftb. known. destruct c; reflexivity.
Qed.

Lemma right_edge p i j : rightEdge realNums Rleb p i j = xorb (xorb (above p i) (above p j)) (leftb p i j).
Proof.
  unfold rightEdge, above. cbn [nlt nadd nmul ndiv nsub realNums].
  assert (C : (v2y i < v2y p <= v2y j \/ v2y j < v2y p <= v2y i) ->
    Rleb (v2x p) ((v2x j - v2x i) * (v2y p - v2y i) / (v2y j - v2y i) + v2x i) = negb (leftb p i j)).
  { intros Y. rewrite <- (crossing_place i j p Y).
    replace ((v2x j - v2x i) * (v2y p - v2y i) / (v2y j - v2y i) + v2x i)
      with (v2x i + (v2y p - v2y i) / (v2y j - v2y i) * (v2x j - v2x i)) by (field; lra).
    generalize (v2x i + (v2y p - v2y i) / (v2y j - v2y i) * (v2x j - v2x i)). intros X. dec. }
  destruct (heights (v2y i) (v2y j) (v2y p)) as [Y|[Y|[Y|Y]]].
  - rewrite (leb_false _ (v2y i)), (leb_true _ (v2y j)) by lra. cbn [xorb andb]. rewrite C by (left; exact Y). destruct (leftb p i j); reflexivity.
  - rewrite (leb_false _ (v2y j)), (leb_true _ (v2y i)) by lra. cbn [xorb andb]. rewrite C by (right; exact Y). destruct (leftb p i j); reflexivity.
  - unfold leftb. known. reflexivity.
  - unfold leftb. known. reflexivity.
Qed.

(** * The three tests as parities *)
Definition leftSum (p : pt) (ring : list pt) : bool := xsum (fun e => leftb p (fst e) (snd e)) (edges ring).

Lemma ray_loop p l : forall j c, rayLoop realNums Rleb p j c l = xorb c (xsum (fun e => leftb p (fst e) (snd e)) (steps j l)).
Proof.
  induction l as [|i l IH]; intros j c; [symmetry; apply xorb_false_r|].
  cbn [rayLoop steps xsum fold_right fst snd]. rewrite IH, ray_edge, (leftb_sym p i j).
  fold (xsum (fun e : pt * pt => leftb p (fst e) (snd e)) (steps i l)). rewrite xorb_assoc. reflexivity.
Qed.

Lemma inside_left p ring : pointInside realNums Rleb p ring = leftSum p ring.
Proof.
  destruct ring as [|v l]; [reflexivity|]. unfold pointInside, leftSum. rewrite ray_loop, edges_steps.
  apply xorb_false_l.
Qed.

Lemma right_loop p l : forall j c, rightLoop realNums Rleb p j c l =
  xorb c (xsum (fun e => xorb (xorb (above p (fst e)) (above p (snd e))) (leftb p (fst e) (snd e))) (steps j l)).
Proof.
  induction l as [|i l IH]; intros j c; [symmetry; apply xorb_false_r|].
  cbn [rightLoop steps xsum fold_right fst snd]. rewrite IH, right_edge, (leftb_sym p i j).
  fold (xsum (fun e : pt * pt => xorb (xorb (above p (fst e)) (above p (snd e))) (leftb p (fst e) (snd e))) (steps i l)).
  destruct (above p i), (above p j), (leftb p j i), c; cbn; destruct (xsum _ _); reflexivity.
Qed.

Lemma inside_right p ring : insidePoints realNums Rleb p ring = leftSum p ring.
Proof.
  destruct ring as [|v l]; [reflexivity|]. unfold insidePoints, leftSum. rewrite right_loop.
  rewrite <- edges_steps, xsum_xor, edges_telescope, !xorb_false_l. reflexivity.
Qed.

(** The test of GeoUtils is that of Polygon turned by 180 degrees. *)
Definition opp (v : pt) : pt := mkV2 (- v2x v) (- v2y v).

Lemma orient_opp a b c : orient (opp a) (opp b) (opp c) = orient a b c.
Proof. unfold orient, opp. cbn [v2x v2y]. ring. Qed.

Lemma crosses_opp p i j : crosses realNums p i j = leftb (opp (flat p)) (opp (flat i)) (opp (flat j)).
Proof.
  unfold crosses. cbn [nlt nadd nmul ndiv nsub realNums].
  fold (ltb (plat p) (plat i)) (ltb (plat p) (plat j)).
  fold (ltb (plon p) ((plon j - plon i) * (plat p - plat i) / (plat j - plat i) + plon i)).
  set (P := opp (flat p)). set (I := opp (flat i)). set (J := opp (flat j)).
  assert (C : (v2y I < v2y P <= v2y J \/ v2y J < v2y P <= v2y I) ->
    ltb (plon p) ((plon j - plon i) * (plat p - plat i) / (plat j - plat i) + plon i) = leftb P I J).
  { intros Y. rewrite <- (crossing_place I J P Y).
    replace (v2x I + (v2y P - v2y I) / (v2y J - v2y I) * (v2x J - v2x I))
      with (- ((plon j - plon i) * (plat p - plat i) / (plat j - plat i) + plon i)).
    - unfold P, opp, flat. cbn [v2x v2y]. generalize ((plon j - plon i) * (plat p - plat i) / (plat j - plat i) + plon i).
      intros X. dec.
    - unfold P, I, J, opp, flat in *. cbn [v2x v2y] in *. field. lra. }
  destruct (heights (v2y I) (v2y J) (v2y P)) as [Y|[Y|[Y|Y]]].
  - rewrite C by (left; exact Y). unfold P, I, J, opp, flat in *. cbn [v2x v2y] in *.
    rewrite (ltb_true (plat p) (plat i)), (ltb_false (plat p) (plat j)) by lra. reflexivity.
  - rewrite C by (right; exact Y). unfold P, I, J, opp, flat in *. cbn [v2x v2y] in *.
    rewrite (ltb_false (plat p) (plat i)), (ltb_true (plat p) (plat j)) by lra. reflexivity.
  - unfold leftb. unfold P, I, J, opp, flat in *. cbn [v2x v2y] in *. known. reflexivity.
  - unfold leftb. unfold P, I, J, opp, flat in *. cbn [v2x v2y] in *. known. reflexivity.
Qed.

Definition turned (c : point R) : pt := opp (flat c).

Lemma geo_loop p l : forall j c, crossings realNums p j c l =
  xorb c (xsum (fun e => leftb (turned p) (turned (fst e)) (turned (snd e))) (steps j l)).
Proof.
  induction l as [|i l IH]; intros j c; [symmetry; apply xorb_false_r|].
  cbn [crossings steps xsum fold_right fst snd]. rewrite IH, crosses_opp.
  fold (turned p) (turned i) (turned j). rewrite (leftb_sym _ (turned i)).
  fold (xsum (fun e : point R * point R => leftb (turned p) (turned (fst e)) (turned (snd e))) (steps i l)).
  destruct (leftb (turned p) (turned j) (turned i)), c; destruct (xsum _ _); reflexivity.
Qed.

Lemma steps_map {A B} (f : A -> B) l : forall j, steps (f j) (map f l) = map (fun e => (f (fst e), f (snd e))) (steps j l).
Proof. induction l as [|i l IH]; intros j; [reflexivity|]. cbn [map steps fst snd]. rewrite IH. reflexivity. Qed.

Lemma last_map {A B} (f : A -> B) l : forall j, last (map f l) (f j) = f (last l j).
Proof. induction l as [|i l IH]; intros j; [reflexivity|]. cbn [map]. rewrite !last_cons. apply IH. Qed.

Lemma edges_map {A B} (f : A -> B) l : edges (map f l) = map (fun e => (f (fst e), f (snd e))) (edges l).
Proof.
  destruct l as [|v l]; [reflexivity|]. cbn [map]. rewrite !edges_steps, !last_cons, last_map.
  exact (steps_map f (v :: l) (last l v)).
Qed.

Lemma inside_geo p ring : isPointInPolygon realNums p ring = leftSum (turned p) (map turned ring).
Proof.
  unfold leftSum. rewrite edges_map, xsum_map. cbn [fst snd].
  destruct ring as [|v l]; [reflexivity|]. unfold isPointInPolygon. rewrite geo_loop, edges_steps. apply xorb_false_l.
Qed.

(** * Moving the point *)
Lemma on_slope a b v : v2y a < v2y b -> v2y a <= v2y v <= v2y b -> orient a b v = 0 -> onSegment v a b.
Proof.
  intros H Hv O. exists ((v2y v - v2y a) / (v2y b - v2y a)).
  assert (D : 0 < v2y b - v2y a) by lra. assert (I := Rinv_0_lt_compat _ D). split; [split|].
  - unfold Rdiv. nra.
  - apply (Rmult_le_reg_r (v2y b - v2y a)); [lra|]. unfold Rdiv. rewrite Rmult_assoc, Rinv_l by lra. lra.
  - unfold along. destruct v as [x y]. cbn [v2x v2y] in *. unfold orient in O. cbn [v2x v2y] in O. f_equal.
    + apply (Rmult_eq_reg_r (v2y b - v2y a)); [|lra]. field_simplify; [|lra]. lra.
    + field. lra.
Qed.

Lemma on_swap v a b : onSegment v a b -> onSegment v b a.
Proof.
  intros (t & T & ->). exists (1 - t). split; [lra|]. unfold along. f_equal; ring.
Qed.

Lemma on_flat a b v : v2y a = v2y v -> v2y b = v2y v -> v2x a <= v2x v <= v2x b -> onSegment v a b.
Proof.
  intros A B X. destruct (Req_dec (v2x a) (v2x b)) as [E|E].
  - exists 0. split; [lra|]. unfold along. destruct v as [x y]. cbn [v2x v2y] in *. f_equal; lra.
  - exists ((v2x v - v2x a) / (v2x b - v2x a)).
    assert (D : 0 < v2x b - v2x a) by lra. assert (I := Rinv_0_lt_compat _ D). split; [split|].
    + unfold Rdiv. nra.
    + apply (Rmult_le_reg_r (v2x b - v2x a)); [lra|]. unfold Rdiv. rewrite Rmult_assoc, Rinv_l by lra. lra.
    + unfold along. destruct v as [x y]. cbn [v2x v2y] in *. f_equal; [field; lra|]. rewrite A, B. ring.
Qed.

(** [v] is to the left of the segment, between the heights of its ends. *)
Definition strip (p q v : pt) : bool :=
  if ltb (v2y p) (v2y q) then above p v && negb (above q v) && ltb 0 (orient p q v)
  else if ltb (v2y q) (v2y p) then above q v && negb (above p v) && ltb 0 (orient q p v)
  else false.

Lemma strip_swap p q v : strip p q v = strip q p v.
Proof.
  unfold strip. destruct (Rtotal_order (v2y p) (v2y q)) as [H|[H|H]].
  - rewrite (ltb_true (v2y p)), (ltb_false (v2y q)) by lra. reflexivity.
  - rewrite !ltb_false by lra. reflexivity.
  - rewrite (ltb_true (v2y q)), (ltb_false (v2y p)) by lra. reflexivity.
Qed.

Lemma cross_swap1 p q a b : crossSegments p q a b = crossSegments q p a b.
Proof.
  unfold crossSegments. rewrite !(orient_swap p q). rewrite (Rmult_comm (orient a b p)).
  replace (- orient p q a * - orient p q b) with (orient p q a * orient p q b) by ring. reflexivity.
Qed.
Lemma cross_swap2 p q a b : crossSegments p q a b = crossSegments p q b a.
Proof.
  unfold crossSegments. rewrite !(orient_swap a b). rewrite (Rmult_comm (orient p q a)).
  replace (- orient a b p * - orient a b q) with (orient a b p * orient a b q) by ring. reflexivity.
Qed.

Lemma cross_true p q a b : orient p q a * orient p q b < 0 -> orient a b p * orient a b q < 0 -> crossSegments p q a b = true.
Proof. intros H1 H2. unfold crossSegments. destruct (Rlt_dec _ _); [|lra]. destruct (Rlt_dec _ _); [reflexivity|lra]. Qed.
Lemma cross_false p q a b : (0 <= orient p q a * orient p q b \/ 0 <= orient a b p * orient a b q) -> crossSegments p q a b = false.
Proof. intros H. unfold crossSegments. destruct (Rlt_dec _ _); [|reflexivity]. destruct (Rlt_dec _ _); [lra|reflexivity]. Qed.

(** Two slopes compared at four heights. *)
Lemma slopes p q a b : exists k m,
  - (v2y q - v2y p) * orient a b p = k + m * v2y p /\
  - (v2y q - v2y p) * orient a b q = k + m * v2y q /\
  (v2y b - v2y a) * orient p q a = k + m * v2y a /\
  (v2y b - v2y a) * orient p q b = k + m * v2y b.
Proof.
  set (m := (v2x q - v2x p) * (v2y b - v2y a) - (v2x b - v2x a) * (v2y q - v2y p)).
  exists (- (v2y q - v2y p) * orient a b p - m * v2y p), m. unfold m, orient. repeat split; ring.
Qed.

Lemma sign_mul d o h : 0 < d -> d * o = h -> (0 < o -> 0 < h) /\ (o < 0 -> h < 0) /\ (o = 0 -> h = 0) /\ (0 < h -> 0 < o) /\ (h < 0 -> o < 0) /\ (h = 0 -> o = 0).
Proof.
  intros D E. assert (X : 0 < o -> 0 < h) by (intros; subst; nra). assert (Y : o < 0 -> h < 0) by (intros; subst; nra).
  assert (Z : o = 0 -> h = 0) by (intros; subst; ring). repeat split; auto; intros H; destruct (Rtotal_order o 0) as [L|[L|L]]; auto;
    exfalso; try (specialize (X L)); try (specialize (Y L)); try (specialize (Z L)); lra.
Qed.
Lemma prod_sign x y : (x < 0 /\ 0 < y) \/ (0 < x /\ y < 0) -> x * y < 0.
Proof. intros [H|H]; nra. Qed.
Lemma prod_nonneg x y : (0 <= x /\ 0 <= y) \/ (x <= 0 /\ y <= 0) -> 0 <= x * y.
Proof. intros [H|H]; nra. Qed.


Lemma ltb_prod x y : ltb (x * y) 0 = ltb x 0 && ltb 0 y || ltb 0 x && ltb y 0.
Proof.
  destruct (Rtotal_order x 0) as [A|[A|A]]; destruct (Rtotal_order y 0) as [B|[B|B]];
    first [rewrite (ltb_true (x * y)) by nra | rewrite (ltb_false (x * y)) by nra]; known; reflexivity.
Qed.

Lemma cross_ltb p q a b : crossSegments p q a b = ltb (orient p q a * orient p q b) 0 && ltb (orient a b p * orient a b q) 0.
Proof.
  unfold crossSegments, ltb. destruct (Rlt_dec (orient p q a * orient p q b) 0); reflexivity.
Qed.

Ltac signs x := destruct (Rtotal_order x 0) as [?|[?|?]]; try (exfalso; lra).

(** Four values of a monotone function: a sign that differs in the middle differs outside. *)
Lemma affine_levels k m yp yq ya yb : yp < yq -> ya < yb ->
  let h y := k + m * y in
  (ya <= yp <= yb -> h yp <> 0) -> (ya <= yq <= yb -> h yq <> 0) ->
  (yp <= ya <= yq -> h ya <> 0) -> (yp <= yb <= yq -> h yb <> 0) ->
  xorb (ltb ya yp && Rleb yp yb && ltb 0 (h yp)) (ltb ya yq && Rleb yq yb && ltb 0 (h yq)) =
  xorb (ltb (h ya * h yb) 0 && ltb (h yp * h yq) 0)
    (xorb (Rleb yp ya && negb (Rleb yq ya) && ltb 0 (h ya)) (Rleb yp yb && negb (Rleb yq yb) && ltb 0 (h yb))).
Proof.
  intros PQ AB h NP NQ NA NB. rewrite !ltb_prod.
  assert (M : (forall u v, u <= v -> h u <= h v) \/ (forall u v, u <= v -> h v <= h u)).
  { unfold h. destruct (Rlt_dec m 0) as [M|M]; [right|left]; intros; nra. }
  clearbody h.
  destruct (Rlt_dec ya yp) as [C1|C1]; [destruct (Rlt_dec yb yp) as [C2|C2]; [|destruct (Rlt_dec yb yq) as [C3|C3]]
    |destruct (Rlt_dec ya yq) as [C2|C2]; [destruct (Rlt_dec yb yq) as [C3|C3]|]].
  - clear NP NQ NA NB. destruct M as [M|M]; assert (M1 := M ya yb ltac:(lra)); assert (M2 := M yb yp ltac:(lra)); assert (M3 := M yp yq ltac:(lra)); clear M;
      set (hp := h yp) in *; set (hq := h yq) in *; set (ha := h ya) in *; set (hb := h yb) in *; clearbody hp hq ha hb; known; clear PQ AB C1; try clear C2; try clear C3; try clear Q;
      signs ha; signs hb; signs hp; signs hq; known; reflexivity.
  - specialize (NP ltac:(lra)). specialize (NB ltac:(lra)). clear NQ NA.
    assert (Q : yp < yb \/ yp = yb) by lra. destruct Q as [Q|Q].
    + destruct M as [M|M]; assert (M1 := M ya yp ltac:(lra)); assert (M2 := M yp yb ltac:(lra)); assert (M3 := M yb yq ltac:(lra)); clear M;
      set (hp := h yp) in *; set (hq := h yq) in *; set (ha := h ya) in *; set (hb := h yb) in *; clearbody hp hq ha hb; known; clear PQ AB C1; try clear C2; try clear C3; try clear Q;
      signs hp; signs hb; signs ha; signs hq; known; reflexivity.
    + subst yb. destruct M as [M|M]; assert (M1 := M ya yp ltac:(lra)); assert (M3 := M yp yq ltac:(lra)); clear M;
      set (hp := h yp) in *; set (hq := h yq) in *; set (ha := h ya) in *; clearbody hp hq ha; known; clear PQ AB C1; try clear C2; try clear C3; try clear Q;
      signs hp; signs ha; signs hq; known; reflexivity.
  - specialize (NP ltac:(lra)). specialize (NQ ltac:(lra)). clear NB NA.
    destruct M as [M|M]; assert (M1 := M ya yp ltac:(lra)); assert (M2 := M yp yq ltac:(lra)); assert (M3 := M yq yb ltac:(lra)); clear M;
      set (hp := h yp) in *; set (hq := h yq) in *; set (ha := h ya) in *; set (hb := h yb) in *; clearbody hp hq ha hb; known; clear PQ AB C1; try clear C2; try clear C3; try clear Q;
      signs hp; signs hq; signs ha; signs hb; known; reflexivity.
  - specialize (NA ltac:(lra)). specialize (NB ltac:(lra)). clear NQ NP.
    destruct M as [M|M]; assert (M1 := M yp ya ltac:(lra)); assert (M2 := M ya yb ltac:(lra)); assert (M3 := M yb yq ltac:(lra)); clear M;
      set (hp := h yp) in *; set (hq := h yq) in *; set (ha := h ya) in *; set (hb := h yb) in *; clearbody hp hq ha hb; known; clear PQ AB C1; try clear C2; try clear C3; try clear Q;
      signs ha; signs hb; signs hp; signs hq; known; reflexivity.
  - specialize (NA ltac:(lra)). specialize (NQ ltac:(lra)). clear NP NB.
    destruct M as [M|M]; assert (M1 := M yp ya ltac:(lra)); assert (M2 := M ya yq ltac:(lra)); assert (M3 := M yq yb ltac:(lra)); clear M;
      set (hp := h yp) in *; set (hq := h yq) in *; set (ha := h ya) in *; set (hb := h yb) in *; clearbody hp hq ha hb; known; clear PQ AB C1; try clear C2; try clear C3; try clear Q;
      signs ha; signs hq; signs hp; signs hb; known; reflexivity.
  - clear NP NQ NA NB. destruct M as [M|M]; assert (M1 := M yp yq ltac:(lra)); assert (M2 := M yq ya ltac:(lra)); assert (M3 := M ya yb ltac:(lra)); clear M;
      set (hp := h yp) in *; set (hq := h yq) in *; set (ha := h ya) in *; set (hb := h yb) in *; clearbody hp hq ha hb; known; clear PQ AB C1; try clear C2; try clear C3; try clear Q;
      signs ha; signs hb; signs hp; signs hq; known; reflexivity.
Qed.

Lemma sign_ltb d o h : 0 < d -> d * o = h -> ltb 0 o = ltb 0 h /\ ltb o 0 = ltb h 0 /\ (h <> 0 <-> o <> 0).
Proof.
  intros D E. destruct (sign_mul d o h D E) as (A & B & C & _). destruct (Rtotal_order o 0) as [L|[L|L]].
  - specialize (B L). known. repeat split; intros; lra.
  - specialize (C L). known. repeat split; intros; lra.
  - specialize (A L). known. repeat split; intros; lra.
Qed.
Lemma ltb_opp o : ltb 0 (- o) = ltb o 0 /\ ltb (- o) 0 = ltb 0 o.
Proof. split; dec. Qed.

Lemma no_down a b y : a < b -> ltb b y && Rleb y a = false.
Proof. intros H. dec. Qed.

Lemma change_slopes p q a b : v2y p < v2y q -> v2y a < v2y b ->
  ~ onSegment p a b -> ~ onSegment q a b -> ~ onSegment a p q -> ~ onSegment b p q ->
  xorb (leftb p a b) (leftb q a b) = xorb (crossSegments p q a b) (xorb (strip p q a) (strip p q b)).
Proof.
  intros PQ AB NP NQ NA NB.
  assert (OP : v2y a <= v2y p <= v2y b -> orient a b p <> 0) by (intros H O; apply NP, on_slope; assumption).
  assert (OQ : v2y a <= v2y q <= v2y b -> orient a b q <> 0) by (intros H O; apply NQ, on_slope; assumption).
  assert (OA : v2y p <= v2y a <= v2y q -> orient p q a <> 0) by (intros H O; apply NA, on_slope; assumption).
  assert (OB : v2y p <= v2y b <= v2y q -> orient p q b <> 0) by (intros H O; apply NB, on_slope; assumption).
  clear NP NQ NA NB.
  destruct (slopes p q a b) as (k & m & E1 & E2 & E3 & E4).
  unfold strip. rewrite (ltb_true (v2y p) (v2y q)) by lra. unfold leftb, above. rewrite cross_ltb, !ltb_prod.
  assert (D1 : 0 < v2y q - v2y p) by lra. assert (D2 : 0 < v2y b - v2y a) by lra.
  destruct (sign_ltb (v2y q - v2y p) (- orient a b p) (k + m * v2y p) D1 ltac:(lra)) as (S1 & T1 & N1).
  destruct (sign_ltb (v2y q - v2y p) (- orient a b q) (k + m * v2y q) D1 ltac:(lra)) as (S2 & T2 & N2).
  destruct (sign_ltb _ _ _ D2 E3) as (S3 & T3 & N3). destruct (sign_ltb _ _ _ D2 E4) as (S4 & T4 & N4).
  assert (A := affine_levels k m (v2y p) (v2y q) (v2y a) (v2y b) PQ AB). cbv zeta in A.
  destruct (ltb_opp (orient a b p)) as [U1 U2]. destruct (ltb_opp (orient a b q)) as [U3 U4].
  rewrite U1 in S1. rewrite U2 in T1. rewrite U3 in S2. rewrite U4 in T2.
  rewrite S1, T1, S2, T2, S3, T3, S4, T4.
  rewrite !ltb_prod in A.
  rewrite (no_down (v2y a) (v2y b) (v2y p) AB), (no_down (v2y a) (v2y b) (v2y q) AB). cbn [andb]. rewrite !orb_false_r, A.
  - f_equal. f_equal. rewrite orb_comm. reflexivity.
  - intros H. apply N1. specialize (OP H). lra.
  - intros H. apply N2. specialize (OQ H). lra.
  - intros H. apply N3. exact (OA H).
  - intros H. apply N4. exact (OB H).
Qed.
