(** Proofs about the rectangles and circles of footprints. *)
From Coq Require Import QArith Qabs Lqa.
From Verif Require Import Base RingModel MeshBuildModel RectModel RectSpec.
Local Open Scope Q_scope.

Lemma lt_exact a b : nlt exactNums a b = true <-> a < b.
Proof.
  cbn. rewrite Bool.negb_true_iff. split; intros H.
  - apply Qnot_le_lt. intros L. apply Qle_bool_iff in L. congruence.
  - destruct (Qle_bool b a) eqn:E; [|easy]. apply Qle_bool_iff in E. lra.
Qed.
Lemma lt_exact_false a b : nlt exactNums a b = false <-> b <= a.
Proof.
  cbn. rewrite Bool.negb_false_iff. apply Qle_bool_iff.
Qed.

Lemma min_fold l : forall a,
  fold_left stdMin l a <= a /\ (forall x, In x l -> fold_left stdMin l a <= x) /\ (fold_left stdMin l a = a \/ In (fold_left stdMin l a) l).
Proof.
  induction l as [|y l IH]; intros a; cbn [fold_left].
  - split; [apply Qle_refl|]. split; [easy|now left].
  - destruct (IH (stdMin a y)) as (A & B & C).
    assert (H : stdMin a y <= a /\ stdMin a y <= y /\ (stdMin a y = a \/ stdMin a y = y)).
    { unfold stdMin. destruct (nlt exactNums y a) eqn:E.
      - apply lt_exact in E. repeat split; [lra|lra|now right].
      - apply lt_exact_false in E. repeat split; [lra|lra|now left]. }
    destruct H as (H1 & H2 & H3). split; [lra|]. split.
    + intros x [<-|Hx]; [lra|auto].
    + destruct C as [C|C]; [|right; now right]. rewrite C. destruct H3 as [-> | ->]; [now left|right; now left].
Qed.
Lemma max_fold l : forall a,
  a <= fold_left stdMax l a /\ (forall x, In x l -> x <= fold_left stdMax l a) /\ (fold_left stdMax l a = a \/ In (fold_left stdMax l a) l).
Proof.
  induction l as [|y l IH]; intros a; cbn [fold_left].
  - split; [apply Qle_refl|]. split; [easy|now left].
  - destruct (IH (stdMax a y)) as (A & B & C).
    assert (H : a <= stdMax a y /\ y <= stdMax a y /\ (stdMax a y = a \/ stdMax a y = y)).
    { unfold stdMax. destruct (nlt exactNums a y) eqn:E.
      - apply lt_exact in E. repeat split; [lra|lra|now right].
      - apply lt_exact_false in E. repeat split; [lra|lra|now left]. }
    destruct H as (H1 & H2 & H3). split; [lra|]. split.
    + intros x [<-|Hx]; [lra|auto].
    + destruct C as [C|C]; [|right; now right]. rewrite C. destruct H3 as [-> | ->]; [now left|right; now left].
Qed.

Lemma expandAll_folds l : forall r,
  expandAll r l = mkRect (fold_left stdMin (map v2x l) (xMin r)) (fold_left stdMin (map v2y l) (yMin r))
                         (fold_left stdMax (map v2x l) (xMax r)) (fold_left stdMax (map v2y l) (yMax r)).
Proof.
  induction l as [|p l IH]; intros r; [now destruct r|].
  unfold expandAll in *. cbn [fold_left map]. rewrite IH. reflexivity.
Qed.

Lemma huge_big : 1000 < huge.
Proof. vm_compute. reflexivity. Qed.

Lemma least_of (f : vec2 Q -> Q) l : l <> [] -> (forall p, In p l -> f p <= 1000) -> least f l (fold_left stdMin (map f l) huge).
Proof.
  intros Hn Hb. destruct (min_fold (map f l) huge) as (A & B & C).
  set (m := fold_left stdMin (map f l) huge) in *. split.
  - destruct C as [C|C].
    + destruct l as [|p l]; [easy|]. exfalso.
      assert (m <= f p) by (apply B; now left). assert (f p <= 1000) by (apply Hb; now left).
      pose proof huge_big. rewrite C in *. lra.
    + apply in_map_iff in C. destruct C as (p & E & Hp). exists p. split; [exact Hp|]. rewrite E. reflexivity.
  - intros p Hp. apply B, in_map, Hp.
Qed.
Lemma greatest_of (f : vec2 Q -> Q) l : (exists p, In p l /\ tiny <= f p) -> greatest f l (fold_left stdMax (map f l) tiny).
Proof.
  intros (p & Hp & Ht). destruct (max_fold (map f l) tiny) as (A & B & C).
  set (m := fold_left stdMax (map f l) tiny) in *. split.
  - destruct C as [C|C].
    + exists p. split; [exact Hp|]. assert (f p <= m) by (apply B, in_map, Hp).
      rewrite C in *. lra.
    + apply in_map_iff in C. destruct C as (q & E & Hq). exists q. split; [exact Hq|]. rewrite E. reflexivity.
  - intros q Hq. apply B, in_map, Hq.
Qed.
Lemma greatest_none (f : vec2 Q -> Q) l : (forall p, In p l -> f p <= tiny) -> fold_left stdMax (map f l) tiny == tiny.
Proof.
  intros H. destruct (max_fold (map f l) tiny) as (A & B & C). destruct C as [C|C]; [rewrite C; reflexivity|].
  apply in_map_iff in C. destruct C as (q & E & Hq). rewrite <- E in *. specialize (H q Hq). lra.
Qed.

Lemma circle_of l : l <> [] -> Forall earthly l -> northEast tiny l -> circles l (circleOf (expandAll noRect l)).
Proof.
  intros Hn He (Hx & Hy). rewrite Forall_forall in He. rewrite expandAll_folds. unfold circleOf, circles, noRect.
  cbn [xMin yMin xMax yMax fst snd v2x v2y].
  split; eexists; eexists; (split; [apply least_of; [exact Hn|intros p Hp; destruct (He p Hp); lra]|]);
    (split; [apply greatest_of; assumption|]); split; field.
Qed.
Lemma stretched_x l lo : l <> [] -> Forall earthly l -> least v2x l lo -> (forall p, In p l -> v2x p <= tiny) ->
  v2x (fst (circleOf (expandAll noRect l))) == (lo + tiny) / 2 /\ v2x (snd (circleOf (expandAll noRect l))) == (tiny - lo) / 2.
Proof.
  intros Hn He Hlo Ht. rewrite Forall_forall in He. rewrite expandAll_folds. unfold circleOf, noRect.
  cbn [xMin yMin xMax yMax fst snd v2x v2y]. rewrite (greatest_none v2x l Ht).
  assert (E : fold_left stdMin (map v2x l) huge == lo).
  { destruct (least_of v2x l Hn) as ((p & Hp & Ep) & L). { intros p Hp. destruct (He p Hp). lra. }
    destruct Hlo as ((q & Hq & Eq) & L'). specialize (L q Hq). specialize (L' p Hp). lra. }
  rewrite E. split; field.
Qed.
Lemma stretched_y l lo : l <> [] -> Forall earthly l -> least v2y l lo -> (forall p, In p l -> v2y p <= tiny) ->
  v2y (fst (circleOf (expandAll noRect l))) == (lo + tiny) / 2 /\ v2y (snd (circleOf (expandAll noRect l))) == (tiny - lo) / 2.
Proof.
  intros Hn He Hlo Ht. rewrite Forall_forall in He. rewrite expandAll_folds. unfold circleOf, noRect.
  cbn [xMin yMin xMax yMax fst snd v2x v2y]. rewrite (greatest_none v2y l Ht).
  assert (E : fold_left stdMin (map v2y l) huge == lo).
  { destruct (least_of v2y l Hn) as ((p & Hp & Ep) & L). { intros p Hp. destruct (He p Hp). lra. }
    destruct Hlo as ((q & Hq & Eq) & L'). specialize (L q Hq). specialize (L' p Hp). lra. }
  rewrite E. split; field.
Qed.

(** Contours. *)
Definition flat (l : list (vec2 Q)) : list Q := flat_map (fun v => [v2x v; v2y v]) l.
Lemma flat_len l : length (flat l) = (2 * length l)%nat.
Proof. induction l as [|v l IH]; [easy|]. cbn [flat flat_map app length]. fold (flat l). rewrite IH. lia. Qed.
Lemma pairs_flat l : pairsOf (flat l) = l.
Proof. induction l as [|[x y] l IH]; [easy|]. cbn [flat flat_map app pairsOf v2x v2y]. fold (flat l). now rewrite IH. Qed.

Lemma loop_points offset count (l : list (vec2 Q)) : forall i p,
  ppoints (contourLoop offset count i l p) = ppoints p ++ flat l /\ pouters (contourLoop offset count i l p) = pouters p.
Proof.
  induction l as [|v l IH]; intros i p; cbn [contourLoop].
  - now rewrite app_nil_r.
  - destruct (IH (Datatypes.S i) (mkPoly (ppoints p ++ [v2x v; v2y v]) (pholes p)
             (psegs p ++ [toInt (offset + i); toInt (offset + Datatypes.S i mod count)]) (pouters p) (pinners p))) as (A & B).
    rewrite A, B. cbn [ppoints pouters]. rewrite <- app_assoc. easy.
Qed.
Lemma removelast_firstn' {A} (l : list A) : removelast l = firstn (length l - 1) l.
Proof.
  induction l as [|a l IH]; [easy|]. destruct l as [|b l]; [easy|].
  change (removelast (a :: b :: l)) with (a :: removelast (b :: l)). rewrite IH. cbn. now rewrite Nat.sub_0_r.
Qed.
Lemma taken_ring env c : takenOf env c = ringOf (eEps env) c.
Proof.
  unfold takenOf, ringOf. destruct c as [|v c]; [easy|]. unfold sameVec. cbn [exactNums nlt nabs nsub].
  destruct (_ && _); [symmetry; apply removelast_firstn'|apply firstn_all].
Qed.

Lemma foot_step env f c h q f' : addFoot env f c h q = Ok f' ->
  frect f' = expandAll (frect f) (pointsOf (eEps env) [(c, h, q)]) /\
  ppoints (fpoly f') = ppoints (fpoly f) ++ flat (pointsOf (eEps env) [(c, h, q)]) /\
  pouters (fpoly f') = pouters (fpoly f) ++
    (if h then [] else [(length (ppoints (fpoly f)), length (ppoints (fpoly f)) + 2 * length (ringOf (eEps env) c))%nat]).
Proof.
  unfold addFoot. rewrite taken_ring. unfold addContour. destruct c as [|v c]; [easy|].
  pose proof (taken_ring env (v :: c)) as T. cbn [takenOf] in T.
  assert (L : length (ringOf (eEps env) (v :: c)) =
    (if sameVec exactNums env v (last (v :: c) v) then length (v :: c) - 1 else length (v :: c))%nat).
  { rewrite <- T, firstn_length. destruct (sameVec _ _ _ _); lia. }
  set (count := if sameVec exactNums env v (last (v :: c) v) then _ else _) in *.
  set (ring := ringOf (eEps env) (v :: c)) in *.
  destruct h, q as [q|]; cbn [bind]; intros H; injection H as <-; cbn [frect fpoly pointsOf flat_map keptPart fst]; fold ring;
    rewrite ?app_nil_r; try rewrite T.
  - match goal with |- context [contourLoop ?o ?cn ?i ?r ?p] => destruct (loop_points o cn r i p) as (A & B) end.
    rewrite A, B. cbn [ppoints pouters]. easy.
  - easy.
  - match goal with |- context [contourLoop ?o ?cn ?i ?r ?p] => destruct (loop_points o cn r i p) as (A & B) end.
    rewrite A, B. cbn [ppoints pouters]. rewrite L, (Nat.mul_comm count 2). easy.
  - match goal with |- context [contourLoop ?o ?cn ?i ?r ?p] => destruct (loop_points o cn r i p) as (A & B) end.
    rewrite A, B. cbn [ppoints pouters]. rewrite L, (Nat.mul_comm count 2). easy.
Qed.

(** The range [o] of the points [P] holds the contour [c]. *)
Definition holds (P : list Q) (o : nat * nat) (c : list (vec2 Q)) : Prop :=
  exists A B, P = A ++ flat c ++ B /\ o = (length A, length A + 2 * length c)%nat.
Lemma holds_app P o c B : holds P o c -> holds (P ++ B) o c.
Proof. intros (A & B' & -> & ->). exists A, (B' ++ B). rewrite <- !app_assoc. easy. Qed.
Lemma holds_points p o c : holds (ppoints p) o c -> rangePoints p o = c.
Proof.
  intros (A & B & E & ->). unfold rangePoints. cbn [fst snd]. rewrite E.
  rewrite firstn_app, firstn_all2 by lia. rewrite skipn_app, skipn_all2 by lia. cbn [app].
  rewrite Nat.sub_diag, skipn_O. replace (length A + 2 * length c - length A)%nat with (length (flat c)) by (rewrite flat_len; lia).
  rewrite firstn_app, firstn_all, Nat.sub_diag, firstn_O, app_nil_r. apply pairs_flat.
Qed.

Lemma feet_run env l : forall f f', addFeet env f l = Ok f' ->
  frect f' = expandAll (frect f) (pointsOf (eEps env) l) /\
  ppoints (fpoly f') = ppoints (fpoly f) ++ flat (pointsOf (eEps env) l) /\
  exists os, pouters (fpoly f') = pouters (fpoly f) ++ os /\ Forall2 (holds (ppoints (fpoly f'))) os (outersOf (eEps env) l).
Proof.
  induction l as [|[[c h] q] l IH]; intros f f' H; cbn [addFeet] in H.
  - injection H as <-. cbn. rewrite !app_nil_r. repeat split. exists []. rewrite app_nil_r. auto.
  - destruct (addFoot env f c h q) as [f1| |] eqn:E1; try easy. cbn [bind] in H.
    destruct (foot_step _ _ _ _ _ _ E1) as (A1 & B1 & C1). destruct (IH _ _ H) as (A & B & os & C & D). clear IH H E1.
    assert (P : pointsOf (eEps env) ((c, h, q) :: l) = pointsOf (eEps env) [(c, h, q)] ++ pointsOf (eEps env) l).
    { unfold pointsOf. cbn [flat_map]. now rewrite app_nil_r. }
    rewrite P. split; [rewrite A, A1; unfold expandAll; now rewrite fold_left_app|].
    assert (Fl : forall a b, flat (a ++ b) = flat a ++ flat b) by (intros; apply flat_map_app).
    split; [now rewrite B, B1, Fl, app_assoc|].
    rewrite C, C1, <- app_assoc. eexists. split; [reflexivity|].
    cbn [outersOf flat_map]. apply Forall2_app; [|exact D]. destruct h; [constructor|].
    constructor; [|constructor]. rewrite B. apply holds_app. rewrite B1.
    exists (ppoints (fpoly f)), []. rewrite app_nil_r. split; [|reflexivity].
    destruct q; cbn [pointsOf flat_map keptPart fst]; now rewrite app_nil_r.
Qed.

(** Averages. *)
Lemma sums_fold l : forall s, v2x (fold_left (fun s p => mkV2 (v2x s + v2x p) (v2y s + v2y p)) l s) == v2x s + total v2x l /\
  v2y (fold_left (fun s p => mkV2 (v2x s + v2x p) (v2y s + v2y p)) l s) == v2y s + total v2y l.
Proof.
  induction l as [|p l IH]; intros s; cbn [fold_left].
  - unfold total; cbn. split; ring.
  - destruct (IH (mkV2 (v2x s + v2x p) (v2y s + v2y p))) as (A & B). rewrite A, B. unfold total. cbn [map fold_right v2x v2y].
    split; ring.
Qed.
Lemma total_between (f : vec2 Q -> Q) l lo hi : (forall p, In p l -> lo <= f p <= hi) ->
  lo * inject_Z (Z.of_nat (length l)) <= total f l <= hi * inject_Z (Z.of_nat (length l)).
Proof.
  induction l as [|p l IH]; intros H.
  - unfold total. cbn [map fold_right length]. change (inject_Z (Z.of_nat 0)) with 0. lra.
  - unfold total. cbn [map fold_right length]. fold (total f l).
    rewrite Nat2Z.inj_succ. unfold Z.succ. rewrite inject_Z_plus.
    destruct IH as (A & B). { intros; apply H; now right. }
    destruct (H p) as (C & D); [now left|].
    change (inject_Z 1) with 1. rewrite !Qmult_plus_distr_r. lra.
Qed.
