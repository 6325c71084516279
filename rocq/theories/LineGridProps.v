(** Theorems about splitting the sides of surfaces by a grid. *)
From Coq Require Import Reals Lra QArith Sorted Permutation.
From Verif Require Import Base RingModel MeshBuildModel QuatModel LineGridModel LineGridSpec LineGridProofs.
Local Open Scope R_scope.

Notation realSplit := (split realNums realGrids).
Notation realAt := (cornerOf realNums realGrids).

(** The points of a side are its first corner and other nodes of it, in order and none twice; every node is near one of them.
    Splitting always ends. *)
Theorem C64_split : forall srt scale step a b, sorts srt -> 0 < scale -> 0 < step -> moderate a b ->
  (exists least, forall fuel, (least <= fuel)%nat -> realSplit srt scale step fuel a b [] <> None) /\
  forall fuel out, realSplit srt scale step fuel a b [] = Some out ->
    (exists r, out = realAt scale a :: r) /\ StronglySorted (before (realAt scale a) (realAt scale b)) out /\
    (forall p, In p out -> node step (realAt scale a) (realAt scale b) p) /\
    (forall p, node step (realAt scale a) (realAt scale b) p -> exists q, In q out /\ near (/ 2 ^ 52) q p).
Proof.
  intros srt scale step a b Hs Hc Ht M. split.
  - destruct (split_ends srt scale step Ht a b) as (m & H). exists m. intros fuel L. now apply H.
  - intros fuel out H. destruct (split_first srt Hs scale step Hc Ht fuel a b out M H) as (r & E & S & A & B).
    split; [exists r; exact E|]. auto.
Qed.
Print Assumptions C64_split.

(** If different nodes are not near each other, they are all there and nothing else is. *)
Theorem C64_exact_partial : forall srt scale step a b fuel out, sorts srt -> 0 < scale -> 0 < step -> moderate a b ->
  spaced (/ 2 ^ 52) step (realAt scale a) (realAt scale b) -> realSplit srt scale step fuel a b [] = Some out ->
  StronglySorted (before (realAt scale a) (realAt scale b)) out /\ forall p, In p out <-> node step (realAt scale a) (realAt scale b) p.
Proof. intros srt scale step a b fuel out Hs Hc Ht M Sp H. now apply (split_exact srt Hs scale step Hc Ht fuel a b out). Qed.
Print Assumptions C64_exact_partial.

(** Then there is no line of the grid between two neighbours. *)
Theorem C64_cells_partial : forall srt scale step a b fuel l p q r, sorts srt -> 0 < scale -> 0 < step -> moderate a b ->
  spaced (/ 2 ^ 52) step (realAt scale a) (realAt scale b) -> realSplit srt scale step fuel a b [] = Some (l ++ p :: q :: r) ->
  forall m : Z, ~ (v2x p < IZR m * step < v2x q) /\ ~ (v2x q < IZR m * step < v2x p) /\
                ~ (v2y p < IZR m * step < v2y q) /\ ~ (v2y q < IZR m * step < v2y p).
Proof.
  intros srt scale step a b fuel l p q r Hs Hc Ht M Sp H.
  destruct (split_exact srt Hs scale step Hc Ht fuel a b _ M Sp H) as (S & I).
  set (s := realAt scale a) in *. set (e := realAt scale b) in *.
  assert (B : before s e p q /\ forall x, In x (l ++ p :: q :: r) -> ~ (before s e p x /\ before s e x q)).
  { clear -S. induction l as [|y l IH]; cbn [app] in *.
    - inversion S as [|? ? S1 F1]; subst. inversion F1 as [|? ? B F2]; subst. inversion S1 as [|? ? S2 F3]; subst.
      rewrite Forall_forall in F3. split; [exact B|]. intros x [<-|[<-|Hx]] (C & D).
      + apply C. reflexivity.
      + apply D. reflexivity.
      + apply (before_anti s e x q); [exact D|]. auto.
    - inversion S as [|? ? S1 F1]; subst. destruct (IH S1) as (B & C). split; [exact B|]. intros x [<-|Hx]; [|now apply C].
      intros (D & _). rewrite Forall_forall in F1. apply (before_anti s e p y); [exact D|]. apply F1, in_or_app. right. now left. }
  destruct B as ((N & t & u & A1 & A2 & Ep & Eq) & B).
  assert (K : forall v, t < v < u -> ~ crosses step s e (between s e v)).
  { intros v V C. apply (B (between s e v)).
    - apply I. right. right. split; [exists v; split; [lra|reflexivity]|exact C].
    - assert (Ns : s <> e) by (intros E; apply N; rewrite Ep, Eq, E, !between_same; reflexivity).
      split; (split; [intros E; rewrite ?Ep, ?Eq in E; apply between_inj in E; [lra|exact Ns]|]).
      + exists t, v. repeat split; try assumption; lra.
      + exists v, u. repeat split; try assumption; lra. }
  assert (W : forall x0 x1 c, x0 + t * (x1 - x0) < c < x0 + u * (x1 - x0) \/ x0 + u * (x1 - x0) < c < x0 + t * (x1 - x0) ->
    x0 <> x1 /\ t < (c - x0) / (x1 - x0) < u /\ x0 + (c - x0) / (x1 - x0) * (x1 - x0) = c).
  { intros x0 x1 c C. assert (D : x0 <> x1) by (intros ->; lra). split; [exact D|].
    assert (E : x0 + (c - x0) / (x1 - x0) * (x1 - x0) = c) by (field; lra). split; [|exact E].
    set (v := (c - x0) / (x1 - x0)) in *. clearbody v. rewrite <- E in C.
    split; apply Rnot_le_lt; intros L; destruct C as [C|C]; nra. }
  intros m. rewrite Ep, Eq. cbn [between v2x v2y]. repeat split; intros C.
  - destruct (W (v2x s) (v2x e) (IZR m * step)) as (D & V & E); [lra|]. apply (K _ V). exists m. left. split; [exact D|exact E].
  - destruct (W (v2x s) (v2x e) (IZR m * step)) as (D & V & E); [lra|]. apply (K _ V). exists m. left. split; [exact D|exact E].
  - destruct (W (v2y s) (v2y e) (IZR m * step)) as (D & V & E); [lra|]. apply (K _ V). exists m. right. split; [exact D|exact E].
  - destruct (W (v2y s) (v2y e) (IZR m * step)) as (D & V & E); [lra|]. apply (K _ V). exists m. right. split; [exact D|exact E].
Qed.
Print Assumptions C64_cells_partial.

(** Two surfaces which share a side and go round it in different directions get the same points. *)
Theorem C64_reverse_partial : forall srt scale step a b fuel fuel' out out', sorts srt -> 0 < scale -> 0 < step -> moderate a b ->
  spaced (/ 2 ^ 52) step (realAt scale a) (realAt scale b) ->
  realSplit srt scale step fuel a b [] = Some out -> realSplit srt scale step fuel' b a [] = Some out' -> out' = rev out.
Proof.
  intros srt scale step a b fuel fuel' out out' Hs Hc Ht M Sp H H'.
  assert (M' : moderate b a) by (unfold moderate in *; lia).
  assert (Sp' : spaced (/ 2 ^ 52) step (realAt scale b) (realAt scale a)).
  { intros p q P Q E. apply Sp; [apply node_flip, P|apply node_flip, Q|exact E]. }
  destruct (split_exact srt Hs scale step Hc Ht fuel a b out M Sp H) as (S & I).
  destruct (split_exact srt Hs scale step Hc Ht fuel' b a out' M' Sp' H') as (S' & I').
  apply (sorted_unique (before (realAt scale b) (realAt scale a))).
  - intros p q. apply before_anti.
  - exact S'.
  - apply (sorted_rev (before (realAt scale a) (realAt scale b))); [apply before_flip|exact S].
  - intros p. rewrite <- in_rev, I, I'. split; apply node_flip.
Qed.
Print Assumptions C64_reverse_partial.

(** The points of a closed contour are the points of its sides one after the other; the first comes again at the end. *)
Theorem C64_contour_partial : forall srt scale step p path, sorts srt -> 0 < scale -> 0 < step ->
  let sides := combine (p :: path) (path ++ [p]) in
  (forall a b, In (a, b) sides -> moderate a b /\ spaced (/ 2 ^ 52) step (realAt scale a) (realAt scale b)) ->
  exists least, forall fuel, (least <= fuel)%nat -> exists pieces,
    restoreGeometry realNums realGrids srt scale step fuel (p :: path) = Some (Ok (realAt scale p :: concat pieces)) /\
    Forall2 (fun x piece => realSplit srt scale step fuel (fst x) (snd x) [] = Some (realAt scale (fst x) :: piece)) sides pieces /\
    exists r, realAt scale p :: concat pieces = r ++ [realAt scale p].
Proof.
  intros srt scale step p path Hs Hc Ht sides H. destruct (all_end srt scale step Ht sides) as (m & E). exists m. intros fuel L.
  destruct (split_from srt Hs scale step Hc Ht p p path fuel []) as (pieces & S & F & T).
  { intros [a b] Hx. split; [apply (H a b Hx)|]. now apply E. }
  exists pieces. split; [|split; [exact F|exact T]]. unfold restoreGeometry. cbn [app] in S.
  destruct (combine (p :: path) (path ++ [p])) as [|[a b] l] eqn:C; [now destruct path|].
  assert (a = p) by (destruct path; cbn in C; congruence). subst a.
  rewrite from_empty; [now rewrite S|exact Hs|exact Hc|exact Ht|]. apply (H p b). now left.
Qed.
Print Assumptions C64_contour_partial.
(** A contour without points is undefined. *)
Theorem C64_empty_refuted : forall T (n : nums T) g srt scale step fuel, restoreGeometry n g srt scale step fuel [] = Some UB.
Proof. reflexivity. Qed.
Print Assumptions C64_empty_refuted.
(** With a negative cell size splitting does not end. *)
Theorem C64_negative_refuted : forall srt scale step a b fuel result, 0 < scale -> step < 0 -> moderate a b -> fst a <> fst b ->
  realSplit srt scale step fuel a b result = None.
Proof.
  intros srt scale step a b fuel result Hc Ht M N.
  assert (X : v2x (realAt scale a) <> v2x (realAt scale b)).
  { cbn. intros E. apply N. apply eq_IZR. apply Rmult_eq_reg_r with (/ scale); [exact E|]. apply Rinv_neq_0_compat. lra. }
  rewrite split_raw. unfold rawOf. cbv zeta. set (s := realAt scale a) in *. set (e := realAt scale b) in *.
  rewrite (proj2 (isZero_not (v2x e - v2x s))) by lra.
  assert (G : forall x y, x <> y -> gridLines realNums realGrids step fuel (if rlt x y then x else y) (if rlt x y then y else x) = None).
  { intros x y D. destruct (rlt x y) eqn:L; [apply rlt_true in L|apply rlt_false in L]; apply lines_forever; lra. }
  specialize (G _ _ X).
  assert (Z : zeroSlope realNums realGrids srt step fuel s e [s] = None).
  { unfold zeroSlope. cbn [realNums nsub]. change {| nzero := _ |} with realNums. rewrite (proj2 (isZero_not (v2x s - v2x e))) by lra.
    change (fun x y : R => if Rlt_dec x y then true else false) with rlt.
    change (if Rlt_dec ?x ?y then true else false) with (rlt x y).
    destruct (rlt (v2x s) (v2x e)); now rewrite G. }
  destruct (rlt (Rabs ((v2y e - v2y s) / (v2x e - v2x s))) eps); [now rewrite Z|].
  unfold normalCase. destruct (rlt (v2x s) (v2x e)); now rewrite G.
Qed.
Print Assumptions C64_negative_refuted.

(** Sorting by insertion is such a sort. *)
Fixpoint insertBy {A} (lt : A -> A -> bool) (a : A) (l : list A) : list A :=
  match l with [] => [a] | b :: l' => if lt b a then b :: insertBy lt a l' else a :: l end.
Definition insertionSort {A} (lt : A -> A -> bool) (l : list A) : list A := fold_right (insertBy lt) [] l.
Lemma insertion_sorts {A} : sorts (@insertionSort A).
Proof.
  intros lt l (Irr & Tr & Neg). induction l as [|a l (P & S)]; [split; constructor|]. cbn [insertionSort fold_right].
  fold (insertionSort lt l). set (m := insertionSort lt l) in *. clearbody m. split.
  - rewrite P. clear. induction m as [|b m IH]; [reflexivity|]. cbn [insertBy]. destruct (lt b a); [|reflexivity].
    rewrite perm_swap. now rewrite IH.
  - clear P. induction S as [|b m S IH F]; [repeat constructor|]. cbn [insertBy]. destruct (lt b a) eqn:E.
    + constructor; [exact IH|]. apply Forall_forall. intros x Hx.
      assert (I : In x (a :: m)).
      { clear -Hx. induction m as [|c m IH]; [exact Hx|]. cbn [insertBy] in Hx. destruct (lt c a); [|exact Hx].
        destruct Hx as [<-|Hx]; [right; now left|]. destruct (IH Hx) as [<-|H]; [now left|right; now right]. }
      destruct I as [<-|I]; [|rewrite Forall_forall in F; auto].
      destruct (lt a b) eqn:Q; [|reflexivity]. rewrite (Tr _ _ _ E Q) in Irr || (pose proof (Tr _ _ _ Q E); rewrite Irr in *; discriminate).
    + constructor; [constructor; assumption|]. constructor; [exact E|]. rewrite Forall_forall in *. intros x Hx. apply (Neg x b a); auto.
Qed.

(** With a cell size just below 1, the end of a side of length 1 is left out for the grid line before it, but the start is not,
    so the two directions differ. *)
Definition tightStep : Q := (1 - (1 # 2 ^ 53))%Q.
Theorem C64_reverse_refuted :
  let go := split exactNums exactGrids insertionSort 1%Q tightStep 10 in
  exists p q p' q', go (0, 0)%Z (1, 0)%Z [] = Some [p; q] /\ go (1, 0)%Z (0, 0)%Z [] = Some [p'; q'] /\
    (v2x p == 0 /\ v2x q == tightStep /\ ~ tightStep == 1 /\ v2x p' == 1 /\ v2x q' == 0)%Q.
Proof.
  eexists _, _, _, _. split; [vm_compute; reflexivity|]. split; [vm_compute; reflexivity|].
  repeat split; try (vm_compute; reflexivity). intros E. vm_compute in E. discriminate E.
Qed.
Print Assumptions C64_reverse_refuted.

(** A side from (0, 0) to (2, 1) on the grid of whole numbers. *)
Lemma case_node p : node 1 (mkV2 0 0) (mkV2 2 1) p <-> p = mkV2 0 0 \/ p = mkV2 1 (1 / 2) \/ p = mkV2 2 1.
Proof.
  split.
  - intros [->|[->|((t & T & ->) & z & C)]]; [now left|now right; right|]. unfold between in *. cbn [v2x v2y] in *.
    destruct C as [(_ & C)|(_ & C)].
    + assert (Z : (z = 0 \/ z = 1 \/ z = 2)%Z).
      { assert (-1 < IZR z < 3) as (A & B) by lra. apply lt_IZR in A, B. lia. }
      destruct Z as [-> | [-> | ->]]; [left|right; left|right; right]; apply vec2_eq; cbn [v2x v2y]; lra.
    + assert (Z : (z = 0 \/ z = 1)%Z).
      { assert (-1 < IZR z < 2) as (A & B) by lra. apply lt_IZR in A, B. lia. }
      destruct Z as [-> | ->]; [left|right; right]; apply vec2_eq; cbn [v2x v2y]; lra.
  - intros [-> | [-> | ->]]; [now left| |right; now left]. right. right. split.
    + exists (1 / 2). split; [lra|]. apply vec2_eq; cbn [between v2x v2y]; lra.
    + exists 1%Z. left. cbn [v2x]. lra.
Qed.
Lemma case_spaced : spaced (/ 2 ^ 52) 1 (mkV2 0 0) (mkV2 2 1).
Proof.
  assert (E : / 2 ^ 52 < 1 / 2). { replace (1 / 2) with (/ 2) by field. apply Rinv_lt_contravar; cbn; lra. }
  intros p q P Q (X & _). apply case_node in P, Q.
  destruct P as [-> | [-> | ->]], Q as [-> | [-> | ->]]; try reflexivity; exfalso; cbn [v2x] in X; apply Rabs_def2 in X; lra.
Qed.
Example C64_case : exists least, forall fuel, (least <= fuel)%nat ->
  realSplit insertionSort 1 1 fuel (0, 0)%Z (2, 1)%Z [] = Some [mkV2 0 0; mkV2 1 (1 / 2); mkV2 2 1] /\
  realSplit insertionSort 1 1 fuel (2, 1)%Z (0, 0)%Z [] = Some [mkV2 2 1; mkV2 1 (1 / 2); mkV2 0 0].
Proof.
  assert (A0 : realAt 1 (0, 0)%Z = mkV2 0 0) by (apply vec2_eq; cbn; field).
  assert (A1 : realAt 1 (2, 1)%Z = mkV2 2 1) by (apply vec2_eq; cbn; field).
  assert (M : moderate (0, 0)%Z (2, 1)%Z) by (unfold moderate; cbn; lia).
  assert (M' : moderate (2, 1)%Z (0, 0)%Z) by (unfold moderate; cbn; lia).
  destruct (C64_split insertionSort 1 1 _ _ insertion_sorts Rlt_0_1 Rlt_0_1 M) as ((m & F) & _).
  destruct (C64_split insertionSort 1 1 _ _ insertion_sorts Rlt_0_1 Rlt_0_1 M') as ((m' & F') & _).
  exists (Nat.max m m'). intros fuel L. specialize (F fuel ltac:(lia)). specialize (F' fuel ltac:(lia)).
  destruct (realSplit insertionSort 1 1 fuel (0, 0)%Z (2, 1)%Z []) as [out|] eqn:E; [|easy].
  destruct (realSplit insertionSort 1 1 fuel (2, 1)%Z (0, 0)%Z []) as [out'|] eqn:E'; [|easy].
  assert (Sp : spaced (/ 2 ^ 52) 1 (realAt 1 (0, 0)%Z) (realAt 1 (2, 1)%Z)) by (rewrite A0, A1; apply case_spaced).
  destruct (C64_exact_partial insertionSort 1 1 _ _ fuel out insertion_sorts Rlt_0_1 Rlt_0_1 M Sp E) as (S & I).
  rewrite (C64_reverse_partial insertionSort 1 1 _ _ fuel fuel out out' insertion_sorts Rlt_0_1 Rlt_0_1 M Sp E E').
  rewrite A0, A1 in S, I.
  assert (O : out = [mkV2 0 0; mkV2 1 (1 / 2); mkV2 2 1]).
  { apply (sorted_unique (before (mkV2 0 0) (mkV2 2 1))); [intros p q; apply before_anti|exact S| |].
    - assert (B : forall x y x' y' t u, 0 <= t < u -> u <= 1 -> x = 2 * t -> y = t -> x' = 2 * u -> y' = u -> before (mkV2 0 0) (mkV2 2 1) (mkV2 x y) (mkV2 x' y')).
      { intros x y x' y' t u T U -> -> -> ->. split; [intros Q; injection Q as Q; lra|]. exists t, u.
        repeat split; try lra; apply vec2_eq; cbn [between v2x v2y]; ring. }
      repeat first [apply SSorted_cons|apply SSorted_nil|apply Forall_cons|apply Forall_nil];
        [apply (B 1 (1 / 2) 2 1 (1 / 2) 1)|apply (B 0 0 1 (1 / 2) 0 (1 / 2))|apply (B 0 0 2 1 0 1)]; lra.
    - intros p. rewrite I, case_node. cbn [In]. intuition congruence. }
  rewrite O. split; reflexivity.
Qed.
Lemma cons_same {A} (a b : A) l : a = b -> a :: l = b :: l.
Proof. now intros ->. Qed.
Example C64_contour_case : exists fuel, restoreGeometry realNums realGrids insertionSort 1 1 fuel [(0, 0); (2, 1)]%Z =
  Some (Ok [mkV2 0 0; mkV2 1 (1 / 2); mkV2 2 1; mkV2 1 (1 / 2); mkV2 0 0]).
Proof.
  assert (A0 : realAt 1 (0, 0)%Z = mkV2 0 0) by (apply vec2_eq; cbn; field).
  assert (A1 : realAt 1 (2, 1)%Z = mkV2 2 1) by (apply vec2_eq; cbn; field).
  destruct (C64_contour_partial insertionSort 1 1 (0, 0)%Z [(2, 1)%Z] insertion_sorts Rlt_0_1 Rlt_0_1) as (m & H).
  { intros a b [E|[E|[]]]; injection E as <- <-; (split; [unfold moderate; cbn; lia|]); rewrite A0, A1.
    - apply case_spaced.
    - intros p q P Q. apply case_spaced; apply node_flip; assumption. }
  destruct C64_case as (m' & C). exists (Nat.max m m'). destruct (C (Nat.max m m') ltac:(lia)) as (C1 & C2).
  destruct (H (Nat.max m m') ltac:(lia)) as (pieces & E & F & _). rewrite E. cbn [combine app] in F.
  inversion F as [|? a ? l F1 F2]; subst. inversion F2 as [|? b ? l' F3 F4]; subst. inversion F4; subst. cbn [fst snd] in F1, F3.
  rewrite C1 in F1. rewrite C2 in F3. injection F1 as _ _ <-. injection F3 as _ _ <-. cbn [concat app]. do 2 f_equal. apply cons_same. exact A0.
Qed.
