(** C34: multipolygons are assembled from their segments. *)
From Coq Require Import QArith Qabs SetoidList SetoidPermutation Permutation Lqa.
From Verif Require Import Base Bytes GeoModel RingModel RingSpec RingProofs.
Local Open Scope nat_scope.

(** Rings are closed and consist of input segments, each used at most once; what is lost is said.
    [R] is an equivalence that holds between coordinates the program takes for equal. *)
Theorem C34_rings {A} (same : A -> A -> bool) (R : A -> A -> Prop) :
  Equivalence R -> (forall a b, same a b = true -> R a b) ->
  forall seqs, Forall (fun s => scoords s <> []) seqs ->
  exists rings lost, createRings same seqs = Some (Ok rings) /\
    Forall (fun r => closedLine same (scoords r)) rings /\
    sameEdges R (edgesOf rings ++ lost) (edgesOf seqs).
Proof.
  intros ER SR seqs F. unfold createRings.
  destruct (ringLoop_main same R ER SR (length seqs) None seqs []) as (r & -> & H); auto.
  { constructor; auto. intros; discriminate. }
  cbn [option_map omap bind]. destruct r as [[rings left]|].
  - destruct (H _ _ eq_refl) as [LO E]. exists rings, (optEdges left). split; [reflexivity|]. split.
    + eapply Forall_impl; [|exact (lo_closed _ _ _ _ LO)]. intros s. apply isClosed_spec.
    + eapply same_trans; auto. 2: { cbn [optEdges app edgesOf flat_map] in E. rewrite app_nil_r in E. exact E. }
      apply same_perm; auto. apply Permutation_app_comm.
  - exists [], (edgesOf seqs). repeat split; auto. apply same_refl; auto.
Qed.
Print Assumptions C34_rings.

(** If every place is the end of an even number of ways, every segment is used exactly once. *)
Theorem C34_complete {A} (same : A -> A -> bool) : equivalence same ->
  forall seqs, Forall (fun s => 2 <= length (scoords s)) seqs ->
  (forall c, Nat.even (degree same c seqs) = true) ->
  exists rings, createRings same seqs = Some (Ok rings) /\
    Forall (fun r => closedLine same (scoords r)) rings /\
    sameEdges (fun a b => same a b = true) (edgesOf rings) (edgesOf seqs).
Proof.
  intros EQ seqs L EV. unfold createRings.
  assert (ER : Equivalence (fun a b => same a b = true)).
  { split; [intros a; apply (eqv_refl _ EQ)|intros a b; apply (eqv_sym _ EQ)|intros a b c; apply (eqv_trans _ EQ)]. }
  destruct (ringLoop_even same EQ (length seqs) None seqs []) as (rings & E); auto.
  { intros; discriminate. }
  { intros c. cbn [optEnds app]. rewrite oddAt_degree, <- Nat.negb_even, EV. reflexivity. }
  destruct (ringLoop_main same (fun a b => same a b = true) ER (fun a b H => H) (length seqs) None seqs []) as (r & X & H); auto.
  { constructor; auto. 1: intros; discriminate. eapply Forall_impl; [|exact L]. intros s Hs. cbn beta in Hs. unfold filled.
    destruct (scoords s); [cbn [length] in Hs; lia|discriminate]. }
  rewrite E in *. assert (r = Some (rings, None)) as -> by congruence.
  destruct (H _ _ eq_refl) as [LO S]. exists rings. cbn [option_map omap bind]. split; [reflexivity|]. split.
  - eapply Forall_impl; [|exact (lo_closed _ _ _ _ LO)]. intros s. apply isClosed_spec.
  - cbn [optEdges app edgesOf flat_map] in S. rewrite app_nil_r in S. exact S.
Qed.
Print Assumptions C34_complete.

(** Otherwise segments are lost. *)
Theorem C34_lost {A} (same : A -> A -> bool) : equivalence same ->
  forall seqs, Forall (fun s => 2 <= length (scoords s)) seqs ->
  forall c, Nat.odd (degree same c seqs) = true ->
  exists rings, createRings same seqs = Some (Ok rings) /\ length (edgesOf rings) < length (edgesOf seqs).
Proof.
  intros EQ seqs L c OD. unfold createRings.
  assert (ER : Equivalence (fun a b => same a b = true)).
  { split; [intros a; apply (eqv_refl _ EQ)|intros a b; apply (eqv_sym _ EQ)|intros a b d; apply (eqv_trans _ EQ)]. }
  assert (LE : forall s : sequence A, long s -> 1 <= length (edges (scoords s))).
  { intros s Hs. unfold long in Hs. destruct (scoords s) as [|x [|y l]]; cbn [length] in Hs; try lia. cbn. lia. }
  destruct (ringLoop_main same (fun a b => same a b = true) ER (fun a b H => H) (length seqs) None seqs []) as (r & X & H); auto.
  { constructor; auto. 1: intros; discriminate. eapply Forall_impl; [|exact L]. intros s Hs. cbn beta in Hs. unfold filled.
    destruct (scoords s); [cbn [length] in Hs; lia|discriminate]. }
  rewrite X. cbn [option_map omap bind]. eexists. split; [reflexivity|]. destruct r as [[rings left]|].
  - destruct (H _ _ eq_refl) as [LO S]. destruct (ringLoop_parity same EQ _ _ _ _ _ _ X) as [P Q]; auto; [intros; discriminate|].
    specialize (P c). cbn [optEnds app] in P. rewrite oddAt_degree, OD in P. destruct left as [s|]; [|discriminate].
    apply same_length in S. cbn [optEdges app edgesOf flat_map] in S. rewrite !app_length in S. specialize (LE s (Q s eq_refl)). cbn [length] in S. unfold edgesOf in *. lia.
  - destruct seqs as [|s seqs]; [discriminate|]. inversion L as [|? ? L1 _]; subst. cbn [edgesOf flat_map length]. rewrite app_length. specialize (LE s L1). lia.
Qed.
Print Assumptions C34_lost.

(** Ends of ways as integers: two ways that close, and one that does not. *)
Definition nsame : N -> N -> bool := N.eqb.
Lemma nsame_equivalence : equivalence nsame.
Proof.
  unfold nsame. split.
  - apply N.eqb_refl.
  - intros a b H. rewrite N.eqb_sym. exact H.
  - intros a b c H1 H2. apply N.eqb_eq in H1, H2. apply N.eqb_eq. congruence.
Qed.
Definition way (i : N) (l : list N) : sequence N := mkSeq i l.

Example C34_complete_case :
  let seqs := [way 1 [1; 2; 3]; way 2 [7; 8; 9; 7]; way 3 [5; 1]; way 4 [5; 4; 3]]%N in
  Forall (fun s => 2 <= length (scoords s)) seqs /\
  (forall c, Nat.even (degree nsame c seqs) = true) /\
  createRings nsame seqs = Some (Ok [way 4 [5; 4; 3; 2; 1; 5]; way 2 [7; 8; 9; 7]])%N.
Proof.
  split; [repeat constructor|]. split; [|vm_compute; reflexivity].
  intros c. unfold degree, nsame. cbn.
  repeat match goal with |- context [N.eqb c ?k] => destruct (N.eqb c k) eqn:?; cbn end;
  repeat match goal with H : N.eqb c _ = true |- _ => apply N.eqb_eq in H; subst c end; try discriminate; reflexivity.
Qed.

(** A ring that cannot be closed is dropped without notice when it is the last one, and takes every
    ring with it when it is not: of the ways of a closed ring and of an open way, only the former is
    kept, or none. *)
Theorem C34_trailing_refuted :
  exists seqs : list (sequence N),
    createRings nsame seqs = Some (Ok [way 2 [7; 8; 9; 7]])%N /\
    createRings nsame (rev seqs) = Some (Ok []) /\
    degree nsame 1%N seqs = 1.
Proof. exists [way 1 [1; 2]; way 2 [7; 8; 9; 7]]%N. vm_compute. auto. Qed.
Print Assumptions C34_trailing_refuted.

(** Every ring becomes exactly one area, as outer or, in a group with an outer ring that contains
    it, as inner; there always is an outer ring.  The numbers need no more than an irreflexive and
    transitive [<], which that of IEEE 754 is, NaN included. *)
Theorem C34_areas {T} (n : nums T) (same : point T -> point T -> bool) clockwise :
  (forall x, nlt n x x = false) -> (forall x y z, nlt n x y = true -> nlt n y z = true -> nlt n x z = true) ->
  forall rings, Forall (fun r => closedLine same (scoords r)) rings ->
  exists areas groups, fillRelation same clockwise (isPointInPolygon n) (length rings) rings = Some (Ok areas) /\
    Permutation rings (flat_map (fun g => fst g :: snd g) groups) /\
    Forall (fun g => Forall (fun i => forall c, In c (scoords i) -> isPointInPolygon n c (scoords (fst g)) = true) (snd g)) groups /\
    Forall2 (fun g a => isOuter a = fst g /\ ringId a = (if fst g : bool then sid (snd g) else 0%N) /\
        exists f m e, scoords (snd g) = f :: m ++ [e] /\ (ringCoords a = f :: m \/ ringCoords a = rev (f :: m)))
      (flat_map (fun g => (true, fst g) :: map (pair false) (snd g)) groups) areas.
Proof.
  intros I TR rings CL.
  assert (F : Forall filled rings).
  { eapply Forall_impl; [|exact CL]. intros s (f & m & e & E & _). unfold filled. rewrite E. discriminate. }
  destruct (fillRelation_spec same clockwise (isPointInPolygon n) (fun p q => nlt n (plat p) (plat q)))
    with (fuel := length rings) (rings := rings) as (areas & groups & E & P & C & A); auto.
  { intros a b c. apply TR. }
  { intros p l. apply inside_corner. }
  exists areas, groups. split; [exact E|]. split; [exact P|]. split.
  - eapply Forall_impl; [|exact C]. intros g Hg. eapply Forall_impl; [|exact Hg]. cbn beta. intros i Hi c Hc.
    unfold containsRing in Hi. rewrite forallb_forall in Hi. auto.
  - assert (CG : Forall (fun g => closedLine same (scoords (snd g))) (flat_map (fun g : sequence (point T) * list (sequence (point T)) => (true, fst g) :: map (pair false) (snd g)) groups)).
    { assert (Q := Permutation_Forall P CL). clear -Q. induction groups as [|[o i] groups IH]; [constructor|].
      cbn [flat_map fst snd] in *. inversion Q as [|? ? Q1 Q2]; subst. apply Forall_app in Q2 as [Q2 Q3].
      constructor; auto. apply Forall_app. split; auto. clear -Q2. induction Q2; constructor; auto. }
    clear -A CG. induction A as [|g a gs as_ H1 H2 IH]; constructor; inversion CG as [|? ? C1 C2]; subst; auto.
    destruct H1 as (X1 & X2 & X3). split; auto. split; auto. destruct C1 as (f & m & e & E & S).
    exists f, m, e. split; auto. rewrite E, insert_closed in X3 by auto. destruct (Bool.eqb _ _); injection X3 as <-; auto.
Qed.
Print Assumptions C34_areas.

(** Without islands (no ring in a ring in a ring) the outer areas are exactly those of the rings
    that no ring contains. *)
Theorem C34_two_levels {T} (n : nums T) (same : point T -> point T -> bool) clockwise :
  (forall x, nlt n x x = false) -> (forall x y z, nlt n x y = true -> nlt n y z = true -> nlt n x z = true) ->
  forall rings, Forall (fun r => closedLine same (scoords r)) rings ->
  (forall a b c, In a rings -> In b rings -> In c rings ->
     containsRing (isPointInPolygon n) a b = true -> containsRing (isPointInPolygon n) b c = false) ->
  exists areas groups, fillRelation same clockwise (isPointInPolygon n) (length rings) rings = Some (Ok areas) /\
    Permutation rings (flat_map (fun g => fst g :: snd g) groups) /\
    Forall (fun g => Forall (fun i => containsRing (isPointInPolygon n) (fst g) i = true) (snd g)) groups /\
    Forall (fun g => forall o, In o rings -> containsRing (isPointInPolygon n) o (fst g) = false) groups /\
    map isOuter areas = flat_map (fun g => true :: map (fun _ => false) (snd g)) groups.
Proof.
  intros I TR rings CL TWO.
  assert (F : Forall filled rings).
  { eapply Forall_impl; [|exact CL]. intros s (f & m & e & E & _). unfold filled. rewrite E. discriminate. }
  destruct (fillRelation_levels same clockwise (isPointInPolygon n) (fun p q => nlt n (plat p) (plat q)))
    with (all := rings) (fuel := length rings) (rings := rings) as (areas & groups & E & P & C & TOP & A); auto.
  { intros a b c. apply TR. }
  { intros p l. apply inside_corner. }
  { intros x X. exact X. }
  { intros c o _ Ho X. eauto. }
  exists areas, groups. repeat (split; [assumption|]).
  assert (M : map isOuter areas = map fst (flat_map (fun g : sequence (point T) * list (sequence (point T)) => (true, fst g) :: map (pair false) (snd g)) groups)).
  { clear -A. induction A as [|g a gs as_ H1 H2 IH]; [reflexivity|]. cbn [map]. destruct H1 as (X1 & _). rewrite X1, IH. reflexivity. }
  rewrite M. clear. induction groups as [|[o i] groups IH]; [reflexivity|].
  cbn [flat_map map fst snd app]. rewrite map_app, IH, map_map. reflexivity.
Qed.
Print Assumptions C34_two_levels.

(** Squares. *)
Definition qp (x y : Z) : point Q := mkPoint (inject_Z y) (inject_Z x).
Definition square (i : N) (a b : Z) : sequence (point Q) :=
  mkSeq i [qp a a; qp b a; qp b b; qp a b; qp a a].
Definition qsame (a b : point Q) : bool := sameCoord exactNums (1 # 4503599627370496) a b.

Lemma exact_irr x : nlt exactNums x x = false.
Proof. cbn. rewrite negb_false_iff. apply Qle_bool_iff. apply Qle_refl. Qed.
Lemma exact_lt x y : nlt exactNums x y = true <-> (x < y)%Q.
Proof.
  cbn. rewrite negb_true_iff. split.
  - intros H. apply Qnot_le_lt. intros X. apply Qle_bool_iff in X. congruence.
  - intros H. destruct (Qle_bool y x) eqn:X; auto. apply Qle_bool_iff in X. exfalso. apply (Qlt_not_le _ _ H X).
Qed.
Lemma exact_trans x y z : nlt exactNums x y = true -> nlt exactNums y z = true -> nlt exactNums x z = true.
Proof. rewrite !exact_lt. apply Qlt_trans. Qed.

Example C34_two_levels_case :
  let rings := [square 1 2 4; square 2 0 10; square 3 20 30; square 4 6 8] in
  Forall (fun r => closedLine qsame (scoords r)) rings /\
  (forall a b c, In a rings -> In b rings -> In c rings ->
     containsRing (isPointInPolygon exactNums) a b = true -> containsRing (isPointInPolygon exactNums) b c = false) /\
  exists areas, fillRelation qsame (isClockwise exactNums) (isPointInPolygon exactNums) 4 rings = Some (Ok areas) /\
    map (fun a => (isOuter a, length (ringCoords a))) areas = [(true, 4); (false, 4); (false, 4); (true, 4)].
Proof.
  split; [|split].
  - unfold square. repeat constructor; (do 3 eexists; split; [apply (app_comm_cons [_; _; _] [_])|vm_compute; reflexivity]).
  - intros a b c Ha Hb Hc. cbn [In] in Ha, Hb, Hc.
    repeat match goal with H : _ \/ _ |- _ => destruct H as [<-|H] | H : False |- _ => destruct H end;
      try (intros _; vm_compute; reflexivity); intros X; exfalso; revert X; vm_compute; discriminate.
  - eexists. vm_compute. split; reflexivity.
Qed.

(** An island in a hole: it is another outer area or, depending on the order of the rings, a hole
    of the outermost ring (where the area around it already is no more). *)
Theorem C34_island_refuted :
  let outer := square 1 0 10 in let hole := square 2 2 8 in let island := square 3 4 6 in
  let fill l := option_map (omap (map (@isOuter (point Q)))) (fillRelation qsame (isClockwise exactNums) (isPointInPolygon exactNums) 3 l) in
  fill [outer; island; hole] = Some (Ok [true; false; true]) /\
  fill [outer; hole; island] = Some (Ok [true; false; false]).
Proof. vm_compute. auto. Qed.
Print Assumptions C34_island_refuted.

(** In exact arithmetic outer rings are counter-clockwise and inner rings clockwise: same points
    without the repeated one, in the direction of the right sign. *)
Theorem C34_orientation (same : point Q -> point Q -> bool) f m outer : same f f = true ->
  exists l, insertCoordinates same (isClockwise exactNums) (f :: m ++ [f]) outer = Ok l /\
    (l = f :: m \/ l = rev (f :: m)) /\
    (if outer then 0 <= signedArea l else signedArea l <= 0)%Q.
Proof.
  intros S. rewrite insert_closed by auto. eexists. split; [reflexivity|]. split; [destruct (Bool.eqb _ _); auto|].
  destruct (isClockwise exactNums (f :: m ++ [f])) eqn:C; destruct outer; cbn [negb Bool.eqb].
  - apply isClockwise_exact in C. rewrite area_closed in C. rewrite area_rev. lra.
  - apply isClockwise_exact in C. rewrite area_closed in C. lra.
  - apply isClockwise_exact_false in C. rewrite area_closed in C. lra.
  - apply isClockwise_exact_false in C. rewrite area_closed in C. rewrite area_rev. lra.
Qed.
Print Assumptions C34_orientation.

Example C34_orientation_case :
  insertCoordinates qsame (isClockwise exactNums) (scoords (square 1 0 2)) false = Ok [qp 0 2; qp 2 2; qp 2 0; qp 0 0] /\
  (signedArea [qp 0 2; qp 2 2; qp 2 0; qp 0 0] == -8)%Q.
Proof. vm_compute. auto. Qed.

(** The whole of the complex case: for ways with coordinates, an answer, and every ring in it. *)
Theorem C34_defined {T} (n : nums T) (same : point T -> point T -> bool) clockwise :
  (forall x, nlt n x x = false) -> (forall x y z, nlt n x y = true -> nlt n y z = true -> nlt n x z = true) ->
  forall seqs, Forall (fun s => scoords s <> []) seqs ->
  exists rings areas, createRings same seqs = Some (Ok rings) /\
    complexCase same clockwise (isPointInPolygon n) seqs = Some (Ok areas) /\ length areas = length rings.
Proof.
  intros I TR seqs F.
  destruct (C34_rings same (fun _ _ => True)) with (seqs := seqs) as (rings & _ & E & CL & _); auto.
  { split; repeat intro; auto. }
  destruct (C34_areas n same clockwise I TR rings CL) as (areas & groups & E2 & P & _ & A).
  exists rings, areas. split; auto. unfold complexCase. rewrite E. split; auto.
  apply Permutation_length in P. rewrite P.
  assert (X : forall gs : list (sequence (point T) * list (sequence (point T))), length (flat_map (fun g => (true, fst g) :: map (pair false) (snd g)) gs) = length (flat_map (fun g => fst g :: snd g) gs)).
  { clear. induction gs as [|[a b] gs IH]; [reflexivity|]. cbn [flat_map length fst snd]. rewrite !app_length. cbn [length]. rewrite map_length, IH. reflexivity. }
  rewrite <- X. clear -A. induction A; cbn [length]; congruence.
Qed.
Print Assumptions C34_defined.

(** The simple case: one closed outer way, closed inner ways: one area each, in order. *)
Theorem C34_simple {A} (same : A -> A -> bool) clockwise (outer : sequence A) inners :
  Forall (fun r => closedLine same (scoords r)) (outer :: inners) ->
  exists areas, simpleCase same clockwise outer inners = Ok areas /\
    Forall2 (fun g a => isOuter a = fst g /\ exists f m e, scoords (snd g) = f :: m ++ [e] /\
        ringCoords a = (if Bool.eqb (fst g) (negb (clockwise (f :: m ++ [e]))) then f :: m else rev (f :: m)))
      ((true, outer) :: map (pair false) inners) areas.
Proof.
  intros CL. assert (F : Forall filled (outer :: inners)).
  { eapply Forall_impl; [|exact CL]. intros s (f & m & e & E & _). unfold filled. rewrite E. discriminate. }
  inversion F as [|? ? F1 F2]; subst. unfold simpleCase.
  destruct (makeArea_filled same clockwise true outer F1) as (a & -> & Ha).
  destruct (makeAll_filled same clockwise false inners F2) as (as_ & -> & Has). cbn [bind omap].
  eexists. split; [reflexivity|].
  assert (CG : Forall (fun g => closedLine same (scoords (snd g))) ((true, outer) :: map (pair false) inners)).
  { inversion CL; subst. constructor; auto. clear -H2. induction H2; constructor; auto. }
  assert (A' : Forall2 (areaFor same clockwise) ((true, outer) :: map (pair false) inners) (a :: as_)) by (constructor; auto).
  clear -A' CG. induction A' as [|g x gs xs H1 H2 IH]; constructor; inversion CG as [|? ? C1 C2]; subst; auto.
  destruct H1 as (X1 & X2 & X3). split; auto. destruct C1 as (f & m & e & E & S).
  exists f, m, e. split; auto. rewrite E, insert_closed in X3 by auto. injection X3 as X3. auto.
Qed.
Print Assumptions C34_simple.

Example C34_simple_case :
  exists areas, simpleCase qsame (isClockwise exactNums) (square 1 0 10) [square 2 2 8] = Ok areas /\
    map (@ringCoords (point Q)) areas = [[qp 0 0; qp 10 0; qp 10 10; qp 0 10]; [qp 2 8; qp 8 8; qp 8 2; qp 2 2]].
Proof. eexists. vm_compute. split; reflexivity. Qed.
