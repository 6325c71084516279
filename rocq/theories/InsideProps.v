(** C71: points in polygons.  The three tests of the code, in exact arithmetic. *)
From Coq Require Import Reals Lra Lia.
From Verif Require Import Base GeoModel RingModel QuatModel MeshBuildModel InsideModel InsideSpec InsideEdge InsideProofs InsideNested.
Local Open Scope R_scope.

(** Polygon.hpp:119-134, GeometryUtils.hpp:165-177 and GeoUtils.hpp:92-101. *)
Definition tests : list (pt -> list pt -> bool) :=
  [ pointInside realNums Rleb; insidePoints realNums Rleb;
    fun p ring => isPointInPolygon realNums (geo p) (map geo ring) ].

Lemma tests_form test : In test tests ->
  (forall p ring, test p ring = leftSum p ring) \/ (forall p ring, test p ring = leftSum (opp p) (map opp ring)).
Proof.
  intros [<-|[<-|[<-|[]]]]; [left; apply inside_left|left; apply inside_right|right].
  intros p ring. rewrite inside_geo, map_map. reflexivity.
Qed.

(** Two points are told apart exactly if the way between them crosses the ring an odd number of
    times, whatever the ring (also one that crosses itself). *)
Theorem C71_segment test p q ring : In test tests ->
  ~ onRing p ring -> ~ onRing q ring -> (forall v, In v ring -> ~ onSegment v p q) ->
  xorb (test p ring) (test q ring) = oddCrossings p q ring.
Proof.
  intros T NP NQ NV. destruct (tests_form test T) as [E|E]; rewrite !E; [apply left_segment; assumption|].
  rewrite left_segment, odd_opp; [reflexivity| | |].
  - intros X. apply NP, ring_opp, X.
  - intros X. apply NQ, ring_opp, X.
  - intros v H X. apply in_map_iff in H as (w & <- & H). apply (NV w H), on_opp_inv, X.
Qed.
Print Assumptions C71_segment.

(** A square, counter-clockwise. *)
Definition box (a b : R) : list pt := [mkV2 a a; mkV2 b a; mkV2 b b; mkV2 a b].
Ltac coords := cbn [v2x v2y fst snd box edges combine last map geo opp plat plon] in *.
Ltac xor_false := repeat match goal with H : _ \/ _ |- _ => destruct H as [H|H] | H : False |- _ => destruct H end.
Lemma box_edges a b e : In e (edges (box a b)) <->
  e = (mkV2 a b, mkV2 a a) \/ e = (mkV2 a a, mkV2 b a) \/ e = (mkV2 b a, mkV2 b b) \/ e = (mkV2 b b, mkV2 a b).
Proof.
  unfold box. cbn [edges last combine In]. split.
  - intros [<-|[<-|[<-|[<-|[]]]]]; auto.
  - intros [->|[->|[->| ->]]]; auto.
Qed.
Lemma on_box_edge p a b : onSegment p a b ->
  Rmin (v2x a) (v2x b) <= v2x p <= Rmax (v2x a) (v2x b) /\ Rmin (v2y a) (v2y b) <= v2y p <= Rmax (v2y a) (v2y b).
Proof.
  assert (M : forall t x y, 0 <= t <= 1 -> Rmin x y <= x + t * (y - x) <= Rmax x y).
  { intros t x y T. unfold Rmin, Rmax. destruct (Rle_dec x y); nra. }
  intros (t & T & ->). cbn [along v2x v2y]. split; apply M, T.
Qed.
Ltac flat_edges H := apply box_edges in H; destruct H as [E|[E|[E|E]]]; injection E as -> ->.
Lemma off_box p a b : a <= b -> onRing p (box a b) -> (v2x p = a \/ v2x p = b \/ v2y p = a \/ v2y p = b) /\ a <= v2x p <= b /\ a <= v2y p <= b.
Proof.
  intros AB (c & d & H & O). flat_edges H; apply on_box_edge in O; cbn [v2x v2y] in O; unfold Rmin, Rmax in O;
    repeat destruct (Rle_dec _ _) in O; lra.
Qed.
Example C71_segment_case :
  let p := mkV2 1 2 in let q := mkV2 20 3 in
  ~ onRing p (box 0 10) /\ ~ onRing q (box 0 10) /\ (forall v, In v (box 0 10) -> ~ onSegment v p q) /\
  oddCrossings p q (box 0 10) = true.
Proof.
  cbv zeta. split; [|split; [|split]].
  - intros H. apply off_box in H; cbn [v2x v2y] in H; lra.
  - intros H. apply off_box in H; cbn [v2x v2y] in H; lra.
  - intros v H O. apply on_box_edge in O. cbn [v2x v2y] in O. unfold Rmin, Rmax in O. repeat destruct (Rle_dec _ _) in O; try lra.
    cbn [box In] in H. destruct H as [<-|[<-|[<-|[<-|[]]]]]; cbn [v2x v2y] in O; lra.
  - unfold oddCrossings. cbn [box edges last combine filter fst snd].
    assert (C : forall a b c d r, crossSegments a b c d = r <-> ltb (orient a b c * orient a b d) 0 && ltb (orient c d a * orient c d b) 0 = r)
      by (intros; rewrite cross_ltb; reflexivity).
    rewrite !cross_ltb. unfold orient. cbn [v2x v2y]. known. reflexivity.
Qed.

(** What can be reached without touching the ring has the same answer. *)
Theorem C71_reach test p q ring : In test tests -> clearOf p q ring -> test p ring = test q ring.
Proof.
  intros T C. destruct (tests_form test T) as [E|E]; rewrite !E; apply left_reach; [exact C|].
  intros a b H M. apply edges_opp in H. apply (C _ _ H). apply meet_opp. rewrite !opp_opp. exact M.
Qed.
Print Assumptions C71_reach.
Example C71_reach_case : clearOf (mkV2 1 2) (mkV2 8 9) (box 0 10).
Proof.
  intros a b H (v & V & O). assert (X : onRing v (box 0 10)) by (exists a, b; auto). apply off_box in X; [|lra].
  apply on_box_edge in V. cbn [v2x v2y] in V. unfold Rmin, Rmax in V. repeat destruct (Rle_dec _ _) in V; lra.
Qed.

(** Nothing beside a ring is inside it. *)
Theorem C71_outside test p ring : In test tests -> apart p ring -> test p ring = false.
Proof.
  intros T A. destruct (tests_form test T) as [E|E]; rewrite E; apply left_apart; [exact A|apply apart_opp, A].
Qed.
Print Assumptions C71_outside.
Example C71_outside_case : apart (mkV2 8 13) (box 0 10).
Proof. exists 1, 1, 21. split; [coords; lra|]. intros v [<-|[<-|[<-|[<-|[]]]]]; coords; lra. Qed.

(** In a convex ring the answer is exact, but for the border. *)
Theorem C71_convex test p ring : In test tests -> convexRing ring ->
  (leftOfAll p ring -> test p ring = true) /\
  ((exists a b, In (a, b) (edges ring) /\ orient a b p < 0) -> test p ring = false).
Proof.
  intros T C. split.
  - intros I. destruct (tests_form test T) as [E|E]; rewrite E; apply left_convex; auto.
    + apply convex_opp, C.
    + intros a b H. apply edges_opp in H. rewrite <- orient_opp, opp_opp. apply I, H.
  - intros (a & b & H & O). apply C71_outside; [exact T|]. exact (convex_beside p ring a b C H O).
Qed.
Print Assumptions C71_convex.
Lemma box_convex a b : a < b -> convexRing (box a b).
Proof.
  intros AB. split; [|split].
  - repeat constructor; cbn [In]; intros H; xor_false; injection H; intros; lra.
  - cbn. lia.
  - intros c d v H V NC ND. flat_edges H; cbn [box In] in V; destruct V as [<-|[<-|[<-|[<-|[]]]]]; try contradiction;
      unfold orient; cbn [v2x v2y]; nra.
Qed.
Example C71_convex_case : convexRing (box 0 10) /\ leftOfAll (mkV2 1 2) (box 0 10) /\
  exists a b, In (a, b) (edges (box 0 10)) /\ orient a b (mkV2 11 5) < 0.
Proof.
  split; [apply box_convex; lra|]. split.
  - intros a b H. flat_edges H; unfold orient; cbn [v2x v2y]; lra.
  - exists (mkV2 10 0), (mkV2 10 10). split; [apply box_edges; tauto|]. unfold orient. cbn [v2x v2y]. lra.
Qed.

(** Two of the tests agree everywhere, and the third agrees with them off the border. *)
Theorem C71_agree p ring :
  pointInside realNums Rleb p ring = insidePoints realNums Rleb p ring /\
  (~ onRing p ring -> isPointInPolygon realNums (geo p) (map geo ring) = pointInside realNums Rleb p ring).
Proof.
  split; [rewrite inside_left, inside_right; reflexivity|]. intros N.
  destruct (tests_form (fun p ring => isPointInPolygon realNums (geo p) (map geo ring))) as [E|E].
  - right. right. left. reflexivity.
  - specialize (E p ring). cbv beta in E. rewrite E, inside_left. reflexivity.
  - specialize (E p ring). cbv beta in E. rewrite E, inside_left. apply left_turned, N.
Qed.
Print Assumptions C71_agree.
Example C71_agree_case : ~ onRing (mkV2 1 2) (box 0 10) /\ pointInside realNums Rleb (mkV2 1 2) (box 0 10) = true.
Proof.
  split.
  - intros H. apply off_box in H; cbn [v2x v2y] in H; lra.
  - apply (C71_convex (pointInside realNums Rleb)); [left; reflexivity|apply box_convex; lra|].
    apply C71_convex_case.
Qed.

(** The answer does not depend on the first corner or the direction of the ring, nor on corners
    in the middle of an edge. *)
Theorem C71_ring test p l m a b c : In test tests ->
  test p (l ++ m) = test p (m ++ l) /\ test p (rev l) = test p l /\
  (onSegment b a c -> test p (a :: b :: c :: l) = test p (a :: c :: l)).
Proof.
  intros T. destruct (tests_form test T) as [E|E]; rewrite !E.
  - split; [apply left_rotate|]. split; [apply left_rev|]. apply left_added.
  - rewrite !map_app, map_rev. split; [apply left_rotate|]. split; [apply left_rev|].
    intros O. apply left_added, on_opp, O.
Qed.
Print Assumptions C71_ring.
Example C71_ring_case : onSegment (mkV2 0 3) (mkV2 0 0) (mkV2 0 10).
Proof. exists (3 / 10). split; [lra|]. unfold along. cbn [v2x v2y]. f_equal; lra. Qed.

(** A ring cut in two along a chord: each point, also on the border or on the chord, is inside the
    ring exactly if it is inside one, and not both, of the parts. *)
Theorem C71_chord test p a l b m : In test tests ->
  test p (a :: l ++ b :: m) = xorb (test p (a :: l ++ [b])) (test p (a :: b :: m)).
Proof.
  intros T. destruct (tests_form test T) as [E|E]; rewrite !E; [apply left_chord|].
  cbn [map]. rewrite !map_app. cbn [map]. apply left_chord.
Qed.
Print Assumptions C71_chord.
Example C71_chord_case :
  let p := mkV2 5 5 in
  pointInside realNums Rleb p (box 0 10) = true /\
  pointInside realNums Rleb p [mkV2 0 0; mkV2 10 0; mkV2 10 10] = false /\
  pointInside realNums Rleb p [mkV2 0 0; mkV2 10 10; mkV2 0 10] = true.
Proof.
  cbv zeta. rewrite !inside_left. unfold leftSum. cbn [box edges last combine xsum fold_right fst snd].
  unfold leftb, orient. cbn [v2x v2y]. known. auto.
Qed.

(** The border is not inside as a whole (as the comment at GeometryUtils.hpp:164 says), nor
    outside as a whole, for any of the tests. *)
Theorem C71_border_refuted test : In test tests ->
  exists ring p q, convexRing ring /\ onRing p ring /\ onRing q ring /\ test p ring = true /\ test q ring = false.
Proof.
  assert (P : onRing (mkV2 10 5) (box 0 10)).
  { exists (mkV2 10 0), (mkV2 10 10). split; [apply box_edges; tauto|]. exists (/ 2). split; [lra|]. unfold along. cbn [v2x v2y]. f_equal; lra. }
  assert (Q : onRing (mkV2 0 5) (box 0 10)).
  { exists (mkV2 0 10), (mkV2 0 0). split; [apply box_edges; tauto|]. exists (/ 2). split; [lra|]. unfold along. cbn [v2x v2y]. f_equal; lra. }
  intros T. exists (box 0 10).
  destruct (tests_form test T) as [E|E]; [exists (mkV2 10 5), (mkV2 0 5)|exists (mkV2 0 5), (mkV2 10 5)]; (split; [apply box_convex; lra|]);
    (split; [assumption|]); (split; [assumption|]); rewrite !E; unfold leftSum, opp;
    cbn [map box edges last combine xsum fold_right fst snd v2x v2y]; unfold leftb, orient; cbn [v2x v2y]; known; auto.
Qed.
Print Assumptions C71_border_refuted.

(** Rings that do not touch: either all of one is inside the other, or nothing of it is; and what is
    inside the inner ring is inside the outer one. *)
Theorem C71_nested test r s : In test tests -> disjointRings r s ->
  (forall v x, In v s -> onRing x s -> test x r = test v r) /\
  (forall v p, In v s -> test v r = true -> test p s = true -> test p r = true).
Proof.
  intros T D.
  assert (G : forall r s, disjointRings r s ->
    (forall v x, In v s -> onRing x s -> leftSum x r = leftSum v r) /\
    (forall v p, In v s -> leftSum v r = true -> leftSum p s = true -> leftSum p r = true)).
  { clear. intros r s D. split.
    - intros v x V X. apply (left_same_points s r v x); auto using disjoint_sym.
    - intros v p V I P. apply (left_nested r s p D); [|exact P]. intros w W. rewrite <- I. apply (left_same_corners s r); auto using disjoint_sym. }
  destruct (tests_form test T) as [E|E].
  - destruct (G r s D) as [G1 G2]. split; [intros v x; rewrite !E; apply G1|intros v p; rewrite !E; apply G2].
  - destruct (G (map opp r) (map opp s)) as [G1 G2].
    + intros a b c d H1 H2 M. apply edges_opp in H1, H2. apply (D _ _ _ _ H1 H2), meet_opp. rewrite !opp_opp. exact M.
    + split.
      * intros v x V X. rewrite !E. apply G1; [apply in_map, V|apply ring_opp, X].
      * intros v p V. rewrite !E. apply G2, in_map, V.
Qed.
Print Assumptions C71_nested.
Example C71_nested_case : disjointRings (box 0 10) (box 2 8) /\ pointInside realNums Rleb (mkV2 2 2) (box 0 10) = true.
Proof.
  split.
  - intros a b c d H1 H2 (v & V1 & V2). assert (X : onRing v (box 0 10)) by (exists a, b; auto).
    assert (Y : onRing v (box 2 8)) by (exists c, d; auto). apply off_box in X; [|lra]. apply off_box in Y; lra.
  - apply (C71_convex (pointInside realNums Rleb)); [left; reflexivity|apply box_convex; lra|].
    intros a b H. flat_edges H; unfold orient; cbn [v2x v2y]; lra.
Qed.

(** In particular containment of the rings of a multipolygon is transitive (MultipolygonProcessor.cpp,
    containsRing), if they do not touch. *)
Theorem C71_rings (a b c : sequence (point R)) :
  disjointRings (map flat (scoords a)) (map flat (scoords b)) -> scoords b <> [] ->
  containsRing (isPointInPolygon realNums) a b = true -> containsRing (isPointInPolygon realNums) b c = true ->
  containsRing (isPointInPolygon realNums) a c = true.
Proof.
  intros D NB H1 H2. unfold containsRing in *. rewrite forallb_forall in *. intros p P. specialize (H2 p P).
  assert (F : forall l : list (point R), map geo (map flat l) = l).
  { intros l. rewrite map_map. rewrite <- (map_id l) at 2. apply map_ext. intros [x y]. reflexivity. }
  assert (F1 : forall v, geo (flat v) = v) by (intros [x y]; reflexivity).
  destruct (C71_nested (fun p ring => isPointInPolygon realNums (geo p) (map geo ring)) (map flat (scoords a)) (map flat (scoords b))) as [_ N].
  - right. right. left. reflexivity.
  - exact D.
  - destruct (scoords b) as [|v l]; [contradiction|]. specialize (N (flat v) (flat p)). cbv beta in N. rewrite !F, !F1 in N.
    apply N; [left; reflexivity| |exact H2]. apply H1. left. reflexivity.
Qed.
Print Assumptions C71_rings.

Example C71_rings_case :
  let ring k l := mkSeq 1%N (map geo (box k l)) in
  disjointRings (map flat (scoords (ring 0 10))) (map flat (scoords (ring 2 8))) /\ scoords (ring 2 8) <> [] /\
  containsRing (isPointInPolygon realNums) (ring 0 10) (ring 2 8) = true /\
  containsRing (isPointInPolygon realNums) (ring 2 8) (ring 4 6) = true.
Proof.
  cbv zeta.
  assert (I : forall k l m n, k < m -> m < n -> n < l ->
    containsRing (isPointInPolygon realNums) (mkSeq 1%N (map geo (box k l))) (mkSeq 1%N (map geo (box m n))) = true).
  { intros k l m n H1 H2 H3. unfold containsRing. cbn [scoords]. apply forallb_forall. intros p P. apply in_map_iff in P as (v & <- & P).
    apply (C71_convex (fun p ring => isPointInPolygon realNums (geo p) (map geo ring))); [right; right; left; reflexivity|apply box_convex; lra|].
    intros a b H. cbn [box In] in P. flat_edges H; destruct P as [<-|[<-|[<-|[<-|[]]]]]; unfold orient; cbn [v2x v2y]; nra. }
  split; [exact (proj1 C71_nested_case)|]. split; [discriminate|]. split; apply I; lra.
Qed.

(** The point that stands for a triangular hole is inside it. *)
Theorem C71_triangle test a b c le ofNat k bounds : In test tests -> orient a b c <> 0 -> ofNat 3%nat = 3 ->
  exists q, findPoint realNums le ofNat k bounds [a; b; c] = Some q /\ test q [a; b; c] = true.
Proof.
  intros T O N. exists (centroid a b c). split; [cbn [findPoint realNums nadd ndiv]; rewrite N; reflexivity|].
  assert (P : forall a b c, 0 < orient a b c -> test (centroid a b c) [a; b; c] = true).
  { intros x y z H. apply C71_convex; [exact T|apply triangle_convex, H|apply centroid_inside, H]. }
  destruct (Rlt_dec 0 (orient a b c)) as [S|S]; [apply P, S|].
  assert (S2 : 0 < orient c b a) by (unfold orient in *; lra). apply P in S2.
  replace (centroid c b a) with (centroid a b c) in S2 by (unfold centroid; f_equal; lra).
  change [c; b; a] with (rev [a; b; c]) in S2. destruct (C71_ring test (centroid a b c) [a; b; c] [] a b c T) as (_ & R & _).
  rewrite R in S2. exact S2.
Qed.
Print Assumptions C71_triangle.
Example C71_triangle_case : orient (mkV2 0 0) (mkV2 0 4) (mkV2 3 0) <> 0 /\ INR 3 = 3.
Proof. split; [unfold orient; cbn [v2x v2y]; lra|]. cbn. lra. Qed.

(** In every rectangle, however slim and wherever it points, a point is found. *)
Definition rectangle (a u : pt) (s : R) : list pt :=
  [ a; mkV2 (v2x a + v2x u) (v2y a + v2y u);
    mkV2 (v2x a + v2x u - s * v2y u) (v2y a + v2y u + s * v2x u); mkV2 (v2x a - s * v2y u) (v2y a + s * v2x u) ].
(** A point of the plane by its place in the rectangle. *)
Definition place (a u : pt) (x y : R) : pt := mkV2 (v2x a + x * v2x u - y * v2y u) (v2y a + x * v2y u + y * v2x u).
Lemma rectangle_edges a u s c d : In (c, d) (edges (rectangle a u s)) ->
  (c = place a u 0 s /\ d = place a u 0 0) \/ (c = place a u 0 0 /\ d = place a u 1 0) \/
  (c = place a u 1 0 /\ d = place a u 1 s) \/ (c = place a u 1 s /\ d = place a u 0 s).
Proof.
  unfold rectangle. cbn [edges last combine In].
  assert (P00 : place a u 0 0 = a) by (unfold place; destruct a as [ax ay]; cbn [v2x v2y]; f_equal; ring).
  intros [E|[E|[E|[E|[]]]]]; injection E as <- <-; [left|right; left|right; right; left|right; right; right]; rewrite ?P00;
    unfold place; (split; [try reflexivity; f_equal; ring|try reflexivity; f_equal; ring]).
Qed.
Lemma place_orient a u x1 y1 x2 y2 x y : orient (place a u x1 y1) (place a u x2 y2) (place a u x y) =
  ((x2 - x1) * (y - y1) - (y2 - y1) * (x - x1)) * (v2x u * v2x u + v2y u * v2y u).
Proof. unfold orient, place. cbn [v2x v2y]. ring. Qed.
Lemma rectangle_corner a u s v : In v (rectangle a u s) ->
  v = place a u 0 0 \/ v = place a u 1 0 \/ v = place a u 1 s \/ v = place a u 0 s.
Proof.
  assert (P00 : place a u 0 0 = a) by (unfold place; destruct a as [ax ay]; cbn [v2x v2y]; f_equal; ring).
  unfold rectangle. cbn [In]. intros [E|[E|[E|[E|[]]]]]; subst v; [left; symmetry; exact P00|right; left|right; right; left|right; right; right];
    unfold place; f_equal; ring.
Qed.
Lemma rectangle_inside a u s x y : 0 < v2x u * v2x u + v2y u * v2y u -> 0 < s -> 0 < x < 1 -> 0 < y < s ->
  leftOfAll (place a u x y) (rectangle a u s).
Proof.
  intros U S X Y c d H. apply rectangle_edges in H as [[-> ->]|[[-> ->]|[[-> ->]|[-> ->]]]]; rewrite place_orient;
    apply Rmult_lt_0_compat; try exact U; nra.
Qed.
Lemma rectangle_convex a u s : 0 < v2x u * v2x u + v2y u * v2y u -> 0 < s -> convexRing (rectangle a u s).
Proof.
  intros U S. split; [|split].
  - assert (NZ : v2x u <> 0 \/ v2y u <> 0) by (destruct (Req_dec (v2x u) 0) as [Z|]; [right; intros Z2; rewrite Z, Z2 in U; lra|auto]).
    assert (K : forall x y, v2x u * x - y * v2y u = 0 -> v2y u * x + y * v2x u = 0 -> x = 0 /\ y = 0).
    { intros x y E1 E2. assert (X : (v2x u * v2x u + v2y u * v2y u) * x = 0).
      { replace ((v2x u * v2x u + v2y u * v2y u) * x) with (v2x u * (v2x u * x - y * v2y u) + v2y u * (v2y u * x + y * v2x u)) by ring. rewrite E1, E2. ring. }
      assert (Y : (v2x u * v2x u + v2y u * v2y u) * y = 0).
      { replace ((v2x u * v2x u + v2y u * v2y u) * y) with (v2x u * (v2y u * x + y * v2x u) - v2y u * (v2x u * x - y * v2y u)) by ring. rewrite E1, E2. ring. }
      apply Rmult_integral in X as [X|X]; [lra|]. apply Rmult_integral in Y as [Y|Y]; [lra|]. auto. }
    unfold rectangle. destruct a as [ax ay]. cbn [v2x v2y].
    constructor; [|constructor; [|constructor; [|constructor; [intros []|constructor]]]].
    + intros [E|[E|[E|[]]]]; injection E as E1 E2.
      * destruct (K 1 0); lra.
      * destruct (K 1 s); lra.
      * destruct (K 0 s); lra.
    + intros [E|[E|[]]]; injection E as E1 E2.
      * destruct (K 0 s); lra.
      * destruct (K (-1) s); lra.
    + intros [E|[]]; injection E as E1 E2. destruct (K 1 0); lra.
  - cbn. lia.
  - intros c d v H V NC ND. apply rectangle_edges in H. apply rectangle_corner in V.
    destruct H as [[-> ->]|[[-> ->]|[[-> ->]|[-> ->]]]]; destruct V as [->|[->|[->| ->]]]; try contradiction; rewrite place_orient;
      apply Rmult_lt_0_compat; try exact U; nra.
Qed.

Theorem C71_rectangle a u s bounds : u <> mkV2 0 0 -> 0 < s ->
  (forall q, (exists v, In v (rectangle a u s) /\ v2x v <= v2x q) -> (exists v, In v (rectangle a u s) /\ v2x q <= v2x v) ->
     (exists v, In v (rectangle a u s) /\ v2y v <= v2y q) -> (exists v, In v (rectangle a u s) /\ v2y q <= v2y v) -> bounds q = true) ->
  exists q, findPoint realNums Rleb INR (1374 / 1000) bounds (rectangle a u s) = Some q /\
    pointInside realNums Rleb q (rectangle a u s) = true.
Proof.
  intros NU S B. assert (U : 0 < v2x u * v2x u + v2y u * v2y u).
  { destruct u as [ux uy]. cbn [v2x v2y]. assert (0 <= ux * ux) by apply Rle_0_sqr. assert (0 <= uy * uy) by apply Rle_0_sqr.
    destruct (Req_dec ux 0) as [->|N1]; [destruct (Req_dec uy 0) as [->|N2]; [destruct (NU eq_refl)|]|].
    - assert (0 < uy * uy) by (apply Rsqr_pos_lt in N2; exact N2). lra.
    - assert (0 < ux * ux) by (apply Rsqr_pos_lt in N1; exact N1). lra. }
  assert (C := rectangle_convex a u s U S).
  assert (T : forall x y, 0 < x < 1 -> 0 < y < s -> bounds (place a u x y) && pointInside realNums Rleb (place a u x y) (rectangle a u s) = true).
  { intros x y X Y. assert (I := rectangle_inside a u s x y U S X Y). apply andb_true_intro. split.
    - assert (NA : forall nx ny, ~ (forall v, In v (rectangle a u s) -> nx * v2x v + ny * v2y v < nx * v2x (place a u x y) + ny * v2y (place a u x y))).
      { intros nx ny H. assert (A : apart (place a u x y) (rectangle a u s)) by (exists nx, ny, (nx * v2x (place a u x y) + ny * v2y (place a u x y)); split; [lra|exact H]).
        apply left_apart in A. rewrite left_convex in A by assumption. discriminate. }
      assert (EX : forall f g : pt -> R, ~ (forall v, In v (rectangle a u s) -> f v < g v) -> exists v, In v (rectangle a u s) /\ g v <= f v).
      { intros f g H. assert (D : forall l, (forall v, In v l -> f v < g v) \/ exists v, In v l /\ g v <= f v).
        { induction l as [|v l [IH|(w & W & E)]]; [left; intros v []| |right; exists w; split; [right; exact W|exact E]].
          destruct (Rlt_dec (f v) (g v)); [left; intros w [<-|W]; auto|right; exists v; split; [left; reflexivity|lra]]. }
        destruct (D (rectangle a u s)); [contradiction|assumption]. }
      apply B; apply EX; intros H.
      + apply (NA (-1) 0). intros v V. apply H in V. lra.
      + apply (NA 1 0). intros v V. apply H in V. lra.
      + apply (NA 0 (-1)). intros v V. apply H in V. lra.
      + apply (NA 0 1). intros v V. apply H in V. lra.
    - apply C71_convex; [left; reflexivity|exact C|exact I]. }
  assert (F : exists q, tryEdges realNums INR (1374 / 1000) (fun q => bounds q && pointInside realNums Rleb q (rectangle a u s))
      (combine (rectangle a u s) (tl (rectangle a u s) ++ firstn 1 (rectangle a u s))) = Some q /\
      bounds q && pointInside realNums Rleb q (rectangle a u s) = true).
  { destruct (Rlt_dec (1000 / 1374) s) as [L|L].
    - apply (try_edges_some realNums INR (1374 / 1000) (fun q => bounds q && pointInside realNums Rleb q (rectangle a u s)) _
        a (mkV2 (v2x a + v2x u) (v2y a + v2y u)) 1%nat); [left; reflexivity|cbn [seq In]; auto|].
      cbv beta. rewrite <- (T (/ 2) (1000 / 1374)) by lra. unfold place. cbn [realNums nadd nsub nmul ndiv v2x v2y]. f_equal; f_equal; f_equal; cbn [INR]; field.
    - apply (try_edges_some realNums INR (1374 / 1000) (fun q => bounds q && pointInside realNums Rleb q (rectangle a u s)) _
        (mkV2 (v2x a + v2x u) (v2y a + v2y u)) (mkV2 (v2x a + v2x u - s * v2y u) (v2y a + v2y u + s * v2x u)) 1%nat); [right; left; reflexivity|cbn [seq In]; auto|].
      cbv beta. rewrite <- (T (1 - s * (1000 / 1374)) (s / 2)) by lra. unfold place. cbn [realNums nadd nsub nmul ndiv v2x v2y]. f_equal; f_equal; f_equal; cbn [INR]; field. }
  destruct F as (q & F & Q). exists q. apply andb_prop in Q as [_ Q]. split; [exact F|exact Q].
Qed.
Print Assumptions C71_rectangle.
Example C71_rectangle_case :
  let a := mkV2 1 1 in let u := mkV2 3 4 in
  let bounds q := Rleb (-3) (v2x q) && Rleb (v2x q) 4 && Rleb 1 (v2y q) && Rleb (v2y q) 8 in
  u <> mkV2 0 0 /\ 0 < 1 /\
  (forall q, (exists v, In v (rectangle a u 1) /\ v2x v <= v2x q) -> (exists v, In v (rectangle a u 1) /\ v2x q <= v2x v) ->
     (exists v, In v (rectangle a u 1) /\ v2y v <= v2y q) -> (exists v, In v (rectangle a u 1) /\ v2y q <= v2y v) -> bounds q = true) /\
  bounds (mkV2 5 5) = false.
Proof.
  cbv zeta. split; [intros E; injection E; intros; lra|]. split; [lra|]. split.
  - assert (R : forall v, In v (rectangle (mkV2 1 1) (mkV2 3 4) 1) -> -3 <= v2x v <= 4 /\ 1 <= v2y v <= 8).
    { intros v V. unfold rectangle in V. cbn [In v2x v2y] in V. destruct V as [<-|[<-|[<-|[<-|[]]]]]; cbn [v2x v2y]; lra. }
    intros q (v1 & V1 & L1) (v2 & V2 & L2) (v3 & V3 & L3) (v4 & V4 & L4). apply R in V1, V2, V3, V4. known. reflexivity.
  - cbn [v2x v2y]. known. reflexivity.
Qed.
