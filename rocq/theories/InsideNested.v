(** Convex rings, rings inside rings, and the point found in a contour. *)
From Coq Require Import Reals Lra Lia Psatz FinFun Permutation.
From Verif Require Import Base GeoModel RingModel QuatModel MeshBuildModel InsideModel InsideSpec InsideEdge InsideProofs.
Local Open Scope R_scope.

(** * Turning by 180 degrees *)
Lemma opp_opp v : opp (opp v) = v.
Proof. destruct v as [x y]. unfold opp. cbn [v2x v2y]. f_equal; ring. Qed.
Lemma opp_along a b t : opp (along a b t) = along (opp a) (opp b) t.
Proof. unfold opp, along. cbn [v2x v2y]. f_equal; ring. Qed.
Lemma on_opp v a b : onSegment v a b -> onSegment (opp v) (opp a) (opp b).
Proof. intros (t & T & ->). exists t. split; [exact T|]. apply opp_along. Qed.
Lemma on_opp_inv v a b : onSegment (opp v) (opp a) (opp b) -> onSegment v a b.
Proof. intros H. apply on_opp in H. rewrite !opp_opp in H. exact H. Qed.
Lemma edges_opp a b ring : In (a, b) (edges (map opp ring)) <-> In (opp a, opp b) (edges ring).
Proof.
  rewrite edges_map, in_map_iff. split.
  - intros ([c d] & E & H). injection E as <- <-. cbn [fst snd]. rewrite !opp_opp. exact H.
  - intros H. exists (opp a, opp b). cbn [fst snd]. rewrite !opp_opp. auto.
Qed.
Lemma ring_opp v ring : onRing (opp v) (map opp ring) <-> onRing v ring.
Proof.
  split; intros (a & b & H & X).
  - apply edges_opp in H. exists (opp a), (opp b). split; [exact H|]. apply on_opp_inv. rewrite !opp_opp. exact X.
  - exists (opp a), (opp b). split; [apply edges_opp; rewrite !opp_opp; exact H|]. apply on_opp, X.
Qed.
Lemma meet_opp p q a b : meet (opp p) (opp q) (opp a) (opp b) -> meet p q a b.
Proof.
  intros (v & A & B). exists (opp v). rewrite <- (opp_opp v) in A, B. split; apply on_opp_inv; assumption.
Qed.
Lemma cross_opp p q a b : crossSegments (opp p) (opp q) (opp a) (opp b) = crossSegments p q a b.
Proof. unfold crossSegments. rewrite !orient_opp. reflexivity. Qed.
Lemma odd_opp p q ring : oddCrossings (opp p) (opp q) (map opp ring) = oddCrossings p q ring.
Proof.
  unfold oddCrossings. rewrite !xsum_odd, edges_map, xsum_map. apply xsum_ext. intros [a b] _. apply cross_opp.
Qed.
Lemma apart_opp p ring : apart p ring -> apart (opp p) (map opp ring).
Proof.
  intros (nx & ny & c & P & V). exists (- nx), (- ny), c. split; [unfold opp; cbn [v2x v2y]; lra|].
  intros v H. apply in_map_iff in H as (w & <- & H). apply V in H. unfold opp. cbn [v2x v2y]. lra.
Qed.
Lemma convex_opp ring : convexRing ring -> convexRing (map opp ring).
Proof.
  intros (N & L & C). split; [|split].
  - apply Injective_map_NoDup; [|exact N]. intros x y E. rewrite <- (opp_opp x), E. apply opp_opp.
  - rewrite map_length. exact L.
  - intros a b v H Hv NA NB. apply edges_opp in H. apply in_map_iff in Hv as (w & <- & Hw).
    rewrite <- orient_opp, opp_opp. apply C; [exact H|exact Hw| |].
    + intros ->. apply NA. apply opp_opp.
    + intros ->. apply NB. apply opp_opp.
Qed.

(** * Off the border all tests agree *)
Lemma above_all (l : list R) : exists s, forall x, In x l -> x < s.
Proof.
  induction l as [|y l [s H]]; [exists 0; intros x []|]. exists (Rmax s y + 1). intros x [->|Hx].
  - assert (M := Rmax_r s x). lra.
  - assert (M := Rmax_l s y). apply H in Hx. lra.
Qed.

(** From a point off the ring, a segment to a point beside the ring that avoids the corners. *)
Lemma way_out p ring : ~ onRing p ring ->
  exists q, ~ onRing q ring /\ apart q ring /\ forall v, In v ring -> ~ onSegment v p q.
Proof.
  intros NP.
  destruct (above_all (map (fun v => - v2x v) (p :: ring))) as [X HX]. set (x := - X) in *.
  assert (PX : x < v2x p) by (specialize (HX (- v2x p) (or_introl eq_refl)); unfold x; lra).
  assert (RX : forall v, In v ring -> x < v2x v).
  { intros v H. assert (K : - v2x v < X) by (apply HX; right; exact (in_map (fun v => - v2x v) ring v H)). unfold x. lra. }
  destruct (above_all (map (fun v => (v2y v - v2y p) * (v2x p - x) / (v2x p - v2x v)) ring)) as [s HS].
  set (q := mkV2 x (v2y p + s)). exists q.
  assert (AP : apart q ring).
  { exists (-1), 0, (- x). split; [unfold q; cbn [v2x v2y]; lra|]. intros v H. apply RX in H. lra. }
  split; [|split; [exact AP|]].
  - intros (a & b & H & t & T & E). apply edges_in in H as [Ha Hb]. apply RX in Ha, Hb.
    assert (Q : v2x q = v2x (along a b t)) by (rewrite E; reflexivity). unfold q, along in Q. cbn [v2x] in Q.
    assert (0 <= t * (v2x b - x)) by (apply Rmult_le_pos; lra). assert (0 <= (1 - t) * (v2x a - x)) by (apply Rmult_le_pos; lra).
    assert (E2 : t * (v2x b - x) + (1 - t) * (v2x a - x) = 0) by lra.
    destruct (Req_dec t 0) as [->|NT]; [lra|]. assert (0 < t * (v2x b - x)) by (apply Rmult_lt_0_compat; lra). lra.
  - intros v H (t & T & E). assert (HV := RX v H).
    assert (E1 : v2x v = v2x p + t * (x - v2x p)) by (rewrite E; reflexivity).
    assert (E2 : v2y v = v2y p + t * s) by (rewrite E; unfold q, along; cbn [v2x v2y]; ring).
    destruct (Req_dec t 0) as [->|NT].
    + apply NP. destruct (edges_into ring v H) as [a Ha]. exists a, v. split; [exact Ha|].
      replace p with v; [apply on_last|]. rewrite E. unfold along. destruct p as [px py]. cbn [v2x v2y]. f_equal; ring.
    + assert (K : (v2y v - v2y p) * (v2x p - x) / (v2x p - v2x v) < s)
        by (apply HS, (in_map (fun v => (v2y v - v2y p) * (v2x p - x) / (v2x p - v2x v)) ring v H)).
      rewrite E1, E2 in K. replace ((v2y p + t * s - v2y p) * (v2x p - x) / (v2x p - (v2x p + t * (x - v2x p)))) with s in K; [lra|].
      field. intros Z. assert (Z2 : t * (v2x p - x) = 0) by lra. apply Rmult_integral in Z2 as [Z2|Z2]; lra.
Qed.

Lemma left_turned p ring : ~ onRing p ring -> leftSum (opp p) (map opp ring) = leftSum p ring.
Proof.
  intros NP. destruct (way_out p ring NP) as (q & NQ & AP & NV).
  assert (E1 := left_segment p q ring NP NQ NV). rewrite (left_apart q ring AP), xorb_false_r in E1.
  assert (E2 := left_segment (opp p) (opp q) (map opp ring)). rewrite (left_apart (opp q)) in E2 by (apply apart_opp, AP).
  rewrite xorb_false_r, odd_opp in E2. rewrite E1. apply E2.
  - intros X. apply NP, ring_opp, X.
  - intros X. apply NQ, ring_opp, X.
  - intros v H X. apply in_map_iff in H as (w & <- & H). apply (NV w H), on_opp_inv, X.
Qed.

(** * Convex rings *)
Lemma edges_rotate1 {A} (v : A) l e : In e (edges (v :: l)) <-> In e (edges (l ++ [v])).
Proof.
  rewrite edges_steps, last_cons. destruct l as [|w l]; [reflexivity|].
  assert (E : edges ((w :: l) ++ [v]) = steps v (w :: l) ++ [(last (w :: l) v, v)]).
  { cbn [app]. rewrite edges_steps. change (w :: l ++ [v]) with ((w :: l) ++ [v]). rewrite last_snoc, steps_app. reflexivity. }
  rewrite E, in_app_iff. cbn [steps In]. tauto.
Qed.
Lemma edges_rotate {A} (l m : list A) e : In e (edges (l ++ m)) <-> In e (edges (m ++ l)).
Proof.
  revert m. induction l as [|v l IH]; intros m; [rewrite app_nil_r; reflexivity|].
  cbn [app]. rewrite edges_rotate1, <- app_assoc, IH, <- app_assoc. reflexivity.
Qed.

(** The edges at a corner. *)
Lemma corner_edges (ring : list pt) a : NoDup ring -> (3 <= length ring)%nat -> In a ring ->
  exists b c, In (a, b) (edges ring) /\ In (c, a) (edges ring) /\ b <> c /\ b <> a /\ c <> a.
Proof.
  intros N L H. apply in_split in H as (l1 & l2 & ->).
  assert (P : Permutation (l1 ++ a :: l2) (a :: l2 ++ l1)).
  { rewrite Permutation_app_comm. reflexivity. }
  assert (L2 := Permutation_length P). assert (N2 := Permutation_NoDup P N).
  assert (RO : forall e, In e (edges (a :: l2 ++ l1)) -> In e (edges (l1 ++ a :: l2))).
  { intros e H. apply edges_rotate. exact H. }
  clear P N. set (m := l2 ++ l1) in *. clearbody m. rewrite L2 in L. clear L2.
  destruct m as [|b m]; [cbn in L; lia|]. destruct m as [|d m]; [cbn in L; lia|].
  inversion N2 as [|? ? NA N3]; subst. inversion N3 as [|? ? NB N4]; subst.
  exists b, (last (d :: m) b).
  assert (LI : In (last (d :: m) b) (d :: m)).
  { rewrite last_cons. destruct (last_in m d) as [->|X]; [left; reflexivity|right; exact X]. }
  split; [|split; [|split; [|split]]].
  - apply RO. rewrite edges_steps. cbn [steps]. right. left. reflexivity.
  - apply RO. rewrite edges_steps, !last_cons. left. reflexivity.
  - intros E. apply NB. rewrite E. exact LI.
  - intros ->. apply NA. left. reflexivity.
  - intros E. apply NA. right. rewrite <- E. exact LI.
Qed.

Lemma lowest (l : list pt) : l <> [] -> exists a, In a l /\ forall v, In v l -> v2y a <= v2y v.
Proof.
  induction l as [|v l IH]; [contradiction|]. intros _. destruct l as [|w l].
  - exists v. split; [left; reflexivity|]. intros x [->|[]]. lra.
  - destruct IH as (a & Ha & M); [discriminate|]. destruct (Rle_dec (v2y v) (v2y a)) as [C|C].
    + exists v. split; [left; reflexivity|]. intros x [->|H]; [lra|]. apply M in H. lra.
    + exists a. split; [right; exact Ha|]. intros x [->|H]; [lra|]. apply M, H.
Qed.

Lemma corner_below p ring : convexRing ring -> leftOfAll p ring -> exists v, In v ring /\ v2y v < v2y p.
Proof.
  intros (N & L & C) I. destruct (lowest ring) as (a & Ha & M); [intros ->; cbn in L; lia|].
  exists a. split; [exact Ha|]. destruct (Rlt_dec (v2y a) (v2y p)) as [Y|Y]; [exact Y|exfalso].
  destruct (corner_edges ring a N L Ha) as (b & c & Eb & Ec & BC & BA & CA).
  assert (Ib := I a b Eb). assert (Ic := I c a Ec). destruct (edges_in ring _ _ Eb) as [_ Hb]. destruct (edges_in ring _ _ Ec) as [Hc _].
  assert (K := C a b c Eb Hc CA (not_eq_sym BC)). apply M in Hb, Hc. clear - Ib Ic K Hb Hc Y.
  assert (E : (v2y p - v2y a) * orient a b c = (v2y b - v2y a) * orient c a p + (v2y c - v2y a) * orient a b p) by (unfold orient; ring).
  assert (Z : 0 <= (v2y b - v2y a) * orient c a p) by (apply Rmult_le_pos; lra).
  assert (Z2 : 0 <= (v2y c - v2y a) * orient a b p) by (apply Rmult_le_pos; lra).
  assert (Z3 : 0 <= (v2y a - v2y p) * orient a b c) by (apply Rmult_le_pos; lra).
  assert (P0 : v2y p = v2y a). { destruct (Req_dec (v2y p) (v2y a)); [assumption|]. assert (0 < (v2y a - v2y p) * orient a b c) by (apply Rmult_lt_0_compat; lra). lra. }
  assert (B0 : v2y b = v2y a). { destruct (Req_dec (v2y b) (v2y a)); [assumption|]. assert (0 < (v2y b - v2y a) * orient c a p) by (apply Rmult_lt_0_compat; lra). lra. }
  unfold orient in Ib. rewrite B0, P0 in Ib. lra.
Qed.

Lemma steps_closed {A} (g : A -> bool) l : forall j, (forall a b, In (a, b) (steps j l) -> g a = true -> g b = true) ->
  g j = true -> forall v, In v l -> g v = true.
Proof.
  induction l as [|i l IH]; intros j H J v Hv; [destruct Hv|].
  assert (I : g i = true) by (apply (H j i); [left; reflexivity|exact J]).
  destruct Hv as [->|Hv]; [exact I|]. apply (IH i); auto. intros a b X. apply H. right. exact X.
Qed.

(** Where some corners pass and others do not, an edge leads from the former to the latter. *)
Lemma down_edge (g : pt -> bool) ring v w : In v ring -> g v = true -> In w ring -> g w = false ->
  ~ (forall a b, In (a, b) (edges ring) -> g a = true -> g b = true).
Proof.
  intros V GV W GW H. apply in_split in V as (l1 & l2 & ->).
  assert (K : g w = true).
  { apply (steps_closed g ((l2 ++ l1) ++ [v]) v); [|exact GV|].
    - intros a b X. apply H. rewrite edges_rotate. cbn [app].
      rewrite edges_steps, last_cons. rewrite steps_app in X. apply in_app_iff in X. cbn [steps In] in *. tauto.
    - rewrite !in_app_iff in *. cbn [In] in *. tauto. }
  congruence.
Qed.

Lemma xsum_one {A} (f : A -> bool) l x : NoDup l -> In x l -> f x = true -> (forall y, In y l -> f y = true -> y = x) -> xsum f l = true.
Proof.
  intros N H F U. apply in_split in H as (l1 & l2 & ->). rewrite xsum_app. cbn [xsum fold_right]. fold (xsum f l2). rewrite F.
  rewrite (xsum_false f l1), (xsum_false f l2); [reflexivity| |].
  - intros a Ha. destruct (f a) eqn:E; [|reflexivity]. exfalso. apply NoDup_remove_2 in N. apply N.
    rewrite <- (U a); [|apply in_app_iff; right; right; exact Ha|exact E]. apply in_app_iff. right. exact Ha.
  - intros a Ha. destruct (f a) eqn:E; [|reflexivity]. exfalso. apply NoDup_remove_2 in N. apply N.
    rewrite <- (U a); [|apply in_app_iff; left; exact Ha|exact E]. apply in_app_iff. left. exact Ha.
Qed.

Lemma steps_snd {A} (l : list A) : forall j, map snd (steps j l) = l.
Proof. induction l as [|i l IH]; intros j; [reflexivity|]. cbn [steps map snd]. f_equal. apply IH. Qed.
Lemma edges_nodup {A} (ring : list A) : NoDup ring -> NoDup (edges ring).
Proof.
  intros N. apply (NoDup_map_inv snd). destruct ring as [|v l]; [constructor|]. rewrite edges_steps, steps_snd. exact N.
Qed.
Lemma steps_fst {A} (l : list A) : forall j, map fst (steps j l) = removelast (j :: l).
Proof.
  induction l as [|i l IH]; intros j; [reflexivity|]. cbn [steps map fst]. rewrite IH. reflexivity.
Qed.
(** An edge is known by its first corner. *)
Lemma edges_fst {A} (ring : list A) a b c : NoDup ring -> In (a, b) (edges ring) -> In (a, c) (edges ring) -> b = c.
Proof.
  intros N H1 H2.
  assert (G : forall (l : list (A * A)), NoDup (map fst l) -> In (a, b) l -> In (a, c) l -> b = c).
  { clear. induction l as [|[x y] l IH]; [intros _ []|]. cbn [map fst In]. intros N. inversion N as [|? ? N1 N2]; subst.
    assert (K : forall z, In (x, z) l -> False) by (intros z Z; apply N1; exact (in_map fst l (x, z) Z)).
    intros [E1|H1] [E2|H2].
    - congruence.
    - injection E1 as <- <-. destruct (K _ H2).
    - injection E2 as <- <-. destruct (K _ H1).
    - auto. }
  apply (G (edges ring)); auto. destruct ring as [|v l]; [constructor|]. rewrite edges_steps, steps_fst, last_cons.
  destruct l as [|w l _] using rev_ind.
  - cbn. exact N.
  - rewrite last_snoc. change (removelast (w :: v :: l ++ [w])) with (w :: removelast ((v :: l) ++ [w])).
    rewrite removelast_last. change (v :: l ++ [w]) with ((v :: l) ++ [w]) in N.
    apply (Permutation_NoDup (l := (v :: l) ++ [w])); [|exact N].
    symmetry. apply (Permutation_app_comm [w] (v :: l)).
Qed.

Lemma orient_cycle a b c : orient a b c = orient b c a.
Proof. unfold orient. ring. Qed.

(** Two edges that both pass [p] downwards are one. *)
Lemma down_once p ring a b c d : convexRing ring -> In (a, b) (edges ring) -> In (c, d) (edges ring) ->
  v2y b < v2y p <= v2y a -> v2y d < v2y p <= v2y c -> (c, d) = (a, b).
Proof.
  intros (N & L & C) H1 H2 Y1 Y2.
  assert (E : c = a).
  { assert (W : forall a b c d, In (a, b) (edges ring) -> In (c, d) (edges ring) -> v2y b < v2y p <= v2y a -> v2y d < v2y p <= v2y c ->
      0 <= (v2y p - v2y d) * orient a b c + (v2y c - v2y p) * orient a b d /\
      ((v2y p - v2y d) * orient a b c + (v2y c - v2y p) * orient a b d = 0 -> orient a b c = 0)).
    { clear - N L C. intros a b c d H1 H2 Y1 Y2. destruct (edges_in ring _ _ H2) as [Hc Hd].
      assert (K : forall v, In v ring -> 0 <= orient a b v).
      { intros v Hv. destruct (Req_dec (orient a b v) 0) as [Z|Z]; [lra|]. apply Rlt_le, C; auto.
        - intros ->. apply Z. unfold orient. ring.
        - intros ->. apply Z. unfold orient. ring. }
      assert (Kc := K c Hc). assert (Kd := K d Hd).
      assert (0 <= (v2y c - v2y p) * orient a b d) by (apply Rmult_le_pos; lra).
      assert (0 <= (v2y p - v2y d) * orient a b c) by (apply Rmult_le_pos; lra). split; [lra|].
      intros Z. destruct (Req_dec (orient a b c) 0) as [|Q]; [assumption|].
      assert (0 < (v2y p - v2y d) * orient a b c) by (apply Rmult_lt_0_compat; lra). lra. }
    destruct (W a b c d H1 H2 Y1 Y2) as [P1 Q1]. destruct (W c d a b H2 H1 Y2 Y1) as [P2 Q2].
    assert (S : (v2y p - v2y b) * orient c d a + (v2y a - v2y p) * orient c d b
      = - ((v2y p - v2y d) * orient a b c + (v2y c - v2y p) * orient a b d)) by (unfold orient; ring).
    specialize (Q1 ltac:(lra)). destruct (edges_in ring _ _ H2) as [Hc _].
    assert (DEC : c = a \/ c <> a).
    { destruct c as [cx cy], a as [ax ay]. destruct (Req_dec cx ax) as [->|]; [|right; intros [=]; auto].
      destruct (Req_dec cy ay) as [->|]; [left; reflexivity|right; intros [=]; auto]. }
    destruct DEC as [|CA]; [assumption|]. assert (CB : c <> b) by (intros ->; lra). assert (K := C a b c H1 Hc CA CB). lra. }
  subst c. f_equal. eapply edges_fst; eauto.
Qed.

Lemma left_convex p ring : convexRing ring -> leftOfAll p ring -> leftSum p ring = true.
Proof.
  intros C I. assert (C' := C). destruct C' as (N & L & _).
  assert (F : forall a b, In (a, b) (edges ring) -> leftb p a b = ltb (v2y b) (v2y p) && Rleb (v2y p) (v2y a)).
  { intros a b H. apply I in H. unfold leftb. rewrite (ltb_false (orient a b p) 0), (ltb_true 0 (orient a b p)) by lra.
    rewrite andb_false_r, andb_true_r. reflexivity. }
  unfold leftSum. rewrite (xsum_ext _ (fun e => ltb (v2y (snd e)) (v2y p) && Rleb (v2y p) (v2y (fst e))))
    by (intros [a b] H; apply F, H).
  destruct (corner_below p ring C I) as (w & W & WY).
  assert (V : exists v, In v ring /\ v2y p < v2y v).
  { destruct (corner_below (opp p) (map opp ring)) as (v & V & VY).
    - apply convex_opp, C.
    - intros a b H. apply edges_opp in H. rewrite <- orient_opp, opp_opp. apply I, H.
    - apply in_map_iff in V as (u & <- & V). exists u. split; [exact V|]. unfold opp in VY. cbn [v2y] in VY. lra. }
  destruct V as (v & V & VY).
  destruct (xsum (fun e => ltb (v2y (snd e)) (v2y p) && Rleb (v2y p) (v2y (fst e))) (edges ring)) eqn:X; [reflexivity|exfalso].
  apply (down_edge (above p) ring v w V).
  - unfold above. known. reflexivity.
  - exact W.
  - unfold above. known. reflexivity.
  - intros a b H A. destruct (above p b) eqn:B; [reflexivity|exfalso].
    assert (YB : v2y b < v2y p) by (unfold above, Rleb in B; destruct (Rle_dec _ _); [discriminate|lra]).
    assert (YA : v2y p <= v2y a) by (unfold above, Rleb in A; destruct (Rle_dec _ _); [assumption|discriminate]).
    rewrite (xsum_one _ (edges ring) (a, b)) in X; [discriminate|apply edges_nodup, N|exact H| |].
    + cbn [fst snd]. known. reflexivity.
    + intros [c d] H2 E. cbn [fst snd] in E. apply andb_prop in E as [E1 E2].
      apply (down_once p ring a b c d C H H2); [lra|].
      unfold ltb in E1. unfold Rleb in E2. destruct (Rlt_dec _ _); [|discriminate]. destruct (Rle_dec _ _); [lra|discriminate].
Qed.

Lemma convex_beside p ring a b : convexRing ring -> In (a, b) (edges ring) -> orient a b p < 0 -> apart p ring.
Proof.
  intros (N & L & C) H O. exists (v2y b - v2y a), (- (v2x b - v2x a)), ((v2y b - v2y a) * v2x p - (v2x b - v2x a) * v2y p).
  split; [lra|]. intros v Hv.
  assert (K : 0 <= orient a b v).
  { destruct (Req_dec (orient a b v) 0) as [Z|Z]; [lra|]. apply Rlt_le, C; auto.
    - intros ->. apply Z. unfold orient. ring.
    - intros ->. apply Z. unfold orient. ring. }
  unfold orient in *. lra.
Qed.

(** * Rings inside rings *)
Lemma meet_comm p q a b : meet p q a b -> meet a b p q.
Proof. intros (v & A & B). exists v. auto. Qed.

Lemma disjoint_sym r s : disjointRings r s -> disjointRings s r.
Proof. intros D a b c d H1 H2 M. apply (D c d a b H2 H1), meet_comm, M. Qed.

Lemma on_part v x a b : onSegment x a b -> onSegment v a x -> onSegment v a b.
Proof.
  intros (t & T & ->) (s & S & ->). exists (s * t). split; [split; [apply Rmult_le_pos; lra|]|].
  - assert (s * t <= 1 * 1) by (apply Rmult_le_compat; lra). lra.
  - unfold along. cbn [v2x v2y]. f_equal; ring.
Qed.

(** All points of a ring have the same answer about a ring that it does not meet. *)
Lemma left_same_corners r s : disjointRings r s -> forall v w, In v r -> In w r -> leftSum v s = leftSum w s.
Proof.
  intros D.
  assert (E : forall a b, In (a, b) (edges r) -> leftSum a s = leftSum b s).
  { intros a b H. apply left_reach. intros c d H2. apply D; assumption. }
  intros v w Hv Hw. destruct (leftSum v s) eqn:V; destruct (leftSum w s) eqn:W; try reflexivity; exfalso.
  - apply (down_edge (fun x => leftSum x s) r v w Hv V Hw W). intros a b H A. rewrite <- (E a b H). exact A.
  - apply (down_edge (fun x => leftSum x s) r w v Hw W Hv V). intros a b H A. rewrite <- (E a b H). exact A.
Qed.
Lemma left_same_points r s v x : disjointRings r s -> In v r -> onRing x r -> leftSum x s = leftSum v s.
Proof.
  intros D Hv (a & b & H & X). destruct (edges_in r a b H) as [Ha _]. rewrite (left_same_corners r s D v a Hv Ha).
  symmetry. apply left_reach. intros c d H2 (u & U & U2). apply (D a b c d H H2). exists u. split; [|exact U2]. eapply on_part; eauto.
Qed.

Lemma leftmost (l : list pt) : l <> [] -> exists a, In a l /\ forall v, In v l -> v2x a <= v2x v.
Proof.
  induction l as [|v l IH]; [contradiction|]. intros _. destruct l as [|w l].
  - exists v. split; [left; reflexivity|]. intros x [->|[]]. lra.
  - destruct IH as (a & Ha & M); [discriminate|]. destruct (Rle_dec (v2x v) (v2x a)) as [C|C].
    + exists v. split; [left; reflexivity|]. intros x [->|H]; [lra|]. apply M in H. lra.
    + exists a. split; [right; exact Ha|]. intros x [->|H]; [lra|]. apply M, H.
Qed.

Lemma left_far p ring : (forall v, In v ring -> v2x p <= v2x v) -> leftSum p ring = false.
Proof.
  intros H. apply xsum_false. intros [a b] E. cbn [fst snd]. apply edges_in in E as [Ha Hb]. apply H in Ha, Hb.
  destruct (heights (v2y a) (v2y b) (v2y p)) as [Y|[Y|[Y|Y]]]; unfold leftb.
  - assert (O : 0 <= orient a b p).
    { replace (orient a b p) with ((v2y b - v2y p) * (v2x a - v2x p) + (v2y p - v2y a) * (v2x b - v2x p)) by (unfold orient; ring).
      assert (0 <= (v2y b - v2y p) * (v2x a - v2x p)) by (apply Rmult_le_pos; lra).
      assert (0 <= (v2y p - v2y a) * (v2x b - v2x p)) by (apply Rmult_le_pos; lra). lra. }
    known. reflexivity.
  - assert (O : orient a b p <= 0).
    { replace (orient a b p) with (- ((v2y p - v2y b) * (v2x a - v2x p) + (v2y a - v2y p) * (v2x b - v2x p))) by (unfold orient; ring).
      assert (0 <= (v2y p - v2y b) * (v2x a - v2x p)) by (apply Rmult_le_pos; lra).
      assert (0 <= (v2y a - v2y p) * (v2x b - v2x p)) by (apply Rmult_le_pos; lra). lra. }
    known. reflexivity.
  - known. reflexivity.
  - known. reflexivity.
Qed.

(** ** The first of finitely many segments that a segment meets *)
Lemma least (P : R -> Prop) (l : list R) (G : Prop) :
  ((forall t, In t l -> ~ P t) -> ~ G) -> ((exists t, In t l /\ P t /\ forall s, In s l -> P s -> t <= s) -> ~ G) -> ~ G.
Proof.
  revert G. induction l as [|x l IH]; intros G N E; [apply N; intros t []|].
  intros g. apply (IH G); [| |exact g].
  - intros NL _. assert (NN : ~ ~ (P x \/ ~ P x)) by tauto. apply NN. intros [X|X].
    + apply E; [|exact g]. exists x. split; [left; reflexivity|]. split; [exact X|]. intros s [->|S] PS; [lra|]. destruct (NL s S PS).
    + apply N; [|exact g]. intros t [->|T]; auto.
  - intros (t & T & PT & M) _. assert (NN : ~ ~ (P x \/ ~ P x)) by tauto. apply NN. intros [X|X].
    + apply E; [|exact g]. destruct (Rle_dec x t) as [C|C].
      * exists x. split; [left; reflexivity|]. split; [exact X|]. intros s [->|S] PS; [lra|]. specialize (M s S PS). lra.
      * exists t. split; [right; exact T|]. split; [exact PT|]. intros s [->|S] PS; [lra|]. auto.
    + apply E; [|exact g]. exists t. split; [right; exact T|]. split; [exact PT|]. intros s [->|S] PS; [contradiction|]. auto.
Qed.

(** Where the way from [p] to [w] can enter the segment from [a] to [b]. *)
Definition entries (p w a b : pt) : list R :=
  let along1 v := ((v2x v - v2x p) * (v2x w - v2x p) + (v2y v - v2y p) * (v2y w - v2y p)) /
    ((v2x w - v2x p) * (v2x w - v2x p) + (v2y w - v2y p) * (v2y w - v2y p)) in
  [0; along1 a; along1 b;
   orient a b p / ((v2x w - v2x p) * (v2y b - v2y a) - (v2y w - v2y p) * (v2x b - v2x a))].

Lemma enter p w a b t : 0 <= t <= 1 -> onSegment (along p w t) a b ->
  exists s, In s (entries p w a b) /\ 0 <= s <= t /\ onSegment (along p w s) a b.
Proof.
  intros T O. assert (O' := O). destruct O' as (u & U & E).
  assert (EX : v2x p + t * (v2x w - v2x p) = v2x a + u * (v2x b - v2x a)) by exact (f_equal v2x E).
  assert (EY : v2y p + t * (v2y w - v2y p) = v2y a + u * (v2y b - v2y a)) by exact (f_equal v2y E).
  clear E. unfold entries.
  set (dx := v2x w - v2x p) in *. set (dy := v2y w - v2y p) in *.
  set (ex := v2x b - v2x a) in *. set (ey := v2y b - v2y a) in *.
  destruct (Req_dec (dx * ey - dy * ex) 0) as [D|D].
  2:{ exists (orient a b p / (dx * ey - dy * ex)). split; [cbn [In]; auto|].
    replace (orient a b p / (dx * ey - dy * ex)) with t; [split; [lra|exact O]|].
    apply (Rmult_eq_reg_r (dx * ey - dy * ex)); [|exact D]. unfold Rdiv. rewrite Rmult_assoc, Rinv_l by exact D.
    unfold orient. fold ex ey. assert (PX : v2x p = v2x a + u * ex - t * dx) by lra. assert (PY : v2y p = v2y a + u * ey - t * dy) by lra.
    rewrite PX, PY. ring. }
  destruct (Req_dec (dx * dx + dy * dy) 0) as [Z|Z].
  { exists 0. split; [left; reflexivity|]. split; [lra|].
    assert (dx = 0) by nra. assert (dy = 0) by nra. replace (along p w 0) with (along p w t); [exact O|].
    unfold along. fold dx dy. f_equal; nra. }
  set (n := dx * dx + dy * dy) in *.
  set (ta := ((v2x a - v2x p) * dx + (v2y a - v2y p) * dy) / n). set (tb := ((v2x b - v2x p) * dx + (v2y b - v2y p) * dy) / n).
  set (k := (ex * dx + ey * dy) / n).
  assert (KX : ex = k * dx).
  { apply (Rmult_eq_reg_r n); [|exact Z]. unfold k, Rdiv. replace ((ex * dx + ey * dy) * / n * dx * n) with ((ex * dx + ey * dy) * dx * (/ n * n)) by ring.
    rewrite Rinv_l by exact Z. unfold n. assert (D2 : dx * ey = dy * ex) by lra.
    replace ((ex * dx + ey * dy) * dx * 1) with (ex * dx * dx + dy * (dx * ey)) by ring. rewrite D2. ring. }
  assert (KY : ey = k * dy).
  { apply (Rmult_eq_reg_r n); [|exact Z]. unfold k, Rdiv. replace ((ex * dx + ey * dy) * / n * dy * n) with ((ex * dx + ey * dy) * dy * (/ n * n)) by ring.
    rewrite Rinv_l by exact Z. unfold n. assert (D2 : dx * ey = dy * ex) by lra.
    replace ((ex * dx + ey * dy) * dy * 1) with (dx * (dy * ex) + ey * dy * dy) by ring. rewrite <- D2. ring. }
  assert (TA : t = ta + u * k).
  { apply (Rmult_eq_reg_r n); [|exact Z]. unfold ta, k, Rdiv.
    replace ((((v2x a - v2x p) * dx + (v2y a - v2y p) * dy) * / n + u * ((ex * dx + ey * dy) * / n)) * n)
      with ((((v2x a - v2x p) * dx + (v2y a - v2y p) * dy) + u * (ex * dx + ey * dy)) * (/ n * n)) by ring.
    rewrite Rinv_l by exact Z. assert (AX : v2x a - v2x p = t * dx - u * ex) by lra. assert (AY : v2y a - v2y p = t * dy - u * ey) by lra.
    rewrite AX, AY. unfold n. ring. }
  assert (TB : tb = ta + k).
  { unfold tb, ta, k. replace (v2x b - v2x p) with (v2x a - v2x p + ex) by (unfold ex; ring).
    replace (v2y b - v2y p) with (v2y a - v2y p + ey) by (unfold ey; ring). field. exact Z. }
  assert (AX : v2x a = v2x p + ta * dx) by (rewrite TA, KX in EX; lra).
  assert (AY : v2y a = v2y p + ta * dy) by (rewrite TA, KY in EY; lra).
  assert (AA : along p w ta = a) by (unfold along; fold dx dy; destruct a as [ax ay]; cbn [v2x v2y] in *; f_equal; lra).
  assert (BB : along p w tb = b).
  { unfold along. fold dx dy. rewrite TB. unfold ex in KX. unfold ey in KY. destruct b as [bx by_]. cbn [v2x v2y] in *. f_equal; lra. }
  fold ta. fold tb.
  assert (ZERO : 0 <= - ta * / k <= 1 -> k <> 0 -> onSegment (along p w 0) a b).
  { intros B K. exists (- ta * / k). split; [exact B|]. unfold along. fold dx dy ex ey. rewrite AX, AY, KX, KY. f_equal; field; exact K. }
  destruct (Rle_dec 0 k) as [K|K].
  - assert (UK : 0 <= u * k) by (apply Rmult_le_pos; lra).
    destruct (Rle_dec 0 ta) as [P|P].
    + exists ta. split; [cbn [In]; auto|]. split; [lra|]. rewrite AA. apply on_first.
    + exists 0. split; [left; reflexivity|]. split; [lra|]. assert (KP : 0 < k). { destruct (Req_dec k 0) as [E0|]; [|lra]. rewrite E0 in TA. lra. }
      apply ZERO; [|lra]. assert (I := Rinv_0_lt_compat k KP). split; [apply Rmult_le_pos; lra|].
      assert (UK1 : u * k <= 1 * k) by (apply Rmult_le_compat_r; lra).
      apply (Rmult_le_reg_r k); [exact KP|]. rewrite Rmult_assoc, Rinv_l by lra. lra.
  - assert (UK : (1 - u) * k <= 0) by nra.
    destruct (Rle_dec 0 tb) as [P|P].
    + exists tb. split; [cbn [In]; auto|]. split; [lra|]. rewrite BB. apply on_last.
    + exists 0. split; [left; reflexivity|]. split; [lra|]. apply ZERO; [|lra].
      assert (I := Rinv_lt_0_compat k ltac:(lra)).
      replace (- ta * / k) with (ta * / - k) by (field; lra). assert (I2 := Rinv_0_lt_compat (- k) ltac:(lra)).
      assert (TP : 0 <= ta) by nra. split; [apply Rmult_le_pos; lra|].
      apply (Rmult_le_reg_r (- k)); [lra|]. rewrite Rmult_assoc, Rinv_l by lra. lra.
Qed.

Lemma along_0 p w : along p w 0 = p.
Proof. destruct p as [x y]. unfold along. cbn [v2x v2y]. f_equal; ring. Qed.

(** A point inside a ring that is inside another is inside the latter. *)
Lemma left_nested r s p : disjointRings r s -> (forall v, In v s -> leftSum v r = true) -> leftSum p s = true -> leftSum p r = true.
Proof.
  intros D IN P.
  assert (NS : s <> []) by (intros ->; discriminate).
  destruct (leftmost s NS) as (w & W & MW).
  assert (NR : r <> []) by (intros ->; specialize (IN w W); discriminate).
  destruct (leftmost r NR) as (v & V & MV).
  assert (VF : leftSum v s = false).
  { apply left_far. intros x X. apply Rle_trans with (v2x w); [|apply MW, X].
    destruct (Rle_dec (v2x v) (v2x w)) as [C|C]; [exact C|exfalso]. specialize (IN w W). rewrite left_far in IN; [discriminate|].
    intros y Y. apply MV in Y. lra. }
  assert (RF : forall x, onRing x r -> leftSum x s = false) by (intros x X; rewrite (left_same_points r s v x D V X); exact VF).
  assert (ST : forall x, onRing x s -> leftSum x r = true).
  { intros x X. rewrite (left_same_points s r w x (disjoint_sym r s D) W X). apply IN, W. }
  destruct (leftSum p r) eqn:R; [reflexivity|exfalso].
  set (hit := fun t => 0 <= t <= 1 /\ exists a b, In (a, b) (edges r ++ edges s) /\ onSegment (along p w t) a b).
  set (cands := flat_map (fun e => entries p w (fst e) (snd e)) (edges r ++ edges s)).
  assert (FIRST : forall t, hit t -> exists u, In u cands /\ hit u /\ u <= t).
  { intros t (T & a & b & H & O). destruct (enter p w a b t T O) as (u & U & B & X). exists u. split; [|split].
    - apply in_flat_map. exists (a, b). auto.
    - split; [lra|]. exists a, b. auto.
    - lra. }
  assert (H1 : hit 1).
  { split; [lra|]. destruct (edges_into s w W) as [a A]. exists a, w. split; [apply in_app_iff; auto|].
    replace (along p w 1) with w; [apply on_last|]. destruct w as [x y]. unfold along. cbn [v2x v2y]. f_equal; ring. }
  apply (least hit cands True); [| |exact Logic.I].
  - intros N _. destruct (FIRST 1 H1) as (u & U & HU & _). exact (N u U HU).
  - intros (t & T & HT & M) _. assert (M2 : forall u, hit u -> t <= u).
    { intros u HU. destruct (FIRST u HU) as (x & X & HX & L). apply Rle_trans with x; [apply M; assumption|exact L]. }
    destruct HT as (B & a & b & H & O). apply in_app_iff in H.
    assert (CLEAR : forall ring, (forall e, In e (edges ring) -> In e (edges r ++ edges s)) -> ~ onRing (along p w t) ring ->
      leftSum p ring = leftSum (along p w t) ring).
    { intros ring INC NO. apply left_reach. intros c d H2 (u & (z & Z & ->) & U2).
      assert (ZT : along p (along p w t) z = along p w (z * t)) by (unfold along; cbn [v2x v2y]; f_equal; ring).
      rewrite ZT in U2. assert (HZ : hit (z * t)).
      { split; [|exists c, d; auto]. split; [apply Rmult_le_pos; lra|]. assert (z * t <= 1 * 1) by (apply Rmult_le_compat; lra). lra. }
      apply M2 in HZ. assert (ZT2 : z * t = t). { assert (z * t <= 1 * t) by (apply Rmult_le_compat_r; lra). lra. }
      rewrite ZT2 in U2. apply NO. exists c, d. auto. }
    destruct H as [H|H].
    + assert (X : onRing (along p w t) r) by (exists a, b; auto). apply RF in X. rewrite (CLEAR s), X in P; [discriminate|intros; apply in_app_iff; auto|].
      intros (c & d & H2 & O2). apply (D a b c d H H2). exists (along p w t). auto.
    + assert (X : onRing (along p w t) s) by (exists a, b; auto). apply ST in X. rewrite (CLEAR r), X in R; [discriminate|intros; apply in_app_iff; auto|].
      intros (c & d & H2 & O2). apply (D c d a b H2 H). exists (along p w t). auto.
Qed.

(** * The point found in a contour *)
Lemma try_edge_some (n : nums R) ofNat test cx cy dx dy js j : In j js ->
  test (mkV2 (nsub n cx (ndiv n dx (ofNat j))) (nsub n cy (ndiv n dy (ofNat j)))) = true ->
  exists q, tryEdge n ofNat test cx cy dx dy js = Some q /\ test q = true.
Proof.
  intros H T. induction js as [|i js IH]; [destruct H|]. cbn [tryEdge].
  destruct (test (mkV2 (nadd n cx _) _)) eqn:A; [eexists; split; [reflexivity|exact A]|].
  destruct (test (mkV2 (nsub n cx (ndiv n dx (ofNat i))) _)) eqn:B; [eexists; split; [reflexivity|exact B]|].
  destruct H as [->|H]; [congruence|]. apply IH, H.
Qed.

Lemma try_edges_some (n : nums R) ofNat k test es a b j : In (a, b) es -> In j (seq 1 8) ->
  test (mkV2 (nsub n (ndiv n (nadd n (v2x a) (v2x b)) (ofNat 2%nat)) (ndiv n (ndiv n (nsub n (v2y b) (v2y a)) k) (ofNat j)))
             (nsub n (ndiv n (nadd n (v2y a) (v2y b)) (ofNat 2%nat)) (ndiv n (ndiv n (nsub n (v2x a) (v2x b)) k) (ofNat j)))) = true ->
  exists q, tryEdges n ofNat k test es = Some q /\ test q = true.
Proof.
  intros H J T. induction es as [|[c d] es IH]; [destruct H|]. cbn [tryEdges].
  destruct H as [E|H].
  - injection E as -> ->.
    destruct (try_edge_some n ofNat test (ndiv n (nadd n (v2x a) (v2x b)) (ofNat 2%nat)) (ndiv n (nadd n (v2y a) (v2y b)) (ofNat 2%nat))
      (ndiv n (nsub n (v2y b) (v2y a)) k) (ndiv n (nsub n (v2x a) (v2x b)) k) (seq 1 8) j J T) as (q & -> & Q).
    exists q. auto.
  - destruct (IH H) as (q & E & Q).
    destruct (tryEdge n ofNat test _ _ _ _ (seq 1 8)) as [r|] eqn:R; [|exists q; auto].
    exists r. split; [reflexivity|].
    assert (G : forall js cx cy dx dy s, tryEdge n ofNat test cx cy dx dy js = Some s -> test s = true).
    { clear. intros js cx cy dx dy s. induction js as [|i js IH]; cbn [tryEdge]; [discriminate|].
      destruct (test (mkV2 (nadd n cx _) _)) eqn:T1; [intros [= <-]; exact T1|].
      destruct (test (mkV2 (nsub n cx _) _)) eqn:T2; [intros [= <-]; exact T2|apply IH]. }
    eapply G, R.
Qed.

Lemma triangle_convex a b c : 0 < orient a b c -> convexRing [a; b; c].
Proof.
  intros O. assert (AB : a <> b) by (intros ->; unfold orient in O; lra).
  assert (AC : a <> c) by (intros ->; unfold orient in O; lra). assert (BC : b <> c) by (intros ->; unfold orient in O; lra).
  split; [|split].
  - constructor; [cbn [In]; intuition congruence|]. constructor; [cbn [In]; intuition congruence|]. constructor; [intros []|constructor].
  - cbn. lia.
  - intros x y v H V NX NY. cbn [edges last combine In] in H. cbn [In] in V.
    destruct H as [E|[E|[E|[]]]]; injection E as <- <-; destruct V as [<-|[<-|[<-|[]]]]; try contradiction.
    + rewrite orient_cycle, orient_cycle in *. unfold orient in *. lra.
    + exact O.
    + unfold orient in *. lra.
Qed.

Definition centroid (a b c : pt) : pt := mkV2 ((v2x a + v2x b + v2x c) / 3) ((v2y a + v2y b + v2y c) / 3).
Lemma centroid_inside a b c : 0 < orient a b c -> leftOfAll (centroid a b c) [a; b; c].
Proof.
  intros O x y H. cbn [edges last combine In] in H.
  destruct H as [E|[E|[E|[]]]]; injection E as <- <-; unfold orient, centroid in *; cbn [v2x v2y]; lra.
Qed.
