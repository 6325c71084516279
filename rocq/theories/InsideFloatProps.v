(** C81: points in polygons in the arithmetic of double. *)
From Coq Require Import Reals ZArith Lra Lia Classical_Prop.
From Flocq Require Import Core.Core IEEE754.Binary IEEE754.Bits.
From Verif Require Import Base GeoModel RingModel QuatModel MeshBuildModel InsideModel InsideSpec InsideProps
  RingFloatModel RingFloatSpec RingFloatProofs RingFloatProps InsideFloatModel InsideFloatSpec InsideFloatProofs.
Local Open Scope R_scope.

(** A point which has a ten-millionth of a millimetre to the sides gets the answer of exact arithmetic. *)
Theorem C81_clear : forall test exact p ring, In (test, exact) (combine doubleTests exactTests) ->
  onChart p -> List.Forall onChart ring -> tallSides (map spotOf ring) -> clearance (1 / 1000000000000) (spotOf p) (map spotOf ring) ->
  test p ring = exact (spotOf p) (map spotOf ring).
Proof. exact clear_exact. Qed.
Print Assumptions C81_clear.

(** Coordinates of seven digits, sides of up to a twentieth of a degree in both directions: reading the coordinates and the test
    together are exact for all points which are not on the ring. *)
Theorem C81_digits : forall test exact p p' ring ring', In (test, exact) (combine doubleTests exactTests) ->
  inRange p -> List.Forall inRange ring -> readAs p p' -> Forall2 readAs ring ring' ->
  sidesWithin 500000 ring -> ~ onRing (unitSpot p) (map unitSpot ring) ->
  test p' ring' = exact (unitSpot p) (map unitSpot ring).
Proof. exact digits_exact. Qed.
Print Assumptions C81_digits.

Lemma exact_tests h : In h exactTests -> In h tests.
Proof. intros H. exact H. Qed.
Lemma paired {A B} (l : list A) (m : list B) x y : In (x, y) (combine l m) -> In y m.
Proof. apply in_combine_r. Qed.
(** So the answer for a convex ring is right on both sides of its border. *)
Theorem C81_convex : forall test p p' ring ring', In test doubleTests ->
  inRange p -> List.Forall inRange ring -> readAs p p' -> Forall2 readAs ring ring' -> sidesWithin 500000 ring ->
  convexRing (map unitSpot ring) ->
  (leftOfAll (unitSpot p) (map unitSpot ring) -> test p' ring' = true) /\
  ((exists a b, In (a, b) (edges (map unitSpot ring)) /\ orient a b (unitSpot p) < 0) -> test p' ring' = false).
Proof.
  intros test p p' ring ring' T P R N M S C.
  assert (X : exists h, In (test, h) (combine doubleTests exactTests)).
  { unfold doubleTests, exactTests in *. cbn [combine In] in *. destruct T as [<-|[<-|[<-|[]]]]; eexists; [left|right; left|right; right; left]; reflexivity. }
  destruct X as (h & X). assert (H := exact_tests h (paired _ _ _ _ X)). destruct (C71_convex h (unitSpot p) (map unitSpot ring) H C) as (C1 & C2).
  assert (Z : forall a b q, onSegment q a b -> orient a b q = 0).
  { intros a b q (t & _ & ->). unfold orient, along. cbn [v2x v2y]. ring. }
  split.
  - intros L. rewrite <- (C1 L). apply (digits_exact test h); auto. intros (a & b & E & O). assert (L' := L a b E). rewrite (Z _ _ _ O) in L'. lra.
  - intros (a & b & E & O). assert (C2' := C2 (ex_intro _ a (ex_intro _ b (conj E O)))). rewrite <- C2'. apply (digits_exact test h); auto.
    (** A point beyond one side is on none. *)
    intros (c & d & F & (t & T1 & Q)). destruct C as (_ & _ & C).
    assert (V : forall v, In v (map unitSpot ring) -> 0 <= orient a b v).
    { intros v I. destruct (Classical_Prop.classic (v = a)) as [->|A1]; [unfold orient; lra|]. destruct (Classical_Prop.classic (v = b)) as [->|A2]; [unfold orient; lra|].
      apply Rlt_le, C; auto. }
    destruct (edges_in _ _ _ F) as (Ic & Id). apply V in Ic, Id. rewrite Q in O. unfold orient, along in *. cbn [v2x v2y] in *. nra.
Qed.
Print Assumptions C81_convex.

(** Which rings of a multipolygon are in which: exact if no corner of one is on the border of the other. *)
Theorem C81_contains : forall i j (a b : list (vec2 Z)) a' b', List.Forall inRange a -> List.Forall inRange b ->
  Forall2 readAs a a' -> Forall2 readAs b b' -> sidesWithin 500000 a -> (forall v, In v b -> ~ onRing (unitSpot v) (map unitSpot a)) ->
  containsRing (isPointInPolygon doubleNums) (mkSeq i (map coordinate a')) (mkSeq j (map coordinate b')) =
  containsRing (isPointInPolygon realNums) (mkSeq i (map coordinate (map unitSpot a))) (mkSeq j (map coordinate (map unitSpot b))).
Proof.
  intros i j a b a' b' A B NA NB S O. unfold containsRing. cbn [scoords]. revert B O. induction NB as [|k v l m H NB IH]; intros B O; [reflexivity|].
  cbn [map forallb]. inversion B as [|x y B1 B2]; subst x y. f_equal.
  - apply (digits_exact (fun p ring => isPointInPolygon doubleNums (coordinate p) (map coordinate ring))
      (fun p ring => isPointInPolygon realNums (coordinate p) (map coordinate ring))); auto; [right; right; left; reflexivity|]. apply O. left. reflexivity.
  - apply IH; auto. intros w W. apply O. right. exact W.
Qed.
Print Assumptions C81_contains.

(** * Cases *)
Definition decimalSpot (k : vec2 Z) : vec2 binary64 := mkV2 (decimal (v2x k)) (decimal (v2y k)).
Lemma decimal_read k : inRange k -> readAs k (decimalSpot k).
Proof. intros (A & B). split; apply decimal_nearest; cbn [coordinate decimalSpot plat plon v2x v2y]; lia. Qed.
Lemma decimal_reads l : List.Forall inRange l -> Forall2 readAs l (map decimalSpot l).
Proof. induction 1; constructor; auto using decimal_read. Qed.

(** A field in Berlin, and a point a ten-millionth of a degree from its border. *)
Definition field : list (vec2 Z) := [mkV2 134000000 525000000; mkV2 134400000 525000000; mkV2 134400000 525300000]%Z.
Ltac ranges := repeat (apply Forall_cons; [split; cbn [v2x v2y]; lia|]); apply Forall_nil.
Example C81_digits_case : let p := mkV2 134200000%Z 525149999%Z in
  inRange p /\ List.Forall inRange field /\ sidesWithin 500000 field /\ convexRing (map unitSpot field) /\ leftOfAll (unitSpot p) (map unitSpot field) /\
  readAs p (decimalSpot p) /\ Forall2 readAs field (map decimalSpot field).
Proof.
  cbv zeta. assert (F : List.Forall inRange field) by (unfold field; ranges). assert (P : inRange (mkV2 134200000%Z 525149999%Z)) by (split; cbn; lia).
  split; [exact P|]. split; [exact F|]. split.
  { intros a b H. unfold field in H. cbn [edges last combine In] in H. destruct H as [E|[E|[E|[]]]]; injection E as <- <-; cbn [v2x v2y]; lia. }
  unfold field, unitSpot. cbn [map v2x v2y]. split; [|split].
  - split; [|split].
    + repeat (constructor; [cbn [In]; intros H; repeat (destruct H as [H|H]; [injection H; intros; lra|]); exact H|]). constructor.
    + cbn. lia.
    + intros a b v H V NA NB. cbn [edges last combine In] in H, V.
      destruct H as [E|[E|[E|[]]]]; injection E as <- <-; destruct V as [<-|[<-|[<-|[]]]]; try congruence; unfold orient; cbn [v2x v2y]; lra.
  - intros a b H. cbn [edges last combine In] in H. destruct H as [E|[E|[E|[]]]]; injection E as <- <-; unfold orient; cbn [v2x v2y]; lra.
  - split; [apply decimal_read, P|apply decimal_reads, F].
Qed.

(** A pond in the field. *)
Definition pond : list (vec2 Z) := [mkV2 134250000 525010000; mkV2 134350000 525010000; mkV2 134350000 525200000]%Z.
Example C81_contains_case : List.Forall inRange field /\ List.Forall inRange pond /\ sidesWithin 500000 field /\
  (forall v, In v pond -> ~ onRing (unitSpot v) (map unitSpot field)).
Proof.
  split; [unfold field; ranges|]. split; [unfold pond; ranges|]. split; [apply C81_digits_case|].
  intros v V (a & b & E & (t & T & Q)). unfold pond, field, unitSpot in *. cbn [map v2x v2y edges last combine In] in *.
  unfold along in Q. destruct V as [<-|[<-|[<-|[]]]]; destruct E as [E|[E|[E|[]]]]; injection E as <- <-; cbn [v2x v2y] in Q; injection Q; intros; lra.
Qed.

(** A square of one degree and a point in it. *)
Example C81_clear_case :
  let ring := map decimalSpot [mkV2 130000000 520000000; mkV2 140000000 520000000; mkV2 140000000 530000000; mkV2 130000000 530000000]%Z in
  let p := decimalSpot (mkV2 135000000%Z 525000000%Z) in
  onChart p /\ List.Forall onChart ring /\ tallSides (map spotOf ring) /\ clearance (1 / 1000000000000) (spotOf p) (map spotOf ring).
Proof.
  cbv zeta. assert (M : forall k, inRange k -> onChart (decimalSpot k)) by (intros k K; apply (read_chart k); auto using decimal_read).
  explicit 130000000%Z. explicit 140000000%Z. explicit 520000000%Z. explicit 530000000%Z. explicit 135000000%Z. explicit 525000000%Z.
  cbn [map]. unfold spotOf, decimalSpot. cbn [v2x v2y]. rewrite V, V0, V1, V2, V3, V4.
  split; [apply (M (mkV2 135000000 525000000)%Z); split; cbn; lia|]. split.
  { apply Forall_cons; [apply (M (mkV2 130000000 520000000)%Z); split; cbn; lia|]. apply Forall_cons; [apply (M (mkV2 140000000 520000000)%Z); split; cbn; lia|].
    apply Forall_cons; [apply (M (mkV2 140000000 530000000)%Z); split; cbn; lia|]. apply Forall_cons; [apply (M (mkV2 130000000 530000000)%Z); split; cbn; lia|]. apply Forall_nil. }
  split.
  - intros a b H. cbn [edges last combine In] in H. destruct H as [E|[E|[E|[E|[]]]]]; injection E as <- <-; cbn [v2x v2y];
      (left; lra) || (right; unfold Rabs; destruct (Rcase_abs _); lra).
  - intros a b q H (t & T & ->) Y. cbn [edges last combine In] in H. destruct H as [E|[E|[E|[E|[]]]]]; injection E as <- <-; cbn [v2x v2y along] in *; unfold along in *; cbn [v2x v2y] in *;
      unfold Rabs; destruct (Rcase_abs _); lra.
Qed.

(** With sides of a degree it is wrong: a triangle by Wellington, and a point of seven digits inside which all three tests put
    outside. *)
Definition region : list (vec2 Z) := [mkV2 1748981472 (-412208038); mkV2 1758596405 (-412208038); mkV2 1758596405 (-402321115)]%Z.
Definition lost : vec2 Z := mkV2 1758090648%Z (-402841179)%Z.
Theorem C81_long_refuted : forall test, In test doubleTests -> ~ (forall p p' ring ring',
  inRange p -> List.Forall inRange ring -> readAs p p' -> Forall2 readAs ring ring' -> sidesWithin 10000000 ring ->
  convexRing (map unitSpot ring) -> leftOfAll (unitSpot p) (map unitSpot ring) -> test p' ring' = true).
Proof.
  intros test T H. assert (P : inRange lost) by (split; cbn; lia). assert (F : List.Forall inRange region) by (unfold region; ranges).
  specialize (H lost (decimalSpot lost) region (map decimalSpot region) P F (decimal_read _ P) (decimal_reads _ F)).
  assert (X : test (decimalSpot lost) (map decimalSpot region) = false).
  { unfold doubleTests in T. cbn [In] in T. destruct T as [<-|[<-|[<-|[]]]]; vm_compute; reflexivity. }
  rewrite H in X; [discriminate| | |].
  - intros a b E. unfold region in E. cbn [edges last combine In] in E. destruct E as [E|[E|[E|[]]]]; injection E as <- <-; cbn [v2x v2y]; lia.
  - unfold region, unitSpot. cbn [map v2x v2y]. split; [|split].
    + repeat (constructor; [cbn [In]; intros I; repeat (destruct I as [I|I]; [injection I; intros; lra|]); exact I|]). constructor.
    + cbn. lia.
    + intros a b v E V NA NB. cbn [edges last combine In] in E, V.
      destruct E as [E|[E|[E|[]]]]; injection E as <- <-; destruct V as [<-|[<-|[<-|[]]]]; try congruence; unfold orient; cbn [v2x v2y]; lra.
  - unfold region, lost, unitSpot. cbn [map v2x v2y]. intros a b E. cbn [edges last combine In] in E. destruct E as [E|[E|[E|[]]]]; injection E as <- <-; unfold orient; cbn [v2x v2y]; lra.
Qed.
Print Assumptions C81_long_refuted.
