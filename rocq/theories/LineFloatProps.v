(** C82: splitting sides by the lines of a grid with doubles. *)
From Coq Require Import Reals ZArith List Lia Lra Sorted Permutation. Import ListNotations.
From Flocq Require Import Core.Core IEEE754.Binary IEEE754.Bits.
From Verif Require Import Base RingModel MeshBuildModel LineGridModel ProjectionFloat RingFloatModel RingFloatSpec RingFloatProofs InsideFloatSpec InsideFloatProofs
  LineGridSpec LineGridProps LineFloatModel LineFloatSpec LineFloatProofs.
Local Open Scope R_scope.

Notation doubleSplit srt step := (split doubleNums doubleGrids srt (doubleInt 10000000) step).
Notation doubleCorner := (cornerOf doubleNums doubleGrids (doubleInt 10000000)).

(** The lines of a grid between two numbers, got by adding the cell size again and again, are lines of the grid up to 3.2e-14 for
    each addition, and no line is left out but within that of the second number. *)
Theorem C82_lines step a b fuel l : goodStep step -> goodNumber a -> goodNumber b -> gridLines doubleNums doubleGrids step fuel a b = Some l ->
  (forall x, In x l -> is_finite 53 1024 x = true /\ valueOf x < valueOf b /\
    exists z : Z, valueOf a - 1 / 1000000000000 <= IZR z * valueOf step /\ Rabs (valueOf x - IZR z * valueOf step) <= drift (length l)) /\
  (forall z : Z, valueOf a + 1 / 1000000000000 <= IZR z * valueOf step -> IZR z * valueOf step < valueOf b - drift (length l) ->
    exists x, In x l /\ Rabs (valueOf x - IZR z * valueOf step) <= drift (length l)).
Proof. apply lines_set. Qed.
(** The loops over the lines end: adding the cell size is never lost. *)
Theorem C82_ends srt step a b fuel : goodStep step -> goodCorner a -> goodCorner b -> (730000000 <= Z.of_nat fuel)%Z -> doubleSplit srt step fuel a b [] <> None.
Proof. intros. apply side_ends; auto. Qed.
(** Every point is a pair of numbers within 1e-12 of the line through the corners in both coordinates. *)
Theorem C82_line srt step a b fuel out p : permutes srt -> goodStep step -> goodCorner a -> goodCorner b ->
  doubleSplit srt step fuel a b [] = Some out -> In p out ->
  is_finite 53 1024 (v2x p) = true /\ is_finite 53 1024 (v2y p) = true /\
  nearLine (1 / 1000000000000) (spotOf (doubleCorner a)) (spotOf (doubleCorner b)) (spotOf p).
Proof. intros P G A B H I. exact (side_fine srt P step G a b A B fuel out p H I). Qed.
(** A corner is the double nearest to the decimal. *)
Theorem C82_corner a : goodCorner a -> nearestTo (fst a) (v2x (doubleCorner a)) /\ nearestTo (snd a) (v2y (doubleCorner a)).
Proof. intros (X & Y). split; apply corner_number; assumption. Qed.

(** * What fails *)
Lemma insertion_permutes {A} : permutes (@insertionSort A).
Proof.
  intros lt l. induction l as [|a l P]; [constructor|]. cbn [insertionSort fold_right]. fold (insertionSort lt l). rewrite P at 1.
  set (m := insertionSort lt l). clearbody m. clear. induction m as [|b m IH]; [reflexivity|]. cbn [insertBy]. destruct (lt b a); [|reflexivity].
  rewrite perm_swap. now rewrite IH.
Qed.
(** The cell size 0.0003. *)
Definition cell : binary64 := ndiv doubleNums (doubleInt 3000) (doubleInt 10000000).
Lemma cell_nearest : nearestTo 3000 cell.
Proof. apply corner_number. lia. Qed.
Lemma cell_good : goodStep cell.
Proof. destruct (corner_number 3000 ltac:(lia)) as (_ & (F & _) & E). split; [exact F|]. apply abs_bounds in E. unfold cell. lra. Qed.
Definition cellSplit (a b : Z * Z) : list (vec2 binary64) := match doubleSplit insertionSort cell 100 a b [] with Some out => out | None => [] end.
Lemma cell_split a b : (match doubleSplit insertionSort cell 100 a b [] with Some _ => true | None => false end) = true ->
  doubleSplit insertionSort cell 100 a b [] = Some (cellSplit a b).
Proof. unfold cellSplit. destruct (doubleSplit insertionSort cell 100 a b []); [reflexivity|discriminate]. Qed.

Ltac apart := unfold near; cbn [v2x v2y]; let X := fresh in let Y := fresh in intros (X & Y); exfalso;
  apply Rabs_def2 in X, Y; lra.

(** A side that ends on a line gets a second point there: with cells of 0.0003 from 13.3799768 to 13.38. *)
Definition endA : Z * Z := (133799768, 525000123)%Z.
Definition endB : Z * Z := (133800000, 525000123)%Z.
Lemma end_spaced : spaced (1 / 1000000000) (IZR 3000 / 10000000) (degreesOf endA) (degreesOf endB).
Proof.
  assert (N : forall p, node (IZR 3000 / 10000000) (degreesOf endA) (degreesOf endB) p -> p = degreesOf endA \/ p = degreesOf endB).
  { intros p [E|[E|((t & T & E) & m & C)]]; auto. right. destruct p as [x y]. unfold between, degreesOf in E. cbn [v2x v2y fst snd endA endB] in E. injection E as EX EY.
    unfold degreesOf in C. cbn [v2x v2y fst snd endA endB] in C. destruct C as [(_ & C)|(C & _)]; [|lra].
    assert (M : m = 44600%Z).
    { assert (M1 : 44599 < IZR m) by lra. assert (M2 : IZR m < 44601) by lra. apply lt_IZR in M1, M2. lia. }
    subst m. unfold degreesOf. cbn [fst snd endB]. f_equal; lra. }
  intros p q P Q. destruct (N p P) as [->| ->], (N q Q) as [->| ->]; auto; unfold degreesOf, endA, endB; cbn [fst snd]; apart.
Qed.
Theorem C82_end_refuted : ~ forall srt k step a b fuel out, permutes srt -> nearestTo k step -> goodStep step -> goodCorner a -> goodCorner b ->
  spaced (1 / 1000000000) (IZR k / 10000000) (degreesOf a) (degreesOf b) ->
  doubleSplit srt step fuel a b [] = Some out -> distinct (1 / 1000000000000) (map spotOf out).
Proof.
  intros H. specialize (H insertionSort 3000%Z cell endA endB 100%nat (cellSplit endA endB) insertion_permutes cell_nearest cell_good).
  assert (D : distinct (1 / 1000000000000) (map spotOf (cellSplit endA endB))).
  { apply H; [unfold goodCorner; cbn; lia|unfold goodCorner; cbn; lia|apply end_spaced|apply cell_split; vm_compute; reflexivity]. }
  rewrite shown_spots in D.
  replace (map shown (cellSplit endA endB)) with
    [(F754_finite false 7532257316338235 (-49), F754_finite false 7388719869725827 (-47));
     (F754_finite false 7532270376777154 (-49), F754_finite false 7388719869725827 (-47));
     (F754_finite false 7532270376777155 (-49), F754_finite false 7388719869725827 (-47))] in D by (vm_compute; reflexivity).
  cbn [map] in D. specialize (D _ _ (or_intror (or_introl eq_refl)) (or_intror (or_intror (or_introl eq_refl)))).
  unfold spotShown in D. cbn [fst snd] in D. unfold near in D. cbn [v2x v2y] in D. unfold FF2R, F2R in D. cbn -[IZR] in D.
  assert (E := D ltac:(split; apply Rabs_def1; lra)). injection E as E. lra.
Qed.

(** So does a side through a crossing of two lines, the ends being on none: two points for one. *)
Definition crossA : Z * Z := (134603196, 525508785)%Z.
Definition crossB : Z * Z := (134604804, 525511215)%Z.
Lemma cross_off : offGrid (IZR 3000 / 10000000) (degreesOf crossA) /\ offGrid (IZR 3000 / 10000000) (degreesOf crossB).
Proof.
  split; intros m; unfold degreesOf, crossA, crossB; cbn [v2x v2y fst snd]; split; intros E.
  - assert (E' : IZR 134603196 = IZR (m * 3000)) by (rewrite mult_IZR; lra). apply eq_IZR in E'. lia.
  - assert (E' : IZR 525508785 = IZR (m * 3000)) by (rewrite mult_IZR; lra). apply eq_IZR in E'. lia.
  - assert (E' : IZR 134604804 = IZR (m * 3000)) by (rewrite mult_IZR; lra). apply eq_IZR in E'. lia.
  - assert (E' : IZR 525511215 = IZR (m * 3000)) by (rewrite mult_IZR; lra). apply eq_IZR in E'. lia.
Qed.
Lemma cross_spaced : spaced (1 / 1000000000) (IZR 3000 / 10000000) (degreesOf crossA) (degreesOf crossB).
Proof.
  assert (N : forall p, node (IZR 3000 / 10000000) (degreesOf crossA) (degreesOf crossB) p ->
    p = degreesOf crossA \/ p = degreesOf crossB \/ p = degreesOf (134604000, 525510000)%Z).
  { intros p [E|[E|((t & T & E) & m & C)]]; auto. right. right. destruct p as [x y]. unfold between, degreesOf in E. cbn [v2x v2y fst snd crossA crossB] in E. injection E as EX EY.
    unfold degreesOf in C. cbn [v2x v2y fst snd crossA crossB] in C. destruct C as [(_ & C)|(_ & C)].
    - assert (M : m = 44868%Z).
      { assert (M1 : 44867 < IZR m) by lra. assert (M2 : IZR m < 44869) by lra. apply lt_IZR in M1, M2. lia. }
      subst m. unfold degreesOf. cbn [fst snd]. f_equal; lra.
    - assert (M : m = 175170%Z).
      { assert (M1 : 175169 < IZR m) by lra. assert (M2 : IZR m < 175171) by lra. apply lt_IZR in M1, M2. lia. }
      subst m. unfold degreesOf. cbn [fst snd]. f_equal; lra. }
  intros p q P Q. destruct (N p P) as [->|[->| ->]], (N q Q) as [->|[->| ->]]; auto; unfold degreesOf, crossA, crossB; cbn [fst snd]; apart.
Qed.
Theorem C82_crossing_refuted : ~ forall srt k step a b fuel out, permutes srt -> nearestTo k step -> goodStep step -> goodCorner a -> goodCorner b ->
  offGrid (IZR k / 10000000) (degreesOf a) -> offGrid (IZR k / 10000000) (degreesOf b) ->
  spaced (1 / 1000000000) (IZR k / 10000000) (degreesOf a) (degreesOf b) ->
  doubleSplit srt step fuel a b [] = Some out -> distinct (1 / 1000000000000) (map spotOf out).
Proof.
  intros H. specialize (H insertionSort 3000%Z cell crossA crossB 100%nat (cellSplit crossA crossB) insertion_permutes cell_nearest cell_good).
  assert (D : distinct (1 / 1000000000000) (map spotOf (cellSplit crossA crossB))).
  { apply H; [unfold goodCorner; cbn; lia|unfold goodCorner; cbn; lia|apply cross_off|apply cross_off|apply cross_spaced|apply cell_split; vm_compute; reflexivity]. }
  rewrite shown_spots in D.
  replace (map shown (cellSplit crossA crossB)) with
    [(F754_finite false 7577486291855973 (-49), F754_finite false 7395878650956007 (-47));
     (F754_finite false 7577531553032225 (-49), F754_finite false 7395895750560841 (-47));
     (F754_finite false 7577531553032227 (-49), F754_finite false 7395895750560842 (-47));
     (F754_finite false 7577576814208483 (-49), F754_finite false 7395912850165677 (-47))] in D by (vm_compute; reflexivity).
  cbn [map] in D. specialize (D _ _ (or_intror (or_introl eq_refl)) (or_intror (or_intror (or_introl eq_refl)))).
  unfold spotShown in D. cbn [fst snd] in D. unfold near in D. cbn [v2x v2y] in D. unfold FF2R, F2R in D. cbn -[IZR] in D.
  assert (E := D ltac:(split; apply Rabs_def1; lra)). injection E as E1 E2. lra.
Qed.

(** A side and the side back, of the next polygon, get different points, so the triangles of two polygons do not meet. *)
Theorem C82_back_refuted : ~ forall srt k step a b fuel out out', permutes srt -> nearestTo k step -> goodStep step -> goodCorner a -> goodCorner b ->
  doubleSplit srt step fuel a b [] = Some out -> doubleSplit srt step fuel b a [] = Some out' -> out' = rev out.
Proof.
  intros H. set (a := (134001554, 525000516)%Z). set (b := (134001705, 525004562)%Z).
  assert (E : cellSplit b a = rev (cellSplit a b)).
  { apply (H insertionSort 3000%Z cell a b 100%nat _ _ insertion_permutes cell_nearest cell_good);
      [unfold goodCorner; cbn; lia|unfold goodCorner; cbn; lia|apply cell_split; vm_compute; reflexivity|apply cell_split; vm_compute; reflexivity]. }
  apply (f_equal (map shown)) in E. vm_compute in E. discriminate E.
Qed.

(** The first point need not be the first corner: a line got by rounding below a corner on it comes first. *)
Theorem C82_first_refuted : ~ forall srt k step a b fuel out, permutes srt -> nearestTo k step -> goodStep step -> goodCorner a -> goodCorner b ->
  doubleSplit srt step fuel a b [] = Some out -> exists rest, out = doubleCorner a :: rest.
Proof.
  intros H. set (a := (132036000, 525000123)%Z). set (b := (132037000, 525000123)%Z).
  destruct (H insertionSort 3000%Z cell a b 100%nat (cellSplit a b) insertion_permutes cell_nearest cell_good) as (r & E);
    [unfold goodCorner; cbn; lia|unfold goodCorner; cbn; lia|apply cell_split; vm_compute; reflexivity|].
  apply (f_equal (fun l => match l with [] => None | p :: _ => Some (shown p) end)) in E. vm_compute in E. discriminate E.
Qed.

(** A side going up may step back at its end. *)
Theorem C82_order_refuted : ~ forall srt k step a b fuel out, permutes srt -> nearestTo k step -> goodStep step -> goodCorner a -> goodCorner b ->
  (snd a < snd b)%Z -> doubleSplit srt step fuel a b [] = Some out -> StronglySorted (fun p q => v2y p <= v2y q) (map spotOf out).
Proof.
  intros H. set (a := (134282971, 525007889)%Z). set (b := (134283000, 525036000)%Z).
  assert (S : StronglySorted (fun p q => v2y p <= v2y q) (map spotOf (cellSplit a b))).
  { apply (H insertionSort 3000%Z cell a b 100%nat (cellSplit a b) insertion_permutes cell_nearest cell_good);
      [unfold goodCorner; cbn; lia|unfold goodCorner; cbn; lia|cbn; lia|apply cell_split; vm_compute; reflexivity]. }
  rewrite shown_spots in S.
  assert (E : exists front, map shown (cellSplit a b) = front ++
    [(F754_finite false 7559460859527403 (-49), F754_finite false 7389224793612800 (-47));
     (F754_finite false 7559460859527404 (-49), F754_finite false 7389224793612799 (-47))]).
  { exists (firstn 10 (map shown (cellSplit a b))). vm_compute. reflexivity. }
  destruct E as (front & E). rewrite E, map_app in S. clear - S. induction (map spotShown front) as [|f l IH].
  - cbn [app map] in S. inversion S as [|? ? _ F]. inversion F as [|? ? L _]. unfold spotShown in L. cbn [fst snd v2y] in L. unfold FF2R, F2R in L. cbn -[IZR] in L. lra.
  - cbn [app] in S. inversion S. auto.
Qed.

Print Assumptions C82_lines.
Print Assumptions C82_ends.
Print Assumptions C82_line.
Print Assumptions C82_corner.
Print Assumptions C82_end_refuted.
Print Assumptions C82_crossing_refuted.
Print Assumptions C82_back_refuted.
Print Assumptions C82_first_refuted.
Print Assumptions C82_order_refuted.

(** A side of Berlin over one line of the grid meets the hypotheses. *)
Example C82_case : goodStep cell /\ goodCorner (134001554, 525000516)%Z /\ goodCorner (134001705, 525004562)%Z /\
  length (cellSplit (134001554, 525000516)%Z (134001705, 525004562)%Z) = 3%nat /\
  goodNumber (v2x (doubleCorner (134001554, 525000516)%Z)) /\ goodNumber (v2x (doubleCorner (134010000, 525000516)%Z)) /\
  option_map (@length binary64) (gridLines doubleNums doubleGrids cell 100 (v2x (doubleCorner (134001554, 525000516)%Z)) (v2x (doubleCorner (134010000, 525000516)%Z))) = Some 3%nat /\
  drift 3 < 1 / 1000000000000 /\ permutes (@insertionSort (vec2 binary64)).
Proof.
  split; [apply cell_good|]. split; [unfold goodCorner; cbn; lia|]. split; [unfold goodCorner; cbn; lia|]. split; [vm_compute; reflexivity|].
  split; [apply corner_number; cbn; lia|]. split; [apply corner_number; cbn; lia|]. split; [vm_compute; reflexivity|]. split; [unfold drift; cbn -[IZR]; lra|]. apply insertion_permutes.
Qed.
