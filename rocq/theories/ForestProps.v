(** Theorems about forests: trees put on the triangles of a region of the terrain. *)
From Coq Require Import Reals Lra Lia.
From Verif Require Import Base GeoModel RingModel MeshBuildModel MeshBuildSpec QuatModel GenModel GenSpec LsysModel
  RowModel RowSpec TreeModel TreeSpec ForestProofs.
Local Open Scope R_scope.

(** A tree stands on the ground in the middle of the first triangle of the region and of every [f]th one after it; the
    trees are copies of one and are given to the callback in meshes of [c] trees, the last one with at least one. *)
Theorem C73_forest : forall env (m tree : bmesh R) q k center s frequency size f c, wellFormed m q -> (3 * Z.of_nat q < 2 ^ 31)%Z ->
  wellFormed tree k -> goodMap tree -> (3 * s <= length (btris m))%nat -> wholeOf frequency f -> (Z.of_nat f < 2 ^ 61)%Z ->
  wholeOf size c -> (Z.of_nat c < 2 ^ 31)%Z -> (2 * Z.of_nat (c * k) < 2 ^ 31)%Z ->
  exists pieces meshes, addForest realNums realTrig realGens env truncR m tree center (3 * s) frequency size = Ok meshes /\
    cutInto c (map centroid (every f (skipn s (drawnIn m)))) pieces /\
    Forall2 (fun piece mesh => wellFormed mesh (length piece * k) /\ goodMap mesh /\
      drawnIn mesh = flat_map (fun q => map (shiftTri (offsetTo (eElevation env) center q)) (drawnIn tree)) piece) pieces meshes.
Proof. exact forest_ok. Qed.
Print Assumptions C73_forest.

(** How many trees and meshes there are; it depends on the number of triangles only, not on their size. *)
Theorem C73_count : forall A f c (l : list A) pieces, (0 < f)%nat -> (0 < c)%nat -> cutInto c (every f l) pieces ->
  length (concat pieces) = ((length l + (f - 1)) / f)%nat /\ length pieces = ((length (concat pieces) + (c - 1)) / c)%nat.
Proof.
  intros A f c l pieces F C Cu. pose proof Cu as (E & _). split.
  - rewrite E, <- pick_every, pick_length by exact F. now rewrite Nat.sub_0_r.
  - rewrite E. now apply cut_count.
Qed.
Print Assumptions C73_count.
(** Nothing is given to the callback for a region without triangles. *)
Theorem C73_none : forall c (pieces : list (list (point R))), cutInto c [] pieces -> pieces = [].
Proof.
  intros c [|p pieces] (E & H); [reflexivity|]. destruct (H 0%nat p eq_refl) as (N & _). cbn in E. apply app_eq_nil in E as (E & _). contradiction.
Qed.
Print Assumptions C73_none.

(** The middle of a triangle is inside of it, at a third of the distance of the opposite corner from each side. *)
Theorem C73_inside : forall a b c : vec3 R, let area := leftSide a b (mkPoint (v3z c) (v3x c)) in let o := centroid (a, b, c) in
  leftSide a b o = area / 3 /\ leftSide b c o = area / 3 /\ leftSide c a o = area / 3.
Proof. intros [a1 a2 a3] [b1 b2 b3] [c1 c2 c3]. unfold leftSide, centroid. cbn [v3x v3y v3z plat plon]. repeat split; field. Qed.
Print Assumptions C73_inside.

(** The trees do not follow the height of the region, which may have an offset and noise: only longitudes and latitudes of
    its vertices are read. *)
Theorem C73_height_refuted : forall T (n : nums T) k g env trunc (m m' tree : bmesh T) center start frequency size,
  btris m' = btris m ->
  (forall i, nth_error (bverts m') (3 * i) = nth_error (bverts m) (3 * i)) ->
  (forall i, nth_error (bverts m') (3 * i + 1) = nth_error (bverts m) (3 * i + 1)) ->
  addForest n k g env trunc m' tree center start frequency size = addForest n k g env trunc m tree center start frequency size.
Proof.
  intros T n k g env trunc m m' tree center start frequency size Et E0 E1. unfold addForest. rewrite Et.
  destruct (treeStep n k trunc frequency) as [step| |]; [cbn [bind]|reflexivity|reflexivity].
  destruct (castInt _) as [chunk| |]; [cbn [bind]|reflexivity|reflexivity].
  assert (Off : forall x y z, treeOffset n g env m' center x y z = treeOffset n g env m center x y z).
  { assert (V0 : forall i, vertexNumber m' i 0 = vertexNumber m i 0) by (intros i; unfold vertexNumber; now rewrite Nat.add_0_r, E0).
    assert (V1 : forall i, vertexNumber m' i 1 = vertexNumber m i 1) by (intros i; unfold vertexNumber; now rewrite E1).
    intros x y z. unfold treeOffset, centroidPart. now rewrite !V0, !V1. }
  generalize 0%nat as skip. generalize (@emptyMesh T) as forest. generalize 0%Z as count.
  induction (skipn start (btris m)) as [|x l IH]; intros count forest skip; [reflexivity|]. cbn [forestLoop]. destruct skip as [|skip].
  - destruct l as [|y [|z l]]; [reflexivity|reflexivity|]. rewrite Off. destruct (treeOffset n g env m center x y z); [cbn [bind]|reflexivity|reflexivity].
    destruct (copyMesh n _ tree forest); [cbn [bind]|reflexivity|reflexivity]. now rewrite !IH.
  - apply IH.
Qed.
Print Assumptions C73_height_refuted.

(** Three triangles, a tree in the first and the last one, a mesh for each. *)
Definition exRegion : bmesh R := mkBMesh [0; 0; 5; 3; 0; 5; 0; 3; 5; 3; 3; 5; 6; 6; 5] [0; 1; 2; 1; 3; 2; 3; 4; 2]%Z [1; 1; 1; 1; 1]%Z
  [0; 0; 0; 0; 0; 0; 0; 0; 0; 0] [].
Definition exTree : bmesh R := mkBMesh [0; 0; 0; 1; 0; 0; 0; 0; 1] [0; 1; 2]%Z [7; 7; 7]%Z [0; 0; 1; 0; 1; 1] [].
Example C73_case : forall env, exists a b,
  addForest realNums realTrig realGens env truncR exRegion exTree (mkPoint 0 0) 0 2 (1 / 2) = Ok [a; b] /\
  drawnIn a = map (shiftTri (mkV3 (1 - 0) (eElevation env 1 1) (1 - 0))) (drawnIn exTree) /\
  drawnIn b = map (shiftTri (mkV3 (3 - 0) (eElevation env 4 3) (4 - 0))) (drawnIn exTree).
Proof.
  intros env. destruct (C73_forest env exRegion exTree 5 3 (mkPoint 0 0) 0 2 (1 / 2) 2 1) as (pieces & meshes & E & Cu & F).
  - split; [repeat split|]. split; [reflexivity|]. repeat constructor; lia.
  - reflexivity.
  - split; [repeat split|]. split; [reflexivity|]. repeat constructor; lia.
  - split; [reflexivity|]. cbn. lia.
  - cbn. lia.
  - split; [lia|]. right. cbn. lra.
  - reflexivity.
  - split; [lia|]. left. split; [lra|reflexivity].
  - reflexivity.
  - reflexivity.
  - assert (Sp : map centroid (every 2 (skipn 0 (drawnIn exRegion))) = [mkPoint 1 1; mkPoint 4 3]).
    { change (map centroid (every 2 (skipn 0 (drawnIn exRegion)))) with
        [centroid (mkV3 0 5 0, mkV3 3 5 0, mkV3 0 5 3); centroid (mkV3 3 5 3, mkV3 6 5 6, mkV3 0 5 3)].
      unfold centroid. cbn [v3x v3z]. f_equal; [f_equal; field|]. f_equal. f_equal; field. }
    rewrite Sp in Cu. destruct Cu as (Cc & Cl).
    assert (Ps : pieces = [[mkPoint 1 1]; [mkPoint 4 3]]).
    { destruct pieces as [|p1 pieces]; [discriminate|]. destruct (Cl 0%nat p1 eq_refl) as (N1 & L1 & _).
      destruct p1 as [|x [|y p1]]; [contradiction| |cbn in L1; lia]. cbn in Cc. injection Cc as -> Cc.
      destruct pieces as [|p2 pieces]; [discriminate|]. destruct (Cl 1%nat p2 eq_refl) as (N2 & L2 & _).
      destruct p2 as [|x [|y p2]]; [contradiction| |cbn in L2; lia]. cbn in Cc. injection Cc as -> Cc.
      destruct pieces as [|p3 pieces]; [reflexivity|]. destruct (Cl 2%nat p3 eq_refl) as (N3 & _). cbn in Cc. apply app_eq_nil in Cc as (Cc & _). contradiction. }
    subst pieces. assert (Lm : length meshes = 2%nat) by (clear -F; inversion_clear F as [|? ? ? ? _ F1]; inversion_clear F1 as [|? ? ? ? _ F2]; inversion_clear F2; reflexivity). destruct meshes as [|a [|b [|d meshes]]]; try discriminate Lm.
    inversion_clear F as [|? ? ? ? (_ & _ & Da) F1]. inversion_clear F1 as [|? ? ? ? (_ & _ & Db) _].
    exists a, b. split; [exact E|]. cbn [flat_map app] in Da, Db. rewrite app_nil_r in Da, Db. split; [exact Da|exact Db].
Qed.
