(** C75: walls around raised regions. *)
From Coq Require Import Reals Lra Lia.
From Verif Require Import Base RingModel MeshBuildModel MeshBuildSpec MeshBuildProofs QuatModel GenSpec RowModel RowSpec RowProofs
  NoiseModel NoiseProps BorderModel BorderSpec BorderProofs.
Local Open Scope R_scope.

Notation raise env t := (buildHeightOffset realNums env realTol (realRect t)).
Notation onBorder t := (isOnBorder realNums realTol (realRect t)).

(** ** A point counts as on the border exactly if it is near one of the four lines; how near depends on the size of the tile. *)
Theorem C75_border t p : properTile t -> onBorder t p = true <-> nearLines realTol t p.
Proof. apply border_iff. Qed.
Print Assumptions C75_border.

(** ** What is in the mesh is kept; every side of the contour but those with both ends on the border gets a wall from the ground,
    in order and as high as the offset. *)
Theorem C75_walls env t points geo look m k keep : quiet env -> properTile t -> wellFormed m k -> goodMap m ->
  (2 * Z.of_nat (k + 6 * length points) < 2 ^ 31)%Z ->
  (forall p q, keep (p, q) = false <-> nearLines realTol t p /\ nearLines realTol t q) ->
  exists m', raise env t points geo look m = Ok m' /\ goodMap m' /\
    wellFormed m' (k + 6 * length (filter keep (ringSides points))) /\
    drawnIn m' = drawnIn m ++ flat_map (wall (groundAt env geo) (gheight geo)) (filter keep (ringSides points)).
Proof.
  intros Q P W G L K. destruct (build_drawn env t points geo look m k realTol Q W G L) as (m' & E & A & B & C).
  assert (F : filter (keeps realNums realTol (realRect t)) (ringSides points) = filter keep (ringSides points)).
  { apply filter_ext. intros (p, q). unfold keeps. cbn [fst snd]. pose proof (K p q) as Kp. rewrite <- !(border_iff realTol t _ P), <- Bool.andb_true_iff in Kp.
    destruct (keep (p, q)), (isOnBorder realNums realTol (realRect t) p && isOnBorder realNums realTol (realRect t) q); cbn [negb]; try reflexivity; exfalso.
    - destruct Kp as (_ & Kp). now discriminate Kp.
    - destruct Kp as (Kp & _). now discriminate Kp. }
  rewrite F in *. exists m'. auto.
Qed.
Print Assumptions C75_walls.

(** ** Walls of a region above the ground are seen from the right of the contour, of one below the ground from the left. *)
Theorem C75_outside ground h p q m :
  (0 < h -> leftOf p q m -> Forall (outward m) (wall ground h (p, q))) /\
  (h < 0 -> leftOf q p m -> Forall (outward m) (wall ground h (p, q))).
Proof.
  unfold leftOf, wall. split; intros H L; repeat constructor; unfold outward, det3, vsub; cbn [v3x v3y v3z].
  1, 2: set (c := (v2x q - v2x p) * (v3z m - v2y p) - (v2y q - v2y p) * (v3x m - v2x p)) in *;
    pose proof (Rmult_lt_0_compat _ _ H L) as X; subst c.
  3, 4: set (c := (v2x p - v2x q) * (v3z m - v2y q) - (v2y p - v2y q) * (v3x m - v2x q)) in *;
    pose proof (Rmult_lt_0_compat (- h) _ ltac:(lra) L) as X; subst c.
  all: eapply Rlt_le_trans; [exact X|right; ring].
Qed.
Print Assumptions C75_outside.

(** ** The upper ends of a wall are the places where the surface of the region has its border, whatever its noise. *)
Theorem C75_meet env geo look io i p s : match tmarkers io with None => True | Some l => nth i l 1%Z = 1%Z end ->
  (fst s = p -> exists a b rest, wall (groundAt env geo) (gheight geo) s = [rest; (spot (triCorner realNums env geo look io i (v2x p, v2y p)), a, b)]) /\
  (snd s = p -> exists a b c d, wall (groundAt env geo) (gheight geo) s =
     [(a, spot (triCorner realNums env geo look io i (v2x p, v2y p)), b); (c, spot (triCorner realNums env geo look io i (v2x p, v2y p)), d)]).
Proof.
  intros M. assert (E : spot (triCorner realNums env geo look io i (v2x p, v2y p)) = mkV3 (v2x p) (groundAt env geo p + gheight geo) (v2y p)).
  { unfold triCorner, spot. cbn [cpos]. assert (N : match tmarkers io with None => false | Some l => negb (nth i l 1 =? 1)%Z end = false).
    { destruct (tmarkers io); [rewrite M; reflexivity|reflexivity]. }
    rewrite N. unfold ground, groundAt. cbn [realNums nadd nlt]. destruct (Rlt_dec (eLowest env) (gele geo)); f_equal; ring. }
  rewrite !E. destruct s as (a, b). cbn [fst snd]. split; intros ->; [do 3 eexists|do 4 eexists]; reflexivity.
Qed.
Print Assumptions C75_meet.

(** ** A side which cuts off a corner of the tile gets no wall though it is inside of the tile. *)
Theorem C75_corner_refuted t x y : properTile t -> tWest t < x < tEast t -> tSouth t < y < tNorth t ->
  let p := mkV2 (tWest t) y in let q := mkV2 x (tNorth t) in
  strictlyIn t (halfway p q) /\
  forall env geo look m corner, onBorder t corner = true -> raise env t [p; q; corner] geo look m = Ok m.
Proof.
  intros P X Y p q. split; [unfold strictlyIn, halfway, p, q; cbn [v2x v2y]; lra|]. intros env geo look m c C.
  assert (Tp : 0 < realTol) by (unfold realTol; apply Rinv_0_lt_compat; lra).
  assert (A : onBorder t p = true) by (apply C75_border; [exact P|]; left; unfold p; cbn [v2x]; rewrite Rminus_diag_eq, Rabs_R0, Rmult_0_l by reflexivity; exact Tp).
  assert (B : onBorder t q = true) by (apply C75_border; [exact P|]; do 3 right; unfold q; cbn [v2y]; rewrite Rminus_diag_eq, Rabs_R0, Rmult_0_l by reflexivity; exact Tp).
  rewrite build_run. unfold wallOps, ringSides, keeps. cbn [combine app filter fst snd]. rewrite A, B, C. reflexivity.
Qed.
Print Assumptions C75_corner_refuted.

(** ** Sides near the border get no wall though they are inside: in a tile of a two hundredth of a degree up to two millionths. *)
Theorem C75_near_refuted t d y y' : properTile t -> 0 < d -> d * tileHigh t < realTol -> d < tileWide t -> tSouth t < y < tNorth t -> tSouth t < y' < tNorth t ->
  strictlyIn t (mkV2 (tWest t + d) y) /\ strictlyIn t (mkV2 (tWest t + d) y') /\
  forall env geo look m, raise env t [mkV2 (tWest t + d) y; mkV2 (tWest t + d) y'] geo look m = Ok m.
Proof.
  intros P D H W Y Y'. unfold strictlyIn, tileWide in *. cbn [v2x v2y]. repeat split; try lra. intros env geo look m.
  assert (A : forall z, onBorder t (mkV2 (tWest t + d) z) = true).
  { intros z. apply C75_border; [exact P|]. left. cbn [v2x]. replace (tWest t + d - tWest t) with d by ring. now rewrite Rabs_pos_eq by lra. }
  rewrite build_run. unfold wallOps, ringSides, keeps. cbn [combine app filter fst snd]. rewrite !A. reflexivity.
Qed.
Print Assumptions C75_near_refuted.

(** ** Sides on the border as rounded to 1E-7 degrees get walls in large tiles: the tile from (0, 5E-8) to (1, 1) is rounded to
    (0, 0), and a side along its southern border has a wall. *)
Theorem C75_rounded_refuted : exists t p q, properTile t /\ tWest t < v2x p < tEast t /\ tWest t < v2x q < tEast t /\
  Rabs (v2y p - tSouth t) <= / 10 ^ 7 /\ Rabs (v2y q - tSouth t) <= / 10 ^ 7 /\
  (exists i j : Z, v2y p = IZR i / 10 ^ 7 /\ v2y q = IZR j / 10 ^ 7) /\
  forall env geo look, quiet env -> exists m, raise env t [p; q] geo look emptyMesh = Ok m /\
    drawnIn m = wall (groundAt env geo) (gheight geo) (p, q) ++ wall (groundAt env geo) (gheight geo) (q, p).
Proof.
  exists (mkTile 0 (/ 20000000) 1 1), (mkV2 (/ 4) 0), (mkV2 (/ 2) 0).
  assert (P : properTile (mkTile 0 (/ 20000000) 1 1)) by (unfold properTile; cbn; lra).
  split; [exact P|]. cbn [v2x v2y tWest tEast tSouth].
  assert (A : Rabs (0 - / 20000000) = / 20000000) by (rewrite Rabs_left; lra). rewrite A.
  repeat split; try lra; [exists 0%Z, 0%Z; lra|]. intros env geo look Q.
  assert (N : forall x, x = / 4 \/ x = / 2 -> onBorder (mkTile 0 (/ 20000000) 1 1) (mkV2 x 0) = false).
  { intros x X. apply Bool.not_true_is_false. intros N. apply C75_border in N; [|exact P].
    unfold nearLines, tileHigh, tileWide, realTol in N. cbn [v2x v2y tWest tEast tSouth tNorth] in N. rewrite A in N.
    rewrite (Rabs_pos_eq (x - 0)), (Rabs_left (x - 1)), (Rabs_left (0 - 1)) in N by (destruct X; lra). destruct X; subst x; lra. }
  destruct empty_wf as (W & G).
  destruct (build_drawn env (mkTile 0 (/ 20000000) 1 1) [mkV2 (/ 4) 0; mkV2 (/ 2) 0] geo look emptyMesh 0 realTol Q W G) as (m & E & _ & _ & D); [cbn; lia|].
  exists m. split; [exact E|]. rewrite D. unfold ringSides, keeps. cbn [combine app filter fst snd]. rewrite !N by tauto. cbn [andb negb flat_map]. now rewrite app_nil_r.
Qed.
Print Assumptions C75_rounded_refuted.

(** ** A restored contour ends with its first point (C64), so if that is not on the border the last wall has no width. *)
Theorem C75_width_refuted env t p l geo look m k : quiet env -> wellFormed m k -> goodMap m ->
  (2 * Z.of_nat (k + 6 * (2 + length l)) < 2 ^ 31)%Z -> onBorder t p = false ->
  exists m' before, raise env t (p :: l ++ [p]) geo look m = Ok m' /\
    drawnIn m' = before ++ wall (groundAt env geo) (gheight geo) (p, p).
Proof.
  intros Q W G L N.
  destruct (build_drawn env t (p :: l ++ [p]) geo look m k realTol Q W G) as (m' & E & _ & _ & D); [cbn [length]; rewrite app_length; cbn [length]; lia|].
  assert (S : ringSides (p :: l ++ [p]) = combine (p :: l) (l ++ [p]) ++ [(p, p)]).
  { cbn [ringSides]. change (p :: l ++ [p]) with ((p :: l) ++ [p]).
    assert (Eq : length (p :: l) = length (l ++ [p])) by (rewrite app_length; cbn; lia). revert Eq. generalize (p :: l) (l ++ [p]).
    induction l0 as [|a l0 IH]; intros [|b l1] Eq; try discriminate; [reflexivity|]. cbn [app combine]. now rewrite IH by (cbn in Eq; lia). }
  rewrite S, filter_app in D. unfold keeps at 2 in D. cbn [filter fst snd] in D. rewrite N in D. cbn [andb negb] in D. rewrite flat_map_app in D. cbn [flat_map] in D.
  rewrite app_nil_r, app_assoc in D. exists m'. eexists. split; [exact E|exact D].
Qed.
Print Assumptions C75_width_refuted.

(** Cases: a square in the middle of a tile, with the noise of the code. *)
Lemma wallEnv_quiet : quiet wallEnv.
Proof. intros x y. cbn [wallEnv ePerlin]. rewrite (proj1 (proj2 (C74_defined x y 0))) by (unfold realTiny; lra). reflexivity. Qed.
(** A contour and a tile. *)
Definition square : list (vec2 R) := [mkV2 1 1; mkV2 2 1; mkV2 2 2; mkV2 1 2].
Definition squareTile : tileBox := mkTile 0 0 3 3.
Example C75_square : exists m, raise wallEnv squareTile square wallGeo wallLook emptyMesh = Ok m /\ length (drawnIn m) = 8%nat /\
  Forall (outward (mkV3 (3 / 2) 1 (3 / 2))) (drawnIn m).
Proof.
  destruct empty_wf as (W & G).
  destruct (build_drawn wallEnv squareTile square wallGeo wallLook emptyMesh 0 realTol wallEnv_quiet W G) as (m & E & _ & _ & D); [cbn; lia|].
  assert (N : forall p, In p square -> onBorder squareTile p = false).
  { intros p I. apply Bool.not_true_is_false. intros N. apply C75_border in N; [|unfold properTile, squareTile; cbn; lra].
    unfold nearLines, tileHigh, tileWide, squareTile, realTol in N. cbn [tWest tEast tSouth tNorth] in N.
    destruct I as [<-|[<-|[<-|[<-|[]]]]]; cbn [v2x v2y] in N; rewrite !(Rabs_left (_ - 3)), !Rabs_pos_eq in N by lra; lra. }
  exists m. split; [exact E|]. rewrite D. unfold square, ringSides, keeps. cbn [combine app filter fst snd].
  rewrite !N by (unfold square; cbn; tauto). cbn [andb negb flat_map app wall length]. split; [reflexivity|].
  assert (O : forall p q, In (p, q) (ringSides square) -> Forall (outward (mkV3 (3 / 2) 1 (3 / 2))) (wall (groundAt wallEnv wallGeo) (gheight wallGeo) (p, q))).
  { intros p q I. apply (proj1 (C75_outside _ _ _ _ _)); [cbn; lra|]. unfold leftOf. cbn in I. destruct I as [I|[I|[I|[I|[]]]]]; injection I as <- <-; cbn [v2x v2y v3x v3z]; lra. }
  assert (All : Forall (outward (mkV3 (3 / 2) 1 (3 / 2))) (flat_map (wall (groundAt wallEnv wallGeo) (gheight wallGeo)) (ringSides square))).
  { apply Forall_flat_map, Forall_forall. intros (p, q) I. now apply O. }
  exact All.
Qed.
