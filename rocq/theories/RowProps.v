(** Theorems about things put along ways: trees, lamps, pillars and walls (exact real arithmetic, any distance and
    elevation). *)
From Coq Require Import Reals Lra Lia.
From Verif Require Import Base GeoModel RingModel MeshBuildModel MeshBuildSpec QuatModel QuatSpec GenModel GenSpec GenCylinderProofs
  GenProps RowModel RowSpec RowProofs.
Local Open Scope R_scope.

Section Along.
  Context (dist : point R -> point R -> R) (ele : R -> R -> R) (env : builderEnv R).
  Local Notation w := (realRows dist ele).

  (** Trees along a way: every side has as many as there are whole steps in it, evenly distributed from its first
      point on, each a copy of the tree standing on the ground of its place. *)
  Theorem C66_trees : forall center tree k step cnt l, l <> [] -> 0 < step -> wellFormed tree k -> goodMap tree ->
    counted dist step cnt l -> (2 * Z.of_nat (length (rowsOf cnt l) * k) < 2 ^ 31)%Z ->
    exists m, treeWay realNums realGens env w center tree step l = Ok m /\
      wellFormed m (length (rowsOf cnt l) * k) /\ goodMap m /\
      drawnIn m = flat_map (fun q => map (shiftTri (offsetTo ele center q)) (drawnIn tree)) (rowsOf cnt l).
  Proof. intros. now apply tree_ok. Qed.

  (** Lamps of a way which is wide: on both sides of it in turn, without the first and the last part of each side.  The
      mesh is given to the callback if there is something in it. *)
  Theorem C66_lamps : forall center lamp k width step cnt l, l <> [] -> 0 < step -> 0 < width -> wellFormed lamp k -> goodMap lamp ->
    counted dist step cnt l -> (forall p q, In (p, q) (sidesOf l) -> cnt p q <> 0%nat -> / 2 ^ 52 < span p q) ->
    (2 * Z.of_nat (length (lampRows width cnt l) * k) < 2 ^ 31)%Z ->
    exists m, lampWay realNums realTrig realGens env w center lamp width step l =
        Ok (if (length (lampRows width cnt l) * k =? 0)%nat then None else Some m) /\
      wellFormed m (length (lampRows width cnt l) * k) /\
      drawnIn m = flat_map (fun q => map (shiftTri (offsetTo ele center q)) (drawnIn lamp)) (lampRows width cnt l).
  Proof.
    intros center lamp k width step cnt l NE St Wd W G C D L. apply lamps_ok; try assumption.
    rewrite (over_sides _ (fun p q => map (copyOp realNums w center lamp) (lampsOf width p q (cnt p q)))).
    - f_equal. unfold lampRows. rewrite flat_map_map. apply flat_map_ext. intros [p q]. reflexivity.
    - intros p q I. destruct (C p q I) as (A & B). apply lamp_side; try assumption. apply D, I.
  Qed.
  (** Lamps of a way without width are put as trees are. *)
  Theorem C66_lamps_narrow : forall center lamp k width step cnt l, l <> [] -> 0 < step -> width <= 0 -> wellFormed lamp k -> goodMap lamp ->
    counted dist step cnt l -> (2 * Z.of_nat (length (rowsOf cnt l) * k) < 2 ^ 31)%Z ->
    exists m, lampWay realNums realTrig realGens env w center lamp width step l =
        Ok (if (length (rowsOf cnt l) * k =? 0)%nat then None else Some m) /\
      wellFormed m (length (rowsOf cnt l) * k) /\
      drawnIn m = flat_map (fun q => map (shiftTri (offsetTo ele center q)) (drawnIn lamp)) (rowsOf cnt l).
  Proof.
    intros center lamp k width step cnt l NE St Wd W G C L. apply lamps_ok; try assumption.
    rewrite (over_sides _ (fun p q => map (copyOp realNums w center lamp) (rowOf p q (cnt p q)))).
    - f_equal. unfold rowsOf. rewrite flat_map_map. apply flat_map_ext. intros [p q]. reflexivity.
    - intros p q I. destruct (C p q I) as (A & B). now apply lamp_side_thin.
  Qed.

  (** The places of a side are between one and two steps apart, and so is the last one from the end of the side; the
      first one is the start. *)
  Theorem C66_spacing : forall p q step c, 0 < step -> wholeSteps (dist p q) step c -> evenly dist p q ->
    length (rowOf p q c) = c /\ ((0 < c)%nat -> nth 0 (rowOf p q c) q = p) /\
    forall i, (i < c)%nat ->
      step <= dist (nth i (rowOf p q c) q) (nth (i + 1) (rowOf p q c) q) < 2 * step.
  Proof.
    intros p q step c St (A & B) Ev.
    assert (Len : length (rowOf p q c) = c) by (unfold rowOf; now rewrite map_length, seq_length).
    assert (Nth : forall i, (i <= c)%nat -> (0 < c)%nat -> nth i (rowOf p q c) q = along p q (INR i / INR c)).
    { intros i I P. assert (0 < INR c) by now apply lt_0_INR. destruct (Nat.eq_dec i c) as [->|N].
      - rewrite nth_overflow by lia. replace (INR c / INR c) with 1 by (field; lra). now rewrite along_end.
      - unfold rowOf. rewrite (nth_indep _ q (along p q (INR 0 / INR c))) by (rewrite map_length, seq_length; lia).
        rewrite (map_nth (fun i => along p q (INR i / INR c))), seq_nth by lia. reflexivity. }
    split; [exact Len|]. split.
    - intros P. rewrite Nth by lia. replace (INR 0 / INR c) with 0 by (unfold Rdiv; cbn [INR]; ring). apply along_start.
    - intros i I. assert (P : 0 < INR c) by (apply lt_0_INR; lia). rewrite !Nth by lia.
      assert (Fr : forall j, (j <= c)%nat -> 0 <= INR j / INR c <= 1).
      { intros j J. apply le_INR in J. pose proof (pos_INR j). split.
        - apply Rmult_le_pos; [assumption|]. apply Rlt_le, Rinv_0_lt_compat, P.
        - apply Rmult_le_reg_r with (INR c); [exact P|]. unfold Rdiv. rewrite Rmult_assoc, Rinv_l by lra. lra. }
      rewrite Ev by (apply Fr; lia). replace (INR i / INR c - INR (i + 1) / INR c) with (- (1 / INR c)) by (rewrite plus_INR; cbn [INR]; field; lra).
      rewrite Rabs_Ropp, Rabs_pos_eq by (apply Rmult_le_pos; [lra|]; apply Rlt_le, Rinv_0_lt_compat, P).
      replace (1 / INR c * dist p q) with (dist p q / INR c) by (field; lra).
      assert (C1 : 1 <= INR c) by (change 1 with (INR 1); apply le_INR; lia). split.
      + apply Rmult_le_reg_r with (INR c); [exact P|]. unfold Rdiv. rewrite Rmult_assoc, Rinv_l by lra. lra.
      + apply Rmult_lt_reg_r with (INR c); [exact P|]. unfold Rdiv. rewrite Rmult_assoc, Rinv_l by lra. nra.
  Qed.

  (** Sides are not joined: a way has no tree at all, however long it is, if each of its sides is shorter than the step. *)
  Theorem C66_short_refuted : forall center tree k step l, l <> [] -> 0 < step -> wellFormed tree k -> goodMap tree ->
    (forall p q, In (p, q) (sidesOf l) -> 0 <= dist p q < step) ->
    exists m, treeWay realNums realGens env w center tree step l = Ok m /\ drawnIn m = [] /\ corners m = [].
  Proof.
    intros center tree k step l NE St W G Sh.
    assert (Z0 : rowsOf (fun _ _ => 0%nat) l = []) by (unfold rowsOf; clear; induction (sidesOf l) as [|[p q] s IH]; [reflexivity|exact IH]).
    destruct (tree_ok dist ele env center tree k step (fun _ _ => 0%nat) l NE St W G) as (m & E & Wm & _ & D).
    - intros p q I. destruct (Sh p q I). split; [|reflexivity]. unfold wholeSteps. cbn [INR]. lra.
    - rewrite Z0. reflexivity.
    - exists m. rewrite Z0 in *. split; [exact E|]. split; [exact D|]. destruct Wm as (Sz & _).
      pose proof (MeshBuildProofs.corners_length _ _ Sz) as N. now destruct (corners m).
  Qed.
  (** A way without coordinates is read beyond its end. *)
  Theorem C66_empty_refuted : forall center src width step,
    treeWay realNums realGens env w center src step [] = UB /\
    lampWay realNums realTrig realGens env w center src width step [] = UB.
  Proof. split; reflexivity. Qed.
  (** Without a step, the value when the style has none, the number of copies is undefined. *)
  Theorem C66_step_refuted : forall center src width p q l,
    treeWay realNums realGens env w center src 0 (p :: q :: l) = UB /\
    lampWay realNums realTrig realGens env w center src width 0 (p :: q :: l) = UB /\
    forall st src, bStep st = 0 -> pillarMesh realNums realTrig realGens env w st p = Ok src ->
      buildPillar realNums realTrig realGens env w st (p :: q :: l) = UB.
  Proof.
    intros center src width p q l.
    assert (A : forall o s, copyMeshAlong realNums realGens w o s 0 p q = UB).
    { intros o s. unfold copyMeshAlong, copyPlaces. cbn [realRows wDist]. now rewrite count_zero. }
    split; [|split].
    - unfold treeWay. now rewrite over_ub by apply A.
    - unfold lampWay. rewrite over_ub; [reflexivity|]. unfold lampSide. cbn [realRows wDist]. now rewrite count_zero.
    - intros st s Z0 E. unfold buildPillar. rewrite E. cbn [bind]. rewrite Z0. now rewrite over_ub by apply A.
  Qed.

  (** Walls: every side is cut into as many parts as there are whole lengths with gap in it, but at least one; from each
      part the box of its beginning is built. *)
  Theorem C66_wall : forall st l cnt, bPillar st = false -> l <> [] -> 0 < bLength st + bGap st ->
    counted dist (bLength st + bGap st) cnt l ->
    let pieces := wallOf (bLength st / (bLength st + bGap st)) cnt l in
    (forall a b, In (a, b) pieces -> / 2 ^ 52 < span a b) ->
    (2 * Z.of_nat (length pieces * 30) < 2 ^ 31)%Z ->
    exists m, buildBarrier realNums realTrig realGens env w st l = Ok [m] /\ wellFormed m (length pieces * 30) /\
      drawnIn m = flat_map (wallBox ele (bWidth st) (bHeight st)) pieces.
  Proof. intros st l cnt P NE St H pieces D L. unfold buildBarrier. rewrite P. now apply wall_ok. Qed.

  (** The pieces of a side with at least one whole length with gap are from one to two times as long as required, and so
      are the gaps. *)
  Theorem C66_parts : forall p q len gap c, 0 < len -> 0 <= gap -> wholeSteps (dist p q) (len + gap) c -> (0 < c)%nat -> evenly dist p q ->
    forall i, (i < c)%nat -> exists a b, nth_error (piecesOf (len / (len + gap)) p q c) i = Some (a, b) /\
      len <= dist a b < 2 * len /\
      (0 < gap -> gap <= dist b (along p q (INR (i + 1) / INR c)) < 2 * gap).
  Proof.
    intros p q len gap c Hl Hg (A & B) C Ev i I. assert (P : 0 < INR c) by now apply lt_0_INR.
    assert (C1 : 1 <= INR c) by (change 1 with (INR 1); apply le_INR; lia).
    assert (R1 : 0 < len / (len + gap) <= 1).
    { split; [apply Rmult_lt_0_compat; [lra|apply Rinv_0_lt_compat; lra]|].
      apply Rmult_le_reg_r with (len + gap); [lra|]. unfold Rdiv. rewrite Rmult_assoc, Rinv_l by lra. lra. }
    set (r := len / (len + gap)) in *.
    assert (I1 : 0 <= INR i) by apply pos_INR. assert (I2 : INR i + 1 <= INR c) by (rewrite <- S_INR; apply le_INR; lia).
    assert (Fr : forall x, 0 <= x <= INR c -> 0 <= x / INR c <= 1).
    { intros x X. split.
      - apply Rmult_le_pos; [lra|]. apply Rlt_le, Rinv_0_lt_compat, P.
      - apply Rmult_le_reg_r with (INR c); [exact P|]. unfold Rdiv. rewrite Rmult_assoc, Rinv_l by lra. lra. }
    exists (along p q (INR i / INR c)), (along p q ((INR i + r) / INR c)). split; [|split].
    - unfold piecesOf. rewrite nth_error_map.
      assert (E : nth_error (seq 0 c) i = Some i).
      { rewrite (nth_error_nth' (seq 0 c) 0%nat) by (rewrite seq_length; lia). now rewrite seq_nth by lia. }
      now rewrite E.
    - rewrite Ev by (apply Fr; lra). replace (INR i / INR c - (INR i + r) / INR c) with (- (r / INR c)) by (field; lra).
      rewrite Rabs_Ropp, Rabs_pos_eq by (apply Rmult_le_pos; [lra|]; apply Rlt_le, Rinv_0_lt_compat, P).
      replace (r / INR c * dist p q) with (dist p q * len / ((len + gap) * INR c)) by (unfold r; field; lra).
      assert (Q : 0 < (len + gap) * INR c) by (apply Rmult_lt_0_compat; lra). split.
      + apply Rmult_le_reg_r with ((len + gap) * INR c); [exact Q|]. unfold Rdiv. rewrite Rmult_assoc, Rinv_l by lra. nra.
      + apply Rmult_lt_reg_r with ((len + gap) * INR c); [exact Q|]. unfold Rdiv. rewrite Rmult_assoc, Rinv_l by lra.
        assert (dist p q < 2 * ((len + gap) * INR c)) by nra. nra.
    - intros G. rewrite Ev; [|apply Fr; lra|apply Fr; rewrite plus_INR; cbn [INR]; lra].
      replace ((INR i + r) / INR c - INR (i + 1) / INR c) with (- ((1 - r) / INR c)) by (rewrite plus_INR; cbn [INR]; field; lra).
      rewrite Rabs_Ropp, Rabs_pos_eq by (apply Rmult_le_pos; [lra|]; apply Rlt_le, Rinv_0_lt_compat, P).
      replace ((1 - r) / INR c * dist p q) with (dist p q * gap / ((len + gap) * INR c)) by (unfold r; field; lra).
      assert (Q : 0 < (len + gap) * INR c) by (apply Rmult_lt_0_compat; lra). split.
      + apply Rmult_le_reg_r with ((len + gap) * INR c); [exact Q|]. unfold Rdiv. rewrite Rmult_assoc, Rinv_l by lra. nra.
      + apply Rmult_lt_reg_r with ((len + gap) * INR c); [exact Q|]. unfold Rdiv. rewrite Rmult_assoc, Rinv_l by lra.
        assert (dist p q < 2 * ((len + gap) * INR c)) by nra. nra.
  Qed.
End Along.
Print Assumptions C66_trees.
Print Assumptions C66_lamps.
Print Assumptions C66_lamps_narrow.
Print Assumptions C66_spacing.
Print Assumptions C66_short_refuted.
Print Assumptions C66_empty_refuted.
Print Assumptions C66_step_refuted.
Print Assumptions C66_wall.
Print Assumptions C66_parts.

(** Without a gap every point of every side is in a piece; the end of a piece is the start of the next one. *)
Theorem C66_covered : forall cnt l p q t, In (p, q) (sidesOf l) -> 0 <= t <= 1 ->
  exists a b, In (a, b) (wallOf 1 cnt l) /\ between a b (along p q t).
Proof.
  intros cnt l p q t I T. set (c := Nat.max 1 (cnt p q)). assert (C : (1 <= c)%nat) by (unfold c; lia).
  assert (P : 0 < INR c) by (apply lt_0_INR; lia).
  assert (N : exists i, (i < c)%nat /\ INR i <= t * INR c <= INR i + 1).
  { clear - C P T. assert (H : forall k, (1 <= k <= c)%nat -> t * INR c <= INR k -> exists i, (i < c)%nat /\ INR i <= t * INR c <= INR i + 1).
    { induction k as [|k IH]; intros K Tk; [lia|]. rewrite S_INR in Tk.
      destruct (Rle_dec (INR k) (t * INR c)) as [L|L].
      - exists k. split; [lia|]. lra.
      - destruct k as [|k]; [cbn [INR] in L; exfalso; apply L; nra|]. apply IH; [lia|lra]. }
    apply (H c); [lia|]. nra. }
  destruct N as (i & Hi & Lo & Hi2).
  exists (along p q (INR i / INR c)), (along p q ((INR i + 1) / INR c)). split.
  - unfold wallOf. apply in_flat_map. exists (p, q). split; [exact I|]. fold c. unfold piecesOf. apply in_map_iff.
    exists i. split; [reflexivity|]. apply in_seq. lia.
  - exists (t * INR c - INR i). split; [lra|]. apply point_eq; cbn [along plat plon]; field; lra.
Qed.
Print Assumptions C66_covered.

(** The box of a piece of a wall stands upright on the ground, as far to the left as to the right; together with a floor
    it has no hole; its walls face outwards, seen from any point above or below its ground plan, and its roof upwards. *)
Theorem C66_box : forall ele a b width h, 0 < span a b -> 0 < width -> 0 < h ->
  let l0 := corner0 ele width a b in let l1 := corner1 ele width a b in
  let r0 := corner0 ele (- width) a b in let r1 := corner1 ele (- width) a b in
  wallBox ele width h (a, b) = boxWalls l0 l1 r0 r1 h ++ boxRoof l0 l1 r0 r1 h /\
  watertight (wallBox ele width h (a, b) ++ boxFloor l0 l1 r0 r1) /\
  Forall facesUp (boxRoof l0 l1 r0 r1 h) /\
  (forall s t y, 0 < s < 1 -> - width < t < width ->
     let o := aside a b t (along a b s) in Forall (outward (mkV3 (plon o) y (plat o))) (boxWalls l0 l1 r0 r1 h)) /\
  forall o, In o [a; b] -> span o (aside a b width o) = width /\ span o (aside a b (- width) o) = width.
Proof.
  intros ele a b width h Sp Wd H l0 l1 r0 r1. split; [reflexivity|]. split; [|split; [|split]].
  - change (wallBox ele width h (a, b)) with (boxWalls l0 l1 r0 r1 h ++ boxRoof l0 l1 r0 r1 h). rewrite <- app_assoc. apply box_tight.
  - apply box_roof; assumption.
  - intros s t y S T o. destruct (box_crosses ele a b width Sp s t y S T) as (A & B & C & D).
    unfold boxWalls. repeat (apply Forall_app; split); apply wall_outward; assumption.
  - intros o _. rewrite !aside_span by exact Sp. rewrite Rabs_Ropp, Rabs_pos_eq by lra. auto.
Qed.
Print Assumptions C66_box.

(** Without length and gap, the values when the style has none, the number of pieces is undefined. *)
Theorem C66_zero_refuted : forall dist ele env st p q l, bPillar st = false -> bLength st = 0 -> bGap st = 0 ->
  buildBarrier realNums realTrig realGens env (realRows dist ele) st (p :: q :: l) = UB.
Proof.
  intros dist ele env st p q l P L G. unfold buildBarrier, buildWall, wallOps, wallPieces. rewrite P, L, G.
  rewrite over_ub; [reflexivity|]. unfold wallSide. cbn [realRows wDist]. change (nadd realNums 0 0) with (0 + 0). rewrite Rplus_0_r.
  now rewrite count_zero.
Qed.
Print Assumptions C66_zero_refuted.

(** The wall around an area is open: nothing is built between the last coordinate and the first.  Here for a triangle,
    whatever the distances: the middle of the third side is in no piece. *)
Theorem C66_area_refuted : forall dist ele env {E} (styleFor : E -> barrierStyle R) e a b c cnt,
  let st := styleFor e in bPillar st = false -> 0 < bLength st -> 0 <= bGap st ->
  counted dist (bLength st + bGap st) cnt [a; b; c] ->
  (plon b - plon a) * (plat c - plat a) - (plat b - plat a) * (plon c - plon a) <> 0 ->
  let pieces := wallOf (bLength st / (bLength st + bGap st)) cnt [a; b; c] in
  (forall x y, In (x, y) pieces -> / 2 ^ 52 < span x y) -> (2 * Z.of_nat (length pieces * 30) < 2 ^ 31)%Z ->
  exists m, visitBarrier realNums realTrig realGens env (realRows dist ele) styleFor (BArea e [a; b; c]) None = Ok (None, [m]) /\
    drawnIn m = flat_map (wallBox ele (bWidth st) (bHeight st)) pieces /\
    forall x y, In (x, y) pieces -> ~ between x y (along c a (1 / 2)).
Proof.
  intros dist ele env E styleFor e a b c cnt st P Ln Gp C NC pieces D L.
  destruct (C66_wall dist ele env st [a; b; c] cnt P ltac:(discriminate) ltac:(lra) C D L) as (m & Em & _ & Dm).
  exists m. split; [|split; [exact Dm|]].
  - rewrite (visit_none realNums realTrig realGens env (realRows dist ele) styleFor (BArea e [a; b; c])).
    cbn [linesOf ownOf inTurn]. fold st. rewrite Em. reflexivity.
  - intros x y I (t & _ & Q). unfold pieces, wallOf in I. apply in_flat_map in I. destruct I as ((p & q) & S & I).
    unfold piecesOf in I. apply in_map_iff in I. destruct I as (i & I & _).
    set (n := INR (Nat.max 1 (cnt p q))) in I. set (r := bLength st / _) in I.
    assert (exists u, along c a (1 / 2) = along p q u) as (u & U).
    { rewrite Q. injection I as <- <-. exists (INR i / n + t * ((INR i + r) / n - INR i / n)).
      apply point_eq; cbn [along plat plon]; ring. }
    pose proof (f_equal plat U) as U1. pose proof (f_equal plon U) as U2. cbn [along plat plon] in U1, U2. apply NC.
    cbn [sidesOf combine tl In] in S. destruct S as [S|[S|[]]]; injection S as <- <-.
    + replace (plat c) with (plat a + 2 * (u * (plat b - plat a))) by lra.
      replace (plon c) with (plon a + 2 * (u * (plon b - plon a))) by lra. ring.
    + replace (plat a) with (2 * (plat b + u * (plat c - plat b)) - plat c) by lra.
      replace (plon a) with (2 * (plon b + u * (plon c - plon b)) - plon c) by lra. ring.
Qed.
Print Assumptions C66_area_refuted.

(** Pillars along a way: at every place the pillar that is built for a single node there, but raised by the elevation of
    the first coordinate of the way.  [shape] is what is drawn for a node. *)
Theorem C66_pillars_partial : forall dist ele env st p q rest cnt ts, bPillar st = true ->
  let w := realRows dist ele in
  pillarShape realNums realTrig realGens w st p = Ok ts -> (2 * Z.of_nat (length ts * 3) < 2 ^ 31)%Z ->
  0 < bStep st -> counted dist (bStep st) cnt (p :: q :: rest) ->
  let places := rowsOf cnt (p :: q :: rest) in
  (2 * Z.of_nat (length places * (length ts * 3)) < 2 ^ 31)%Z ->
  exists shape m,
    (forall o, exists mo, buildBarrier realNums realTrig realGens env w st [o] = Ok [mo] /\ drawnIn mo = shape o) /\
    buildBarrier realNums realTrig realGens env w st (p :: q :: rest) = Ok [m] /\
    drawnIn m = flat_map (fun o => map (shiftTri (mkV3 0 (ele (plat p) (plon p)) 0)) (shape o)) places.
Proof.
  intros dist ele env st p q rest cnt ts P w E L St C places L2.
  exists (fun o => map (shiftTri (mkV3 (plon o - plon p) (ele (plat o) (plon o) - ele (plat p) (plon p)) (plat o - plat p))) ts).
  destruct (pillar_row dist ele env st p q rest cnt ts E L St C L2) as (m & Em & Dm). exists m. unfold buildBarrier. rewrite P.
  split; [|split; [exact Em|]].
  - intros o. destruct (pillar_one dist ele env st o _ (shape_shift dist ele st p o ts E)) as (mo & Eo & Do).
    + rewrite map_length. exact L.
    + exists mo. auto.
  - rewrite Dm. apply flat_map_ext. intros o. rewrite map_map. apply map_ext. intros [[u v] x]. unfold shiftTri, shift, offsetTo. cbn [v3x v3y v3z].
    f_equal; [f_equal|]; apply QuatProofs.vec3_eq; cbn [v3x v3y v3z]; ring.
Qed.
Print Assumptions C66_pillars_partial.

(** So no part of a pillar is on the ground if the first coordinate is above zero: all of it is higher than the ground of
    its place by that much. *)
Theorem C66_elevation_refuted : forall dist ele env st p q rest cnt ts, bPillar st = true -> 0 <= bHeight st ->
  let w := realRows dist ele in
  pillarShape realNums realTrig realGens w st p = Ok ts -> (2 * Z.of_nat (length ts * 3) < 2 ^ 31)%Z ->
  0 < bStep st -> counted dist (bStep st) cnt (p :: q :: rest) ->
  let places := rowsOf cnt (p :: q :: rest) in
  (2 * Z.of_nat (length places * (length ts * 3)) < 2 ^ 31)%Z ->
  exists m, buildBarrier realNums realTrig realGens env w st (p :: q :: rest) = Ok [m] /\
    length (drawnIn m) = (length places * length ts)%nat /\
    Forall (fun t => exists o, In o places /\
      Forall (fun v => ele (plat o) (plon o) + ele (plat p) (plon p) <= v3y v) (cornersOf t)) (drawnIn m).
Proof.
  intros dist ele env st p q rest cnt ts P Hh w E L St C places L2.
  destruct (pillar_row dist ele env st p q rest cnt ts E L St C L2) as (m & Em & Dm). exists m. unfold buildBarrier. rewrite P.
  split; [exact Em|]. rewrite Dm. split.
  - apply flat_map_const_length. intros o _. apply map_length.
  - apply Forall_forall. intros t I. apply in_flat_map in I. destruct I as (o & O & I). exists o. split; [exact O|].
    apply in_map_iff in I. destruct I as (t0 & <- & I).
    assert (B : Forall (fun v => ele (plat p) (plon p) <= v3y v) (flat_map cornersOf ts)).
    { unfold pillarShape in E. eapply Forall_impl; [|eapply C63_cylinder_shape; [|exact E]].
      - intros v [(f & angle & F & ->)|[->| ->]]; cbn [wallPoint above ccenter csize1 v3y realRows wEle w]; [|lra|lra].
        assert (0 <= f * bHeight st) by (apply Rmult_le_pos; lra). lra.
      - repeat split. }
    apply Forall_forall. intros v V. rewrite Forall_forall in B. destruct t0 as [[x y] z]. cbn [shiftTri cornersOf In] in V.
    assert (K : forall u, In u [x; y; z] -> ele (plat p) (plon p) <= v3y u).
    { intros u U. apply B. apply in_flat_map. exists (x, y, z). split; [exact I|exact U]. }
    destruct V as [<-|[<-|[<-|[]]]]; cbn [shift offsetTo v3y];
      [pose proof (K x ltac:(now left))|pose proof (K y ltac:(right; now left))|pose proof (K z ltac:(right; right; now left))]; lra.
Qed.
Print Assumptions C66_elevation_refuted.

(** All lines of an element, also those of members of members, are built with the style of the element visited, and no
    style is kept afterwards; whatever the arithmetic. *)
Theorem C66_style : forall {T E} (n : nums T) (k : trig T) (g : gens T) env w (styleFor : E -> barrierStyle T) b,
  visitBarrier n k g env w styleFor b None =
  omap (fun ms => (None, ms)) (inTurn (buildBarrier n k g env w (styleFor (ownOf b))) (linesOf b)).
Proof. intros. apply visit_none. Qed.
Print Assumptions C66_style.

(** A way of two sides, ten and four degrees long, measured in degrees of longitude. *)
Definition lonDist (p q : point R) : R := Rabs (plon p - plon q).
Definition straight : list (point R) := [mkPoint 0 0; mkPoint 0 10; mkPoint 0 14].
Definition threeOne (p q : point R) : nat := if Rlt_dec (plon p) 5 then 3%nat else 1%nat.
Definition hill (lat lon : R) : R := 100.
Definition realEnv : builderEnv R :=
  mkEnv (-1000) (/ 1000) hill (fun _ _ _ => 0) (fun _ _ h => h) (fun a b => Rabs (v2x a - v2x b)) 1 1 0 0
    (fun _ => mkTri [] None 3 []) (fun _ _ t => t).
Definition plainR : lookOptions R := mkLook (fun _ => 0%Z) 0 0 (mkRegion 0 0 0 0 0 0)%Z 1.
Definition leaf : bmesh R :=
  mkBMesh [0; 0; 0; 1; 0; 0; 0; 1; 0] [0; 1; 2]%Z [0; 0; 0]%Z [0; 0; 0; 0; 0; 0] [].
Lemma straight_counted : counted lonDist 3 threeOne straight /\ (forall p q, In (p, q) (sidesOf straight) -> evenly lonDist p q).
Proof.
  split; intros p q I; cbn [straight sidesOf combine tl In] in I.
  - unfold threeOne, wholeSteps, lonDist. destruct I as [I|[I|[]]]; injection I as <- <-; cbn [plon].
    + destruct (Rlt_dec 0 5); [|lra]. split; [|reflexivity]. replace (0 - 10) with (- (10)) by ring. rewrite Rabs_Ropp, Rabs_pos_eq by lra. cbn [INR]. lra.
    + destruct (Rlt_dec 10 5); [lra|]. split; [|reflexivity]. replace (10 - 14) with (- (4)) by ring. rewrite Rabs_Ropp, Rabs_pos_eq by lra. cbn [INR]. lra.
  - intros s t _ _. unfold lonDist. cbn [along plon]. rewrite <- Rabs_mult. rewrite <- Rabs_Ropp. f_equal. ring.
Qed.
Example C66_case : wellFormed leaf 3 /\ goodMap leaf /\ length (rowsOf threeOne straight) = 4%nat /\
  exists m, treeWay realNums realGens realEnv (realRows lonDist hill) (mkPoint 0 0) leaf 3 straight = Ok m /\ length (drawnIn m) = 4%nat.
Proof.
  assert (W : wellFormed leaf 3) by (repeat split; repeat constructor; lia).
  assert (G : goodMap leaf) by (split; [reflexivity|]; cbn; lia).
  assert (N : length (rowsOf threeOne straight) = 4%nat).
  { unfold rowsOf, threeOne. cbn [straight sidesOf combine tl flat_map plon]. destruct (Rlt_dec 0 5); [|lra]. destruct (Rlt_dec 10 5); [lra|]. reflexivity. }
  split; [exact W|]. split; [exact G|]. split; [exact N|].
  destruct (C66_trees lonDist hill realEnv (mkPoint 0 0) leaf 3 3 threeOne straight ltac:(discriminate) ltac:(lra) W G (proj1 straight_counted))
    as (m & E & _ & _ & D).
  - rewrite N. reflexivity.
  - exists m. split; [exact E|]. rewrite D. rewrite (flat_map_const_length _ 1) by reflexivity. now rewrite N.
Qed.
Definition fence (pillar : bool) : barrierStyle R := mkBarrier pillar 1 3 2 1 (mkV3 1 1 1) 3 plainR.
Lemma fence_pieces : let pieces := wallOf (2 / (2 + 1)) threeOne straight in
  length pieces = 4%nat /\ forall a b, In (a, b) pieces -> / 2 ^ 52 < span a b.
Proof.
  assert (N : length (wallOf (2 / (2 + 1)) threeOne straight) = 4%nat).
  { unfold wallOf, threeOne. cbn [straight sidesOf combine tl flat_map plon]. destruct (Rlt_dec 0 5); [|lra]. destruct (Rlt_dec 10 5); [lra|]. reflexivity. }
  split; [exact N|]. intros a b I.
  assert (Q : plon a + 2 <= plon b).
  { unfold wallOf, threeOne in I. cbn [straight sidesOf combine tl flat_map plon] in I. destruct (Rlt_dec 0 5); [|lra]. destruct (Rlt_dec 10 5); [lra|].
    cbn [Nat.max piecesOf seq map app In] in I. rewrite !S_INR in I. cbn [INR] in I.
    destruct I as [I|[I|[I|[I|[]]]]]; injection I as <- <-; cbn [along plon]; lra. }
  unfold span. apply Rlt_le_trans with (sqrt (2 * 2)).
  - rewrite sqrt_square by lra. apply Rle_lt_trans with 1; [|lra]. rewrite <- Rinv_1 at 1. apply Rinv_le_contravar; [lra|]. apply pow_R1_Rle. lra.
  - apply sqrt_le_1_alt. pose proof (Rle_0_sqr (plat b - plat a)). unfold Rsqr in *. nra.
Qed.
Example C66_wall_case : exists m,
  buildBarrier realNums realTrig realGens realEnv (realRows lonDist hill) (fence false) straight = Ok [m] /\ length (drawnIn m) = 40%nat.
Proof.
  pose proof fence_pieces as (N & D). destruct straight_counted as (C & _).
  destruct (C66_wall lonDist hill realEnv (fence false) straight threeOne eq_refl ltac:(discriminate)) as (m & E & _ & Dm).
  - cbn [fence bLength bGap]. lra.
  - cbn [fence bLength bGap]. replace (2 + 1) with 3 by ring. exact C.
  - exact D.
  - change (bLength (fence false) / _) with (2 / (2 + 1)). rewrite N. reflexivity.
  - exists m. split; [exact E|]. rewrite Dm. rewrite (flat_map_const_length _ 10) by (intros [a b] _; reflexivity).
    change (bLength (fence false) / _) with (2 / (2 + 1)). now rewrite N.
Qed.
(** Pillars on a hill of 100 metres are drawn at 200 metres. *)
Example C66_pillar_case : exists ts m, pillarShape realNums realTrig realGens (realRows lonDist hill) (fence true) (mkPoint 0 0) = Ok ts /\
  length ts = 28%nat /\ buildBarrier realNums realTrig realGens realEnv (realRows lonDist hill) (fence true) straight = Ok [m] /\
  length (drawnIn m) = 112%nat /\ Forall (fun t => Forall (fun v => 200 <= v3y v) (cornersOf t)) (drawnIn m).
Proof.
  assert (H1 : heightSegments realNums realGens (mkCylinder (mkV3 0 (hill 0 0) 0) (mkV3 0 1 0) (mkV3 1 0 0) (mkV3 1 3 1) (mkV3 1 3 1) 5 7 (fun v => v)) = Some 1%Z).
  { unfold heightSegments. cbn [cmaxHeight]. change (nzero realNums) with 0. rewrite (rnlt_true 0 5) by lra. rewrite Bool.orb_true_r.
    cbn [csize1 v3y realGens gceil realNums ndiv]. replace (up (- (3 / 5))) with 0%Z; [reflexivity|]. apply tech_up; cbn; lra. }
  destruct (C63_cylinder_closed R realNums realTrig realGens _ _ H1) as (ts & E & _ & N).
  { unfold sameVec3, vzero. cbn [csize2 v3x v3y v3z]. change (nabs realNums _) with (Rabs (1 - 0)) at 1. rewrite Rminus_0_r, Rabs_R1.
    rewrite rnlt_false; [reflexivity|]. cbn [realGens geps]. rewrite <- Rinv_1. apply Rinv_le_contravar; [lra|]. apply pow_R1_Rle. lra. }
  specialize (N ltac:(lia)). change (length ts = 28%nat) in N.
  assert (E' : pillarShape realNums realTrig realGens (realRows lonDist hill) (fence true) (mkPoint 0 0) = Ok ts) by exact E.
  destruct C66_case as (_ & _ & K & _). destruct straight_counted as (C & _).
  destruct (C66_elevation_refuted lonDist hill realEnv (fence true) (mkPoint 0 0) (mkPoint 0 10) [mkPoint 0 14] threeOne ts eq_refl)
    as (m & Em & Nm & F).
  - cbn [fence bHeight]. lra.
  - exact E'.
  - rewrite N. reflexivity.
  - cbn [fence bStep]. lra.
  - exact C.
  - fold straight. rewrite N, K. reflexivity.
  - exists ts, m. split; [exact E'|]. split; [exact N|]. split; [exact Em|]. split.
    + rewrite Nm, N. fold straight. now rewrite K.
    + eapply Forall_impl; [|exact F]. intros t (o & _ & T). eapply Forall_impl; [|exact T]. intros v V. unfold hill in V. lra.
Qed.
