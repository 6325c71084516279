(** Proofs about things put along ways. *)
From Coq Require Import Reals Lra Lia Permutation.
From Verif Require Import Base GeoModel RingModel MeshBuildModel MeshBuildSpec MeshBuildProofs QuatModel QuatSpec QuatProofs
  GenModel GenSpec GenCylinderProofs RowModel RowSpec.
Local Notation corner := MeshBuildSpec.corner.
Local Open Scope R_scope.

Lemma rnlt_true x y : x < y -> nlt realNums x y = true.
Proof. intros H. cbn. destruct (Rlt_dec x y); [reflexivity|lra]. Qed.
Lemma rnlt_false x y : y <= x -> nlt realNums x y = false.
Proof. intros H. cbn. destruct (Rlt_dec x y); [lra|reflexivity]. Qed.

(** * Counting steps *)
Lemma trunc_nat x c : INR c <= x < INR c + 1 -> truncR x = Z.of_nat c.
Proof.
  intros (A & B). unfold truncR. pose proof (pos_INR c). destruct (Rlt_dec x 0); [lra|].
  destruct (base_Int_part x) as (C & D). rewrite INR_IZR_INZ in A, B.
  assert (E : IZR (Int_part x) < IZR (Z.of_nat c + 1)) by (rewrite plus_IZR; lra). apply lt_IZR in E.
  assert (F : IZR (Z.of_nat c) < IZR (Int_part x + 1)) by (rewrite plus_IZR; lra). apply lt_IZR in F. lia.
Qed.
Lemma count_ok dist ele d step c : 0 < step -> wholeSteps d step c -> (Z.of_nat c < 2 ^ 31)%Z ->
  countOf realNums (realRows dist ele) d step = Ok (Z.of_nat c).
Proof.
  intros H (A & B) L. unfold countOf. change (nzero realNums) with 0.
  rewrite (rnlt_true _ _ H), Bool.orb_true_r. cbn [realRows wTrunc].
  rewrite (trunc_nat _ c).
  - unfold castInt. destruct (Z.leb_spec (- 2 ^ 31) (Z.of_nat c)), (Z.ltb_spec (Z.of_nat c) (2 ^ 31)); cbn; try lia; reflexivity.
  - change (ndiv realNums d step) with (d / step). split.
    + apply Rmult_le_reg_r with step; [exact H|]. unfold Rdiv. rewrite Rmult_assoc, Rinv_l by lra. lra.
    + apply Rmult_lt_reg_r with step; [exact H|]. unfold Rdiv. rewrite Rmult_assoc, Rinv_l by lra. lra.
Qed.
Lemma count_zero dist ele d : countOf realNums (realRows dist ele) d 0 = UB.
Proof. unfold countOf. change (nzero realNums) with 0. rewrite rnlt_false by lra. reflexivity. Qed.

(** Every distance has a number of whole steps. *)
Lemma whole_exists d step : 0 <= d -> 0 < step -> exists c, wholeSteps d step c.
Proof.
  intros D S. exists (Z.to_nat (Int_part (d / step))).
  assert (Q : 0 <= d / step) by (apply Rmult_le_pos; [exact D|]; apply Rlt_le, Rinv_0_lt_compat, S).
  destruct (base_Int_part (d / step)) as (A & B).
  assert (P : (0 <= Int_part (d / step))%Z).
  { destruct (Z.lt_ge_cases (Int_part (d / step)) 0) as [L|L]; [|exact L]. exfalso.
    assert (IZR (Int_part (d / step)) <= -1) by (apply IZR_le; lia). lra. }
  assert (E : INR (Z.to_nat (Int_part (d / step))) = IZR (Int_part (d / step))) by (rewrite INR_IZR_INZ, Z2Nat.id by exact P; reflexivity).
  unfold wholeSteps. rewrite E. replace d with (d / step * step) at 2 3 by (field; lra). split.
  - apply Rmult_le_compat_r; lra.
  - apply Rmult_lt_compat_r; lra.
Qed.

(** * The loop over the sides *)
Lemma over_sides {A} (f : point R -> point R -> outcome (list A)) h l :
  (forall p q, In (p, q) (sidesOf l) -> f p q = Ok (h p q)) ->
  overSides f l = Ok (flat_map (fun '(p, q) => h p q) (sidesOf l)).
Proof.
  induction l as [|p [|q l] IH]; intros H; [reflexivity..|].
  change (overSides f (p :: q :: l)) with (bind (f p q) (fun a => bind (overSides f (q :: l)) (fun r => Ok (a ++ r)))).
  rewrite (H p q) by (left; reflexivity). cbn [bind]. rewrite IH; [reflexivity|]. intros p' q' I. apply H. right. exact I.
Qed.
Lemma over_ub {A} (f : point R -> point R -> outcome (list A)) p q l : f p q = UB -> overSides f (p :: q :: l) = UB.
Proof. intros H. cbn [overSides]. rewrite H. reflexivity. Qed.
Lemma flat_map_map {A B C} (f : B -> C) (h : A -> list B) l : map f (flat_map h l) = flat_map (fun a => map f (h a)) l.
Proof. induction l as [|a l IH]; [reflexivity|]. cbn [flat_map]. now rewrite map_app, IH. Qed.
Lemma flat_map_ext_in {A B} (f h : A -> list B) l : (forall a, In a l -> f a = h a) -> flat_map f l = flat_map h l.
Proof. induction l as [|a l IH]; intros H; [reflexivity|]. cbn [flat_map]. rewrite (H a) by now left. f_equal. apply IH. intros b I. apply H. now right. Qed.
Lemma flat_map_flat {A B C} (f : B -> list C) (h : A -> list B) l : flat_map f (flat_map h l) = flat_map (fun a => flat_map f (h a)) l.
Proof. induction l as [|a l IH]; [reflexivity|]. cbn [flat_map]. now rewrite flat_map_app, IH. Qed.
Lemma flat_map_of_map {A B C} (f : B -> list C) (h : A -> B) l : flat_map f (map h l) = flat_map (fun a => f (h a)) l.
Proof. induction l as [|a l IH]; [reflexivity|]. cbn. now rewrite IH. Qed.
Lemma flat_map_const_length {A B} (f : A -> list B) c l : (forall a, In a l -> length (f a) = c) -> length (flat_map f l) = (length l * c)%nat.
Proof. induction l as [|a l IH]; intros H; [reflexivity|]. cbn [flat_map length]. rewrite app_length, (H a) by now left. rewrite IH; [lia|]. intros b I. apply H. now right. Qed.

Lemma up_to_nat c : upTo (Z.of_nat c) = map Z.of_nat (seq 0 c).
Proof. unfold upTo. now rewrite Nat2Z.id. Qed.
Lemma point_eq (p q : point R) : plat p = plat q -> plon p = plon q -> p = q.
Proof. destruct p, q. cbn. now intros -> ->. Qed.
Lemma new_along p q f : newPoint realNums p q f = along p q f.
Proof. apply point_eq; cbn; ring. Qed.

Section Copies.
  Context (dist : point R -> point R -> R) (ele : R -> R -> R) (env : builderEnv R).
  Local Notation w := (realRows dist ele).

  Lemma places_ok step p q c : 0 < step -> wholeSteps (dist p q) step c -> (Z.of_nat c < 2 ^ 31)%Z ->
    copyPlaces realNums realGens w step p q = Ok (rowOf p q c).
  Proof.
    intros S W L. unfold copyPlaces. cbn [realRows wDist]. rewrite (count_ok dist ele _ _ _ S W L). cbn [bind]. f_equal.
    rewrite up_to_nat, map_map. unfold rowOf. apply map_ext. intros i. rewrite new_along. cbn [realGens gint realNums ndiv].
    now rewrite <- !INR_IZR_INZ.
  Qed.

  Definition moveCorner (off : vec3 R) (c : corner R) : corner R :=
    let '(x, y, h) := cpos c in mkCorner (x + v3x off, y + v3z off, h + v3y off) (ccol c) (cuv c).
  Lemma corner_map (f : corner R -> corner R) (cs : list (corner R)) i : cornerAt (map f cs) i = option_map f (cornerAt cs i).
  Proof. unfold cornerAt. destruct (i <? 0)%Z; [reflexivity|]. apply nth_error_map. Qed.
  Lemma spot_move off c : spot (moveCorner off c) = shift off (spot c).
  Proof. unfold spot, moveCorner. destruct c as [[[x y] h] col uv]. reflexivity. Qed.
  Lemma seen_copy off (src : bmesh R) : flat_map seen (newFaces realNums env (OpCopy off src)) = map (shiftTri off) (drawnIn src).
  Proof.
    unfold drawnIn. cbn [newFaces newCorners]. unfold faces.
    change (map _ (corners src)) with (map (moveCorner off) (corners src)).
    induction (threes (btris src)) as [|[[a b] c] ts IH]; [reflexivity|].
    cbn [map flat_map]. rewrite map_app, <- IH. f_equal. cbn [faceOf]. rewrite !corner_map.
    destruct (cornerAt (corners src) a), (cornerAt (corners src) b), (cornerAt (corners src) c); try reflexivity.
    cbn [option_map seen map shiftTri]. now rewrite !spot_move.
  Qed.

  Lemma empty_wf : wellFormed (@emptyMesh R) 0 /\ goodMap (@emptyMesh R).
  Proof. split; [repeat split; constructor|]. split; [reflexivity|]. cbn. lia. Qed.

  Lemma run_drawn ops : Forall (goodOp realNums env) ops ->
    (2 * Z.of_nat (length (flat_map (newCorners realNums env) ops)) < 2 ^ 31)%Z ->
    exists m, meshRun realNums env ops emptyMesh = Ok m /\
      wellFormed m (length (flat_map (newCorners realNums env) ops)) /\ goodMap m /\
      drawnIn m = flat_map (fun o => flat_map seen (newFaces realNums env o)) ops.
  Proof.
    intros F L. destruct empty_wf as (W & G).
    destruct (run_ok realNums env ops emptyMesh 0 F W G L) as (m & E & A & B & C & D).
    exists m. split; [exact E|]. split; [exact A|]. split; [exact B|]. unfold drawnIn. rewrite D. cbn [faces emptyMesh btris threes map app].
    apply flat_map_flat.
  Qed.

  Lemma copies_run center src k ps : wellFormed src k -> goodMap src -> (2 * Z.of_nat (length ps * k) < 2 ^ 31)%Z ->
    exists m, meshRun realNums env (map (copyOp realNums w center src) ps) emptyMesh = Ok m /\
      wellFormed m (length ps * k) /\ goodMap m /\
      drawnIn m = flat_map (fun q => map (shiftTri (offsetTo ele center q)) (drawnIn src)) ps.
  Proof.
    intros W G L.
    assert (N : length (flat_map (newCorners realNums env) (map (copyOp realNums w center src) ps)) = (length ps * k)%nat).
    { rewrite <- (map_length (copyOp realNums w center src) ps). apply flat_map_const_length. intros o I.
      apply in_map_iff in I. destruct I as (q & <- & _). cbn [copyOp newCorners]. rewrite map_length. apply corners_length, W. }
    destruct (run_drawn (map (copyOp realNums w center src) ps)) as (m & E & A & B & C).
    - apply Forall_map, Forall_forall. intros q _. cbn. exists k. split; assumption.
    - rewrite N. exact L.
    - exists m. rewrite N in A. split; [exact E|]. split; [exact A|]. split; [exact B|]. rewrite C, flat_map_of_map.
      apply flat_map_ext. intros q. cbn [copyOp]. apply seen_copy.
  Qed.

  Lemma along_ok center src step cnt l : 0 < step -> counted dist step cnt l ->
    overSides (copyMeshAlong realNums realGens w center src step) l =
    Ok (map (copyOp realNums w center src) (rowsOf cnt l)).
  Proof.
    intros S H. rewrite (over_sides _ (fun p q => map (copyOp realNums w center src) (rowOf p q (cnt p q)))).
    - f_equal. unfold rowsOf. rewrite flat_map_map. apply flat_map_ext. intros [p q]. reflexivity.
    - intros p q I. unfold copyMeshAlong. destruct (H p q I) as (W & L). now rewrite (places_ok step p q _ S W L).
  Qed.

  Lemma tree_ok center src k step cnt l : l <> [] -> 0 < step -> wellFormed src k -> goodMap src -> counted dist step cnt l ->
    (2 * Z.of_nat (length (rowsOf cnt l) * k) < 2 ^ 31)%Z ->
    exists m, treeWay realNums realGens env w center src step l = Ok m /\
      wellFormed m (length (rowsOf cnt l) * k) /\ goodMap m /\
      drawnIn m = flat_map (fun q => map (shiftTri (offsetTo ele center q)) (drawnIn src)) (rowsOf cnt l).
  Proof.
    intros NE S W G H L. unfold treeWay. destruct l as [|p l]; [contradiction|].
    rewrite (along_ok center src step cnt _ S H). cbn [bind]. apply copies_run; assumption.
  Qed.
End Copies.

(** * Beside a side *)
Lemma span_pos p q : 0 <= span p q.
Proof. apply sqrt_pos. Qed.
Lemma normal_of p q : / 2 ^ 52 < span p q ->
  normalOf realNums realTrig realGens (vecOf p) (vecOf q) = mkV2 (- (plat q - plat p) / span p q) ((plon q - plon p) / span p q).
Proof.
  intros H. unfold normalOf, normalized2. cbn [vecOf v2x v2y realNums realTrig realGens nsub nmul nadd ksqrt geps nzero ndiv].
  change (sqrt _) with (span p q). rewrite (rnlt_true _ _ H). cbn [v2x v2y]. f_equal. field.
  assert (0 < / 2 ^ 52) by (apply Rinv_0_lt_compat, pow_lt; lra). lra.
Qed.
Lemma eps_pos : 0 < / 2 ^ 52.
Proof. apply Rinv_0_lt_compat, pow_lt. lra. Qed.

Lemma left_aside p q width o : / 2 ^ 52 < span p q ->
  geoOf (leftOf realNums (vecOf o) (normalOf realNums realTrig realGens (vecOf p) (vecOf q)) width) = aside p q width o.
Proof.
  intros H. rewrite (normal_of _ _ H). pose proof eps_pos. unfold geoOf, leftOf, aside, vecOf.
  cbn [v2x v2y realNums nadd nmul]. apply point_eq; cbn [plat plon]; field; lra.
Qed.
Lemma right_aside p q width o : / 2 ^ 52 < span p q ->
  geoOf (rightOf realNums (vecOf o) (normalOf realNums realTrig realGens (vecOf p) (vecOf q)) width) = aside p q (- width) o.
Proof.
  intros H. rewrite (normal_of _ _ H). pose proof eps_pos. unfold geoOf, rightOf, aside, vecOf.
  cbn [v2x v2y realNums nsub nmul]. apply point_eq; cbn [plat plon]; field; lra.
Qed.
Lemma along_aside p q d f : along (aside p q d p) (aside p q d q) f = aside p q d (along p q f).
Proof. apply point_eq; cbn; ring. Qed.

Lemma lamp_places width p q c : / 2 ^ 52 < span p q -> (0 < c)%nat -> (Z.of_nat c < 2 ^ 31)%Z ->
  lampPlaces realNums realTrig realGens width (Z.of_nat c) p q = Ok (lampsOf width p q c).
Proof.
  intros H P L. unfold lampPlaces.
  assert (C : castInt (Z.of_nat c - 1) = Ok (Z.of_nat c - 1)%Z).
  { unfold castInt. destruct (Z.leb_spec (- 2 ^ 31) (Z.of_nat c - 1)), (Z.ltb_spec (Z.of_nat c - 1) (2 ^ 31)); cbn; try lia; reflexivity. }
  rewrite C. cbn [bind]. f_equal. unfold upTo. replace (Z.to_nat (Z.of_nat c - 1 - 1)) with (c - 2)%nat by lia.
  rewrite map_map. unfold lampsOf. rewrite <- seq_shift, map_map. apply map_ext. intros i. cbv beta zeta.
  replace (Z.of_nat i + 1)%Z with (Z.of_nat (S i)) by lia.
  assert (E : (Z.of_nat (S i) mod 2 =? 0)%Z = Nat.even (S i)).
  { rewrite Zmod_even. destruct (Z.even (Z.of_nat (S i))) eqn:Ev, (Nat.even (S i)) eqn:Ev2; try reflexivity; exfalso.
    - apply Z.even_spec in Ev. destruct Ev as (z & Ev). assert (O : Nat.odd (S i) = true) by (unfold Nat.odd; now rewrite Ev2).
      apply Nat.odd_spec in O. destruct O as (m & O). lia.
    - apply Nat.even_spec in Ev2. destruct Ev2 as (m & Ev2). assert (O : Z.odd (Z.of_nat (S i)) = true) by (rewrite <- Z.negb_even, Ev; reflexivity).
      apply Z.odd_spec in O. destruct O as (z & O). lia. }
  rewrite E. destruct (Nat.even (S i)).
  - rewrite new_along, !left_aside by exact H. rewrite along_aside. f_equal. cbn [realGens gint realNums ndiv]. now rewrite <- !INR_IZR_INZ.
  - rewrite new_along, !right_aside by exact H. rewrite along_aside. f_equal. cbn [realGens gint realNums ndiv]. now rewrite <- !INR_IZR_INZ.
Qed.

Section Lamps.
  Context (dist : point R -> point R -> R) (ele : R -> R -> R) (env : builderEnv R).
  Local Notation w := (realRows dist ele).

  Lemma lamp_side center src width step p q c : 0 < step -> 0 < width -> wholeSteps (dist p q) step c -> (Z.of_nat c < 2 ^ 31)%Z ->
    (c <> 0%nat -> / 2 ^ 52 < span p q) ->
    lampSide realNums realTrig realGens w center src width step p q = Ok (map (copyOp realNums w center src) (lampsOf width p q c)).
  Proof.
    intros St P W L D. unfold lampSide. cbn [realRows wDist]. rewrite (count_ok dist ele _ _ _ St W L). cbn [bind].
    change (nzero realNums) with 0. rewrite (rnlt_true _ _ P). destruct c as [|c]; [reflexivity|].
    destruct (Z.eqb_spec (Z.of_nat (S c)) 0); [lia|]. rewrite lamp_places; [reflexivity| |lia|exact L]. apply D. lia.
  Qed.
  Lemma lamp_side_thin center src width step p q c : 0 < step -> width <= 0 -> wholeSteps (dist p q) step c -> (Z.of_nat c < 2 ^ 31)%Z ->
    lampSide realNums realTrig realGens w center src width step p q = Ok (map (copyOp realNums w center src) (rowOf p q c)).
  Proof.
    intros St P W L. unfold lampSide. cbn [realRows wDist]. rewrite (count_ok dist ele _ _ _ St W L). cbn [bind].
    change (nzero realNums) with 0. rewrite (rnlt_false _ _ P). destruct c as [|c]; [reflexivity|].
    destruct (Z.eqb_spec (Z.of_nat (S c)) 0); [lia|]. unfold copyMeshAlong. now rewrite (places_ok dist ele step p q _ St W L).
  Qed.

  (** The mesh of the lamps is given to the callback if there is one. *)
  Definition given (m : bmesh R) : option (bmesh R) := match bverts m with [] => None | _ => Some m end.
  Lemma given_wf m k : wellFormed m k -> given m = if (k =? 0)%nat then None else Some m.
  Proof.
    intros ((V & _) & _). unfold given. destruct (bverts m) as [|x vs]; destruct k; cbn in V |- *; try reflexivity; lia.
  Qed.
  Lemma lamps_ok center src width step l k places :
    l <> [] -> wellFormed src k -> goodMap src -> (2 * Z.of_nat (length places * k) < 2 ^ 31)%Z ->
    overSides (lampSide realNums realTrig realGens w center src width step) l = Ok (map (copyOp realNums w center src) places) ->
    exists m, lampWay realNums realTrig realGens env w center src width step l =
      Ok (if (length places * k =? 0)%nat then None else Some m) /\ wellFormed m (length places * k) /\
      drawnIn m = flat_map (fun q => map (shiftTri (offsetTo ele center q)) (drawnIn src)) places.
  Proof.
    intros NE W G L E. destruct (copies_run dist ele env center src k places W G L) as (m & R & Wm & _ & D).
    exists m. split; [|split; assumption]. unfold lampWay. destruct l as [|p l]; [contradiction|].
    rewrite E. cbn [bind]. rewrite R. cbn [bind]. change (match bverts m with [] => _ | _ => _ end) with (given m).
    now rewrite (given_wf _ _ Wm).
  Qed.
End Lamps.

(** * Walls *)
Section Walls.
  Context (dist : point R -> point R -> R) (ele : R -> R -> R) (env : builderEnv R).
  Local Notation w := (realRows dist ele).

  Definition vecPair (s : point R * point R) : vec2 R * vec2 R := (vecOf (fst s), vecOf (snd s)).
  Lemma ratio_point p q s t r : mkPoint (plat (along p q s) + (plat (along p q t) - plat (along p q s)) * r)
      (plon (along p q s) + (plon (along p q t) - plon (along p q s)) * r) = along p q (s + (t - s) * r).
  Proof. apply point_eq; cbn; ring. Qed.

  Lemma along_start p q : along p q 0 = p.
  Proof. apply point_eq; cbn; ring. Qed.
  Lemma along_end p q : along p q 1 = q.
  Proof. apply point_eq; cbn; ring. Qed.

  Lemma wall_loop ratio c p q : (1 <= c)%nat -> forall k i, (i + k = c)%nat ->
    wallLoop realNums realGens ratio (Z.of_nat c) p q (along p q (INR i / INR c)) (map (fun i => i + 1)%Z (map Z.of_nat (seq i k))) =
    map vecPair (map (fun i => (along p q (INR i / INR c), along p q ((INR i + ratio) / INR c))) (seq i k)).
  Proof.
    intros C. assert (C0 : 0 < INR c) by (apply lt_0_INR; lia).
    induction k as [|k IH]; intros i E; [reflexivity|].
    cbn [seq map wallLoop]. cbv zeta.
    assert (St : (if (Z.of_nat c =? 1)%Z then q else newPoint realNums p q (ndiv realNums (gint realGens (Z.of_nat i + 1)) (gint realGens (Z.of_nat c)))) =
      along p q (INR (S i) / INR c)).
    { rewrite new_along. cbn [realGens gint realNums ndiv]. replace (Z.of_nat i + 1)%Z with (Z.of_nat (S i)) by lia.
      rewrite <- !INR_IZR_INZ. destruct (Z.eqb_spec (Z.of_nat c) 1) as [O|O]; [|reflexivity].
      assert (Ec : c = 1%nat) by lia. assert (Ei : i = 0%nat) by lia. rewrite Ec, Ei. replace (INR 1 / INR 1) with 1 by (cbn [INR]; field). now rewrite along_end. }
    rewrite St. f_equal; [|apply IH; lia].
    unfold vecPair. cbn [fst snd]. f_equal. pose proof (ratio_point p q (INR i / INR c) (INR (S i) / INR c) ratio) as RP.
    replace (INR i / INR c + (INR (S i) / INR c - INR i / INR c) * ratio) with ((INR i + ratio) / INR c) in RP by (rewrite S_INR; field; lra).
    rewrite <- RP. reflexivity.
  Qed.

  Lemma wall_side len gap p q c : 0 < len + gap -> wholeSteps (dist p q) (len + gap) c -> (Z.of_nat c < 2 ^ 31)%Z ->
    wallSide realNums realGens w len gap p q = Ok (map vecPair (piecesOf (len / (len + gap)) p q (Nat.max 1 c))).
  Proof.
    intros St W L. unfold wallSide. cbn [realRows wDist]. change (nadd realNums len gap) with (len + gap).
    rewrite (count_ok dist ele _ _ _ St W L). cbn [bind]. f_equal.
    replace (Z.max (Z.of_nat c) 1) with (Z.of_nat (Nat.max 1 c)) by lia. rewrite up_to_nat.
    assert (P : (1 <= Nat.max 1 c)%nat) by lia. pose proof (wall_loop (len / (len + gap)) _ p q P (Nat.max 1 c) 0 eq_refl) as E.
    replace (INR 0 / INR (Nat.max 1 c)) with 0 in E by (unfold Rdiv; cbn [INR]; ring).
    rewrite along_start in E. exact E.
  Qed.

  Lemma wall_pieces len gap cnt l : 0 < len + gap -> counted dist (len + gap) cnt l ->
    wallPieces realNums realGens w len gap l = Ok (map vecPair (wallOf (len / (len + gap)) cnt l)).
  Proof.
    intros St H. unfold wallPieces. rewrite (over_sides _ (fun p q => map vecPair (piecesOf (len / (len + gap)) p q (Nat.max 1 (cnt p q))))).
    - f_equal. unfold wallOf. rewrite flat_map_map. apply flat_map_ext. intros [p q]. reflexivity.
    - intros p q I. destruct (H p q I) as (W & L). now apply wall_side.
  Qed.

  Lemma normal_zero p q : span p q <= / 2 ^ 52 -> normalOf realNums realTrig realGens (vecOf p) (vecOf q) = mkV2 0 0.
  Proof.
    intros H. unfold normalOf, normalized2. cbn [vecOf v2x v2y realNums realTrig realGens nsub nmul nadd ksqrt geps nzero ndiv].
    change (sqrt _) with (span p q). rewrite (rnlt_false _ _ H). cbn [v2x v2y]. f_equal. ring.
  Qed.

  Lemma ground_of v : groundAt realNums w 0 v = onGround ele (geoOf v).
  Proof. unfold groundAt, onGround. cbn. f_equal. ring. Qed.

  Lemma spot_place v col uv : spot (place v col uv) = v.
  Proof. destruct v. reflexivity. Qed.
  Lemma seen_box look l0 l1 r0 r1 h :
    flat_map (fun o => flat_map seen (newFaces realNums env o)) (boxOps realNums realTrig env look l0 l1 r0 r1 h) =
    boxWalls l0 l1 r0 r1 h ++ boxRoof l0 l1 r0 r1 h.
  Proof. destruct l0, l1, r0, r1. reflexivity. Qed.
  Lemma box_size look l0 l1 r0 r1 h :
    length (flat_map (newCorners realNums env) (boxOps realNums realTrig env look l0 l1 r0 r1 h)) = 30%nat.
  Proof. reflexivity. Qed.
  Lemma box_good look l0 l1 r0 r1 h : Forall (goodOp realNums env) (boxOps realNums realTrig env look l0 l1 r0 r1 h).
  Proof. repeat constructor. Qed.

  Lemma segment_box look width h a b : / 2 ^ 52 < span a b ->
    flat_map (fun o => flat_map seen (newFaces realNums env o)) (segmentOps realNums realTrig realGens env w look width h 0 (vecPair (a, b))) =
    wallBox ele width h (a, b).
  Proof.
    intros H. unfold segmentOps, vecPair, wallBox. cbn [fst snd]. rewrite seen_box, !ground_of, !left_aside, !right_aside by exact H. reflexivity.
  Qed.

  Lemma wall_ok st l cnt : l <> [] -> 0 < bLength st + bGap st -> counted dist (bLength st + bGap st) cnt l ->
    let pieces := wallOf (bLength st / (bLength st + bGap st)) cnt l in
    (forall a b, In (a, b) pieces -> / 2 ^ 52 < span a b) ->
    (2 * Z.of_nat (length pieces * 30) < 2 ^ 31)%Z ->
    exists m, buildWall realNums realTrig realGens env w st l = Ok [m] /\ wellFormed m (length pieces * 30) /\
      drawnIn m = flat_map (wallBox ele (bWidth st) (bHeight st)) pieces.
  Proof.
    intros NE St H pieces D L. unfold buildWall, wallOps. destruct l as [|p l]; [contradiction|].
    rewrite (wall_pieces _ _ cnt _ St H). cbn [bind]. fold pieces. set (ops := flat_map _ _).
    assert (N : length (flat_map (newCorners realNums env) (ops ++ [OpTexture (bLook st)])) = (length pieces * 30)%nat).
    { rewrite flat_map_app. cbn [flat_map newCorners]. rewrite !app_nil_r. unfold ops. rewrite flat_map_flat.
      rewrite <- (map_length vecPair pieces). apply flat_map_const_length. intros [a b] _. apply box_size. }
    destruct (run_drawn env (ops ++ [OpTexture (bLook st)])) as (m & E & A & _ & C).
    - apply Forall_app. split; [|repeat constructor]. apply Forall_forall. intros o I. apply in_flat_map in I.
      destruct I as ([a b] & _ & I). revert o I. apply Forall_forall. apply box_good.
    - rewrite N. exact L.
    - exists m. change (nzero realNums) with 0 in E. rewrite N in A. rewrite E. cbn [bind]. split; [reflexivity|]. split; [exact A|].
      rewrite C, flat_map_app. cbn [flat_map newFaces]. rewrite app_nil_r. unfold ops. rewrite flat_map_flat, flat_map_of_map.
      apply flat_map_ext_in. intros [a b] I. apply segment_box, D, I.
  Qed.
End Walls.

(** * Pillars *)
Section Pillars.
  Context (dist : point R -> point R -> R) (ele : R -> R -> R) (env : builderEnv R).
  Local Notation w := (realRows dist ele).

  Definition cylAt (dir right s1 s2 : vec3 R) (mh : R) (rad : Z) (c : vec3 R) : @cylinder R :=
    mkCylinder c dir right s1 s2 mh rad (fun v => v).
  Lemma shift_vadd d a b : vadd realNums (shift d a) b = shift d (vadd realNums a b).
  Proof. apply vec3_eq; cbn; ring. Qed.
  Lemma part_shift dir right s1 s2 mh rad c d h j i :
    cylinderPart realNums realTrig realGens (cylAt dir right s1 s2 mh rad (shift d c)) h j i =
    map (shiftTri d) (cylinderPart realNums realTrig realGens (cylAt dir right s1 s2 mh rad c) h j i).
  Proof.
    unfold cylinderPart, cylAt. cbn [ccenter cdirection cright csize1 csize2 cradial ctranslate]. cbv zeta.
    rewrite !shift_vadd, map_app. f_equal. rewrite map_app. f_equal.
    - destruct (i =? 0)%Z; reflexivity.
    - destruct (_ && _)%bool; reflexivity.
  Qed.
  Lemma cylinder_shift dir right s1 s2 mh rad c d :
    cylinderOf realNums realTrig realGens (cylAt dir right s1 s2 mh rad (shift d c)) =
    omap (map (shiftTri d)) (cylinderOf realNums realTrig realGens (cylAt dir right s1 s2 mh rad c)).
  Proof.
    unfold cylinderOf. replace (heightSegments realNums realGens (cylAt dir right s1 s2 mh rad (shift d c)))
      with (heightSegments realNums realGens (cylAt dir right s1 s2 mh rad c)) by reflexivity.
    destruct (heightSegments _ _ _) as [h|]; [|reflexivity]. cbn [omap bind]. apply f_equal.
    cbn [cylAt cradial]. rewrite flat_map_map. apply flat_map_ext. intros j. rewrite flat_map_map. apply flat_map_ext. intros i.
    apply part_shift.
  Qed.

  Local Notation shapeAt := (pillarShape realNums realTrig realGens w).
  Lemma shape_shift st p q ts : shapeAt st p = Ok ts ->
    shapeAt st q = Ok (map (shiftTri (mkV3 (plon q - plon p) (ele (plat q) (plon q) - ele (plat p) (plon p)) (plat q - plat p))) ts).
  Proof.
    unfold pillarShape. cbn [realRows wEle]. intros H.
    set (d := mkV3 (plon q - plon p) (ele (plat q) (plon q) - ele (plat p) (plon p)) (plat q - plat p)).
    replace (mkV3 (plon q) (ele (plat q) (plon q)) (plat q)) with (shift d (mkV3 (plon p) (ele (plat p) (plon p)) (plat p)))
      by (apply vec3_eq; cbn; ring).
    pose proof (cylinder_shift (mkV3 (nzero realNums) (kone realTrig) (nzero realNums)) (mkV3 (kone realTrig) (nzero realNums) (nzero realNums))
      (mkV3 (v3x (bRadius st)) (bHeight st) (v3z (bRadius st))) (mkV3 (v3x (bRadius st)) (bHeight st) (v3z (bRadius st)))
      (gint realGens 5) 7 (mkV3 (plon p) (ele (plat p) (plon p)) (plat p)) d) as Q.
    unfold cylAt in Q. rewrite Q.
    rewrite H. reflexivity.
  Qed.

  Lemma pillar_mesh st p ts : shapeAt st p = Ok ts -> (2 * Z.of_nat (length ts * 3) < 2 ^ 31)%Z ->
    exists m, pillarMesh realNums realTrig realGens env w st p = Ok m /\ wellFormed m (length ts * 3) /\ goodMap m /\ drawnIn m = ts.
  Proof.
    intros E L. unfold pillarMesh. rewrite E. cbn [bind]. set (ops := map (fun '(a, b, c) => triangleOp realNums realTrig env (nzero realNums) (bLook st) a b c) ts).
    assert (N : length (flat_map (newCorners realNums env) (ops ++ [OpTexture (bLook st)])) = (length ts * 3)%nat).
    { rewrite flat_map_app. cbn [flat_map newCorners]. rewrite !app_nil_r. unfold ops. rewrite flat_map_of_map.
      apply flat_map_const_length. intros [[a b] c] _. reflexivity. }
    destruct (run_drawn env (ops ++ [OpTexture (bLook st)])) as (m & R & A & G & C).
    - apply Forall_app. split; [|repeat constructor]. apply Forall_map, Forall_forall. intros [[a b] c] _. exact I.
    - rewrite N. exact L.
    - exists m. rewrite N in A. split; [exact R|]. split; [exact A|]. split; [exact G|].
      rewrite C, flat_map_app. cbn [flat_map newFaces]. rewrite app_nil_r. unfold ops. rewrite flat_map_of_map.
      clear. induction ts as [|[[a b] c] ts IH]; [reflexivity|]. cbn [flat_map]. rewrite IH. destruct a, b, c. reflexivity.
  Qed.
  Lemma pillar_one st p ts : shapeAt st p = Ok ts -> (2 * Z.of_nat (length ts * 3) < 2 ^ 31)%Z ->
    exists m, buildPillar realNums realTrig realGens env w st [p] = Ok [m] /\ drawnIn m = ts.
  Proof.
    intros E L. destruct (pillar_mesh st p ts E L) as (m & Em & _ & _ & D). exists m. split; [|exact D].
    unfold buildPillar. now rewrite Em.
  Qed.

  Lemma pillar_row st p q rest cnt ts : shapeAt st p = Ok ts -> (2 * Z.of_nat (length ts * 3) < 2 ^ 31)%Z ->
    0 < bStep st -> counted dist (bStep st) cnt (p :: q :: rest) ->
    (2 * Z.of_nat (length (rowsOf cnt (p :: q :: rest)) * (length ts * 3)) < 2 ^ 31)%Z ->
    exists m, buildPillar realNums realTrig realGens env w st (p :: q :: rest) = Ok [m] /\
      drawnIn m = flat_map (fun o => map (shiftTri (offsetTo ele p o)) ts) (rowsOf cnt (p :: q :: rest)).
  Proof.
    intros E L St H L2. destruct (pillar_mesh st p ts E L) as (src & Em & W & G & D).
    destruct (copies_run dist ele env p src _ _ W G L2) as (m & R & _ & _ & Dm). exists m.
    unfold buildPillar. rewrite Em. cbn [bind]. rewrite (along_ok dist ele p src _ cnt _ St H). cbn [bind]. rewrite R. cbn [bind].
    split; [reflexivity|]. rewrite Dm, D. reflexivity.
  Qed.
End Pillars.

(** * The style of relations *)
Section Style.
  Context {T E : Type} (n : nums T) (k : trig T) (g : gens T) (env : builderEnv T) (w : rows T) (styleFor : E -> barrierStyle T).
  Local Notation buildAll st := (inTurn (buildBarrier n k g env w st)).
  Lemma build_all_app st l l' : buildAll st (l ++ l') = bind (buildAll st l) (fun a => bind (buildAll st l') (fun r => Ok (a ++ r))).
  Proof.
    induction l as [|c l IH]; cbn [app inTurn bind].
    - destruct (buildAll st l'); reflexivity.
    - rewrite IH. destruct (buildBarrier n k g env w st c) as [a|x|]; [|reflexivity|reflexivity]. cbn [bind].
      destruct (buildAll st l) as [r|x|]; [|reflexivity|reflexivity]. cbn [bind].
      destruct (buildAll st l') as [s|x|]; [|reflexivity|reflexivity]. cbn [bind]. now rewrite app_assoc.
  Qed.
  Local Notation visit := (visitBarrier n k g env w styleFor).
  Definition membersOf := fix members (ms : list (barrier E T)) (kept : option (barrierStyle T)) :=
    match ms with
    | [] => Ok (kept, [])
    | m :: ms' => bind (visit m kept) (fun '(kept, a) => bind (members ms' kept) (fun '(kept, r) => Ok (kept, a ++ r)))
    end.

  Lemma visit_relation e ms kept : visit (BRelation e ms) kept =
    let '(kept, isSet) := setStyle styleFor e kept in
    bind (membersOf ms kept) (fun '(kept, a) => Ok (resetStyle isSet kept, a)).
  Proof. reflexivity. Qed.
  Fixpoint visit_kept (b : barrier E T) st {struct b} :
    visit b (Some st) = bind (buildAll st (linesOf b)) (fun ms => Ok (Some st, ms)).
  Proof.
    destruct b as [e c|e cs|e cs|e ms]; try (cbn; destruct (buildBarrier n k g env w st _); [|reflexivity|reflexivity]; cbn; now rewrite app_nil_r).
    rewrite visit_relation. cbn [setStyle linesOf].
    assert (M : membersOf ms (Some st) = bind (buildAll st (flat_map linesOf ms)) (fun r => Ok (Some st, r))).
    { induction ms as [|m ms IH]; [reflexivity|]. cbn [membersOf flat_map]. rewrite visit_kept, build_all_app.
      destruct (buildAll st (linesOf m)) as [a|x|]; [|reflexivity|reflexivity]. cbn [bind]. rewrite IH.
      destruct (buildAll st (flat_map linesOf ms)) as [r|x|]; reflexivity. }
    rewrite M. destruct (buildAll st (flat_map linesOf ms)); reflexivity.
  Qed.
  Lemma members_kept ms st : membersOf ms (Some st) = bind (buildAll st (flat_map linesOf ms)) (fun r => Ok (Some st, r)).
  Proof.
    induction ms as [|m ms IH]; [reflexivity|]. cbn [membersOf flat_map]. rewrite visit_kept, build_all_app.
    destruct (buildAll st (linesOf m)) as [a|x|]; [|reflexivity|reflexivity]. cbn [bind]. rewrite IH.
    destruct (buildAll st (flat_map linesOf ms)) as [r|x|]; reflexivity.
  Qed.
  Lemma visit_none b : visit b None = bind (buildAll (styleFor (ownOf b)) (linesOf b)) (fun ms => Ok (None, ms)).
  Proof.
    destruct b as [e c|e cs|e cs|e ms]; try (cbn; destruct (buildBarrier n k g env w _ _); [|reflexivity|reflexivity]; cbn; now rewrite app_nil_r).
    rewrite visit_relation. cbn [setStyle linesOf ownOf]. rewrite members_kept.
    destruct (buildAll (styleFor e) (flat_map linesOf ms)); reflexivity.
  Qed.
End Style.

(** * The shape of a box *)
Lemma aside_plat a b d o : plat (aside a b d o) = plat o + (plon b - plon a) / span a b * d.
Proof. reflexivity. Qed.
Lemma span_sq a b : span a b * span a b = (plon b - plon a) * (plon b - plon a) + (plat b - plat a) * (plat b - plat a).
Proof. unfold span. apply sqrt_sqrt. pose proof (Rle_0_sqr (plon b - plon a)). pose proof (Rle_0_sqr (plat b - plat a)). unfold Rsqr in *. lra. Qed.
Lemma aside_span a b d o : 0 < span a b -> span o (aside a b d o) = Rabs d.
Proof.
  intros H. unfold span at 1. cbn [aside plat plon].
  replace (_ + _) with (Rsqr d).
  - apply sqrt_Rsqr_abs.
  - pose proof (span_sq a b) as Q. unfold Rsqr. field_simplify_eq; [|lra]. replace (span a b ^ 2) with (span a b * span a b) by ring. rewrite Q. ring.
Qed.

(** The box with a floor has no hole: its triangles by the numbers of the corners, those above from 4 on. *)
From Verif Require GenProofs.
Definition boxNumbers : list (nat * nat * nat) :=
  let wall i j := [(i, j + 4, j); (i + 4, j + 4, i)]%nat in
  (wall 1 0 ++ wall 3 1 ++ wall 2 3 ++ wall 0 2 ++ [(4, 5, 6); (6, 5, 7)] ++ [(1, 0, 2); (1, 2, 3)])%nat.
Lemma box_tight l0 l1 r0 r1 h : watertight (boxWalls l0 l1 r0 r1 h ++ boxRoof l0 l1 r0 r1 h ++ boxFloor l0 l1 r0 r1).
Proof.
  assert (N : watertight (map (fun '(a, b, c) => (GenProofs.Base a, GenProofs.Base b, GenProofs.Base c)) boxNumbers)).
  { apply (GenProofs.permb_ok GenProofs.sideEqb GenProofs.sideEqb_ok). vm_compute. reflexivity. }
  apply (GenProofs.watertight_map (fun s => match s with GenProofs.Base i => nth i [l0; l1; r0; r1; above l0 h; above l1 h; above r0 h; above r1 h] l0 | _ => l0 end)) in N.
  exact N.
Qed.

(** Twice the area, seen from above, of the triangle of a side and a point. *)
Definition cross (p q m : vec3 R) : R := (v3x p - v3x m) * (v3z q - v3z m) - (v3z p - v3z m) * (v3x q - v3x m).
Lemma wall_outward p q m h : 0 < h -> 0 < cross p q m -> Forall (outward m) (upright4 p q h).
Proof.
  intros H C. assert (P : 0 < h * cross p q m) by now apply Rmult_lt_0_compat.
  apply Forall_cons; [|apply Forall_cons; [|apply Forall_nil]]; unfold outward, det3, vsub, above, cross in *; cbn [v3x v3y v3z] in *;
    (eapply Rlt_le_trans; [exact P|]); apply Req_le; ring.
Qed.

Section Box.
  Context (ele : R -> R -> R) (a b : point R) (width h : R).
  Hypothesis Long : 0 < span a b.
  Let cx := (plon b - plon a) / span a b.
  Let cz := (plat b - plat a) / span a b.
  Lemma unit_c : cx * cx + cz * cz = 1.
  Proof.
    unfold cx, cz. pose proof (span_sq a b) as Q. apply Rmult_eq_reg_r with (span a b * span a b); [|nra].
    rewrite Q at 2. field. lra.
  Qed.
  Lemma lon_b : plon b = plon a + span a b * cx.
  Proof. unfold cx. field. lra. Qed.
  Lemma lat_b : plat b = plat a + span a b * cz.
  Proof. unfold cz. field. lra. Qed.

  Lemma box_crosses s t y : 0 < s < 1 -> - width < t < width ->
    let o := aside a b t (along a b s) in let m := mkV3 (plon o) y (plat o) in
    let l0 := corner0 ele width a b in let l1 := corner1 ele width a b in
    let r0 := corner0 ele (- width) a b in let r1 := corner1 ele (- width) a b in
    0 < cross l1 l0 m /\ 0 < cross r1 l1 m /\ 0 < cross r0 r1 m /\ 0 < cross l0 r0 m.
  Proof.
    intros S T. cbv zeta. unfold corner0, corner1, onGround, cross. cbn [v3x v3z plon plat aside along].
    fold cx cz. rewrite lon_b, lat_b.
    replace (plon a + span a b * cx - plon a) with (span a b * cx) by ring. replace (plat a + span a b * cz - plat a) with (span a b * cz) by ring.
    pose proof unit_c as U.
    assert (W : 0 < span a b * (width - t) * (cx * cx + cz * cz)) by (rewrite U, Rmult_1_r; apply Rmult_lt_0_compat; lra).
    assert (W' : 0 < span a b * (width + t) * (cx * cx + cz * cz)) by (rewrite U, Rmult_1_r; apply Rmult_lt_0_compat; lra).
    assert (V : 0 < span a b * (1 - s) * (2 * width) * (cx * cx + cz * cz)).
    { rewrite U, Rmult_1_r. repeat apply Rmult_lt_0_compat; lra. }
    assert (V' : 0 < span a b * s * (2 * width) * (cx * cx + cz * cz)).
    { rewrite U, Rmult_1_r. repeat apply Rmult_lt_0_compat; lra. }
    repeat split; [eapply Rlt_le_trans; [exact W|]|eapply Rlt_le_trans; [exact V|]|eapply Rlt_le_trans; [exact W'|]|eapply Rlt_le_trans; [exact V'|]];
      apply Req_le; ring.
  Qed.
  Lemma box_roof : 0 < width ->
    Forall facesUp (boxRoof (corner0 ele width a b) (corner1 ele width a b) (corner0 ele (- width) a b) (corner1 ele (- width) a b) h).
  Proof.
    intros W. assert (V : 0 < span a b * (2 * width) * (cx * cx + cz * cz)).
    { rewrite unit_c, Rmult_1_r. repeat apply Rmult_lt_0_compat; lra. }
    apply Forall_cons; [|apply Forall_cons; [|apply Forall_nil]]; unfold facesUp, above, corner0, corner1, onGround; cbn [v3x v3z plon plat aside]; fold cx cz; rewrite lon_b, lat_b;
      (eapply Rlt_le_trans; [exact V|]); apply Req_le; ring.
  Qed.
End Box.
