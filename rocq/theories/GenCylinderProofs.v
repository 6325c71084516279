(** Proofs about cylinders. *)
From Coq Require Import Reals Lra Permutation.
From Verif Require Import Base RingModel MeshBuildModel QuatModel QuatSpec QuatProofs GenModel GenSpec GenProofs.
Local Open Scope nat_scope.

Lemma flat_map_perm {A B} (f g : A -> list B) l : (forall a, In a l -> Permutation (f a) (g a)) -> Permutation (flat_map f l) (flat_map g l).
Proof.
  induction l as [|a l IH]; intros H; [constructor|]. cbn [flat_map]. apply Permutation_app; [apply H; now left|].
  apply IH. intros b Hb. apply H. now right.
Qed.
Lemma flat_map_both {A B} (f g : A -> list B) l : Permutation (flat_map (fun a => f a ++ g a) l) (flat_map f l ++ flat_map g l).
Proof.
  induction l as [|a l IH]; [constructor|]. cbn [flat_map]. rewrite IH, <- !app_assoc. apply Permutation_app_head.
  rewrite !app_assoc. apply Permutation_app_tail, Permutation_app_comm.
Qed.
Lemma flat_map_flat_map {A B C} (f : A -> list B) (g : B -> list C) l : flat_map g (flat_map f l) = flat_map (fun a => flat_map g (f a)) l.
Proof. induction l as [|a l IH]; [reflexivity|]. cbn [flat_map]. now rewrite flat_map_app, IH. Qed.
Lemma flat_map_map {A B C} (f : A -> B) (g : B -> list C) l : flat_map g (map f l) = flat_map (fun a => g (f a)) l.
Proof. induction l as [|a l IH]; [reflexivity|]. cbn [flat_map map]. now rewrite IH. Qed.
Lemma map_flat_map {A B C} (f : A -> list B) (g : B -> C) l : map g (flat_map f l) = flat_map (fun a => map g (f a)) l.
Proof. induction l as [|a l IH]; [reflexivity|]. cbn [flat_map]. now rewrite map_app, IH. Qed.

(** Ints from 0 on. *)
Lemma upTo_in h i : In i (upTo h) <-> (0 <= i < h)%Z.
Proof.
  unfold upTo. rewrite in_map_iff. split.
  - intros (m & <- & H). apply in_seq in H. lia.
  - intros H. exists (Z.to_nat i). split; [lia|]. apply in_seq. lia.
Qed.
Lemma upTo_S h : (0 <= h)%Z -> upTo (h + 1) = upTo h ++ [h].
Proof.
  intros H. unfold upTo. replace (Z.to_nat (h + 1)) with (S (Z.to_nat h)) by lia.
  rewrite seq_S, map_app. cbn [map]. repeat f_equal. lia.
Qed.
Lemma upTo_cons h : (0 < h)%Z -> upTo h = 0%Z :: map (fun i => i + 1)%Z (upTo (h - 1)).
Proof.
  intros H. unfold upTo. replace (Z.to_nat h) with (S (Z.to_nat (h - 1))) by lia. cbn [seq map]. f_equal.
  rewrite <- seq_shift, !map_map. apply map_ext. intros a. lia.
Qed.
Lemma upTo_none h : (h <= 0)%Z -> upTo h = [].
Proof. intros H. unfold upTo. now replace (Z.to_nat h) with 0 by lia. Qed.
Lemma upTo_length h : length (upTo h) = Z.to_nat h.
Proof. unfold upTo. now rewrite map_length, seq_length. Qed.

(** One value added at the first or at the last. *)
Lemma upTo_first {B} (f : Z -> list B) h : (0 < h)%Z -> flat_map (fun i => if (i =? 0)%Z then f i else []) (upTo h) = f 0%Z.
Proof.
  intros H. rewrite upTo_cons by exact H. cbn [flat_map]. cbn [Z.eqb]. rewrite flat_map_map.
  replace (flat_map _ _) with (@nil B); [apply app_nil_r|]. symmetry.
  assert (E : forall l, (forall i, In i l -> (0 <= i)%Z) -> flat_map (fun a => if (a + 1 =? 0)%Z then f (a + 1)%Z else []) l = []).
  { induction l as [|a l IH]; intros P; [reflexivity|]. cbn [flat_map]. rewrite IH by (intros; apply P; now right).
    assert (0 <= a)%Z by (apply P; now left). destruct (Z.eqb_spec (a + 1) 0); [lia|reflexivity]. }
  apply E. intros i Hi. apply upTo_in in Hi. lia.
Qed.
Lemma upTo_last {B} (f : Z -> list B) h : (0 < h)%Z -> flat_map (fun i => if (i =? h - 1)%Z then f i else []) (upTo h) = f (h - 1)%Z.
Proof.
  intros H. replace (upTo h) with (upTo (h - 1) ++ [(h - 1)%Z]) by (rewrite <- upTo_S by lia; f_equal; lia).
  rewrite flat_map_app. cbn [flat_map].
  rewrite Z.eqb_refl, app_nil_r.
  assert (E : forall l, (forall i, In i l -> (i < h - 1)%Z) -> flat_map (fun a => if (a =? h - 1)%Z then f a else []) l = []).
  { induction l as [|a l IH]; intros P; [reflexivity|]. cbn [flat_map]. rewrite IH by (intros; apply P; now right).
    assert (a < h - 1)%Z by (apply P; now left). destruct (Z.eqb_spec a (h - 1)); [lia|reflexivity]. }
  rewrite E; [reflexivity|]. intros i Hi. apply upTo_in in Hi. lia.
Qed.

(** The next one around. *)
Definition nextOf (n j : Z) : Z := if (j =? n - 1)%Z then 0%Z else (j + 1)%Z.
Lemma next_all {B} (f : Z -> list B) n : Permutation (flat_map (fun j => f (nextOf n j)) (upTo n)) (flat_map f (upTo n)).
Proof.
  destruct (Z_le_gt_dec n 0) as [L|L]; [now rewrite upTo_none|].
  replace (upTo n) with (upTo (n - 1) ++ [(n - 1)%Z]) at 1 by (rewrite <- upTo_S by lia; f_equal; lia).
  rewrite (upTo_cons n) by lia. rewrite flat_map_app. cbn [flat_map]. rewrite flat_map_map, app_nil_r.
  unfold nextOf at 2. rewrite Z.eqb_refl. rewrite Permutation_app_comm. apply Permutation_app_head.
  apply flat_map_perm. intros a Ha. apply upTo_in in Ha. unfold nextOf. now destruct (Z.eqb_spec a (n - 1)); [lia|].
Qed.

Lemma shuffle {B} (env : list (list B)) l l' : permb Nat.eqb l l' = true ->
  Permutation (flat_map (fun i => nth i env []) l) (flat_map (fun i => nth i env []) l').
Proof. intros H. apply Permutation_flat_map, (permb_ok Nat.eqb (fun a b => proj1 (Nat.eqb_eq a b))), H. Qed.

(** Grids of points bent round. *)
Section Grid.
  Context {P : Type} (A : Z -> Z -> P) (low high : P) (n h : Z).
  Definition quad (j i : Z) : list (P * P * P) :=
    let b := nextOf n j in [(A b i, A b (i + 1)%Z, A j i); (A j i, A b (i + 1)%Z, A j (i + 1)%Z)].
  Definition cell (top : bool) (j i : Z) : list (P * P * P) :=
    quad j i ++ (if (i =? 0)%Z then [(low, A (nextOf n j) 0%Z, A j 0%Z)] else []) ++
    (if ((i =? h - 1)%Z && top)%bool then [(high, A j h, A (nextOf n j) h)] else []).
  Definition gridOf (top : bool) : list (P * P * P) := flat_map (fun j => flat_map (cell top j) (upTo h)) (upTo n).

  Lemma column_perm j : (0 < h)%Z -> Permutation (flat_map (cell true j) (upTo h))
    (flat_map (quad j) (upTo h) ++ [(low, A (nextOf n j) 0%Z, A j 0%Z)] ++ [(high, A j h, A (nextOf n j) h)]).
  Proof.
    intros H. unfold cell. rewrite flat_map_both, flat_map_both. apply Permutation_app_head.
    rewrite (upTo_first (fun _ => _)) by exact H. apply Permutation_app_head.
    erewrite flat_map_ext; [|intros a; rewrite Bool.andb_true_r; reflexivity].
    now rewrite (upTo_last (fun _ => _)) by exact H.
  Qed.

  (** What goes up at [j], with the spokes to the two centres. *)
  Definition lift (j : Z) : list (P * P) := flat_map (fun i => [(A j i, A j (i + 1)%Z)]) (upTo h) ++ [(low, A j 0%Z); (A j h, high)].
  Definition flat (j : Z) : list (P * P) :=
    flat_map (fun i => [(A (nextOf n j) (i + 1)%Z, A j i)]) (upTo h) ++ flat_map (fun i => [(A j i, A (nextOf n j) i)]) (upTo (h + 1)).

  Lemma flipped_twice (l : list (P * P)) : map flipped (map flipped l) = l.
  Proof. rewrite map_map. rewrite <- (map_id l) at 2. apply map_ext. now intros [a b]. Qed.

  Lemma column_sides j : (0 < h)%Z ->
    Permutation (allSides (flat_map (cell true j) (upTo h)))
      ((map flipped (lift j) ++ flat j ++ map flipped (flat j)) ++ lift (nextOf n j)).
  Proof.
    intros H. unfold allSides. rewrite (Permutation_flat_map sides (column_perm j H)), !flat_map_app, flat_map_flat_map.
    cbn [flat_map sides app]. set (b := nextOf n j).
    set (V := fun j i => [(A j i, A j (i + 1)%Z)]).
    set (D := fun i => [(A b (i + 1)%Z, A j i)]).
    set (H0 := fun i => [(A j i, A b i)]).
    set (fl := fun (f : Z -> list (P * P)) i => map flipped (f i)).
    assert (Q : Permutation (flat_map (fun i => flat_map sides (quad j i)) (upTo h))
      ((flat_map (V b) (upTo h) ++ flat_map D (upTo h) ++ flat_map H0 (upTo h)) ++
       flat_map (fl D) (upTo h) ++ flat_map (fun i => fl H0 (i + 1)%Z) (upTo h) ++ flat_map (fl (V j)) (upTo h))).
    { rewrite <- !flat_map_both. apply Permutation_refl'. apply flat_map_ext. intros i. reflexivity. }
    rewrite Q. clear Q.
    assert (U : flat_map H0 (upTo (h + 1)) = flat_map H0 (upTo h) ++ H0 h).
    { rewrite upTo_S by lia. rewrite flat_map_app. cbn [flat_map]. now rewrite app_nil_r. }
    assert (U' : flat_map (fl H0) (upTo (h + 1)) = fl H0 0%Z ++ flat_map (fun i => fl H0 (i + 1)%Z) (upTo h)).
    { rewrite upTo_cons by lia. cbn [flat_map]. rewrite flat_map_map. do 3 f_equal. lia. }
    unfold lift, flat. fold b. fold (V b) (V j). fold D. fold H0. rewrite U. rewrite !map_app. rewrite !map_flat_map. fold (fl (V j)) (fl D).
    replace (flat_map (fun a => map flipped (H0 a)) (upTo h) ++ map flipped (H0 h)) with (flat_map (fl H0) (upTo (h + 1)))
      by (rewrite upTo_S by lia; rewrite flat_map_app; cbn [flat_map]; now rewrite app_nil_r).
    rewrite U'.
    set (v1 := flat_map (V b) (upTo h)). set (v2 := flat_map (fl (V j)) (upTo h)). set (d1 := flat_map D (upTo h)).
    set (d2 := flat_map (fl D) (upTo h)). set (h1 := flat_map H0 (upTo h)). set (h2 := flat_map (fun i => fl H0 (i + 1)%Z) (upTo h)).
    cbn [map flipped fst snd]. unfold fl, H0. cbn [map flipped fst snd].
    clearbody v1 v2 d1 d2 h1 h2. clear.
    apply (Permutation_trans (l' := v1 ++ d1 ++ h1 ++ d2 ++ h2 ++ v2 ++
      [(low, A b 0%Z)] ++ [(A b 0%Z, A j 0%Z)] ++ [(A j 0%Z, low)] ++ [(high, A j h)] ++ [(A j h, A b h)] ++ [(A b h, high)])).
    { rewrite <- !app_assoc. reflexivity. }
    apply (Permutation_trans (l' := v2 ++ [(A j 0%Z, low)] ++ [(high, A j h)] ++ d1 ++ h1 ++ [(A j h, A b h)] ++ d2 ++
      [(A b 0%Z, A j 0%Z)] ++ h2 ++ v1 ++ [(low, A b 0%Z)] ++ [(A b h, high)])).
    2: { rewrite <- !app_assoc. cbn [app]. reflexivity. }
    generalize [(low, A b 0%Z)] [(A b 0%Z, A j 0%Z)] [(A j 0%Z, low)] [(high, A j h)] [(A j h, A b h)] [(A b h, high)].
    intros x1 x2 x3 x4 x5 x6.
    pose proof (shuffle [v1; d1; h1; d2; h2; v2; x1; x2; x3; x4; x5; x6] [0; 1; 2; 3; 4; 5; 6; 7; 8; 9; 10; 11]
      [5; 8; 9; 1; 2; 10; 3; 7; 4; 0; 6; 11] eq_refl) as S.
    cbn [flat_map nth] in S. rewrite !app_nil_r in S. exact S.
  Qed.

  Lemma grid_tight : watertight (gridOf true).
  Proof.
    unfold watertight. destruct (Z_le_gt_dec h 0) as [L|L].
    { unfold gridOf. rewrite (upTo_none h) by exact L. cbn [flat_map].
      replace (flat_map (fun _ => []) (upTo n)) with (@nil (P * P * P)); [constructor|]. now induction (upTo n). }
    assert (E : Permutation (allSides (gridOf true)) (flat_map (fun j => lift j ++ flat j) (upTo n) ++ map flipped (flat_map (fun j => lift j ++ flat j) (upTo n)))).
    { unfold gridOf, allSides. rewrite flat_map_flat_map.
      rewrite (flat_map_perm _ _ _ (fun j _ => column_sides j ltac:(lia))). rewrite flat_map_both, next_all.
      rewrite map_flat_map, <- !flat_map_both. apply flat_map_perm. intros j _. rewrite map_app.
      pose proof (shuffle [map flipped (lift j); flat j; map flipped (flat j); lift j] [0; 1; 2; 3] [3; 1; 0; 2] eq_refl) as S.
      cbn [flat_map nth] in S. rewrite !app_nil_r in S. rewrite <- !app_assoc. exact S. }
    rewrite E, map_app, flipped_twice. apply Permutation_app_comm.
  Qed.
  (** Without a top, if the uppermost points are all the same. *)
  Lemma grid_tip : (forall j, A j h = high) -> watertight (gridOf false).
  Proof.
    intros T. pose proof grid_tight as W. unfold watertight in *.
    assert (E : Permutation (allSides (gridOf true)) (allSides (gridOf false) ++ flat_map (fun j => flat_map (fun i => if (i =? h - 1)%Z then [(high, high); (high, high); (high, high)] else []) (upTo h)) (upTo n))).
    { unfold gridOf, allSides. rewrite !flat_map_flat_map. rewrite <- flat_map_both. apply flat_map_perm. intros j _.
      rewrite !flat_map_flat_map, <- flat_map_both. apply flat_map_perm. intros i _. unfold cell. rewrite Bool.andb_true_r, Bool.andb_false_r, app_nil_r.
      rewrite app_assoc, flat_map_app. apply Permutation_app_head. destruct (i =? h - 1)%Z; [|reflexivity]. cbn [flat_map sides app].
      now rewrite !T. }
    set (R := flat_map (fun j => _) (upTo n)) in E.
    assert (F : map flipped R = R).
    { unfold R. rewrite map_flat_map. apply flat_map_ext. intros j. rewrite map_flat_map. apply flat_map_ext. intros i. now destruct (i =? h - 1)%Z. }
    rewrite E, map_app, F in W. eapply Permutation_app_inv_r. exact W.
  Qed.
  Lemma grid_count top : (0 < h)%Z -> length (gridOf top) = Z.to_nat n * (2 * Z.to_nat h + (if top then 2 else 1)).
  Proof.
    intros H. unfold gridOf. rewrite <- (upTo_length n). induction (upTo n) as [|j l IH]; [reflexivity|]. cbn [flat_map length].
    rewrite app_length, IH. clear IH.
    enough (E : length (flat_map (cell top j) (upTo h)) = 2 * Z.to_nat h + (if top then 2 else 1)) by (rewrite E; lia). clear l. unfold cell.
    rewrite (Permutation_length (flat_map_both (quad j) _ (upTo h))), app_length.
    rewrite (Permutation_length (flat_map_both (fun i => if (i =? 0)%Z then _ else _) _ (upTo h))), app_length.
    rewrite (upTo_first (fun _ => [(low, A (nextOf n j) 0%Z, A j 0%Z)])) by exact H.
    assert (Q : length (flat_map (quad j) (upTo h)) = 2 * Z.to_nat h).
    { rewrite <- (upTo_length h). clear H. induction (upTo h) as [|i l IH]; [reflexivity|]. cbn [flat_map quad app length]. rewrite IH. lia. }
    rewrite Q. destruct top.
    - erewrite (flat_map_ext (fun a => if ((a =? h - 1)%Z && true)%bool then _ else _)); [|intros a; rewrite Bool.andb_true_r; reflexivity].
      rewrite (upTo_last (fun _ => [(high, A j h, A (nextOf n j) h)])) by exact H. cbn [length]. lia.
    - erewrite (flat_map_ext (fun a => if ((a =? h - 1)%Z && false)%bool then _ else _)); [|intros a; rewrite Bool.andb_false_r; reflexivity].
      replace (flat_map (fun _ => []) (upTo h)) with (@nil (P * P * P)) by (clear; now induction (upTo h)). cbn [length]. lia.
  Qed.
End Grid.

Section Cylinder.
  Context {T : Type} (n : nums T) (k : trig T) (g : gens T).
  (** Points of a cylinder. *)
  Definition ringCenter (c : cylinder) (h i : Z) : vec3 T :=
    vadd n (ccenter c) (vscale n (cdirection c) (nmul n (ndiv n (v3y (csize1 c)) (gint g h)) (gint g i))).
  Definition ringPoint (c : cylinder) (h j i : Z) : vec3 T :=
    ctranslate c (vadd n (ringCenter c h i) (scaleBy n (qapply n k (fromAngleAxis n k (nmul n (gint g j) (ndiv n (nmul n (gint g 2) (gpi g)) (gint g (cradial c)))) (cdirection c)) (cright c))
      (radiusAt n k (csize1 c) (csize2 c) (ndiv n (gint g (h - i)%Z) (gint g h))))).
  Definition capped (c : cylinder) : bool := negb (sameVec3 n g (csize2 c) (vzero n)).
  Lemma part_cell c h j i : (0 <= i < h)%Z ->
    cylinderPart n k g c h j i =
    cell (ringPoint c h) (ctranslate c (ringCenter c h 0)) (ctranslate c (ringCenter c h h)) (cradial c) h (capped c) j i.
  Proof.
    intros H. unfold cylinderPart, cell, quad, ringPoint, ringCenter, capped. rewrite <- Z.sub_add_distr. fold (nextOf (cradial c) j).
    cbn [app]. do 2 f_equal. f_equal.
    - destruct (Z.eqb_spec i 0); [now subst|reflexivity].
    - destruct (Z.eqb_spec i (h - 1)) as [E|E]; [|reflexivity]. cbn [andb]. replace (i + 1)%Z with h by lia. reflexivity.
  Qed.
  Lemma cylinder_grid c h : heightSegments n g c = Some h ->
    cylinderOf n k g c = Ok (gridOf (ringPoint c h) (ctranslate c (ringCenter c h 0)) (ctranslate c (ringCenter c h h)) (cradial c) h (capped c)).
  Proof.
    intros H. unfold cylinderOf. rewrite H. f_equal. unfold gridOf. apply flat_map_ext. intros j.
    assert (E : forall l, (forall i, In i l -> (0 <= i < h)%Z) -> flat_map (cylinderPart n k g c h j) l =
      flat_map (cell (ringPoint c h) (ctranslate c (ringCenter c h 0)) (ctranslate c (ringCenter c h h)) (cradial c) h (capped c) j) l).
    { induction l as [|i l IH]; intros P; [reflexivity|]. cbn [flat_map]. rewrite part_cell by (apply P; now left).
      rewrite IH; [reflexivity|]. intros; apply P; now right. }
    apply E. intros i Hi. now apply upTo_in.
  Qed.
End Cylinder.

Local Open Scope R_scope.
Notation realCylinder := (cylinderOf realNums realTrig realGens).
Definition upright (c : @cylinder R) : Prop := cdirection c = axisY /\ cright c = axisX /\ ctranslate c = (fun v => v).

Lemma real_center c h i : upright c -> (0 < h)%Z ->
  ringCenter realNums realGens c h i = above (ccenter c) (IZR i / IZR h * v3y (csize1 c)).
Proof.
  intros (D & _ & _) H. apply IZR_lt in H. unfold ringCenter, above, vadd, vscale. rewrite D.
  cbn [realNums realGens gint nadd nmul ndiv axisY v3x v3y v3z]. apply vec3_eq; cbn [v3x v3y v3z]; field; lra.
Qed.
Lemma real_point c h j i : upright c -> (0 < h)%Z -> (0 < cradial c)%Z ->
  ringPoint realNums realTrig realGens c h j i = wallPoint (ccenter c) (csize1 c) (csize2 c) (IZR i / IZR h) (IZR j * (2 * PI / IZR (cradial c))).
Proof.
  intros U H N. unfold ringPoint. rewrite (real_center c h i U H). destruct U as (D & E & F). rewrite D, E, F.
  rewrite axis_turned by (unfold unitAxis, dot3; cbn; ring). apply IZR_lt in H.
  cbn [realGens gint gpi realNums nmul ndiv]. set (a := IZR j * (2 * PI / IZR (cradial c))).
  unfold wallPoint, above, vadd, scaleBy, turned, comb3, cross3, dot3, radiusAt, lerp.
  cbn [realNums realTrig kone nadd nsub nmul ndiv axisY axisX v3x v3y v3z]. rewrite minus_IZR.
  apply vec3_eq; cbn [v3x v3y v3z]; field; lra.
Qed.

(** The angles of neighbours. *)
Lemma sin_next n j : (3 <= n)%Z -> (0 <= j < n)%Z ->
  0 < sin (IZR (nextOf n j) * (2 * PI / IZR n) - IZR j * (2 * PI / IZR n)).
Proof.
  intros N J. assert (H : 0 < sin (2 * PI / IZR n)).
  { pose proof PI_RGT_0 as P. apply IZR_le in N. apply sin_gt_0.
    - apply Rdiv_lt_0_compat; lra.
    - apply Rmult_lt_reg_r with (IZR n); [lra|]. unfold Rdiv. rewrite Rmult_assoc, Rinv_l, Rmult_1_r by lra. nra. }
  unfold nextOf. destruct (Z.eqb_spec j (n - 1)) as [E|E].
  - subst j. rewrite minus_IZR. replace (0 * _ - _) with (2 * PI / IZR n - 2 * PI) by (field; apply IZR_le in N; lra).
    rewrite <- (sin_period _ 1). cbn [INR]. replace (_ - _ + _) with (2 * PI / IZR n) by ring. exact H.
  - rewrite plus_IZR. replace (_ - _) with (2 * PI / IZR n) by ring. exact H.
Qed.

(** The two triangles of a wall and the two of the caps. *)
Lemma wall_det c s1 s2 l f1 f2 a b d : v3x s2 = l * v3x s1 -> v3z s2 = l * v3z s1 ->
  let m := above c (d * v3y s1) in
  let p := wallPoint c s1 s2 in
  det3 (vsub (p f1 b) m) (vsub (p f2 b) m) (vsub (p f1 a) m) =
    v3x s1 * v3y s1 * v3z s1 * (1 - f1 + f1 * l) * ((f2 - f1) * (1 - d * (1 - l))) * sin (b - a) /\
  det3 (vsub (p f1 a) m) (vsub (p f2 b) m) (vsub (p f2 a) m) =
    v3x s1 * v3y s1 * v3z s1 * (1 - f2 + f2 * l) * ((f2 - f1) * (1 - d * (1 - l))) * sin (b - a).
Proof.
  intros X Z m p. rewrite sin_minus. unfold det3, vsub, m, p, wallPoint, above. cbn [v3x v3y v3z]. rewrite X, Z. split; ring.
Qed.
Lemma cap_det c s1 s2 a b d f : 
  let m := above c (d * v3y s1) in
  let p := wallPoint c s1 s2 in
  det3 (vsub (above c (f * v3y s1)) m) (vsub (p f b) m) (vsub (p f a) m) =
    (d - f) * v3y s1 * ((1 - f) * v3x s1 + f * v3x s2) * ((1 - f) * v3z s1 + f * v3z s2) * sin (b - a).
Proof. intros m p. rewrite sin_minus. unfold det3, vsub, m, p, wallPoint, above. cbn [v3x v3y v3z]. ring. Qed.
Lemma cap_det' c s1 s2 a b d f : 
  let m := above c (d * v3y s1) in
  let p := wallPoint c s1 s2 in
  det3 (vsub (above c (f * v3y s1)) m) (vsub (p f a) m) (vsub (p f b) m) =
    (f - d) * v3y s1 * ((1 - f) * v3x s1 + f * v3x s2) * ((1 - f) * v3z s1 + f * v3z s2) * sin (b - a).
Proof. intros m p. rewrite sin_minus. unfold det3, vsub, m, p, wallPoint, above. cbn [v3x v3y v3z]. ring. Qed.

(** A triangle of the result is one of the four kinds. *)
Lemma grid_in {P} (A : Z -> Z -> P) low high n h top t : In t (gridOf A low high n h top) ->
  exists j i, (0 <= j < n)%Z /\ (0 <= i < h)%Z /\
    (t = (A (nextOf n j) i, A (nextOf n j) (i + 1)%Z, A j i) \/ t = (A j i, A (nextOf n j) (i + 1)%Z, A j (i + 1)%Z) \/
     t = (low, A (nextOf n j) 0%Z, A j 0%Z) \/ t = (high, A j h, A (nextOf n j) h)).
Proof.
  unfold gridOf. intros H. apply in_flat_map in H. destruct H as (j & Hj & H). apply in_flat_map in H. destruct H as (i & Hi & H).
  apply upTo_in in Hj, Hi. exists j, i. split; [exact Hj|]. split; [exact Hi|].
  unfold cell, quad in H. apply in_app_or in H. destruct H as [H|H].
  - cbn [In] in H. destruct H as [H|[H|[]]]; auto.
  - apply in_app_or in H. destruct H as [H|H].
    + destruct (i =? 0)%Z; [|easy]. cbn [In] in H. destruct H as [H|[]]. auto.
    + destruct (_ && _)%bool; [|easy]. cbn [In] in H. destruct H as [H|[]]. auto.
Qed.

Lemma fraction_bounds i h : (0 <= i <= h)%Z -> (0 < h)%Z -> 0 <= IZR i / IZR h <= 1.
Proof.
  intros (A & B) H. apply IZR_le in A, B. apply IZR_lt in H. split.
  - unfold Rdiv. apply Rmult_le_pos; [lra|]. left. apply Rinv_0_lt_compat. lra.
  - apply Rmult_le_reg_r with (IZR h); [lra|]. unfold Rdiv. rewrite Rmult_assoc, Rinv_l; lra.
Qed.
Lemma fraction_all h : (0 < h)%Z -> IZR h / IZR h = 1.
Proof. intros H. apply IZR_lt in H. field. lra. Qed.

(** The triangles of an upright cylinder, by its points. *)
Lemma upright_in c h ts t : upright c -> heightSegments realNums realGens c = Some h -> realCylinder c = Ok ts -> In t ts ->
  (0 < h)%Z /\ (0 < cradial c)%Z /\
  exists j i, (0 <= j < cradial c)%Z /\ (0 <= i < h)%Z /\
  let p := wallPoint (ccenter c) (csize1 c) (csize2 c) in
  let a := IZR j * (2 * PI / IZR (cradial c)) in
  let b := IZR (nextOf (cradial c) j) * (2 * PI / IZR (cradial c)) in
  let f1 := IZR i / IZR h in let f2 := IZR (i + 1) / IZR h in
  t = (p f1 b, p f2 b, p f1 a) \/ t = (p f1 a, p f2 b, p f2 a) \/ t = (above (ccenter c) (0 * v3y (csize1 c)), p 0 b, p 0 a) \/
  t = (above (ccenter c) (1 * v3y (csize1 c)), p 1 a, p 1 b).
Proof.
  intros U S R H. rewrite (cylinder_grid _ _ _ c h S) in R. injection R as <-. apply grid_in in H.
  destruct H as (j & i & J & I & H). split; [lia|]. split; [lia|]. exists j, i. split; [exact J|]. split; [exact I|].
  rewrite !real_point, !real_center in H by (first [exact U|lia]). cbv zeta.
  assert (Ut : ctranslate c = (fun v => v)) by apply U. rewrite Ut in H. rewrite fraction_all in H by lia.
  replace (IZR 0 / IZR h) with 0 in H by (unfold Rdiv; ring). exact H.
Qed.

Lemma segments_ceil c h : 0 < cmaxHeight c -> heightSegments realNums realGens c = Some h -> v3y (csize1 c) / cmaxHeight c <= IZR h < v3y (csize1 c) / cmaxHeight c + 1.
Proof.
  intros M. unfold heightSegments. cbn [realNums nlt nzero ndiv realGens gceil].
  destruct (_ || _)%bool eqn:E.
  - destruct (_ && _)%bool; [|easy]. intros H. injection H as <-.
    destruct (archimed (- (v3y (csize1 c) / cmaxHeight c))) as (A & B).
    rewrite opp_IZR, minus_IZR. lra.
  - exfalso. apply Bool.orb_false_iff in E. destruct E as (_ & E). destruct (Rlt_dec 0 (cmaxHeight c)); easy.
Qed.
