(** C74: the noise which shades terrain and the roofs, walls and trees on it. *)
From Coq Require Import Reals Lra Lia.
From Verif Require Import Base RingModel MeshBuildModel QuatModel GenModel RowModel NoiseModel NoiseSpec NoiseProofs.
Local Open Scope R_scope.

Notation perlin := (perlin2D realNums realTrig realGens realFloor realTiny).
Notation timeOfColor := (colorTime realNums realTrig realGens realFloor realTiny).

(** ** The value is the sum of the influences of the four corners of a cell around the place; a place on the border of cells
    may be counted to either. *)
Theorem C74_cells : exists P, shuffled P /\
  forall x y f i j, realTiny <= f -> fits (realFloor (x * f)) -> fits (realFloor (y * f)) ->
    inCell i (x * f) -> inCell j (y * f) -> perlin x y f = Ok (noiseIn (gradientsOf P) i j (x * f) (y * f)).
Proof. exists hashOf. split; [exact hash_shuffled|]. intros x y f i j F X Y I J. rewrite perlin_cell by assumption. now rewrite (any_cell _ i j). Qed.
Print Assumptions C74_cells.

(** ** It is undefined exactly if a coordinate times the frequency is out of the range of an int. *)
Theorem C74_defined x y f :
  (perlin x y f = UB <-> realTiny <= f /\ ~ (fits (realFloor (x * f)) /\ fits (realFloor (y * f)))) /\
  (f < realTiny -> perlin x y f = Ok 0) /\ (perlin x y f <> UB -> exists v, perlin x y f = Ok v).
Proof.
  destruct (Rlt_dec f realTiny) as [L|L].
  - rewrite (perlin_low x y f L). split; [split; [discriminate|intros (F & _); lra]|]. split; [reflexivity|]. intros _. now exists 0.
  - apply Rnot_lt_le in L. destruct (fits_dec (realFloor (x * f))) as [X|X], (fits_dec (realFloor (y * f))) as [Y|Y];
      try (rewrite perlin_ub by (try assumption; intros (A & B); contradiction); split;
           [split; [intros _; split; [exact L|intros (A & B); contradiction]|reflexivity]|split; [intros; lra|intros N; now destruct N]]).
    rewrite (perlin_cell x y f L X Y). split; [split; [discriminate|intros (_ & N); exfalso; apply N; now split]|].
    split; [intros; lra|]. intros _. now eexists.
Qed.
Print Assumptions C74_defined.

(** ** It is between -1 and 1, and the time of a color between 0 and 1. *)
Theorem C74_range x y f v : perlin x y f = Ok v -> -1 <= v <= 1.
Proof.
  intros E. destruct (Rlt_dec f realTiny) as [L|L]; [rewrite (perlin_low x y f L) in E; injection E as <-; lra|]. apply Rnot_lt_le in L.
  destruct (C74_defined x y f) as ((_ & D) & _). destruct (fits_dec (realFloor (x * f))) as [X|X], (fits_dec (realFloor (y * f))) as [Y|Y];
    try (rewrite D in E by (split; [exact L|intros (A & B); contradiction]); discriminate).
  rewrite (perlin_cell x y f L X Y) in E. injection E as <-. apply noise_range. intros i j. apply gradients_unit.
Qed.
Print Assumptions C74_range.
Theorem C74_time x y f t : timeOfColor x y f = Ok t -> 0 <= t <= 1.
Proof.
  unfold colorTime. destruct (perlin x y f) as [v|e|] eqn:E; cbn [bind]; try discriminate. intros Q. injection Q as <-.
  pose proof (C74_range x y f v E). cbn [realNums realGens nadd ndiv gint]. lra.
Qed.
Print Assumptions C74_time.

(** Both ends are reached: in the middle of the cells (1, 22) and (17, 183). *)
Lemma middle (i j : Z) : fits i -> fits j ->
  perlin (IZR i + / 2) (IZR j + / 2) 1 =
  Ok (sqrt 2 * blend (gradientsOf hashOf i j) (gradientsOf hashOf (i + 1) j) (gradientsOf hashOf i (j + 1)) (gradientsOf hashOf (i + 1) (j + 1)) (/ 2) (/ 2)).
Proof.
  intros I J. assert (Fl : forall a : Z, realFloor ((IZR a + / 2) * 1) = a).
  { intros a. apply floor_is. lra. }
  rewrite perlin_cell by (try (rewrite Fl; assumption); unfold realTiny; lra). unfold noise. rewrite !Fl.
  rewrite noise_blend by (unfold inCell; lra).
  replace ((IZR i + / 2) * 1 - IZR i) with (/ 2) by ring. replace ((IZR j + / 2) * 1 - IZR j) with (/ 2) by ring. reflexivity.
Qed.
Lemma half_over : sqrt 2 * (1 / sqrt 2) = 1.
Proof. pose proof sqrt2_pos. field. lra. Qed.
Theorem C74_sharp : perlin (1 + / 2) (22 + / 2) 1 = Ok 1 /\ perlin (17 + / 2) (183 + / 2) 1 = Ok (-1).
Proof.
  pose proof half_over as H.
  split; rewrite middle by (unfold fits; lia);
    unfold gradientsOf, blend, fade.
  - repeat match goal with |- context [compass ?z] => let z' := eval vm_compute in z in progress change (compass z) with (compass z') end.
    unfold compass. cbn [fst snd]. apply (f_equal Ok). lra.
  - repeat match goal with |- context [compass ?z] => let z' := eval vm_compute in z in progress change (compass z) with (compass z') end.
    unfold compass. cbn [fst snd]. apply (f_equal Ok). lra.
Qed.
Print Assumptions C74_sharp.

(** ** Nearby places have close values: it is Lipschitz, across the borders of cells too. *)
Theorem C74_smooth x y x' y' f v v' : perlin x y f = Ok v -> perlin x' y' f = Ok v' ->
  realTiny <= f -> Rabs (v - v') <= 13 * f * (Rabs (x - x') + Rabs (y - y')).
Proof.
  intros E E' L.
  assert (Q : forall x y v, perlin x y f = Ok v -> v = noise (gradientsOf hashOf) (x * f) (y * f)).
  { intros a b w W. destruct (C74_defined a b f) as ((_ & D) & _). destruct (fits_dec (realFloor (a * f))) as [X|X], (fits_dec (realFloor (b * f))) as [Y|Y];
      try (rewrite D in W by (split; [exact L|intros (A & B); contradiction]); discriminate).
    rewrite (perlin_cell a b f L X Y) in W. now injection W as <-. }
  rewrite (Q _ _ _ E), (Q _ _ _ E').
  eapply Rle_trans; [apply noise_slope; intros i j; apply gradients_unit|]. rewrite <- !Rmult_minus_distr_r, !Rabs_mult.
  assert (0 < realTiny) by (unfold realTiny; lra). rewrite (Rabs_pos_eq f) by lra. right. ring.
Qed.
Print Assumptions C74_smooth.

(** ** It is zero at whole places, and repeats after 256. *)
Theorem C74_lattice x y f (i j : Z) : realTiny <= f -> fits i -> fits j -> x * f = IZR i -> y * f = IZR j -> perlin x y f = Ok 0.
Proof.
  intros L I J X Y. assert (Fl : forall a : Z, realFloor (IZR a) = a) by (intros a; apply floor_is; lra).
  rewrite perlin_cell by (try rewrite X; try rewrite Y; try rewrite Fl; assumption). rewrite X, Y. unfold noise. rewrite !Fl.
  rewrite noise_blend by (unfold inCell; lra). rewrite !Rminus_diag_eq by reflexivity. unfold blend. rewrite fade_0. apply (f_equal Ok). ring.
Qed.
Print Assumptions C74_lattice.
Theorem C74_period x y x' y' f (i j : Z) : perlin x y f <> UB -> perlin x' y' f <> UB ->
  x' * f = x * f + 256 * IZR i -> y' * f = y * f + 256 * IZR j -> perlin x' y' f = perlin x y f.
Proof.
  intros D D' X Y. destruct (Rlt_dec f realTiny) as [L|L]; [now rewrite !perlin_low|]. apply Rnot_lt_le in L.
  assert (Q : forall a b, perlin a b f <> UB -> fits (realFloor (a * f)) /\ fits (realFloor (b * f))).
  { intros a b N. destruct (fits_dec (realFloor (a * f))) as [A|A], (fits_dec (realFloor (b * f))) as [B|B]; try (now split);
      exfalso; apply N, perlin_ub; try exact L; intros (P1 & P2); contradiction. }
  destruct (Q _ _ D) as (F1 & F2), (Q _ _ D') as (F3 & F4). rewrite !perlin_cell by assumption. apply (f_equal Ok).
  assert (S : forall u (m : Z), realFloor (u + 256 * IZR m) = (realFloor u + m * 256)%Z).
  { intros u m. apply floor_is. rewrite plus_IZR, mult_IZR. destruct (floor_cell u) as ((C1 & C2) & C3). lra. }
  unfold noise. rewrite X, Y, !S. generalize (realFloor (x * f)), (realFloor (y * f)). intros a b.
  assert (G : forall c d : Z, gradientsOf hashOf (c + i * 256) (d + j * 256) = gradientsOf hashOf c d).
  { intros c d. unfold gradientsOf. rewrite Z.mod_add by lia. rewrite Z.add_assoc, Z.mod_add by lia. reflexivity. }
  unfold noiseIn. replace (a + i * 256 + 1)%Z with (a + 1 + i * 256)%Z by ring. replace (b + j * 256 + 1)%Z with (b + 1 + j * 256)%Z by ring.
  rewrite !G, !plus_IZR, !mult_IZR.
  replace (x * f + 256 * IZR i - (IZR a + IZR i * 256)) with (x * f - IZR a) by ring.
  replace (y * f + 256 * IZR j - (IZR b + IZR j * 256)) with (y * f - IZR b) by ring.
  replace (x * f + 256 * IZR i - (IZR a + 1 + IZR i * 256)) with (x * f - (IZR a + 1)) by ring.
  replace (y * f + 256 * IZR j - (IZR b + 1 + IZR j * 256)) with (y * f - (IZR b + 1)) by ring. reflexivity.
Qed.
Print Assumptions C74_period.
(** Cases: a place within a cell, far away, and with no noise. *)
Example C74_at_middle : perlin (3 / 2) (45 / 2) 1 = perlin (3 / 2 + 256) (45 / 2 - 512) 1.
Proof.
  assert (Fl : forall u (a : Z), IZR a <= u < IZR a + 1 -> realFloor u = a) by (intros u a H; apply floor_is; lra).
  symmetry. apply (C74_period _ _ _ _ _ 1 (-2)); try lra; intros N; apply C74_defined in N as (_ & N); apply N;
    [rewrite (Fl _ 1%Z), (Fl _ 22%Z) by lra|rewrite (Fl _ 257%Z), (Fl _ (-490)%Z) by lra]; unfold fits; lia.
Qed.
Example C74_far : perlin (2 ^ 31) 0 1 = UB.
Proof.
  apply C74_defined. split; [unfold realTiny; lra|]. intros (N & _). unfold fits in N.
  assert (E : realFloor (2 ^ 31 * 1) = (2 ^ 31)%Z) by (apply floor_is; lra). rewrite E in N. lia.
Qed.
Example C74_none : perlin 5 7 0 = Ok 0.
Proof. apply C74_defined. unfold realTiny. lra. Qed.

(** ** The color of a wall is not that of its place: the noise is taken at its longitude and elevation, so the latitude does not
    matter, and walls at one place differ by their elevation. *)
Theorem C74_walls {T} (n : nums T) (env : builderEnv T) m p1 p2 geo look m' : addPlane3 n env m p1 p2 geo look = Ok m' ->
  bcols m' = bcols m ++ repeat (lgradient look (ePerlin env (v3x p1) (v3y p1) (lnoise look))) 6.
Proof.
  unfold addPlane3. cbv zeta.
  repeat match goal with |- context [bind ?o] => destruct o; cbn [bind]; [|discriminate|discriminate] end.
  intros E. injection E as <-. cbn [addVertex bcols]. rewrite <- !app_assoc. reflexivity.
Qed.
Print Assumptions C74_walls.
(** A builder with the noise of the code, and a look which tells high noise from low. *)
Definition wallEnv : builderEnv R :=
  mkEnv 0 0 (fun _ _ => 0) (fun x y f => match perlin x y f with Ok v => v | _ => 0 end) (fun _ _ _ => 0) (fun _ _ => 1) 1 1 0 0
    (fun _ => mkTri [] None 3 []) (fun _ _ t => t).
Definition wallLook : lookOptions R := mkLook (fun v => if Rlt_dec (3 / 4) v then 1%Z else 0%Z) 1 0%Z (mkRegion 0 0 0 0 0 0) 1.
Definition wallGeo : geomOptions R := mkGeom 0 0 0 3 false false 0.
Theorem C74_walls_refuted : exists x z x2 z2 ele ele' m m',
  addPlane3 realNums wallEnv emptyMesh (mkV3 x ele z) (mkV3 x2 ele z2) wallGeo wallLook = Ok m /\
  addPlane3 realNums wallEnv emptyMesh (mkV3 x ele' z) (mkV3 x2 ele' z2) wallGeo wallLook = Ok m' /\ bcols m <> bcols m'.
Proof.
  destruct C74_sharp as (A & _).
  assert (B : perlin (1 + / 2) 22 1 = Ok (/ 2)).
  { assert (F1 : realFloor ((1 + / 2) * 1) = 1%Z) by (apply floor_is; lra). assert (F2 : realFloor (22 * 1) = 22%Z) by (apply floor_is; lra).
    rewrite perlin_cell by (try (rewrite F1; unfold fits; lia); try (rewrite F2; unfold fits; lia); unfold realTiny; lra).
    unfold noise. rewrite F1, F2. rewrite noise_blend by (unfold inCell; lra).
    replace ((1 + / 2) * 1 - 1) with (/ 2) by ring. replace (22 * 1 - 22) with 0 by ring. unfold gradientsOf, blend. rewrite fade_0.
    repeat match goal with |- context [compass ?z] => let z' := eval vm_compute in z in progress change (compass z) with (compass z') end.
    unfold compass, fade. cbn [fst snd]. apply (f_equal Ok). pose proof half_over. lra. }
  assert (D : exists a, addPlane3 realNums wallEnv emptyMesh (mkV3 (1 + / 2) (22 + / 2) 0) (mkV3 1 (22 + / 2) 0) wallGeo wallLook = Ok a) by now eexists.
  assert (D' : exists a, addPlane3 realNums wallEnv emptyMesh (mkV3 (1 + / 2) 22 0) (mkV3 1 22 0) wallGeo wallLook = Ok a) by now eexists.
  destruct D as (a & D), D' as (b & D').
  exists (1 + / 2), 0, 1, 0, (22 + / 2), 22, a, b. split; [exact D|]. split; [exact D'|].
  rewrite (C74_walls _ _ _ _ _ _ _ _ D), (C74_walls _ _ _ _ _ _ _ _ D'). cbn [v3x v3y wallEnv ePerlin wallLook lnoise lgradient bcols emptyMesh app]. rewrite A, B.
  destruct (Rlt_dec (3 / 4) 1); [|lra]. destruct (Rlt_dec (3 / 4) (/ 2)); [lra|]. discriminate.
Qed.
Print Assumptions C74_walls_refuted.
