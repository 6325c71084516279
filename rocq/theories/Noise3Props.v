(** C84: noise in three dimensions. *)
From Coq Require Import Reals Lra Lia.
From Verif Require Import Base RingModel MeshBuildModel QuatModel GenModel RowModel NoiseModel NoiseSpec NoiseProofs Noise3Model Noise3Spec Noise3Proofs.
Local Open Scope R_scope.

Notation perlin3 := (perlin3D realNums realGens realFloor realTiny).
(** Coordinates whose cells are numbers of an int. *)
Definition reach3 (x y z f : R) : Prop := fits (realFloor (x * f)) /\ fits (realFloor (y * f)) /\ fits (realFloor (z * f)).

(** ** The value is the sum of the influences of the eight corners of a cell around the place; a place on the border of cells may be
    counted to any. *)
Theorem C84_cells : exists P, shuffled P /\
  forall x y z f i j k, realTiny <= f -> reach3 x y z f -> inCell i (x * f) -> inCell j (y * f) -> inCell k (z * f) ->
    perlin3 x y z f = Ok (noise3In (edgesOf P) i j k (x * f) (y * f) (z * f)).
Proof.
  exists hashOf. split; [exact hash_shuffled|]. intros x y z f i j k F (X & Y & Z) I J K. rewrite perlin3_cell by assumption.
  now rewrite (any_cell3 _ i j k).
Qed.
Print Assumptions C84_cells.

(** ** It is undefined exactly if a coordinate times the frequency is out of the range of an int. *)
Theorem C84_defined x y z f :
  (perlin3 x y z f = UB <-> realTiny <= f /\ ~ reach3 x y z f) /\
  (f < realTiny -> perlin3 x y z f = Ok 0) /\ (perlin3 x y z f <> UB -> exists v, perlin3 x y z f = Ok v).
Proof.
  destruct (Rlt_dec f realTiny) as [L|L].
  - rewrite (perlin3_low x y z f L). split; [split; [discriminate|intros (F & _); lra]|]. split; [reflexivity|]. intros _. now exists 0.
  - apply Rnot_lt_le in L. destruct (allFit_dec x y z f) as [A|A].
    + destruct A as (X & Y & Z). rewrite (perlin3_cell x y z f L X Y Z). split; [split; [discriminate|intros (_ & N); exfalso; apply N; exact (conj X (conj Y Z))]|].
      split; [intros; lra|]. intros _. now eexists.
    + rewrite (perlin3_ub x y z f L A). split; [split; [intros _; split; [exact L|exact A]|reflexivity]|]. split; [intros; lra|]. intros N. now destruct N.
Qed.
Print Assumptions C84_defined.
Lemma value3 x y z f v : perlin3 x y z f = Ok v -> realTiny <= f -> v = noise3 (edgesOf hashOf) (x * f) (y * f) (z * f).
Proof.
  intros E L. destruct (allFit_dec x y z f) as [(X & Y & Z)|A]; [|rewrite (perlin3_ub x y z f L A) in E; discriminate].
  rewrite (perlin3_cell x y z f L X Y Z) in E. now injection E as <-.
Qed.

(** ** Noise is to be between -1 and 1, as in two dimensions: it is not, but never beyond 5/4. *)
Theorem C84_range_partial x y z f v : perlin3 x y z f = Ok v -> Rabs v <= 5 / 4.
Proof.
  intros E. destruct (Rlt_dec f realTiny) as [L|L].
  - rewrite (perlin3_low x y z f L) in E. injection E as <-. rewrite Rabs_R0. lra.
  - apply Rnot_lt_le in L. rewrite (value3 _ _ _ _ _ E L). apply noise3_range. intros i j k. apply edgesOf_edgy.
Qed.
Print Assumptions C84_range_partial.
Theorem C84_range_refuted : (exists x y z v, perlin3 x y z 1 = Ok v /\ 1 + 35 / 1000 < v) /\ (exists x y z v, perlin3 x y z 1 = Ok v /\ v < - (1 + 8 / 1000)).
Proof.
  assert (Fl : forall u (a : Z), IZR a <= u < IZR a + 1 -> realFloor u = a) by (intros u a H; apply floor_is; lra).
  split.
  - exists (12 + 11 / 32), (187 + / 2), (5 + / 2). eexists. split.
    + apply perlin3_cell; [unfold realTiny; lra|rewrite (Fl _ 12%Z) by lra|rewrite (Fl _ 187%Z) by lra|rewrite (Fl _ 5%Z) by lra]; unfold fits; lia.
    + unfold noise3. rewrite (Fl _ 12%Z), (Fl _ 187%Z), (Fl _ 5%Z) by lra. rewrite noise3_blend by (unfold inCell; lra). unfold edgesOf.
      repeat match goal with |- context [edges ?z] => let z' := eval vm_compute in z in progress change (edges z) with (edges z') end.
      unfold edges, blend3, along, lerp, fade. lra.
  - exists (/ 2), (113 + 14 / 32), (83 + / 2). eexists. split.
    + apply perlin3_cell; [unfold realTiny; lra|rewrite (Fl _ 0%Z) by lra|rewrite (Fl _ 113%Z) by lra|rewrite (Fl _ 83%Z) by lra]; unfold fits; lia.
    + unfold noise3. rewrite (Fl _ 0%Z), (Fl _ 113%Z), (Fl _ 83%Z) by lra. rewrite noise3_blend by (unfold inCell; lra). unfold edgesOf.
      repeat match goal with |- context [edges ?z] => let z' := eval vm_compute in z in progress change (edges z) with (edges z') end.
      unfold edges, blend3, along, lerp, fade. lra.
Qed.
Print Assumptions C84_range_refuted.

(** ** Nearby places have close values: it is Lipschitz, across the borders of cells too. *)
Theorem C84_smooth x y z x' y' z' f v v' : perlin3 x y z f = Ok v -> perlin3 x' y' z' f = Ok v' -> realTiny <= f ->
  Rabs (v - v') <= 9 * f * (Rabs (x - x') + Rabs (y - y') + Rabs (z - z')).
Proof.
  intros E E' L. rewrite (value3 _ _ _ _ _ E L), (value3 _ _ _ _ _ E' L).
  eapply Rle_trans; [apply noise3_slope; intros i j k; apply edgesOf_edgy|]. rewrite <- !Rmult_minus_distr_r, !Rabs_mult.
  assert (0 < realTiny) by (unfold realTiny; lra). rewrite (Rabs_pos_eq f) by lra. right. ring.
Qed.
Print Assumptions C84_smooth.

(** ** It is zero at whole places, and repeats after 256. *)
Theorem C84_lattice x y z f (i j k : Z) : realTiny <= f -> fits i -> fits j -> fits k -> x * f = IZR i -> y * f = IZR j -> z * f = IZR k ->
  perlin3 x y z f = Ok 0.
Proof.
  intros L I J K X Y Z. assert (Fl : forall a, realFloor (IZR a) = a) by (intros a; apply floor_is; lra).
  rewrite perlin3_cell by (try rewrite X; try rewrite Y; try rewrite Z; try rewrite Fl; assumption). rewrite X, Y, Z. unfold noise3. rewrite !Fl.
  rewrite noise3_blend by (unfold inCell; lra). rewrite !Rminus_diag_eq by reflexivity. unfold blend3, lerp. rewrite fade_0. apply (f_equal Ok).
  destruct (edgesOf hashOf i j k) as ((p & q) & r). cbn [along]. ring.
Qed.
Print Assumptions C84_lattice.
Theorem C84_period x y z x' y' z' f (i j k : Z) : perlin3 x y z f <> UB -> perlin3 x' y' z' f <> UB ->
  x' * f = x * f + 256 * IZR i -> y' * f = y * f + 256 * IZR j -> z' * f = z * f + 256 * IZR k -> perlin3 x' y' z' f = perlin3 x y z f.
Proof.
  intros D D' X Y Z. destruct (Rlt_dec f realTiny) as [L|L]; [now rewrite !perlin3_low|]. apply Rnot_lt_le in L.
  destruct (allFit_dec x y z f) as [(F1 & F2 & F3)|A]; [|exfalso; now apply D, perlin3_ub].
  destruct (allFit_dec x' y' z' f) as [(F4 & F5 & F6)|A]; [|exfalso; now apply D', perlin3_ub].
  rewrite !perlin3_cell by assumption. apply (f_equal Ok).
  assert (S : forall u (m : BinNums.Z), realFloor (u + 256 * IZR m) = (realFloor u + m * 256)%Z).
  { intros u m. apply floor_is. rewrite plus_IZR, mult_IZR. destruct (floor_cell u) as ((C1 & C2) & C3). lra. }
  assert (G : forall a b c : BinNums.Z, edgesOf hashOf (a + i * 256) (b + j * 256) (c + k * 256) = edgesOf hashOf a b c).
  { intros a b c. unfold edgesOf. rewrite Z.mod_add by lia. rewrite Z.add_assoc, Z.mod_add by lia. rewrite Z.add_assoc, Z.mod_add by lia. reflexivity. }
  assert (T : forall u (m a : BinNums.Z), u + 256 * IZR m - IZR (a + m * 256) = u - IZR a) by (intros u m a; rewrite plus_IZR, mult_IZR; ring).
  assert (N : forall a m : BinNums.Z, (a + m * 256 + 1 = a + 1 + m * 256)%Z) by (intros; ring).
  unfold noise3. rewrite X, Y, Z, !S. unfold noise3In, influence. rewrite !N, !G, !T. reflexivity.
Qed.
Print Assumptions C84_period.

(** Cases: within reach, far away, and with no noise. *)
Example C84_near : reach3 (12 + 11 / 32) (187 + / 2) (5 + / 2) 1.
Proof.
  unfold reach3. rewrite (floor_is _ 12%Z), (floor_is _ 187%Z), (floor_is _ 5%Z) by lra. unfold fits. lia.
Qed.
Example C84_far : perlin3 0 0 (2 ^ 31) 1 = UB.
Proof.
  apply C84_defined. split; [unfold realTiny; lra|]. intros (_ & _ & N). unfold fits in N.
  assert (E : realFloor (2 ^ 31 * 1) = (2 ^ 31)%Z) by (apply floor_is; lra). rewrite E in N. lia.
Qed.
Example C84_none : perlin3 5 7 9 0 = Ok 0.
Proof. apply C84_defined. unfold realTiny. lra. Qed.
