(** C39: heights looked up in a grid (exact arithmetic on the doubles, checked arithmetic on int). *)
From Coq Require Import QArith Qround Lia Lqa.
From Verif Require Import Base ElevModel ElevSpec ElevProofs.
Local Open Scope Z_scope.

(** The number of intervals between the lines of a square grid with so many heights. *)
Definition intervals (heights : list Z) : Z := Z.sqrt (Z.of_nat (length heights)) - 1.
(** Distance of the lines, in units of 1e-7 degree. *)
Definition step (size : Q) (heights : list Z) : Z := units (size / inject_Z (intervals heights)).

(** A tile: at most half of the world wide, and every interval at least one unit wide. *)
Definition goodTile (b : box) (heights : list Z) : Prop :=
  (-180 <= minLon b)%Q /\ (maxLon b <= 180)%Q /\ (maxLon b - minLon b <= 180)%Q /\
  (-90 <= minLat b)%Q /\ (maxLat b <= 90)%Q /\
  1 <= step (maxLon b - minLon b) heights /\ 1 <= step (maxLat b - minLat b) heights.

Lemma units_trunc q : units q = truncQ (q * gscale).
Proof. reflexivity. Qed.

Lemma units_range q : (-180 <= q <= 180)%Q -> -1800000000 <= units q <= 1800000000.
Proof.
  intros H. rewrite units_trunc. apply trunc_between. unfold gscale.
  change (inject_Z (-1800000000)) with (-1800000000 # 1). change (inject_Z 1800000000) with (1800000000 # 1).
  change (inject_Z 10000000) with (10000000 # 1). lra.
Qed.

Lemma intervals_good heights : (4 <= length heights)%nat ->
  1 <= intervals heights /\ (intervals heights + 1) * (intervals heights + 1) <= Z.of_nat (length heights).
Proof.
  intros H. unfold intervals. set (n := Z.of_nat (length heights)).
  assert (N4 : 4 <= n) by (unfold n; lia).
  pose proof (Z.sqrt_spec n ltac:(lia)) as S. cbn zeta in S.
  assert (Z.sqrt 4 <= Z.sqrt n) by now apply Z.sqrt_le_mono. change (Z.sqrt 4) with 2 in *.
  split; [lia|]. replace (Z.sqrt n - 1 + 1) with (Z.sqrt n) by lia. lia.
Qed.

Lemma step_range size heights : 1 <= intervals heights -> (0 <= size <= 180)%Q ->
  step size heights <= 1800000000.
Proof.
  intros Hi Hs. unfold step.
  assert (P : (0 < inject_Z (intervals heights))%Q) by (apply inject_pos; lia).
  assert (O : (1 <= inject_Z (intervals heights))%Q) by (change 1%Q with (inject_Z 1); rewrite <- Zle_Qle; lia).
  assert (R : (-180 <= size / inject_Z (intervals heights) <= 180)%Q).
  { split.
    - apply Qle_trans with 0%Q; [discriminate|]. apply Qle_shift_div_l; [exact P|]. lra.
    - apply Qle_shift_div_r; [exact P|]. nra. }
  apply units_range in R. lia.
Qed.

Lemma gridLoad_some heights b : heights <> [] -> gridLoad heights b =
      bind (intOf (minLon b * gscale)) (fun xs =>
      bind (intOf (minLat b * gscale)) (fun ys =>
      if intervals heights =? 0 then UB else
      bind (intOf ((maxLon b - minLon b) / inject_Z (intervals heights) * gscale)) (fun xp =>
      bind (intOf ((maxLat b - minLat b) / inject_Z (intervals heights) * gscale)) (fun yp =>
      Ok (mkGrid xs ys xp yp (intervals heights) heights))))).
Proof. destruct heights; [congruence|reflexivity]. Qed.

Lemma gridLoad_good heights b : (4 <= length heights)%nat -> Z.of_nat (length heights) < 2 ^ 31 ->
  goodTile b heights -> (minLon b <= maxLon b)%Q -> (minLat b <= maxLat b)%Q ->
  let g := mkGrid (units (minLon b)) (units (minLat b)) (step (maxLon b - minLon b) heights)
                  (step (maxLat b - minLat b) heights) (intervals heights) heights in
  gridLoad heights b = Ok g /\ goodGrid g.
Proof.
  intros H4 Hn (T1 & T2 & T3 & T4 & T5 & T6 & T7) O1 O2 g.
  destruct (intervals_good heights H4) as [I1 I2].
  assert (W1 : step (maxLon b - minLon b) heights <= 1800000000) by (apply step_range; [lia|lra]).
  assert (W2 : step (maxLat b - minLat b) heights <= 1800000000) by (apply step_range; [lia|lra]).
  assert (U1 : -1800000000 <= units (minLon b) <= 1800000000) by (apply units_range; lra).
  assert (U2 : -1800000000 <= units (minLat b) <= 1800000000) by (apply units_range; lra).
  split; [|repeat split; cbn [gres gheights gxStep gyStep g]; assumption || lia].
  rewrite gridLoad_some by (intros ->; cbn in H4; lia).
  unfold intOf. rewrite <- !units_trunc. rewrite (checkInt_ok (units (minLon b))) by lia. cbn [bind].
  rewrite (checkInt_ok (units (minLat b))) by lia. cbn [bind].
  destruct (Z.eqb_spec (intervals heights) 0); [lia|].
  fold (step (maxLon b - minLon b) heights). fold (step (maxLat b - minLat b) heights).
  rewrite (checkInt_ok (step (maxLon b - minLon b) heights)) by lia. cbn [bind].
  rewrite (checkInt_ok (step (maxLat b - minLat b) heights)) by lia. reflexivity.
Qed.

(** C39: a position inside of the tile gets a height between the smallest and the largest of the heights
    at the four corners of the grid cell around it, all of which exist. *)
Theorem C39_between : forall heights b lat lon,
  (4 <= length heights)%nat -> Z.of_nat (length heights) < 2 ^ 31 -> goodTile b heights ->
  (minLon b <= lon <= maxLon b)%Q -> (minLat b <= lat <= maxLat b)%Q ->
  let n := intervals heights in
  exists v i j h0 h1 h2 h3,
    lineBefore (units lon - units (minLon b)) (step (maxLon b - minLon b) heights) n i /\
    lineBefore (units lat - units (minLat b)) (step (maxLat b - minLat b) heights) n j /\
    heightAt heights (n + 1) i j = Some h2 /\
    heightAt heights (n + 1) i (Z.min (j + 1) n) = Some h0 /\
    heightAt heights (n + 1) (Z.min (i + 1) n) j = Some h3 /\
    heightAt heights (n + 1) (Z.min (i + 1) n) (Z.min (j + 1) n) = Some h1 /\
    gridElevation heights b lat lon = Ok v /\ among v h0 h1 h2 h3.
Proof.
  intros heights b lat lon H4 Hn HT Hlon Hlat n.
  destruct (gridLoad_good heights b H4 Hn HT ltac:(lra) ltac:(lra)) as [L G]. cbn zeta in L, G.
  set (g := mkGrid _ _ _ _ _ _) in *.
  destruct (intervals_good heights H4) as [I1 I2]. fold n in I1, I2.
  pose proof HT as (T1 & T2 & T3 & T4 & T5 & T6 & T7).
  assert (U1 : -1800000000 <= units lon <= 1800000000) by (apply units_range; lra).
  assert (U2 : -1800000000 <= units lat <= 1800000000) by (apply units_range; lra).
  assert (X0 : units (minLon b) <= units lon).
  { rewrite !units_trunc. apply trunc_mono. unfold gscale. change (inject_Z 10000000) with (10000000 # 1). lra. }
  assert (Y0 : units (minLat b) <= units lat).
  { rewrite !units_trunc. apply trunc_mono. unfold gscale. change (inject_Z 10000000) with (10000000 # 1). lra. }
  assert (UY : -900000000 <= units (minLat b) /\ units lat <= 900000000).
  { rewrite !units_trunc. split.
    - rewrite <- (trunc_Z (-900000000)). apply trunc_mono. unfold gscale.
      change (inject_Z 10000000) with (10000000 # 1). change (inject_Z (-900000000)) with (-900000000 # 1). lra.
    - rewrite <- (trunc_Z 900000000). apply trunc_mono. unfold gscale.
      change (inject_Z 10000000) with (10000000 # 1). change (inject_Z 900000000) with (900000000 # 1). lra. }
  assert (DX : units lon - units (minLon b) < 2 ^ 31).
  { assert (A : units lon <= truncQ ((minLon b + 180) * gscale)).
    { rewrite units_trunc. apply trunc_mono. unfold gscale. change (inject_Z 10000000) with (10000000 # 1). lra. }
    assert (B : truncQ ((minLon b + 180) * gscale) <= units (minLon b) + 1800000001).
    { rewrite units_trunc. set (q := (minLon b * gscale)%Q).
      rewrite (trunc_comp _ (q + inject_Z 1800000000)).
      2:{ unfold q, gscale. change (inject_Z 10000000) with (10000000 # 1). change (inject_Z 1800000000) with (1800000000 # 1). lra. }
      assert (C : (q <= inject_Z (truncQ q + 1))%Q).
      { unfold truncQ. destruct (Qle_bool 0 q); [apply Qlt_le_weak, Qlt_floor|].
        apply Qle_trans with (inject_Z (Qceiling q)); [apply Qle_ceiling|]. rewrite <- Zle_Qle. lia. }
      assert (D : (q + inject_Z 1800000000 <= inject_Z (truncQ q + 1800000001))%Q).
      { rewrite inject_Z_plus in C |- *. change (inject_Z 1800000000) with (1800000000 # 1).
        change (inject_Z 1800000001) with (1800000001 # 1). change (inject_Z 1) with (1 # 1) in C. lra. }
      apply trunc_mono in D. rewrite trunc_Z in D. exact D. }
    lia. }
  destruct (gridAt_value g (units lon) (units lat) G) as (h0 & h1 & h2 & h3 & C2 & C0 & C3 & C1 & E);
    [unfold g; cbn [gxStart gyStart]; lia|unfold g; cbn [gxStart gyStart]; lia|]. cbn zeta in *.
  set (x := units lon - gxStart g) in *. set (y := units lat - gyStart g) in *.
  set (i := clampInt (Z.quot x (gxStep g)) 0 (gres g)) in *.
  set (j := clampInt (Z.quot y (gyStep g)) 0 (gres g)) in *.
  assert (LX : lineBefore x (gxStep g) n i) by (apply clamp_line; unfold x, y, g; cbn [gxStart gyStart gxStep gyStep gres]; lia).
  assert (LY : lineBefore y (gyStep g) n j) by (apply clamp_line; unfold x, y, g; cbn [gxStart gyStart gxStep gyStep gres]; lia).
  eexists _, i, j, h0, h1, h2, h3. split; [exact LX|]. split; [exact LY|].
  split; [exact C2|]. split; [exact C0|]. split; [exact C3|]. split; [exact C1|]. split.
  - unfold gridElevation. rewrite L. cbn [bind]. unfold intOf. rewrite <- !units_trunc.
    rewrite (checkInt_ok (units lon)) by lia. cbn [bind]. rewrite (checkInt_ok (units lat)) by lia. cbn [bind].
    exact E.
  - destruct LX as (LX1 & LX2 & LX3). destruct LY as (LY1 & LY2 & LY3).
    destruct G as (_ & _ & _ & GX & GY). change n with (gres g) in *. clear - LX1 LX2 LX3 LY1 LY2 LY3 GX GY C0 C1 C2 C3.
    clearbody x y i j g. apply bilinear_among.
    + destruct LX3 as [LX3|LX3].
      * left. apply frac_unit; lia.
      * right. assert (M : Z.min (i + 1) (gres g) = i) by lia.
        rewrite M in C3, C1. split; congruence.
    + destruct LY3 as [LY3|LY3].
      * left. apply frac_unit; lia.
      * right. assert (M : Z.min (j + 1) (gres g) = j) by lia.
        rewrite M in C0, C1. split; congruence.
Qed.

(** At a point of the grid the stored height is returned. *)
Theorem C39_point : forall heights b lat lon i j,
  (4 <= length heights)%nat -> Z.of_nat (length heights) < 2 ^ 31 -> goodTile b heights ->
  (minLon b <= lon <= maxLon b)%Q -> (minLat b <= lat <= maxLat b)%Q ->
  0 <= i <= intervals heights -> 0 <= j <= intervals heights ->
  units lon = units (minLon b) + i * step (maxLon b - minLon b) heights ->
  units lat = units (minLat b) + j * step (maxLat b - minLat b) heights ->
  exists v h, gridElevation heights b lat lon = Ok v /\
    heightAt heights (intervals heights + 1) i j = Some h /\ (v == inject_Z h)%Q.
Proof.
  intros heights b lat lon i j H4 Hn HT Hlon Hlat Hi Hj Ex Ey.
  destruct (gridLoad_good heights b H4 Hn HT ltac:(lra) ltac:(lra)) as [L G]. cbn zeta in L, G.
  set (g := mkGrid _ _ _ _ _ _) in *.
  destruct (intervals_good heights H4) as [I1 I2].
  pose proof HT as (T1 & T2 & T3 & T4 & T5 & T6 & T7).
  assert (U1 : -1800000000 <= units lon <= 1800000000) by (apply units_range; lra).
  assert (U2 : -1800000000 <= units lat <= 1800000000) by (apply units_range; lra).
  assert (SX : 0 <= i * step (maxLon b - minLon b) heights < 2 ^ 31).
  { split; [nia|]. assert (W : step (maxLon b - minLon b) heights * intervals heights <= 1800000000).
    { unfold step. rewrite units_trunc. set (q := (maxLon b - minLon b)%Q) in *. set (m := intervals heights) in *.
      assert (Pm : (0 < inject_Z m)%Q) by (apply inject_pos; lia).
      assert (Q0 : (0 <= q / inject_Z m * gscale)%Q).
      { apply Qmult_le_0_compat; [|discriminate]. apply Qle_shift_div_l; [exact Pm|]. unfold q. lra. }
      destruct (trunc_bounds _ Q0) as (B1 & _ & _).
      rewrite Zle_Qle, inject_Z_mult.
      apply Qle_trans with (q / inject_Z m * gscale * inject_Z m)%Q.
      - apply Qmult_le_compat_r; [exact B1|]. lra.
      - setoid_replace (q / inject_Z m * gscale * inject_Z m)%Q with (q * gscale)%Q by (field; lra).
        unfold gscale. change (inject_Z 10000000) with (10000000 # 1). change (inject_Z 1800000000) with (1800000000 # 1).
        lra. }
    nia. }
  assert (SY : 0 <= j * step (maxLat b - minLat b) heights) by nia.
  assert (UY : -900000000 <= units (minLat b) /\ units lat <= 900000000).
  { rewrite !units_trunc. split.
    - rewrite <- (trunc_Z (-900000000)). apply trunc_mono. unfold gscale.
      change (inject_Z 10000000) with (10000000 # 1). change (inject_Z (-900000000)) with (-900000000 # 1). lra.
    - rewrite <- (trunc_Z 900000000). apply trunc_mono. unfold gscale.
      change (inject_Z 10000000) with (10000000 # 1). change (inject_Z 900000000) with (900000000 # 1). lra. }
  destruct (gridAt_value g (units lon) (units lat) G) as (h0 & h1 & h2 & h3 & C2 & C0 & C3 & C1 & E);
    [unfold g; cbn [gxStart gyStart]; lia|unfold g; cbn [gxStart gyStart]; lia|]. cbn zeta in *.
  change (gxStart g) with (units (minLon b)) in *. change (gyStart g) with (units (minLat b)) in *.
  change (gxStep g) with (step (maxLon b - minLon b) heights) in *.
  change (gyStep g) with (step (maxLat b - minLat b) heights) in *.
  change (gres g) with (intervals heights) in *. change (gheights g) with heights in *.
  set (sx := step (maxLon b - minLon b) heights) in *. set (sy := step (maxLat b - minLat b) heights) in *.
  replace (units lon - units (minLon b)) with (i * sx) in * by lia.
  replace (units lat - units (minLat b)) with (j * sy) in * by lia.
  rewrite !Z.quot_mul in * by lia.
  assert (KX : clampInt i 0 (intervals heights) = i) by (unfold clampInt; lia).
  assert (KY : clampInt j 0 (intervals heights) = j) by (unfold clampInt; lia).
  rewrite KX, KY in *. rewrite !Z.sub_diag in E.
  eexists _, h2. split; [|split; [exact C2|]].
  - unfold gridElevation. rewrite L. cbn [bind]. unfold intOf. rewrite <- !units_trunc.
    rewrite (checkInt_ok (units lon)) by lia. cbn [bind]. rewrite (checkInt_ok (units lat)) by lia. cbn [bind].
    exact E.
  - unfold bilinear. change (inject_Z 0) with 0%Q.
    assert (Z0 : forall s, (0 / inject_Z s == 0)%Q) by (intros; unfold Qdiv; ring).
    rewrite !Z0. ring.
Qed.

(** Positions outside of the tile are safe as well: every lookup reads valid cells unless the distance to
    the corner of the tile leaves the range of int. *)
Theorem C39_safe : forall heights b lat lon,
  (4 <= length heights)%nat -> Z.of_nat (length heights) < 2 ^ 31 -> goodTile b heights ->
  (minLon b <= maxLon b)%Q -> (minLat b <= maxLat b)%Q ->
  (-180 <= lon <= 180)%Q -> (-90 <= lat <= 90)%Q -> units lon - units (minLon b) < 2 ^ 31 ->
  - 2 ^ 31 <= units lon - units (minLon b) ->
  exists v, gridElevation heights b lat lon = Ok v.
Proof.
  intros heights b lat lon H4 Hn HT O1 O2 Hlon Hlat D1 D2.
  destruct (gridLoad_good heights b H4 Hn HT O1 O2) as [L G]. cbn zeta in L, G.
  pose proof HT as (T1 & T2 & T3 & T4 & T5 & T6 & T7).
  assert (U1 : -1800000000 <= units lon <= 1800000000) by (apply units_range; lra).
  assert (UY : forall q, (-90 <= q <= 90)%Q -> -900000000 <= units q <= 900000000).
  { intros q Hq. rewrite units_trunc. apply trunc_between. unfold gscale.
    change (inject_Z 10000000) with (10000000 # 1). change (inject_Z (-900000000)) with (-900000000 # 1).
    change (inject_Z 900000000) with (900000000 # 1). lra. }
  pose proof (UY lat Hlat) as UL. pose proof (UY (minLat b) ltac:(lra)) as UM.
  unfold gridElevation. rewrite L. cbn [bind]. unfold intOf. rewrite <- !units_trunc.
  rewrite (checkInt_ok (units lon)) by lia. cbn [bind]. rewrite (checkInt_ok (units lat)) by lia. cbn [bind].
  destruct (gridAt_value _ (units lon) (units lat) G) as (h0 & h1 & h2 & h3 & _ & _ & _ & _ & E);
    [cbn [gxStart gyStart]; lia|cbn [gxStart gyStart]; lia|]. rewrite E. eauto.
Qed.

(** A tile of one degree with 3 x 3 heights; its middle row and a point of the grid. *)
Definition exBox : box := mkBox 10 20 11 21.
Definition exHeights : list Z := [1; 2; 3; 10; 20; 30; 5; 5; 5].
Example C39_case :
  goodTile exBox exHeights /\
  step (maxLon exBox - minLon exBox) exHeights = 5000000 /\
  (exists v, gridElevation exHeights exBox (42 # 4) (82 # 4) = Ok v /\ (v == 20)%Q) /\
  (exists v, gridElevation exHeights exBox (41 # 4) (81 # 4) = Ok v /\ (v == 33 # 4)%Q).
Proof.
  split; [repeat split; vm_compute; congruence|]. split; [reflexivity|].
  split; eexists; (split; [vm_compute; reflexivity|vm_compute; reflexivity]).
Qed.

(** A file with a single height is undefined: the steps are infinite. *)
Theorem C39_single_refuted : forall h b lat lon,
  (-180 <= minLon b <= 180)%Q -> (-90 <= minLat b <= 90)%Q -> gridElevation [h] b lat lon = UB.
Proof.
  intros h b lat lon H1 H2. unfold gridElevation, gridLoad. cbn [length]. unfold intOf. rewrite <- !units_trunc.
  pose proof (units_range (minLon b) H1). pose proof (units_range (minLat b) ltac:(lra)).
  rewrite (checkInt_ok (units (minLon b))) by lia. cbn [bind].
  rewrite (checkInt_ok (units (minLat b))) by lia. reflexivity.
Qed.

(** Intervals narrower than 1e-7 degree divide by zero: a tile of 1e-6 degree with 12 x 12 heights. *)
Theorem C39_step_refuted : exists heights b lat lon,
  (4 <= length heights)%nat /\ (minLon b <= lon <= maxLon b)%Q /\ (minLat b <= lat <= maxLat b)%Q /\
  gridElevation heights b lat lon = UB.
Proof.
  exists (repeat 7 144), (mkBox 0 0 (1 # 1000000) (1 # 1000000)), 0%Q, 0%Q.
  split; [cbn; lia|]. split; [split; cbn; vm_compute; congruence|]. split; [split; vm_compute; congruence|].
  vm_compute. reflexivity.
Qed.

(** West or south of the tile the heights are extrapolated without a limit. *)
Theorem C39_outside_refuted : exists heights b lat lon v,
  goodTile b heights /\ Forall (fun h => 0 <= h <= 100) heights /\
  gridElevation heights b lat lon = Ok v /\ (v < -900)%Q.
Proof.
  exists [0; 100; 0; 100], (mkBox 10 20 11 21), 10%Q, 10%Q. eexists. split; [repeat split; vm_compute; congruence|].
  split; [repeat constructor; lia|]. split; [vm_compute; reflexivity|]. vm_compute. reflexivity.
Qed.

Print Assumptions C39_between.
Print Assumptions C39_point.
Print Assumptions C39_safe.
Print Assumptions C39_single_refuted.
Print Assumptions C39_step_refuted.
Print Assumptions C39_outside_refuted.
