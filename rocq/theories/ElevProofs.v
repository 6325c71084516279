From Coq Require Import QArith Qround Qminmax Lia Lqa Psatz.
From Verif Require Import Base ElevModel ElevSpec.
Local Open Scope Z_scope.

Lemma checkInt_ok z : - 2 ^ 31 <= z < 2 ^ 31 -> checkInt z = Ok z.
Proof.
  intros H. unfold checkInt. destruct (Z.leb_spec (- 2 ^ 31) z); [|lia].
  destruct (Z.ltb_spec z (2 ^ 31)); [reflexivity|lia].
Qed.
Lemma checkInt_inv z w : checkInt z = Ok w -> w = z /\ - 2 ^ 31 <= z < 2 ^ 31.
Proof.
  unfold checkInt. destruct (Z.leb_spec (- 2 ^ 31) z); cbn [andb]; [|discriminate].
  destruct (Z.ltb_spec z (2 ^ 31)); [|discriminate]. intros [= ->]. lia.
Qed.

Lemma readAt_ok {A} (l : list A) i : 0 <= i < Z.of_nat (length l) ->
  exists a, readAt l i = Ok a /\ nth_error l (Z.to_nat i) = Some a.
Proof.
  intros H. unfold readAt. destruct (Z.ltb_spec i 0); [lia|].
  destruct (nth_error l (Z.to_nat i)) as [a|] eqn:E; [eauto|].
  apply nth_error_None in E. lia.
Qed.
Lemma readAt_out {A} (l : list A) i : i < 0 \/ Z.of_nat (length l) <= i -> readAt l i = UB.
Proof.
  intros H. unfold readAt. destruct (Z.ltb_spec i 0); [reflexivity|].
  assert (E : nth_error l (Z.to_nat i) = None) by (apply nth_error_None; lia). now rewrite E.
Qed.

Lemma inject_pos z : 0 < z -> (0 < inject_Z z)%Q.
Proof. intros. change 0%Q with (inject_Z 0). rewrite <- Zlt_Qlt. exact H. Qed.
Lemma inject_nonneg z : 0 <= z -> (0 <= inject_Z z)%Q.
Proof. intros. change 0%Q with (inject_Z 0). rewrite <- Zle_Qle. exact H. Qed.

Lemma lerp_between a b lo hi d : (lo <= a <= hi)%Q -> (lo <= b <= hi)%Q -> (0 <= d <= 1)%Q ->
  (lo <= a * (1 - d) + b * d <= hi)%Q.
Proof. intros. nra. Qed.

Lemma bilinear_lerp h0 h1 h2 h3 dx dy :
  (bilinear h0 h1 h2 h3 dx dy ==
   (inject_Z h2 * (1 - dx) + inject_Z h3 * dx) * (1 - dy) + (inject_Z h0 * (1 - dx) + inject_Z h1 * dx) * dy)%Q.
Proof. unfold bilinear. ring. Qed.

Lemma min4 a b c d : let m := Z.min (Z.min a b) (Z.min c d) in m <= a /\ m <= b /\ m <= c /\ m <= d.
Proof. cbn zeta. lia. Qed.
Lemma max4 a b c d : let m := Z.max (Z.max a b) (Z.max c d) in a <= m /\ b <= m /\ c <= m /\ d <= m.
Proof. cbn zeta. lia. Qed.

(** The factors may leave [0, 1] in a direction in which the two heights are the same. *)
Lemma bilinear_among h0 h1 h2 h3 dx dy :
  ((0 <= dx <= 1)%Q \/ (h0 = h1 /\ h2 = h3)) -> ((0 <= dy <= 1)%Q \/ (h0 = h2 /\ h1 = h3)) ->
  among (bilinear h0 h1 h2 h3 dx dy) h0 h1 h2 h3.
Proof.
  intros Hx Hy. unfold among.
  destruct (min4 h0 h1 h2 h3) as (A0 & A1 & A2 & A3). destruct (max4 h0 h1 h2 h3) as (B0 & B1 & B2 & B3).
  cbn zeta in *.
  set (lo := Z.min _ _) in *. set (hi := Z.max _ _) in *.
  rewrite Zle_Qle in A0, A1, A2, A3, B0, B1, B2, B3. rewrite bilinear_lerp.
  assert (R2 : (inject_Z lo <= inject_Z h2 * (1 - dx) + inject_Z h3 * dx <= inject_Z hi)%Q).
  { destruct Hx as [Hx|[_ <-]]; [apply lerp_between; auto|].
    setoid_replace (inject_Z h2 * (1 - dx) + inject_Z h2 * dx)%Q with (inject_Z h2) by ring. auto. }
  assert (R0 : (inject_Z lo <= inject_Z h0 * (1 - dx) + inject_Z h1 * dx <= inject_Z hi)%Q).
  { destruct Hx as [Hx|[<- _]]; [apply lerp_between; auto|].
    setoid_replace (inject_Z h0 * (1 - dx) + inject_Z h0 * dx)%Q with (inject_Z h0) by ring. auto. }
  destruct Hy as [Hy|[E1 E2]]; [apply lerp_between; auto|]. rewrite <- E1, <- E2 in *.
  setoid_replace ((inject_Z h0 * (1 - dx) + inject_Z h1 * dx) * (1 - dy) + (inject_Z h0 * (1 - dx) + inject_Z h1 * dx) * dy)%Q
    with (inject_Z h0 * (1 - dx) + inject_Z h1 * dx)%Q by ring. exact R0.
Qed.

(** A loaded grid whose arithmetic stays in range. *)
Definition goodGrid (g : grid) : Prop :=
  1 <= gres g /\ (gres g + 1) * (gres g + 1) <= Z.of_nat (length (gheights g)) /\
  Z.of_nat (length (gheights g)) < 2 ^ 31 /\ 1 <= gxStep g < 2 ^ 31 /\ 1 <= gyStep g < 2 ^ 31.

Lemma clamp_line x step res : 1 <= step -> 0 <= res -> 0 <= x ->
  lineBefore x step res (clampInt (Z.quot x step) 0 res).
Proof.
  intros Hs Hr Hx. unfold clampInt, lineBefore.
  rewrite Z.quot_div_nonneg by lia. pose proof (Z.div_pos x step Hx ltac:(lia)).
  pose proof (Z.mul_div_le x step ltac:(lia)). pose proof (Z.mul_succ_div_gt x step ltac:(lia)).
  set (q := x / step) in *.
  destruct (Z.le_gt_cases q res) as [L|G].
  - rewrite Z.min_l, Z.max_r by lia. repeat split; nia.
  - rewrite Z.min_r, Z.max_r by lia. repeat split; try nia.
Qed.

Lemma clamp_zero x step res : 1 <= step -> 0 <= res -> x < 0 -> clampInt (Z.quot x step) 0 res = 0.
Proof.
  intros Hs Hr Hx. unfold clampInt.
  assert (Z.quot x step <= 0).
  { replace x with (- (- x)) by lia. rewrite Z.quot_opp_l by lia.
    pose proof (Z.quot_pos (- x) step ltac:(lia) ltac:(lia)). lia. }
  lia.
Qed.

Lemma quot_range x step : 1 <= step -> - 2 ^ 31 <= x < 2 ^ 31 -> - 2 ^ 31 <= Z.quot x step < 2 ^ 31.
Proof.
  intros Hs Hx. destruct (Z.le_gt_cases 0 x).
  - rewrite Z.quot_div_nonneg by lia. pose proof (Z.div_pos x step ltac:(lia) ltac:(lia)).
    pose proof (Z.div_le_upper_bound x step x ltac:(lia) ltac:(nia)). lia.
  - replace x with (- (- x)) by lia. rewrite Z.quot_opp_l by lia. rewrite Z.quot_div_nonneg by lia.
    pose proof (Z.div_pos (- x) step ltac:(lia) ltac:(lia)).
    pose proof (Z.div_le_upper_bound (- x) step (- x) ltac:(lia) ltac:(nia)). lia.
Qed.

Lemma clamp_bounds q res : 0 <= res -> 0 <= clampInt q 0 res <= res.
Proof. unfold clampInt. lia. Qed.

Lemma clamp_product x step res : 1 <= step -> 0 <= res ->
  let p := clampInt (Z.quot x step) 0 res * step in 0 <= p /\ (p <= Z.max 0 x).
Proof.
  intros Hs Hr. cbn zeta. destruct (Z.le_gt_cases 0 x) as [L|G].
  - destruct (clamp_line x step res Hs Hr L) as (A & B & _). split; [nia|lia].
  - rewrite clamp_zero by lia. lia.
Qed.

Lemma cell_index i j r len : 0 <= i <= r -> 0 <= j <= r -> (r + 1) * (r + 1) <= len ->
  0 <= j * (r + 1) /\ i + j * (r + 1) < len.
Proof.
  intros Hi Hj H. split; [apply Z.mul_nonneg_nonneg; lia|].
  pose proof (Z.mul_le_mono_nonneg_r j r (r + 1) ltac:(lia) ltac:(lia)). lia.
Qed.

Lemma min_bounds a r : 0 <= a <= r -> 0 <= Z.min (a + 1) r <= r.
Proof. lia. Qed.

Lemma cell_read g i j : goodGrid g -> 0 <= i <= gres g -> 0 <= j <= gres g ->
  exists h, heightAt (gheights g) (gres g + 1) i j = Some h /\
    bind (checkInt (j * (gres g + 1))) (fun p => bind (checkInt (i + p)) (readAt (gheights g))) = Ok h.
Proof.
  intros (G1 & G2 & G3 & G4 & G5) Hi Hj. destruct (cell_index i j (gres g) _ Hi Hj G2) as [I1 I2].
  rewrite (checkInt_ok (j * (gres g + 1))) by lia. cbn [bind].
  rewrite (checkInt_ok (i + j * (gres g + 1))) by lia. cbn [bind].
  destruct (readAt_ok (gheights g) (i + j * (gres g + 1)) ltac:(lia)) as (h & A & B).
  exists h. split; [exact B|exact A].
Qed.

(** Every lookup in such a grid which does not overflow at the first subtraction reads valid cells. *)
Lemma gridAt_value g X Y : goodGrid g ->
  - 2 ^ 31 <= X - gxStart g < 2 ^ 31 -> - 2 ^ 31 <= Y - gyStart g < 2 ^ 31 ->
  let x := X - gxStart g in let y := Y - gyStart g in
  let x0 := clampInt (Z.quot x (gxStep g)) 0 (gres g) in
  let y0 := clampInt (Z.quot y (gyStep g)) 0 (gres g) in
  let x1 := Z.min (x0 + 1) (gres g) in let y1 := Z.min (y0 + 1) (gres g) in
  exists h0 h1 h2 h3,
    heightAt (gheights g) (gres g + 1) x0 y0 = Some h2 /\
    heightAt (gheights g) (gres g + 1) x0 y1 = Some h0 /\
    heightAt (gheights g) (gres g + 1) x1 y0 = Some h3 /\
    heightAt (gheights g) (gres g + 1) x1 y1 = Some h1 /\
    gridAt g X Y = Ok (bilinear h0 h1 h2 h3
      (inject_Z (x - x0 * gxStep g) / inject_Z (gxStep g)) (inject_Z (y - y0 * gyStep g) / inject_Z (gyStep g))).
Proof.
  intros (G1 & G2 & G3 & G4 & G5) Hx Hy x y x0 y0 x1 y1.
  assert (X0 : 0 <= x0 <= gres g) by (apply clamp_bounds; lia).
  assert (Y0 : 0 <= y0 <= gres g) by (apply clamp_bounds; lia).
  assert (X1 : 0 <= x1 <= gres g) by (apply min_bounds; exact X0).
  assert (Y1 : 0 <= y1 <= gres g) by (apply min_bounds; exact Y0).
  assert (RES : gres g + 1 < 2 ^ 31).
  { pose proof (Z.mul_le_mono_nonneg_r 1 (gres g + 1) (gres g + 1) ltac:(lia) ltac:(lia)). lia. }
  pose proof (fun i j => cell_read g i j (conj G1 (conj G2 (conj G3 (conj G4 G5))))) as CELL.
  destruct (CELL x0 y0 X0 Y0) as (h2 & C2 & D2). destruct (CELL x0 y1 X0 Y1) as (h0 & C0 & D0).
  destruct (CELL x1 y0 X1 Y0) as (h3 & C3 & D3). destruct (CELL x1 y1 X1 Y1) as (h1 & C1 & D1).
  exists h0, h1, h2, h3. repeat (split; [assumption|]).
  pose proof (clamp_product x (gxStep g) (gres g) ltac:(lia) ltac:(lia)) as PX.
  pose proof (clamp_product y (gyStep g) (gres g) ltac:(lia) ltac:(lia)) as PY. cbn zeta in PX, PY.
  fold x0 in PX. fold y0 in PY.
  assert (NEGX : x < 0 -> x0 * gxStep g = 0) by (intros; lia).
  assert (NEGY : y < 0 -> y0 * gyStep g = 0) by (intros; lia).
  unfold gridAt. rewrite (checkInt_ok _ Hx). fold x. cbn [bind]. rewrite (checkInt_ok _ Hy). fold y. cbn [bind].
  unfold intDiv. destruct (Z.eqb_spec (gxStep g) 0); [lia|].
  rewrite (checkInt_ok (Z.quot x (gxStep g))) by (apply quot_range; lia). cbn [bind].
  destruct (Z.eqb_spec (gyStep g) 0); [lia|].
  rewrite (checkInt_ok (Z.quot y (gyStep g))) by (apply quot_range; lia). cbn [bind]. fold x0 y0.
  rewrite (checkInt_ok (x0 + 1)) by lia. cbn [bind]. rewrite (checkInt_ok (y0 + 1)) by lia. cbn [bind].
  rewrite (checkInt_ok (x0 * gxStep g)) by lia. cbn [bind]. rewrite (checkInt_ok (y0 * gyStep g)) by lia. cbn [bind].
  rewrite (checkInt_ok (x - x0 * gxStep g)) by lia. cbn [bind].
  rewrite (checkInt_ok (y - y0 * gyStep g)) by lia. cbn [bind].
  rewrite (checkInt_ok (gres g + 1)) by lia. cbn [bind]. fold x1 y1.
  rewrite D2. cbn [bind]. rewrite D0. cbn [bind]. rewrite D3. cbn [bind]. rewrite D1. reflexivity.
Qed.

Lemma frac_unit r s : 1 <= s -> 0 <= r <= s -> (0 <= inject_Z r / inject_Z s <= 1)%Q.
Proof.
  intros Hs Hr. assert (P : (0 < inject_Z s)%Q) by (apply inject_pos; lia). split.
  - apply Qle_shift_div_l; [exact P|]. rewrite Qmult_0_l. apply inject_nonneg. lia.
  - apply Qle_shift_div_r; [exact P|]. rewrite Qmult_1_l. rewrite <- Zle_Qle. lia.
Qed.

(** Truncation *)
Lemma trunc_floor q : (0 <= q)%Q -> truncQ q = Qfloor q.
Proof. intros H. unfold truncQ. apply Qle_bool_iff in H. now rewrite H. Qed.
Lemma trunc_bounds q : (0 <= q)%Q -> (inject_Z (truncQ q) <= q)%Q /\ (q < inject_Z (truncQ q + 1))%Q /\ 0 <= truncQ q.
Proof.
  intros H. rewrite trunc_floor by exact H. split; [apply Qfloor_le|]. split; [apply Qlt_floor|].
  change 0 with (Qfloor 0). now apply Qfloor_resp_le.
Qed.
Lemma trunc_mono a b : (a <= b)%Q -> truncQ a <= truncQ b.
Proof.
  intros H. unfold truncQ. destruct (Qle_bool 0 a) eqn:Ea, (Qle_bool 0 b) eqn:Eb.
  - now apply Qfloor_resp_le.
  - apply Qle_bool_iff in Ea. assert (Qle_bool 0 b = true) by (apply Qle_bool_iff; eapply Qle_trans; eauto). congruence.
  - apply Qle_bool_iff in Eb. assert (Na : (a < 0)%Q).
    { apply Qnot_le_lt. intros C. apply Qle_bool_iff in C. congruence. }
    assert (Qceiling a <= 0) by (change 0 with (Qceiling 0); apply Qceiling_resp_le; now apply Qlt_le_weak).
    assert (0 <= Qfloor b) by (change 0 with (Qfloor 0); now apply Qfloor_resp_le). lia.
  - now apply Qceiling_resp_le.
Qed.
Lemma trunc_Z z : truncQ (inject_Z z) = z.
Proof. unfold truncQ. destruct (Qle_bool 0 (inject_Z z)); [apply Qfloor_Z|apply Qceiling_Z]. Qed.
Lemma trunc_between q lo hi : (inject_Z lo <= q <= inject_Z hi)%Q -> lo <= truncQ q <= hi.
Proof.
  intros [A B]. apply trunc_mono in A, B. rewrite trunc_Z in A, B. lia.
Qed.
Lemma trunc_comp a b : (a == b)%Q -> truncQ a = truncQ b.
Proof. intros H. apply Z.le_antisymm; apply trunc_mono; rewrite H; apply Qle_refl. Qed.
