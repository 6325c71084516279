(** Proofs about noise (exact real arithmetic). *)
From Coq Require Import Reals Lra Lia.
From Verif Require Import Base RingModel MeshBuildModel QuatModel GenModel RowModel NoiseModel NoiseSpec.
Local Open Scope Z_scope.

(** * The table *)
Definition hashOf (a : Z) : Z := nth (Z.to_nat a) hashHalf 0.
Definition numbers (m : nat) : list Z := map Z.of_nat (seq 0 m).
Lemma numbers_in m a : 0 <= a < Z.of_nat m -> In a (numbers m).
Proof. intros H. apply in_map_iff. exists (Z.to_nat a). split; [lia|]. apply in_seq. lia. Qed.
Lemma table_all (P : Z -> bool) m : forallb P (numbers m) = true -> forall a, 0 <= a < Z.of_nat m -> P a = true.
Proof. intros F a H. rewrite forallb_forall in F. apply F, numbers_in, H. Qed.
Lemma hash_range a : 0 <= a < 256 -> 0 <= hashOf a < 256.
Proof.
  intros H. assert (E : (0 <=? hashOf a) && (hashOf a <? 256) = true).
  { revert a H. apply (table_all (fun a => (0 <=? hashOf a) && (hashOf a <? 256)) 256). vm_compute. reflexivity. }
  apply andb_prop in E as (A & B). apply Z.leb_le in A. apply Z.ltb_lt in B. now split.
Qed.
Lemma hash_shuffled : shuffled hashOf.
Proof.
  split; [exact hash_range|]. intros a b A B E.
  assert (F : forallb (fun b => (negb (hashOf a =? hashOf b)) || (a =? b)) (numbers 256) = true).
  { revert a A E. intros a A _. revert a A. apply (table_all (fun a => forallb (fun b => (negb (hashOf a =? hashOf b)) || (a =? b)) (numbers 256)) 256).
    vm_compute. reflexivity. }
  pose proof (table_all _ 256 F b B) as Q. cbv beta in Q. rewrite E, Z.eqb_refl in Q. cbn in Q. now apply Z.eqb_eq.
Qed.
Lemma table_entry i : 0 <= i < 512 -> entryAt hashTable i = Ok (hashOf (i mod 256)).
Proof.
  intros H. assert (E : match entryAt hashTable i with Ok e => e =? hashOf (i mod 256) | _ => false end = true).
  { revert i H. apply (table_all (fun i => match entryAt hashTable i with Ok e => e =? hashOf (i mod 256) | _ => false end) 512). vm_compute. reflexivity. }
  destruct (entryAt hashTable i); try discriminate. apply Z.eqb_eq in E. now rewrite E.
Qed.
Lemma mask_mod a : Z.land a 255 = a mod 256.
Proof. change 255 with (Z.ones 8). rewrite Z.land_ones by lia. reflexivity. Qed.
Lemma mask7_mod a : Z.land a 7 = a mod 8.
Proof. change 7 with (Z.ones 3). rewrite Z.land_ones by lia. reflexivity. Qed.

Local Open Scope R_scope.
Definition vecPair (d : R * R) : vec2 R := mkV2 (fst d) (snd d).
Lemma sqrt2_pos : 0 < sqrt 2.
Proof. apply sqrt_lt_R0. lra. Qed.
Lemma sqrt2_sq : sqrt 2 * sqrt 2 = 2.
Proof. apply sqrt_sqrt. lra. Qed.
Lemma gradient_entry h : (0 <= h < 8)%Z -> entryAt (gradients2D realNums realTrig realGens) h = Ok (vecPair (compass h)).
Proof.
  intros H. assert (T : - (1 / sqrt 2) = -1 / sqrt 2) by (unfold Rdiv; lra).
  assert (h = 0 \/ h = 1 \/ h = 2 \/ h = 3 \/ h = 4 \/ h = 5 \/ h = 6 \/ h = 7)%Z as [->|[->|[->|[->|[->|[->|[->| ->]]]]]]] by lia;
    unfold entryAt, gradients2D, vecPair, compass; cbn [fst snd]; rewrite ?T; reflexivity.
Qed.
Lemma corner_entry h y : (0 <= h < 256)%Z -> (0 <= y <= 256)%Z ->
  cornerGradient realNums realTrig realGens h y = Ok (vecPair (compass (hashOf ((h + y) mod 256) mod 8)%Z)).
Proof.
  intros H Y. unfold cornerGradient. change (Z.add h y) with (h + y)%Z.
  destruct (Z.eq_dec (h + y) 512) as [E|E]; [lia|]. rewrite table_entry by lia. cbn [bind]. rewrite mask7_mod. apply gradient_entry, Z.mod_pos_bound. lia.
Qed.

(** * The formula of a cell *)
Lemma fade_flip t : fade (1 - t) = 1 - fade t.
Proof. unfold fade. ring. Qed.
Lemma fade_0 : fade 0 = 0.
Proof. unfold fade. ring. Qed.
Lemma fade_1 : fade 1 = 1.
Proof. unfold fade. ring. Qed.
Lemma kernel_0x d x y : 0 <= x <= 1 -> 0 <= y <= 1 -> kernel d x y = (1 - fade x) * (1 - fade y) * (fst d * x + snd d * y).
Proof. intros X Y. unfold kernel. now rewrite !Rabs_pos_eq by lra. Qed.
Lemma kernel_10 d x y : 0 <= x <= 1 -> 0 <= y <= 1 -> kernel d (x - 1) y = fade x * (1 - fade y) * (fst d * (x - 1) + snd d * y).
Proof. intros X Y. unfold kernel. rewrite (Rabs_left1 (x - 1)), (Rabs_pos_eq y) by lra. replace (- (x - 1)) with (1 - x) by ring. rewrite fade_flip. ring. Qed.
Lemma kernel_01 d x y : 0 <= x <= 1 -> 0 <= y <= 1 -> kernel d x (y - 1) = (1 - fade x) * fade y * (fst d * x + snd d * (y - 1)).
Proof. intros X Y. unfold kernel. rewrite (Rabs_left1 (y - 1)), (Rabs_pos_eq x) by lra. replace (- (y - 1)) with (1 - y) by ring. rewrite fade_flip. ring. Qed.
Lemma kernel_11 d x y : 0 <= x <= 1 -> 0 <= y <= 1 -> kernel d (x - 1) (y - 1) = fade x * fade y * (fst d * (x - 1) + snd d * (y - 1)).
Proof.
  intros X Y. unfold kernel. rewrite (Rabs_left1 (y - 1)), (Rabs_left1 (x - 1)) by lra.
  replace (- (y - 1)) with (1 - y) by ring. replace (- (x - 1)) with (1 - x) by ring. rewrite !fade_flip. ring.
Qed.
(** The noise of a cell by the four gradients. *)
Definition blend (a b c d : R * R) (x y : R) : R :=
  (1 - fade y) * ((1 - fade x) * (fst a * x + snd a * y) + fade x * (fst b * (x - 1) + snd b * y)) +
  fade y * ((1 - fade x) * (fst c * x + snd c * (y - 1)) + fade x * (fst d * (x - 1) + snd d * (y - 1))).
Lemma noise_blend dir i j u v : inCell i u -> inCell j v ->
  noiseIn dir i j u v = sqrt 2 * blend (dir i j) (dir (i + 1) j)%Z (dir i (j + 1))%Z (dir (i + 1) (j + 1))%Z (u - IZR i) (v - IZR j).
Proof.
  unfold inCell. intros U V. unfold noiseIn. rewrite !plus_IZR.
  replace (u - (IZR i + 1)) with (u - IZR i - 1) by ring. replace (v - (IZR j + 1)) with (v - IZR j - 1) by ring.
  rewrite kernel_0x, kernel_10, kernel_01, kernel_11 by lra. unfold blend. ring.
Qed.
Lemma floor_cell u : inCell (realFloor u) u /\ u < IZR (realFloor u) + 1.
Proof. unfold inCell, realFloor. destruct (base_Int_part u) as (A & B). lra. Qed.
Lemma floor_is u a : IZR a <= u < IZR a + 1 -> realFloor u = a.
Proof.
  intros H. destruct (floor_cell u) as ((C & D) & E).
  assert (L1 : (a < realFloor u + 1)%Z) by (apply lt_IZR; rewrite plus_IZR; lra).
  assert (L2 : (realFloor u < a + 1)%Z) by (apply lt_IZR; rewrite !plus_IZR; lra). lia.
Qed.
Lemma cell_floor i u : inCell i u -> realFloor u = i \/ realFloor u = (i + 1)%Z /\ u = IZR (i + 1).
Proof.
  intros (A & B). destruct (floor_cell u) as ((C & D) & E). rewrite plus_IZR.
  assert (L1 : (i < realFloor u + 1)%Z) by (apply lt_IZR; rewrite plus_IZR; lra).
  assert (L2 : (realFloor u < i + 1 + 1)%Z) by (apply lt_IZR; rewrite !plus_IZR; lra).
  assert (realFloor u = i \/ realFloor u = i + 1)%Z as [Q|Q] by lia; [now left|right]. split; [exact Q|].
  rewrite Q, plus_IZR in C. lra.
Qed.
(** At the border of two cells both give the same. *)
Lemma seam_x dir i j v : noiseIn dir i j (IZR (i + 1)) v = noiseIn dir (i + 1) j (IZR (i + 1)) v.
Proof.
  unfold noiseIn, kernel. rewrite !plus_IZR.
  replace (IZR i + 1 - IZR i) with 1 by ring. replace (IZR i + 1 - (IZR i + 1)) with 0 by ring. replace (IZR i + 1 - (IZR i + 1 + 1)) with (- 1) by ring.
  replace (Rabs (- 1)) with 1 by (rewrite Rabs_left; lra). rewrite Rabs_R1, Rabs_R0, fade_0, fade_1. ring.
Qed.
Definition flip (dir : Z -> Z -> R * R) (i j : Z) : R * R := (snd (dir j i), fst (dir j i)).
Lemma noise_flip dir i j u v : noiseIn dir i j u v = noiseIn (flip dir) j i v u.
Proof. unfold noiseIn, kernel, flip. cbn [fst snd]. ring. Qed.
Lemma seam_y dir i j u : noiseIn dir i j u (IZR (j + 1)) = noiseIn dir i (j + 1) u (IZR (j + 1)).
Proof. rewrite !(noise_flip dir). apply seam_x. Qed.
Definition noise (dir : Z -> Z -> R * R) (u v : R) : R := noiseIn dir (realFloor u) (realFloor v) u v.
Lemma any_cell dir i j u v : inCell i u -> inCell j v -> noiseIn dir i j u v = noise dir u v.
Proof.
  intros U V. unfold noise. destruct (cell_floor i u U) as [->|(-> & Eu)], (cell_floor j v V) as [->|(-> & Ev)].
  - reflexivity.
  - rewrite Ev. apply seam_y.
  - rewrite Eu. apply seam_x.
  - rewrite Eu, Ev, seam_x. apply seam_y.
Qed.

(** * The function *)
Lemma mod_next a : ((a mod 256 + 1) mod 256 = (a + 1) mod 256)%Z.
Proof. rewrite Z.add_mod_idemp_l by lia. reflexivity. Qed.
Lemma perlin_cell x y f : realTiny <= f -> fits (realFloor (x * f)) -> fits (realFloor (y * f)) ->
  perlin2D realNums realTrig realGens realFloor realTiny x y f = Ok (noise (gradientsOf hashOf) (x * f) (y * f)).
Proof.
  intros F X Y. unfold perlin2D. cbn [realNums nlt nmul]. destruct (Rlt_dec f realTiny) as [L|_]; [lra|].
  set (ix := realFloor (x * f)) in *. set (iy := realFloor (y * f)) in *.
  assert (Cx : castInt ix = Ok ix) by (unfold fits, castInt in *; destruct (Z.leb_spec (- 2 ^ 31) ix), (Z.ltb_spec ix (2 ^ 31)); try lia; reflexivity).
  assert (Cy : castInt iy = Ok iy) by (unfold fits, castInt in *; destruct (Z.leb_spec (- 2 ^ 31) iy), (Z.ltb_spec iy (2 ^ 31)); try lia; reflexivity).
  cbv zeta. rewrite Cx, Cy. cbn [bind]. rewrite !mask_mod. change Z.add with Z.add.
  assert (Mx := Z.mod_pos_bound ix 256 ltac:(lia)). assert (My := Z.mod_pos_bound iy 256 ltac:(lia)).
  rewrite !table_entry by lia. cbn [bind]. rewrite mod_next, Z.mod_mod by lia.
  assert (Hx := hash_range (ix mod 256) Mx). assert (Hx1 := hash_range ((ix + 1) mod 256) (Z.mod_pos_bound _ 256 ltac:(lia))).
  rewrite !corner_entry by lia. cbn [bind].
  assert (Q : forall h : Z, ((h + (iy mod 256 + 1)) mod 256 = (h + (iy + 1)) mod 256)%Z).
  { intros h. rewrite <- (Z.add_mod_idemp_r h (iy mod 256 + 1)), mod_next, Z.add_mod_idemp_r by lia. reflexivity. }
  rewrite !Q. rewrite !(Z.add_mod_idemp_r _ iy) by lia.
  destruct (floor_cell (x * f)) as (Ux & _), (floor_cell (y * f)) as (Uy & _). fold ix in Ux. fold iy in Uy.
  unfold noise. fold ix iy. rewrite noise_blend by assumption.
  change (compass (hashOf ((hashOf (ix mod 256) + iy) mod 256) mod 8)) with (gradientsOf hashOf ix iy).
  change (compass (hashOf ((hashOf ((ix + 1) mod 256) + iy) mod 256) mod 8)) with (gradientsOf hashOf (ix + 1) iy).
  change (compass (hashOf ((hashOf (ix mod 256) + (iy + 1)) mod 256) mod 8)) with (gradientsOf hashOf ix (iy + 1)).
  change (compass (hashOf ((hashOf ((ix + 1) mod 256) + (iy + 1)) mod 256) mod 8)) with (gradientsOf hashOf (ix + 1) (iy + 1)).
  generalize (gradientsOf hashOf ix iy), (gradientsOf hashOf (ix + 1) iy), (gradientsOf hashOf ix (iy + 1)), (gradientsOf hashOf (ix + 1) (iy + 1)).
  intros a b c d. apply (f_equal Ok). unfold blend, dotG, smooth, sqr2, vecPair, fade. cbn [realNums realTrig realGens nadd nsub nmul ksqrt gint v2x v2y]. ring.
Qed.
Lemma perlin_low x y f : f < realTiny -> perlin2D realNums realTrig realGens realFloor realTiny x y f = Ok 0.
Proof. intros L. unfold perlin2D. cbn [realNums nlt nzero]. destruct (Rlt_dec f realTiny); [reflexivity|contradiction]. Qed.
Lemma fits_dec i : {fits i} + {~ fits i}.
Proof. unfold fits. destruct (Z_le_dec (- 2 ^ 31) i), (Z_lt_dec i (2 ^ 31)); [left|right|right|right]; lia. Qed.
Lemma perlin_ub x y f : realTiny <= f -> ~ (fits (realFloor (x * f)) /\ fits (realFloor (y * f))) ->
  perlin2D realNums realTrig realGens realFloor realTiny x y f = UB.
Proof.
  intros F N. unfold perlin2D. cbn [realNums nlt nmul]. destruct (Rlt_dec f realTiny) as [L|_]; [lra|]. cbv zeta. unfold castInt.
  assert (Cs : forall i, (if ((- 2 ^ 31 <=? i) && (i <? 2 ^ 31))%Z then Ok i else UB) = if fits_dec i then Ok i else UB).
  { intros i. destruct (fits_dec i) as [W|W]; unfold fits in W; destruct (Z.leb_spec (- 2 ^ 31) i), (Z.ltb_spec i (2 ^ 31)); cbn; try lia; reflexivity. }
  rewrite !Cs. destruct (fits_dec (realFloor (x * f))); [cbn [bind]|reflexivity]. destruct (fits_dec (realFloor (y * f))); [exfalso; apply N; now split|reflexivity].
Qed.

(** * Bounds *)
Definition unit2 (d : R * R) : Prop := fst d * fst d + snd d * snd d = 1.
Lemma compass_unit h : unit2 (compass h).
Proof.
  assert (S : 1 / sqrt 2 * (1 / sqrt 2) = / 2).
  { pose proof sqrt2_sq as Q. pose proof sqrt2_pos as P. unfold Rdiv. rewrite !Rmult_1_l, <- Rinv_mult. now rewrite Q. }
  unfold unit2, compass. destruct h as [|[[[p|p|]|[p|p|]|]|[[p|p|]|[p|p|]|]|]|]; cbn [fst snd]; nra.
Qed.
Lemma fade_low t : 0 <= t <= / 2 -> fade t <= t.
Proof.
  intros H. assert (E : t - fade t = t * ((1 - 2 * t) * (1 + 2 * t - 6 * t ^ 2 + 3 * t ^ 3))) by (unfold fade; ring).
  assert (P : 0 <= 1 + 2 * t - 6 * t ^ 2 + 3 * t ^ 3).
  { assert (0 <= t ^ 3) by (apply pow_le; lra). assert (t ^ 2 <= t * / 2) by (cbn; rewrite Rmult_1_r; apply Rmult_le_compat_l; lra). lra. }
  assert (0 <= t * ((1 - 2 * t) * (1 + 2 * t - 6 * t ^ 2 + 3 * t ^ 3))) by (apply Rmult_le_pos; [lra|]; apply Rmult_le_pos; lra). lra.
Qed.
Lemma fade_range t : 0 <= t <= 1 -> 0 <= fade t <= 1.
Proof.
  assert (P : forall t, 0 <= t <= 1 -> 0 <= fade t).
  { intros s H. replace (fade s) with (s ^ 3 * (6 * s ^ 2 - 15 * s + 10)) by (unfold fade; ring). apply Rmult_le_pos; [apply pow_le; lra|]. nra. }
  intros H. split; [now apply P|]. pose proof (P (1 - t)) as Q. rewrite fade_flip in Q. lra.
Qed.
Lemma spread_low t : 0 <= t <= / 2 -> (1 - fade t) * (t * t) + fade t * ((t - 1) * (t - 1)) <= / 4.
Proof.
  intros H. pose proof (fade_low t H) as F.
  assert (E : / 4 - ((1 - fade t) * (t * t) + fade t * ((t - 1) * (t - 1))) = (1 - 2 * t) * (/ 4 * (1 + 2 * t) - fade t)) by field.
  assert (0 <= (1 - 2 * t) * (/ 4 * (1 + 2 * t) - fade t)) by (apply Rmult_le_pos; lra). lra.
Qed.
Lemma spread t : 0 <= t <= 1 -> (1 - fade t) * (t * t) + fade t * ((t - 1) * (t - 1)) <= / 4.
Proof.
  intros H. destruct (Rle_dec t (/ 2)) as [L|L]; [apply spread_low; lra|].
  pose proof (spread_low (1 - t)) as Q. rewrite fade_flip in Q.
  replace ((1 - fade t) * (t * t) + fade t * ((t - 1) * (t - 1))) with ((1 - (1 - fade t)) * ((1 - t) * (1 - t)) + (1 - fade t) * ((1 - t - 1) * (1 - t - 1))) by ring.
  apply Q. lra.
Qed.
Lemma jensen s a b : 0 <= s <= 1 -> ((1 - s) * a + s * b) * ((1 - s) * a + s * b) <= (1 - s) * (a * a) + s * (b * b).
Proof.
  intros H. assert (E : (1 - s) * (a * a) + s * (b * b) - ((1 - s) * a + s * b) * ((1 - s) * a + s * b) = s * (1 - s) * ((a - b) * (a - b))) by ring.
  assert (0 <= s * (1 - s) * ((a - b) * (a - b))) by (apply Rmult_le_pos; [apply Rmult_le_pos; lra|apply Rle_0_sqr]). lra.
Qed.
Lemma schwarz d x y : unit2 d -> (fst d * x + snd d * y) * (fst d * x + snd d * y) <= x * x + y * y.
Proof.
  unfold unit2. intros U. assert (E : x * x + y * y - (fst d * x + snd d * y) * (fst d * x + snd d * y) =
    (fst d * y - snd d * x) * (fst d * y - snd d * x) + (1 - (fst d * fst d + snd d * snd d)) * (x * x + y * y)) by ring.
  rewrite U in E. assert (0 <= (fst d * y - snd d * x) * (fst d * y - snd d * x)) by apply Rle_0_sqr. lra.
Qed.
Lemma mix s a b a' b' : 0 <= s <= 1 -> a <= a' -> b <= b' -> (1 - s) * a + s * b <= (1 - s) * a' + s * b'.
Proof. intros H A B. apply Rplus_le_compat; apply Rmult_le_compat_l; lra. Qed.
Lemma blend_square a b c d x y : unit2 a -> unit2 b -> unit2 c -> unit2 d -> 0 <= x <= 1 -> 0 <= y <= 1 ->
  blend a b c d x y * blend a b c d x y <= / 2.
Proof.
  intros A B C D X Y. pose proof (fade_range x X) as Fx. pose proof (fade_range y Y) as Fy. unfold blend.
  eapply Rle_trans; [apply jensen, Fy|].
  eapply Rle_trans.
  { apply mix; [exact Fy| |]; (eapply Rle_trans; [apply jensen, Fx|]); apply mix; try exact Fx; apply schwarz; assumption. }
  replace _ with (((1 - fade x) * (x * x) + fade x * ((x - 1) * (x - 1))) + ((1 - fade y) * (y * y) + fade y * ((y - 1) * (y - 1)))) by ring.
  pose proof (spread x X). pose proof (spread y Y). lra.
Qed.
Lemma noise_range dir u v : (forall i j, unit2 (dir i j)) -> -1 <= noise dir u v <= 1.
Proof.
  intros U. destruct (floor_cell u) as (A & _), (floor_cell v) as (B & _). unfold noise. rewrite noise_blend by assumption.
  set (q := blend _ _ _ _ _ _).
  assert (Q : q * q <= / 2) by (apply blend_square; try apply U; unfold inCell in *; lra).
  assert (S : (sqrt 2 * q) * (sqrt 2 * q) <= 1) by (replace ((sqrt 2 * q) * (sqrt 2 * q)) with ((sqrt 2 * sqrt 2) * (q * q)) by ring; rewrite sqrt2_sq; lra).
  set (p := sqrt 2 * q) in *. split; nra.
Qed.

(** * Slopes *)
Lemma fade_slope a b : 0 <= a <= 1 -> 0 <= b <= 1 -> Rabs (fade b - fade a) <= 2 * Rabs (b - a).
Proof.
  assert (Up : forall a b, 0 <= a -> a < b -> b <= 1 -> Rabs (fade b - fade a) <= 2 * Rabs (b - a)).
  { intros x y X L Y. assert (D : forall c, x <= c <= y -> derivable_pt_lim fade c (30 * c ^ 4 - 60 * c ^ 3 + 30 * c ^ 2)).
    { intros c _. unfold fade. replace (30 * c ^ 4 - 60 * c ^ 3 + 30 * c ^ 2) with (6 * (INR 5 * c ^ pred 5) - 15 * (INR 4 * c ^ pred 4) + 10 * (INR 3 * c ^ pred 3)) by (cbn; ring).
      apply (derivable_pt_lim_plus (fun t => 6 * t ^ 5 - 15 * t ^ 4) (fun t => 10 * t ^ 3)).
      - apply (derivable_pt_lim_minus (fun t => 6 * t ^ 5) (fun t => 15 * t ^ 4)); apply (derivable_pt_lim_scal (fun t => t ^ _)), derivable_pt_lim_pow.
      - apply (derivable_pt_lim_scal (fun t => t ^ 3)), derivable_pt_lim_pow. }
    destruct (MVT_cor2 fade _ x y L D) as (c & E & Hc). rewrite E, Rabs_mult. apply Rmult_le_compat_r; [apply Rabs_pos|].
    replace (30 * c ^ 4 - 60 * c ^ 3 + 30 * c ^ 2) with (30 * ((c * (1 - c)) * (c * (1 - c)))) by ring.
    assert (P : 0 <= c * (1 - c) <= / 4).
    { split; [apply Rmult_le_pos; lra|]. pose proof (Rle_0_sqr (c - / 2)) as Sq. unfold Rsqr in Sq. lra. }
    set (q := c * (1 - c)) in *. assert (Q : 0 <= q * q <= / 4 * / 4) by (split; [apply Rmult_le_pos|apply Rmult_le_compat]; lra). rewrite Rabs_pos_eq; lra. }
  intros A B. destruct (Rtotal_order a b) as [L|[->|L]].
  - apply Up; lra.
  - rewrite !Rminus_diag_eq by reflexivity. rewrite Rabs_R0. lra.
  - rewrite (Rabs_minus_sym (fade b)), (Rabs_minus_sym b). apply Up; lra.
Qed.
Lemma unit_part d : unit2 d -> Rabs (fst d) <= 1 /\ Rabs (snd d) <= 1.
Proof. unfold unit2. intros U. split; apply Rabs_le; split; nra. Qed.
Lemma dot_bound d x y : unit2 d -> Rabs x <= 1 -> Rabs y <= 1 -> Rabs (fst d * x + snd d * y) <= 2.
Proof.
  intros U X Y. destruct (unit_part d U) as (A & B). eapply Rle_trans; [apply Rabs_triang|]. rewrite !Rabs_mult.
  pose proof (Rabs_pos (fst d)). pose proof (Rabs_pos (snd d)). pose proof (Rabs_pos x). pose proof (Rabs_pos y). nra.
Qed.
Lemma abs_mix s a b m : 0 <= s <= 1 -> Rabs a <= m -> Rabs b <= m -> Rabs ((1 - s) * a + s * b) <= m.
Proof.
  intros H A B. eapply Rle_trans; [apply Rabs_triang|]. rewrite !Rabs_mult, (Rabs_pos_eq (1 - s)), (Rabs_pos_eq s) by lra.
  replace m with ((1 - s) * m + s * m) by ring. now apply mix.
Qed.
Lemma lerp_slope a b x x' y : unit2 a -> unit2 b -> 0 <= x <= 1 -> 0 <= x' <= 1 -> Rabs y <= 1 ->
  Rabs (((1 - fade x) * (fst a * x + snd a * y) + fade x * (fst b * (x - 1) + snd b * y)) -
        ((1 - fade x') * (fst a * x' + snd a * y) + fade x' * (fst b * (x' - 1) + snd b * y))) <= 9 * Rabs (x - x').
Proof.
  intros A B X X' Y. pose proof (fade_range x X) as Fx. pose proof (fade_slope x' x X' X) as S.
  replace (_ - _) with (((1 - fade x) * (fst a * (x - x')) + fade x * (fst b * (x - x'))) +
    (fade x - fade x') * ((fst b * (x' - 1) + snd b * y) - (fst a * x' + snd a * y))) by ring.
  eapply Rle_trans; [apply Rabs_triang|].
  assert (P1 : Rabs ((1 - fade x) * (fst a * (x - x')) + fade x * (fst b * (x - x'))) <= Rabs (x - x')).
  { apply abs_mix; [exact Fx| |]; rewrite Rabs_mult; rewrite <- (Rmult_1_l (Rabs (x - x'))) at 2; apply Rmult_le_compat_r; try apply Rabs_pos; now apply unit_part. }
  assert (P2 : Rabs ((fst b * (x' - 1) + snd b * y) - (fst a * x' + snd a * y)) <= 4).
  { unfold Rminus at 1. eapply Rle_trans; [apply Rabs_triang|]. rewrite Rabs_Ropp.
    pose proof (dot_bound b (x' - 1) y B) as Q1. pose proof (dot_bound a x' y A) as Q2.
    rewrite (Rabs_left1 (x' - 1)) in Q1 by lra. rewrite (Rabs_pos_eq x') in Q2 by lra. lra. }
  rewrite Rabs_mult. pose proof (Rabs_pos (fade x - fade x')). pose proof (Rabs_pos ((fst b * (x' - 1) + snd b * y) - (fst a * x' + snd a * y))).
  pose proof (Rabs_pos (x - x')). assert (Rabs (fade x - fade x') * Rabs (fst b * (x' - 1) + snd b * y - (fst a * x' + snd a * y)) <= (2 * Rabs (x - x')) * 4)
    by (apply Rmult_le_compat; assumption). lra.
Qed.
Lemma blend_slope a b c d x x' y : unit2 a -> unit2 b -> unit2 c -> unit2 d -> 0 <= x <= 1 -> 0 <= x' <= 1 -> 0 <= y <= 1 ->
  Rabs (blend a b c d x y - blend a b c d x' y) <= 9 * Rabs (x - x').
Proof.
  intros A B C D X X' Y. unfold blend.
  match goal with |- Rabs ((1 - fade y) * ?p + fade y * ?q - ((1 - fade y) * ?p' + fade y * ?q')) <= _ =>
    replace ((1 - fade y) * p + fade y * q - ((1 - fade y) * p' + fade y * q')) with ((1 - fade y) * (p - p') + fade y * (q - q')) by ring end.
  apply abs_mix; [apply fade_range, Y|apply lerp_slope|apply lerp_slope]; try assumption; apply Rabs_le; lra.
Qed.
Lemma sqrt2_small : sqrt 2 <= 13 / 9.
Proof. pose proof sqrt2_sq. pose proof sqrt2_pos. nra. Qed.
Lemma cell_slope dir i u u' v : (forall i j, unit2 (dir i j)) -> inCell i u -> inCell i u' ->
  Rabs (noise dir u v - noise dir u' v) <= 13 * Rabs (u - u').
Proof.
  intros Un U U'. destruct (floor_cell v) as (V & _). rewrite <- (any_cell dir i (realFloor v) u v U V), <- (any_cell dir i (realFloor v) u' v U' V).
  rewrite !noise_blend by assumption. rewrite <- Rmult_minus_distr_l, Rabs_mult, (Rabs_pos_eq (sqrt 2)) by (pose proof sqrt2_pos; lra).
  unfold inCell in *.
  match goal with |- context [blend ?a ?b ?c ?d (u - ?e) ?y] =>
    pose proof (blend_slope a b c d (u - e) (u' - e) y (Un _ _) (Un _ _) (Un _ _) (Un _ _) ltac:(lra) ltac:(lra) ltac:(lra)) as S end.
  replace (u - IZR i - (u' - IZR i)) with (u - u') in S by ring. pose proof sqrt2_small. pose proof sqrt2_pos. pose proof (Rabs_pos (u - u')).
  replace (13 * Rabs (u - u')) with ((13 / 9) * (9 * Rabs (u - u'))) by field. apply Rmult_le_compat; try lra. apply Rabs_pos.
Qed.
Lemma noise_slope_lt dir u u' v : (forall i j, unit2 (dir i j)) -> u < u' -> Rabs (noise dir u v - noise dir u' v) <= 13 * Rabs (u - u').
Proof.
  intros Un L. rewrite (Rabs_left (u - u')) by lra. destruct (Rle_dec 1 (u' - u)) as [Far|Near].
  - pose proof (noise_range dir u v Un). pose proof (noise_range dir u' v Un). apply Rabs_le. lra.
  - destruct (floor_cell u) as (U & Ul). set (i := realFloor u) in *. destruct (Rle_dec u' (IZR i + 1)) as [In|Out].
    + pose proof (cell_slope dir i u u' v Un U) as S. rewrite (Rabs_left (u - u')) in S by lra. apply S. unfold inCell in *. lra.
    + assert (M : inCell i (IZR i + 1)) by (unfold inCell in *; lra). assert (M' : inCell (i + 1) (IZR i + 1)) by (unfold inCell in *; rewrite plus_IZR; lra).
      assert (U' : inCell (i + 1) u') by (unfold inCell in *; rewrite plus_IZR; lra).
      pose proof (cell_slope dir i u (IZR i + 1) v Un U M) as S1. pose proof (cell_slope dir (i + 1) (IZR i + 1) u' v Un M' U') as S2.
      rewrite (Rabs_left (u - (IZR i + 1))) in S1 by lra. rewrite (Rabs_left (IZR i + 1 - u')) in S2 by lra.
      replace (noise dir u v - noise dir u' v) with ((noise dir u v - noise dir (IZR i + 1) v) + (noise dir (IZR i + 1) v - noise dir u' v)) by ring.
      eapply Rle_trans; [apply Rabs_triang|]. lra.
Qed.
Lemma noise_slope_x dir u u' v : (forall i j, unit2 (dir i j)) -> Rabs (noise dir u v - noise dir u' v) <= 13 * Rabs (u - u').
Proof.
  intros Un. destruct (Rtotal_order u u') as [L|[->|L]].
  - now apply noise_slope_lt.
  - rewrite !Rminus_diag_eq by reflexivity. rewrite Rabs_R0. lra.
  - rewrite (Rabs_minus_sym (noise dir u v)), (Rabs_minus_sym u). now apply noise_slope_lt.
Qed.
Lemma noise_slope dir u v u' v' : (forall i j, unit2 (dir i j)) -> Rabs (noise dir u v - noise dir u' v') <= 13 * (Rabs (u - u') + Rabs (v - v')).
Proof.
  intros Un. replace (noise dir u v - noise dir u' v') with ((noise dir u v - noise dir u' v) + (noise dir u' v - noise dir u' v')) by ring.
  eapply Rle_trans; [apply Rabs_triang|]. pose proof (noise_slope_x dir u u' v Un) as A.
  assert (Uf : forall i j, unit2 (flip dir i j)) by (intros i j; unfold unit2, flip; cbn [fst snd]; rewrite Rplus_comm; apply Un).
  pose proof (noise_slope_x (flip dir) v v' u' Uf) as B. unfold noise in B |- *. rewrite <- !(noise_flip dir) in B. unfold noise in A. lra.
Qed.
Lemma gradients_unit P i j : unit2 (gradientsOf P i j).
Proof. apply compass_unit. Qed.
