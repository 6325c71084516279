(** Proofs about noise in three dimensions (exact real arithmetic). *)
From Coq Require Import Reals Lra Lia.
From Verif Require Import Base RingModel MeshBuildModel QuatModel GenModel RowModel NoiseModel NoiseSpec NoiseProofs Noise3Model Noise3Spec.
Local Open Scope R_scope.

Definition vecTriple (d : dir3) : vec3 R := let '(a, b, c) := d in mkV3 a b c.
Lemma mask15_mod a : Z.land a 15 = (a mod 16)%Z.
Proof. change 15%Z with (Z.ones 4). rewrite Z.land_ones by lia. reflexivity. Qed.
Lemma edge_entry h : (0 <= h < 16)%Z -> entryAt (gradients3D realGens) h = Ok (vecTriple (edges h)).
Proof.
  intros H.
  assert (h = 0 \/ h = 1 \/ h = 2 \/ h = 3 \/ h = 4 \/ h = 5 \/ h = 6 \/ h = 7 \/ h = 8 \/ h = 9 \/ h = 10 \/ h = 11 \/ h = 12 \/ h = 13 \/ h = 14 \/ h = 15)%Z as Q by lia.
  repeat (destruct Q as [->|Q]; [unfold entryAt, gradients3D, vecTriple, edges; cbn; reflexivity|]). subst h.
  unfold entryAt, gradients3D, vecTriple, edges; cbn; reflexivity.
Qed.
Lemma corner3_entry h z : (0 <= h < 256)%Z -> (0 <= z <= 256)%Z ->
  cornerGradient3 realGens h z = Ok (vecTriple (edges (hashOf ((h + z) mod 256) mod 16)%Z)).
Proof.
  intros H Y. unfold cornerGradient3. change (Z.add h z) with (h + z)%Z. rewrite table_entry by lia. cbn [bind]. rewrite mask15_mod.
  apply edge_entry, Z.mod_pos_bound. lia.
Qed.

(** * The formula of a cell *)
Lemma near_0 x : 0 <= x <= 1 -> 1 - fade (Rabs x) = 1 - fade x.
Proof. intros X. now rewrite Rabs_pos_eq by lra. Qed.
Lemma near_1 x : 0 <= x <= 1 -> 1 - fade (Rabs (x - 1)) = fade x.
Proof. intros X. rewrite Rabs_left1 by lra. replace (- (x - 1)) with (1 - x) by ring. rewrite fade_flip. ring. Qed.
Definition lerp (s a b : R) : R := (1 - s) * a + s * b.
(** The noise of a cell by the eight gradients. *)
Definition blend3 (a b c d a' b' c' d' : dir3) (x y z : R) : R :=
  lerp (fade z) (lerp (fade y) (lerp (fade x) (along a x y z) (along b (x - 1) y z)) (lerp (fade x) (along c x (y - 1) z) (along d (x - 1) (y - 1) z)))
    (lerp (fade y) (lerp (fade x) (along a' x y (z - 1)) (along b' (x - 1) y (z - 1))) (lerp (fade x) (along c' x (y - 1) (z - 1)) (along d' (x - 1) (y - 1) (z - 1)))).
Lemma noise3_blend dir i j k u v w : inCell i u -> inCell j v -> inCell k w ->
  noise3In dir i j k u v w =
  blend3 (dir i j k) (dir (i + 1) j k)%Z (dir i (j + 1) k)%Z (dir (i + 1) (j + 1) k)%Z
    (dir i j (k + 1))%Z (dir (i + 1) j (k + 1))%Z (dir i (j + 1) (k + 1))%Z (dir (i + 1) (j + 1) (k + 1))%Z (u - IZR i) (v - IZR j) (w - IZR k).
Proof.
  unfold inCell. intros U V W. unfold noise3In, influence. rewrite !plus_IZR.
  replace (u - (IZR i + 1)) with (u - IZR i - 1) by ring. replace (v - (IZR j + 1)) with (v - IZR j - 1) by ring. replace (w - (IZR k + 1)) with (w - IZR k - 1) by ring.
  unfold kernel3. rewrite !near_0, !near_1 by lra. unfold blend3, lerp. ring.
Qed.
Lemma seam3_x dir i j k v w : noise3In dir i j k (IZR (i + 1)) v w = noise3In dir (i + 1) j k (IZR (i + 1)) v w.
Proof.
  unfold noise3In, influence, kernel3. rewrite !plus_IZR.
  replace (IZR i + 1 - IZR i) with 1 by ring. replace (IZR i + 1 - (IZR i + 1)) with 0 by ring. replace (IZR i + 1 - (IZR i + 1 + 1)) with (- 1) by ring.
  replace (Rabs (- 1)) with 1 by (rewrite Rabs_left; lra). rewrite Rabs_R1, Rabs_R0, fade_0, fade_1. ring.
Qed.
(** The axes in turn. *)
Definition turn3 (d : dir3) : dir3 := let '(a, b, c) := d in (b, c, a).
Definition turned (dir : Z -> Z -> Z -> dir3) (j k i : Z) : dir3 := turn3 (dir i j k).
Lemma along_turn d x y z : along d x y z = along (turn3 d) y z x.
Proof. destruct d as ((a & b) & c). cbn. ring. Qed.
Lemma noise3_turn dir i j k u v w : noise3In dir i j k u v w = noise3In (turned dir) j k i v w u.
Proof. unfold noise3In, influence, kernel3, turned. rewrite !(along_turn (dir _ _ _)). ring. Qed.
Lemma seam3_y dir i j k u w : noise3In dir i j k u (IZR (j + 1)) w = noise3In dir i (j + 1) k u (IZR (j + 1)) w.
Proof. rewrite !(noise3_turn dir). apply seam3_x. Qed.
Lemma seam3_z dir i j k u v : noise3In dir i j k u v (IZR (k + 1)) = noise3In dir i j (k + 1) u v (IZR (k + 1)).
Proof. rewrite !(noise3_turn dir). apply seam3_y. Qed.
Definition noise3 (dir : Z -> Z -> Z -> dir3) (u v w : R) : R := noise3In dir (realFloor u) (realFloor v) (realFloor w) u v w.
Lemma noise3_turned dir u v w : noise3 dir u v w = noise3 (turned dir) v w u.
Proof. apply noise3_turn. Qed.
Lemma any_cell3 dir i j k u v w : inCell i u -> inCell j v -> inCell k w -> noise3In dir i j k u v w = noise3 dir u v w.
Proof.
  intros U V W. unfold noise3.
  transitivity (noise3In dir (realFloor u) j k u v w); [destruct (cell_floor i u U) as [->|(-> & E)]; [reflexivity|rewrite E; apply seam3_x]|].
  transitivity (noise3In dir (realFloor u) (realFloor v) k u v w); [destruct (cell_floor j v V) as [->|(-> & E)]; [reflexivity|rewrite E; apply seam3_y]|].
  destruct (cell_floor k w W) as [->|(-> & E)]; [reflexivity|rewrite E; apply seam3_z].
Qed.

(** * The function *)
Lemma cast_fit i : fits i -> castInt i = Ok i.
Proof. unfold fits, castInt. intros H. destruct (Z.leb_spec (- 2 ^ 31) i), (Z.ltb_spec i (2 ^ 31)); try lia; reflexivity. Qed.
Lemma cast_unfit i : ~ fits i -> castInt i = UB.
Proof. unfold fits, castInt. intros H. destruct (Z.leb_spec (- 2 ^ 31) i), (Z.ltb_spec i (2 ^ 31)); try reflexivity; exfalso; apply H; lia. Qed.
Lemma mod_inner h y : ((h + y mod 256) mod 256 = (h + y) mod 256)%Z.
Proof. apply Z.add_mod_idemp_r. lia. Qed.
Lemma mod_inner1 h y : ((h + (y mod 256 + 1)) mod 256 = (h + (y + 1)) mod 256)%Z.
Proof. rewrite <- (Z.add_mod_idemp_r h (y mod 256 + 1)), mod_next, Z.add_mod_idemp_r by lia. reflexivity. Qed.
Lemma hash_mod a : (0 <= hashOf (a mod 256) < 256)%Z.
Proof. apply hash_range, Z.mod_pos_bound. lia. Qed.
Lemma perlin3_cell x y z f : realTiny <= f -> fits (realFloor (x * f)) -> fits (realFloor (y * f)) -> fits (realFloor (z * f)) ->
  perlin3D realNums realGens realFloor realTiny x y z f = Ok (noise3 (edgesOf hashOf) (x * f) (y * f) (z * f)).
Proof.
  intros F X Y Z. unfold perlin3D. cbn [realNums nlt nmul]. destruct (Rlt_dec f realTiny) as [L|_]; [lra|].
  destruct (floor_cell (x * f)) as (Ux & _), (floor_cell (y * f)) as (Uy & _), (floor_cell (z * f)) as (Uz & _).
  unfold noise3. rewrite noise3_blend by assumption.
  set (ix := realFloor (x * f)) in *. set (iy := realFloor (y * f)) in *. set (iz := realFloor (z * f)) in *.
  cbv zeta. rewrite !cast_fit by assumption. cbn [bind]. rewrite !mask_mod.
  assert (Mx := Z.mod_pos_bound ix 256 ltac:(lia)). assert (My := Z.mod_pos_bound iy 256 ltac:(lia)). assert (Mz := Z.mod_pos_bound iz 256 ltac:(lia)).
  rewrite !(table_entry (ix mod 256)), !(table_entry (ix mod 256 + 1)) by lia. cbn [bind]. rewrite mod_next, Z.mod_mod by lia.
  assert (H0 := hash_mod ix). assert (H1 := hash_mod (ix + 1)).
  rewrite !table_entry by lia. cbn [bind]. rewrite !mod_inner, !mod_inner1.
  assert (H00 := hash_mod (hashOf (ix mod 256) + iy)). assert (H10 := hash_mod (hashOf ((ix + 1) mod 256) + iy)).
  assert (H01 := hash_mod (hashOf (ix mod 256) + (iy + 1))). assert (H11 := hash_mod (hashOf ((ix + 1) mod 256) + (iy + 1))).
  rewrite !corner3_entry by lia. cbn [bind]. rewrite !mod_inner, !mod_inner1.
  fold (edgesOf hashOf ix iy iz) (edgesOf hashOf (ix + 1) iy iz) (edgesOf hashOf ix (iy + 1) iz) (edgesOf hashOf (ix + 1) (iy + 1) iz)
    (edgesOf hashOf ix iy (iz + 1)) (edgesOf hashOf (ix + 1) iy (iz + 1)) (edgesOf hashOf ix (iy + 1) (iz + 1)) (edgesOf hashOf (ix + 1) (iy + 1) (iz + 1)).
  generalize (edgesOf hashOf ix iy iz), (edgesOf hashOf (ix + 1) iy iz), (edgesOf hashOf ix (iy + 1) iz), (edgesOf hashOf (ix + 1) (iy + 1) iz),
    (edgesOf hashOf ix iy (iz + 1)), (edgesOf hashOf (ix + 1) iy (iz + 1)), (edgesOf hashOf ix (iy + 1) (iz + 1)), (edgesOf hashOf (ix + 1) (iy + 1) (iz + 1)).
  intros a b c d a' b' c' d'. apply (f_equal Ok).
  assert (D : forall q s t r, dotG3 realNums (vecTriple q) s t r = along q s t r) by (intros ((q1 & q2) & q3) s t r; reflexivity). rewrite !D.
  assert (S : forall t, smooth realNums realGens t = fade t) by (intros t; unfold smooth, fade; cbn [realNums realGens nadd nsub nmul gint]; ring). rewrite !S.
  unfold blend3, lerp. cbn [realNums realGens nadd nsub nmul gint].
  set (dx := x * f - IZR ix). set (dy := y * f - IZR iy). set (dz := z * f - IZR iz).
  generalize (fade dx), (fade dy), (fade dz), (along a dx dy dz), (along b (dx - 1) dy dz), (along c dx (dy - 1) dz), (along d (dx - 1) (dy - 1) dz),
    (along a' dx dy (dz - 1)), (along b' (dx - 1) dy (dz - 1)), (along c' dx (dy - 1) (dz - 1)), (along d' (dx - 1) (dy - 1) (dz - 1)).
  intros. ring.
Qed.
Lemma perlin3_low x y z f : f < realTiny -> perlin3D realNums realGens realFloor realTiny x y z f = Ok 0.
Proof. intros L. unfold perlin3D. cbn [realNums nlt nzero]. destruct (Rlt_dec f realTiny); [reflexivity|contradiction]. Qed.
Definition allFit (x y z f : R) : Prop := fits (realFloor (x * f)) /\ fits (realFloor (y * f)) /\ fits (realFloor (z * f)).
Lemma allFit_dec x y z f : {allFit x y z f} + {~ allFit x y z f}.
Proof. unfold allFit. destruct (fits_dec (realFloor (x * f))), (fits_dec (realFloor (y * f))), (fits_dec (realFloor (z * f))); [left; auto|right; tauto..]. Qed.
Lemma perlin3_ub x y z f : realTiny <= f -> ~ allFit x y z f -> perlin3D realNums realGens realFloor realTiny x y z f = UB.
Proof.
  intros F N. unfold perlin3D. cbn [realNums nlt nmul]. destruct (Rlt_dec f realTiny) as [L|_]; [lra|]. cbv zeta.
  destruct (fits_dec (realFloor (x * f))) as [X|X]; [rewrite (cast_fit _ X); cbn [bind]|rewrite (cast_unfit _ X); reflexivity].
  destruct (fits_dec (realFloor (y * f))) as [Y|Y]; [rewrite (cast_fit _ Y); cbn [bind]|rewrite (cast_unfit _ Y); reflexivity].
  destruct (fits_dec (realFloor (z * f))) as [Z|Z]; [exfalso; exact (N (conj X (conj Y Z)))|rewrite (cast_unfit _ Z); reflexivity].
Qed.

(** * Bounds *)
(** Coordinates up to 1 and length up to the root of 2. *)
Definition edgy (d : dir3) : Prop := let '(a, b, c) := d in (Rabs a <= 1 /\ Rabs b <= 1 /\ Rabs c <= 1) /\ a * a + b * b + c * c = 2 /\ Rabs a + Rabs b + Rabs c = 2.
Lemma edges_edgy h : edgy (edges h).
Proof.
  assert (A : Rabs (- 1) = 1) by (rewrite Rabs_left; lra).
  unfold edges. destruct h as [|p|p]; [|destruct p as [[[[p|p|]|[p|p|]|]|[[p|p|]|[p|p|]|]|]|[[[p|p|]|[p|p|]|]|[[p|p|]|[p|p|]|]|]|]|];
    cbn [edgy]; rewrite ?A, ?Rabs_R0, ?Rabs_R1; lra.
Qed.
Lemma edgesOf_edgy P i j k : edgy (edgesOf P i j k).
Proof. apply edges_edgy. Qed.
Lemma turn_edgy d : edgy d -> edgy (turn3 d).
Proof. destruct d as ((a & b) & c). cbn. lra. Qed.
Lemma along_square d x y z : edgy d -> along d x y z * along d x y z <= 2 * (x * x + y * y + z * z).
Proof.
  destruct d as ((a & b) & c). cbn [edgy along]. intros (_ & E & _). rewrite <- E.
  assert (Q : (a * a + b * b + c * c) * (x * x + y * y + z * z) - (a * x + b * y + c * z) * (a * x + b * y + c * z) =
    (a * y - b * x) * (a * y - b * x) + (a * z - c * x) * (a * z - c * x) + (b * z - c * y) * (b * z - c * y)) by ring.
  pose proof (Rle_0_sqr (a * y - b * x)) as P1. pose proof (Rle_0_sqr (a * z - c * x)) as P2. pose proof (Rle_0_sqr (b * z - c * y)) as P3.
  unfold Rsqr in P1, P2, P3. lra.
Qed.
Lemma along_bound d x y z : edgy d -> Rabs x <= 1 -> Rabs y <= 1 -> Rabs z <= 1 -> Rabs (along d x y z) <= 2.
Proof.
  destruct d as ((a & b) & c). cbn [edgy along]. intros (_ & _ & E) X Y Z.
  eapply Rle_trans; [apply Rabs_triang|]. eapply Rle_trans; [apply Rplus_le_compat_r, Rabs_triang|]. rewrite !Rabs_mult.
  assert (M : forall p q, Rabs q <= 1 -> Rabs p * Rabs q <= Rabs p) by (intros p q Q; rewrite <- (Rmult_1_r (Rabs p)) at 2; apply Rmult_le_compat_l; [apply Rabs_pos|exact Q]).
  pose proof (M a x X). pose proof (M b y Y). pose proof (M c z Z). lra.
Qed.
Lemma lerp_square s a b A B : 0 <= s <= 1 -> a * a <= A -> b * b <= B -> lerp s a b * lerp s a b <= lerp s A B.
Proof. intros H L R. unfold lerp. eapply Rle_trans; [apply jensen, H|]. now apply mix. Qed.
Lemma blend3_square a b c d a' b' c' d' x y z : edgy a -> edgy b -> edgy c -> edgy d -> edgy a' -> edgy b' -> edgy c' -> edgy d' ->
  0 <= x <= 1 -> 0 <= y <= 1 -> 0 <= z <= 1 -> blend3 a b c d a' b' c' d' x y z * blend3 a b c d a' b' c' d' x y z <= 3 / 2.
Proof.
  intros E1 E2 E3 E4 E5 E6 E7 E8 X Y Z. pose proof (fade_range x X) as Fx. pose proof (fade_range y Y) as Fy. pose proof (fade_range z Z) as Fz.
  unfold blend3. eapply Rle_trans.
  { apply lerp_square; [exact Fz| |]; (apply lerp_square; [exact Fy| |]); (apply lerp_square; [exact Fx| |]); apply along_square; assumption. }
  pose proof (spread x X) as Sx. pose proof (spread y Y) as Sy. pose proof (spread z Z) as Sz. unfold lerp.
  replace (_ + _) with (2 * (((1 - fade x) * (x * x) + fade x * ((x - 1) * (x - 1))) + ((1 - fade y) * (y * y) + fade y * ((y - 1) * (y - 1))) +
    ((1 - fade z) * (z * z) + fade z * ((z - 1) * (z - 1))))) by ring. lra.
Qed.
Lemma noise3_range dir u v w : (forall i j k, edgy (dir i j k)) -> Rabs (noise3 dir u v w) <= 5 / 4.
Proof.
  intros E. destruct (floor_cell u) as (A & _), (floor_cell v) as (B & _), (floor_cell w) as (C & _). unfold noise3. rewrite noise3_blend by assumption.
  set (q := blend3 _ _ _ _ _ _ _ _ _ _ _).
  assert (Q : q * q <= 3 / 2) by (apply blend3_square; try apply E; unfold inCell in *; lra). apply Rabs_le. split; nra.
Qed.

(** * Slopes *)
Lemma lerp_slope3 p q m r x x' : Rabs p <= 1 -> Rabs q <= 1 -> 0 <= x <= 1 -> 0 <= x' <= 1 -> Rabs (p * x' + m) <= 2 -> Rabs (q * (x' - 1) + r) <= 2 ->
  Rabs (lerp (fade x) (p * x + m) (q * (x - 1) + r) - lerp (fade x') (p * x' + m) (q * (x' - 1) + r)) <= 9 * Rabs (x - x').
Proof.
  intros P Q X X' M R. pose proof (fade_range x X) as Fx. pose proof (fade_slope x' x X' X) as S. unfold lerp.
  replace (_ - _) with (((1 - fade x) * (p * (x - x')) + fade x * (q * (x - x'))) + (fade x - fade x') * ((q * (x' - 1) + r) - (p * x' + m))) by ring.
  eapply Rle_trans; [apply Rabs_triang|].
  assert (P1 : Rabs ((1 - fade x) * (p * (x - x')) + fade x * (q * (x - x'))) <= Rabs (x - x')).
  { apply abs_mix; [exact Fx| |]; rewrite Rabs_mult; rewrite <- (Rmult_1_l (Rabs (x - x'))) at 2; apply Rmult_le_compat_r; try apply Rabs_pos; assumption. }
  assert (P2 : Rabs ((q * (x' - 1) + r) - (p * x' + m)) <= 4).
  { unfold Rminus at 1. eapply Rle_trans; [apply Rabs_triang|]. rewrite Rabs_Ropp. lra. }
  rewrite Rabs_mult. pose proof (Rabs_pos (fade x - fade x')). pose proof (Rabs_pos ((q * (x' - 1) + r) - (p * x' + m))).
  assert (Rabs (fade x - fade x') * Rabs (q * (x' - 1) + r - (p * x' + m)) <= (2 * Rabs (x - x')) * 4) by (apply Rmult_le_compat; assumption). lra.
Qed.
Lemma along_slope a b x x' y z : edgy a -> edgy b -> 0 <= x <= 1 -> 0 <= x' <= 1 -> Rabs y <= 1 -> Rabs z <= 1 ->
  Rabs (lerp (fade x) (along a x y z) (along b (x - 1) y z) - lerp (fade x') (along a x' y z) (along b (x' - 1) y z)) <= 9 * Rabs (x - x').
Proof.
  intros A B X X' Y Z. pose proof (along_bound a x' y z A) as Ba. pose proof (along_bound b (x' - 1) y z B) as Bb.
  rewrite (Rabs_left1 (x' - 1)) in Bb by lra. rewrite (Rabs_pos_eq x') in Ba by lra.
  destruct a as ((a1 & a2) & a3), b as ((b1 & b2) & b3). cbn [along edgy] in *. destruct A as ((A1 & _) & _), B as ((B1 & _) & _).
  rewrite !Rplus_assoc in *. apply lerp_slope3; try assumption; [apply Ba|apply Bb]; lra.
Qed.
Lemma lerp_diff s a b a' b' m : 0 <= s <= 1 -> Rabs (a - a') <= m -> Rabs (b - b') <= m -> Rabs (lerp s a b - lerp s a' b') <= m.
Proof. intros H A B. unfold lerp. replace (_ - _) with ((1 - s) * (a - a') + s * (b - b')) by ring. now apply abs_mix. Qed.
Lemma blend3_slope a b c d a' b' c' d' x x' y z : edgy a -> edgy b -> edgy c -> edgy d -> edgy a' -> edgy b' -> edgy c' -> edgy d' ->
  0 <= x <= 1 -> 0 <= x' <= 1 -> 0 <= y <= 1 -> 0 <= z <= 1 ->
  Rabs (blend3 a b c d a' b' c' d' x y z - blend3 a b c d a' b' c' d' x' y z) <= 9 * Rabs (x - x').
Proof.
  intros E1 E2 E3 E4 E5 E6 E7 E8 X X' Y Z. unfold blend3.
  apply lerp_diff; [apply fade_range, Z| |]; (apply lerp_diff; [apply fade_range, Y| |]); apply along_slope; try assumption; apply Rabs_le; lra.
Qed.
Lemma cell3_slope dir i u u' v w : (forall i j k, edgy (dir i j k)) -> inCell i u -> inCell i u' ->
  Rabs (noise3 dir u v w - noise3 dir u' v w) <= 9 * Rabs (u - u').
Proof.
  intros E U U'. destruct (floor_cell v) as (V & _), (floor_cell w) as (W & _).
  rewrite <- (any_cell3 dir i _ _ u v w U V W), <- (any_cell3 dir i _ _ u' v w U' V W). rewrite !noise3_blend by assumption.
  unfold inCell in *. replace (u - u') with (u - IZR i - (u' - IZR i)) by ring. apply blend3_slope; try apply E; lra.
Qed.
Lemma noise3_slope_lt dir u u' v w : (forall i j k, edgy (dir i j k)) -> u < u' -> Rabs (noise3 dir u v w - noise3 dir u' v w) <= 9 * Rabs (u - u').
Proof.
  intros E L. rewrite (Rabs_left (u - u')) by lra. destruct (Rle_dec 1 (u' - u)) as [Far|Near].
  - pose proof (noise3_range dir u v w E) as A. pose proof (noise3_range dir u' v w E) as B.
    unfold Rminus at 1. eapply Rle_trans; [apply Rabs_triang|]. rewrite Rabs_Ropp. lra.
  - destruct (floor_cell u) as (U & Ul). set (i := realFloor u) in *. destruct (Rle_dec u' (IZR i + 1)) as [In|Out].
    + pose proof (cell3_slope dir i u u' v w E U) as S. rewrite (Rabs_left (u - u')) in S by lra. apply S. unfold inCell in *. lra.
    + assert (M : inCell i (IZR i + 1)) by (unfold inCell in *; lra). assert (M' : inCell (i + 1) (IZR i + 1)) by (unfold inCell in *; rewrite plus_IZR; lra).
      assert (U' : inCell (i + 1) u') by (unfold inCell in *; rewrite plus_IZR; lra).
      pose proof (cell3_slope dir i u (IZR i + 1) v w E U M) as S1. pose proof (cell3_slope dir (i + 1) (IZR i + 1) u' v w E M' U') as S2.
      rewrite (Rabs_left (u - (IZR i + 1))) in S1 by lra. rewrite (Rabs_left (IZR i + 1 - u')) in S2 by lra.
      replace (noise3 dir u v w - noise3 dir u' v w) with ((noise3 dir u v w - noise3 dir (IZR i + 1) v w) + (noise3 dir (IZR i + 1) v w - noise3 dir u' v w)) by ring.
      eapply Rle_trans; [apply Rabs_triang|]. lra.
Qed.
Lemma noise3_slope_x dir u u' v w : (forall i j k, edgy (dir i j k)) -> Rabs (noise3 dir u v w - noise3 dir u' v w) <= 9 * Rabs (u - u').
Proof.
  intros E. destruct (Rtotal_order u u') as [L|[->|L]].
  - now apply noise3_slope_lt.
  - rewrite !Rminus_diag_eq by reflexivity. rewrite Rabs_R0. lra.
  - rewrite (Rabs_minus_sym (noise3 dir u v w)), (Rabs_minus_sym u). now apply noise3_slope_lt.
Qed.
Lemma noise3_slope dir u v w u' v' w' : (forall i j k, edgy (dir i j k)) ->
  Rabs (noise3 dir u v w - noise3 dir u' v' w') <= 9 * (Rabs (u - u') + Rabs (v - v') + Rabs (w - w')).
Proof.
  intros E. pose proof (noise3_slope_x dir u u' v w E) as A.
  assert (E1 : forall i j k, edgy (turned dir i j k)) by (intros i j k; apply turn_edgy, E).
  assert (E2 : forall i j k, edgy (turned (turned dir) i j k)) by (intros i j k; apply turn_edgy, E1).
  pose proof (noise3_slope_x (turned dir) v v' w u' E1) as B. rewrite <- !(noise3_turned dir) in B.
  pose proof (noise3_slope_x (turned (turned dir)) w w' u' v' E2) as C. rewrite <- !(noise3_turned (turned dir)), <- !(noise3_turned dir) in C.
  replace (noise3 dir u v w - noise3 dir u' v' w') with
    ((noise3 dir u v w - noise3 dir u' v w) + ((noise3 dir u' v w - noise3 dir u' v' w) + (noise3 dir u' v' w - noise3 dir u' v' w'))) by ring.
  eapply Rle_trans; [apply Rabs_triang|]. eapply Rle_trans; [apply Rplus_le_compat_l, Rabs_triang|]. lra.
Qed.
