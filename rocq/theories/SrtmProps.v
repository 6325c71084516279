(** C40: heights read from SRTM data (exact arithmetic on the doubles). *)
From Coq Require Import QArith Qround Lia Lqa.
From Verif Require Import Base ElevModel ElevSpec ElevProofs.
Local Open Scope Z_scope.

(** ** Samples *)
Lemma small_bits b n : 0 <= b < 256 -> 8 <= n -> Z.testbit b n = false.
Proof.
  intros Hb Hn. replace n with (n - 8 + 8) by lia. rewrite <- Z.shiftr_spec by lia.
  rewrite Z.shiftr_div_pow2 by lia. change (2 ^ 8) with 256. rewrite Z.div_small by lia. apply Z.bits_0.
Qed.
Lemma negative_bits b n : -256 <= b < 0 -> 8 <= n -> Z.testbit b n = true.
Proof.
  intros Hb Hn. replace n with (n - 8 + 8) by lia. rewrite <- Z.shiftr_spec by lia.
  rewrite Z.shiftr_div_pow2 by lia. change (2 ^ 8) with 256.
  replace (b / 256) with (-1) by (apply Z.div_unique with (b + 256); lia). apply Z.bits_m1. lia.
Qed.
Lemma lor_small a b : 0 <= b < 256 -> Z.lor (a * 256) b = a * 256 + b.
Proof.
  intros Hb. assert (L : Z.land (a * 256) b = 0).
  { apply Z.bits_inj'. intros n Hn. rewrite Z.land_spec, Z.bits_0. change 256 with (2 ^ 8).
    destruct (Z.lt_ge_cases n 8).
    - rewrite Z.mul_pow2_bits_low by lia. reflexivity.
    - rewrite (small_bits b n) by lia. apply Bool.andb_false_r. }
  rewrite <- Z.lxor_lor by exact L. symmetry. now apply Z.add_nocarry_lxor.
Qed.
Lemma lor_negative a b : -256 <= b < 0 -> Z.lor (a * 256) b = b.
Proof.
  intros Hb. apply Z.bits_inj'. intros n Hn. rewrite Z.lor_spec. change 256 with (2 ^ 8).
  destruct (Z.lt_ge_cases n 8).
  - rewrite Z.mul_pow2_bits_low by lia. reflexivity.
  - rewrite (negative_bits b n) by lia. apply Bool.orb_true_r.
Qed.

(** C40: what two bytes decode to.  With a low byte below 128 it is the signed number they denote;
    otherwise the high byte is ignored and the result is between -128 and -1. *)
Theorem C40_decode : forall hi lo, 0 <= hi < 256 -> 0 <= lo < 256 ->
  sample hi lo = if lo <? 128 then signed16 hi lo else lo - 256.
Proof.
  intros hi lo Hh Hl. unfold sample. unfold schar at 2. destruct (Z.ltb_spec lo 128).
  - rewrite lor_small by lia. unfold signed16, schar. cbn zeta.
    destruct (Z.ltb_spec hi 128), (Z.ltb_spec (hi * 256 + lo) 32768); lia.
  - rewrite lor_negative by lia. reflexivity.
Qed.

(** So half of all samples are wrong: exactly those with a low byte of at least 128, except for the
    heights from -128 to -1. *)
Theorem C40_decode_refuted : forall hi lo, 0 <= hi < 256 -> 0 <= lo < 256 ->
  (sample hi lo <> signed16 hi lo <-> 128 <= lo /\ hi <> 255).
Proof.
  intros hi lo Hh Hl. rewrite (C40_decode hi lo Hh Hl). unfold signed16. cbn zeta.
  destruct (Z.ltb_spec lo 128), (Z.ltb_spec (hi * 256 + lo) 32768); split; intros; lia.
Qed.
Example C40_decode_case : sample 0 200 = -56 /\ signed16 0 200 = 200 /\ sample 1 44 = 300 /\ sample 255 200 = -56.
Proof. vm_compute. auto. Qed.

(** ** Cells *)
(** A cell as [hgtOf] makes it. *)
Definition goodCell (c : hgt) : Prop :=
  1 <= hsec c /\ hsec c * (hpx c - 1) = 3600 /\ Z.of_nat (length (hdata c)) = 2 * hpx c * hpx c.

Lemma hgtOf_good data c : hgtOf data = Ok c -> goodCell c /\ hdata c = data.
Proof.
  unfold hgtOf. destruct (Z.eqb_spec (Z.of_nat (length data)) (1201 * 1201 * 2)) as [E|_].
  - intros [= <-]. repeat split; cbn [hsec hpx hdata]; lia.
  - destruct (Z.eqb_spec (Z.of_nat (length data)) (3601 * 3601 * 2)) as [E|_]; [|discriminate].
    intros [= <-]. repeat split; cbn [hsec hpx hdata]; lia.
Qed.

Lemma px_range c : goodCell c -> 2 <= hpx c <= 3601.
Proof.
  intros (H1 & H2 & _). assert (1 <= hpx c - 1) by nia. assert (hpx c - 1 <= 3600) by nia. lia.
Qed.

Lemma readPx_row c y x : hoffset c + 2 * (x - hpx c * y) = 2 * ((hpx c - 1 - y) * hpx c + x).
Proof. unfold hoffset. ring. Qed.

Lemma readPx_ok c y x : goodCell c -> 0 <= y < hpx c -> 0 <= x < hpx c ->
  exists hi lo, bytesAt (hdata c) (hpx c) (hpx c - 1 - y) x = Some (hi, lo) /\ readPx c y x = Ok (sample hi lo).
Proof.
  intros G Hy Hx. pose proof (px_range c G) as P. destruct G as (_ & _ & L). unfold readPx. rewrite readPx_row.
  set (r := hpx c - 1 - y). assert (R : 0 <= r <= hpx c - 1) by (unfold r; lia).
  pose proof (Z.mul_le_mono_nonneg_r r (hpx c - 1) (hpx c) ltac:(lia) ltac:(lia)) as M.
  assert (M0 : 0 <= r * hpx c) by (apply Z.mul_nonneg_nonneg; lia).
  destruct (readAt_ok (hdata c) (2 * (r * hpx c + x))) as (hi & E1 & F1); [lia|].
  destruct (readAt_ok (hdata c) (2 * (r * hpx c + x) + 1)) as (lo & E2 & F2); [lia|].
  exists hi, lo. unfold bytesAt. rewrite F1, F2. split; [reflexivity|]. cbn zeta. rewrite E1. cbn [bind]. rewrite E2. reflexivity.
Qed.

(** The fraction of a degree in pixels. *)
Lemma fraction_px q s N : (0 <= q)%Q -> 1 <= s -> s * (N - 1) = 3600 ->
  let sec := ((q - inject_Z (truncQ q)) * inject_Z 3600)%Q in
  let p := truncQ (sec / inject_Z s) in
  0 <= p <= N - 2 /\ (inject_Z (p * s) <= sec)%Q /\ (sec < inject_Z ((p + 1) * s))%Q /\
  (0 <= fmodQ sec s / inject_Z s <= 1)%Q.
Proof.
  intros Hq Hs HN sec p. destruct (trunc_bounds q Hq) as (A & B & _).
  assert (Ps : (0 < inject_Z s)%Q) by (apply inject_pos; lia).
  assert (S0 : (0 <= sec)%Q).
  { unfold sec. apply Qmult_le_0_compat; [lra|discriminate]. }
  assert (S1 : (sec < inject_Z 3600)%Q).
  { rewrite inject_Z_plus in B. change (inject_Z 1) with 1%Q in B. unfold sec. change (inject_Z 3600) with (3600 # 1). lra. }
  assert (D0 : (0 <= sec / inject_Z s)%Q) by (apply Qle_shift_div_l; [exact Ps|lra]).
  destruct (trunc_bounds _ D0) as (P1 & P2 & P3). fold p in P1, P2, P3.
  assert (E : (sec == sec / inject_Z s * inject_Z s)%Q) by (field; lra).
  assert (L1 : (inject_Z (p * s) <= sec)%Q).
  { rewrite inject_Z_mult, E. apply Qmult_le_compat_r; [exact P1|lra]. }
  assert (L2 : (sec < inject_Z ((p + 1) * s))%Q).
  { rewrite inject_Z_mult, E. apply Qmult_lt_r; [exact Ps|exact P2]. }
  assert (L3 : p * s < 3600) by (rewrite Zlt_Qlt; eapply Qle_lt_trans; eassumption).
  split; [split; [exact P3|nia]|]. split; [exact L1|]. split; [exact L2|].
  unfold fmodQ. fold p. rewrite inject_Z_mult in L1. rewrite inject_Z_mult, inject_Z_plus in L2. change (inject_Z 1) with 1%Q in L2.
  split; [apply Qle_shift_div_l; [exact Ps|lra]|apply Qle_shift_div_r; [exact Ps|lra]].
Qed.

(** Inside of a cell north and east of zero the four samples around the position are read, all of them
    valid, and when their low bytes are below 128 the height is between the smallest and the largest of
    the four heights they denote. *)
Theorem C40_cell_partial : forall c lat lon, goodCell c -> (0 <= lat)%Q -> (0 <= lon)%Q ->
  exists v y x b0 b1 b2 b3,
    let n := hpx c in
    let sec q := ((q - inject_Z (truncQ q)) * inject_Z 3600)%Q in
    (inject_Z (y * hsec c) <= sec lat < inject_Z ((y + 1) * hsec c))%Q /\
    (inject_Z (x * hsec c) <= sec lon < inject_Z ((x + 1) * hsec c))%Q /\
    bytesAt (hdata c) n (n - 1 - y) x = Some b2 /\ bytesAt (hdata c) n (n - 2 - y) x = Some b0 /\
    bytesAt (hdata c) n (n - 1 - y) (x + 1) = Some b3 /\ bytesAt (hdata c) n (n - 2 - y) (x + 1) = Some b1 /\
    cellElevation c lat lon = Ok v /\
    (Forall (fun b => 0 <= fst b < 256 /\ 0 <= snd b < 128) [b0; b1; b2; b3] ->
     among v (signed16 (fst b0) (snd b0)) (signed16 (fst b1) (snd b1))
             (signed16 (fst b2) (snd b2)) (signed16 (fst b3) (snd b3))).
Proof.
  intros c lat lon G Hlat Hlon. pose proof (px_range c G) as P. pose proof G as (G1 & G2 & G3).
  destruct (fraction_px lat (hsec c) (hpx c) Hlat G1 G2) as (Y1 & Y2 & Y3 & Y4).
  destruct (fraction_px lon (hsec c) (hpx c) Hlon G1 G2) as (X1 & X2 & X3 & X4). cbn zeta in *.
  unfold cellElevation. cbn zeta.
  set (secLat := ((lat - _) * _)%Q) in *. set (secLon := ((lon - _) * _)%Q) in *.
  set (y := truncQ (secLat / inject_Z (hsec c))) in *. set (x := truncQ (secLon / inject_Z (hsec c))) in *.
  destruct (readPx_ok c y x G) as (a2 & l2 & B2 & ->); [lia|lia|].
  destruct (readPx_ok c (y + 1) x G) as (a0 & l0 & B0 & ->); [lia|lia|].
  destruct (readPx_ok c y (x + 1) G) as (a3 & l3 & B3 & ->); [lia|lia|].
  destruct (readPx_ok c (y + 1) (x + 1) G) as (a1 & l1 & B1 & ->); [lia|lia|]. cbn [bind].
  replace (hpx c - 1 - (y + 1)) with (hpx c - 2 - y) in * by lia.
  eexists _, y, x, (a0, l0), (a1, l1), (a2, l2), (a3, l3). split; [split; [exact Y2|exact Y3]|]. split; [split; [exact X2|exact X3]|].
  repeat (split; [assumption|]). split; [reflexivity|]. intros F.
  repeat match goal with H : Forall _ (_ :: _) |- _ => inversion H; clear H; subst end. cbn [fst snd] in *.
  assert (D : forall a l, 0 <= a < 256 /\ 0 <= l < 128 -> sample a l = signed16 a l).
  { intros a l [Ha Hl]. rewrite C40_decode by lia. destruct (Z.ltb_spec l 128); [reflexivity|lia]. }
  rewrite !D by assumption. apply bilinear_among; left; assumption.
Qed.
Example C40_cell_case : exists c, hgtOf (repeat 0 (Z.to_nat (1201 * 1201 * 2))) = Ok c /\ goodCell c.
Proof.
  assert (E : hgtOf (repeat 0 (Z.to_nat (1201 * 1201 * 2))) = Ok (mkHgt 1201 3 (repeat 0 (Z.to_nat (1201 * 1201 * 2))))).
  { unfold hgtOf. rewrite repeat_length, Z2Nat.id by lia. reflexivity. }
  eexists. split; [exact E|]. apply hgtOf_good in E. apply E.
Qed.

(** South of zero, more than one pixel away from the degree, every lookup reads behind the data. *)
Theorem C40_south_refuted : forall c lat lon, goodCell c -> (0 <= lon)%Q ->
  ((lat - inject_Z (truncQ lat)) * inject_Z 3600 <= - inject_Z (hsec c))%Q ->
  cellElevation c lat lon = UB.
Proof.
  intros c lat lon G Hlon Hlat. pose proof (px_range c G) as P. pose proof G as (G1 & G2 & G3).
  destruct (fraction_px lon (hsec c) (hpx c) Hlon G1 G2) as (X1 & _). cbn zeta in X1.
  unfold cellElevation. cbn zeta.
  set (secLat := ((lat - _) * _)%Q) in *. set (secLon := ((lon - _) * _)%Q) in *.
  set (x := truncQ (secLon / inject_Z (hsec c))) in *.
  assert (Y : truncQ (secLat / inject_Z (hsec c)) <= -1).
  { rewrite <- (trunc_Z (-1)). apply trunc_mono. assert (Ps : (0 < inject_Z (hsec c))%Q) by (apply inject_pos; lia).
    apply Qle_shift_div_r; [exact Ps|]. change (inject_Z (-1)) with (- (1))%Q. lra. }
  set (y := truncQ (secLat / inject_Z (hsec c))) in *.
  assert (R : readPx c y x = UB).
  { unfold readPx. rewrite readPx_row. cbn zeta. rewrite readAt_out; [reflexivity|]. right. rewrite G3.
    pose proof (Z.mul_le_mono_nonneg_r (hpx c) (hpx c - 1 - y) (hpx c) ltac:(lia) ltac:(lia)). lia. }
  rewrite R. reflexivity.
Qed.
Example C40_south_case : ((-335 # 10) - inject_Z (truncQ (-335 # 10)) == - (1 # 2))%Q.
Proof. reflexivity. Qed.

(** West of zero a sample is taken from the next row and counted from the other side. *)
Theorem C40_west : forall c y k, readPx c y (- k) = readPx c (y + 1) (hpx c - k).
Proof.
  intros c y k. unfold readPx. rewrite !readPx_row.
  replace ((hpx c - 1 - (y + 1)) * hpx c + (hpx c - k)) with ((hpx c - 1 - y) * hpx c + - k) by ring. reflexivity.
Qed.

(** ** Files *)
(** The order of the keys is lexicographic, so cells are kept apart. *)
Theorem C40_key : forall a b,
  (keyLess a b = true <-> fst a < fst b \/ (fst a = fst b /\ snd a < snd b)) /\ (keySame a b = true <-> a = b).
Proof.
  assert (L : forall a b, keyLess a b = true <-> fst a < fst b \/ (fst a = fst b /\ snd a < snd b)).
  { intros [a1 a2] [b1 b2]. unfold keyLess. cbn [fst snd].
    rewrite Bool.orb_true_iff, Bool.andb_true_iff, !Z.ltb_lt, Z.leb_le. lia. }
  intros a b. split; [apply L|]. unfold keySame. rewrite Bool.andb_true_iff, !Bool.negb_true_iff.
  rewrite <- !Bool.not_true_iff_false, !L. destruct a as [a1 a2], b as [b1 b2]. cbn [fst snd]. split.
  - intros [H1 H2]. f_equal; lia.
  - intros [= -> ->]. lia.
Qed.

(** From the first degree north and east on the right file is used. *)
Theorem C40_file : forall lat lon, (1 <= lat)%Q -> (1 <= lon)%Q ->
  fileOf (truncQ lat, truncQ lon) = properFile lat lon.
Proof.
  intros lat lon H1 H2. unfold fileOf, properFile. cbn [fst snd].
  rewrite !trunc_floor by (apply Qle_trans with 1%Q; [discriminate|assumption]).
  assert (A : 1 <= Qfloor lat) by (change 1 with (Qfloor 1); now apply Qfloor_resp_le).
  assert (B : 1 <= Qfloor lon) by (change 1 with (Qfloor 1); now apply Qfloor_resp_le).
  destruct (Z.ltb_spec 0 (Qfloor lat)), (Z.ltb_spec 0 (Qfloor lon)), (Z.leb_spec 0 (Qfloor lat)), (Z.leb_spec 0 (Qfloor lon)); try lia.
  reflexivity.
Qed.
Example C40_file_case : fileOf (truncQ (1056 # 20), truncQ (267 # 20)) = ((true, 52), (true, 13)).
Proof. reflexivity. Qed.

(** Around the equator and the zero meridian, and for fractions of a degree south or west, it is not. *)
Theorem C40_file_refuted :
  (forall lat lon, (0 <= lat)%Q -> (lat < 1)%Q -> fileOf (truncQ lat, truncQ lon) <> properFile lat lon) /\
  (forall lat lon, (0 <= lon)%Q -> (lon < 1)%Q -> fileOf (truncQ lat, truncQ lon) <> properFile lat lon) /\
  (forall lat lon, (lon < 0)%Q -> ~ (lon == inject_Z (Qfloor lon))%Q -> fileOf (truncQ lat, truncQ lon) <> properFile lat lon).
Proof.
  assert (F0 : forall q, (0 <= q)%Q -> (q < 1)%Q -> truncQ q = 0 /\ Qfloor q = 0).
  { intros q A B. rewrite trunc_floor by exact A.
    assert (0 <= Qfloor q) by (change 0 with (Qfloor 0); now apply Qfloor_resp_le).
    assert (Qfloor q < 1). { rewrite Zlt_Qlt. eapply Qle_lt_trans; [apply Qfloor_le|exact B]. } lia. }
  repeat split.
  - intros lat lon A B. destruct (F0 lat A B) as [E1 E2]. unfold fileOf, properFile. cbn [fst snd]. rewrite E1, E2.
    intros H. discriminate.
  - intros lat lon A B. destruct (F0 lon A B) as [E1 E2]. unfold fileOf, properFile. cbn [fst snd]. rewrite E1, E2.
    intros H. injection H. discriminate.
  - intros lat lon A B H. injection H as _ _ _ H.
    assert (T : truncQ lon = Qceiling lon).
    { unfold truncQ. destruct (Qle_bool 0 lon) eqn:E; [|reflexivity]. apply Qle_bool_iff in E. exfalso. apply (Qlt_irrefl 0). eapply Qle_lt_trans; eassumption. }
    rewrite T in H.
    assert (C : Qceiling lon <= 0) by (change 0 with (Qceiling 0); apply Qceiling_resp_le; now apply Qlt_le_weak).
    assert (D : Qfloor lon <= Qceiling lon).
    { rewrite Zle_Qle. eapply Qle_trans; [apply Qfloor_le|apply Qle_ceiling]. }
    assert (E : Qfloor lon = Qceiling lon) by lia. apply B. apply Qle_antisym.
    + rewrite E. apply Qle_ceiling.
    + apply Qfloor_le.
Qed.
Example C40_file_refuted_case :
  fileOf (truncQ (-335 # 10), truncQ (-705 # 10)) = ((false, 33), (false, 70)) /\
  properFile (-335 # 10) (-705 # 10) = ((false, 34), (false, 71)).
Proof. split; reflexivity. Qed.

(** A position outside of the degrees touched by the tile is looked up behind the end of the map. *)
Theorem C40_neighbour_refuted : forall disk b lat lon,
  (forall f, exists c, hgtOf (disk f) = Ok c) ->
  truncQ (minLat b) = truncQ (maxLat b) -> truncQ (minLon b) = truncQ (maxLon b) ->
  (truncQ lat, truncQ lon) <> (truncQ (minLat b), truncQ (minLon b)) ->
  srtmElevation disk b lat lon [] = UB.
Proof.
  intros disk b lat lon HD E1 E2 NE. unfold srtmElevation, preload. cbn [alookup].
  rewrite <- E1, <- E2. replace (truncQ (minLat b) - truncQ (minLat b) + 1) with 1 by lia.
  replace (truncQ (minLon b) - truncQ (minLon b) + 1) with 1 by lia.
  change (zfrom (truncQ (minLat b)) 1) with [truncQ (minLat b) + 0].
  change (zfrom (truncQ (minLon b)) 1) with [truncQ (minLon b) + 0]. rewrite !Z.add_0_r. cbn [flat_map map app].
  cbn [loadCells alookup]. destruct (HD (fileOf (truncQ (minLat b), truncQ (minLon b)))) as [c ->]. cbn [bind loadCells app alookup].
  destruct (keySame (truncQ lat, truncQ lon) (truncQ (minLat b), truncQ (minLon b))) eqn:K; [|reflexivity].
  apply C40_key in K. congruence.
Qed.
Example C40_neighbour_case :
  (exists c, hgtOf (repeat 0 (Z.to_nat (1201 * 1201 * 2))) = Ok c) /\
  truncQ (499 # 10) = truncQ (4995 # 100) /\ truncQ (50001 # 1000) <> truncQ (499 # 10).
Proof. split; [destruct C40_cell_case as (c & E & _); eauto|]. split; [reflexivity|vm_compute; discriminate]. Qed.

(** A position within the degrees of the tile finds its cell, read from the file of its key. *)
Theorem C40_found : forall disk b lat lon,
  (forall f, exists c, hgtOf (disk f) = Ok c) ->
  (minLat b <= lat <= maxLat b)%Q -> (minLon b <= lon <= maxLon b)%Q ->
  exists cells c, preload disk b (truncQ lat, truncQ lon) [] = Ok cells /\
    alookup keySame (truncQ lat, truncQ lon) cells = Some c /\
    hgtOf (disk (fileOf (truncQ lat, truncQ lon))) = Ok c.
Proof.
  intros disk b lat lon HD Hlat Hlon. unfold preload. cbn [alookup].
  set (keys := flat_map _ _). set (k := (truncQ lat, truncQ lon)).
  assert (IN : In k keys).
  { unfold keys, k. apply in_flat_map. exists (truncQ lat). split.
    - unfold zfrom. apply in_map_iff. exists (Z.to_nat (truncQ lat - truncQ (minLat b))).
      pose proof (trunc_mono _ _ (proj1 Hlat)). pose proof (trunc_mono _ _ (proj2 Hlat)). split; [lia|].
      apply in_seq. lia.
    - apply in_map_iff. exists (truncQ lon). split; [reflexivity|].
      unfold zfrom. apply in_map_iff. exists (Z.to_nat (truncQ lon - truncQ (minLon b))).
      pose proof (trunc_mono _ _ (proj1 Hlon)). pose proof (trunc_mono _ _ (proj2 Hlon)). split; [lia|].
      apply in_seq. lia. }
  assert (LA : forall (k : Z * Z) (cells : list ((Z * Z) * hgt)) (k' : Z * Z) (c' : hgt), alookup keySame k (cells ++ [(k', c')]) =
     match alookup keySame k cells with Some c => Some c | None => if keySame k k' then Some c' else None end).
  { clear. intros k cells k' c'. induction cells as [|[q d] cells IH]; cbn; [reflexivity|]. destruct (keySame k q); auto. }
  assert (I : forall keys cells,
    (forall q c, alookup keySame q cells = Some c -> hgtOf (disk (fileOf q)) = Ok c) ->
    exists cells', loadCells disk keys cells = Ok cells' /\
      (forall q c, alookup keySame q cells' = Some c -> hgtOf (disk (fileOf q)) = Ok c) /\
      (forall q, In q keys \/ alookup keySame q cells <> None -> alookup keySame q cells' <> None)).
  { clear - HD LA. induction keys as [|q keys IH]; intros cells Inv; cbn [loadCells].
    - exists cells. split; [reflexivity|]. split; [exact Inv|]. intros q [[]|H]. exact H.
    - destruct (alookup keySame q cells) as [c|] eqn:E.
      + destruct (IH cells Inv) as (cells' & A & B & C). exists cells'. split; [exact A|]. split; [exact B|].
        intros q' [[<-|H]|H]; apply C; auto. right. congruence.
      + destruct (HD (fileOf q)) as [c Hc]. rewrite Hc. cbn [bind].
        destruct (IH (cells ++ [(q, c)])) as (cells' & A & B & C).
        * intros q' c'. rewrite LA. destruct (alookup keySame q' cells) eqn:E'; [intros [= <-]; auto|].
          destruct (keySame q' q) eqn:K; [|discriminate]. intros [= <-]. apply C40_key in K. subst. exact Hc.
        * exists cells'. split; [exact A|]. split; [exact B|]. intros q' [[<-|H]|H]; apply C; auto; right; rewrite LA.
          -- rewrite E. rewrite (proj2 (proj2 (C40_key q q)) eq_refl). discriminate.
          -- destruct (alookup keySame q' cells); congruence. }
  destruct (I keys []) as (cells' & A & B & C); [cbn; congruence|].
  destruct (alookup keySame k cells') as [c|] eqn:E; [|elim (C k); auto].
  exists cells', c. split; [exact A|]. split; [exact E|]. now apply B.
Qed.

Print Assumptions C40_decode.
Print Assumptions C40_decode_refuted.
Print Assumptions C40_cell_partial.
Print Assumptions C40_south_refuted.
Print Assumptions C40_west.
Print Assumptions C40_key.
Print Assumptions C40_file.
Print Assumptions C40_file_refuted.
Print Assumptions C40_neighbour_refuted.
Print Assumptions C40_found.
