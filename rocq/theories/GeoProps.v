(** Properties C16 - C22. *)
From Coq Require Import Sorted Permutation Reals Lra.
From Flocq Require Import Core.Core.
From Verif Require Import Base ElementModel GeoModel GeoSpec GeoProofs
  ProjectionModel ProjectionSpec ProjectionProofs ProjectionNumeric ProjectionFloat.
Open Scope Z_scope.

(** * C16 *)

(** Whatever the two doubles are (infinities and NaN included), and at every level, the tile
    computed with binary64 arithmetic and an accurate mathematical library exists. *)
Theorem C16_valid_tile : forall a, binary64 a ->
  forall (p : point dbl) l, 0 <= l -> tile (tileOfDouble a p l).
Proof. intros a Ha p l Hl. exact (tile_float a p l Ha Hl). Qed.
Print Assumptions C16_valid_tile.

(** The same without rounding errors, for all real numbers. *)
Theorem C16_valid_tile_exact : forall (p : point R) l, 0 <= l -> tile (tileOfReal exact p l).
Proof. exact tile_exact. Qed.
Print Assumptions C16_valid_tile_exact.

(** The hypothesis is met by every library that rounds correctly; the north pole and a NaN
    are among the coordinates. *)
Example C16_example : binary64 roundedLibrary /\
  tile (tileOfDouble roundedLibrary (mkPoint (dlit 90 0) NaN) 19) /\
  0 <= lonToTileX roundedLibrary 180 19 /\
  pointOf (mkCoord 0x4056800000000000 0x7FF8000000000000) = mkPoint (dlit 90 0) NaN.
Proof.
  split; [exact roundedLibrary_binary64|].
  split; [apply C16_valid_tile; [exact roundedLibrary_binary64|lia]|].
  split; [|reflexivity].
  unfold lonToTileX; cbn [rnd roundedLibrary]. apply Zfloor_lub.
  rewrite <- rnd64_0. apply rnd64_mono. apply Rmult_le_pos; [|left; apply pow2_pos].
  rewrite <- rnd64_0. apply rnd64_mono. apply Rmult_le_pos; [|lra].
  rewrite <- rnd64_0. apply rnd64_mono. lra.
Qed.

(** * C17 *)

(** In exact arithmetic a coordinate within the projection limits is mapped to a tile if and
    only if it lies in the half-open box of that tile. *)
Theorem C17_own_box : forall p l k, withinLimits p ->
  (tileOfReal exact p l = k <-> lod k = l /\ insideHalfOpen (tileBoxOf exact k) p).
Proof. exact tile_half_open. Qed.
Print Assumptions C17_own_box.

(** Tile to box to tile. *)
Theorem C17_roundtrip : forall p k, withinLimits p -> strictlyInside (tileBoxOf exact k) p ->
  tileOfReal exact p (lod k) = k.
Proof. exact tile_interior. Qed.
Print Assumptions C17_roundtrip.

(** Neighbours share their border, in every arithmetic. *)
Theorem C17_borders : forall a l x y,
  plon (bmax (tileBoxOf a (mkKey l x y))) = plon (bmin (tileBoxOf a (mkKey l (x + 1) y))) /\
  plat (bmin (tileBoxOf a (mkKey l x y))) = plat (bmax (tileBoxOf a (mkKey l x (y + 1)))).
Proof. intros. split; reflexivity. Qed.
Print Assumptions C17_borders.

Lemma equator_tile : tileOfReal exact (mkPoint 0 13.4)%R 5 = mkKey 5 17 16.
Proof.
  pose proof toR_max. unfold tileOfReal, tileOfClamped. cbn [plat plon].
  assert (L := toR_lat). assert (M := toR_lon).
  rewrite !clamp_id; cycle 1; [lra| |].
  - assert (D : (13.4 < toR maxLon /\ toR minLon < 13.4)%R); [|lra].
    assert (E : forall m e, (0 <= e + 1074)%Z -> toR (dlit m e) = (IZR m * bpow radix2 e)%R).
    { intros m e He. unfold toR, dlit. rewrite mult_IZR. change 2%Z with (radix_val radix2) at 1.
      rewrite IZR_Zpower by auto. rewrite Rmult_assoc, <- bpow_plus. do 2 f_equal. lia. }
    unfold maxLon, minLon. rewrite !E by lia. cbn -[IZR]. lra.
  - f_equal.
    + unfold lonToTileX; cbn [rnd exact]. apply Zfloor_imp. cbn -[IZR]. lra.
    + unfold latToTileY, radians; cbn [rnd exact ftan fcos flog fpi].
      replace (0 * PI / 180)%R with 0%R by (field; lra).
      rewrite tan_0, cos_0. replace (0 + 1 / 1)%R with 1%R by field. rewrite ln_1.
      apply Zfloor_imp. unfold Rdiv at 2. rewrite Rmult_0_l. cbn -[IZR]. lra.
Qed.

(** A point of the equator, its tile at level 5, and the tile from the box. *)
Example C17_example :
  withinLimits (mkPoint 0 13.4)%R /\ tileOfReal exact (mkPoint 0 13.4)%R 5 = mkKey 5 17 16 /\
  insideHalfOpen (tileBoxOf exact (mkKey 5 17 16)) (mkPoint 0 13.4)%R.
Proof.
  assert (W : withinLimits (mkPoint 0 13.4)%R).
  { destruct toR_max as (A & B & C & D & _).
    assert (E : forall m e, (0 <= e + 1074)%Z -> toR (dlit m e) = (IZR m * bpow radix2 e)%R).
    { intros m e He. unfold toR, dlit. rewrite mult_IZR. change 2%Z with (radix_val radix2) at 1.
      rewrite IZR_Zpower by auto. rewrite Rmult_assoc, <- bpow_plus. do 2 f_equal. lia. }
    unfold withinLimits, maxLat, minLat, maxLon, minLon; cbn [plat plon].
    rewrite !E by lia. cbn -[IZR]. lra. }
  split; [exact W|]. split; [exact equator_tile|].
  exact (proj2 (proj1 (C17_own_box _ _ _ W) equator_tile)).
Qed.

(** * C18 *)

(** One character 0..3 per level. *)
Theorem C18_string_shape : forall k, tile k -> lod k <= 31 ->
  exists s, keyString k = Ok s /\ length s = Z.to_nat (lod k) /\
            Forall (fun d => (48 <= d <= 51)%N) s.
Proof. exact keyString_shape. Qed.
Print Assumptions C18_string_shape.

(** Different tiles, of whatever levels, have different strings. *)
Theorem C18_string_unique : forall k k' s,
  tile k -> tile k' -> keyString k = Ok s -> keyString k' = Ok s -> k = k'.
Proof. exact keyString_inj. Qed.
Print Assumptions C18_string_unique.

(** The string of a tile is the one of its parent plus the digit of its quarter. *)
Theorem C18_string_parent : forall k s, tile k -> 0 < lod k -> keyString k = Ok s ->
  tile (parent k) /\ exists s', keyString (parent k) = Ok s' /\ s = s' ++ [quarter k].
Proof. intros k s H1 H2 H3. split; [exact (parent_tile k H1 H2)|exact (keyString_parent k s H1 H2 H3)]. Qed.
Print Assumptions C18_string_parent.

(** The case of core/test/utils/GeoUtilsTest.cpp:53-59. *)
Example C18_example : let k := mkKey 19 281640 171914 in
  tile k /\ keyString k = Ok [49;50;48;50;49;48;50;51;51;50;50;50;48;49;48;51;48;50;48]%N /\
  keyString (parent k) = Ok [49;50;48;50;49;48;50;51;51;50;50;50;48;49;48;51;48;50]%N.
Proof. cbn zeta. split; [split; cbn; lia|]. split; reflexivity. Qed.

(** * C19 *)

Theorem C19_comparator :
  (forall k, keyLess k k = false) /\
  (forall a b c, keyLess a b = true -> keyLess b c = true -> keyLess a c = true) /\
  (forall a b, a <> b -> keyLess a b = true \/ keyLess b a = true).
Proof. exact (conj keyLess_irrefl (conj keyLess_trans keyLess_total)). Qed.
Print Assumptions C19_comparator.

(** Equality of keys is the equivalence an ordered container derives from the comparator,
    and nothing but equality of the three numbers. *)
Theorem C19_equality : forall a b,
  (keyEqb a b = true <-> a = b) /\
  (keyEqb a b = true <-> keyLess a b = false /\ keyLess b a = false).
Proof. intros a b. exact (conj (keyEqb_eq a b) (keyEqb_less a b)). Qed.
Print Assumptions C19_equality.

Example C19_example :
  keyLess (mkKey 1 1 0) (mkKey 2 0 0) = true /\ keyLess (mkKey 2 0 3) (mkKey 2 1 0) = true /\
  keyLess (mkKey 2 1 0) (mkKey 2 1 1) = true /\ keyLess (mkKey 2 1 1) (mkKey 2 0 3) = false.
Proof. repeat split. Qed.

(** * C20 *)

(** For every box and whatever the projection, each tile of the spanned rectangle whose box
    shares a point with the given one is visited exactly once, in row order, with its own
    box, and no other tile is; an invalid box visits none. *)
Theorem C20_visit : forall tileOf tileBox, (forall k, numberBox (tileBox k)) ->
  forall b l, let visits := visitTileRange dord tileOf tileBox b l in
  (forall k, In k (map fst visits) <->
     isValid dord b = true /\ lod k = l /\
     tileX (tileOf (bmin b) l) <= tileX k <= tileX (tileOf (bmax b) l) /\
     tileY (tileOf (bmax b) l) <= tileY k <= tileY (tileOf (bmin b) l) /\
     meet b (tileBox k)) /\
  NoDup (map fst visits) /\
  StronglySorted rowBefore (map fst visits) /\
  (forall k kb, In (k, kb) visits -> kb = tileBox k) /\
  (isValid dord b = false -> visits = []).
Proof.
  intros tileOf tileBox H b l visits.
  split; [exact (in_visit_dbl tileOf tileBox H b l)|].
  split; [exact (visit_nodup dord tileOf tileBox b l)|].
  split; [exact (visit_sorted dord tileOf tileBox b l)|].
  split.
  - intros k kb Hk. exact (proj1 (proj2 (proj1 (in_visit dord tileOf tileBox b l k kb) Hk))).
  - intro V. unfold visits, visitTileRange. rewrite V. reflexivity.
Qed.
Print Assumptions C20_visit.

(** In exact arithmetic the tiles visited for a box within the limits are exactly the tiles
    of the points of the box. *)
Theorem C20_visit_exact : forall b l k, withinLimits (bmin b) -> withinLimits (bmax b) ->
  (In k (map fst (visitTileRange rord (tileOfReal exact) (tileBoxOf exact) b l)) <->
   exists p, inside b p /\ tileOfReal exact p l = k).
Proof. exact visit_exact. Qed.
Print Assumptions C20_visit_exact.

(** A grid of squares of side 10: the box from (12, 5) to (33, 11) spans three rows of two
    tiles (in this grid y grows to the south from 40). *)
Example C20_example :
  let tileOf (p : point dbl) l := match plat p, plon p with
    | Fin a, Fin o => mkKey l (o / 10) ((40 - a) / 10) | _, _ => mkKey l 0 0 end in
  let tileBox k := mkBox (mkPoint (Fin (30 - 10 * tileY k)) (Fin (10 * tileX k)))
                         (mkPoint (Fin (40 - 10 * tileY k)) (Fin (10 + 10 * tileX k))) in
  (forall k, numberBox (tileBox k)) /\
  map fst (visitTileRange dord tileOf tileBox
             (mkBox (mkPoint (Fin 12) (Fin 5)) (mkPoint (Fin 33) (Fin 11))) 7)
  = [mkKey 7 0 0; mkKey 7 1 0; mkKey 7 0 1; mkKey 7 1 1; mkKey 7 0 2; mkKey 7 1 2].
Proof. split; [intro; repeat split; discriminate|reflexivity]. Qed.

Example C20_example_exact : exists b, withinLimits (bmin b) /\ withinLimits (bmax b) /\
  In (mkKey 5 17 16) (map fst (visitTileRange rord (tileOfReal exact) (tileBoxOf exact) b 5)).
Proof.
  exists (mkBox (mkPoint 0 13.4) (mkPoint 0 13.4))%R. destruct C17_example as (W & E & _).
  split; [exact W|]. split; [exact W|]. apply C20_visit_exact; [exact W|exact W|].
  exists (mkPoint 0 13.4)%R. split; [|exact E]. split; cbn; lra.
Qed.

(** * C21 *)

(** Expanding the default box by the coordinates of the globe gives the smallest box around
    them, each bound being attained. *)
Theorem C21_smallest : forall ps, ps <> [] -> Forall onGlobe ps ->
  smallestBox (expandAll dord emptyBox ps) ps.
Proof. exact smallest_box. Qed.
Print Assumptions C21_smallest.

(** So is the box of an element, members of relations included. *)
Theorem C21_element : forall e, coordsOf e <> [] -> Forall (fun c => onGlobe (pointOf c)) (coordsOf e) ->
  smallestBox (elementBox e) (map pointOf (coordsOf e)).
Proof.
  intros e H1 H2. unfold elementBox. rewrite geometryVisit_coords. apply smallest_box.
  - intro E. apply H1. destruct (coordsOf e); [reflexivity|discriminate].
  - apply Forall_map. exact H2.
Qed.
Print Assumptions C21_element.

(** The order of the coordinates is irrelevant, even with NaNs among them. *)
Theorem C21_order : forall b ps qs, numberBox b -> Permutation ps qs ->
  expandAll dord b ps = expandAll dord b qs.
Proof. intros b ps qs Hb H. exact (expandAll_perm ps qs H b Hb). Qed.
Print Assumptions C21_order.

Theorem C21_idempotent : forall b p, expand dord (expand dord b p) p = expand dord b p.
Proof. exact expand_twice. Qed.
Print Assumptions C21_idempotent.

(** Intersection is symmetric and means a common point. *)
Theorem C21_intersects : forall b c, numberBox b -> numberBox c ->
  (intersects dord b c = true <-> meet b c) /\ intersects dord b c = intersects dord c b.
Proof. intros b c Hb Hc. exact (conj (intersects_meet b c Hb Hc) (intersects_sym b c Hb Hc)). Qed.
Print Assumptions C21_intersects.

Definition C21_points : list (point dbl) :=
  [mkPoint (dlit 52 0) (dlit 13 0); mkPoint (dlit (-7) (-1)) (dlit 180 0); mkPoint (dlit 3 0) (dlit (-180) 0)].

Example C21_example :
  Forall onGlobe C21_points /\
  expandAll dord emptyBox C21_points
  = mkBox (mkPoint (dlit (-7) (-1)) (dlit (-180) 0)) (mkPoint (dlit 52 0) (dlit 180 0)) /\
  numberBox emptyBox /\
  intersects dord (expandAll dord emptyBox C21_points) (mkBox (mkPoint (dlit 52 0) (Fin 0)) (mkPoint (dlit 53 0) (Fin 1))) = true.
Proof.
  split.
  - unfold C21_points. repeat apply Forall_cons; try apply Forall_nil;
      (split; [|split; [|split]]); apply dleb_dle; vm_compute; reflexivity.
  - split; [vm_compute; reflexivity|]. split; [apply emptyBox_number|vm_compute; reflexivity].
Qed.

(** Outside the globe the default box shows through: the southern bound of a single point at
    latitude 100 is 90.  And NaNs make the intersection asymmetric. *)
Example C21_limits :
  plat (bmin (expand dord emptyBox (mkPoint (dlit 100 0) (Fin 0)))) = dlit 90 0 /\
  (let nan := mkBox (mkPoint NaN (Fin 0)) (mkPoint (Fin 1) (Fin 1)) in
   let unit := mkBox (mkPoint (Fin 0) (Fin 0)) (mkPoint (Fin 1) (Fin 1)) in
   intersects dord nan unit = true /\ intersects dord unit nan = false).
Proof. split; [vm_compute; reflexivity|split; reflexivity]. Qed.

(** * C22 *)

(** A range is built iff both ends are in 1..19; otherwise std::domain_error. *)
Theorem C22_range : forall s e,
  (1 <= s <= 19 /\ 1 <= e <= 19 -> newRange s e = Ok (mkRange s e)) /\
  (~ (1 <= s <= 19 /\ 1 <= e <= 19) -> newRange s e = Throw DomainError).
Proof.
  intros s e. rewrite newRange_spec.
  destruct (Z.leb_spec 1 s), (Z.leb_spec s 19), (Z.leb_spec 1 e), (Z.leb_spec e 19); cbn; split; intros; auto; lia.
Qed.
Print Assumptions C22_range.

(** The default constructor never succeeds. *)
Theorem C22_default : defaultRange = Throw DomainError.
Proof. reflexivity. Qed.
Print Assumptions C22_default.

(** A range is walked from start to end, each level once; a reversed one not at all. *)
Theorem C22_levels : forall r,
  (forall l, In l (levels r) <-> rstart r <= l <= rend r) /\
  StronglySorted Z.lt (levels r) /\
  (rend r < rstart r -> levels r = []).
Proof.
  intro r. exact (conj (in_interval (rstart r) (rend r))
    (conj (interval_sorted (rstart r) (rend r)) (interval_nil (rstart r) (rend r)))).
Qed.
Print Assumptions C22_levels.

Example C22_example :
  newRange 1 19 = Ok (mkRange 1 19) /\ newRange 16 14 = Ok (mkRange 16 14) /\
  newRange 0 5 = Throw DomainError /\ newRange 5 20 = Throw DomainError /\
  levels (mkRange 14 16) = [14; 15; 16] /\ levels (mkRange 16 14) = [].
Proof. repeat split; reflexivity. Qed.
