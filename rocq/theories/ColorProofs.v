From Coq Require Import QArith Qround Lia Lqa.
From Verif Require Import Base Bytes ElevModel ElevSpec ElevProofs ColorModel ColorSpec.
Local Open Scope Z_scope.

Lemma lor_disjoint a b n : 0 <= n -> 0 <= b < 2 ^ n -> Z.lor (a * 2 ^ n) b = a * 2 ^ n + b.
Proof.
  intros Hn Hb. assert (L : Z.land (a * 2 ^ n) b = 0).
  { apply Z.bits_inj'. intros k Hk. rewrite Z.land_spec, Z.bits_0. destruct (Z.lt_ge_cases k n).
    - rewrite Z.mul_pow2_bits_low by lia. reflexivity.
    - replace (Z.testbit b k) with false; [apply Bool.andb_false_r|]. symmetry.
      replace k with (k - n + n) by lia. rewrite <- Z.shiftr_spec by lia.
      rewrite Z.shiftr_div_pow2, Z.div_small by lia. apply Z.bits_0. }
  rewrite <- Z.lxor_lor by exact L. symmetry. now apply Z.add_nocarry_lxor.
Qed.

Lemma toInt_mod z : toInt z mod 2 ^ 32 = z mod 2 ^ 32.
Proof.
  unfold toInt. pose proof (Z.mod_pos_bound z (2 ^ 32) ltac:(lia)). cbn zeta.
  destruct (Z.ltb_spec (z mod 2 ^ 32) (2 ^ 31)).
  - apply Z.mod_mod. lia.
  - replace (z mod 2 ^ 32 - 2 ^ 32) with (z mod 2 ^ 32 + (-1) * 2 ^ 32) by lia. rewrite Z.mod_add, Z.mod_mod by lia. reflexivity.
Qed.

Lemma pack_rgba c : validColor c -> pack c = rgba c.
Proof.
  intros (R & G & B & A). unfold pack. rewrite !Z.shiftl_mul_pow2 by lia.
  assert (E : exists k, toInt (red c * 2 ^ 24) = k * 2 ^ 24 /\ (k = red c \/ k = red c - 256)).
  { unfold toInt. cbn zeta. rewrite Z.mod_small by lia. destruct (Z.ltb_spec (red c * 2 ^ 24) (2 ^ 31)).
    - exists (red c). auto.
    - exists (red c - 256). split; [lia|auto]. }
  destruct E as (k & -> & K).
  rewrite (lor_disjoint k (green c * 2 ^ 16) 24) by lia.
  replace (k * 2 ^ 24 + green c * 2 ^ 16) with ((k * 256 + green c) * 2 ^ 16) by lia.
  rewrite (lor_disjoint (k * 256 + green c) (blue c * 2 ^ 8) 16) by lia.
  replace ((k * 256 + green c) * 2 ^ 16 + blue c * 2 ^ 8) with (((k * 256 + green c) * 256 + blue c) * 2 ^ 8) by lia.
  rewrite lor_disjoint by lia. unfold rgba.
  destruct K as [-> | ->].
  - rewrite Z.mod_small by lia. lia.
  - symmetry. apply Z.mod_unique with (-1); [left; lia|lia].
Qed.

Lemma unpack_bytes z : unpack z =
  mkColor (z / 2 ^ 24 mod 256) (z / 2 ^ 16 mod 256) (z / 2 ^ 8 mod 256) (z mod 256).
Proof.
  unfold unpack. change 255 with (Z.ones 8). rewrite !Z.land_ones, !Z.shiftr_div_pow2 by lia.
  change (2 ^ 0) with 1. rewrite Z.div_1_r. reflexivity.
Qed.

Lemma unpack_mod z : unpack (z mod 2 ^ 32) = unpack z.
Proof.
  assert (E : forall k, 0 <= k <= 24 -> (z mod 2 ^ 32) / 2 ^ k mod 256 = z / 2 ^ k mod 256).
  { intros k Hk. change 256 with (2 ^ 8). rewrite <- !Z.land_ones, <- !Z.shiftr_div_pow2 by lia.
    apply Z.bits_inj'. intros n Hn. rewrite !Z.land_spec, !Z.shiftr_spec, !Z.land_spec by lia.
    destruct (Z.lt_ge_cases n 8).
    - rewrite (Z.ones_spec_low 32) by lia. now rewrite Bool.andb_true_r.
    - rewrite (Z.ones_spec_high 8) by lia. now rewrite !Bool.andb_false_r. }
  rewrite !unpack_bytes. pose proof (E 0 ltac:(lia)) as E0. change (2 ^ 0) with 1 in E0. rewrite !Z.div_1_r in E0.
  rewrite E0, !E by lia. reflexivity.
Qed.

Lemma unpack_rgba c : validColor c -> unpack (rgba c) = c.
Proof.
  intros (R & G & B & A). rewrite unpack_bytes. unfold rgba. destruct c as [r g b a]. cbn [red green blue alpha] in *.
  change (2 ^ 24) with (256 * (256 * 256)). change (2 ^ 16) with (256 * 256). change (2 ^ 8) with 256.
  rewrite <- !Z.div_div by lia.
  assert (D : forall u v, 0 <= v < 256 -> (u * 256 + v) / 256 = u).
  { intros u v Hv. rewrite Z.div_add_l, Z.div_small by lia. lia. }
  rewrite !D by lia.
  assert (M : forall u v, 0 <= v < 256 -> (u * 256 + v) mod 256 = v).
  { intros u v Hv. rewrite Z.add_comm, Z.mod_add by lia. apply Z.mod_small. lia. }
  rewrite !M by lia. rewrite Z.mod_small by lia. reflexivity.
Qed.

Lemma rgba_unpack n : 0 <= n < 2 ^ 32 -> validColor (unpack n) /\ rgba (unpack n) = n.
Proof.
  intros Hn. rewrite unpack_bytes. unfold validColor, rgba. cbn [red green blue alpha].
  pose proof (fun x => Z.mod_pos_bound x 256 ltac:(lia)) as M. split; [auto|].
  change (2 ^ 24) with (256 * (256 * 256)). change (2 ^ 16) with (256 * 256). change (2 ^ 8) with 256.
  rewrite <- !Z.div_div by lia.
  assert (S0 : 0 <= n / 256 / 256 / 256 < 256).
  { rewrite !Z.div_div by lia. split; [apply Z.div_pos; lia|apply Z.div_lt_upper_bound; lia]. }
  rewrite (Z.mod_small (n / 256 / 256 / 256)) by exact S0.
  pose proof (Z.div_mod n 256 ltac:(lia)). pose proof (Z.div_mod (n / 256) 256 ltac:(lia)).
  pose proof (Z.div_mod (n / 256 / 256) 256 ltac:(lia)). lia.
Qed.

(** ** Gradients *)
Lemma channel_id v : 0 <= v < 256 -> channel v = v.
Proof. unfold channel. lia. Qed.
Lemma channel_range v : 0 <= channel v < 256.
Proof. unfold channel. lia. Qed.
Lemma colorOf_valid r g b a : validColor (colorOf r g b a).
Proof. unfold validColor, colorOf. cbn [red green blue alpha]. repeat split; apply channel_range. Qed.

(** Truncated product of a channel with a factor between zero and one. *)
Lemma part_ok v f : 0 <= v < 256 -> (0 <= f <= 1)%Q ->
  exists p, intOf (inject_Z v * f) = Ok p /\ 0 <= p <= v /\
    (inject_Z p <= inject_Z v * f)%Q /\ (inject_Z v * f < inject_Z (p + 1))%Q.
Proof.
  intros Hv Hf. assert (V : (0 <= inject_Z v)%Q) by (apply inject_nonneg; lia).
  assert (P : (0 <= inject_Z v * f)%Q) by (apply Qmult_le_0_compat; lra).
  assert (U : (inject_Z v * f <= inject_Z v)%Q).
  { assert (0 <= inject_Z v * (1 - f))%Q by (apply Qmult_le_0_compat; lra). lra. }
  destruct (trunc_bounds _ P) as (A & B & C). exists (truncQ (inject_Z v * f)).
  assert (L : truncQ (inject_Z v * f) <= v) by (rewrite Zle_Qle; eapply Qle_trans; eassumption).
  unfold intOf. rewrite checkInt_ok by lia. repeat split; try assumption; lia.
Qed.

Lemma part_sum a b p q r : 0 <= a < 256 -> 0 <= b < 256 -> (0 <= r <= 1)%Q ->
  (inject_Z p <= inject_Z a * (1 - r))%Q -> (inject_Z a * (1 - r) < inject_Z (p + 1))%Q ->
  (inject_Z q <= inject_Z b * r)%Q -> (inject_Z b * r < inject_Z (q + 1))%Q ->
  Z.min a b - 1 <= p + q <= Z.max a b.
Proof.
  intros Ha Hb Hr A1 A2 B1 B2.
  assert (V : (inject_Z (Z.min a b) <= inject_Z a * (1 - r) + inject_Z b * r <= inject_Z (Z.max a b))%Q).
  { assert (MA : (inject_Z (Z.min a b) <= inject_Z a <= inject_Z (Z.max a b))%Q) by (rewrite <- !Zle_Qle; lia).
    assert (MB : (inject_Z (Z.min a b) <= inject_Z b <= inject_Z (Z.max a b))%Q) by (rewrite <- !Zle_Qle; lia).
    assert (0 <= (inject_Z a - inject_Z (Z.min a b)) * (1 - r))%Q by (apply Qmult_le_0_compat; lra).
    assert (0 <= (inject_Z b - inject_Z (Z.min a b)) * r)%Q by (apply Qmult_le_0_compat; lra).
    assert (0 <= (inject_Z (Z.max a b) - inject_Z a) * (1 - r))%Q by (apply Qmult_le_0_compat; lra).
    assert (0 <= (inject_Z (Z.max a b) - inject_Z b) * r)%Q by (apply Qmult_le_0_compat; lra). lra. }
  split.
  - assert (Z.min a b < p + q + 2); [|lia]. rewrite Zlt_Qlt. eapply Qle_lt_trans; [apply V|].
    rewrite !inject_Z_plus in *. change (inject_Z 2) with (2 # 1). change (inject_Z 1) with 1%Q in *. lra.
  - rewrite Zle_Qle, inject_Z_plus. eapply Qle_trans; [|apply V]. lra.
Qed.

Lemma near_channel a b p q : 0 <= a < 256 -> 0 <= b < 256 -> 0 <= p <= a -> 0 <= q <= b ->
  Z.min a b - 1 <= p + q <= Z.max a b -> near a b (channel (channel p + channel q)).
Proof.
  intros Ha Hb Hp Hq H. rewrite (channel_id p), (channel_id q), (channel_id (p + q)) by lia. exact H.
Qed.

Lemma mix_ok a b r : validColor a -> validColor b -> (0 <= r <= 1)%Q ->
  exists c, mixColors a b r = Ok c /\ channels near a b c /\ validColor c.
Proof.
  intros (A1 & A2 & A3 & A4) (B1 & B2 & B3 & B4) Hr. assert (Hs : (0 <= 1 - r <= 1)%Q) by lra.
  unfold mixColors, scaleColor.
  destruct (part_ok (red a) (1 - r) A1 Hs) as (p1 & -> & P1 & P1' & P1'').
  destruct (part_ok (green a) (1 - r) A2 Hs) as (p2 & -> & P2 & P2' & P2'').
  destruct (part_ok (blue a) (1 - r) A3 Hs) as (p3 & -> & P3 & P3' & P3'').
  destruct (part_ok (alpha a) (1 - r) A4 Hs) as (p4 & -> & P4 & P4' & P4'').
  destruct (part_ok (red b) r B1 Hr) as (q1 & -> & Q1 & Q1' & Q1'').
  destruct (part_ok (green b) r B2 Hr) as (q2 & -> & Q2 & Q2' & Q2'').
  destruct (part_ok (blue b) r B3 Hr) as (q3 & -> & Q3 & Q3' & Q3'').
  destruct (part_ok (alpha b) r B4 Hr) as (q4 & -> & Q4 & Q4' & Q4''). cbn [bind].
  eexists. split; [reflexivity|]. split; [|apply colorOf_valid].
  unfold channels, addColor, colorOf. cbn [red green blue alpha].
  split; [|split; [|split]]; apply near_channel; try assumption; apply (part_sum _ _ _ _ r); assumption.
Qed.

Lemma scale_one c f : validColor c -> (f == 1)%Q -> scaleColor c f = Ok c.
Proof.
  intros (A1 & A2 & A3 & A4) Hf. unfold scaleColor.
  assert (E : forall v, 0 <= v < 256 -> intOf (inject_Z v * f) = Ok v).
  { intros v Hv. unfold intOf. rewrite (trunc_comp (inject_Z v * f) (inject_Z v)) by (rewrite Hf; ring).
    rewrite trunc_Z. apply checkInt_ok. lia. }
  rewrite !E by assumption. cbn [bind]. unfold colorOf. rewrite !channel_id by assumption. destruct c; reflexivity.
Qed.
Lemma scale_zero c f : (f == 0)%Q -> scaleColor c f = Ok noColor.
Proof.
  intros Hf. unfold scaleColor.
  assert (E : forall v, intOf (inject_Z v * f) = Ok 0).
  { intros v. unfold intOf. rewrite (trunc_comp (inject_Z v * f) (inject_Z 0)) by (rewrite Hf; ring). reflexivity. }
  rewrite !E. reflexivity.
Qed.
Lemma add_none_r c : validColor c -> addColor c noColor = c.
Proof.
  intros (A1 & A2 & A3 & A4). unfold addColor, colorOf, noColor. cbn [red green blue alpha]. rewrite !Z.add_0_r, !channel_id by assumption.
  destruct c; reflexivity.
Qed.
Lemma add_none_l c : validColor c -> addColor noColor c = c.
Proof.
  intros (A1 & A2 & A3 & A4). unfold addColor, colorOf, noColor. cbn [red green blue alpha]. rewrite !Z.add_0_l, !channel_id by assumption.
  destruct c; reflexivity.
Qed.
Lemma mix_zero a b r : validColor a -> (r == 0)%Q -> mixColors a b r = Ok a.
Proof.
  intros A R. unfold mixColors. rewrite (scale_one a (1 - r) A) by (rewrite R; reflexivity). rewrite (scale_zero b r R). cbn [bind].
  now rewrite add_none_r.
Qed.
Lemma mix_one a b r : validColor b -> (r == 1)%Q -> mixColors a b r = Ok b.
Proof.
  intros A R. unfold mixColors. rewrite (scale_zero a (1 - r)) by (rewrite R; reflexivity). rewrite (scale_one b r A R). cbn [bind].
  now rewrite add_none_l.
Qed.

Lemma Qle_bool_lt a b : Qle_bool a b = false <-> (b < a)%Q.
Proof.
  rewrite <- Bool.not_true_iff_false, Qle_bool_iff. split; [apply Qnot_le_lt|apply Qlt_not_le].
Qed.

Lemma seek_spec l time i :
  (i < length l)%nat ->
  (forall j t c, (j < i)%nat -> nth_error l j = Some (t, c) -> (t < time)%Q) ->
  (forall t c, nth_error l i = Some (t, c) -> (time <= t)%Q \/ Datatypes.S i = length l) ->
  seekStop l time = i.
Proof.
  revert i. induction l as [|[t c] l IH]; intros i Hi Hlt Hge; [cbn in Hi; lia|].
  cbn [seekStop]. destruct l as [|q l].
  - cbn in Hi. lia.
  - destruct i as [|i].
    + destruct (Hge t c eq_refl) as [H|H]; [|cbn in H; lia]. apply Qle_bool_iff in H. now rewrite H.
    + pose proof (Hlt O t c ltac:(lia) eq_refl) as H. apply Qle_bool_lt in H. rewrite H. f_equal. apply IH.
      * cbn in *. lia.
      * intros j t' c' Hj E. apply (Hlt (Datatypes.S j) t' c'); [lia|exact E].
      * intros t' c' E. destruct (Hge t' c' E) as [|H']; [auto|]. right. cbn in *. lia.
Qed.

Lemma evaluate_at l time i ta a tb b :
  seekStop l time = Datatypes.S i -> nth_error l i = Some (ta, a) -> nth_error l (Datatypes.S i) = Some (tb, b) ->
  evaluate l time = if Qeq_bool tb ta then UB else mixColors a b ((time - ta) / (tb - ta)).
Proof.
  intros E A B. unfold evaluate. destruct l as [|x l]; [destruct i; discriminate|]. cbn zeta. rewrite E.
  replace (Datatypes.S i - 1)%nat with i by lia. rewrite A, B. reflexivity.
Qed.
