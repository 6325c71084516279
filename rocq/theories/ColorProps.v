(** C52: colours as numbers and texts; C53: gradients (exact arithmetic). *)
From Coq Require Import QArith Qround Lia Lqa Sorted.
From Verif Require Import Base Bytes ElevModel ElevSpec ElevProofs ColorModel ColorSpec ColorProofs.
Local Open Scope Z_scope.

(** ** C52 *)
(** The 32 bits of a colour are its channels, and no colour or number is changed on the way. *)
Theorem C52_pack : forall c, validColor c -> pack c = rgba c /\ unpack (toInt (pack c)) = c.
Proof.
  intros c V. rewrite (pack_rgba c V). split; [reflexivity|].
  rewrite <- unpack_mod, toInt_mod, unpack_mod. now apply unpack_rgba.
Qed.
Theorem C52_unpack : forall n, 0 <= n < 2 ^ 32 -> validColor (unpack (toInt n)) /\ pack (unpack (toInt n)) = n.
Proof.
  intros n Hn. rewrite <- unpack_mod, toInt_mod, unpack_mod. destruct (rgba_unpack n Hn) as [V E].
  split; [exact V|]. now rewrite pack_rgba.
Qed.
Example C52_pack_case : pack (mkColor 255 128 1 7) = 4286578951 /\ unpack (toInt 4286578951) = mkColor 255 128 1 7.
Proof. vm_compute. auto. Qed.

(** Sums saturate instead of wrapping. *)
Theorem C52_add : forall a b, validColor a -> validColor b ->
  channels (fun x y z => z = Z.min (x + y) 255) a b (addColor a b).
Proof.
  intros a b (A1 & A2 & A3 & A4) (B1 & B2 & B3 & B4). unfold channels, addColor, colorOf, channel. cbn [red green blue alpha]. lia.
Qed.
Example C52_add_case : addColor (mkColor 200 1 0 255) (mkColor 100 2 0 255) = mkColor 255 3 0 255.
Proof. reflexivity. Qed.

Lemma hex_value c d : digitValue c = Some d -> hexToInt c = Ok d /\ 0 <= d < 16.
Proof.
  unfold digitValue, hexToInt. cbn zeta.
  repeat match goal with |- context [(?a && ?b)%bool] => destruct (a && b)%bool eqn:?; try lia end;
  intros [= <-]; split; try lia; f_equal; lia.
Qed.

(** Six digits give the colour of that number, without transparency. *)
Theorem C52_hex : forall names digits n, length digits = 6%nat -> hexValue 0 digits = Some n ->
  exists c, parseColor names (35%N :: digits) = Ok c /\ validColor c /\ rgba c = n * 256 + 255.
Proof.
  intros names digits n L H.
  destruct digits as [|d1 [|d2 [|d3 [|d4 [|d5 [|d6 [|? ?]]]]]]]; try discriminate L. cbn [hexValue] in H.
  destruct (digitValue d1) as [v1|] eqn:E1; [|discriminate]. destruct (digitValue d2) as [v2|] eqn:E2; [|discriminate].
  destruct (digitValue d3) as [v3|] eqn:E3; [|discriminate]. destruct (digitValue d4) as [v4|] eqn:E4; [|discriminate].
  destruct (digitValue d5) as [v5|] eqn:E5; [|discriminate]. destruct (digitValue d6) as [v6|] eqn:E6; [|discriminate].
  injection H as <-.
  apply hex_value in E1 as [F1 R1]. apply hex_value in E2 as [F2 R2]. apply hex_value in E3 as [F3 R3].
  apply hex_value in E4 as [F4 R4]. apply hex_value in E5 as [F5 R5]. apply hex_value in E6 as [F6 R6].
  unfold parseColor, charAt. cbn [nth_error bind]. change (N.eqb 35 35) with true. cbv iota.
  unfold fromHex, hexPair, charAt. cbn [nth_error bind]. rewrite F1, F2, F3, F4, F5, F6. cbn [bind].
  eexists. split; [reflexivity|]. split; [apply colorOf_valid|].
  unfold rgba, colorOf. cbn [red green blue alpha]. rewrite !channel_id by lia. lia.
Qed.
Example C52_hex_case : exists c, parseColor [] [35; 102; 70; 56; 48; 48; 49]%N = Ok c /\ c = mkColor 255 128 1 255.
Proof. eexists. split; vm_compute; reflexivity. Qed.

(** Shorter colours, which the grammar of gradients accepts, are never understood. *)
Theorem C52_short_refuted : forall names digits c, (length digits < 6)%nat ->
  parseColor names (35%N :: digits) <> Ok c.
Proof.
  intros names digits c L. unfold parseColor, charAt. cbn [nth_error bind]. change (N.eqb 35 35) with true. cbv iota.
  unfold fromHex. intros H.
  destruct (hexPair (35%N :: digits) 2 1) as [r| |]; cbn [bind] in H; try discriminate.
  destruct (hexPair (35%N :: digits) 4 3) as [g| |]; cbn [bind] in H; try discriminate.
  unfold hexPair in H. unfold charAt at 1 in H.
  assert (E : nth_error (35%N :: digits) 6 = None) by (apply nth_error_None; cbn [length]; lia). rewrite E in H.
  destruct (6 =? length (35%N :: digits))%nat; cbn [bind] in H; [|discriminate].
  change (hexToInt 0) with (@Throw Z InvalidArgument) in H. discriminate.
Qed.
Example C52_short_case : parseColor [] [35; 97; 98; 99]%N = Throw InvalidArgument.
Proof. reflexivity. Qed.

(** ** C53 *)
(** Up to the time of the last stop the colour lies between the colours of the stops around the time,
    or is one darker; at the time of a stop it is the colour of that stop. *)
Theorem C53_evaluate : forall (l : gradient) time i tb b,
  Forall (fun s => validColor (snd s)) l ->
  nth_error l i = Some (tb, b) -> (time <= tb)%Q ->
  (forall j t c, (j < i)%nat -> nth_error l j = Some (t, c) -> (t < time)%Q) ->
  exists c, evaluate l time = Ok c /\ validColor c /\ ((time == tb)%Q -> c = b) /\
    match i with
    | O => c = b
    | Datatypes.S k => exists ta a, nth_error l k = Some (ta, a) /\ (ta < time)%Q /\ channels near a b c
    end.
Proof.
  intros l time i tb b V E T B.
  assert (Vn : forall j t c, nth_error l j = Some (t, c) -> validColor c).
  { intros j t c H. rewrite Forall_forall in V. apply (V (t, c)). eapply nth_error_In, H. }
  assert (I : seekStop l time = i).
  { apply seek_spec; [apply nth_error_Some; congruence|exact B|]. intros t c H. left. congruence. }
  destruct i as [|k].
  - exists b. unfold evaluate. destruct l as [|s l]; [discriminate|]. cbn zeta. rewrite I. change (0 - 1)%nat with O. rewrite E.
    rewrite mix_zero by (eauto || reflexivity). repeat split; eauto; eapply Vn; eauto.
  - destruct (nth_error l k) as [[ta a]|] eqn:Ea.
    2:{ apply nth_error_None in Ea. assert (Datatypes.S k < length l)%nat by (apply nth_error_Some; congruence). lia. }
    pose proof (B k ta a ltac:(lia) Ea) as Lt.
    rewrite (evaluate_at l time k ta a tb b I Ea E).
    destruct (Qeq_bool tb ta) eqn:Q0; [apply Qeq_bool_iff in Q0; lra|].
    assert (P : (0 < tb - ta)%Q) by lra.
    assert (M : (0 <= (time - ta) / (tb - ta) <= 1)%Q).
    { split; [apply Qle_shift_div_l; [exact P|lra]|apply Qle_shift_div_r; [exact P|lra]]. }
    destruct (mix_ok a b _ (Vn _ _ _ Ea) (Vn _ _ _ E) M) as (c & Ec & N & Vc). exists c. split; [exact Ec|]. split; [exact Vc|]. split.
    + intros Eq. rewrite mix_one in Ec; [congruence|eapply Vn, E|]. rewrite Eq. field. lra.
    + exists ta, a. auto.
Qed.
Example C53_evaluate_case :
  let l := [(0%Q, mkColor 0 0 0 255); ((1 # 2)%Q, mkColor 100 200 0 255); (1%Q, mkColor 255 255 255 255)] in
  evaluate l (1 # 4) = Ok (mkColor 50 100 0 254) /\ evaluate l (1 # 2) = Ok (mkColor 100 200 0 255).
Proof. vm_compute. auto. Qed.

(** With increasing times every stop shows its own colour. *)
Theorem C53_stop : forall (l : gradient) i t c,
  Forall (fun s => validColor (snd s)) l -> StronglySorted Qlt (map fst l) ->
  nth_error l i = Some (t, c) -> evaluate l t = Ok c.
Proof.
  intros l i t c V S E. destruct (C53_evaluate l t i t c V E (Qle_refl t)) as (c' & -> & _ & H & _).
  - clear V. revert i E. induction l as [|[u d] l IH]; intros i E j t' c' Hj Ej; [destruct i; discriminate|].
    cbn [map fst] in S. apply StronglySorted_inv in S as [S1 S2]. destruct j as [|j], i as [|i]; try lia; cbn [nth_error] in *.
    + injection Ej as -> ->. rewrite Forall_forall in S2. apply S2. change t with (fst (t, c)). apply in_map. eapply nth_error_In, E.
    + eapply IH; eauto. lia.
  - f_equal. now apply H.
Qed.

(** An empty gradient is transparent black, a single colour is that colour at every time. *)
Theorem C53_constant : forall c time, validColor c -> evaluate [] time = Ok noColor /\ (forall t, evaluate [(t, c)] time = Ok c).
Proof.
  intros c time V. split; [reflexivity|]. intros t. unfold evaluate. cbn [seekStop nth_error Nat.sub]. now apply mix_zero.
Qed.

(** Between two stops of one colour the colour is in general not that colour. *)
Theorem C53_dark_refuted : exists c, validColor c /\ evaluate [(0%Q, c); (1%Q, c)] (1 # 2) = Ok (mkColor 0 0 0 254) /\ c <> mkColor 0 0 0 254.
Proof. exists (mkColor 1 1 1 255). split; [repeat split; cbn; lia|]. split; [reflexivity|discriminate]. Qed.

(** After the last stop the last colour is multiplied: the colour brightens. *)
Lemma over_one v mu : 0 <= v < 256 -> (1 <= mu)%Q -> (255 * mu < inject_Z (2 ^ 31))%Q ->
  exists p, intOf (inject_Z v * mu) = Ok p /\ p = Qfloor (inject_Z v * mu) /\ v <= p.
Proof.
  intros Hv H1 H2. assert (V : (0 <= inject_Z v <= 255)%Q).
  { split; [apply inject_nonneg; lia|]. change 255%Q with (inject_Z 255). rewrite <- Zle_Qle. lia. }
  assert (L : (inject_Z v <= inject_Z v * mu)%Q).
  { assert (0 <= inject_Z v * (mu - 1))%Q by (apply Qmult_le_0_compat; lra). lra. }
  assert (U : (inject_Z v * mu <= 255 * mu)%Q).
  { apply Qmult_le_compat_r; lra. }
  destruct (trunc_bounds (inject_Z v * mu)) as (A & B & C); [lra|].
  assert (F : truncQ (inject_Z v * mu) < 2 ^ 31). { rewrite Zlt_Qlt. eapply Qle_lt_trans; [exact A|]. lra. }
  assert (G : v <= truncQ (inject_Z v * mu)). { rewrite <- (trunc_Z v). apply trunc_mono. rewrite trunc_Z. exact L. }
  exists (truncQ (inject_Z v * mu)). unfold intOf. rewrite checkInt_ok by lia. split; [reflexivity|]. split; [|exact G].
  apply trunc_floor. lra.
Qed.
Lemma below_zero v mu : 0 <= v < 256 -> (1 <= mu)%Q -> (255 * mu < inject_Z (2 ^ 31))%Q ->
  exists p, intOf (inject_Z v * (1 - mu)) = Ok p /\ channel p = 0.
Proof.
  intros Hv H1 H2. assert (V : (0 <= inject_Z v <= 255)%Q).
  { split; [apply inject_nonneg; lia|]. change 255%Q with (inject_Z 255). rewrite <- Zle_Qle. lia. }
  assert (0 <= inject_Z v * (mu - 1))%Q by (apply Qmult_le_0_compat; lra).
  assert ((255 - inject_Z v) * (mu - 1) >= 0)%Q by (apply Qmult_le_0_compat; lra).
  assert (L : (inject_Z v * (1 - mu) <= 0)%Q) by lra.
  assert (U : (inject_Z (- 2 ^ 31) <= inject_Z v * (1 - mu))%Q).
  { change (inject_Z (- 2 ^ 31)) with (- inject_Z (2 ^ 31))%Q. lra. }
  pose proof (trunc_mono _ _ L) as A. pose proof (trunc_mono _ _ U) as B. rewrite trunc_Z in B.
  change (truncQ 0) with 0 in A. exists (truncQ (inject_Z v * (1 - mu))). unfold intOf. rewrite checkInt_ok by lia.
  split; [reflexivity|]. unfold channel. lia.
Qed.
Lemma after_channel v q : 0 <= v < 256 -> v <= q -> v <= channel (0 + channel q) /\ channel (0 + channel q) = Z.min 255 q.
Proof. unfold channel. lia. Qed.
Theorem C53_after_refuted : forall (l : gradient) time k ta a tb b,
  length l = Datatypes.S (Datatypes.S k) -> nth_error l k = Some (ta, a) -> nth_error l (Datatypes.S k) = Some (tb, b) ->
  validColor a -> validColor b -> (ta < tb)%Q -> (tb < time)%Q ->
  (forall j t c, (j <= k)%nat -> nth_error l j = Some (t, c) -> (t < time)%Q) ->
  let mu := ((time - ta) / (tb - ta))%Q in
  (255 * mu < inject_Z (2 ^ 31))%Q ->
  exists c, evaluate l time = Ok c /\ channels (fun _ y z => y <= z /\ z = Z.min 255 (Qfloor (inject_Z y * mu))) a b c.
Proof.
  intros l time k ta a tb b L Ea Eb (A1 & A2 & A3 & A4) (B1 & B2 & B3 & B4) Tab Tt Lt mu Hmu.
  assert (I : seekStop l time = Datatypes.S k).
  { apply seek_spec; [lia| |].
    - intros j t c Hj. apply Lt. lia.
    - intros t c H. right. lia. }
  rewrite (evaluate_at l time k ta a tb b I Ea Eb). fold mu.
  destruct (Qeq_bool tb ta) eqn:Q0; [apply Qeq_bool_iff in Q0; lra|].
  assert (M : (1 <= mu)%Q) by (apply Qle_shift_div_l; lra). clearbody mu.
  unfold mixColors, scaleColor.
  destruct (below_zero _ mu A1 M Hmu) as (p1 & -> & P1). destruct (below_zero _ mu A2 M Hmu) as (p2 & -> & P2).
  destruct (below_zero _ mu A3 M Hmu) as (p3 & -> & P3). destruct (below_zero _ mu A4 M Hmu) as (p4 & -> & P4).
  destruct (over_one _ mu B1 M Hmu) as (q1 & -> & Q1 & R1). destruct (over_one _ mu B2 M Hmu) as (q2 & -> & Q2 & R2).
  destruct (over_one _ mu B3 M Hmu) as (q3 & -> & Q3 & R3). destruct (over_one _ mu B4 M Hmu) as (q4 & -> & Q4 & R4).
  cbn [bind]. eexists. split; [reflexivity|].
  unfold addColor, colorOf, channels. cbn [red green blue alpha]. rewrite P1, P2, P3, P4, <- Q1, <- Q2, <- Q3, <- Q4.
  split; [|split; [|split]]; apply after_channel; assumption.
Qed.
Example C53_after_case : evaluate [(0%Q, mkColor 10 20 30 255); ((1 # 2)%Q, mkColor 40 100 200 255)] 1 = Ok (mkColor 80 200 255 255).
Proof. vm_compute. reflexivity. Qed.

(** Two last stops of the same time make the colour after them undefined. *)
Theorem C53_same_time_refuted : forall (l : gradient) time k ta a tb b,
  length l = Datatypes.S (Datatypes.S k) -> nth_error l k = Some (ta, a) -> nth_error l (Datatypes.S k) = Some (tb, b) ->
  (ta == tb)%Q -> (forall j t c, (j <= k)%nat -> nth_error l j = Some (t, c) -> (t < time)%Q) ->
  evaluate l time = UB.
Proof.
  intros l time k ta a tb b L Ea Eb T Lt.
  assert (I : seekStop l time = Datatypes.S k).
  { apply seek_spec; [lia| |].
    - intros j t c Hj. apply Lt. lia.
    - intros t c H. right. lia. }
  rewrite (evaluate_at l time k ta a tb b I Ea Eb).
  replace (Qeq_bool tb ta) with true; [reflexivity|]. symmetry. apply Qeq_bool_iff. now symmetry.
Qed.
Example C53_same_time_case :
  evaluate [(0%Q, noColor); ((1 # 2)%Q, noColor); ((1 # 2)%Q, grey)] (3 # 4) = UB.
Proof. reflexivity. Qed.

Print Assumptions C52_pack.
Print Assumptions C52_unpack.
Print Assumptions C52_add.
Print Assumptions C52_hex.
Print Assumptions C52_short_refuted.
Print Assumptions C53_evaluate.
Print Assumptions C53_stop.
Print Assumptions C53_constant.
Print Assumptions C53_dark_refuted.
Print Assumptions C53_after_refuted.
Print Assumptions C53_same_time_refuted.
