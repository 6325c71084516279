(** Proofs about directions of roofs (DirectionModel.v). *)
From Coq Require Import Reals Lra String.
From Verif Require Import Base Bytes RingModel EvalModel QuatModel JsonModel DirectionModel DirectionSpec.
Local Open Scope R_scope.

Lemma one_letter : forall s a, bearing s a -> length s = 1%nat ->
  (s = str "N" /\ (a = 0 \/ a = 360)) \/ (s = str "E" /\ a = 90) \/ (s = str "S" /\ a = 180) \/ (s = str "W" /\ a = 270).
Proof.
  intros s a H. destruct H as [| | | | |x y a b X Y _ _ _|x y z a b _ Lx Ly Lz _ _ _]; intro L; auto 8.
  - destruct X as [-> | ->], Y as [-> | ->]; discriminate L.
  - rewrite !app_length, Lx, Ly, Lz in L. discriminate L.
Qed.

Lemma two_letters : forall s a, bearing s a -> length s = 2%nat ->
  (s = str "NE" /\ a = 45) \/ (s = str "SE" /\ a = 135) \/ (s = str "SW" /\ a = 225) \/ (s = str "NW" /\ a = 315).
Proof.
  intros s a H. destruct H as [| | | | |x y a b X Y A B D|x y z a b _ Lx Ly Lz _ _ _]; intro L; try discriminate L.
  - clear L.
    assert (Lx : length x = 1%nat) by (destruct X as [-> | ->]; reflexivity).
    assert (Ly : length y = 1%nat) by (destruct Y as [-> | ->]; reflexivity).
    apply one_letter in A; [|exact Lx]. apply one_letter in B; [|exact Ly].
    destruct X as [-> | ->], Y as [-> | ->];
      destruct A as [[A Ea]|[[A Ea]|[[A Ea]|[A Ea]]]]; try discriminate A; clear A;
      destruct B as [[B Eb]|[[B Eb]|[[B Eb]|[B Eb]]]]; try discriminate B; clear B; subst b;
      try (destruct Ea as [-> | ->]); try subst a;
      try (exfalso; split_Rabs; lra);
      [left|right; right; right|right; left|right; right; left]; (split; [reflexivity|lra]).
  - rewrite !app_length, Lx, Ly, Lz in L. discriminate L.
Qed.

Definition fair (s : bytes) (a : R) : Prop :=
  exists d k, alookup beqb s directions = Some d /\ Rabs (IZR d - a - 360 * IZR k) <= 1 / 2 /\
    ((length s <= 2)%nat -> IZR d = a + 360 * IZR k).

Ltac named d k := exists d, k; split; [reflexivity|]; split; [split_Rabs; lra|intro; first [lra|exfalso; cbn in *; lia]].

Lemma bearing_fair : forall s a, bearing s a -> fair s a.
Proof.
  intros s a H. destruct H as [| | | | |x y a b X Y A B D|x y z a b X Lx Ly Lz A B D].
  - named 0%Z 0%Z.
  - named 0%Z (-1)%Z.
  - named 90%Z 0%Z.
  - named 180%Z 0%Z.
  - named 270%Z 0%Z.
  - assert (W : bearing (x ++ y) ((a + b) / 2)) by (constructor; assumption).
    assert (L : length (x ++ y) = 2%nat) by (destruct X as [-> | ->], Y as [-> | ->]; reflexivity).
    apply two_letters in W; [|exact L]. destruct W as [[-> ->]|[[-> ->]|[[-> ->]|[-> ->]]]].
    + named 45%Z 0%Z.
    + named 135%Z 0%Z.
    + named 225%Z 0%Z.
    + named 315%Z 0%Z.
  - apply one_letter in A; [|exact Lx]. apply two_letters in B; [|rewrite app_length, Ly, Lz; reflexivity].
    destruct y as [|y [|? ?]]; try discriminate Ly. destruct z as [|z [|? ?]]; try discriminate Lz.
    destruct B as [[B ->]|[[B ->]|[[B ->]|[B ->]]]]; cbn in B; injection B as -> ->;
      (destruct X as [-> | ->]);
      destruct A as [[A Ea]|[[A Ea]|[[A Ea]|[A Ea]]]]; try discriminate A; clear A;
      try (destruct Ea as [-> | ->]); try subst a; try (exfalso; split_Rabs; lra);
      [named 22%Z 0%Z|named 67%Z 0%Z|named 157%Z 0%Z|named 112%Z 0%Z|named 202%Z 0%Z|named 247%Z 0%Z|named 337%Z 0%Z|named 292%Z 0%Z].
Qed.

Lemma towards_dot : forall a b, dot (towards a) (towards b) = cos (PI * (a - b) / 180).
Proof.
  intros a b. unfold dot, towards. cbn [fst snd].
  replace (PI * (a - b) / 180) with (PI * a / 180 - PI * b / 180) by field. rewrite cos_minus. ring.
Qed.

Lemma cos_turns : forall x k, cos (x + 2 * PI * IZR k) = cos x.
Proof.
  intros x k. destruct (Z.le_gt_cases 0 k) as [K|K].
  - rewrite <- (Z2Nat.id k K), <- INR_IZR_INZ.
    replace (2 * PI * INR (Z.to_nat k)) with (2 * INR (Z.to_nat k) * PI) by ring. apply cos_period.
  - set (m := Z.to_nat (- k)).
    rewrite <- (cos_period _ m). f_equal. unfold m. rewrite INR_IZR_INZ, Z2Nat.id by lia. rewrite opp_IZR. ring.
Qed.

Lemma cos_near : forall d a k e, 0 <= e <= 180 -> Rabs (d - a - 360 * IZR k) <= e -> cos (PI * e / 180) <= cos (PI * (d - a) / 180).
Proof.
  intros d a k e E H. pose proof PI_RGT_0 as Pp.
  replace (PI * (d - a) / 180) with (PI * (d - a - 360 * IZR k) / 180 + 2 * PI * IZR k) by field.
  rewrite cos_turns. set (u := d - a - 360 * IZR k) in *.
  assert (C : cos (PI * u / 180) = cos (PI * Rabs u / 180)).
  { unfold Rabs. destruct (Rcase_abs u); [|reflexivity]. replace (PI * - u / 180) with (- (PI * u / 180)) by field.
    now rewrite cos_neg. }
  rewrite C. pose proof (Rabs_pos u) as Up. assert (Pe : PI * e <= PI * 180) by (apply Rmult_le_compat_l; lra).
  assert (Pu : PI * Rabs u <= PI * e) by (apply Rmult_le_compat_l; lra).
  assert (P0 : 0 <= PI * Rabs u) by (apply Rmult_le_pos; lra).
  apply cos_decr_1; lra.
Qed.
