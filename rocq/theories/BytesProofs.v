From Verif Require Import Base Bytes.

Lemma le_length n x : length (le n x) = n.
Proof. revert x; induction n; intros; cbn [le length]; auto. Qed.

Lemma unle_le n : forall x, (x < 256 ^ N.of_nat n)%N -> unle (le n x) = x.
Proof.
  induction n as [|n IH]; intros x H.
  - cbn in *. lia.
  - cbn [le unle]. rewrite Nat2N.inj_succ, N.pow_succ_r' in H.
    rewrite IH; [|apply N.div_lt_upper_bound; lia].
    pose proof (N.div_mod x 256). lia.
Qed.

Lemma le_byte n x : Forall (fun b => b < 256)%N (le n x).
Proof.
  revert x; induction n; intros; cbn [le]; constructor; auto.
  apply N.mod_lt; lia.
Qed.

Lemma le_unle n : forall bs, length bs = n -> Forall (fun b => b < 256)%N bs -> le n (unle bs) = bs.
Proof.
  induction n as [|n IH]; intros [|b bs] HL HF; try discriminate; [reflexivity|].
  inversion HF; subst. cbn [le unle]. injection HL as HL.
  replace ((b + 256 * unle bs) mod 256)%N with b.
  - replace ((b + 256 * unle bs) / 256)%N with (unle bs); [rewrite IH; auto|].
    apply (N.div_unique _ _ _ b); lia.
  - apply (N.mod_unique _ _ (unle bs)); lia.
Qed.

Lemma unle_bound bs : Forall (fun b => b < 256)%N bs -> (unle bs < 256 ^ N.of_nat (length bs))%N.
Proof.
  induction 1; [cbn; lia|]. cbn [unle length]. rewrite Nat2N.inj_succ, N.pow_succ_r'. lia.
Qed.

Lemma beqb_eq a b : beqb a b = true <-> a = b.
Proof.
  revert b; induction a as [|x a IH]; intros [|y b]; cbn; try easy.
  rewrite andb_true_iff, N.eqb_eq, IH. split; [intros [-> ->]; reflexivity|intros [= -> ->]; auto].
Qed.

Lemma beqb_refl a : beqb a a = true.
Proof. apply beqb_eq; reflexivity. Qed.

Lemma beqb_neq a b : beqb a b = false <-> a <> b.
Proof. rewrite <- not_true_iff_false, beqb_eq; tauto. Qed.

Lemma cstr_nulFree s : nulFree s -> cstr s = s.
Proof.
  unfold nulFree. induction s as [|b s IH]; [reflexivity|]. cbn [In cstr]. intros H.
  destruct (N.eqb_spec b 0); [subst; tauto|]. rewrite IH; tauto.
Qed.

Lemma getline_nul s rest : nulFree s -> getline (s ++ 0%N :: rest) = (s, true, rest).
Proof.
  unfold nulFree. induction s as [|b s IH]; [reflexivity|]. cbn [In app getline]. intros H.
  destruct (N.eqb_spec b 0); [subst; tauto|]. rewrite IH by tauto. reflexivity.
Qed.

Lemma firstn_app_exact {A} (l1 l2 : list A) n : length l1 = n -> firstn n (l1 ++ l2) = l1.
Proof.
  intros <-. rewrite firstn_app, Nat.sub_diag, firstn_O, app_nil_r. apply firstn_all.
Qed.

Lemma skipn_app_exact {A} (l1 l2 : list A) n : length l1 = n -> skipn n (l1 ++ l2) = l2.
Proof.
  intros <-. rewrite skipn_app, Nat.sub_diag, skipn_O, skipn_all. reflexivity.
Qed.
