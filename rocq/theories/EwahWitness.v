(** Two bitmaps of 32768 words whose symmetric difference is computed wrongly. *)
From Verif Require Import Base EwahModel EwahMarker EwahRep EwahIter EwahLogic EwahSet EwahEnum EwahSpec EwahFacts.
From Coq Require Import NArith Sorted.
Local Open Scope N_scope.

Fixpoint wordsEqb (a b : list N) : bool :=
  match a, b with
  | [], [] => true
  | x :: a', y :: b' => (x =? y) && wordsEqb a' b'
  | _, _ => false
  end%bool.
Lemma wordsEqb_eq a : forall b, wordsEqb a b = true -> a = b.
Proof.
  induction a as [|x a IH]; intros [|y b] H; cbn in H; try discriminate; [reflexivity|].
  apply andb_true_iff in H. destruct H as [H1 H2]. apply N.eqb_eq in H1. f_equal; auto.
Qed.
Definition doneEqb (r : res ewah) (b : ewah) : bool :=
  match r with
  | Done a => wordsEqb (buf a) (buf b) && (bits a =? bits b) && Nat.eqb (last a) (last b)
  | _ => false
  end%bool.
Lemma doneEqb_eq r b : doneEqb r b = true -> r = Done b.
Proof.
  destruct r as [[x y z]| |]; try discriminate. destruct b as [x' y' z']. cbn. intros H.
  apply andb_true_iff in H. destruct H as [H H3]. apply andb_true_iff in H. destruct H as [H1 H2].
  apply wordsEqb_eq in H1. apply N.eqb_eq in H2. apply Nat.eqb_eq in H3. congruence.
Qed.

Definition wN := N.to_nat 32767.
(** Every 32nd position. *)
Definition wA0 : ewah := mkEwah (mk false 0 32767 :: repeat 1 wN) (32 * 32766 + 1) 0.
Definition wA : ewah := mkEwah (flat [Seg false 0 (repeat 1 wN); Seg false 0 [1]]) (32 * 32767 + 1) (N.to_nat 32768).
(** All positions. *)
Definition wB : ewah := mkEwah [mk true 32768 0] (32 * 32768) 0.
(** The first 32767 words are negated, the last is not. *)
Definition wC : ewah := mkEwah (flat [Seg false 0 (repeat 4294967294 wN); Seg false 0 [1]]) (32 * 32768) (N.to_nat 32768).

Lemma set_wA : (match set (32 * 32767) wA0 with Done (_, c) => Done c | _ => Bad end) = Done wA.
Proof. apply doneEqb_eq. vm_compute. reflexivity. Qed.
Lemma set_wA' : exists b, set (32 * 32767) wA0 = Done (b, wA).
Proof.
  pose proof set_wA as H. revert H. generalize (set (32 * 32767) wA0). generalize wA.
  intros w [[b c]| |] H; try discriminate. exists b. inversion H. reflexivity.
Qed.
Lemma xor_wC : logicalxor wA wB = Done wC.
Proof. apply doneEqb_eq. vm_compute. reflexivity. Qed.

Lemma every32_S n : every32 (S n) = every32 n ++ [32 * N.of_nat n].
Proof. unfold every32. rewrite seq_S, map_app. reflexivity. Qed.

Lemma build_snoc l i c b c' : build l = Done c -> set i c = Done (b, c') -> build (l ++ [i]) = Done c'.
Proof. unfold build. intros H1 H2. rewrite addAll_app, H1. cbn [rbind addAll]. rewrite H2. reflexivity. Qed.

Lemma wN_of : N.of_nat wN = 32767.
Proof. unfold wN. apply N2Nat.id. Qed.
Lemma build_wA0 : build (every32 wN) = Done wA0.
Proof.
  assert (Ew : wN = S (N.to_nat 32766)) by (unfold wN; lia).
  pose proof (build_every32 (N.to_nat 32766)) as H. rewrite <- Ew in H. rewrite N2Nat.id, wN_of in H. apply H. lia.
Qed.
Lemma build_wA : build (every32 (S wN)) = Done wA.
Proof.
  rewrite every32_S, wN_of. destruct set_wA' as [b S]. exact (build_snoc _ _ _ _ _ build_wA0 S).
Qed.

Lemma build_wB : build (upto (32 * S wN)) = Done wB.
Proof.
  destruct (build_run (S wN)) as [E|E]; [unfold wN; lia| |discriminate].
  rewrite E. unfold wB. assert (Ew : N.of_nat (S wN) = 32768) by (unfold wN; lia). rewrite Ew. reflexivity.
Qed.

(** Two segments of literals, as above. *)
Lemma rep_two l1 l2 n : 0 < len l1 <= 32767 -> 0 < len l2 <= 32767 -> okWords l1 -> okWords l2 ->
  rep (mkEwah (flat [Seg false 0 l1; Seg false 0 l2]) n (S (length l1))) (l1 ++ l2).
Proof.
  intros H1 H2 O1 O2. exists [Seg false 0 l1], (Seg false 0 l2).
  split; [|split; [right; unfold live; cbn [sl sr]; lia|]].
  - split; [|split; [|split; [|split]]].
    + cbn [buf]. unfold flat. cbn [flat_map]. rewrite !app_nil_r. reflexivity.
    + unfold flat, flatSeg. cbn [last flat_map sl]. rewrite app_nil_r. reflexivity.
    + constructor; [|constructor]. split; [cbn; lia|]. split; [cbn [sl]; lia|auto].
    + split; [cbn; lia|]. split; [cbn [sl]; lia|auto].
    + constructor; [|constructor]. unfold live. cbn [sl sr]. lia.
  - unfold expand, wordsOf. cbn [flat_map sl sb sr]. rewrite !fills_0. cbn [app]. rewrite app_nil_r. reflexivity.
Qed.

Lemma ok_repeat w n : w < 2 ^ 32 -> okWords (repeat w n).
Proof. intros H. apply Forall_forall. intros x Hx. apply repeat_spec in Hx. subst. auto. Qed.

Lemma rep_wC : rep wC (repeat 4294967294 wN ++ [1]).
Proof.
  assert (L : len (repeat 4294967294 wN) = 32767) by (unfold len; rewrite repeat_length; apply wN_of).
  assert (K : N.to_nat 32768 = S (length (repeat 4294967294 wN))) by (rewrite repeat_length; unfold wN; lia).
  unfold wC. rewrite K. apply rep_two; [rewrite L; lia|unfold len; cbn; lia|apply ok_repeat; reflexivity|].
  constructor; [reflexivity|constructor].
Qed.

Lemma xor_wrong : exists l1 l2 a b c l p,
  StronglySorted N.lt l1 /\ StronglySorted N.lt l2 /\ build l1 = Done a /\ build l2 = Done b /\
  logicalxor a b = Done c /\ enumerate c = Done l /\ In p l1 /\ In p l2 /\ In p l.
Proof.
  destruct (enumerate_spec wC _ rep_wC) as (l & El & Sl & Hl).
  exists (every32 (S wN)), (upto (32 * S wN)), wA, wB, wC, l, (32 * 32767).
  split; [|split; [apply upto_sorted|split; [apply build_wA|split; [apply build_wB|split; [apply xor_wC|split; [exact El|]]]]]].
  - unfold every32. generalize 0%nat. generalize (S wN). induction n as [|n IH]; intros m; cbn [seq map]; constructor; auto.
    apply Forall_forall. intros x Hx. apply in_map_iff in Hx. destruct Hx as (y & <- & Hy). apply in_seq in Hy. lia.
  - split; [|split].
    + unfold every32. apply in_map_iff. exists wN. split; [unfold wN; lia|]. apply in_seq. lia.
    + unfold upto. apply in_map_iff. exists (N.to_nat (32 * 32767)). split; [lia|]. apply in_seq. unfold wN. lia.
    + apply Hl. unfold bitAt. rewrite (N.mul_comm 32 32767), N.div_mul, N.mod_mul by lia. fold wN.
      rewrite app_nth2 by (rewrite repeat_length; lia). rewrite repeat_length, Nat.sub_diag. vm_compute. reflexivity.
Qed.
