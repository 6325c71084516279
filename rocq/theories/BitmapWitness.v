(** A tile of 2^20 elements in which a search with a not-term goes wrong. *)
From Verif Require Import Base Bytes StreamModel EwahModel EwahMarker EwahRep EwahIter EwahLogic EwahSet EwahEnum EwahSpec EwahFacts EwahWitness
  BitmapModel BitmapSpec BitmapProofs.
From Coq Require Import NArith Sorted.
Local Open Scope N_scope.

Definition streetWord : bytes := [115; 116; 114; 101; 101; 116].
Definition lampWord : bytes := [108; 97; 109; 112].
(** An element with the key street, and one which has the value lamp too. *)
Definition plainDoc : document := [(streetWord, [])].
Definition lampDoc : document := [(streetWord, lampWord)].
Definition block : list document := lampDoc :: repeat plainDoc 31.
Definition blocks (n : nat) : list document := concat (repeat block n).
(** Every 32nd of them has the value. *)
Definition bigTile : list document := blocks (S wN).

Fixpoint allAt (order : N) (ds : list document) : list N := match ds with [] => [] | _ :: ds' => order :: allAt (order + 1) ds' end.
Fixpoint lampsAt (order : N) (ds : list document) : list N :=
  match ds with
  | [] => []
  | d :: ds' => (match d with (_, []) :: _ => [] | _ => [order] end) ++ lampsAt (order + 1) ds'
  end.

Lemma allAt_seq ds : forall n, allAt (N.of_nat n) ds = map N.of_nat (seq n (length ds)).
Proof.
  induction ds as [|d ds IH]; intros n; [reflexivity|]. cbn [allAt length seq map].
  replace (N.of_nat n + 1) with (N.of_nat (S n)) by lia. rewrite IH. reflexivity.
Qed.
Lemma blocks_S n : blocks (S n) = block ++ blocks n.
Proof. reflexivity. Qed.
Lemma blocks_length n : length (blocks n) = (32 * n)%nat.
Proof. induction n as [|n IH]; [reflexivity|]. rewrite blocks_S, app_length, IH. change (length block) with 32%nat. lia. Qed.
Lemma lampsAt_app a b : forall order, lampsAt order (a ++ b) = lampsAt order a ++ lampsAt (order + N.of_nat (length a)) b.
Proof.
  induction a as [|d a IH]; intros order; [cbn; f_equal; lia|]. cbn [app lampsAt length]. rewrite IH, app_assoc. f_equal. f_equal. lia.
Qed.
Lemma lamps_block order : lampsAt order block = [order].
Proof. reflexivity. Qed.
Lemma lamps_blocks n : forall k, lampsAt (32 * N.of_nat k) (blocks n) = map (fun k => 32 * N.of_nat k) (seq k n).
Proof.
  induction n as [|n IH]; intros k; [reflexivity|]. rewrite blocks_S, lampsAt_app, lamps_block. cbn [app seq map]. f_equal.
  change (N.of_nat (length block)) with 32. replace (32 * N.of_nat k + 32) with (32 * N.of_nat (S k)) by lia. apply IH.
Qed.
Lemma blocks_docs n : Forall (fun d => d = plainDoc \/ d = lampDoc) (blocks n).
Proof.
  induction n as [|n IH]; [constructor|]. rewrite blocks_S. apply Forall_app. split; [|exact IH].
  constructor; [auto|]. apply Forall_forall. intros d H. apply repeat_spec in H. auto.
Qed.
Lemma blocks_nth n k r d : (k < n)%nat -> nth_error block r = Some d -> nth_error (blocks n) (32 * k + r) = Some d.
Proof.
  revert k. induction n as [|n IH]; intros k L H; [lia|]. rewrite blocks_S.
  assert (R : (r < 32)%nat). { assert (X : nth_error block r <> None) by congruence. apply nth_error_Some in X. exact X. }
  destruct k as [|k].
  - rewrite nth_error_app1 by (change (length block) with 32%nat; lia). rewrite Nat.mul_0_r. exact H.
  - rewrite nth_error_app2 by (change (length block) with 32%nat; lia). change (length block) with 32%nat.
    replace (32 * S k + r - 32)%nat with (32 * k + r)%nat by lia. apply IH; [lia|exact H].
Qed.

Lemma and_wC : logicaland wC wB = Done wC.
Proof. apply doneEqb_eq. vm_compute. reflexivity. Qed.

Lemma big_bits : forall p, bitAt (repeat 4294967294 wN ++ [1]) p = true -> p < 2 ^ 32.
Proof.
  intros p H. destruct (N.lt_ge_cases p (2 ^ 32)) as [L|L]; [exact L|]. unfold bitAt in H. rewrite nth_overflow in H.
  - rewrite N.bits_0 in H. discriminate.
  - rewrite app_length, repeat_length. cbn [length]. assert (X : 2 ^ 32 / 32 <= p / 32) by (apply N.div_le_mono; lia).
    change (2 ^ 32 / 32) with 134217728 in X. unfold wN. lia.
Qed.

Section Track.
  Variable getId : bytes -> N.
  Notation street := (getId streetWord).
  Notation lamp := (getId lampWord).
  Hypothesis differ : street <> lamp.

  Definition bitsOf (k : N) (m : bitmap) : ewah := match find k m with Some c => c | None => empty end.
  Lemma plain_ids : docIds getId plainDoc = [street]. Proof. reflexivity. Qed.
  Lemma lamp_ids : docIds getId lampDoc = [street; lamp]. Proof. reflexivity. Qed.
  Lemma bits_store k k' c m : bitsOf k (store k' c m) = if k =? k' then c else bitsOf k m.
  Proof. unfold bitsOf. rewrite find_store. destruct (k =? k'); reflexivity. Qed.

  Lemma track ds : forall order m ca cs, Forall (fun d => d = plainDoc \/ d = lampDoc) ds ->
    addAll (allAt order ds) (bitsOf street m) = Done ca -> addAll (lampsAt order ds) (bitsOf lamp m) = Done cs ->
    exists m', addDocs getId order ds m = Done m' /\ bitsOf street m' = ca /\ bitsOf lamp m' = cs.
  Proof.
    induction ds as [|d ds IH]; intros order m ca cs F A S.
    - cbn in A, S. injection A as <-. injection S as <-. exists m. auto.
    - inversion F as [|x y D F']; subst x y. cbn [allAt addAll] in A. cbn [lampsAt] in S. cbn [addDocs]. unfold addDoc.
      destruct (set order (bitsOf street m)) as [[b c]| |] eqn:E; try discriminate A. cbn [rbind] in A.
      assert (N1 : (lamp =? street) = false) by (apply N.eqb_neq; congruence).
      assert (N2 : (street =? lamp) = false) by (apply N.eqb_neq; congruence).
      destruct D as [->| ->].
      + rewrite plain_ids. cbn [addIds]. fold (bitsOf street m). rewrite E. cbn [rbind].
        apply IH; auto; rewrite bits_store; [rewrite N.eqb_refl|rewrite N1]; auto.
      + rewrite lamp_ids. cbn [addIds]. fold (bitsOf street m). rewrite E. cbn [rbind]. fold (bitsOf lamp (store street c m)).
        change (match lampDoc with (_, []) :: _ => [] | _ => [order] end) with [order] in S. cbn [app addAll] in S.
        rewrite bits_store, N1. destruct (set order (bitsOf lamp m)) as [[b' c']| |]; try discriminate S. cbn [rbind] in S |- *.
        apply IH; auto; rewrite !bits_store, ?N.eqb_refl, ?N2; auto. 
  Qed.

  Lemma big_map : exists m, addDocs getId 0 bigTile [] = Done m /\ find street m = Some wB /\ find lamp m = Some wA.
  Proof.
    destruct (track bigTile 0 [] wB wA (blocks_docs (S wN))) as (m & E & A & L).
    - change 0 with (N.of_nat 0). rewrite allAt_seq. unfold bigTile. rewrite blocks_length. generalize build_wB. unfold build, upto. change (bitsOf street []) with empty. intros H. exact H.
    - change 0 with (32 * N.of_nat 0). unfold bigTile. rewrite lamps_blocks. generalize build_wA. unfold build, every32. change (bitsOf lamp []) with empty. intros H. exact H.
    - exists m. split; [exact E|]. unfold bitsOf in A, L.
      destruct (find street m) as [c|] eqn:F; [|apply (f_equal bits) in A; vm_compute in A; discriminate A].
      destruct (find lamp m) as [c'|] eqn:F'; [|apply (f_equal bits) in L; vm_compute in L; discriminate L]. split; congruence.
  Qed.

  Definition noLamp : query := mkQuery lampWord streetWord [].
  Lemma big_search : exists m l, addDocs getId 0 bigTile [] = Done m /\ searchTile getId noLamp m = Done l /\
    In (32 * 32767) l /\ ~ In (32 * 32767 + 1) l.
  Proof.
    destruct big_map as (m & E & A & L). destruct (enumerate_spec wC _ rep_wC) as (l & El & Sl & Hl).
    assert (U : map u32 l = l).
    { rewrite <- (map_id l) at 2. apply map_ext_in. intros p I. apply Hl, big_bits in I. apply N.mod_small. exact I. }
    exists m, l. split; [exact E|]. split.
    - unfold searchTile. change (tokenIds getId (orTerms noLamp)) with (@nil N). change (tokenIds getId (andTerms noLamp)) with [street].
      change (tokenIds getId (notTerms noLamp)) with [lamp]. unfold searchIds. cbn [orLoop rbind andLoop]. rewrite A.
      change (bits empty =? 0) with true. cbn [rbind notLoop]. rewrite L. rewrite xor_wC. cbn [rbind]. rewrite and_wC. cbn [rbind].
      rewrite El. cbn [rbind]. rewrite U. reflexivity.
    - rewrite !Hl. unfold bitAt. replace ((32 * 32767 + 1) / 32) with 32767 by reflexivity. replace ((32 * 32767 + 1) mod 32) with 1 by reflexivity.
      replace ((32 * 32767) / 32) with 32767 by reflexivity. replace ((32 * 32767) mod 32) with 0 by reflexivity. fold wN.
      rewrite !app_nth2 by (rewrite repeat_length; lia). rewrite repeat_length, Nat.sub_diag. cbn [nth]. split; [reflexivity|discriminate].
  Qed.
End Track.
