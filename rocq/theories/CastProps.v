(** Ids in stylesheets: a further theorem for C24. *)
From Verif Require Import Base Bytes StyleModel CastSpec.
Local Open Scope N_scope.

Lemma castDigits_spec : forall ds acc n, acc < 2 ^ 64 ->
  castDigits ds acc = Some n <->
  Forall digit ds /\ n = acc * 10 ^ N.of_nat (length ds) + decimal ds /\ n < 2 ^ 64.
Proof.
  induction ds as [|b ds IH]; intros acc n A.
  - cbn. split.
    + intro E. injection E as <-. split; [constructor|]. lia.
    + intros (_ & -> & L). f_equal. lia.
  - cbn [castDigits length decimal].
    destruct (N.leb_spec 48 b) as [B|B]; [destruct (N.leb_spec b 57) as [B'|B']|]; cbn [andb].
    2: { split; [discriminate|]. intros (F & _). apply Forall_inv in F. unfold digit in F. lia. }
    2: { split; [discriminate|]. intros (F & _). apply Forall_inv in F. unfold digit in F. lia. }
    replace (10 ^ N.of_nat (S (length ds))) with (10 * 10 ^ N.of_nat (length ds))
      by (rewrite Nat2N.inj_succ, N.pow_succ_r'; reflexivity).
    change 18446744073709551616 with (2 ^ 64).
    destruct (N.ltb_spec (acc * 10 + (b - 48)) (2 ^ 64)) as [L|L].
    + rewrite (IH _ n L). split; intros (F & E & U); (split; [|split; [|exact U]]).
      * constructor; [unfold digit; lia|exact F].
      * rewrite E. ring.
      * apply Forall_inv_tail in F. exact F.
      * rewrite E. ring.
    + split; [discriminate|]. intros (_ & E & U). exfalso.
      assert (P : 1 <= 10 ^ N.of_nat (length ds)) by (pose proof (N.pow_nonzero 10 (N.of_nat (length ds))); lia).
      revert P E. generalize (10 ^ N.of_nat (length ds)) as p. intros p P E. nia.
Qed.

(** An id is a number in digits, which may have a sign, below 2^64; one with a minus is that much below 2^64.  Nothing else is
    an id: no empty text, no other character, no greater number. *)
Theorem C24_ids : forall bs n, castId bs = Some n <->
  exists sign ds, bs = sign ++ ds /\ ds <> [] /\ Forall digit ds /\ decimal ds < 2 ^ 64 /\
    ((sign = [] \/ sign = [43]) /\ n = decimal ds \/ sign = [45] /\ n = (2 ^ 64 - decimal ds) mod 2 ^ 64).
Proof.
  intros bs n.
  assert (D : forall ds m, castDigits ds 0 = Some m <-> Forall digit ds /\ m = decimal ds /\ m < 2 ^ 64).
  { intros ds m. rewrite (castDigits_spec ds 0 m) by lia. rewrite N.mul_0_l, N.add_0_l. reflexivity. }
  destruct bs as [|b t].
  { split; [discriminate|]. intros (s & ds & E & N & _). symmetry in E. apply app_eq_nil in E. destruct E. contradiction. }
  destruct (N.eq_dec b 43) as [->|P]; [|destruct (N.eq_dec b 45) as [->|M]].
  - transitivity (t <> [] /\ castDigits t 0 = Some n).
    { destruct t; cbn [castId]; [split; [discriminate|intros [N _]; contradiction]|].
      split; [intro E; split; [discriminate|exact E]|intros [_ E]; exact E]. }
    rewrite D. split.
    + intros (N & F & E & L). exists [43], t. subst n. repeat split; auto.
    + intros (s & ds & E & N & F & L & [[[-> | ->] ->]|[-> ->]]); cbn in E.
      * subst ds. apply Forall_inv in F. unfold digit in F. lia.
      * injection E as ->. auto.
      * discriminate E.
  - transitivity (t <> [] /\ exists m, castDigits t 0 = Some m /\ n = (2 ^ 64 - m) mod 2 ^ 64).
    { destruct t as [|c t]; [split; [discriminate|intros [N _]; contradiction]|].
      change (castId (45 :: c :: t)) with (option_map (fun m => (2 ^ 64 - m) mod 2 ^ 64) (castDigits (c :: t) 0)).
      destruct (castDigits (c :: t) 0) as [m|]; cbn [option_map]; split.
      - intro E. injection E as <-. split; [discriminate|]. exists m. auto.
      - intros (_ & m' & E & ->). injection E as ->. reflexivity.
      - discriminate.
      - intros (_ & m' & E & _). discriminate E. }
    split.
    + intros (N & m & E & ->). apply D in E. destruct E as (F & -> & L). exists [45], t. repeat split; auto.
    + intros (s & ds & E & N & F & L & [[[-> | ->] ->]|[-> ->]]); cbn in E.
      * subst ds. apply Forall_inv in F. unfold digit in F. lia.
      * discriminate E.
      * injection E as ->. split; [exact N|]. exists (decimal ds). split; [apply D; auto|reflexivity].
  - transitivity (castDigits (b :: t) 0 = Some n).
    { assert (E : castId (b :: t) = castDigits (b :: t) 0); [|rewrite E; reflexivity].
      destruct b as [|p]; [reflexivity|].
      do 7 (destruct p as [p|p|]; try reflexivity; try contradiction). }
    rewrite D. split.
    + intros (F & E & L). exists [], (b :: t). subst n. repeat split; auto. discriminate.
    + intros (s & ds & E & N & F & L & [[[-> | ->] ->]|[-> ->]]); cbn in E; [subst ds; auto| |]; injection E; intros; contradiction.
Qed.
Print Assumptions C24_ids.

Example C24_ids_case : castId [49; 50] = Some 12 /\ castId [45; 49] = Some (2 ^ 64 - 1) /\
  castId [49; 56; 52; 52; 54; 55; 52; 52; 48; 55; 51; 55; 48; 57; 53; 53; 49; 54; 49; 54] = None /\
  decimal [49; 50] = 12 /\ Forall digit [49; 50].
Proof. repeat (split; [reflexivity|]). repeat constructor; discriminate. Qed.
