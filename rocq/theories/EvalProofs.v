From Verif Require Import Base Bytes RingModel Peg PegProofs EvalModel EvalSpec.

Section Parse.
  Context {T : Type} (n : nums T) (number : bytes -> option (T * bytes)) (numeral : T -> bytes -> Prop).
  Hypothesis good : goodNumber numeral number.

  Lemma inQuotes_spec c : inQuotes c = true <-> (c < 128)%N /\ c <> 39%N.
  Proof. unfold inQuotes, isAscii. rewrite andb_true_iff, negb_true_iff, N.ltb_lt, N.eqb_neq. reflexivity. Qed.
  Lemma quotable_forall k : quotable k <-> k <> [] /\ Forall (fun c => inQuotes c = true) k.
  Proof.
    unfold quotable. split; intros [A B]; split; auto; revert B; apply Forall_impl; intros c; apply inQuotes_spec.
  Qed.

  Lemma number_none c s : c = 39%N \/ c = 116%N -> number (c :: s) = None.
  Proof.
    intros H. destruct (number (c :: s)) as [[v r]|] eqn:E; [|reflexivity]. destruct good as (G1 & _ & G3).
    apply G1 in E as (w & E & W). destruct (G3 _ _ W) as (d & w' & -> & _ & D1 & D2). injection E as -> _. destruct H; congruence.
  Qed.

  Lemma poperand_skip sp s : blank sp -> poperand number (sp ++ s) = poperand number s.
  Proof.
    intros B. unfold poperand, por, pbind, pskip. now rewrite (skip_app sp s B).
  Qed.

  Lemma poperand_ok o s r : writesOperand numeral o s -> follows r -> poperand number (s ++ r) = Parsed o r.
  Proof.
    intros W F. destruct W as [v w W|k Q|k Q].
    - destruct good as (_ & G2 & G3). destruct (G3 _ _ W) as (c & w' & E & Sp & _).
      unfold poperand, por, pbind, pskip. assert (K : skipSpaces (w ++ r) = w ++ r) by (rewrite E; now apply skip_stop).
      rewrite K. unfold pnumber. rewrite (G2 _ _ _ W F). reflexivity.
    - apply quotable_forall in Q as [Q1 Q2]. unfold poperand, por, pbind, pskip.
      rewrite <- !app_assoc. cbn [app]. rewrite !skip_stop by reflexivity. unfold pnumber. rewrite number_none by auto.
      unfold ptag, pbind. change (116 :: 97 :: 103 :: 40 :: 39 :: k ++ 39 :: 41 :: r)%N with (litTag ++ k ++ 39 :: 41 :: r)%N.
      rewrite lit_ok. rewrite chars_ok; [|assumption|assumption|reflexivity].
      change (39 :: 41 :: r)%N with (litTagEnd ++ r). rewrite lit_ok. reflexivity.
    - apply quotable_forall in Q as [Q1 Q2]. unfold poperand, por, pbind, pskip.
      rewrite <- !app_assoc. cbn [app]. rewrite !skip_stop by reflexivity. unfold pnumber. rewrite number_none by auto.
      unfold ptag at 1, pbind. cbn [plit litTag]. change (N.eqb 116 39) with false. cbv iota.
      unfold pstring, pbind. change (39 :: k ++ 39 :: r)%N with (litQuote ++ k ++ 39 :: r)%N.
      rewrite lit_ok. rewrite chars_ok; [|assumption|assumption|reflexivity].
      change (39 :: r)%N with (litQuote ++ r). rewrite lit_ok. reflexivity.
  Qed.

  Lemma pskip_blank {A} sp (p : parser A) s : blank sp -> pskip skipSpaces p (sp ++ s) = pskip skipSpaces p s.
  Proof. intros B. unfold pskip. now rewrite skip_app. Qed.

  Lemma blank_follows sp c r : blank sp -> In c [43; 45; 42; 47; 34]%N -> follows (sp ++ c :: r).
  Proof. intros B I. destruct B; cbn; auto. Qed.

  Lemma operator_spec op : In op [43; 45; 42; 47]%N <-> isOperator op = true.
  Proof.
    unfold isOperator. rewrite !orb_true_iff, !N.eqb_eq. cbn. intuition congruence.
  Qed.
  Lemma operator_space op : isOperator op = true -> isSpace op = false.
  Proof. intros H. apply operator_spec in H. cbn in H. intuition (subst; reflexivity). Qed.

  Lemma pmany_ops l s : writesRest numeral l s -> forall fuel sp r, blank sp -> length l < fuel ->
    pmanyFuel fuel (poperation number) (s ++ sp ++ 34%N :: r) = Parsed l (sp ++ 34%N :: r).
  Proof.
    induction 1 as [|op o l sp1 sp2 s r Op B1 B2 W WR IH]; intros fuel sp q B F; (destruct fuel as [|fuel]; [cbn in F; lia|]); cbn [pmanyFuel].
    - cbn [app]. unfold poperation, pbind. rewrite pskip_blank by exact B. unfold pskip. rewrite skip_stop by reflexivity. reflexivity.
    - assert (P : poperation number ((sp1 ++ op :: sp2 ++ s ++ r) ++ sp ++ 34%N :: q) = Parsed (op, o) (r ++ sp ++ 34%N :: q)).
      { rewrite <- !app_assoc. cbn [app]. rewrite <- !app_assoc. unfold poperation, pbind. rewrite pskip_blank by exact B1.
        apply operator_spec in Op. unfold pskip. rewrite skip_stop by now apply operator_space. cbn [pchar]. rewrite Op.
        rewrite (poperand_skip sp2) by exact B2. rewrite (poperand_ok o s); [reflexivity|exact W|].
        inversion WR; subst.
        - cbn [app]. apply blank_follows; cbn; auto 10.
        - rewrite <- !app_assoc. cbn [app]. apply blank_follows; [assumption|]. cbn in *. intuition. }
      rewrite P. rewrite IH by (assumption || (cbn in F; lia)). reflexivity.
  Qed.

  Lemma rest_length l s : writesRest numeral l s -> length l <= length s.
  Proof. induction 1; cbn [length]; [lia|]. rewrite !app_length. cbn [length]. rewrite !app_length. lia. Qed.

  Lemma parse_complete t s : writes numeral t s -> parseEval number s = Some t.
  Proof.
    intros [o l sp1 sp2 sp3 sp4 so r B1 B2 B3 B4 W WR]. unfold parseEval, pexpression.
    set (tail := sp3 ++ [34; 41]%N ++ sp4).
    assert (Fo : follows (r ++ tail)).
    { unfold tail. inversion WR; subst; cbn [app].
      - apply blank_follows; cbn; auto 10.
      - rewrite <- !app_assoc. cbn [app]. apply blank_follows; [assumption|]. cbn in *. intuition. }
    unfold pbind. rewrite pskip_blank by exact B1. unfold pskip at 1.
    change (skipSpaces ([101; 118; 97; 108; 40; 34]%N ++ sp2 ++ so ++ r ++ tail)) with (skipSpaces (101%N :: [118; 97; 108; 40; 34]%N ++ sp2 ++ so ++ r ++ tail)).
    rewrite skip_stop by reflexivity.
    change (101 :: [118; 97; 108; 40; 34] ++ sp2 ++ so ++ r ++ tail)%N with (litEval ++ sp2 ++ so ++ r ++ tail).
    rewrite lit_ok. rewrite poperand_skip by exact B2. rewrite (poperand_ok o so _ W Fo).
    unfold pmany. unfold tail at 2. cbn [app]. rewrite (pmany_ops l r WR) by
      (assumption || (rewrite app_length; pose proof (rest_length _ _ WR); lia)).
    rewrite pskip_blank by exact B3. unfold pskip. rewrite skip_stop by reflexivity.
    change (34 :: 41 :: sp4)%N with (litClose ++ sp4). rewrite lit_ok. cbn.
    rewrite <- (app_nil_r sp4). rewrite skip_app by exact B4. reflexivity.
  Qed.

  Lemma poperand_inv s o r : poperand number s = Parsed o r ->
    exists sp w, s = sp ++ w ++ r /\ blank sp /\ writesOperand numeral o w.
  Proof.
    destruct (skip_exists s) as (sp & Es & B). unfold poperand, por, pbind, pskip.
    set (u := skipSpaces s) in *. clearbody u. subst s.
    unfold pnumber. destruct (number u) as [[v q]|] eqn:E.
    - unfold preturn. intros [= <- <-]. destruct good as (G1 & _). apply G1 in E as (w & -> & W).
      exists sp, w. split; [reflexivity|]. split; [exact B|]. now constructor.
    - unfold ptag, pbind. destruct (plit litTag u) as [| |? q] eqn:E1.
      + unfold pstring, pbind. destruct (plit litQuote u) as [| |? q] eqn:E2; try discriminate.
        destruct (pchars1 inQuotes q) as [| |k q2] eqn:E3; try discriminate.
        destruct (plit litQuote q2) as [| |? q3] eqn:E4; try discriminate. intros [= <- <-].
        apply lit_inv in E2, E4. apply chars_inv in E3 as (-> & K1 & K2). subst.
        exists sp, ([39]%N ++ k ++ [39]%N). split; [cbn [app]; rewrite <- app_assoc; reflexivity|]. split; [exact B|].
        constructor. now apply quotable_forall.
      + now apply lit_no_expect in E1.
      + destruct (pchars1 inQuotes q) as [| |k q2] eqn:E3.
        * unfold pstring, pbind. destruct (plit litQuote u) as [| |? q'] eqn:E2; try discriminate.
          apply lit_inv in E1, E2. rewrite E1 in E2. discriminate.
        * discriminate.
        * destruct (plit litTagEnd q2) as [| |? q3] eqn:E4.
          -- unfold pstring, pbind. destruct (plit litQuote u) as [| |? q'] eqn:E2; try discriminate.
             apply lit_inv in E1, E2. rewrite E1 in E2. discriminate.
          -- discriminate.
          -- intros [= <- <-]. apply lit_inv in E1, E4. apply chars_inv in E3 as (-> & K1 & K2). subst.
             exists sp, ([116; 97; 103; 40; 39]%N ++ k ++ [39; 41]%N). split; [cbn [app litTag litTagEnd]; rewrite <- app_assoc; reflexivity|].
             split; [exact B|]. constructor. now apply quotable_forall.
  Qed.

  Lemma pmany_inv fuel s l r : pmanyFuel fuel (poperation number) s = Parsed l r ->
    exists w, s = w ++ r /\ writesRest numeral l w.
  Proof.
    revert s l. induction fuel as [|fuel IH]; intros s l H; cbn [pmanyFuel] in H.
    - injection H as <- <-. exists []. split; [reflexivity|constructor].
    - destruct (poperation number s) as [| |[op o] q] eqn:E.
      + injection H as <- <-. exists []. split; [reflexivity|constructor].
      + discriminate.
      + destruct (pmanyFuel fuel (poperation number) q) as [| |l' r'] eqn:E2; try discriminate. injection H as <- <-.
        apply IH in E2 as (w & -> & W). unfold poperation, pbind, pskip in E.
        destruct (skip_exists s) as (sp & Es & B). set (u := skipSpaces s) in *. clearbody u. subst s.
        destruct u as [|c u]; [discriminate|]. cbn [pchar] in E. destruct (isOperator c) eqn:Op; [|discriminate].
        destruct (poperand number u) as [| |o' q'] eqn:E3; try discriminate. injection E as -> -> ->.
        apply poperand_inv in E3 as (sp2 & w2 & -> & B2 & W2).
        exists (sp ++ op :: sp2 ++ w2 ++ w). split.
        * rewrite <- !app_assoc. cbn [app]. rewrite <- !app_assoc. reflexivity.
        * constructor; try assumption. now apply operator_spec.
  Qed.

  Lemma parse_sound t s : parseEval number s = Some t -> writes numeral t s.
  Proof.
    unfold parseEval, pexpression, pbind, pskip at 1.
    destruct (skip_exists s) as (sp1 & Es & B1). set (u := skipSpaces s) in *. clearbody u. subst s.
    destruct (plit litEval u) as [| |? q1] eqn:E1; try discriminate. apply lit_inv in E1. subst u.
    destruct (poperand number q1) as [| |o q2] eqn:E2; try discriminate. apply poperand_inv in E2 as (sp2 & w & -> & B2 & W).
    destruct (pmany (poperation number) q2) as [| |l q3] eqn:E3; try discriminate. apply pmany_inv in E3 as (r & -> & WR).
    unfold pskip. destruct (skip_exists q3) as (sp3 & Eq3 & B3). set (u := skipSpaces q3) in *. clearbody u. subst q3.
    destruct (plit litClose u) as [| |? q4] eqn:E4; try discriminate. apply lit_inv in E4. subst u. unfold preturn.
    destruct (skip_exists q4) as (sp4 & Eq4 & B4). destruct (skipSpaces q4); [|discriminate]. rewrite app_nil_r in Eq4. subst q4.
    intros [= <-]. exact (WTree numeral o l sp1 sp2 sp3 sp4 w r B1 B2 B3 B4 W WR).
  Qed.
End Parse.
