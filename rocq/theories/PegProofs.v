From Verif Require Import Base Bytes Peg.

Lemma span_app f s : let '(a, r) := spanOf f s in s = a ++ r /\ Forall (fun c => f c = true) a /\
  match r with [] => True | c :: _ => f c = false end.
Proof.
  induction s as [|c s IH]; cbn [spanOf]; [auto|]. destruct (f c) eqn:E.
  - destruct (spanOf f s) as [a r]. destruct IH as (-> & H1 & H2). repeat split; auto.
  - repeat split; auto.
Qed.
Lemma span_all f a r : Forall (fun c => f c = true) a -> match r with [] => True | c :: _ => f c = false end ->
  spanOf f (a ++ r) = (a, r).
Proof.
  intros H Hr. induction H as [|c a Hc _ IH]; cbn [app].
  - destruct r as [|c r]; cbn [spanOf]; [reflexivity|]. now rewrite Hr.
  - cbn [spanOf]. rewrite Hc, IH. reflexivity.
Qed.
Lemma skip_app sp s : Forall (fun c => isSpace c = true) sp -> skipSpaces (sp ++ s) = skipSpaces s.
Proof.
  intros H. unfold skipSpaces. induction H as [|c sp Hc _ IH]; cbn [app]; [reflexivity|].
  cbn [spanOf]. rewrite Hc. destruct (spanOf isSpace (sp ++ s)). exact IH.
Qed.
Lemma skip_stop c s : isSpace c = false -> skipSpaces (c :: s) = c :: s.
Proof. intros H. unfold skipSpaces. cbn [spanOf]. now rewrite H. Qed.
Lemma skip_exists s : exists sp, s = sp ++ skipSpaces s /\ Forall (fun c => isSpace c = true) sp.
Proof.
  unfold skipSpaces. pose proof (span_app isSpace s) as H. destruct (spanOf isSpace s) as [a r]. exists a. cbn. tauto.
Qed.
Lemma lit_ok l s : plit l (l ++ s) = Parsed tt s.
Proof. induction l as [|c l IH]; cbn [plit app]; [reflexivity|]. now rewrite N.eqb_refl. Qed.
Lemma lit_inv l s u r : plit l s = Parsed u r -> s = l ++ r.
Proof.
  revert s. induction l as [|c l IH]; intros s H; cbn [plit] in H.
  - now injection H as _ ->.
  - destruct s as [|d s]; [discriminate|]. destruct (N.eqb_spec c d) as [->|]; [|discriminate]. cbn. f_equal. now apply IH.
Qed.
Lemma chars_ok f a r : a <> [] -> Forall (fun c => f c = true) a -> match r with [] => True | c :: _ => f c = false end ->
  pchars1 f (a ++ r) = Parsed a r.
Proof. intros Ha H Hr. unfold pchars1. rewrite span_all by assumption. destruct a; congruence. Qed.
Lemma chars_inv f s a r : pchars1 f s = Parsed a r -> s = a ++ r /\ a <> [] /\ Forall (fun c => f c = true) a.
Proof.
  unfold pchars1. pose proof (span_app f s) as H. destruct (spanOf f s) as [b q]. destruct b; [discriminate|].
  intros [= <- <-]. destruct H as (H1 & H2 & _). repeat split; auto; discriminate.
Qed.
Lemma lit_no_expect l s : plit l s <> Unexpected.
Proof.
  revert s. induction l as [|c l IH]; intros s; cbn [plit]; [discriminate|]. destruct s; [discriminate|].
  destruct (N.eqb c n); [apply IH|discriminate].
Qed.

(** ** Combinators *)
Lemma bind_ok {A B} (p : parser A) (f : A -> parser B) s a r : p s = Parsed a r -> pbind p f s = f a r.
Proof. intros H. unfold pbind. now rewrite H. Qed.
Lemma bind_no {A B} (p : parser A) (f : A -> parser B) s : p s = Fail -> pbind p f s = Fail.
Proof. intros H. unfold pbind. now rewrite H. Qed.
Lemma expect_ok {A} (p : parser A) s a r : p s = Parsed a r -> pexpect p s = Parsed a r.
Proof. intros H. unfold pexpect. now rewrite H. Qed.
Lemma option_ok {A} (p : parser A) s a r : p s = Parsed a r -> poption p s = Parsed (Some a) r.
Proof. intros H. unfold poption. now rewrite H. Qed.
Lemma option_no {A} (p : parser A) s : p s = Fail -> poption p s = Parsed None s.
Proof. intros H. unfold poption. now rewrite H. Qed.
Lemma or_ok {A} (p q : parser A) s a r : p s = Parsed a r -> por p q s = Parsed a r.
Proof. intros H. unfold por. now rewrite H. Qed.
Lemma or_no {A} (p q : parser A) s : p s = Fail -> por p q s = q s.
Proof. intros H. unfold por. now rewrite H. Qed.
Lemma bind_inv {A B} (p : parser A) (f : A -> parser B) s b r : pbind p f s = Parsed b r ->
  exists a r', p s = Parsed a r' /\ f a r' = Parsed b r.
Proof. unfold pbind. destruct (p s) as [| |a r'] eqn:E; try discriminate. eauto. Qed.
Lemma expect_inv {A} (p : parser A) s a r : pexpect p s = Parsed a r -> p s = Parsed a r.
Proof. unfold pexpect. destruct (p s); congruence. Qed.
Lemma option_inv {A} (p : parser A) s o r : poption p s = Parsed o r ->
  (o = None /\ r = s) \/ exists a, o = Some a /\ p s = Parsed a r.
Proof. unfold poption. destruct (p s) as [| |a q]; try discriminate; intros [= <- <-]; [now left|right; eauto]. Qed.
Lemma or_inv_full {A} (p q : parser A) s a r : por p q s = Parsed a r -> p s = Parsed a r \/ (p s = Fail /\ q s = Parsed a r).
Proof. unfold por. destruct (p s) eqn:E; intros H; [auto|discriminate|injection H as -> ->; auto]. Qed.
Lemma or_inv {A} (p q : parser A) s a r : por p q s = Parsed a r -> p s = Parsed a r \/ q s = Parsed a r.
Proof. unfold por. destruct (p s); auto; discriminate. Qed.
Lemma bind_bad {A B} (p : parser A) (f : A -> parser B) s : p s = Unexpected -> pbind p f s = Unexpected.
Proof. intros H. unfold pbind. now rewrite H. Qed.
Lemma expect_bad {A} (p : parser A) s : p s = Fail \/ p s = Unexpected -> pexpect p s = Unexpected.
Proof. intros [H|H]; unfold pexpect; now rewrite H. Qed.
Lemma or_bad {A} (p q : parser A) s : p s = Unexpected -> por p q s = Unexpected.
Proof. intros H. unfold por. now rewrite H. Qed.
