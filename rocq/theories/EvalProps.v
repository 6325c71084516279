(** C54: evaluated declarations of a style. *)
From Coq Require Import QArith.
From Verif Require Import Base Bytes ElementModel TagModel TagSpec TagProofs TagProps RingModel Peg PegProofs EvalModel EvalSpec EvalProofs.
Local Open Scope nat_scope.

(** The parser accepts exactly the language, each text with the one tree it is written for. *)
Theorem C54_language : forall T numeral number, goodNumber (T := T) numeral number ->
  forall s t, parseEval number s = Some t <-> writes numeral t s.
Proof. intros T numeral number G s t. split; [now apply parse_sound|now apply parse_complete]. Qed.
Print Assumptions C54_language.

(** A number parser as required. *)
Lemma natural_good : goodNumber natural naturalNumber.
Proof.
  unfold goodNumber, natural, naturalNumber. repeat split.
  - intros s v r. pose proof (span_app isDigit s) as H. destruct (spanOf isDigit s) as [[|c w] q]; [discriminate|].
    intros [= <- <-]. destruct H as (H1 & H2 & _). exists (c :: w). repeat split; auto; discriminate.
  - intros v w r (W1 & W2 & ->) F. rewrite span_all; [destruct w; congruence|exact W2|].
    destruct r as [|c r]; [exact I|]. cbn in F. destruct F as [F|F].
    + unfold isSpace in F. unfold isDigit. lia.
    + intuition (subst; reflexivity).
  - intros v w (W1 & W2 & _). destruct w as [|c w]; [congruence|]. inversion W2; subst. exists c, w.
    unfold isDigit, isSpace in *. repeat split; lia.
Qed.
(** eval("2 * tag('a')") *)
Example C54_language_case : parseEval naturalNumber
  [101; 118; 97; 108; 40; 34; 50; 32; 42; 32; 116; 97; 103; 40; 39; 97; 39; 41; 34; 41]%N
  = Some (mkTree (ODouble 2%Q) [(42%N, OTag [97]%N)]).
Proof. reflexivity. Qed.

Section Meaning.
  Context {T : Type} (n : nums T) (number : bytes -> option (T * bytes)) (cast : bytes -> option T) (show : T -> bytes).
  Variable tagText : bytes -> outcome bytes.

  (** The number of an operand: a text which is not a number counts as zero. *)
  Inductive means : operand T -> T -> Prop :=
  | MNumber v : means (ODouble v) v
  | MText s v : cast s = Some v -> means (OString s) v
  | MNoText s : cast s = None -> means (OString s) (nzero n)
  | MTag k s v : tagText k = Ok s -> cast s = Some v -> means (OTag k) v
  | MNoTag k s : tagText k = Ok s -> cast s = None -> means (OTag k) (nzero n).
  (** The text of an operand. *)
  Inductive reads : operand T -> bytes -> Prop :=
  | RNumber v : reads (ODouble v) (show v)
  | RText s : reads (OString s) s
  | RTag k s : tagText k = Ok s -> reads (OTag k) s.

  Lemma means_ok o v : means o v -> operandDouble n cast tagText o = Ok v.
  Proof.
    intros []; cbn [operandDouble]; try reflexivity; unfold omap, parseDouble;
    repeat match goal with E : _ = _ |- _ => rewrite E; cbn [bind]; clear E end; reflexivity.
  Qed.
  Lemma reads_ok o s : reads o s -> operandString show tagText o = Ok s.
  Proof. intros H. inversion H; subst; cbn [operandString]; auto. Qed.

  Lemma left_ops ops vs e a : Forall2 (fun p q => fst p = fst q /\ means (snd p) (snd q) /\ In (fst p) [43; 45; 42; 47]%N) ops vs ->
    fromLeft a vs e -> opsDouble n cast tagText (value n a) ops = Ok (value n e).
  Proof.
    intros F. revert a. induction F as [|[op o] [op' v] ops vs (E & M & Op) F IH]; intros a L.
    - inversion L; subst. reflexivity.
    - cbn [fst snd] in *. subst op'. inversion L; subst. cbn [opsDouble]. rewrite (means_ok _ _ M). cbn [bind].
      rewrite <- (IH _ H4). f_equal. cbn [value]. unfold applyDouble.
      destruct Op as [<-|[<-|[<-|[<-|[]]]]]; reflexivity.
  Qed.
End Meaning.

(** The value of an expression: its operations from left to right, none before another. *)
Theorem C54_left : forall T (n : nums T) cast tagText o ops v vs e,
  means n cast tagText o v ->
  Forall2 (fun p q => fst p = fst q /\ means n cast tagText (snd p) (snd q) /\ In (fst p) [43; 45; 42; 47]%N) ops vs ->
  fromLeft (Leaf v) vs e ->
  evalDouble n cast tagText (mkTree o ops) = Ok (value n e).
Proof.
  intros T n cast tagText o ops v vs e M F L. unfold evalDouble. cbn [first rest]. rewrite (means_ok n cast tagText o v M). cbn [bind].
  exact (left_ops n cast tagText ops vs e (Leaf v) F L).
Qed.
Print Assumptions C54_left.

(** The casts of the examples: all of the text has to be a number. *)
Definition castNatural (s : bytes) : option Q := match naturalNumber s with Some (v, []) => Some v | _ => None end.
(** So multiplication does not bind stronger than addition: eval("1+2*3") is 9. *)
Theorem C54_precedence_refuted : forall tagText,
  getValue exactNums naturalNumber castNatural tagText None (1 # 100)%Q
    (Some [101; 118; 97; 108; 40; 34; 49; 43; 50; 42; 51; 34; 41]%N) 1%Q = Ok 9%Q.
Proof. reflexivity. Qed.
Print Assumptions C54_precedence_refuted.

(** Texts: sums are joined, any other operation is an error. *)
Theorem C54_text : forall T show tagText (o : operand T) ops s ss,
  reads show tagText o s -> Forall2 (fun p q => reads show tagText (snd p) q) ops ss ->
  (Forall (fun p => fst p = 43%N) ops -> evalString show tagText (mkTree o ops) = Ok (concat (s :: ss))) /\
  (Exists (fun p => fst p <> 43%N) ops -> evalString show tagText (mkTree o ops) = Throw DomainError).
Proof.
  intros T show tagText o ops s ss R F. unfold evalString. cbn [first rest]. rewrite (reads_ok show tagText o s R). cbn [bind concat].
  split.
  - clear R. revert s. induction F as [|[op p] q ops ss H F IH]; intros s A; cbn [opsString concat]; [now rewrite app_nil_r|].
    inversion A; subst. cbn [fst snd] in *. subst. rewrite (reads_ok show tagText _ _ H). cbn [bind N.eqb Pos.eqb].
    rewrite IH by assumption. now rewrite app_assoc.
  - clear R. revert s. induction F as [|[op p] q ops ss H F IH]; intros s A; [inversion A|]. cbn [opsString].
    cbn [snd] in H. rewrite (reads_ok show tagText _ _ H). cbn [bind].
    destruct (N.eqb_spec op 43); [|reflexivity]. apply IH. inversion A; subst; [contradiction|assumption].
Qed.
Print Assumptions C54_text.
Example C54_text_case : evalString (T := Q) (fun _ => [49]%N) (fun _ => Ok [97]%N)
  (mkTree (OString [120]%N) [(43%N, OTag [107]%N); (43%N, ODouble 1%Q)]) = Ok [120; 97; 49]%N.
Proof. reflexivity. Qed.

(** The last character of an evaluated declaration is never a unit. *)
Lemma writes_last T numeral (t : tree T) s : writes numeral t s -> exists p c, s = p ++ [c] /\ (c = 41%N \/ isSpace c = true).
Proof.
  intros [o l sp1 sp2 sp3 sp4 so r B1 B2 B3 B4 W WR]. destruct (exists_last (l := [34; 41]%N ++ sp4) ltac:(discriminate)) as (q & c & E).
  exists (sp1 ++ [101; 118; 97; 108; 40; 34]%N ++ sp2 ++ so ++ r ++ sp3 ++ q), c. split.
  - rewrite <- !app_assoc. rewrite E. reflexivity.
  - destruct (list_eq_dec N.eq_dec sp4 []) as [->|Ne].
    + cbn in E. change [34; 41]%N with ([34] ++ [41])%N in E. apply app_inj_tail in E as [_ <-]. auto.
    + destruct (exists_last Ne) as (u & d & ->). rewrite app_assoc in E. apply app_inj_tail in E as [_ <-]. right.
      unfold blank in B4. rewrite Forall_forall in B4. apply B4. apply in_or_app. right. now left.
Qed.

(** A style gives the value of the expression, whatever its units are. *)
Theorem C54_evaluated : forall T numeral number, goodNumber (T := T) numeral number ->
  forall (n : nums T) cast show tagText offset hundredth t s size, writes numeral t s ->
  getValue n number cast tagText offset hundredth (Some s) size = evalDouble n cast tagText t /\
  getString number show tagText (Some s) = evalString show tagText t.
Proof.
  intros T numeral number G n cast show tagText offset hundredth t s size W.
  pose proof (parse_complete number numeral G t s W) as P. unfold getValue, getString. rewrite P. split; [|reflexivity].
  destruct (writes_last T numeral t s W) as (p & c & -> & C). rewrite rev_app_distr. cbn [rev app].
  assert (N.eqb c 109 = false /\ N.eqb c 37 = false) as [-> ->]; [|reflexivity].
  destruct C as [->|C]; [split; reflexivity|]. unfold isSpace in C. lia.
Qed.
Print Assumptions C54_evaluated.

(** Anything else is a number with a unit, a number or a text.  A value that is no expression is used
    as it is, broken expressions included. *)
Theorem C54_raw : forall T numeral number, goodNumber (T := T) numeral number ->
  forall (n : nums T) cast show tagText offset hundredth s size, s <> [] -> (forall t, ~ writes numeral t s) ->
  getString number show tagText (Some s) = Ok s /\
  getValue n number cast tagText offset hundredth (Some s) size =
    let metres p := match cast p with Some v => v | None => nzero n end in
    if N.eqb (last s 0%N) 109 then Ok (match offset with Some f => f (metres (removelast s)) | None => metres (removelast s) end)
    else if N.eqb (last s 0%N) 37 then Ok (nmul n (nmul n size (metres (removelast s))) hundredth)
    else Ok (metres s).
Proof.
  intros T numeral number G n cast show tagText offset hundredth s size Ne W.
  assert (P : parseEval number s = None).
  { destruct (parseEval number s) as [t|] eqn:E; [|reflexivity]. elim (W t). now apply (parse_sound number numeral G). }
  unfold getString, getValue. rewrite P. split; [reflexivity|].
  destruct (exists_last Ne) as (p & c & ->). rewrite rev_app_distr. cbn [rev app]. rewrite rev_involutive, last_last, removelast_last. reflexivity.
Qed.
Print Assumptions C54_raw.
Example C54_raw_case : getValue exactNums naturalNumber castNatural (fun _ => UB) None (1 # 100)%Q (Some [53; 48; 37]%N) 4%Q = Ok (200 # 100)%Q.
Proof. reflexivity. Qed.

(** Empty texts and letters beyond seven bits are not part of the language: eval("tag('a')+''") and
    eval("tag('höhe')") come out as texts instead. *)
Theorem C54_letters_refuted : forall show tagText,
  (let s := [101; 118; 97; 108; 40; 34; 116; 97; 103; 40; 39; 97; 39; 41; 43; 39; 39; 34; 41]%N in
   getString naturalNumber show tagText (Some s) = Ok s) /\
  (let s := [101; 118; 97; 108; 40; 34; 116; 97; 103; 40; 39; 104; 195; 182; 104; 101; 39; 41; 34; 41]%N in
   getString naturalNumber show tagText (Some s) = Ok s).
Proof. intros; split; reflexivity. Qed.
Print Assumptions C54_letters_refuted.

(** An empty value is undefined as a number. *)
Theorem C54_empty_refuted : forall T (n : nums T) number cast tagText offset hundredth size,
  getValue n number cast tagText offset hundredth (Some []) size = UB.
Proof. reflexivity. Qed.
Print Assumptions C54_empty_refuted.

(** A tag the element does not have is not an error: whatever the table holds for the id 2^32 - 1 is used. *)
Theorem C54_missing_refuted : forall T (n : nums T) cast tags text intern key s, ascending tags ->
  (forall v, ~ In (mkTag (intern key) v) tags) -> text noId = Ok s ->
  evalDouble n cast (fun k => getTagString text (intern k) tags) (mkTree (OTag key) []) =
  Ok (match cast s with Some v => v | None => nzero n end).
Proof.
  intros T n cast tags text intern key s A H E. unfold evalDouble. cbn [first rest operandDouble].
  destruct (C23_string tags A text (intern key)) as [_ M]. rewrite (M H), E. reflexivity.
Qed.
Print Assumptions C54_missing_refuted.
(** A tag it has is taken. *)
Theorem C54_tag : forall T (n : nums T) cast tags text intern key v s x, ascending tags ->
  In (mkTag (intern key) v) tags -> v <> noId -> text v = Ok s -> cast s = Some x ->
  evalDouble n cast (fun k => getTagString text (intern k) tags) (mkTree (OTag key) []) = Ok x.
Proof.
  intros T n cast tags text intern key v s x A H V E C. unfold evalDouble. cbn [first rest operandDouble].
  destruct (C23_string tags A text (intern key)) as [M _]. rewrite (M v H V), E. unfold omap, parseDouble. cbn [bind]. now rewrite C.
Qed.
Print Assumptions C54_tag.
Example C54_tag_case :
  evalDouble exactNums castNatural (fun k => getTagString (fun _ => Ok [55]%N) (nth 0 k 0%N) [mkTag 97 3; mkTag 98 4]%N) (mkTree (OTag [98]%N) []) = Ok 7%Q.
Proof. reflexivity. Qed.
