From Coq Require Import String.
From Verif Require Import Base Bytes BytesProofs StyleModel JsonModel Peg PegProofs MapCssModel MapCssSpec.
Local Open Scope list_scope.
Local Arguments str : simpl never.

(** ** The skipper *)
Lemma lit_prefix l s : (exists r, s = l ++ r /\ plit l s = Parsed tt r) \/ (plit l s = Fail /\ forall r, s <> l ++ r).
Proof.
  destruct (plit l s) as [| |u r] eqn:E.
  - right. split; [reflexivity|]. intros r ->. rewrite lit_ok in E. discriminate.
  - exfalso. exact (lit_no_expect _ _ E).
  - left. exists r. destruct u. split; [exact (lit_inv _ _ _ _ E)|reflexivity].
Qed.
Lemma isSpace_blank c : isSpace c = true <-> blank c.
Proof. unfold isSpace, blank. lia. Qed.
Lemma behind_some close s r : close <> [] -> behind close s = Some r ->
  exists body, s = body ++ close ++ r /\ endsFirst close body.
Proof.
  intros Hc. revert r. induction s as [|c s IH]; intros r; cbn [behind].
  - destruct (lit_prefix close []) as [(q & E & ->)|[-> _]]; [|discriminate].
    destruct close; [congruence|discriminate].
  - destruct (lit_prefix close (c :: s)) as [(q & E & ->)|[-> N]].
    + intros [= <-]. exists []. split; [exact E|]. intros a b H. cbn [app] in H.
      apply (f_equal (@List.length N)) in H. rewrite !app_length in H. destruct b; [reflexivity|cbn in H; lia].
    + intros H. destruct (IH _ H) as (body & -> & F). exists (c :: body). split; [reflexivity|].
      intros a b H'. destruct a as [|a0 a].
      * exfalso. apply (f_equal (fun x => x ++ r)) in H'. cbn [app] in H'. rewrite <- !app_assoc in H'. exact (N (b ++ r) H').
      * cbn [app] in H'. injection H' as _ H'. exact (F _ _ H').
Qed.
Lemma behind_ok close body r : close <> [] -> endsFirst close body -> behind close (body ++ close ++ r) = Some r.
Proof.
  intros Hc. induction body as [|c body IH]; intros F.
  - cbn [app]. destruct close as [|x close]; [congruence|]. cbn [app behind].
    change (x :: close ++ r) with ((x :: close) ++ r). now rewrite lit_ok.
  - cbn [app behind]. destruct (lit_prefix close (c :: body ++ close ++ r)) as [(q & E & ->)|[-> N]].
    + exfalso. change (c :: body ++ close ++ r) with ((c :: body) ++ close ++ r) in E. rewrite app_assoc in E.
      assert (L : exists b, (c :: body) ++ close = close ++ b /\ b <> []).
      { assert (H : List.length close < List.length ((c :: body) ++ close)) by (rewrite app_length; cbn; lia).
        exists (skipn (List.length close) ((c :: body) ++ close)). split.
        - transitivity (firstn (List.length close) ((c :: body) ++ close) ++ skipn (List.length close) ((c :: body) ++ close));
            [symmetry; apply firstn_skipn|]. f_equal.
          apply (f_equal (firstn (List.length close))) in E.
          rewrite firstn_app in E. replace (List.length close - List.length ((c :: body) ++ close)) with 0 in E by lia.
          rewrite firstn_O, app_nil_r in E. rewrite E, firstn_app, Nat.sub_diag, firstn_O, app_nil_r, firstn_all. reflexivity.
        - intros H0. apply (f_equal (@List.length _)) in H0. rewrite skipn_length in H0. cbn [List.length] in H0. lia. }
      destruct L as (b & L & Hb). apply Hb. exact (F [] b L).
    + apply IH. intros a b H. apply (F (c :: a) b). cbn [app]. now rewrite H.
Qed.
Lemma comment_some open close s r : close <> [] -> comment open close s = Some r ->
  exists body, s = open ++ body ++ close ++ r /\ endsFirst close body.
Proof.
  intros Hc. unfold comment. destruct (lit_prefix open s) as [(q & -> & ->)|[-> N]]; [|discriminate].
  intros H. destruct (behind_some _ _ _ Hc H) as (body & -> & F). eauto.
Qed.
Lemma comment_ok open close body r : close <> [] -> endsFirst close body ->
  comment open close (open ++ body ++ close ++ r) = Some r.
Proof. intros Hc F. unfold comment. rewrite lit_ok. now apply behind_ok. Qed.

Lemma skipOne_gap s r : skipOne s = Some r -> exists g, s = g ++ r /\ (1 <= List.length g)%nat /\ (forall g', gap g' -> gap (g ++ g')).
Proof.
  destruct s as [|c s]; [discriminate|]. cbn [skipOne]. destruct (isSpace c) eqn:E.
  - intros [= <-]. exists [c]. split; [reflexivity|]. split; [cbn; lia|]. intros g' G. cbn. constructor; [now apply isSpace_blank|exact G].
  - destruct (comment (str "/*") (str "*/") (c :: s)) as [q|] eqn:E1.
    + intros [= <-]. apply comment_some in E1 as (body & -> & F); [|discriminate].
      exists (str "/*" ++ body ++ str "*/"). rewrite !app_assoc. split; [reflexivity|].
      split; [rewrite !app_length; change (List.length (str "/*")) with 2; lia|].
      intros g' G. rewrite <- !app_assoc. now constructor.
    + intros E2. apply comment_some in E2 as (body & -> & F); [|discriminate].
      exists (str "<!--" ++ body ++ str "-->"). rewrite !app_assoc. split; [reflexivity|].
      split; [rewrite !app_length; change (List.length (str "<!--")) with 4; lia|].
      intros g' G. rewrite <- !app_assoc. now constructor.
Qed.
Lemma skipFuel_exists f s : exists g, gap g /\ s = g ++ skipFuel f s.
Proof.
  revert s. induction f as [|f IH]; intros s; cbn [skipFuel]; [exists []; split; [constructor|reflexivity]|].
  destruct (skipOne s) as [r|] eqn:E; [|exists []; split; [constructor|reflexivity]].
  destruct (skipOne_gap _ _ E) as (g & -> & _ & G). destruct (IH r) as (g' & G' & E'). exists (g ++ g').
  split; [now apply G|]. rewrite <- app_assoc. now rewrite <- E'.
Qed.
Lemma skipGap_exists s : exists g, gap g /\ s = g ++ skipGap s.
Proof. apply skipFuel_exists. Qed.
Lemma skipFuel_enough f f' s : (List.length s <= f)%nat -> (List.length s <= f')%nat -> skipFuel f s = skipFuel f' s.
Proof.
  revert f' s. induction f as [|f IH]; intros f' s H H'.
  - destruct s; [|cbn in H; lia]. destruct f'; reflexivity.
  - destruct f' as [|f']; [destruct s; [reflexivity|cbn in H'; lia]|]. cbn [skipFuel].
    destruct (skipOne s) as [r|] eqn:E; [|reflexivity]. destruct (skipOne_gap _ _ E) as (g & -> & L & _).
    rewrite app_length in H, H'. apply IH; lia.
Qed.
Lemma skipGap_one s r : skipOne s = Some r -> skipGap s = skipGap r.
Proof.
  intros E. destruct (skipOne_gap _ _ E) as (g & Es & L & _). unfold skipGap.
  rewrite (skipFuel_enough (List.length s) (S (List.length s)) s) by lia. cbn [skipFuel]. rewrite E.
  apply skipFuel_enough; [|lia]. rewrite Es, app_length. lia.
Qed.
Lemma skipGap_none s : skipOne s = None -> skipGap s = s.
Proof. intros E. unfold skipGap. destruct (List.length s); cbn [skipFuel]; [reflexivity|now rewrite E]. Qed.
Lemma skip_gap g s : gap g -> skipGap (g ++ s) = skipGap s.
Proof.
  induction 1 as [|c g B _ IH|body g F _ IH|body g F _ IH]; cbn [app]; [reflexivity| | |].
  - rewrite <- IH. apply skipGap_one. cbn [skipOne]. apply isSpace_blank in B. now rewrite B.
  - rewrite <- !app_assoc, <- IH. apply skipGap_one. change (skipOne (str "/*" ++ ?x)) with
      (match comment (str "/*") (str "*/") (str "/*" ++ x) with Some r => Some r | None => comment (str "<!--") (str "-->") (str "/*" ++ x) end).
    rewrite comment_ok; [reflexivity|discriminate|exact F].
  - rewrite <- !app_assoc, <- IH. apply skipGap_one. change (skipOne (str "<!--" ++ ?x)) with
      (comment (str "<!--") (str "-->") (str "<!--" ++ x)).
    rewrite comment_ok; [reflexivity|discriminate|exact F].
Qed.
Lemma skip_none s : ~ opens s -> skipGap s = s.
Proof.
  intros H. apply skipGap_none. destruct s as [|c s]; [reflexivity|]. cbn [skipOne].
  destruct (isSpace c) eqn:E; [exfalso; apply H; left; exists c, s; split; [reflexivity|now apply isSpace_blank]|].
  destruct (comment (str "/*") (str "*/") (c :: s)) as [q|] eqn:E1.
  { apply comment_some in E1 as (b & E1 & _); [|discriminate]. exfalso. apply H. right. left. eauto. }
  destruct (comment (str "<!--") (str "-->") (c :: s)) as [q|] eqn:E2; [|reflexivity].
  apply comment_some in E2 as (b & E2 & _); [|discriminate]. exfalso. apply H. right. right. eauto.
Qed.
Lemma skip_both g s : gap g -> ~ opens s -> skipGap (g ++ s) = s.
Proof. intros G O. rewrite skip_gap by exact G. now apply skip_none. Qed.

(** A character which does not begin a gap. *)
Definition plain (c : N) : bool := negb (isSpace c) && negb (N.eqb c 47) && negb (N.eqb c 60).
Lemma plain_opens c s : plain c = true -> ~ opens (c :: s).
Proof.
  unfold plain. intros H [(d & r & E & B)|[(r & E)|(r & E)]].
  - injection E as <- _. apply isSpace_blank in B. rewrite B in H. discriminate.
  - injection E as -> _. cbn in H. discriminate.
  - injection E as -> _. cbn in H. discriminate.
Qed.
Definition plainLit (l : bytes) : Prop := match l with [] => False | c :: _ => plain c = true end.
Lemma plainLit_opens l s : plainLit l -> ~ opens (l ++ s).
Proof. destruct l as [|c l]; [contradiction|]. intros H. now apply plain_opens. Qed.

(** ** Literals *)
Lemma tok_ok g l s : gap g -> plainLit l -> tok l (g ++ l ++ s) = Parsed tt s.
Proof. intros G P. unfold tok, pskip. rewrite skip_both; [apply lit_ok|exact G|now apply plainLit_opens]. Qed.
Lemma tok_inv l s u r : tok l s = Parsed u r -> exists g, gap g /\ s = g ++ l ++ r.
Proof.
  unfold tok, pskip. intros H. apply lit_inv in H. destruct (skipGap_exists s) as (g & G & E). exists g. split; [exact G|].
  now rewrite E, H at 1.
Qed.
Lemma tok_no_expect l s : tok l s <> Unexpected.
Proof. apply lit_no_expect. Qed.

(** The first character behind a gap; 0 stands for the end, too. *)
Definition next (c : N) (s : bytes) : Prop := hd 0%N (skipGap s) = c.
Lemma next_gap g c s : gap g -> plain c = true -> next c (g ++ c :: s).
Proof. intros G P. unfold next. rewrite skip_both; [reflexivity|exact G|now apply plain_opens]. Qed.
Lemma next_lit g l s : gap g -> plainLit l -> next (hd 0%N l) (g ++ l ++ s).
Proof. intros G P. destruct l as [|c l]; [contradiction|]. cbn [app hd]. now apply next_gap. Qed.
Lemma tok_no c l s : next c s -> hd c l <> c -> tok l s = Fail.
Proof.
  intros E H. unfold tok, pskip. destruct l as [|d l]; [cbn in H; congruence|]. unfold next in E. destruct (skipGap s) as [|e r]; [reflexivity|].
  cbn [plit hd] in *. destruct (N.eqb_spec d e); [congruence|reflexivity].
Qed.

(** ** Words *)
Definition follows (w t : bytes) : Prop :=
  match t with [] => True | c :: _ => c <> 42%N /\ c <> 45%N /\ (c = 33%N -> ~ In 60%N w) end.
Lemma opens_app w t : w <> [] -> ~ opens w -> follows w t -> ~ opens (w ++ t).
Proof.
  intros W H F [(c & r & E & B)|[(r & E)|(r & E)]].
  - destruct w as [|d w]; [congruence|]. cbn in E. injection E as -> _. apply H. left. eauto.
  - destruct w as [|d w]; [congruence|]. cbn in E. injection E as -> E.
    destruct w as [|d w].
    + cbn in E. subst t. cbn in F. lia.
    + cbn in E. injection E as -> E. apply H. right. left. exists w. reflexivity.
  - destruct w as [|a w]; [congruence|]. cbn in E. injection E as -> E.
    destruct w as [|b w]; [cbn in E; subst t; destruct F as (_ & _ & F); apply F; [reflexivity|now left]|].
    cbn in E. injection E as -> E.
    destruct w as [|c w]; [cbn in E; subst t; cbn in F; lia|]. cbn in E. injection E as -> E.
    destruct w as [|d w]; [cbn in E; subst t; cbn in F; lia|]. cbn in E. injection E as -> E.
    apply H. right. right. exists w. reflexivity.
Qed.
Lemma skip_word bad g w t : gap g -> cleanWord bad w -> follows w t -> skipGap (g ++ w ++ t) = w ++ t.
Proof. intros G (W & _ & O) F. apply skip_both; [exact G|now apply opens_app]. Qed.

Section Repeats.
  Context {A : Type} (T : A -> bytes -> Prop) (p : parser A).
  Hypothesis T_some : forall a t, T a t -> t <> [].

  Lemma many_length l u : manyText T l u -> (List.length l <= List.length u)%nat.
  Proof.
    induction 1 as [|g a t l u _ Ht _ IH]; [cbn; lia|]. apply T_some in Ht. rewrite !app_length. destruct t; [congruence|].
    cbn [List.length]. lia.
  Qed.
  Lemma many_ok l u s : (forall g a t s, gap g -> T a t -> p (g ++ t ++ s) = Parsed a s) ->
    manyText T l u -> p s = Fail -> pmany p (u ++ s) = Parsed l s.
  Proof.
    intros H M F. unfold pmany. pose proof (many_length l u M) as L.
    assert (L' : (List.length l < S (List.length (u ++ s)))%nat) by (rewrite app_length; lia).
    generalize dependent (S (List.length (u ++ s))). clear L. induction M as [|g a t l u G Ht _ IH]; intros f L.
    - destruct f as [|f]; [lia|]. cbn [pmanyFuel app]. now rewrite F.
    - cbn [List.length] in L. destruct f as [|f]; [lia|]. cbn [pmanyFuel]. rewrite <- !app_assoc, (H g a t) by assumption.
      rewrite IH by lia. reflexivity.
  Qed.
  Lemma many_bad l u s : (forall g a t s, gap g -> T a t -> p (g ++ t ++ s) = Parsed a s) ->
    manyText T l u -> p s = Unexpected -> pmany p (u ++ s) = Unexpected.
  Proof.
    intros H M F. unfold pmany. pose proof (many_length l u M) as L.
    assert (L' : (List.length l < S (List.length (u ++ s)))%nat) by (rewrite app_length; lia).
    generalize dependent (S (List.length (u ++ s))). clear L. induction M as [|g a t l u G Ht _ IH]; intros f L.
    - destruct f as [|f]; [lia|]. cbn [pmanyFuel app]. now rewrite F.
    - cbn [List.length] in L. destruct f as [|f]; [lia|]. cbn [pmanyFuel]. rewrite <- !app_assoc, (H g a t) by assumption.
      rewrite IH by lia. reflexivity.
  Qed.
  Lemma many1_bad l u s : (forall g a t s, gap g -> T a t -> p (g ++ t ++ s) = Parsed a s) ->
    manyText T l u -> p s = Unexpected -> pmany1 p (u ++ s) = Unexpected.
  Proof.
    intros H M F. destruct M as [|g a t l u G Ht M].
    - unfold pmany1, pbind. cbn [app]. now rewrite F.
    - unfold pmany1. rewrite <- !app_assoc. rewrite (bind_ok _ _ _ a (u ++ s)) by (apply H; assumption).
      unfold pbind at 1. erewrite many_bad; try eassumption. reflexivity.
  Qed.
  Lemma many1_ok l u s : (forall g a t s, gap g -> T a t -> p (g ++ t ++ s) = Parsed a s) ->
    l <> [] -> manyText T l u -> p s = Fail -> pmany1 p (u ++ s) = Parsed l s.
  Proof.
    intros H L M F. destruct M as [|g a t l u G Ht M]; [congruence|]. unfold pmany1. rewrite <- !app_assoc.
    rewrite (bind_ok _ _ _ a (u ++ s)) by (apply H; assumption). erewrite bind_ok by (apply many_ok; eassumption). reflexivity.
  Qed.
  Lemma sep_length l u : sepText T l u -> (List.length l <= List.length u)%nat.
  Proof.
    induction 1 as [a t Ht|a t g1 g2 l u Ht _ _ _ IH]; apply T_some in Ht; (destruct t; [congruence|]); cbn [List.length app]; [lia|].
    rewrite !app_length. lia.
  Qed.
  (** [F] is what may follow an item. *)
  Lemma list_ok (F : bytes -> Prop) g l u s : (forall g a t s, gap g -> T a t -> F s -> p (g ++ t ++ s) = Parsed a s) ->
    (forall g s, gap g -> F (g ++ str "," ++ s)) ->
    gap g -> sepText T l u -> F s -> tok (str ",") s = Fail -> plist p (tok (str ",")) (g ++ u ++ s) = Parsed l s.
  Proof.
    intros H HF G M Fs Ft. unfold plist. set (item := pbind (tok (str ",")) (fun _ => p)).
    assert (Many : forall l u, sepText T l u -> forall f g1 g2, gap g1 -> gap g2 -> (List.length l < f)%nat ->
              pmanyFuel f item (g1 ++ str "," ++ g2 ++ u ++ s) = Parsed l s).
    { clear g l u G M. intros l u M. induction M as [a t Ht|a t h1 h2 l u Ht H1 H2 _ IH]; intros f g1 g2 G1 G2 L.
      - cbn [List.length] in L. destruct f as [|f]; [lia|]. cbn [pmanyFuel]. unfold item at 1.
        erewrite bind_ok by (apply tok_ok; [exact G1|reflexivity]). rewrite (H g2 a t) by assumption.
        destruct f as [|f]; [lia|]. cbn [pmanyFuel]. unfold item. rewrite bind_no by exact Ft. reflexivity.
      - cbn [List.length] in L. destruct f as [|f]; [lia|]. cbn [pmanyFuel]. unfold item at 1.
        erewrite bind_ok by (apply tok_ok; [exact G1|reflexivity]). rewrite <- !app_assoc.
        rewrite (H g2 a t) by (try assumption; apply HF; assumption). rewrite IH by (try assumption; lia). reflexivity. }
    destruct M as [a t Ht|a t h1 h2 l u Ht H1 H2 M].
    - rewrite (bind_ok _ _ _ a s) by (apply H; assumption). unfold pmany. cbn [pmanyFuel]. unfold item at 1. unfold pbind at 1. cbn [pmanyFuel].
      unfold item. rewrite bind_no by exact Ft. reflexivity.
    - rewrite <- !app_assoc. rewrite (bind_ok _ _ _ a (h1 ++ str "," ++ h2 ++ u ++ s)) by (apply H; try assumption; apply HF; assumption).
      erewrite bind_ok; [reflexivity|]. unfold pmany. apply Many; try assumption. apply sep_length in M. rewrite !app_length.
      change (List.length (str ",")) with 1. lia.
  Qed.

  Hypothesis p_inv : forall s a r, p s = Parsed a r -> exists g t, gap g /\ T a t /\ s = g ++ t ++ r.
  Lemma many_inv s l r : pmany p s = Parsed l r -> exists u, manyText T l u /\ s = u ++ r.
  Proof.
    unfold pmany. generalize (S (List.length s)). intros f. revert s l. induction f as [|f IH]; intros s l; cbn [pmanyFuel].
    - intros [= <- <-]. exists []. split; [constructor|reflexivity].
    - destruct (p s) as [| |a q] eqn:E; try discriminate.
      + intros [= <- <-]. exists []. split; [constructor|reflexivity].
      + destruct (pmanyFuel f p q) as [| |l' q'] eqn:E'; try discriminate. intros [= <- <-].
        destruct (p_inv _ _ _ E) as (g & t & G & Ht & ->). destruct (IH _ _ E') as (u & M & ->).
        exists (g ++ t ++ u). split; [now constructor|now rewrite <- !app_assoc].
  Qed.
  Lemma many1_inv s l r : pmany1 p s = Parsed l r -> exists u, manyText T l u /\ s = u ++ r /\ l <> [].
  Proof.
    unfold pmany1. intros H. apply bind_inv in H as (a & q & E & H). apply bind_inv in H as (l' & q' & E' & H).
    injection H as <- <-. destruct (p_inv _ _ _ E) as (g & t & G & Ht & ->). apply many_inv in E' as (u & M & ->).
    exists (g ++ t ++ u). split; [now constructor|]. split; [now rewrite <- !app_assoc|discriminate].
  Qed.
  Lemma list_inv s l r : plist p (tok (str ",")) s = Parsed l r -> exists g u, gap g /\ sepText T l u /\ s = g ++ u ++ r.
  Proof.
    unfold plist. intros H. apply bind_inv in H as (a & q & E & H). apply bind_inv in H as (l' & q' & E' & H).
    injection H as <- <-. destruct (p_inv _ _ _ E) as (g & t & G & Ht & ->).
    assert (M : forall f q l' q', pmanyFuel f (pbind (tok (str ",")) (fun _ => p)) q = Parsed l' q' ->
              forall a t, T a t -> exists u, sepText T (a :: l') u /\ t ++ q = u ++ q').
    { clear -p_inv. induction f as [|f IH]; intros q l' q'; cbn [pmanyFuel].
      - intros [= <- <-] a t Ht. exists t. split; [now constructor|reflexivity].
      - destruct (pbind _ _ q) as [| |a' q1] eqn:E; try discriminate.
        + intros [= <- <-] a t Ht. exists t. split; [now constructor|reflexivity].
        + destruct (pmanyFuel f _ q1) as [| |l1 q2] eqn:E1; try discriminate. intros [= <- <-] a t Ht.
          apply bind_inv in E as (x & q3 & Ec & Ep). apply tok_inv in Ec as (g1 & G1 & ->).
          destruct (p_inv _ _ _ Ep) as (g2 & t2 & G2 & Ht2 & ->). destruct (IH _ _ _ E1 _ _ Ht2) as (u & M & E2).
          exists (t ++ g1 ++ str "," ++ g2 ++ u). split; [now constructor|]. rewrite <- !app_assoc. now rewrite E2. }
    destruct (M _ _ _ _ E' _ _ Ht) as (u & S & E2). exists g, u. split; [exact G|]. split; [exact S|]. now rewrite E2.
  Qed.
End Repeats.

(** ** Conditions *)
Lemma keyChar_good c s : (c < 128)%N -> ~ In c keyBad -> keyChar (c :: s) = true.
Proof.
  intros A B. cbn [keyChar]. unfold keyBad in B. cbn [In] in B.
  assert (E : binaryRaw (c :: s) = Fail).
  { unfold binaryRaw, por, pbind. cbn [plit sEq sNe sGt sLt].
    destruct (N.eqb_spec 61 c); [exfalso; lia|]. destruct (N.eqb_spec 33 c); [exfalso; lia|].
    destruct (N.eqb_spec 62 c); [exfalso; lia|]. destruct (N.eqb_spec 60 c); [exfalso; lia|]. reflexivity. }
  rewrite E. unfold isAscii. apply N.ltb_lt in A. rewrite A. destruct (N.eqb_spec c 93); [exfalso; lia|]. reflexivity.
Qed.
Lemma keySpan_ok w t : Forall (fun c => (c < 128)%N /\ ~ In c keyBad) w -> keyChar t = false -> keySpan (w ++ t) = (w, t).
Proof.
  intros H K. induction H as [|c w [A B] _ IH]; cbn [app].
  - destruct t as [|c t]; [reflexivity|]. cbn [keySpan]. now rewrite K.
  - cbn [keySpan]. rewrite keyChar_good by assumption. now rewrite IH.
Qed.
Lemma binary_ok o s : operator o -> binaryRaw (o ++ s) = Parsed o s.
Proof. intros [<-|[<-|[<-|[<-|[]]]]]; reflexivity. Qed.
Lemma keyChar_op o s : operator o -> keyChar (o ++ s) = false.
Proof. intros [<-|[<-|[<-|[<-|[]]]]]; reflexivity. Qed.
Lemma keyBad_follows k t : cleanWord keyBad k -> (forall c r, t = c :: r -> c <> 42%N /\ c <> 45%N) -> follows k t.
Proof.
  intros (_ & F & _) H. destruct t as [|c t]; [exact I|]. destruct (H c t eq_refl) as [A B]. repeat split; auto.
  intros _ I. rewrite Forall_forall in F. destruct (F _ I) as [_ N]. apply N. cbn. tauto.
Qed.
Lemma keyValue_ok g k t : gap g -> cleanWord keyBad k -> (forall c r, t = c :: r -> c <> 42%N /\ c <> 45%N) ->
  keyChar t = false -> pkeyValue (g ++ k ++ t) = Parsed k t.
Proof.
  intros G K F C. unfold pkeyValue, pskip. rewrite (skip_word keyBad) by (try assumption; now apply keyBad_follows).
  destruct K as (W & A & _). rewrite keySpan_ok by assumption. destruct k; congruence.
Qed.
Lemma operator_follow o (s : bytes) : operator o -> forall c r, o ++ s = c :: r -> c <> 42%N /\ c <> 45%N.
Proof. intros [<-|[<-|[<-|[<-|[]]]]] c r [= <- _]; split; discriminate. Qed.
Lemma condition_ok g c t s : gap g -> cleanCond c t -> pcondition (g ++ t ++ s) = Parsed c s.
Proof.
  intros G H. unfold pcondition. destruct H as [g' k G' K|g' k o g2 v G' K O G2 V]; rewrite <- !app_assoc.
  - erewrite bind_ok by (apply tok_ok; [exact G|reflexivity]).
    erewrite bind_ok by (apply expect_ok, keyValue_ok; [exact G'|exact K| |reflexivity]; intros c r [= <- _]; split; discriminate).
    erewrite bind_ok by (apply option_no; unfold pbinary, pskip; rewrite skip_none by (apply plain_opens; reflexivity); reflexivity).
    erewrite bind_ok by (apply option_no; unfold pkeyValue, pskip; rewrite skip_none by (apply plain_opens; reflexivity); reflexivity).
    erewrite bind_ok by (apply expect_ok; apply (tok_ok [] (str "]") s); [constructor|reflexivity]). reflexivity.
  - erewrite bind_ok by (apply tok_ok; [exact G|reflexivity]).
    erewrite bind_ok by (apply expect_ok, keyValue_ok; [exact G'|exact K|now apply operator_follow|now apply keyChar_op]).
    assert (S : skipGap (o ++ g2 ++ v ++ str "]" ++ s) = o ++ g2 ++ v ++ str "]" ++ s).
    { destruct O as [<-|[<-|[<-|[<-|[]]]]]; try (apply skip_none, plain_opens; reflexivity).
      apply skip_none. intros [(c & r & E & B)|[(r & E)|(r & E)]].
      - injection E as <- _. unfold blank in B. lia.
      - discriminate E.
      - cbn in E. injection E as E. destruct G2 as [|c g2 B _|b g2 _ _|b g2 _ _].
        + cbn [app] in E. destruct V as (W & F & _). destruct v as [|x v]; [congruence|]. cbn in E. injection E as -> _.
          inversion F as [|? ? [_ N] _]; subst. apply N. cbn. tauto.
        + cbn in E. injection E as -> _. unfold blank in B. lia.
        + discriminate E.
        + discriminate E. }
    erewrite bind_ok by (apply option_ok; unfold pbinary, pskip; rewrite S; now apply binary_ok).
    erewrite bind_ok by (apply option_ok; apply keyValue_ok; [exact G2|exact V| |reflexivity]; intros c r [= <- _]; split; discriminate).
    erewrite bind_ok by (apply expect_ok; apply (tok_ok [] (str "]") s); [constructor|reflexivity]). reflexivity.
Qed.

(** ** Levels *)
Lemma digitsFrom_app ds es acc : digitsFrom acc (ds ++ es) = digitsFrom (digitsFrom acc ds) es.
Proof. revert acc. induction ds as [|d ds IH]; intros acc; cbn [app digitsFrom]; [reflexivity|apply IH]. Qed.
Lemma decimal_facts ds v : decimal ds v ->
  ds <> [] /\ Forall (fun c => isDigit c = true) ds /\ digitsFrom 0 ds = v /\ (0 <= v)%Z.
Proof.
  induction 1 as [d D|ds v d _ (W & F & E & P) D].
  - split; [discriminate|]. split; [constructor; [unfold isDigit; lia|constructor]|]. cbn [digitsFrom]. lia.
  - split; [destruct ds; discriminate|]. split; [apply Forall_app; split; [exact F|constructor; [unfold isDigit; lia|constructor]]|].
    rewrite digitsFrom_app, E. cbn [digitsFrom]. lia.
Qed.
Lemma decimal_all ds : ds <> [] -> Forall (fun c => isDigit c = true) ds -> decimal ds (digitsFrom 0 ds).
Proof.
  induction ds as [|d ds IH] using rev_ind; [congruence|]. intros _ F. apply Forall_app in F as [F D]. inversion D as [|? ? D' _]; subst.
  assert (X : exists e, d = (48 + e)%N /\ (e <= 9)%N) by (exists (d - 48)%N; unfold isDigit in D'; lia).
  destruct X as (e & -> & L). rewrite digitsFrom_app. cbn [digitsFrom].
  destruct ds as [|x ds].
  - cbn [app digitsFrom]. replace (0 * 10 + (Z.of_N (48 + e) - 48))%Z with (Z.of_N e) by lia. now constructor.
  - replace (digitsFrom 0 (x :: ds) * 10 + (Z.of_N (48 + e) - 48))%Z with (10 * digitsFrom 0 (x :: ds) + Z.of_N e)%Z by lia.
    constructor; [apply IH; [discriminate|exact F]|exact L].
Qed.
Definition noDigit (t : bytes) : Prop := match t with [] => True | c :: _ => isDigit c = false end.
Lemma int_ok ds v t : decimal ds v -> (v < 2 ^ 31)%Z -> noDigit t -> intRaw (ds ++ t) = Parsed v t.
Proof.
  intros D L N. destruct (decimal_facts _ _ D) as (W & F & E & P). unfold intRaw.
  destruct ds as [|c ds]; [congruence|]. cbn [app]. pose proof (Forall_inv F) as C. cbn beta in C.
  destruct (N.eqb_spec c 45) as [->|_]; [discriminate|]. destruct (N.eqb_spec c 43) as [->|_]; [discriminate|].
  change (c :: ds ++ t) with ((c :: ds) ++ t). rewrite span_all by assumption. rewrite E.
  replace ((- 2 ^ 31 <=? v) && (v <? 2 ^ 31))%Z with true by lia. reflexivity.
Qed.
(** What may follow a level. *)
Definition afterZoom (s : bytes) : Prop := exists c, next c s /\ isDigit c = false /\ c <> 43%N /\ c <> 45%N.
Lemma digit_plain c : isDigit c = true -> plain c = true.
Proof. unfold isDigit, plain, isSpace. lia. Qed.
Lemma next_noDigit c s : next c s -> isDigit c = false -> noDigit s.
Proof.
  intros E D. destruct s as [|d s]; [exact I|]. cbn. destruct (isDigit d) eqn:X; [|reflexivity]. unfold next in E.
  rewrite skip_none in E by now apply plain_opens, digit_plain. cbn in E. congruence.
Qed.
Lemma int_no s : afterZoom s -> pskip skipGap intRaw s = Fail.
Proof.
  intros (c & E & D & A & B). unfold pskip. unfold next in E. destruct (skipGap s) as [|e r]; [reflexivity|]. cbn [hd] in E. subst e. unfold intRaw.
  destruct (N.eqb_spec c 45); [congruence|]. destruct (N.eqb_spec c 43); [congruence|]. cbn [spanOf]. now rewrite D.
Qed.
Lemma decimal_plain ds v t : decimal ds v -> ~ opens (ds ++ t).
Proof.
  intros D. destruct (decimal_facts _ _ D) as (W & F & _). destruct ds as [|c ds]; [congruence|]. cbn.
  apply plain_opens, digit_plain. exact (Forall_inv F).
Qed.
Lemma level_id a : (a <= 255)%N -> toLevel (Z.of_N a) = a.
Proof. intros L. unfold toLevel. rewrite Z.mod_small by lia. apply N2Z.id. Qed.
Lemma zoom_ok g z t s : gap g -> cleanZoom z t -> afterZoom s -> pzoom (g ++ t ++ s) = Parsed z s.
Proof.
  intros G H A. unfold pzoom. pose proof A as (c & C & Dc & Pc & Mc).
  destruct H as [g1 ds a G1 D L|g1 ds a g2 g3 es b G1 D L G2 G3 E M]; rewrite <- !app_assoc.
  - erewrite bind_ok by (apply tok_ok; [exact G|reflexivity]).
    erewrite bind_ok by (apply expect_ok; unfold pskip; rewrite skip_both by (try exact G1; now apply (decimal_plain ds (Z.of_N a)));
      apply int_ok; [exact D|lia|now apply (next_noDigit c)]).
    erewrite bind_ok by (apply option_no, (tok_no c); [exact C|change (45%N <> c); congruence]).
    erewrite bind_ok by (apply option_no, int_no, A). unfold preturn. now rewrite level_id.
  - erewrite bind_ok by (apply tok_ok; [exact G|reflexivity]).
    erewrite bind_ok by (apply expect_ok; unfold pskip; rewrite skip_both by (try exact G1; now apply (decimal_plain ds (Z.of_N a)));
      apply int_ok; [exact D|lia|apply (next_noDigit 45); [apply (next_lit g2 (str "-")); [exact G2|reflexivity]|reflexivity]]).
    erewrite bind_ok by (apply option_ok, tok_ok; [exact G2|reflexivity]).
    erewrite bind_ok by (apply option_ok; unfold pskip; rewrite skip_both by (try exact G3; now apply (decimal_plain es (Z.of_N b)));
      apply int_ok; [exact E|lia|now apply (next_noDigit c)]).
    unfold preturn. now rewrite !level_id.
Qed.

(** ** Selectors *)
Lemma word_ok g w s : gap g -> plainLit w -> word w (g ++ w ++ s) = Parsed w s.
Proof. intros G P. unfold word. erewrite bind_ok by (apply tok_ok; assumption). reflexivity. Qed.
Lemma word_no c w s : next c s -> hd c w <> c -> word w s = Fail.
Proof. intros N H. unfold word. apply bind_no. now apply (tok_no c). Qed.
Lemma same_ok w : plainLit w -> forall g n t s, gap g -> same w n t -> word w (g ++ t ++ s) = Parsed n s.
Proof. intros P g n t s G [-> ->]. now apply word_ok. Qed.
Lemma name_ok g n t s : gap g -> nameText n t -> pname (g ++ t ++ s) = Parsed n s.
Proof.
  intros G [<- H]. unfold pname.
  destruct H as [<-|[<-|[<-|[<-|[]]]]].
  - apply or_ok. now apply word_ok.
  - rewrite or_no by (apply (word_no 119); [now apply (next_lit g sWay)|discriminate]). apply or_ok. now apply word_ok.
  - rewrite or_no by (apply (word_no 97); [now apply (next_lit g sArea)|discriminate]).
    rewrite or_no by (apply (word_no 97); [now apply (next_lit g sArea)|discriminate]). apply or_ok. now apply word_ok.
  - rewrite or_no by (apply (word_no 114); [now apply (next_lit g sRelation)|discriminate]).
    rewrite or_no by (apply (word_no 114); [now apply (next_lit g sRelation)|discriminate]).
    rewrite or_no by (apply (word_no 114); [now apply (next_lit g sRelation)|discriminate]). now apply word_ok.
Qed.
Lemma nameText_some n t : nameText n t -> t <> [].
Proof. intros [<- [<-|[<-|[<-|[<-|[]]]]]]; discriminate. Qed.
Lemma name_no c s : next c s -> ~ In c [110; 119; 97; 114]%N -> pname s = Fail.
Proof.
  intros N H. cbn [In] in H. unfold pname. rewrite !or_no; try (apply (word_no c); [exact N|]).
  - change (114%N <> c). lia.
  - change (97%N <> c). lia.
  - change (119%N <> c). lia.
  - change (110%N <> c). lia.
Qed.
Lemma many1_no {A} (p : parser A) s : p s = Fail -> pmany1 p s = Fail.
Proof. intros H. unfold pmany1. now rewrite bind_no. Qed.
Lemma named_no s : pname s = Fail -> pnamed s = Fail.
Proof. intros H. unfold pnamed, plist. rewrite !bind_no; [reflexivity|]. now rewrite bind_no. Qed.
Lemma cleanCond_next c t : cleanCond c t -> exists r, t = str "[" ++ r.
Proof. destruct 1; eexists; reflexivity. Qed.
Lemma cond_no s c : next c s -> c <> 91%N -> pcondition s = Fail.
Proof. intros N H. unfold pcondition. apply bind_no. apply (tok_no c); [exact N|]. change (91%N <> c). congruence. Qed.
(** What follows a selector. *)
Definition afterSel (s : bytes) : Prop := exists c, next c s /\ isDigit c = false /\ c <> 43%N /\ c <> 45%N /\ c <> 91%N.
Lemma afterSel_zoom s : afterSel s -> afterZoom s.
Proof. intros (c & H & A & B & C & D). exists c. auto. Qed.
Lemma afterSel_cond s : afterSel s -> pcondition s = Fail.
Proof. intros (c & H & A & B & C & D). now apply (cond_no _ c). Qed.
Lemma afterSel_lit g l s : gap g -> plainLit l -> isDigit (hd 0%N l) = false -> ~ In (hd 0%N l) [43; 45; 91]%N -> afterSel (g ++ l ++ s).
Proof. intros G P A B. exists (hd 0%N l). split; [now apply next_lit|]. cbn [In] in B. split; [exact A|]. repeat split; intros X; apply B; auto. Qed.
Lemma cond_afterZoom g c t s : gap g -> cleanCond c t -> afterZoom (g ++ t ++ s).
Proof.
  intros G H. apply cleanCond_next in H as (r & ->). rewrite <- app_assoc. exists 91%N.
  split; [now apply (next_lit g (str "["))|]. repeat split; discriminate.
Qed.
Lemma cleanZoom_next z t : cleanZoom z t -> exists r, t = str "|z" ++ r.
Proof. destruct 1; eexists; reflexivity. Qed.
Lemma zoom_next g z t s : gap g -> cleanZoom z t -> next 124%N (g ++ t ++ s).
Proof. intros G H. apply cleanZoom_next in H as (r & ->). rewrite <- app_assoc. now apply (next_lit g (str "|z")). Qed.
Lemma cleanCond_some c t : cleanCond c t -> t <> [].
Proof. intros H. apply cleanCond_next in H as (r & ->). discriminate. Qed.
Lemma same_some w n t : w <> [] -> same w n t -> t <> [].
Proof. intros W [_ ->]. exact W. Qed.
Lemma heads_ok w g ns nt g1 z zt s : plainLit w -> hd 124%N w <> 124%N -> gap g -> manyText (same w) ns nt -> gap g1 -> cleanZoom z zt ->
  pmany1 (word w) (g ++ w ++ nt ++ g1 ++ zt ++ s) = Parsed (w :: ns) (g1 ++ zt ++ s).
Proof.
  intros P H G M G1 Z. unfold pmany1. erewrite bind_ok by (apply word_ok; assumption).
  erewrite bind_ok by (apply (many_ok (same w)); [intros n t; apply same_some; destruct w; [contradiction|discriminate]
    |now apply same_ok|exact M|apply (word_no 124); [now apply (zoom_next g1 z)|exact H]]). reflexivity.
Qed.
Lemma selector_ok g sel t s : gap g -> selText cleanCond cleanZoom sel t -> afterSel s -> pselector (g ++ t ++ s) = Parsed sel s.
Proof.
  intros G H F. unfold pselector. destruct H as [ns nt g1 z zt cs ct N G1 Z C M|ns t nt g1 z zt M G1 Z ->|ns t nt g1 z zt g2 c ct M G1 Z G2 C ->].
  - apply or_ok. unfold pnamed. rewrite <- !app_assoc.
    erewrite bind_ok by (apply (list_ok nameText pname nameText_some (fun _ => True)); [intros; now apply name_ok|auto|exact G|exact N|exact I|
      apply (tok_no 124); [now apply (zoom_next g1 z)|discriminate]]).
    assert (Z' : afterZoom (ct ++ s)).
    { destruct M as [|g2 c t l u G2 Ht _]; [congruence|]. rewrite <- !app_assoc. now apply (cond_afterZoom g2 c). }
    erewrite bind_ok by (apply zoom_ok; [exact G1|exact Z|exact Z']).
    erewrite bind_ok by (apply (many1_ok cleanCond pcondition cleanCond_some); [intros; now apply condition_ok|exact C|exact M|now apply afterSel_cond]).
    reflexivity.
  - rewrite <- !app_assoc.
    rewrite or_no by (apply named_no, (name_no 99); [now apply (next_lit g sCanvas)|cbn; lia]).
    apply or_ok. unfold pcanvas. erewrite bind_ok by (apply (heads_ok sCanvas g ns nt g1 z zt s); [reflexivity|discriminate|exact G|exact M|exact G1|exact Z]).
    erewrite bind_ok by (apply expect_ok, zoom_ok; [exact G1|exact Z|now apply afterSel_zoom]). reflexivity.
  - rewrite <- !app_assoc.
    rewrite or_no by (apply named_no, (name_no 101); [now apply (next_lit g sElement)|cbn; lia]).
    rewrite or_no by (unfold pcanvas; apply bind_no, many1_no, (word_no 101); [now apply (next_lit g sElement)|discriminate]).
    unfold pelement. erewrite bind_ok by (apply (heads_ok sElement g ns nt g1 z zt (g2 ++ ct ++ s)); [reflexivity|discriminate|exact G|exact M|exact G1|exact Z]).
    erewrite bind_ok by (apply expect_ok, zoom_ok; [exact G1|exact Z|now apply (cond_afterZoom g2 c)]).
    erewrite bind_ok by (apply expect_ok, condition_ok; [exact G2|exact C]). reflexivity.
Qed.
Lemma selText_some condT zoomT sel t : selText condT zoomT sel t -> t <> [].
Proof.
  destruct 1 as [ns nt g1 z zt cs ct N G1 Z C M|ns t nt g1 z zt M G1 Z ->|ns t nt g1 z zt g2 c ct M G1 Z G2 C ->]; try discriminate.
  destruct N as [a t H|a t h1 h2 l u H _ _ _]; apply nameText_some in H; destruct t; congruence || discriminate.
Qed.

(** ** Declarations and rules *)
Lemma clean_good (f : N -> bool) bad w : (forall c, (c < 128)%N -> ~ In c bad -> f c = true) -> cleanWord bad w ->
  w <> [] /\ Forall (fun c => f c = true) w.
Proof. intros H (W & F & _). split; [exact W|]. eapply Forall_impl; [|exact F]. intros c [A B]. now apply H. Qed.
Lemma chars_clean (f : N -> bool) bad g w t : (forall c, (c < 128)%N -> ~ In c bad -> f c = true) -> gap g -> cleanWord bad w ->
  match t with [] => True | c :: _ => f c = false /\ c <> 42%N /\ c <> 45%N /\ c <> 33%N end ->
  pskip skipGap (pchars1 f) (g ++ w ++ t) = Parsed w t.
Proof.
  intros H G C T. unfold pskip. rewrite (skip_word bad); [|exact G|exact C|].
  - destruct (clean_good f bad w H C) as [W F]. apply chars_ok; [exact W|exact F|]. destruct t; tauto.
  - destruct t as [|c t]; [exact I|]. cbn. destruct T as (_ & A & B & D). repeat split; try assumption. intros ->. congruence.
Qed.
Lemma inKey_good c : (c < 128)%N -> ~ In c [58; 125]%N -> inKey c = true.
Proof. intros A B. cbn [In] in B. unfold inKey, isAscii. lia. Qed.
Lemma inValue_good c : (c < 128)%N -> ~ In c [59]%N -> inValue c = true.
Proof. intros A B. cbn [In] in B. unfold inValue, isAscii. lia. Qed.
Lemma inUrl_good c : (c < 128)%N -> ~ In c [34]%N -> inUrl c = true.
Proof. intros A B. cbn [In] in B. unfold inUrl, isAscii. lia. Qed.
Lemma declaration_ok g d t s : gap g -> cleanDecl d t -> pdeclaration (g ++ t ++ s) = Parsed d s.
Proof.
  intros G (g1 & G1 & K & V & ->). unfold pdeclaration. rewrite <- !app_assoc.
  erewrite bind_ok by (apply (chars_clean inKey _ g _ _ inKey_good G K); repeat split; discriminate).
  erewrite bind_ok by (apply (tok_ok [] (str ":")); [constructor|reflexivity]).
  erewrite bind_ok by (apply expect_ok, (chars_clean inValue _ g1 _ _ inValue_good G1 V); repeat split; discriminate).
  erewrite bind_ok by (apply expect_ok; apply (tok_ok [] (str ";") s); [constructor|reflexivity]). destruct d; reflexivity.
Qed.
Lemma cleanDecl_some d t : cleanDecl d t -> t <> [].
Proof. intros (g & _ & (W & _) & _ & ->). destruct (dkey d); [congruence|discriminate]. Qed.
Lemma decl_no s : next 125%N s -> pdeclaration s = Fail.
Proof. unfold next. intros E. unfold pdeclaration. apply bind_no. unfold pskip. destruct (skipGap s); [reflexivity|]. cbn in E. now subst. Qed.
Lemma header_ok g ss st s : gap g -> sepText (selText cleanCond cleanZoom) ss st -> afterSel s -> tok (str ",") s = Fail ->
  plist pselector (tok (str ",")) (g ++ st ++ s) = Parsed ss s.
Proof.
  intros G S A T. apply (list_ok (selText cleanCond cleanZoom) pselector (selText_some _ _) afterSel);
    [intros; now apply selector_ok| |exact G|exact S|exact A|exact T].
  intros g' s' G'. apply (afterSel_lit g' (str ",")); [exact G'|reflexivity|reflexivity|]. change (~ In 44%N [43; 45; 91]%N). cbn; lia.
Qed.
Lemma brace_after g s : gap g -> afterSel (g ++ str "{" ++ s) /\ tok (str ",") (g ++ str "{" ++ s) = Fail.
Proof.
  intros G. split.
  - apply (afterSel_lit g (str "{")); [exact G|reflexivity|reflexivity|]. change (~ In 123%N [43; 45; 91]%N). cbn; lia.
  - apply (tok_no 123); [now apply (next_lit g (str "{"))|discriminate].
Qed.
Lemma rule_ok g r t s : gap g -> ruleText cleanCond cleanZoom cleanDecl r t -> prule (g ++ t ++ s) = Parsed r s.
Proof.
  intros G H. destruct H as [ss st g1 ds dt g2 S G1 D M G2]. unfold prule. rewrite <- !app_assoc.
  erewrite bind_ok by (apply header_ok; [exact G|exact S|now apply brace_after|now apply brace_after]).
  erewrite bind_ok by (apply expect_ok, tok_ok; [exact G1|reflexivity]).
  erewrite bind_ok by (apply expect_ok, (many1_ok cleanDecl pdeclaration cleanDecl_some); [intros; now apply declaration_ok|exact D|exact M|
    apply decl_no; now apply (next_lit g2 (str "}"))]).
  erewrite bind_ok by (apply expect_ok, tok_ok; [exact G2|reflexivity]). reflexivity.
Qed.

(** ** The end of the sheet *)
Definition stops (s : bytes) : Prop :=
  prule s = Fail /\ purl litImport s = Fail /\ purl litTexture s = Fail /\ purl litLsystem s = Fail.
Lemma rule_no s : pselector s = Fail -> prule s = Fail.
Proof. intros H. unfold prule, plist. rewrite !bind_no; [reflexivity|]. now rewrite bind_no. Qed.
Lemma selector_no s : pnamed s = Fail -> word sCanvas s = Fail -> word sElement s = Fail -> pselector s = Fail.
Proof.
  intros A B C. unfold pselector, pcanvas, pelement. rewrite or_no by exact A.
  rewrite or_no by (apply bind_no, many1_no, B). apply bind_no, many1_no, C.
Qed.
Lemma url_no lit c s : next c s -> hd c lit <> c -> purl lit s = Fail.
Proof. intros N H. unfold purl. apply bind_no. now apply (tok_no c). Qed.
Lemma stops_noKeyword g s : gap g -> noKeyword s -> stops (g ++ s).
Proof.
  intros G (O & K). assert (T : forall k, In k keywords -> tok k (g ++ s) = Fail).
  { intros k I. unfold tok, pskip. rewrite skip_both by assumption.
    destruct (lit_prefix k s) as [(r & E & _)|[E _]]; [exfalso; exact (K k r I E)|exact E]. }
  assert (W : forall k, In k keywords -> word k (g ++ s) = Fail) by (intros k I; unfold word; apply bind_no; auto).
  unfold stops. split; [|split; [|split]].
  - apply rule_no, selector_no; [apply named_no; unfold pname; rewrite !or_no| |]; apply W; cbn; auto 10.
  - unfold purl. apply bind_no, T. unfold keywords, litImport, quote. cbn [In]. auto 10.
  - unfold purl. apply bind_no, T. unfold keywords, litTexture, quote. cbn [In]. auto 10.
  - unfold purl. apply bind_no, T. unfold keywords, litLsystem, quote. cbn [In]. auto 12.
Qed.
Lemma name_next g n t s : gap g -> nameText n t -> exists c, next c (g ++ t ++ s) /\ In c [110; 119; 97; 114]%N.
Proof.
  intros G [<- H]. exists (hd 0%N n). split; [apply next_lit; [exact G|]|];
    destruct H as [<-|[<-|[<-|[<-|[]]]]]; try reflexivity; cbn; tauto.
Qed.
Lemma stops_named g n t s : gap g -> nameText n t -> pnamed (g ++ t ++ s) = Fail -> stops (g ++ t ++ s).
Proof.
  intros G N H. destruct (name_next g n t s G N) as (c & X & I). cbn [In] in I.
  split; [apply rule_no, selector_no; [exact H|apply (word_no c); [exact X|]|apply (word_no c); [exact X|]]|
          split; [|split]; apply (url_no _ c); try exact X].
  - change (99%N <> c). lia.
  - change (101%N <> c). lia.
  - change (64%N <> c). lia.
  - change (64%N <> c). lia.
  - change (64%N <> c). lia.
Qed.
Lemma tok_prefix_no l s : ~ opens s -> (forall q, s <> l ++ q) -> tok l s = Fail.
Proof.
  intros O H. unfold tok, pskip. rewrite skip_none by exact O.
  destruct (lit_prefix l s) as [(r & E & _)|[E _]]; [exfalso; exact (H r E)|exact E].
Qed.
Lemma stops_misspelt g s : gap g -> misspelt s -> stops (g ++ s).
Proof.
  intros G (n & r & N & -> & O & C & Z). apply (stops_named g n n); [exact G|exact N|].
  unfold pnamed. erewrite bind_ok.
  2:{ replace (g ++ n ++ r) with (g ++ n ++ r) by reflexivity.
      apply (list_ok nameText pname nameText_some (fun _ => True)); [intros; now apply name_ok|auto|exact G|constructor; exact N|exact I|].
      apply tok_prefix_no; assumption. }
  apply bind_no. unfold pzoom. apply bind_no. now apply tok_prefix_no.
Qed.
Lemma stops_unconditioned g s : gap g -> unconditioned s -> stops (g ++ s).
Proof.
  intros G (ns & nt & g1 & z & zt & c & r & N & G1 & Z & -> & O & D & B). cbn [In] in B.
  assert (X : next c (c :: r)) by (unfold next; now rewrite skip_none).
  assert (H : pnamed (g ++ nt ++ g1 ++ zt ++ c :: r) = Fail).
  { unfold pnamed.
    erewrite bind_ok by (apply (list_ok nameText pname nameText_some (fun _ => True)); [intros; now apply name_ok|auto|exact G|exact N|exact I|
      apply (tok_no 124); [now apply (zoom_next g1 z)|discriminate]]).
    erewrite bind_ok by (apply zoom_ok; [exact G1|exact Z|exists c; split; [exact X|]; unfold isDigit; lia]).
    apply bind_no, many1_no, (cond_no _ c); [exact X|lia]. }
  destruct N as [n t N|n t h1 h2 l u N H1 H2 _].
  - apply (stops_named g n t); assumption.
  - rewrite <- !app_assoc in *. apply (stops_named g n t); assumption.
Qed.
Lemma stops_unnoticed g s : gap g -> unnoticed s -> stops (g ++ s).
Proof. intros G [H|[H|H]]; [now apply stops_noKeyword|now apply stops_misspelt|now apply stops_unconditioned]. Qed.
Lemma unnoticed_nil : unnoticed [].
Proof.
  left. split; [intros [(c & r & E & _)|[(r & E)|(r & E)]]; discriminate E|].
  intros k r H E. unfold keywords in H. cbn [In] in H.
  repeat (destruct H as [<-|H]; [discriminate E|]). contradiction.
Qed.

(** ** Names of files *)
Lemma lastOf_some f s a b : lastOf f s = Some (a, b) -> exists c, f c = true /\ s = a ++ c :: b /\ Forall (fun c => f c = false) b.
Proof.
  revert a b. induction s as [|c s IH]; intros a b; cbn [lastOf]; [discriminate|].
  destruct (lastOf f s) as [[a' b']|] eqn:E.
  - intros [= <- <-]. destruct (IH _ _ eq_refl) as (d & D & -> & F). exists d. repeat split; assumption.
  - destruct (f c) eqn:C; [|discriminate]. intros [= <- <-]. exists c. split; [exact C|]. split; [reflexivity|].
    clear IH. induction s as [|d s IH]; [constructor|]. cbn [lastOf] in E. destruct (lastOf f s) as [[x y]|]; [discriminate|].
    destruct (f d) eqn:D; [discriminate|]. constructor; [exact D|now apply IH].
Qed.
Lemma lastOf_none f s : lastOf f s = None -> Forall (fun c => f c = false) s.
Proof.
  induction s as [|d s IH]; intros E; [constructor|]. cbn [lastOf] in E. destruct (lastOf f s) as [[x y]|]; [discriminate|].
  destruct (f d) eqn:D; [discriminate|]. constructor; [exact D|now apply IH].
Qed.
Lemma lastOf_ok f a c b : f c = true -> Forall (fun c => f c = false) b -> lastOf f (a ++ c :: b) = Some (a, b).
Proof.
  intros C F. assert (L : lastOf f b = None).
  { induction F as [|d b D _ IH]; [reflexivity|]. cbn [lastOf]. now rewrite IH, D. }
  induction a as [|d a IH]; cbn [app lastOf]; [now rewrite L, C|now rewrite IH].
Qed.
Lemma lastOf_no f b : Forall (fun c => f c = false) b -> lastOf f b = None.
Proof. induction 1 as [|d b D _ IH]; [reflexivity|]. cbn [lastOf]. now rewrite IH, D. Qed.
Lemma noSlash (w : bytes) : Forall (fun c => (N.eqb c 92 || N.eqb c 47) = false) w <-> ~ In 47%N w /\ ~ In 92%N w.
Proof.
  rewrite Forall_forall. split.
  - intros H. split; intros I; apply H in I; discriminate.
  - intros [A B] c I. destruct (N.eqb_spec c 92) as [->|]; [contradiction|]. destruct (N.eqb_spec c 47) as [->|]; [contradiction|reflexivity].
Qed.
Lemma noDot (w : bytes) : Forall (fun c => N.eqb c 46 = false) w <-> ~ In 46%N w.
Proof.
  rewrite Forall_forall. split.
  - intros H I. apply H in I. discriminate.
  - intros A c I. destruct (N.eqb_spec c 46) as [->|]; [contradiction|reflexivity].
Qed.
Lemma stem_ok url name : stemOf url name <-> baseName url = name.
Proof.
  split.
  - intros (dir & ext & -> & D & A & B & E). unfold baseName.
    assert (P : match lastOf (fun c => N.eqb c 92 || N.eqb c 47) (dir ++ name ++ ext) with Some (_, b) => b | None => dir ++ name ++ ext end = name ++ ext).
    { assert (F : Forall (fun c => (N.eqb c 92 || N.eqb c 47) = false) (name ++ ext)) by (apply noSlash; tauto).
      destruct D as [->|(d & [->| ->])].
      - cbn [app]. now rewrite lastOf_no.
      - rewrite <- app_assoc. cbn [app]. now rewrite lastOf_ok.
      - rewrite <- app_assoc. cbn [app]. now rewrite lastOf_ok. }
    rewrite P. destruct E as [[-> N]|(e & -> & N)].
    + rewrite app_nil_r. rewrite lastOf_no by now apply noDot. reflexivity.
    + rewrite lastOf_ok; [reflexivity|reflexivity|now apply noDot].
  - unfold baseName.
    assert (P : exists dir p, url = dir ++ p /\ (dir = [] \/ exists d, dir = d ++ [47%N] \/ dir = d ++ [92%N]) /\ ~ In 47%N p /\ ~ In 92%N p /\
       match lastOf (fun c => N.eqb c 92 || N.eqb c 47) url with Some (_, b) => b | None => url end = p).
    { destruct (lastOf _ url) as [[a b]|] eqn:E.
      - apply lastOf_some in E as (c & C & -> & F). apply noSlash in F as [F1 F2]. exists (a ++ [c]), b. rewrite <- app_assoc.
        split; [reflexivity|]. split; [right; exists a|tauto].
        apply orb_true_iff in C as [C|C]; apply N.eqb_eq in C; subst c; [now right|now left].
      - apply lastOf_none, noSlash in E as [F1 F2]. exists [], url. repeat split; auto. }
    destruct P as (dir & p & -> & D & F1 & F2 & ->). destruct (lastOf (fun c => N.eqb c 46) p) as [[a b]|] eqn:E.
    + intros <-. apply lastOf_some in E as (c & C & -> & F). apply N.eqb_eq in C as ->. apply noDot in F.
      exists dir, (46%N :: b). repeat split; try assumption. right. eauto.
    + intros <-. apply lastOf_none, noDot in E. exists dir, []. rewrite app_nil_r. repeat split; try assumption. left. tauto.
Qed.

(** ** Sheets *)
Definition visible (rs : list rule) : list rule := List.filter (fun r => match selectors r with [] => false | _ => true end) rs.
Lemma visible_app a b : visible (a ++ b) = visible a ++ visible b.
Proof. apply filter_app. Qed.
(** The sheet after adding what a text contributes. *)
Definition adds (sh : sheet) (rs : list rule) (ts : list atlas) (ls : list (bytes * N)) (sh' : sheet) : Prop :=
  visible (rules sh') = visible (rules sh) ++ rs /\ textures sh' = textures sh ++ ts /\
  forall k, alookup beqb k (lsystems sh') = alookup beqb k (lsystems sh ++ ls).
Lemma alookup_app {V} k (a b : list (bytes * V)) :
  alookup beqb k (a ++ b) = match alookup beqb k a with Some v => Some v | None => alookup beqb k b end.
Proof. induction a as [|[k' v] a IH]; cbn [app alookup]; [reflexivity|]. now destruct (beqb k k'). Qed.
Lemma adds_nil sh : adds sh [] [] [] sh.
Proof. unfold adds. rewrite !app_nil_r. auto. Qed.
Lemma adds_trans sh1 rs1 ts1 ls1 sh2 rs2 ts2 ls2 sh3 : adds sh1 rs1 ts1 ls1 sh2 -> adds sh2 rs2 ts2 ls2 sh3 ->
  adds sh1 (rs1 ++ rs2) (ts1 ++ ts2) (ls1 ++ ls2) sh3.
Proof.
  intros (A1 & A2 & A3) (B1 & B2 & B3). unfold adds. rewrite B1, A1, B2, A2, !app_assoc. repeat split.
  intros k. rewrite B3, !alookup_app, A3, !alookup_app. now destruct (alookup beqb k (lsystems sh1)).
Qed.
Lemma adds_empty sh rs ts ls sh' : adds sh rs ts ls sh' -> adds sh rs ts ls (addRule emptyRule sh').
Proof. intros (A & B & C). unfold adds, addRule. cbn [rules textures lsystems]. rewrite visible_app. cbn. rewrite app_nil_r. auto. Qed.
Lemma adds_rule sh r : selectors r <> [] -> adds sh [r] [] [] (addRule r sh).
Proof.
  intros H. unfold adds, addRule. cbn [rules textures lsystems]. rewrite visible_app, !app_nil_r. cbn.
  destruct (selectors r); [congruence|auto].
Qed.
Lemma ruleText_sel condT zoomT declT r t : ruleText condT zoomT declT r t -> selectors r <> [] /\ t <> [].
Proof.
  destruct 1 as [ss st g1 ds dt g2 S G1 D M G2]. cbn. split; [destruct S; discriminate|].
  destruct S as [a t H|a t h1 h2 l u H _ _ _]; apply selText_some in H; destruct t; congruence || discriminate.
Qed.

(** ** What is reported *)
Lemma skip_nil g : gap g -> skipGap g = [].
Proof. intros G. rewrite <- (app_nil_r g) at 1. apply skip_both; [exact G|]. intros [(c & r & E & _)|[(r & E)|(r & E)]]; discriminate E. Qed.
Lemma next_nil g : gap g -> next 0%N g.
Proof. intros G. unfold next. now rewrite skip_nil. Qed.
Lemma decl_end g : gap g -> pdeclaration g = Fail.
Proof. intros G. unfold pdeclaration. apply bind_no. unfold pskip. now rewrite skip_nil. Qed.
Lemma selector_bad s : pselector s = Unexpected -> prule s = Unexpected.
Proof. intros H. unfold prule, plist. now rewrite !bind_bad; [|now rewrite bind_bad]. Qed.
Lemma broken_ok g s : gap g -> broken s -> prule (g ++ s) = Unexpected.
Proof.
  intros G H. destruct H as [st g1 x (ss & S) G1 O X|st g1 g2 x (ss & S) G1 G2|st g1 ds dt g2 (ss & S) G1 M G2|
                             st g1 ds dt g2 k g3 v (ss & S) G1 M G2 K G3 V|w g1 x W G1 O A B|ns nt g1 z zt g2 g3 x N G1 Z G2 G3].
  - assert (Nx : next (hd 0%N x) (g1 ++ x)) by (unfold next; now rewrite skip_both).
    unfold prule. erewrite bind_ok; [|apply header_ok; [exact G|exact S| |]].
    + apply bind_bad, expect_bad. left. apply (tok_no _ _ _ Nx). destruct x as [|c x]; [change (123%N <> 0%N); discriminate|]. cbn [In] in X. change (123%N <> c). intros <-. apply X; auto 10.
    + exists (hd 0%N x). split; [exact Nx|]. destruct x as [|c x]; [repeat split; discriminate|]. cbn [hd In] in *.
      split; [unfold isDigit; lia|]. repeat split; intros E; apply X; auto.
    + apply (tok_no _ _ _ Nx). destruct x as [|c x]; [change (44%N <> 0%N); discriminate|]. cbn [In] in X. change (44%N <> c). intros <-. apply X; auto 10.
  - unfold prule. erewrite bind_ok by (apply header_ok; [exact G|exact S|now apply brace_after|now apply brace_after]).
    erewrite bind_ok by (apply expect_ok, tok_ok; [exact G1|reflexivity]).
    apply bind_bad, expect_bad. left. apply many1_no, decl_no. now apply (next_lit g2 (str "}")).
  - unfold prule. erewrite bind_ok by (apply header_ok; [exact G|exact S|now apply brace_after|now apply brace_after]).
    erewrite bind_ok by (apply expect_ok, tok_ok; [exact G1|reflexivity]).
    destruct ds as [|d ds].
    + inversion M. subst. cbn [app]. apply bind_bad, expect_bad. left. now apply many1_no, decl_end.
    + erewrite bind_ok by (apply expect_ok, (many1_ok cleanDecl pdeclaration cleanDecl_some (d :: ds) dt g2); [intros; now apply declaration_ok|discriminate|exact M|
        now apply decl_end]).
      apply bind_bad, expect_bad. left. apply (tok_no 0); [now apply next_nil|discriminate].
  - unfold prule. erewrite bind_ok by (apply header_ok; [exact G|exact S|now apply brace_after|now apply brace_after]).
    erewrite bind_ok by (apply expect_ok, tok_ok; [exact G1|reflexivity]).
    apply bind_bad, expect_bad. right. apply (many1_bad cleanDecl pdeclaration cleanDecl_some ds dt); [intros; now apply declaration_ok|exact M|].
    unfold pdeclaration. erewrite bind_ok by (apply (chars_clean inKey _ g2 _ _ inKey_good G2 K); repeat split; discriminate).
    erewrite bind_ok by (apply (tok_ok [] (str ":")); [constructor|reflexivity]).
    rewrite <- (app_nil_r v). erewrite bind_ok by (apply expect_ok, (chars_clean inValue _ g3 v [] inValue_good G3 V); exact I).
    apply bind_bad, expect_bad. left. reflexivity.
  - assert (H : exists c, next c (g ++ w ++ g1 ++ x) /\ (c = 99 \/ c = 101)%N).
    { destruct W as [<-|[<-|[]]]; eexists; (split; [apply next_lit; [exact G|reflexivity]|]); [now left|now right]. }
    destruct H as (c & Nx & C). apply selector_bad. unfold pselector. rewrite or_no by (apply named_no, (name_no c); [exact Nx|cbn; lia]).
    assert (Tw : forall l, (forall q, x <> l ++ q) -> tok l (g1 ++ x) = Fail).
    { intros l L. unfold tok, pskip. rewrite skip_both by assumption. destruct (lit_prefix l x) as [(r & E & _)|[E _]]; [exfalso; exact (L r E)|exact E]. }
    assert (Many : forall w', plainLit w' -> (forall q, x <> w' ++ q) -> pmany1 (word w') (g ++ w' ++ g1 ++ x) = Parsed [w'] (g1 ++ x)).
    { intros w' P L. unfold pmany1. erewrite bind_ok by (apply word_ok; assumption).
      erewrite bind_ok by (apply (many_ok (same w') (word w')) with (u := []) (l := []);
        [intros n t; apply same_some; destruct w'; [contradiction|discriminate]|now apply same_ok|constructor|unfold word; now apply bind_no, Tw]). reflexivity. }
    assert (Zx : pzoom (g1 ++ x) = Fail) by (unfold pzoom; now apply bind_no, Tw).
    destruct W as [<-|[<-|[]]].
    + apply or_bad. unfold pcanvas. erewrite bind_ok by (apply Many; [reflexivity|exact A]). apply bind_bad, expect_bad. now left.
    + rewrite or_no by (unfold pcanvas; apply bind_no, many1_no, (word_no 101); [now apply (next_lit g sElement)|discriminate]).
      unfold pelement. erewrite bind_ok by (apply Many; [reflexivity|exact A]). apply bind_bad, expect_bad. now left.
  - apply selector_bad. unfold pselector. apply or_bad. unfold pnamed.
    erewrite bind_ok by (apply (list_ok nameText pname nameText_some (fun _ => True)); [intros; now apply name_ok|auto|exact G|exact N|exact I|
      apply (tok_no 124); [now apply (zoom_next g1 z)|discriminate]]).
    erewrite bind_ok by (apply zoom_ok; [exact G1|exact Z|exists 91%N; split; [now apply (next_lit g2 (str "["))|repeat split; discriminate]]).
    apply bind_bad. unfold pmany1. apply bind_bad. unfold pcondition.
    erewrite bind_ok by (apply tok_ok; [exact G2|reflexivity]). apply bind_bad, expect_bad. left.
    unfold pkeyValue, pskip. rewrite skip_both; [reflexivity|exact G3|apply plain_opens; reflexivity].
Qed.

Section Sheets.
  Variable file : bytes -> option bytes.
  Variable atlasOf : bytes -> outcome atlas.
  Variable lsystemOf : bytes -> outcome N.
  Variable directory : bytes.
  Local Notation parseInto := (parseInto file atlasOf lsystemOf directory).
  Local Notation items := (items file atlasOf lsystemOf directory).

  Lemma adds_atlas url sh c a : file (directory ++ url) = Some c -> atlasOf c = Ok a ->
    exists sh', addAtlas file atlasOf directory url sh = Ok sh' /\ adds sh [] [a] [] sh'.
  Proof.
    intros F A. eexists. unfold addAtlas, getContent. rewrite F. cbn [bind]. rewrite A. split; [reflexivity|].
    unfold adds. cbn [rules textures lsystems]. rewrite !app_nil_r. auto.
  Qed.
  Lemma emplace_lookup' name l m k : alookup beqb k (emplaceSystem name l m) = alookup beqb k (m ++ [(name, l)]).
  Proof.
    unfold emplaceSystem. destruct (alookup beqb name m) as [v|] eqn:E; [|reflexivity].
    rewrite alookup_app. destruct (alookup beqb k m) eqn:E'; [reflexivity|]. cbn [alookup].
    destruct (beqb k name) eqn:B; [|reflexivity]. apply beqb_eq in B. congruence.
  Qed.
  Lemma adds_lsystem url sh c l name : file (directory ++ url) = Some c -> lsystemOf c = Ok l -> stemOf url name ->
    exists sh', addLsystem file lsystemOf directory url sh = Ok sh' /\ adds sh [] [] [(name, l)] sh'.
  Proof.
    intros F A S. apply stem_ok in S as <-. eexists. unfold addLsystem, getContent. rewrite F. cbn [bind]. rewrite A. split; [reflexivity|].
    unfold adds. cbn [rules textures lsystems]. rewrite !app_nil_r. repeat split. intros k. apply emplace_lookup'.
  Qed.

  Lemma url_ok what lit g g1 url s : what ++ str " url(" ++ [34%N] = lit -> plainLit lit -> gap g -> gap g1 -> cleanUrl url ->
    purl lit (g ++ quoted what url g1 ++ s) = Parsed url (litUrlEnd ++ s).
  Proof.
    intros <- P G G1 U. unfold purl, quoted. rewrite <- !app_assoc.
    erewrite bind_ok.
    2:{ rewrite !(app_assoc what), !(app_assoc (what ++ str " url(")). apply tok_ok; [exact G|]. now rewrite <- app_assoc. }
    apply expect_ok. apply (chars_clean inUrl [34]%N g1 url (litUrlEnd ++ s) inUrl_good G1 U). repeat split; discriminate.
  Qed.
  Lemma urlEnd_ok s : purlEnd (litUrlEnd ++ s) = Parsed tt s.
  Proof. unfold purlEnd. apply expect_ok. apply (tok_ok [] litUrlEnd s); [constructor|reflexivity]. Qed.
  Lemma quoted_next what url g g1 s : plainLit what -> gap g -> next (hd 0%N what) (g ++ quoted what url g1 ++ s).
  Proof. intros P G. unfold quoted. rewrite <- app_assoc. now apply next_lit. Qed.
  Lemma at_rule_no s : next 64%N s -> prule s = Fail.
  Proof.
    clear. intros N. apply rule_no, selector_no; [apply named_no, (name_no 64); [exact N|cbn; lia]| |]; apply (word_no 64); try exact N; discriminate.
  Qed.
  Lemma url_other lit what g g1 url s : plainLit what -> gap g ->
    (forall x, plit lit (what ++ x) = Fail) -> purl lit (g ++ quoted what url g1 ++ s) = Fail.
  Proof.
    intros P G H. unfold purl. apply bind_no. unfold tok, pskip, quoted. rewrite <- app_assoc.
    rewrite skip_both; [apply H|exact G|now apply plainLit_opens].
  Qed.

  Local Notation cleanW := (cleanWritten file atlasOf lsystemOf directory).
  Lemma items_stop s d sh fuel : stops s -> (List.length s < fuel)%nat -> items (parseInto d) fuel s sh = Ran (Ok sh).
  Proof.
    intros (S1 & S2 & S3 & S4) F. destruct fuel as [|fuel]; [lia|]. cbn [MapCssModel.items]. now rewrite S1, S2, S3, S4.
  Qed.
  (** What a text contributes does not depend on what follows it. *)
  Lemma items_then t rs ts ls : cleanW t rs ts ls -> exists d0, forall d, (d0 <= d)%nat -> forall rest sh fuel,
    (List.length (t ++ rest) < fuel)%nat -> exists sh' fuel', (List.length rest < fuel')%nat /\
      items (parseInto d) fuel (t ++ rest) sh = items (parseInto d) fuel' rest sh' /\ adds sh rs ts ls sh'.
  Proof.
    induction 1 as [|g r t u rs ts ls G R _ IH|g g1 url t left rs1 ts1 ls1 u rs ts ls G G1 U C L W1 IH1 _ IH|
                    g g1 url c a u rs ts ls G G1 U C A _ IH|g g1 url c name l u rs ts ls G G1 U C A St _ IH].
    - exists 0. intros d _ rest sh fuel F. exists sh, fuel. split; [exact F|]. split; [reflexivity|apply adds_nil].
    - destruct IH as (d0 & IH). exists d0. intros d Hd rest sh fuel F. destruct (ruleText_sel _ _ _ _ _ R) as [Sel T].
      rewrite <- !app_assoc in *. destruct fuel as [|fuel]; [lia|]. cbn [MapCssModel.items].
      rewrite (rule_ok g r t) by assumption.
      destruct (IH d Hd rest (addRule r sh) fuel) as (sh' & fu & Fu & E & A).
      { rewrite !app_length in *. destruct t; [congruence|]. cbn [List.length] in F. lia. }
      exists sh', fu. split; [exact Fu|]. split; [exact E|]. apply (adds_trans _ [r] [] [] _ _ _ _ _ (adds_rule sh r Sel) A).
    - destruct IH as (d0 & IH). destruct IH1 as (d1 & IH1). exists (S (Nat.max d0 d1)). intros d Hd rest sh fuel F.
      rewrite <- !app_assoc in *. destruct fuel as [|fuel]; [lia|]. cbn [MapCssModel.items].
      rewrite at_rule_no by (apply (quoted_next (str "@import")); [reflexivity|exact G]).
      rewrite (url_ok (str "@import") litImport) by (try assumption; reflexivity).
      unfold afterUrl, readImport. rewrite C. destruct d as [|d]; [lia|].
      cbn [MapCssModel.parseInto].
      destruct (IH1 d ltac:(lia) left sh (Datatypes.S (List.length (t ++ left)))) as (sh1 & fu1 & Fu1 & E1 & A1).
      { lia. }
      assert (S1 : stops left) by (rewrite <- (app_nil_r left); apply stops_unnoticed; [exact L|exact unnoticed_nil]).
      rewrite E1, (items_stop left) by assumption. cbn [rbind]. rewrite urlEnd_ok.
      destruct (IH (Datatypes.S d) ltac:(lia) rest (addRule emptyRule sh1) fuel) as (sh' & fu & Fu & E & A).
      { unfold quoted in F. rewrite !app_length in *. change (List.length (str "@import")) with 7 in F. lia. }
      exists sh', fu. split; [exact Fu|]. split; [exact E|]. apply (adds_trans _ _ _ _ _ _ _ _ _ (adds_empty _ _ _ _ _ A1) A).
    - destruct IH as (d0 & IH). exists d0. intros d Hd rest sh fuel F.
      rewrite <- !app_assoc in *. destruct fuel as [|fuel]; [lia|]. cbn [MapCssModel.items].
      rewrite at_rule_no by (apply (quoted_next (str "@texture")); [reflexivity|exact G]).
      rewrite url_other by (try assumption; reflexivity).
      rewrite (url_ok (str "@texture") litTexture) by (try assumption; reflexivity).
      destruct (adds_atlas url sh c a C A) as (sh1 & E1 & A1). unfold afterUrl. rewrite E1. cbn [rbind]. rewrite urlEnd_ok.
      destruct (IH d Hd rest (addRule emptyRule sh1) fuel) as (sh' & fu & Fu & E & A').
      { unfold quoted in F. rewrite !app_length in *. change (List.length (str "@texture")) with 8 in F. lia. }
      exists sh', fu. split; [exact Fu|]. split; [exact E|]. apply (adds_trans _ _ _ _ _ _ _ _ _ (adds_empty _ _ _ _ _ A1) A').
    - destruct IH as (d0 & IH). exists d0. intros d Hd rest sh fuel F.
      rewrite <- !app_assoc in *. destruct fuel as [|fuel]; [lia|]. cbn [MapCssModel.items].
      rewrite at_rule_no by (apply (quoted_next (str "@lsystem")); [reflexivity|exact G]).
      rewrite url_other by (try assumption; reflexivity). rewrite url_other by (try assumption; reflexivity).
      rewrite (url_ok (str "@lsystem") litLsystem) by (try assumption; reflexivity).
      destruct (adds_lsystem url sh c l name C A St) as (sh1 & E1 & A1). unfold afterUrl. rewrite E1. cbn [rbind]. rewrite urlEnd_ok.
      destruct (IH d Hd rest (addRule emptyRule sh1) fuel) as (sh' & fu & Fu & E & A').
      { unfold quoted in F. rewrite !app_length in *. change (List.length (str "@lsystem")) with 8 in F. lia. }
      exists sh', fu. split; [exact Fu|]. split; [exact E|]. apply (adds_trans _ _ _ _ _ _ _ _ _ (adds_empty _ _ _ _ _ A1) A').
  Qed.
  Lemma items_ok t rs ts ls : cleanW t rs ts ls -> exists d0, forall d, (d0 <= d)%nat -> forall rest sh fuel, stops rest ->
    (List.length (t ++ rest) < fuel)%nat -> exists sh', items (parseInto d) fuel (t ++ rest) sh = Ran (Ok sh') /\ adds sh rs ts ls sh'.
  Proof.
    intros W. destruct (items_then t rs ts ls W) as (d0 & H). exists d0. intros d L rest sh fuel S F.
    destruct (H d L rest sh fuel F) as (sh' & fu & Fu & E & A). exists sh'. split; [|exact A]. rewrite E. now apply items_stop.
  Qed.
  Lemma items_broken t g x rs ts ls : cleanW t rs ts ls -> gap g -> broken x -> exists d0, forall d, (d0 <= d)%nat -> forall sh fuel,
    (List.length (t ++ g ++ x) < fuel)%nat -> items (parseInto d) fuel (t ++ g ++ x) sh = Ran (Throw MapcssError).
  Proof.
    intros W G B. destruct (items_then t rs ts ls W) as (d0 & H). exists d0. intros d L sh fuel F.
    destruct (H d L (g ++ x) sh fuel F) as (sh' & fu & Fu & E & A). rewrite E. destruct fu as [|fu]; [lia|].
    cbn [MapCssModel.items]. now rewrite broken_ok.
  Qed.
End Sheets.

(** ** What is accepted *)
Lemma keySpan_inv s : let '(a, r) := keySpan s in s = a ++ r /\ Forall (fun c => (c < 128)%N /\ ~ In c keyBad') a.
Proof.
  induction s as [|c s IH]; [cbn; auto|]. cbn [keySpan]. destruct (keyChar (c :: s)) eqn:K; [|cbn; auto].
  destruct (keySpan s) as [a r]. destruct IH as [-> F]. split; [reflexivity|]. constructor; [|exact F].
  cbn [keyChar] in K. apply andb_prop in K as [K B]. apply andb_prop in K as [A N]. unfold isAscii in A. split; [lia|].
  cbn [keyBad' In]. intros I. destruct I as [<-|[<-|[<-|[<-|[]]]]]; discriminate.
Qed.
Lemma skip_inv {A} (p : parser A) s a r : pskip skipGap p s = Parsed a r -> exists g q, gap g /\ s = g ++ q /\ p q = Parsed a r.
Proof. unfold pskip. intros H. destruct (skipGap_exists s) as (g & G & E). eauto. Qed.
Lemma keyValue_inv s k r : pkeyValue s = Parsed k r -> exists g, gap g /\ laxWord keyBad' k /\ s = g ++ k ++ r.
Proof.
  unfold pkeyValue. intros H. apply skip_inv in H as (g & q & G & -> & H). pose proof (keySpan_inv q) as K. destruct (keySpan q) as [a b].
  destruct a as [|c a]; [discriminate|]. injection H as <- <-. destruct K as [-> F]. exists g. repeat split; auto. discriminate.
Qed.
Lemma binary_inv s o r : pbinary s = Parsed o r -> exists g, gap g /\ operator o /\ s = g ++ o ++ r.
Proof.
  unfold pbinary. intros H. apply skip_inv in H as (g & q & G & -> & H). exists g. split; [exact G|]. unfold operator.
  apply or_inv in H as [H|H]; [|apply or_inv in H as [H|H]; [|apply or_inv in H as [H|H]]];
    apply bind_inv in H as (u & q' & H & E); injection E as <- <-; apply lit_inv in H as ->; cbn; auto 10.
Qed.
Lemma condition_inv s c r : pcondition s = Parsed c r -> exists g t, gap g /\ laxCond c t /\ s = g ++ t ++ r.
Proof.
  unfold pcondition. intros H. apply bind_inv in H as (u1 & s1 & H1 & H). apply bind_inv in H as (k & s2 & H2 & H).
  apply bind_inv in H as (o & s3 & H3 & H). apply bind_inv in H as (v & s4 & H4 & H). apply bind_inv in H as (u5 & s5 & H5 & H).
  injection H as <- <-. apply tok_inv in H1 as (g & G & ->). apply expect_inv, keyValue_inv in H2 as (g1 & G1 & K & ->).
  apply expect_inv, tok_inv in H5 as (g5 & G5 & ->).
  assert (O : exists g2, gap g2 /\ (orEmpty o = [] \/ operator (orEmpty o)) /\ s2 = g2 ++ orEmpty o ++ s3).
  { apply option_inv in H3 as [[-> ->]|(x & -> & H3)]; [exists []; repeat split; [constructor|now left]|].
    apply binary_inv in H3 as (g2 & G2 & O & ->). exists g2. cbn [orEmpty]. auto. }
  assert (V : exists g3, gap g3 /\ (orEmpty v = [] \/ laxWord keyBad' (orEmpty v)) /\ s3 = g3 ++ orEmpty v ++ g5 ++ str "]" ++ s5).
  { apply option_inv in H4 as [[-> ->]|(x & -> & H4)]; [exists []; repeat split; [constructor|now left]|].
    apply keyValue_inv in H4 as (g3 & G3 & W & ->). exists g3. cbn [orEmpty]. auto. }
  destruct O as (g2 & G2 & O & ->). destruct V as (g3 & G3 & V & ->).
  exists g. eexists. split; [exact G|]. split.
  - exists g1, g2, g3, g5. cbn [ckey coperation cvalue]. repeat (split; [assumption|]). reflexivity.
  - rewrite <- !app_assoc. reflexivity.
Qed.
Lemma int_inv s v r : intRaw s = Parsed v r -> exists t, s = t ++ r /\ laxLevel (toLevel v) t.
Proof.
  unfold intRaw. match goal with |- (let '(_, _) := ?y in _) = _ -> _ => set (x := y) end.
  assert (X : exists sg neg s1, x = (neg, s1) /\ s = sg ++ s1 /\ ((sg = [] /\ neg = false) \/ (sg = [43%N] /\ neg = false) \/ (sg = [45%N] /\ neg = true))).
  { subst x. destruct s as [|c s]; [exists [], false, []; auto 10|]. destruct (N.eqb_spec c 45) as [->|]; [exists [45%N], true, s; cbn; auto 10|].
    destruct (N.eqb_spec c 43) as [->|]; [exists [43%N], false, s; cbn; auto 10|]. exists [], false, (c :: s). auto 10. }
  destruct X as (sg & neg & s1 & -> & -> & Sg). pose proof (span_app isDigit s1) as P. destruct (spanOf isDigit s1) as [ds q].
  destruct P as (-> & F & _). destruct ds as [|d ds]; [discriminate|].
  assert (D : decimal (d :: ds) (digitsFrom 0 (d :: ds))) by (apply decimal_all; [discriminate|exact F]).
  set (w := if neg then _ else _). destruct ((- 2 ^ 31 <=? w) && (w <? 2 ^ 31))%Z eqn:B; [|discriminate]. intros [= <- <-].
  exists (sg ++ d :: ds). split; [now rewrite <- app_assoc|]. exists (d :: ds), (digitsFrom 0 (d :: ds)), w. split; [exact D|].
  split; [|split; [lia|reflexivity]]. subst w. destruct Sg as [[-> ->]|[[-> ->]|[-> ->]]]; cbn [app]; auto.
Qed.
Lemma zoom_inv s z r : pzoom s = Parsed z r -> exists g t, gap g /\ laxZoom z t /\ s = g ++ t ++ r.
Proof.
  unfold pzoom. intros H. apply bind_inv in H as (u1 & s1 & H1 & H). apply bind_inv in H as (a & s2 & H2 & H).
  apply bind_inv in H as (o & s3 & H3 & H). apply bind_inv in H as (b & s4 & H4 & H). injection H as <- <-.
  apply tok_inv in H1 as (g & G & ->). apply expect_inv, skip_inv in H2 as (g1 & q & G1 & -> & H2). apply int_inv in H2 as (t & -> & L).
  assert (D : exists gd dash, gap gd /\ (dash = [] \/ dash = gd ++ str "-") /\ s2 = dash ++ s3).
  { apply option_inv in H3 as [[-> ->]|(x & -> & H3)]; [exists [], []; repeat split; [constructor|now left]|].
    apply tok_inv in H3 as (gd & Gd & ->). exists gd, (gd ++ str "-"). rewrite <- app_assoc. auto. }
  destruct D as (gd & dash & Gd & D & ->). exists g. apply option_inv in H4 as [[-> ->]|(x & -> & H4)].
  - eexists. split; [exact G|]. split; [exact (lz_one _ _ _ gd _ G1 L Gd D)|]. rewrite <- !app_assoc. reflexivity.
  - apply skip_inv in H4 as (g2 & q & G2 & -> & H4). apply int_inv in H4 as (u & -> & L').
    eexists. split; [exact G|]. split; [eapply lz_two; [exact G1|exact L|exact Gd|exact D|exact G2|exact L']|].
    rewrite <- !app_assoc. reflexivity.
Qed.
Lemma word_inv w s n r : word w s = Parsed n r -> exists g, gap g /\ n = w /\ s = g ++ w ++ r.
Proof. unfold word. intros H. apply bind_inv in H as (u & q & H & E). injection E as <- <-. apply tok_inv in H as (g & G & ->). eauto. Qed.
Lemma name_inv s n r : pname s = Parsed n r -> exists g t, gap g /\ nameText n t /\ s = g ++ t ++ r.
Proof.
  unfold pname. intros H. unfold nameText.
  repeat (apply or_inv in H as [H|H]; [apply word_inv in H as (g & G & -> & ->); exists g; eexists; repeat split; cbn; auto|]).
  apply word_inv in H as (g & G & -> & ->); exists g; eexists; repeat split; cbn; auto.
Qed.
Lemma same_inv w s n r : word w s = Parsed n r -> exists g t, gap g /\ same w n t /\ s = g ++ t ++ r.
Proof. intros H. apply word_inv in H as (g & G & -> & ->). exists g, w. repeat split. exact G. Qed.
Lemma heads_inv w s ns r : pmany1 (word w) s = Parsed ns r ->
  exists g nt ns', gap g /\ manyText (same w) ns' nt /\ ns = w :: ns' /\ s = g ++ w ++ nt ++ r.
Proof.
  intros H. apply (many1_inv (same w)) in H as (u & M & -> & N); [|intros ? ? ? X; now apply same_inv].
  destruct M as [|g a t l u G [-> ->] M]; [congruence|]. exists g, u, l. rewrite <- !app_assoc. auto.
Qed.
Lemma selector_inv s sel r : pselector s = Parsed sel r -> exists g t, gap g /\ selText laxCond laxZoom sel t /\ s = g ++ t ++ r.
Proof.
  unfold pselector. intros H. apply or_inv in H as [H|H]; [|apply or_inv in H as [H|H]].
  - unfold pnamed in H. apply bind_inv in H as (ns & s1 & H1 & H). apply bind_inv in H as (z & s2 & H2 & H).
    apply bind_inv in H as (cs & s3 & H3 & H). injection H as <- <-.
    apply (list_inv nameText) in H1 as (g & nt & G & N & ->); [|exact name_inv].
    apply zoom_inv in H2 as (g1 & zt & G1 & Z & ->). apply (many1_inv laxCond) in H3 as (ct & M & -> & C); [|exact condition_inv].
    exists g. eexists. split; [exact G|]. split; [exact (sel_named _ _ ns nt g1 z zt cs ct N G1 Z C M)|]. rewrite <- !app_assoc. reflexivity.
  - unfold pcanvas in H. apply bind_inv in H as (ns & s1 & H1 & H). apply bind_inv in H as (z & s2 & H2 & H). injection H as <- <-.
    apply heads_inv in H1 as (g & nt & ns' & G & M & -> & ->). apply expect_inv, zoom_inv in H2 as (g1 & zt & G1 & Z & ->).
    exists g. eexists. split; [exact G|]. split; [exact (sel_canvas _ _ ns' _ nt g1 z zt M G1 Z eq_refl)|]. rewrite <- !app_assoc. reflexivity.
  - unfold pelement in H. apply bind_inv in H as (ns & s1 & H1 & H). apply bind_inv in H as (z & s2 & H2 & H).
    apply bind_inv in H as (c & s3 & H3 & H). injection H as <- <-.
    apply heads_inv in H1 as (g & nt & ns' & G & M & -> & ->). apply expect_inv, zoom_inv in H2 as (g1 & zt & G1 & Z & ->).
    apply expect_inv, condition_inv in H3 as (g2 & ct & G2 & C & ->).
    exists g. eexists. split; [exact G|]. split; [exact (sel_element _ _ ns' _ nt g1 z zt g2 c ct M G1 Z G2 C eq_refl)|]. rewrite <- !app_assoc. reflexivity.
Qed.
(** Nothing is skipped behind a word which takes blanks and comments. *)
Lemma chars_nogap (f : N -> bool) s a r g l : (forall c, blank c \/ c = 47%N \/ c = 60%N -> f c = true) ->
  pchars1 f s = Parsed a r -> gap g -> r = g ++ l -> g = [].
Proof.
  intros H E G ->. unfold pchars1 in E. pose proof (span_app f s) as P. destruct (spanOf f s) as [b q].
  destruct b; [discriminate|]. injection E as <- ->. destruct P as (_ & _ & P).
  destruct G as [|c g B _|body g _ _|body g _ _]; [reflexivity| | |].
  - change (f c = false) in P. rewrite H in P by auto. discriminate.
  - change (f 47%N = false) in P. rewrite H in P by auto. discriminate.
  - change (f 60%N = false) in P. rewrite H in P by auto. discriminate.
Qed.
Lemma chars_lax (f : N -> bool) bad s a r : (forall c, f c = true -> (c < 128)%N /\ ~ In c bad) -> pchars1 f s = Parsed a r ->
  laxWord bad a /\ s = a ++ r.
Proof.
  intros H E. apply chars_inv in E as (-> & W & F). split; [|reflexivity]. split; [exact W|].
  eapply Forall_impl; [|exact F]. intros c C. now apply H.
Qed.
Lemma inKey_inv c : inKey c = true -> (c < 128)%N /\ ~ In c [58; 125]%N.
Proof. unfold inKey, isAscii. cbn [In]. lia. Qed.
Lemma inValue_inv c : inValue c = true -> (c < 128)%N /\ ~ In c [59]%N.
Proof. unfold inValue, isAscii. cbn [In]. lia. Qed.
Lemma inUrl_inv c : inUrl c = true -> (c < 128)%N /\ ~ In c [34]%N.
Proof. unfold inUrl, isAscii. cbn [In]. lia. Qed.
Lemma declaration_inv s d r : pdeclaration s = Parsed d r -> exists g t, gap g /\ laxDecl d t /\ s = g ++ t ++ r.
Proof.
  unfold pdeclaration. intros H. apply bind_inv in H as (k & s1 & H1 & H). apply bind_inv in H as (u2 & s2 & H2 & H).
  apply bind_inv in H as (v & s3 & H3 & H). apply bind_inv in H as (u4 & s4 & H4 & H). injection H as <- <-.
  apply skip_inv in H1 as (g & q & G & -> & H1). apply tok_inv in H2 as (g2 & G2 & E2).
  rewrite (chars_nogap inKey _ _ _ _ _ ltac:(unfold inKey, isAscii, blank; intros; lia) H1 G2 E2) in E2.
  apply (chars_lax _ _ _ _ _ inKey_inv) in H1 as (K & ->). cbn [app] in E2. subst s1.
  apply expect_inv, skip_inv in H3 as (g3 & q3 & G3 & -> & H3). apply expect_inv, tok_inv in H4 as (g4 & G4 & E4).
  rewrite (chars_nogap inValue _ _ _ _ _ ltac:(unfold inValue, isAscii, blank; intros; lia) H3 G4 E4) in E4.
  apply (chars_lax _ _ _ _ _ inValue_inv) in H3 as (V & ->). cbn [app] in E4. subst s3.
  exists g. eexists. split; [exact G|]. split; [exists g3; cbn [dkey dvalue]; repeat (split; [assumption|]); reflexivity|].
  rewrite <- !app_assoc. reflexivity.
Qed.
Lemma rule_inv s ru r : prule s = Parsed ru r -> exists g t, gap g /\ ruleText laxCond laxZoom laxDecl ru t /\ s = g ++ t ++ r.
Proof.
  unfold prule. intros H. apply bind_inv in H as (ss & s1 & H1 & H). apply bind_inv in H as (u2 & s2 & H2 & H).
  apply bind_inv in H as (ds & s3 & H3 & H). apply bind_inv in H as (u4 & s4 & H4 & H). injection H as <- <-.
  apply (list_inv (selText laxCond laxZoom)) in H1 as (g & st & G & S & ->); [|exact selector_inv].
  apply expect_inv, tok_inv in H2 as (g1 & G1 & ->).
  apply expect_inv, (many1_inv laxDecl) in H3 as (dt & M & -> & D); [|exact declaration_inv].
  apply expect_inv, tok_inv in H4 as (g2 & G2 & ->).
  exists g. eexists. split; [exact G|]. split; [exact (rule_text _ _ _ ss st g1 ds dt g2 S G1 D M G2)|]. rewrite <- !app_assoc. reflexivity.
Qed.
Lemma url_inv what lit s url r r' : what ++ str " url(" ++ [34%N] = lit -> purl lit s = Parsed url r -> purlEnd r = Parsed tt r' ->
  exists g g1, gap g /\ gap g1 /\ laxUrl url /\ s = g ++ quoted what url g1 ++ r'.
Proof.
  intros <- H E. unfold purl in H. apply bind_inv in H as (u1 & s1 & H1 & H). apply tok_inv in H1 as (g & G & ->).
  apply expect_inv, skip_inv in H as (g1 & q & G1 & -> & H). unfold purlEnd in E. apply expect_inv, tok_inv in E as (g2 & G2 & E2).
  rewrite (chars_nogap inUrl _ _ _ _ _ ltac:(unfold inUrl, isAscii, blank; intros; lia) H G2 E2) in E2. cbn [app] in E2.
  apply (chars_lax _ _ _ _ _ inUrl_inv) in H as (U & ->). subst r. exists g, g1. repeat (split; [assumption|]).
  unfold quoted, litUrlEnd, quote. rewrite <- !app_assoc. reflexivity.
Qed.

Section Accepted.
  Variable file : bytes -> option bytes.
  Variable atlasOf : bytes -> outcome atlas.
  Variable lsystemOf : bytes -> outcome N.
  Variable directory : bytes.
  Local Notation parseInto := (parseInto file atlasOf lsystemOf directory).
  Local Notation items := (items file atlasOf lsystemOf directory).
  Local Notation laxW := (laxWritten file atlasOf lsystemOf directory).
  Definition explains (s : bytes) (sh sh' : sheet) : Prop :=
    exists t rest rs ts ls, s = t ++ rest /\ laxW t rs ts ls /\ adds sh rs ts ls sh'.

  Lemma after_inv act r k sh' : afterUrl act r k = Ran (Ok sh') ->
    exists sh1 r', act = Ran (Ok sh1) /\ purlEnd r = Parsed tt r' /\ k (addRule emptyRule sh1) r' = Ran (Ok sh').
  Proof.
    unfold afterUrl. destruct act as [|[sh1| |]]; cbn [rbind]; try discriminate. destruct (purlEnd r) as [| |[] r'] eqn:E; try discriminate.
    eauto.
  Qed.
  Lemma items_inv nested : (forall s sh sh', nested s sh = Ran (Ok sh') -> explains s sh sh') ->
    forall fuel s sh sh', items nested fuel s sh = Ran (Ok sh') -> explains s sh sh'.
  Proof.
    intros Hn. induction fuel as [|fuel IH]; intros s sh sh'; cbn [MapCssModel.items]; [discriminate|].
    destruct (prule s) as [| |r s'] eqn:E; [|discriminate|].
    2:{ intros H. apply IH in H as (t & rest & rs & ts & ls & -> & W & A). apply rule_inv in E as (g & t' & G & R & ->).
        exists (g ++ t' ++ t), rest, (r :: rs), ts, ls. split; [now rewrite <- !app_assoc|]. split; [now constructor|].
        destruct (ruleText_sel _ _ _ _ _ R) as [Sel _].
        apply (adds_trans _ [r] [] [] _ _ _ _ _ (adds_rule sh r Sel) A). }
    destruct (purl litImport s) as [| |url s'] eqn:E1; [|discriminate|].
    2:{ intros H. apply after_inv in H as (sh1 & r' & R & U & H). unfold readImport in R. apply Hn in R as (t1 & left & rs1 & ts1 & ls1 & C & W1 & A1).
        apply IH in H as (t & rest & rs & ts & ls & -> & W & A).
        destruct (url_inv (str "@import") _ _ _ _ _ eq_refl E1 U) as (g & g1 & G & G1 & Ul & ->).
        exists (g ++ quoted (str "@import") url g1 ++ t), rest. do 3 eexists. split; [now rewrite <- !app_assoc|].
        split; [eapply w_import; try eassumption; exact I|].
        apply (adds_trans _ _ _ _ _ _ _ _ _ (adds_empty _ _ _ _ _ A1) A). }
    destruct (purl litTexture s) as [| |url s'] eqn:E2; [|discriminate|].
    2:{ intros H. apply after_inv in H as (sh1 & r' & R & U & H). injection R as R. pose proof R as R0. unfold addAtlas, getContent in R.
        destruct (file (directory ++ url)) as [c|] eqn:F; [|discriminate]. cbn [bind] in R. destruct (atlasOf c) as [a| |] eqn:Ea; try discriminate.
        apply IH in H as (t & rest & rs & ts & ls & -> & W & A).
        destruct (url_inv (str "@texture") _ _ _ _ _ eq_refl E2 U) as (g & g1 & G & G1 & Ul & ->).
        destruct (adds_atlas file atlasOf directory url sh c a F Ea) as (sh2 & Es & A1). rewrite R0 in Es. injection Es as <-.
        exists (g ++ quoted (str "@texture") url g1 ++ t), rest. do 3 eexists. split; [now rewrite <- !app_assoc|].
        split; [eapply w_texture; eassumption|].
        apply (adds_trans _ _ _ _ _ _ _ _ _ (adds_empty _ _ _ _ _ A1) A). }
    destruct (purl litLsystem s) as [| |url s'] eqn:E3; [|discriminate|].
    2:{ intros H. apply after_inv in H as (sh1 & r' & R & U & H). injection R as R. pose proof R as R0. unfold addLsystem, getContent in R.
        destruct (file (directory ++ url)) as [c|] eqn:F; [|discriminate]. cbn [bind] in R. destruct (lsystemOf c) as [l| |] eqn:Ea; try discriminate.
        apply IH in H as (t & rest & rs & ts & ls & -> & W & A).
        destruct (url_inv (str "@lsystem") _ _ _ _ _ eq_refl E3 U) as (g & g1 & G & G1 & Ul & ->).
        destruct (adds_lsystem file lsystemOf directory url sh c l (baseName url) F Ea) as (sh2 & Es & A1); [now apply stem_ok|].
        rewrite R0 in Es. injection Es as <-.
        exists (g ++ quoted (str "@lsystem") url g1 ++ t), rest. do 3 eexists. split; [now rewrite <- !app_assoc|].
        split; [eapply w_lsystem; try eassumption; now apply stem_ok|].
        apply (adds_trans _ _ _ _ _ _ _ _ _ (adds_empty _ _ _ _ _ A1) A). }
    intros [= <-]. exists [], s, [], [], []. split; [reflexivity|]. split; [constructor|apply adds_nil].
  Qed.
  Lemma parse_inv depth s sh sh' : parseInto depth s sh = Ran (Ok sh') -> explains s sh sh'.
  Proof.
    revert s sh sh'. induction depth as [|d IH]; intros s sh sh'; cbn [MapCssModel.parseInto]; [discriminate|].
    apply items_inv. exact IH.
  Qed.

  (** ** Depth *)
  Lemma items_mono n1 n2 : (forall s sh o, n1 s sh = Ran o -> n2 s sh = Ran o) ->
    forall fuel s sh o, items n1 fuel s sh = Ran o -> items n2 fuel s sh = Ran o.
  Proof.
    intros Hn. induction fuel as [|fuel IH]; intros s sh o; cbn [MapCssModel.items]; [discriminate|].
    destruct (prule s) as [| |r s']; [|auto|apply IH].
    destruct (purl litImport s) as [| |url s']; [|auto|].
    2:{ unfold afterUrl, readImport. intros H. destruct (n1 _ sh) as [|o1] eqn:E; [discriminate|]. apply Hn in E. rewrite E.
        destruct o1 as [sh1| |]; cbn [rbind] in *; [|exact H|exact H]. destruct (purlEnd s') as [| |u q]; [exact H|exact H|now apply IH]. }
    destruct (purl litTexture s) as [| |url s']; [|auto|].
    2:{ unfold afterUrl. destruct (addAtlas _ _ _ _ _) as [sh1| |]; cbn [rbind]; auto. destruct (purlEnd s') as [| |u q]; auto. }
    destruct (purl litLsystem s) as [| |url s']; [|auto|].
    2:{ unfold afterUrl. destruct (addLsystem _ _ _ _ _) as [sh1| |]; cbn [rbind]; auto. destruct (purlEnd s') as [| |u q]; auto. }
    auto.
  Qed.
  Lemma parse_mono d d' s sh o : (d <= d')%nat -> parseInto d s sh = Ran o -> parseInto d' s sh = Ran o.
  Proof.
    revert d' s sh o. induction d as [|d IH]; intros d' s sh o L; cbn [MapCssModel.parseInto]; [discriminate|].
    destruct d' as [|d']; [lia|]. cbn [MapCssModel.parseInto]. apply items_mono. intros s' sh' o'. apply IH. lia.
  Qed.
End Accepted.
