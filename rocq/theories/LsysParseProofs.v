From Coq Require Import String.
From Verif Require Import Base Bytes BytesProofs JsonModel Peg PegProofs LsysModel LsysSpec LsysProofs LsysParseModel XmlModel XmlSpec XmlProofs LsysParseSpec.
Local Open Scope list_scope.
Local Arguments str : simpl never.

(** ** The skipper *)
Lemma afterFeed_ok c s : ~ In 10%N c -> afterFeed (c ++ feed ++ s) = Some s.
Proof.
  induction c as [|d c IH]; intros N; [reflexivity|]. cbn [app afterFeed]. destruct (N.eqb_spec d 10) as [->|]; [exfalso; apply N; now left|].
  apply IH. intros I. apply N. now right.
Qed.
Lemma afterFeed_inv s r : afterFeed s = Some r -> exists c, ~ In 10%N c /\ s = c ++ feed ++ r.
Proof.
  revert r. induction s as [|d s IH]; intros r H; [discriminate|]. cbn [afterFeed] in H. destruct (N.eqb_spec d 10) as [->|D].
  - injection H as ->. exists []. split; [intros []|reflexivity].
  - apply IH in H as (c & N & ->). exists (d :: c). split; [|reflexivity]. intros [E|I]; [congruence|contradiction].
Qed.
Lemma afterFeed_none s : afterFeed s = None <-> ~ In 10%N s.
Proof.
  induction s as [|d s IH]; cbn [afterFeed In]; [tauto|]. destruct (N.eqb_spec d 10) as [->|D]; [split; [discriminate|tauto]|]. rewrite IH. split; [intros H [E|I]; [congruence|contradiction]|tauto].
Qed.
Lemma skipOne_inv s r : skipComment s = Some r -> exists g, cgap g /\ g <> [] /\ s = g ++ r.
Proof.
  destruct s as [|c s]; [discriminate|]. cbn [skipComment]. destruct (N.eqb_spec c 32) as [->|].
  - intros [= <-]. exists [32%N]. split; [repeat constructor|]. split; [discriminate|reflexivity].
  - destruct (N.eqb_spec c 35) as [->|]; [|discriminate]. intros H. apply afterFeed_inv in H as (x & N & ->).
    exists (str "#" ++ x ++ feed ++ []). split; [constructor; [exact N|constructor]|]. split; [discriminate|].
    rewrite app_nil_r. change (str "#") with [35%N]. cbn [app]. now rewrite <- app_assoc.
Qed.
Lemma cgap_app a b : cgap a -> cgap b -> cgap (a ++ b).
Proof. induction 1 as [|g _ IH|c g N _ IH]; intros H; cbn [app]; [exact H|constructor; auto|]. rewrite <- !app_assoc. constructor; auto. Qed.
Lemma skipC_fuel g y fuel : cgap g -> skipComment y = None -> (List.length g <= fuel)%nat -> skipCommentFuel fuel (g ++ y) = y.
Proof.
  intros G Y. revert fuel. induction G as [|g _ IH|c g N _ IH]; intros fuel L.
  - cbn [app]. destruct fuel; [reflexivity|]. cbn [skipCommentFuel]. now rewrite Y.
  - cbn [List.length] in L. destruct fuel as [|fuel]; [lia|]. cbn [app skipCommentFuel skipComment]. apply IH. lia.
  - change (str "#") with [35%N] in *. rewrite !app_length in L. cbn [List.length] in L. destruct fuel as [|fuel]; [lia|]. rewrite <- !app_assoc. cbn [app skipCommentFuel skipComment].
    change (35 =? 32)%N with false. change (35 =? 35)%N with true. cbv iota. rewrite afterFeed_ok by exact N. apply IH. lia.
Qed.
Lemma skipC_ok g y : cgap g -> skipComment y = None -> skipComments (g ++ y) = y.
Proof. intros G Y. apply skipC_fuel; [exact G|exact Y|rewrite app_length; lia]. Qed.
Lemma skipC_inv s : exists g, cgap g /\ s = g ++ skipComments s /\ skipComment (skipComments s) = None.
Proof.
  unfold skipComments. assert (H : forall fuel s, (List.length s <= fuel)%nat ->
    exists g, cgap g /\ s = g ++ skipCommentFuel fuel s /\ skipComment (skipCommentFuel fuel s) = None).
  { clear s. induction fuel as [|fuel IH]; intros s L.
    - destruct s; [|cbn in L; lia]. exists []. split; [constructor|]. split; reflexivity.
    - cbn [skipCommentFuel]. destruct (skipComment s) as [r|] eqn:E.
      + apply skipOne_inv in E as (g & G & N & ->). destruct (IH r) as (g' & G' & E' & S').
        { rewrite app_length in L. destruct g; [congruence|]. cbn in L. lia. }
        exists (g ++ g'). split; [now apply cgap_app|]. split; [rewrite <- app_assoc; now rewrite <- E'|exact S'].
      + exists []. split; [constructor|]. split; [reflexivity|exact E]. }
  apply H. lia.
Qed.
(** Neither a blank nor a comment. *)
Definition firmC (l : bytes) : Prop := match l with [] => False | c :: _ => c <> 32%N /\ c <> 35%N end.
Lemma firmC_stop l s : firmC l -> skipComment (l ++ s) = None.
Proof. destruct l as [|c l]; [contradiction|]. intros [A B]. cbn. destruct (N.eqb_spec c 32); [congruence|]. destruct (N.eqb_spec c 35); [congruence|reflexivity]. Qed.
Lemma tokC_ok g l s : cgap g -> firmC l -> tokC l (g ++ l ++ s) = Parsed tt s.
Proof. intros G F. unfold tokC, pskip. rewrite skipC_ok; [apply lit_ok|exact G|now apply firmC_stop]. Qed.
Lemma tokC_inv l s u r : tokC l s = Parsed u r -> exists g, cgap g /\ s = g ++ l ++ r.
Proof.
  unfold tokC, pskip. intros H. apply lit_inv in H. destruct (skipC_inv s) as (g & G & E & _). exists g. split; [exact G|]. now rewrite E, H at 1.
Qed.
Lemma tokC_no g l y : cgap g -> skipComment y = None -> plit l y = Fail -> tokC l (g ++ y) = Fail.
Proof. intros G Y H. unfold tokC, pskip. now rewrite skipC_ok. Qed.

(** ** Rules *)
Lemma alpha_letter c : isAlpha c = true <-> letter c.
Proof. unfold isAlpha, letter. lia. Qed.
Lemma symbolOf_in c r : symbolOf c = Some r <-> In ([c], r) symbols.
Proof.
  split.
  - unfold symbolOf. intros H. repeat (match type of H with (if N.eqb c ?k then _ else _) = _ => destruct (N.eqb_spec c k) as [->|] end;
      [injection H as <-; unfold symbols; repeat (first [left; reflexivity|right])|]). discriminate.
  - unfold symbols. cbn [In]. intros H. repeat (destruct H as [H|H]; [injection H as <- <-; reflexivity|]). destruct H.
Qed.
Lemma symbol_one t r : In (t, r) symbols -> exists c, t = [c].
Proof. unfold symbols. cbn [In]. intros H. repeat (destruct H as [H|H]; [injection H as <- _; eexists; reflexivity|]). destruct H. Qed.
Lemma symbolOf_none c : symbolOf c = None <-> ~ In [c] (map fst symbols).
Proof.
  split.
  - intros H I. apply in_map_iff in I as ([t r] & E & I). cbn [fst] in E. subst t. apply symbolOf_in in I. congruence.
  - intros H. destruct (symbolOf c) as [r|] eqn:E; [|reflexivity]. exfalso. apply H. apply symbolOf_in in E. apply in_map_iff. exists ([c], r). auto.
Qed.
Lemma symbol_firm c r : symbolOf c = Some r -> c <> 32%N /\ c <> 35%N.
Proof. intros H. split; intros ->; discriminate H. Qed.
Lemma alpha_firm c : isAlpha c = true -> c <> 32%N /\ c <> 35%N.
Proof. unfold isAlpha. lia. Qed.
Lemma rule_firm r t : ruleText r t -> firmC t.
Proof.
  intros [I|(w & _ & -> & N & F & _)].
  - destruct (symbol_one t r I) as (c & ->). apply symbolOf_in in I. now apply (symbol_firm c r).
  - destruct w as [|c w]; [congruence|]. apply alpha_firm, alpha_letter. exact (Forall_inv F).
Qed.
Lemma rule_ok g r t s : cgap g -> ruleText r t -> (forall w, r = Word w -> ~ startsLetter s) -> prule (g ++ t ++ s) = Parsed r s.
Proof.
  intros G R S. unfold prule, pskip. rewrite skipC_ok; [|exact G|apply firmC_stop; now apply (rule_firm r)]. destruct R as [I|(w & -> & -> & N & F & Ns)].
  - destruct (symbol_one t r I) as (c & ->). apply symbolOf_in in I. apply or_ok. cbn [app psymbol]. now rewrite I.
  - destruct w as [|c w]; [congruence|]. rewrite or_no; [|cbn [app psymbol]; cbn [firstn] in Ns; apply symbolOf_none in Ns; now rewrite Ns].
    unfold pword. rewrite (bind_ok _ _ _ (c :: w) s); [reflexivity|]. apply chars_ok; [discriminate|eapply Forall_impl; [|exact F]; intros x; apply alpha_letter|].
    destruct s as [|d s]; [exact I|]. specialize (S _ eq_refl). cbn in S. destruct (isAlpha d) eqn:E; [apply alpha_letter in E; contradiction|reflexivity].
Qed.
Lemma rule_inv s r q : prule s = Parsed r q -> exists g t, cgap g /\ ruleText r t /\ s = g ++ t ++ q /\ (forall w, r = Word w -> ~ startsLetter q).
Proof.
  unfold prule, pskip. intros H. destruct (skipC_inv s) as (g & G & E & _). apply or_inv_full in H as [H|[H0 H]].
  - unfold psymbol in H. destruct (skipComments s) as [|c s'] eqn:Es; [discriminate|]. destruct (symbolOf c) as [r'|] eqn:Er; [|discriminate]. injection H as -> ->.
    apply symbolOf_in in Er. exists g, [c]. split; [exact G|]. split; [left; exact Er|]. split; [exact E|]. intros w ->. exfalso. unfold symbols in Er. cbn [In] in Er.
    repeat (destruct Er as [Er|Er]; [discriminate|]). destruct Er.
  - unfold pword in H. apply bind_inv in H as (w & q' & H1 & H). injection H as <- ->. pose proof (span_app isAlpha (skipComments s)) as Sp. unfold pchars1 in H1.
    destruct (spanOf isAlpha (skipComments s)) as [a b]. destruct a as [|c a]; [discriminate|]. injection H1 as <- ->. destruct Sp as (E1 & F & Nx).
    exists g, (c :: a). split; [exact G|]. split; [right; exists (c :: a); split; [reflexivity|]; split; [reflexivity|]; split; [discriminate|]; split|split].
    + eapply Forall_impl; [|exact F]. intros x. apply alpha_letter.
    + cbn [firstn]. apply symbolOf_none. unfold psymbol in H0. rewrite E1 in H0. cbn [app] in H0. destruct (symbolOf c); [discriminate|reflexivity].
    + now rewrite E, E1 at 1.
    + intros w _. destruct q as [|d q]; [auto|]. cbn. intros L. apply alpha_letter in L. congruence.
Qed.
Lemma stuck_skip y : stuck y -> skipComment y = None.
Proof.
  destruct y as [|c y]; [reflexivity|]. intros (A & _ & _ & B). cbn. destruct (N.eqb_spec c 32); [congruence|]. destruct (N.eqb_spec c 35) as [->|]; [|reflexivity].
  apply afterFeed_none. auto.
Qed.
Lemma stuck_rule g y : cgap g -> stuck y -> prule (g ++ y) = Fail.
Proof.
  intros G S. unfold prule, pskip. rewrite skipC_ok; [|exact G|now apply stuck_skip]. destruct y as [|c y]; [reflexivity|]. destruct S as (_ & L & Sy & _).
  rewrite or_no; [|cbn; apply symbolOf_none in Sy; now rewrite Sy]. unfold pword. apply bind_no. unfold pchars1. cbn [spanOf].
  destruct (isAlpha c) eqn:E; [apply alpha_letter in E; contradiction|reflexivity].
Qed.
Lemma rule_stuck s : prule s = Fail -> exists g y, cgap g /\ stuck y /\ s = g ++ y /\ y = skipComments s.
Proof.
  unfold prule, pskip. intros H. destruct (skipC_inv s) as (g & G & E & St). exists g, (skipComments s). split; [exact G|]. split; [|auto].
  destruct (skipComments s) as [|c y]; [exact I|]. unfold por in H. cbn [psymbol] in H. destruct (symbolOf c) eqn:Ec; [discriminate|]. apply symbolOf_none in Ec.
  unfold pword, pbind, pchars1 in H. cbn [spanOf] in H. destruct (isAlpha c) eqn:Ea; [destruct (spanOf isAlpha y); discriminate|].
  cbn [skipComment] in St. destruct (N.eqb_spec c 32) as [|D]; [discriminate|]. split; [exact D|]. split; [intros L; apply alpha_letter in L; congruence|]. split; [exact Ec|].
  intros ->. change (35 =? 35)%N with true in St. now apply afterFeed_none.
Qed.
Lemma rule_bad s : prule s <> Unexpected.
Proof.
  unfold prule, pskip, por, pword, pbind, pchars1. destruct (skipComments s) as [|c y]; [discriminate|]. cbn [psymbol]. destruct (symbolOf c); [discriminate|].
  destruct (spanOf isAlpha (c :: y)) as [[|]]; discriminate.
Qed.
Lemma rule_less s r q : prule s = Parsed r q -> (List.length q < List.length s)%nat.
Proof.
  intros H. apply rule_inv in H as (g & t & _ & R & -> & _). apply rule_firm in R. rewrite !app_length. destruct t; [contradiction|]. cbn. lia.
Qed.
(** Repetition ends where nothing more matches. *)
Lemma many_stops {A} (p : parser A) s l r : (forall s a r, p s = Parsed a r -> (List.length r < List.length s)%nat) -> pmany p s = Parsed l r -> p r = Fail.
Proof.
  intros Less. unfold pmany. assert (L : (List.length s < S (List.length s))%nat) by lia. revert L. generalize (S (List.length s)). intros f. revert s l r.
  induction f as [|f IH]; intros s l r L H; [lia|]. cbn [pmanyFuel] in H. destruct (p s) as [| |a q] eqn:E; [injection H as <- <-; exact E|discriminate|].
  destruct (pmanyFuel f p q) as [| |l' r'] eqn:E'; try discriminate. injection H as _ <-. apply (IH q l'); [|exact E']. apply Less in E. lia.
Qed.
Definition resting (s : bytes) : Prop := exists g y, cgap g /\ stuck y /\ s = g ++ y.
Lemma resting_letter s : resting s -> ~ startsLetter s.
Proof.
  intros (g & y & G & S & ->). destruct G as [|g _|c g _ _]; cbn [app].
  - destruct y as [|d y]; [auto|]. destruct S as (_ & L & _). exact L.
  - cbn. unfold letter. lia.
  - change (str "#") with [35%N]. cbn. unfold letter. lia.
Qed.
Lemma rulesMany_ok rs u s : rulesText rs u -> resting s -> pmany prule (u ++ s) = Parsed rs s.
Proof.
  intros M R. unfold pmany. assert (L : (List.length rs < S (List.length (u ++ s)))%nat).
  { rewrite app_length. clear R. induction M as [|g r t rs u _ Rt _ IH _]; [cbn; lia|]. apply rule_firm in Rt. destruct t; [contradiction|]. cbn [List.length]. rewrite !app_length. cbn [List.length]. lia. }
  generalize dependent (S (List.length (u ++ s))). induction M as [|g r t rs u G Rt M IH W]; intros f L.
  - destruct f as [|f]; [lia|]. cbn [pmanyFuel app]. destruct R as (g & y & G & S & ->). now rewrite stuck_rule.
  - cbn [List.length] in L. destruct f as [|f]; [lia|]. cbn [pmanyFuel]. rewrite <- !app_assoc. rewrite (rule_ok g r t (u ++ s) G Rt).
    + rewrite IH by lia. reflexivity.
    + intros w Ew. specialize (W w Ew). destruct u as [|c u]; [now apply resting_letter|exact W].
Qed.
Lemma rules1_ok rs u s : rs <> [] -> rulesText rs u -> resting s -> pmany1 prule (u ++ s) = Parsed rs s.
Proof.
  intros N M R. destruct M as [|g r t rs u G Rt M W]; [congruence|]. unfold pmany1. rewrite <- !app_assoc.
  rewrite (bind_ok _ _ _ r (u ++ s)) by (apply rule_ok; [exact G|exact Rt|]; intros w Ew; specialize (W w Ew); destruct u as [|c u]; [now apply resting_letter|exact W]).
  erewrite bind_ok by (apply rulesMany_ok; eassumption). reflexivity.
Qed.
Lemma rulesMany_inv s rs q : pmany prule s = Parsed rs q -> exists u, rulesText rs u /\ s = u ++ q /\ resting q.
Proof.
  intros H. pose proof (many_stops prule s rs q rule_less H) as St. apply rule_stuck in St as (g & y & G & Sy & E & _).
  assert (X : exists u, rulesText rs u /\ s = u ++ q).
  { clear E Sy G g y. unfold pmany in H. revert H. generalize (S (List.length s)). intros f. revert s rs q. induction f as [|f IH]; intros s rs q H; cbn [pmanyFuel] in H.
    - injection H as <- <-. exists []. split; [constructor|reflexivity].
    - destruct (prule s) as [| |r q1] eqn:E; [injection H as <- <-; exists []; split; [constructor|reflexivity]|discriminate|].
      destruct (pmanyFuel f prule q1) as [| |l' r'] eqn:E'; try discriminate. injection H as <- <-.
      apply rule_inv in E as (g & t & G & Rt & -> & W). apply IH in E' as (u & U & ->). exists (g ++ t ++ u). split; [|now rewrite <- !app_assoc].
      constructor; [exact G|exact Rt|exact U|]. intros w Ew. specialize (W w Ew). destruct u; [auto|exact W]. }
  destruct X as (u & U & ->). exists u. split; [exact U|]. split; [reflexivity|]. exists g, y. auto.
Qed.
Lemma rules1_inv s rs q : pmany1 prule s = Parsed rs q -> exists u, rs <> [] /\ rulesText rs u /\ s = u ++ q /\ resting q.
Proof.
  unfold pmany1. intros H. apply bind_inv in H as (r & q1 & H1 & H). apply bind_inv in H as (l & q2 & H2 & H). injection H as <- ->.
  apply rule_inv in H1 as (g & t & G & Rt & -> & W). apply rulesMany_inv in H2 as (u & U & -> & R). exists (g ++ t ++ u). split; [discriminate|]. split; [|split; [now rewrite <- !app_assoc|exact R]].
  constructor; [exact G|exact Rt|exact U|]. intros w Ew. specialize (W w Ew). destruct u; [auto|exact W].
Qed.

(** ** Numbers *)
Lemma digitsFrom_natural ds acc : Forall (fun c => isDigitX c = true) ds -> digitsFrom (Z.of_N acc) ds = Z.of_N (naturalFrom acc ds).
Proof.
  intros F. revert acc. induction F as [|d ds D _ IH]; intros acc; [reflexivity|]. cbn [digitsFrom naturalFrom]. rewrite <- IH. f_equal. unfold isDigitX in D. lia.
Qed.
Lemma digit_same c : isDigitL c = isDigitX c.
Proof. unfold isDigitL, isDigitX. reflexivity. Qed.
Lemma span_same s : spanOf isDigitL s = spanOf isDigitX s.
Proof. induction s as [|c s IH]; [reflexivity|]. cbn [spanOf]. now rewrite digit_same, IH. Qed.
Lemma natural_head ds v : natural ds v -> exists c ds', ds = c :: ds' /\ (48 <= c <= 57)%N.
Proof.
  intros D. destruct (natural_from _ _ D) as (N & F & _). destruct ds as [|c ds]; [congruence|]. exists c, ds. split; [reflexivity|]. pose proof (Forall_inv F) as C. cbn beta in C. unfold isDigitX in C. lia.
Qed.
Lemma int_ok z w s : integer z w -> match s with [] => True | c :: _ => isDigitX c = false end -> pint (w ++ s) = Parsed z s.
Proof.
  intros (ds & v & D & R & W) S. destruct (natural_head _ _ D) as (c & ds' & E & C). destruct (natural_from _ _ D) as (N & F & Ev).
  assert (P : spanOf isDigitL (ds ++ s) = (ds, s)) by (rewrite span_same; now apply span_all).
  assert (V : digitsFrom 0 ds = Z.of_N v) by (rewrite <- Ev; now apply (digitsFrom_natural ds 0)).
  assert (Si : forall sg, signOf (w ++ s) = (sg, ds ++ s) -> (sg * Z.of_N v)%Z = z -> pint (w ++ s) = Parsed z s).
  { intros sg Es Ez. unfold pint. rewrite Es, P, V, Ez. destruct ds as [|c0 ds0]; [discriminate|].
    destruct (Z.leb_spec (-2147483648) z); [|lia]. destruct (Z.leb_spec z 2147483647); [reflexivity|lia]. }
  destruct W as [[-> ->]|[[-> ->]|[-> ->]]].
  - apply (Si 1%Z); [|lia]. rewrite E. cbn [app signOf]. destruct (N.eqb_spec c 45); [lia|]. destruct (N.eqb_spec c 43); [lia|]. reflexivity.
  - apply (Si 1%Z); [reflexivity|lia].
  - apply (Si (-1)%Z); [reflexivity|lia].
Qed.
Lemma int_inv s z r : pint s = Parsed z r -> exists w, integer z w /\ s = w ++ r.
Proof.
  unfold pint. destruct (signOf s) as [sg s'] eqn:Sg. rewrite span_same. pose proof (span_app isDigitX s') as Sp. destruct (spanOf isDigitX s') as [ds q]. destruct Sp as (E & F & _).
  destruct ds as [|d ds]; [discriminate|]. set (l := d :: ds) in *. assert (V : digitsFrom 0 l = Z.of_N (naturalFrom 0 l)) by (now apply (digitsFrom_natural l 0)).
  assert (D : natural l (naturalFrom 0 l)) by (apply from_natural; [discriminate|exact F]). rewrite V. clear V. generalize dependent (naturalFrom 0 l). intros v D.
  destruct (Z.leb_spec (-2147483648) (sg * Z.of_N v)); [|discriminate]. destruct (Z.leb_spec (sg * Z.of_N v) 2147483647); [|discriminate].
  intros [= <- <-]. unfold signOf in Sg. destruct s as [|c s]; [injection Sg as <- <-; unfold l in E; discriminate E|].
  destruct (N.eqb_spec c 45) as [->|].
  - injection Sg as <- <-. exists (str "-" ++ l). split; [|rewrite E; reflexivity]. exists l, v. split; [exact D|]. split; [lia|]. right. right. split; [reflexivity|lia].
  - destruct (N.eqb_spec c 43) as [->|].
    + injection Sg as <- <-. exists (str "+" ++ l). split; [|rewrite E; reflexivity]. exists l, v. split; [exact D|]. split; [lia|]. right. left. split; [reflexivity|lia].
    + injection Sg as <- <-. exists l. split; [|exact E]. exists l, v. split; [exact D|]. split; [lia|]. left. split; [reflexivity|lia].
Qed.
Lemma int_bad s : pint s <> Unexpected.
Proof. unfold pint. destruct (signOf s) as [sg s']. destruct (spanOf isDigitL s') as [[|] q]; [discriminate|]. destruct (_ && _)%bool; discriminate. Qed.
Lemma int_firm z w : integer z w -> firmC w.
Proof.
  intros (ds & v & D & _ & W). destruct (natural_head _ _ D) as (c & ds' & -> & C). destruct W as [[-> _]|[[-> _]|[-> _]]]; cbn; [lia|now split|now split].
Qed.

(** ** Line breaks *)
Lemma break_ok g c t s : cgap g -> t = [c] /\ (9 <= c <= 13)%N -> pbreak (g ++ t ++ s) = Parsed c s.
Proof.
  intros G [-> C]. unfold pbreak, pskip. rewrite skipC_ok; [|exact G|apply firmC_stop; cbn; lia]. cbn. unfold isSpace.
  destruct (N.eqb_spec c 32); [lia|]. destruct (N.leb_spec 9 c); [|lia]. destruct (N.leb_spec c 13); [reflexivity|lia].
Qed.
Lemma break_inv s c r : pbreak s = Parsed c r -> exists g t, cgap g /\ (t = [c] /\ (9 <= c <= 13)%N) /\ s = g ++ t ++ r.
Proof.
  unfold pbreak, pskip. intros H. destruct (skipC_inv s) as (g & G & E & St). destruct (skipComments s) as [|d q] eqn:Es; [discriminate|]. cbn [pchar] in H.
  destruct (isSpace d) eqn:D; [|discriminate]. injection H as <- <-. exists g, [d]. split; [exact G|]. split; [|exact E]. split; [reflexivity|].
  cbn [skipComment] in St. destruct (N.eqb_spec d 32); [discriminate|]. unfold isSpace in D. lia.
Qed.
Lemma break_no g y : cgap g -> skipComment y = None -> match y with [] => True | c :: _ => isSpace c = false end -> pbreak (g ++ y) = Fail.
Proof. intros G Y S. unfold pbreak, pskip. rewrite skipC_ok by assumption. destruct y as [|c y]; [reflexivity|]. cbn. now rewrite S. Qed.
Lemma breaks_ok sp g y : breakText sp -> cgap g -> skipComment y = None -> match y with [] => True | c :: _ => isSpace c = false end ->
  exists l, pmany1 pbreak (sp ++ g ++ y) = Parsed l (g ++ y).
Proof.
  intros (l & N & M) G Y S. exists l. eapply many1X_ok; [|exact break_ok|exact N|exact M|now apply break_no]. intros a t [-> _]. discriminate.
Qed.
Lemma breaks_inv s l r : pmany1 pbreak s = Parsed l r -> exists sp, breakText sp /\ s = sp ++ r.
Proof.
  intros H. eapply many1X_inv in H as (u & N & U & E); [|exact break_inv]. exists u. split; [|exact E]. exists l. auto.
Qed.
Lemma break_bad s : pbreak s <> Unexpected.
Proof. unfold pbreak, pskip, pchar. destruct (skipComments s) as [|c q]; [discriminate|]. destruct (isSpace c); discriminate. Qed.
Lemma breakText_head sp : breakText sp -> exists c u, sp = c :: u /\ (c = 32 \/ c = 35 \/ 9 <= c <= 13)%N.
Proof.
  intros (l & N & M). destruct M as [|g a t l u G [-> A] _]; [congruence|]. destruct G as [|g _|c g _ _]; cbn [app].
  - exists a, u. split; [reflexivity|]. lia.
  - eexists _, _. split; [reflexivity|]. lia.
  - change (str "#") with [35%N]. cbn [app]. eexists _, _. split; [reflexivity|]. lia.
Qed.

(** ** Productions *)
Lemma cgap_letter g s : cgap g -> ~ startsLetter s -> ~ startsLetter (g ++ s).
Proof. intros G S. destruct G as [|g _|c g _ _]; [exact S|cbn; unfold letter; lia|]. change (str "#") with [35%N]. cbn. unfold letter. lia. Qed.
Lemma cgap_ends g s : cgap g -> endsNumber s -> endsNumber (g ++ s).
Proof. intros G S. destruct G as [|g _|c g _ _]; [exact S|cbn; lia|]. change (str "#") with [35%N]. cbn. lia. Qed.
Lemma feed_stuck s : stuck (feed ++ s).
Proof.
  cbn. split; [discriminate|]. split; [unfold letter; lia|]. split; [|discriminate]. intros I. cbn in I. repeat (destruct I as [I|I]; [discriminate|]). destruct I.
Qed.
Lemma arrow_letter s : ~ startsLetter (str "->" ++ s).
Proof. change (str "->") with [45; 62]%N. cbn. unfold letter. lia. Qed.
Lemma open_letter s : ~ startsLetter (str "(" ++ s).
Proof. change (str "(") with [40]%N. cbn. unfold letter. lia. Qed.
(** ** Entries *)
Definition easy (y : bytes) : Prop := firmC y /\ match y with [] => True | c :: _ => isSpace c = false end.
Lemma entry_ok {A} (p : parser A) (P : bytes -> Prop) v key t g y : firmC key -> (forall g w s, cgap g -> P w -> endsNumber s -> p (g ++ w ++ s) = Parsed v s) ->
  entryText P key t -> cgap g -> easy y ->
  exists q, tokC key (t ++ g ++ y) = Parsed tt q /\ pexpect (pentry p) q = Parsed v (g ++ y).
Proof.
  intros K Hp (g0 & g1 & w & sp & G0 & G1 & W & B & ->) G [Y Sy]. exists (g1 ++ w ++ sp ++ g ++ y). rewrite <- !app_assoc. split; [now apply tokC_ok|].
  apply expect_ok. unfold pentry. erewrite bind_ok.
  2:{ apply Hp; [exact G1|exact W|]. destruct (breakText_head sp B) as (c & u & -> & C). cbn. lia. }
  destruct (breaks_ok sp g y B G) as (l & E); [|exact Sy|].
  - rewrite <- (app_nil_r y). now apply firmC_stop.
  - erewrite bind_ok by exact E. reflexivity.
Qed.
Lemma entry_inv {A} (p : parser A) (P : bytes -> Prop) v key s u q r : (forall s r, p s = Parsed v r -> exists g w, cgap g /\ P w /\ s = g ++ w ++ r) ->
  tokC key s = Parsed u q -> pexpect (pentry p) q = Parsed v r -> exists t, entryText P key t /\ s = t ++ r.
Proof.
  intros Hp H1 H2. apply tokC_inv in H1 as (g0 & G0 & ->). apply expect_inv in H2. unfold pentry in H2. apply bind_inv in H2 as (v' & q1 & H2 & H3).
  apply bind_inv in H3 as (l & q2 & H3 & H4). injection H4 as -> ->. apply Hp in H2 as (g & w & G & W & ->). apply breaks_inv in H3 as (sp & B & ->).
  exists (g0 ++ key ++ g ++ w ++ sp). split; [exists g0, g, w, sp; auto|]. now rewrite <- !app_assoc.
Qed.
Lemma skipInt_ok z g w s : cgap g -> integer z w -> endsNumber s -> pskip skipComments pint (g ++ w ++ s) = Parsed z s.
Proof.
  intros G W E. unfold pskip. rewrite skipC_ok; [|exact G|apply firmC_stop; now apply (int_firm z)]. apply int_ok; [exact W|]. destruct s as [|c s]; [exact I|]. cbn in E. unfold isDigitX. lia.
Qed.
Lemma skipInt_inv z s r : pskip skipComments pint s = Parsed z r -> exists g w, cgap g /\ integer z w /\ s = g ++ w ++ r.
Proof.
  unfold pskip. intros H. apply int_inv in H as (w & W & E). destruct (skipC_inv s) as (g & G & Es & _). exists g, w. split; [exact G|]. split; [exact W|]. now rewrite Es, E at 1.
Qed.
Section Numbers.
  Context {T : Type} (one : T) (numeral : T -> bytes -> Prop) (number : bytes -> option (T * bytes)) (Good : goodDouble numeral number).

  Lemma number_ok g v w s : cgap g -> numeral v w -> endsNumber s -> pnumber number (g ++ w ++ s) = Parsed v s.
  Proof using Good.
    intros G W E. destruct Good as (_ & G2 & G3). unfold pnumber, pskip. rewrite skipC_ok; [|exact G|].
    - now rewrite (G2 v w s).
    - apply firmC_stop. destruct (G3 v w W) as (c & w' & -> & A & B). split; assumption.
  Qed.
  Lemma number_inv s v r : pnumber number s = Parsed v r -> exists g w, cgap g /\ numeral v w /\ s = g ++ w ++ r.
  Proof using Good.
    unfold pnumber, pskip. intros H. destruct (skipC_inv s) as (g & G & E & _). destruct (number (skipComments s)) as [[v' r']|] eqn:En; [|discriminate]. injection H as -> ->.
    apply Good in En as (w & Ew & W). exists g, w. split; [exact G|]. split; [exact W|]. now rewrite E, Ew at 1.
  Qed.
  Lemma probability_ok p t g s : probabilityText one numeral p t -> cgap g -> pprobability one number (t ++ g ++ str "->" ++ s) = Parsed p (g ++ str "->" ++ s).
  Proof using Good.
    intros [[-> ->]|(g1 & g2 & w & g3 & G1 & G2 & W & G3 & ->)] G; unfold pprobability.
    - cbn [app]. rewrite or_no; [reflexivity|]. apply bind_no. apply tokC_no; [exact G|reflexivity|reflexivity].
    - apply or_ok. rewrite <- !app_assoc. erewrite bind_ok by (apply tokC_ok; [exact G1|now split]). erewrite bind_ok by (apply expect_ok, number_ok; [exact G2|exact W|apply cgap_ends; [exact G3|right; right; left; reflexivity]]).
      erewrite bind_ok by (apply expect_ok, tokC_ok; [exact G3|now split]). reflexivity.
  Qed.
  Lemma probability_inv s p r : pprobability one number s = Parsed p r -> exists t, probabilityText one numeral p t /\ s = t ++ r.
  Proof using Good.
    unfold pprobability. intros H. apply or_inv in H as [H|H].
    - apply bind_inv in H as (? & r1 & H1 & H). apply bind_inv in H as (v & r2 & H2 & H). apply bind_inv in H as (? & r3 & H3 & H). injection H as -> ->.
      apply tokC_inv in H1 as (g1 & G1 & ->). apply expect_inv in H2. apply number_inv in H2 as (g2 & w & G2 & W & ->). apply expect_inv in H3. apply tokC_inv in H3 as (g3 & G3 & ->).
      exists (g1 ++ str "(" ++ g2 ++ w ++ g3 ++ str ")"). split; [right; exists g1, g2, w, g3; auto|]. now rewrite <- !app_assoc.
    - injection H as -> ->. exists []. split; [left; auto|reflexivity].
  Qed.
  Lemma production_ok l t s : lineText one numeral l t -> resting s -> pproduction one number (t ++ s) = Parsed l s.
  Proof using Good.
    destruct l as [[r p] rs]. intros (g & tr & tp & g2 & u & G & R & P & G2 & N & U & ->) S. cbn [fst snd] in *. unfold pproduction. rewrite <- !app_assoc.
    erewrite bind_ok.
    2:{ apply rule_ok; [exact G|exact R|]. intros w _. destruct P as [[_ ->]|(g1 & g2' & w' & g3 & G1 & _ & _ & _ & ->)]; cbn [app].
        - apply cgap_letter; [exact G2|]. apply arrow_letter.
        - rewrite <- app_assoc. apply cgap_letter; [exact G1|]. apply open_letter. }
    erewrite bind_ok by (apply expect_ok, probability_ok; eassumption). erewrite bind_ok by (apply expect_ok, tokC_ok; [exact G2|now split]).
    erewrite bind_ok by (apply expect_ok, rules1_ok; eassumption). reflexivity.
  Qed.
  Lemma production_inv s l r : pproduction one number s = Parsed l r -> exists t, lineText one numeral l t /\ s = t ++ r /\ resting r.
  Proof using Good.
    unfold pproduction. intros H. apply bind_inv in H as (r1 & s1 & H1 & H). apply bind_inv in H as (p & s2 & H2 & H). apply bind_inv in H as (? & s3 & H3 & H).
    apply bind_inv in H as (rs & s4 & H4 & H). injection H as <- ->. apply rule_inv in H1 as (g & tr & G & R & -> & _). apply expect_inv in H2. apply probability_inv in H2 as (tp & P & ->).
    apply expect_inv in H3. apply tokC_inv in H3 as (g2 & G2 & ->). apply expect_inv in H4. apply rules1_inv in H4 as (u & N & U & -> & S).
    exists (g ++ tr ++ tp ++ g2 ++ str "->" ++ u). split; [exists g, tr, tp, g2, u; auto 8|]. split; [now rewrite <- !app_assoc|exact S].
  Qed.
  Lemma production_fails s : pproduction one number s = Fail <-> prule s = Fail.
  Proof using.
    clear Good. unfold pproduction. split; [|intros H; now rewrite bind_no]. unfold pbind at 1. destruct (prule s) as [| |r q]; [auto|discriminate|].
    intros H. exfalso. revert H. unfold pbind, pexpect. destruct (pprobability one number q) as [| |p q1]; try discriminate. destruct (tokC (str "->") q1) as [| |? q2]; try discriminate.
    destruct (pmany1 prule q2) as [| |l q3]; discriminate.
  Qed.
  Definition pnext : parser (@line T) := pbind (tokC feed) (fun _ => pproduction one number).
  Lemma lineText_some l t : lineText one numeral l t -> t <> [].
  Proof using. clear Good. intros (g & tr & tp & g2 & u & _ & R & _ & _ & _ & _ & ->) E. apply rule_firm in R. destruct g; [|discriminate]. destruct tr; [contradiction|discriminate]. Qed.
  Lemma next_ok g l t s : feedGap g -> lineText one numeral l t -> resting s -> pnext (g ++ t ++ s) = Parsed l s.
  Proof using Good. intros (g0 & G & ->) L S. unfold pnext. rewrite <- app_assoc. erewrite bind_ok by (apply tokC_ok; [exact G|now split]). now apply production_ok. Qed.
  Lemma next_inv s l r : pnext s = Parsed l r -> exists g t, feedGap g /\ lineText one numeral l t /\ s = g ++ t ++ r /\ resting r.
  Proof using Good.
    unfold pnext. intros H. apply bind_inv in H as (? & q & H1 & H2). apply tokC_inv in H1 as (g0 & G & ->). apply production_inv in H2 as (t & L & -> & S).
    exists (g0 ++ feed), t. split; [exists g0; auto|]. split; [exact L|]. split; [now rewrite <- app_assoc|exact S].
  Qed.
  Lemma next_less s l r : pnext s = Parsed l r -> (List.length r < List.length s)%nat.
  Proof using Good. intros H. apply next_inv in H as (g & t & _ & L & -> & _). apply lineText_some in L. rewrite !app_length. destruct t; [congruence|]. cbn. lia. Qed.
  Lemma tail_resting s : tailText s -> resting s.
  Proof using. clear Good. intros (g & y & G & S & E & _). exists g, y. auto. Qed.
  Lemma tail_next s : tailText s -> pnext s = Fail.
  Proof using.
    clear Good. intros (g & y & G & S & -> & Z). unfold pnext. destruct (plit feed y) as [| |u z] eqn:E.
    - apply bind_no, tokC_no; [exact G|now apply stuck_skip|exact E].
    - now apply lit_no_expect in E.
    - apply lit_inv in E. destruct (Z z E) as (g' & y' & G' & S' & ->). subst y. erewrite bind_ok by (apply tokC_ok; [exact G|now split]). apply production_fails. now apply stuck_rule.
  Qed.
  Lemma next_tail s : resting s -> pnext s = Fail -> tailText s.
  Proof using.
    clear Good. intros (g & y & G & S & ->) H. exists g, y. split; [exact G|]. split; [exact S|]. split; [reflexivity|]. intros z ->. unfold pnext in H.
    erewrite bind_ok in H by (apply tokC_ok; [exact G|now split]). apply production_fails in H. apply rule_stuck in H as (g' & y' & G' & S' & E & _). exists g', y'. auto.
  Qed.
  Lemma nexts_resting ls u s : listText feedGap (lineText one numeral) ls u -> resting s -> resting (u ++ s).
  Proof using. clear Good. intros M S. destruct M as [|g l t ls u (g0 & G & ->) _ _]; [exact S|]. exists g0, (feed ++ t ++ u ++ s). split; [exact G|]. split; [apply feed_stuck|]. now rewrite <- !app_assoc. Qed.
  Lemma nexts_ok ls u s : listText feedGap (lineText one numeral) ls u -> tailText s -> pmany pnext (u ++ s) = Parsed ls s.
  Proof using Good.
    intros M S. unfold pmany. assert (L : (List.length ls < Datatypes.S (List.length (u ++ s)))%nat).
    { rewrite app_length. clear S. induction M as [|g l t ls u _ Lt _ IH]; [cbn; lia|]. apply lineText_some in Lt. destruct t; [congruence|]. cbn [List.length]. rewrite !app_length. cbn [List.length]. lia. }
    generalize dependent (Datatypes.S (List.length (u ++ s))). induction M as [|g l t ls u Hg Hl M IH]; intros f L; (destruct f as [|f]; [cbn in L; lia|]); cbn [pmanyFuel].
    - cbn [app]. now rewrite tail_next.
    - cbn [List.length] in L. rewrite <- !app_assoc. rewrite (next_ok g l t (u ++ s) Hg Hl) by (eapply nexts_resting; [exact M|now apply tail_resting]). rewrite IH by lia. reflexivity.
  Qed.
  Lemma nexts_inv s ls r : pmany pnext s = Parsed ls r -> exists u, listText feedGap (lineText one numeral) ls u /\ s = u ++ r.
  Proof using Good. intros H. eapply manyX_inv in H; [exact H|]. clear H. intros s' a r' H. apply next_inv in H as (g & t & A & B & C & _). exists g, t. auto. Qed.
  Lemma productions_ok ls t s : linesText one numeral ls t -> tailText s -> pproductions one number (t ++ s) = Parsed ls s.
  Proof using Good.
    intros (l & ls' & t0 & tr & -> & L & M & ->) S. unfold pproductions, plist. rewrite <- app_assoc.
    erewrite bind_ok by (apply production_ok; [exact L|eapply nexts_resting; [exact M|now apply tail_resting]]). erewrite bind_ok by (apply nexts_ok; eassumption). reflexivity.
  Qed.
  Lemma nexts_rest s ls r : resting s -> pmany pnext s = Parsed ls r -> resting r.
  Proof using Good.
    unfold pmany. generalize (Datatypes.S (List.length s)). intros f. revert s ls r. induction f as [|f IH]; intros s ls r S H; cbn [pmanyFuel] in H; [now injection H as _ <-|].
    destruct (pnext s) as [| |a q] eqn:E; [now injection H as _ <-|discriminate|]. destruct (pmanyFuel f pnext q) as [| |l' r'] eqn:E'; try discriminate. injection H as _ <-.
    apply (IH q l'); [|exact E']. now apply next_inv in E as (g & t & _ & _ & _ & R).
  Qed.
  Lemma productions_inv s ls r : pproductions one number s = Parsed ls r -> exists t, linesText one numeral ls t /\ s = t ++ r /\ tailText r.
  Proof using Good.
    unfold pproductions, plist. intros H. apply bind_inv in H as (l & q & H1 & H). apply bind_inv in H as (ls' & q' & H2 & H). injection H as <- ->.
    apply production_inv in H1 as (t0 & L & -> & S). change (pmany pnext q = Parsed ls' r) in H2. pose proof (nexts_rest _ _ _ S H2) as S'. pose proof (many_stops _ _ _ _ next_less H2) as F.
    apply nexts_inv in H2 as (u & U & ->). exists (t0 ++ u). split; [exists l, ls', t0, u; auto|]. split; [now rewrite <- app_assoc|now apply next_tail].
  Qed.

  Lemma system_ok w t r : systemText one numeral w t -> tailText r -> psystem one number (t ++ r) = Parsed w r.
  Proof using Good.
    destruct w as [gens angle scale axiom lines]. intros (t1 & t2 & t3 & g & ta & g' & tl & E1 & E2 & E3 & G & N & A & G' & L & ->) R. cbn [wgens wangle wscale waxiom wlines] in *.
    unfold psystem. rewrite <- !app_assoc. set (rest := g ++ str "axiom:" ++ ta ++ g' ++ feed ++ tl ++ r).
    destruct (entry_ok (pnumber number) (numeral scale) scale (str "scale:") t3 g (str "axiom:" ++ ta ++ g' ++ feed ++ tl ++ r)) as (q3 & P3 & X3); [now split| |exact E3|exact G|split; [now split|reflexivity]|].
    { intros ? ? ?. apply number_ok. }
    assert (E3' := E3). destruct E3' as (g3 & h3 & w3 & sp3 & G3 & _ & _ & _ & Et3).
    assert (E2' := E2). destruct E2' as (g2 & h2 & w2 & sp2 & G2 & _ & _ & _ & Et2).
    destruct (entry_ok (pnumber number) (numeral angle) angle (str "angle:") t2 g3 (str "scale:" ++ h3 ++ w3 ++ sp3 ++ rest)) as (q2 & P2 & X2); [now split| |exact E2|exact G3|split; [now split|reflexivity]|].
    { intros ? ? ?. apply number_ok. }
    destruct (entry_ok (pskip skipComments pint) (integer gens) gens (str "generations:") t1 g2 (str "angle:" ++ h2 ++ w2 ++ sp2 ++ t3 ++ rest)) as (q1 & P1 & X1); [now split| |exact E1|exact G2|split; [now split|reflexivity]|].
    { intros ? ? ?. apply skipInt_ok. }
    replace (t2 ++ t3 ++ rest) with (g2 ++ str "angle:" ++ h2 ++ w2 ++ sp2 ++ t3 ++ rest) by (rewrite Et2; now rewrite <- !app_assoc). erewrite bind_ok by exact P1. erewrite bind_ok by exact X1.
    replace (g2 ++ str "angle:" ++ h2 ++ w2 ++ sp2 ++ t3 ++ rest) with (t2 ++ g3 ++ str "scale:" ++ h3 ++ w3 ++ sp3 ++ rest) by (rewrite Et2, Et3; now rewrite <- !app_assoc).
    erewrite bind_ok by (apply expect_ok; exact P2). erewrite bind_ok by exact X2.
    replace (g3 ++ str "scale:" ++ h3 ++ w3 ++ sp3 ++ rest) with (t3 ++ rest) by (rewrite Et3; now rewrite <- !app_assoc).
    erewrite bind_ok by (apply expect_ok; exact P3). erewrite bind_ok by exact X3. erewrite bind_ok by (apply expect_ok, tokC_ok; [exact G|now split]).
    erewrite bind_ok by (apply expect_ok, rules1_ok; [exact N|exact A|]; exists g', (feed ++ tl ++ r); split; [exact G'|]; split; [apply feed_stuck|reflexivity]).
    erewrite bind_ok by (apply expect_ok, tokC_ok; [exact G'|now split]). erewrite bind_ok by (apply expect_ok, productions_ok; eassumption). reflexivity.
  Qed.
  Lemma system_inv s w r : psystem one number s = Parsed w r -> exists t, systemText one numeral w t /\ tailText r /\ s = t ++ r.
  Proof using Good.
    unfold psystem. intros H. apply bind_inv in H as (? & q1 & H1 & H). apply bind_inv in H as (gens & q2 & H2 & H). apply bind_inv in H as (? & q3 & H3 & H).
    apply bind_inv in H as (angle & q4 & H4 & H). apply bind_inv in H as (? & q5 & H5 & H). apply bind_inv in H as (scale & q6 & H6 & H).
    apply bind_inv in H as (? & q7 & H7 & H). apply bind_inv in H as (axiom & q8 & H8 & H). apply bind_inv in H as (? & q9 & H9 & H). apply bind_inv in H as (ls & q10 & H10 & H). injection H as <- ->.
    apply expect_inv in H3, H5, H7, H8, H9, H10. destruct (entry_inv _ (integer gens) gens _ _ _ _ _ (skipInt_inv gens) H1 H2) as (t1 & E1 & ->).
    destruct (entry_inv _ (numeral angle) angle _ _ _ _ _ (fun s r => number_inv s angle r) H3 H4) as (t2 & E2 & ->).
    destruct (entry_inv _ (numeral scale) scale _ _ _ _ _ (fun s r => number_inv s scale r) H5 H6) as (t3 & E3 & ->).
    apply tokC_inv in H7 as (g & G & ->). apply rules1_inv in H8 as (ta & N & A & -> & _). apply tokC_inv in H9 as (g' & G' & ->). apply productions_inv in H10 as (tl & L & -> & R).
    exists (t1 ++ t2 ++ t3 ++ g ++ str "axiom:" ++ ta ++ g' ++ feed ++ tl). split; [|split; [exact R|now rewrite <- !app_assoc]].
    exists t1, t2, t3, g, ta, g', tl. cbn [wgens wangle wscale waxiom wlines]. auto 12.
  Qed.
End Numbers.

(** ** The map of productions *)
Lemma linesOf_app {T} r (a b : list (@line T)) : linesOf r (a ++ b) = linesOf r a ++ linesOf r b.
Proof. induction a as [|l a IH]; [reflexivity|]. cbn. destruct (rule_eq_dec r (fst (fst l))); cbn; now rewrite IH. Qed.
Lemma lookup_add {T} rank (ps : productions T) r p succ q : classOrder rank ->
  alookup (sameRule rank) q (addProduction rank ps r p succ) =
  if rule_eq_dec q r then Some (match alookup (sameRule rank) q ps with Some l => l | None => [] end ++ [(p, succ)]) else alookup (sameRule rank) q ps.
Proof.
  intros C. assert (D : forall a b, sameRule rank a b = if rule_eq_dec a b then true else false).
  { intros a b. destruct (rule_eq_dec a b) as [E|E]; [now apply sameRule_iff|]. destruct (sameRule rank a b) eqn:F; [|reflexivity]. apply sameRule_iff in F; [contradiction|exact C]. }
  induction ps as [|[r' l] ps IH]; cbn [addProduction alookup].
  - rewrite D. destruct (rule_eq_dec q r); reflexivity.
  - rewrite !D. destruct (rule_eq_dec r r') as [->|N]; cbn [alookup].
    + rewrite !D. destruct (rule_eq_dec q r') as [->|]; reflexivity.
    + rewrite !D, IH. destruct (rule_eq_dec q r') as [->|]; [|reflexivity]. destruct (rule_eq_dec r' r) as [->|]; [congruence|reflexivity].
Qed.
Lemma insertAll_lookup {T} rank (ls : list (@line T)) r : classOrder rank ->
  alookup (sameRule rank) r (insertAll rank ls) = match linesOf r ls with [] => None | l => Some l end.
Proof.
  intros C. induction ls as [|l ls IH] using rev_ind; [reflexivity|].
  replace (insertAll rank (ls ++ [l])) with (addProduction rank (insertAll rank ls) (fst (fst l)) (snd (fst l)) (snd l)) by (unfold insertAll; now rewrite fold_left_app).
  rewrite lookup_add by exact C.
  rewrite IH, linesOf_app. cbn [linesOf]. destruct (rule_eq_dec r (fst (fst l))).
  - destruct (linesOf r ls); reflexivity.
  - rewrite app_nil_r. reflexivity.
Qed.

(** ** Texts exist *)
Lemma rules_exist rs : Forall goodRule rs -> exists u, rulesText rs u /\ ~ startsLetter u.
Proof.
  induction 1 as [|r rs R _ (u & U & S)]; [exists []; split; [constructor|auto]|].
  assert (X : exists t, ruleText r t).
  { destruct r; try solve [eexists; left; unfold symbols; cbn [In]; repeat (first [left; reflexivity|right])]. exists w. right. exists w. split; [reflexivity|]. now apply R. }
  destruct X as (t & X). exists ([32%N] ++ t ++ u). split; [constructor; [repeat constructor|exact X|exact U|auto]|]. cbn. unfold letter. lia.
Qed.
Lemma rule_exists r : goodRule r -> exists t, ruleText r t.
Proof.
  intros R. destruct r; try solve [eexists; left; unfold symbols; cbn [In]; repeat (first [left; reflexivity|right])]. exists w. right. exists w. split; [reflexivity|]. now apply R.
Qed.
Section Exist.
  Context {T : Type} (one : T) (numeral : T -> bytes -> Prop).
  Let number v := exists w, numeral v w.
  Lemma line_exists l : goodLine number l -> exists t, lineText one numeral l t.
  Proof.
    intros (R & (w & W) & N & F). destruct (rule_exists _ R) as (tr & Tr). destruct (rules_exist _ F) as (u & U & _).
    eexists. exists [], tr, ([] ++ str "(" ++ [] ++ w ++ [] ++ str ")"), [], u. split; [constructor|]. split; [exact Tr|]. split; [right; exists [], [], w, []; split; [exact cgap_nil|]; split; [exact cgap_nil|]; split; [exact W|]; split; [exact cgap_nil|reflexivity]|].
    split; [constructor|]. split; [exact N|]. split; [exact U|]. reflexivity.
  Qed.
  Lemma system_exists w : goodSystem number w -> exists t, systemText one numeral w t.
  Proof.
    intros (Z & (wa & Wa) & (ws & Ws) & (Na & Fa) & Nl & Fl). destruct (rules_exist _ Fa) as (ta & Ta & _).
    assert (B : breakText feed) by (exists [10%N]; split; [discriminate|]; change feed with ([] ++ [10%N] ++ []); constructor; [constructor|split; [reflexivity|lia]|constructor]).
    assert (I : exists wi, integer (wgens w) wi).
    { destruct (natural_exists (Z.to_N (Z.abs (wgens w)))) as (ds & D). destruct (Z.leb_spec 0 (wgens w)).
      - exists ds, ds, (Z.to_N (Z.abs (wgens w))). split; [exact D|]. split; [exact Z|]. left. split; [reflexivity|lia].
      - exists (str "-" ++ ds), ds, (Z.to_N (Z.abs (wgens w))). split; [exact D|]. split; [exact Z|]. right. right. split; [reflexivity|lia]. }
    destruct I as (wi & Wi). assert (En : forall (P : bytes -> Prop) key v, P v -> exists t, entryText P key t).
    { intros P key v Pv. eexists. exists [], [], v, feed. split; [constructor|]. split; [constructor|]. split; [exact Pv|]. split; [exact B|reflexivity]. }
    destruct (En (integer (wgens w)) (str "generations:") wi Wi) as (t1 & T1). destruct (En (numeral (wangle w)) (str "angle:") wa Wa) as (t2 & T2).
    destruct (En (numeral (wscale w)) (str "scale:") ws Ws) as (t3 & T3).
    assert (L : exists tl, linesText one numeral (wlines w) tl).
    { destruct (wlines w) as [|l ls]; [congruence|]. inversion Fl as [|x y Hl Hls]; subst. destruct (line_exists l Hl) as (t0 & T0).
      assert (M : exists u, listText feedGap (lineText one numeral) ls u).
      { clear - Hls. induction Hls as [|l ls Hl _ (u & U)]; [exists []; constructor|]. destruct (line_exists l Hl) as (t & Tl). exists (feed ++ t ++ u). constructor; [exists []; split; [constructor|reflexivity]|exact Tl|exact U]. }
      destruct M as (u & U). exists (t0 ++ u), l, ls, t0, u. auto. }
    destruct L as (tl & L). eexists. exists t1, t2, t3, [], ta, [], tl. split; [exact T1|]. split; [exact T2|]. split; [exact T3|]. split; [constructor|]. split; [exact Na|]. split; [exact Ta|]. split; [constructor|]. split; [exact L|]. reflexivity.
  Qed.
End Exist.
Lemma tail_nil : tailText [].
Proof. exists [], []. split; [constructor|]. split; [exact I|]. split; [reflexivity|]. discriminate. Qed.

(** ** Lines which grow *)
Lemma rules_app rs u rs' u' : rulesText rs u -> rulesText rs' u' -> ~ startsLetter u' -> rulesText (rs ++ rs') (u ++ u').
Proof.
  intros U U' S. induction U as [|g r t rs u G R _ IH W]; [exact U'|]. cbn [app]. rewrite <- !app_assoc. constructor; [exact G|exact R|exact IH|].
  intros w E. specialize (W w E). destruct u as [|c u]; [exact S|exact W].
Qed.
Section Grow.
  Context {T : Type} (one : T) (numeral : T -> bytes -> Prop).
  Lemma line_grows r p rs t rs' u' : lineText one numeral (r, p, rs) t -> rulesText rs' u' -> ~ startsLetter u' -> lineText one numeral (r, p, rs ++ rs') (t ++ u').
  Proof.
    intros (g & tr & tp & g2 & u & G & R & P & G2 & N & U & ->) U' S. cbn [fst snd] in *. exists g, tr, tp, g2, (u ++ u'). split; [exact G|]. split; [exact R|]. split; [exact P|]. split; [exact G2|].
    split; [cbn; destruct rs; [congruence|discriminate]|]. split; [now apply rules_app|]. now rewrite <- !app_assoc.
  Qed.
  Lemma lines_grow ls r p rs t rs' u' : linesText one numeral (ls ++ [(r, p, rs)]) t -> rulesText rs' u' -> ~ startsLetter u' -> linesText one numeral (ls ++ [(r, p, rs ++ rs')]) (t ++ u').
  Proof.
    intros (l & ls' & t0 & tr & E & L & M & ->) U' S. destruct ls as [|l1 ls].
    - injection E as <- <-. inversion M; subst. exists (r, p, rs ++ rs'), [], (t0 ++ u'), []. split; [reflexivity|]. split; [now apply line_grows|]. split; [constructor|]. now rewrite !app_nil_r.
    - injection E as <- <-. exists l1, (ls ++ [(r, p, rs ++ rs')]), t0, (tr ++ u'). split; [reflexivity|]. split; [exact L|]. split; [|now rewrite <- app_assoc].
      clear L t0. revert tr M. induction ls as [|l2 ls IH]; intros tr M.
      + inversion M as [|g a t l u Hg Ht M']; subst. inversion M'; subst. cbn [app]. rewrite app_nil_r, <- app_assoc. rewrite <- (app_nil_r (t ++ u')). constructor; [exact Hg|now apply line_grows|constructor].
      + inversion M as [|g a t l u Hg Ht M']; subst. rewrite <- !app_assoc. cbn [app]. constructor; [exact Hg|exact Ht|now apply IH].
  Qed.
End Grow.
