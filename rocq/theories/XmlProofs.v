From Coq Require Import String.
From Verif Require Import Base Bytes BytesProofs JsonModel Peg PegProofs XmlModel XmlSpec.
Local Open Scope list_scope.
Local Arguments str : simpl never.

(** ** Blanks *)
Lemma isSpace_blank c : isSpace c = true <-> blank c.
Proof. unfold isSpace, blank. lia. Qed.
Lemma blanks_space b : blanks b <-> Forall (fun c => isSpace c = true) b.
Proof. unfold blanks. split; apply Forall_impl; intros c; apply isSpace_blank. Qed.
(** Does not begin with a blank. *)
Definition solid (s : bytes) : Prop := match s with [] => True | c :: _ => isSpace c = false end.
Lemma spaces_ok b s : blanks b -> solid s -> skipSpaces (b ++ s) = s.
Proof.
  intros B S. rewrite skip_app by now apply blanks_space. destruct s as [|c s]; [reflexivity|]. now apply skip_stop.
Qed.
Lemma spaces_inv s : exists b, blanks b /\ s = b ++ skipSpaces s.
Proof. destruct (skip_exists s) as (b & E & H). exists b. split; [now apply blanks_space|exact E]. Qed.
Lemma blanks_nil : blanks [].
Proof. constructor. Qed.
Lemma lit_prefix l s : (exists r, s = l ++ r /\ plit l s = Parsed tt r) \/ (plit l s = Fail /\ forall r, s <> l ++ r).
Proof.
  destruct (plit l s) as [| |u r] eqn:E.
  - right. split; [reflexivity|]. intros r ->. rewrite lit_ok in E. discriminate.
  - exfalso. now apply (lit_no_expect l s).
  - left. exists r. destruct u. split; [now apply lit_inv in E|reflexivity].
Qed.
(** A literal which begins with a character other than a blank. *)
Definition firm (l : bytes) : Prop := match l with [] => False | c :: _ => isSpace c = false end.
Lemma firm_solid l s : firm l -> solid (l ++ s).
Proof. destruct l; [contradiction|]. intros H. exact H. Qed.
Lemma tokS_ok b l s : blanks b -> firm l -> tokS l (b ++ l ++ s) = Parsed tt s.
Proof. intros B F. unfold tokS, pskip. rewrite spaces_ok; [apply lit_ok|exact B|now apply firm_solid]. Qed.
Lemma tokS_inv l s u r : tokS l s = Parsed u r -> exists b, blanks b /\ s = b ++ l ++ r.
Proof.
  unfold tokS, pskip. intros H. apply lit_inv in H. destruct (spaces_inv s) as (b & B & E). exists b. split; [exact B|]. now rewrite E, H at 1.
Qed.
Lemma tokS_bad l s : tokS l s <> Unexpected.
Proof. apply lit_no_expect. Qed.
Lemma lit_other l m s : (forall x, plit l (m ++ x) = Fail) -> plit l (m ++ s) = Fail.
Proof. auto. Qed.
Lemma tokS_no b l m s : blanks b -> firm m -> (forall x, plit l (m ++ x) = Fail) -> tokS l (b ++ m ++ s) = Fail.
Proof. intros B F H. unfold tokS, pskip. rewrite spaces_ok; [apply H|exact B|now apply firm_solid]. Qed.

(** ** Attributes *)
Lemma alnum_ok c : isAlnum c = true <-> alnum c.
Proof. unfold isAlnum, alnum. lia. Qed.
Lemma alnum_space c : isAlnum c = true -> isSpace c = false.
Proof. unfold isAlnum, isSpace. lia. Qed.
Lemma inXml_ok v : Forall (fun c => inXml c = true) v <-> unquoted v.
Proof.
  rewrite Forall_forall. unfold unquoted, inXml. split.
  - intros H I. apply H in I. discriminate.
  - intros H c I. destruct (N.eqb_spec c 34) as [->|]; [contradiction|reflexivity].
Qed.
Definition keys3 : list bytes := [str "id"; str "lat"; str "lon"].
Lemma known_inv s u r : pknown s = Parsed u r -> exists k, In k keys3 /\ s = k ++ str "=" ++ r.
Proof.
  unfold pknown. intros H. apply or_inv in H as [H|H]; [|apply or_inv in H as [H|H]]; apply lit_inv in H;
    [exists (str "id")|exists (str "lat")|exists (str "lon")]; (split; [unfold keys3; cbn [In]; auto|exact H]).
Qed.
Lemma known_ok k s : In k keys3 -> pknown (k ++ str "=" ++ s) = Parsed tt s.
Proof. intros [<-|[<-|[<-|[]]]]; reflexivity. Qed.
Lemma alnum_key k s k' s' : Forall alnum k -> Forall alnum k' -> k ++ 61%N :: s = k' ++ 61%N :: s' -> k = k'.
Proof.
  intros F. revert k'. induction F as [|c k C _ IH]; intros k' F' E; destruct F' as [|d k' D F']; try reflexivity.
  - cbn in E. injection E as <- _. unfold alnum in D. lia.
  - cbn in E. injection E as -> _. unfold alnum in C. lia.
  - cbn in E. injection E as -> E. f_equal. now apply IH.
Qed.
Lemma keys3_alnum k : In k keys3 -> Forall alnum k.
Proof. intros [<-|[<-|[<-|[]]]]; apply Forall_forall; intros c I; apply alnum_ok; revert c I; apply forallb_forall; reflexivity. Qed.
Lemma attribute_ok t s : foreign t -> pattribute (t ++ s) = Parsed tt s.
Proof.
  intros (k & v & K & A & N & V & U & ->). unfold pattribute, quoted. rewrite <- !app_assoc.
  destruct (pknown (k ++ str "=" ++ [34%N] ++ v ++ [34%N] ++ s)) as [| |u r] eqn:E.
  3:{ exfalso. apply known_inv in E as (k' & I & E). apply alnum_key in E; [subst k'; contradiction|exact A|now apply keys3_alnum]. }
  all: rewrite (bind_ok _ _ _ k (str "=" ++ [34%N] ++ v ++ [34%N] ++ s)) by (apply chars_ok; [exact K|eapply Forall_impl; [|exact A]; intros c; apply alnum_ok|reflexivity]);
    rewrite (bind_ok _ _ _ tt (v ++ [34%N] ++ s)) by apply (lit_ok (str "=" ++ xquote));
    rewrite (bind_ok _ _ _ v ([34%N] ++ s)) by (apply chars_ok; [exact V|now apply inXml_ok|reflexivity]); apply lit_ok.
Qed.
Lemma attribute_inv s u r : pattribute s = Parsed u r -> exists t, foreign t /\ s = t ++ r.
Proof.
  unfold pattribute. intros H. destruct (pknown s) as [| |u' r'] eqn:K; [| |discriminate].
  all: apply bind_inv in H as (k & r1 & H1 & H); apply bind_inv in H as (x & r2 & H2 & H); apply bind_inv in H as (v & r3 & H3 & H4);
    apply chars_inv in H1 as (-> & N1 & F1); apply lit_inv in H2 as ->; apply chars_inv in H3 as (-> & N3 & F3); apply lit_inv in H4 as ->;
    exists (k ++ str "=" ++ quoted v); (split; [|unfold quoted, xquote; now rewrite <- !app_assoc]);
    exists k, v; (split; [exact N1|]); (split; [eapply Forall_impl; [|exact F1]; intros c; apply alnum_ok|]);
    (split; [intros I; unfold xquote in K; rewrite <- app_assoc in K; rewrite (known_ok k) in K by exact I; discriminate|]);
    (split; [exact N3|]); (split; [now apply inXml_ok|reflexivity]).
Qed.
Lemma foreign_some t : foreign t -> exists c t', t = c :: t' /\ isSpace c = false.
Proof.
  intros (k & v & K & A & _ & _ & _ & ->). destruct k as [|c k]; [congruence|]. cbn [app]. exists c. eexists. split; [reflexivity|].
  apply alnum_space, alnum_ok. exact (Forall_inv A).
Qed.
Lemma skipAttribute_foreign t s : foreign t -> skipAttribute (t ++ s) = Some s.
Proof.
  intros F. destruct (foreign_some t F) as (c & t' & E & Sp). pose proof (attribute_ok t s F) as P. rewrite E in *. cbn [app skipAttribute] in *.
  rewrite Sp, P. reflexivity.
Qed.
Lemma skipAttr_fuel a s fuel : agap a -> skipAttribute s = None -> (List.length a <= fuel)%nat -> skipAttrFuel fuel (a ++ s) = s.
Proof.
  intros A N. revert fuel. induction A as [|c a B _ IH|t a F _ IH]; intros fuel L.
  - cbn [app]. destruct fuel; [reflexivity|]. cbn [skipAttrFuel]. now rewrite N.
  - cbn [List.length] in L. destruct fuel as [|fuel]; [lia|]. cbn [app skipAttrFuel skipAttribute]. apply isSpace_blank in B. rewrite B. apply IH. lia.
  - rewrite app_length in L. destruct (foreign_some t F) as (c & t' & E & _). assert (1 <= List.length t)%nat by (rewrite E; cbn; lia).
    destruct fuel as [|fuel]; [lia|]. rewrite <- app_assoc. cbn [skipAttrFuel]. rewrite skipAttribute_foreign by exact F. apply IH. lia.
Qed.
Lemma attrs_ok a s : agap a -> skipAttribute s = None -> skipAttrs (a ++ s) = s.
Proof. intros A N. apply skipAttr_fuel; [exact A|exact N|rewrite app_length; lia]. Qed.
Lemma skipAttribute_inv s r : skipAttribute s = Some r -> exists a, agap a /\ a <> [] /\ s = a ++ r.
Proof.
  destruct s as [|c s]; [discriminate|]. cbn [skipAttribute]. destruct (isSpace c) eqn:S.
  - intros [= <-]. exists [c]. split; [constructor; [now apply isSpace_blank|constructor]|]. split; [discriminate|reflexivity].
  - destruct (pattribute (c :: s)) as [| |u r'] eqn:E; try discriminate. intros [= <-]. apply attribute_inv in E as (t & F & E).
    destruct (foreign_some t F) as (d & t' & Et & _). exists t. split; [rewrite <- (app_nil_r t); now constructor; [|constructor]|].
    split; [rewrite Et; discriminate|exact E].
Qed.
Lemma agap_app a b : agap a -> agap b -> agap (a ++ b).
Proof. induction 1 as [|c a B _ IH|t a F _ IH]; intros H; cbn [app]; [exact H|constructor; auto|rewrite <- app_assoc; constructor; auto]. Qed.
Lemma attrs_inv s : exists a, agap a /\ s = a ++ skipAttrs s /\ skipAttribute (skipAttrs s) = None.
Proof.
  unfold skipAttrs. assert (H : forall fuel s, (List.length s <= fuel)%nat ->
    exists a, agap a /\ s = a ++ skipAttrFuel fuel s /\ skipAttribute (skipAttrFuel fuel s) = None).
  { clear s. induction fuel as [|fuel IH]; intros s L.
    - destruct s; [|cbn in L; lia]. exists []. split; [constructor|]. split; reflexivity.
    - cbn [skipAttrFuel]. destruct (skipAttribute s) as [r|] eqn:E.
      + apply skipAttribute_inv in E as (a & A & N & ->). destruct (IH r) as (a' & A' & E' & S').
        { rewrite app_length in L. destruct a; [congruence|]. cbn in L. lia. }
        exists (a ++ a'). split; [now apply agap_app|]. split; [rewrite <- app_assoc; now rewrite <- E'|exact S'].
      + exists []. split; [constructor|]. split; [reflexivity|exact E]. }
  apply H. lia.
Qed.
(** Texts at which the skipper stops. *)
Lemma stop_char c s : isSpace c = false -> isAlnum c = false -> skipAttribute (c :: s) = None.
Proof.
  intros S A. cbn [skipAttribute]. rewrite S. unfold pattribute. destruct (pknown (c :: s)) as [| |u r]; try reflexivity.
  all: unfold pbind, pchars1; cbn [spanOf]; now rewrite A.
Qed.
Lemma stop_known k s : In k keys3 -> skipAttribute (k ++ str "=" ++ s) = None.
Proof.
  intros I. pose proof (known_ok k s I) as K. assert (H : exists c k', k = c :: k' /\ isSpace c = false).
  { destruct I as [<-|[<-|[<-|[]]]]; eexists; eexists; (split; [reflexivity|reflexivity]). }
  destruct H as (c & k' & -> & S). cbn [app skipAttribute] in *. rewrite S. unfold pattribute. now rewrite K.
Qed.
Definition firmA (l : bytes) : Prop := match l with [] => False | c :: _ => isSpace c = false /\ isAlnum c = false end.
Lemma firmA_stop l s : firmA l -> skipAttribute (l ++ s) = None.
Proof. destruct l; [contradiction|]. intros [A B]. now apply stop_char. Qed.
Lemma tokA_ok a l s : agap a -> firmA l -> tokA l (a ++ l ++ s) = Parsed tt s.
Proof. intros A F. unfold tokA, pskip. rewrite attrs_ok; [apply lit_ok|exact A|now apply firmA_stop]. Qed.
Lemma tokA_inv l s u r : tokA l s = Parsed u r -> exists a, agap a /\ s = a ++ l ++ r.
Proof.
  unfold tokA, pskip. intros H. apply lit_inv in H. destruct (attrs_inv s) as (a & A & E & _). exists a. split; [exact A|]. now rewrite E, H at 1.
Qed.
Lemma tokA_no a l m s : agap a -> firmA m -> (forall x, plit l (m ++ x) = Fail) -> tokA l (a ++ m ++ s) = Fail.
Proof. intros A F H. unfold tokA, pskip. rewrite attrs_ok; [apply H|exact A|now apply firmA_stop]. Qed.

(** ** Numbers and values *)
Lemma natural_from ds v : natural ds v -> ds <> [] /\ Forall (fun c => isDigitX c = true) ds /\ naturalFrom 0 ds = v.
Proof.
  assert (App : forall ds d acc, naturalFrom acc (ds ++ [d]) = (naturalFrom acc ds * 10 + (d - 48))%N).
  { induction ds0 as [|e ds0 IH]; intros d acc; cbn; [reflexivity|]. apply IH. }
  induction 1 as [d L|ds v d D (N & F & E) L].
  - split; [discriminate|]. split; [repeat constructor; unfold isDigitX; lia|]. cbn [naturalFrom]. lia.
  - split; [destruct ds; discriminate|]. split; [apply Forall_app; split; [exact F|repeat constructor; unfold isDigitX; lia]|].
    rewrite App, E. lia.
Qed.
Lemma from_natural ds : ds <> [] -> Forall (fun c => isDigitX c = true) ds -> natural ds (naturalFrom 0 ds).
Proof.
  assert (App : forall ds d acc, naturalFrom acc (ds ++ [d]) = (naturalFrom acc ds * 10 + (d - 48))%N).
  { induction ds0 as [|e ds0 IH]; intros d acc; cbn; [reflexivity|]. apply IH. }
  induction ds as [|d ds IH] using rev_ind; intros N F; [congruence|]. apply Forall_app in F as [F D].
  pose proof (Forall_inv D) as D'. cbn beta in D'. unfold isDigitX in D'. apply andb_prop in D' as [D1 D2].
  apply N.leb_le in D1. apply N.leb_le in D2. assert (E : d = (48 + (d - 48))%N) by lia.
  destruct ds as [|c ds].
  - cbn [app naturalFrom]. replace (0 * 10 + (d - 48))%N with (d - 48)%N by lia. rewrite E at 1. constructor. lia.
  - rewrite App. replace (naturalFrom 0 (c :: ds) * 10 + (d - 48))%N with (10 * naturalFrom 0 (c :: ds) + (d - 48))%N by lia.
    rewrite E at 1. apply nat_more; [apply IH; [discriminate|exact F]|lia].
Qed.
Lemma ulong_ok ds v s : natural ds v -> (v < 2 ^ 64)%N -> match s with [] => True | c :: _ => isDigitX c = false end ->
  pulong (ds ++ s) = Parsed v s.
Proof.
  intros D L S. destruct (natural_from _ _ D) as (N & F & E). unfold pulong. rewrite span_all by assumption.
  destruct ds as [|c ds]; [congruence|]. rewrite E. replace (v <? 2 ^ 64)%N with true by lia. reflexivity.
Qed.
Lemma ulong_inv s v r : pulong s = Parsed v r -> exists ds, natural ds v /\ (v < 2 ^ 64)%N /\ s = ds ++ r.
Proof.
  unfold pulong. pose proof (span_app isDigitX s) as H. destruct (spanOf isDigitX s) as [ds q]. destruct H as (-> & F & _).
  destruct ds as [|c ds]; [discriminate|]. destruct (N.ltb_spec (naturalFrom 0 (c :: ds)) (2 ^ 64)); [|discriminate].
  intros [= <- <-]. exists (c :: ds). split; [apply from_natural; [discriminate|exact F]|]. auto.
Qed.
Lemma natural_solid ds v s : natural ds v -> solid (ds ++ s).
Proof.
  intros D. destruct (natural_from _ _ D) as (N & F & _). destruct ds as [|c ds]; [congruence|]. cbn. pose proof (Forall_inv F) as C.
  cbn beta in C. unfold isDigitX in C. unfold isSpace. lia.
Qed.
Lemma blanks_noDigit b s : blanks b -> match b ++ 34%N :: s with [] => True | c :: _ => isDigitX c = false end.
Proof.
  destruct 1 as [|c b B _]; cbn; [reflexivity|]. unfold blank in B. unfold isDigitX. lia.
Qed.
(** key=, without the quotation mark. *)
Lemma numbered_ok b key v t s : blanks b -> firm key -> numberedText key v t -> pnumbered (key ++ str "=" ++ xquote) (b ++ t ++ s) = Parsed v s.
Proof.
  intros B F (b1 & ds & b2 & B1 & D & L & B2 & ->). unfold pnumbered, quoted. rewrite <- !app_assoc.
  assert (F' : firm (key ++ str "=" ++ xquote)) by (destruct key; [contradiction|exact F]).
  pose proof (tokS_ok b (key ++ str "=" ++ xquote) (b1 ++ ds ++ b2 ++ [34%N] ++ s) B F') as K. rewrite <- !app_assoc in K.
  erewrite bind_ok by exact K.
  erewrite bind_ok by (apply expect_ok; unfold pskip; rewrite spaces_ok by (try exact B1; now apply (natural_solid ds v));
    apply (ulong_ok ds v); [exact D|exact L|now apply (blanks_noDigit b2)]).
  erewrite bind_ok by (apply expect_ok; apply (tokS_ok b2 [34%N] s); [exact B2|reflexivity]). reflexivity.
Qed.
Lemma numbered_inv key s v r : pnumbered (key ++ str "=" ++ xquote) s = Parsed v r ->
  exists b t, blanks b /\ numberedText key v t /\ s = b ++ t ++ r.
Proof.
  unfold pnumbered. intros H. apply bind_inv in H as (u & r1 & H1 & H). apply bind_inv in H as (v' & r2 & H2 & H).
  apply bind_inv in H as (u' & r3 & H3 & H). injection H as -> ->. apply tokS_inv in H1 as (b & B & ->).
  apply expect_inv in H2. unfold pskip in H2. destruct (spaces_inv r1) as (b1 & B1 & E1). apply ulong_inv in H2 as (ds & D & L & E2).
  apply expect_inv in H3. apply tokS_inv in H3 as (b2 & B2 & E3).
  exists b, (key ++ str "=" ++ quoted (b1 ++ ds ++ b2)). split; [exact B|]. split; [exists b1, ds, b2; auto|].
  rewrite E1, E2, E3. unfold quoted, xquote. now rewrite <- !app_assoc.
Qed.
Lemma value_ok b v s : blanks b -> unquoted v -> pvalue (b ++ quoted v ++ s) = Parsed v s.
Proof.
  intros B U. unfold pvalue, pskip. rewrite spaces_ok; [|exact B|reflexivity]. unfold quoted. rewrite <- !app_assoc.
  rewrite (bind_ok _ _ _ tt (v ++ [34%N] ++ s)) by apply (lit_ok xquote).
  rewrite span_all; [|now apply inXml_ok|reflexivity].
  rewrite (bind_ok _ _ _ tt s) by (apply expect_ok, lit_ok). reflexivity.
Qed.
Lemma value_inv s v r : pvalue s = Parsed v r -> exists b, blanks b /\ unquoted v /\ s = b ++ quoted v ++ r.
Proof.
  unfold pvalue, pskip. intros H. destruct (spaces_inv s) as (b & B & E). apply bind_inv in H as (u & r1 & H1 & H). apply lit_inv in H1.
  pose proof (span_app inXml r1) as Sp. destruct (spanOf inXml r1) as [a r2]. destruct Sp as (-> & F & _).
  apply bind_inv in H as (u' & r3 & H2 & H). injection H as -> ->. apply expect_inv, lit_inv in H2 as ->.
  exists b. split; [exact B|]. split; [now apply inXml_ok|]. rewrite E, H1. unfold quoted, xquote. now rewrite <- !app_assoc.
Qed.
Lemma keyed_ok b key v t s : blanks b -> firm key -> keyedText key v t -> pkeyed (key ++ str "=") (b ++ t ++ s) = Parsed v s.
Proof.
  intros B F (b1 & B1 & U & ->). unfold pkeyed. rewrite <- !app_assoc.
  assert (F' : firm (key ++ str "=")) by (destruct key; [contradiction|exact F]).
  pose proof (tokS_ok b (key ++ str "=") (b1 ++ quoted v ++ s) B F') as K. rewrite <- !app_assoc in K.
  erewrite bind_ok by exact K. apply expect_ok. now apply value_ok.
Qed.
Lemma keyed_inv key s v r : pkeyed (key ++ str "=") s = Parsed v r -> exists b t, blanks b /\ keyedText key v t /\ s = b ++ t ++ r.
Proof.
  unfold pkeyed. intros H. apply bind_inv in H as (u & r1 & H1 & H). apply tokS_inv in H1 as (b & B & ->).
  apply expect_inv, value_inv in H as (b1 & B1 & U & ->). exists b, (key ++ str "=" ++ b1 ++ quoted v).
  split; [exact B|]. split; [exists b1; auto|]. now rewrite <- !app_assoc.
Qed.

(** ** Parts *)
Lemma tag_ok b kv t s : blanks b -> tagText kv t -> ptag (b ++ t ++ s) = Parsed kv s.
Proof.
  intros B (b1 & t1 & b2 & t2 & b3 & B1 & T1 & B2 & T2 & B3 & ->). unfold ptag. rewrite <- !app_assoc.
  erewrite bind_ok by (apply tokS_ok; [exact B|reflexivity]).
  erewrite bind_ok by (apply expect_ok; apply (keyed_ok b1 (str "k") (fst kv) t1); [exact B1|reflexivity|exact T1]).
  erewrite bind_ok by (apply expect_ok; apply (keyed_ok b2 (str "v") (snd kv) t2); [exact B2|reflexivity|exact T2]).
  erewrite bind_ok by (apply expect_ok; apply tokS_ok; [exact B3|reflexivity]). destruct kv; reflexivity.
Qed.
Lemma tag_inv s kv r : ptag s = Parsed kv r -> exists b t, blanks b /\ tagText kv t /\ s = b ++ t ++ r.
Proof.
  unfold ptag. intros H. apply bind_inv in H as (u & r1 & H1 & H). apply bind_inv in H as (k & r2 & H2 & H).
  apply bind_inv in H as (v & r3 & H3 & H). apply bind_inv in H as (u' & r4 & H4 & H). injection H as <- ->.
  apply tokS_inv in H1 as (b & B & ->). apply expect_inv in H2. apply (keyed_inv (str "k")) in H2 as (b1 & t1 & B1 & T1 & ->).
  apply expect_inv in H3. apply (keyed_inv (str "v")) in H3 as (b2 & t2 & B2 & T2 & ->).
  apply expect_inv in H4. apply tokS_inv in H4 as (b3 & B3 & ->).
  exists b, (str "<tag" ++ b1 ++ t1 ++ b2 ++ t2 ++ b3 ++ str "/>"). split; [exact B|].
  split; [exists b1, t1, b2, t2, b3; auto 10|]. now rewrite <- !app_assoc.
Qed.
Lemma ref_ok b v t s : blanks b -> numberedText (str "ref") v t -> pref (b ++ t ++ s) = Parsed v s.
Proof.
  intros B H. unfold pref, pskip. assert (So : solid (t ++ s)) by (destruct H as (b1 & ds & b2 & _ & _ & _ & _ & ->); reflexivity).
  rewrite spaces_ok by assumption. apply (numbered_ok [] (str "ref") v t s blanks_nil); [reflexivity|exact H].
Qed.
Lemma ref_inv s v r : pref s = Parsed v r -> exists b t, blanks b /\ numberedText (str "ref") v t /\ s = b ++ t ++ r.
Proof.
  unfold pref, pskip. intros H. destruct (spaces_inv s) as (b & B & E). apply (numbered_inv (str "ref")) in H as (b1 & t & B1 & T & E').
  exists (b ++ b1), t. split; [apply Forall_app; split; assumption|]. split; [exact T|]. rewrite E, E'. now rewrite <- app_assoc.
Qed.
Lemma nodeRef_ok b v t s : blanks b -> refText v t -> pnodeRef (b ++ t ++ s) = Parsed v s.
Proof.
  intros B (b1 & t1 & b2 & B1 & T1 & B2 & ->). unfold pnodeRef. rewrite <- !app_assoc.
  erewrite bind_ok by (apply tokS_ok; [exact B|reflexivity]).
  erewrite bind_ok by (apply expect_ok; apply (ref_ok b1 v t1); assumption).
  erewrite bind_ok by (apply expect_ok; apply tokS_ok; [exact B2|reflexivity]). reflexivity.
Qed.
Lemma nodeRef_inv s v r : pnodeRef s = Parsed v r -> exists b t, blanks b /\ refText v t /\ s = b ++ t ++ r.
Proof.
  unfold pnodeRef. intros H. apply bind_inv in H as (u & r1 & H1 & H). apply bind_inv in H as (k & r2 & H2 & H).
  apply bind_inv in H as (u' & r4 & H4 & H). injection H as -> ->.
  apply tokS_inv in H1 as (b & B & ->). apply expect_inv in H2. apply ref_inv in H2 as (b1 & t1 & B1 & T1 & ->).
  apply expect_inv in H4. apply tokS_inv in H4 as (b3 & B3 & ->).
  exists b, (str "<nd" ++ b1 ++ t1 ++ b3 ++ str "/>"). split; [exact B|].
  split; [exists b1, t1, b3; auto 10|]. now rewrite <- !app_assoc.
Qed.
Lemma mapType_ok t n : typeName t n <-> mapType t = n.
Proof.
  unfold mapType, typeName. destruct (beqb t (str "node")) eqn:E1.
  - apply beqb_eq in E1 as ->. split; [|intros <-; left; auto]. intros [[_ ->]|[[E _]|(A & _)]]; [reflexivity|discriminate E|congruence].
  - assert (N1 : t <> str "node") by (intros ->; rewrite beqb_refl in E1; discriminate).
    destruct (beqb t (str "way")) eqn:E2.
    + apply beqb_eq in E2 as ->. split; [|intros <-; right; left; auto]. intros [[E _]|[[_ ->]|(_ & B & _)]]; [congruence|reflexivity|congruence].
    + assert (N2 : t <> str "way") by (intros ->; rewrite beqb_refl in E2; discriminate).
      split; [intros [[E _]|[[E _]|(_ & _ & ->)]]; congruence|intros <-; right; right; auto].
Qed.
Lemma member_ok b m t s : blanks b -> memberText m t -> pmember (b ++ t ++ s) = Parsed m s.
Proof.
  intros B (b1 & ty & t1 & b2 & t2 & b3 & t3 & b4 & B1 & T1 & Ty & B2 & T2 & B3 & T3 & B4 & ->). unfold pmember. rewrite <- !app_assoc.
  erewrite bind_ok by (apply tokS_ok; [exact B|reflexivity]).
  erewrite bind_ok by (apply expect_ok; apply (keyed_ok b1 (str "type") ty t1); [exact B1|reflexivity|exact T1]).
  erewrite bind_ok by (apply expect_ok; apply (ref_ok b2 (snd (fst m)) t2); assumption).
  erewrite bind_ok by (apply expect_ok; apply (keyed_ok b3 (str "role") (snd m) t3); [exact B3|reflexivity|exact T3]).
  erewrite bind_ok by (apply expect_ok; apply tokS_ok; [exact B4|reflexivity]).
  apply mapType_ok in Ty. rewrite Ty. destruct m as [[? ?] ?]. reflexivity.
Qed.
Lemma member_inv s m r : pmember s = Parsed m r -> exists b t, blanks b /\ memberText m t /\ s = b ++ t ++ r.
Proof.
  unfold pmember. intros H. apply bind_inv in H as (u & r1 & H1 & H). apply bind_inv in H as (k & r2 & H2 & H).
  apply bind_inv in H as (v & r3 & H3 & H). apply bind_inv in H as (o & r5 & H5 & H). apply bind_inv in H as (u' & r4 & H4 & H). injection H as <- ->.
  apply tokS_inv in H1 as (b & B & ->). apply expect_inv in H2. apply (keyed_inv (str "type")) in H2 as (b1 & t1 & B1 & T1 & ->).
  apply expect_inv in H3. apply ref_inv in H3 as (b2 & t2 & B2 & T2 & ->).
  apply expect_inv in H5. apply (keyed_inv (str "role")) in H5 as (b3 & t3 & B3 & T3 & ->).
  apply expect_inv in H4. apply tokS_inv in H4 as (b4 & B4 & ->).
  exists b, (str "<member" ++ b1 ++ t1 ++ b2 ++ t2 ++ b3 ++ t3 ++ b4 ++ str "/>"). split; [exact B|].
  split; [exists b1, k, t1, b2, t2, b3, t3, b4; split; [exact B1|]; split; [exact T1|]; split; [now apply mapType_ok|]; auto 10|].
  now rewrite <- !app_assoc.
Qed.

(** ** Lists *)
Section Lists.
  Context {A : Type} (G : bytes -> Prop) (P : A -> bytes -> Prop) (p : parser A).
  Hypothesis P_some : forall a t, P a t -> t <> [].
  Hypothesis p_ok : forall g a t s, G g -> P a t -> p (g ++ t ++ s) = Parsed a s.
  Hypothesis p_inv : forall s a r, p s = Parsed a r -> exists g t, G g /\ P a t /\ s = g ++ t ++ r.

  Lemma listText_length l u : listText G P l u -> (List.length l <= List.length u)%nat.
  Proof using P_some.
    clear p_ok p_inv p. induction 1 as [|g a t l u _ Ht _ IH]; [cbn; lia|]. apply P_some in Ht. rewrite !app_length. destruct t; [congruence|]. cbn [List.length]. lia.
  Qed.
  Lemma manyX_ok l u s : listText G P l u -> p s = Fail -> pmany p (u ++ s) = Parsed l s.
  Proof using P_some p_ok.
    clear p_inv. intros M F. unfold pmany. pose proof (listText_length l u M) as L.
    assert (L' : (List.length l < S (List.length (u ++ s)))%nat) by (rewrite app_length; lia).
    generalize dependent (S (List.length (u ++ s))). clear L. induction M as [|g a t l u Hg Ht _ IH]; intros f L.
    - destruct f as [|f]; [lia|]. cbn [pmanyFuel app]. now rewrite F.
    - cbn [List.length] in L. destruct f as [|f]; [lia|]. cbn [pmanyFuel]. rewrite <- !app_assoc, (p_ok g a t) by assumption.
      rewrite IH by lia. reflexivity.
  Qed.
  Lemma manyX_inv s l r : pmany p s = Parsed l r -> exists u, listText G P l u /\ s = u ++ r.
  Proof using p_inv.
    clear P_some p_ok. unfold pmany. generalize (S (List.length s)). intros f. revert s l r. induction f as [|f IH]; intros s l r H; cbn [pmanyFuel] in H.
    - injection H as <- <-. exists []. split; [constructor|reflexivity].
    - destruct (p s) as [| |a r1] eqn:E; [injection H as <- <-; exists []; split; [constructor|reflexivity]|discriminate|].
      destruct (pmanyFuel f p r1) as [| |l' r'] eqn:E'; try discriminate. injection H as <- <-.
      apply p_inv in E as (g & t & Hg & Ht & ->). apply IH in E' as (u & U & ->). exists (g ++ t ++ u). split; [now constructor|].
      now rewrite <- !app_assoc.
  Qed.
  Lemma many1X_ok l u s : l <> [] -> listText G P l u -> p s = Fail -> pmany1 p (u ++ s) = Parsed l s.
  Proof using P_some p_ok.
    clear p_inv. intros N M F. destruct M as [|g a t l u Hg Ht M]; [congruence|]. unfold pmany1. rewrite <- !app_assoc.
    rewrite (bind_ok _ _ _ a (u ++ s)) by (apply p_ok; assumption). erewrite bind_ok by (apply manyX_ok; eassumption). reflexivity.
  Qed.
  Lemma many1X_inv s l r : pmany1 p s = Parsed l r -> exists u, l <> [] /\ listText G P l u /\ s = u ++ r.
  Proof using p_inv.
    clear P_some p_ok. unfold pmany1. intros H. apply bind_inv in H as (a & r1 & H1 & H). apply bind_inv in H as (l' & r2 & H2 & H). injection H as <- <-.
    apply p_inv in H1 as (g & t & Hg & Ht & ->). apply manyX_inv in H2 as (u & U & ->). exists (g ++ t ++ u).
    split; [discriminate|]. split; [now constructor|]. now rewrite <- !app_assoc.
  Qed.
End Lists.

Lemma tag_some kv t : tagText kv t -> t <> [].
Proof. intros (b1 & t1 & b2 & t2 & b3 & _ & _ & _ & _ & _ & ->). discriminate. Qed.
Lemma ref_some v t : refText v t -> t <> [].
Proof. intros (b1 & t1 & b2 & _ & _ & _ & ->). discriminate. Qed.
Lemma member_some m t : memberText m t -> t <> [].
Proof. intros (b1 & ty & t1 & b2 & t2 & b3 & t3 & b4 & _ & _ & _ & _ & _ & _ & _ & _ & ->). discriminate. Qed.
Lemma id_ok a v t s : agap a -> numberedText (str "id") v t -> pid (a ++ t ++ s) = Parsed v s.
Proof.
  intros A H. unfold pid, pskip. assert (St : skipAttribute (t ++ s) = None).
  { destruct H as (b1 & ds & b2 & _ & _ & _ & _ & ->). rewrite <- !app_assoc. apply (stop_known (str "id")). cbn; auto. }
  rewrite attrs_ok by assumption. apply (numbered_ok [] (str "id") v t s blanks_nil); [reflexivity|exact H].
Qed.
Lemma blanks_agap b : blanks b -> agap b.
Proof. induction 1; constructor; assumption. Qed.
Lemma id_inv s v r : pid s = Parsed v r -> exists a t, agap a /\ numberedText (str "id") v t /\ s = a ++ t ++ r.
Proof.
  unfold pid, pskip. intros H. destruct (attrs_inv s) as (a & A & E & _). apply (numbered_inv (str "id")) in H as (b1 & t & B1 & T & E').
  exists (a ++ b1), t. split; [apply agap_app; [exact A|now apply blanks_agap]|]. split; [exact T|]. rewrite E, E'. now rewrite <- app_assoc.
Qed.
(** An end tag ends the repetitions before it. *)
Lemma spaces_of_agap a : agap a -> exists b a', blanks b /\ a = b ++ a' /\ (a' = [] \/ exists t u, foreign t /\ a' = t ++ u).
Proof.
  induction 1 as [|c a B _ (b & a' & Hb & -> & H)|t a F _ _].
  - exists [], []. split; [constructor|]. auto.
  - exists (c :: b), a'. split; [constructor; assumption|]. split; [reflexivity|exact H].
  - exists [], (t ++ a). split; [constructor|]. split; [reflexivity|]. right. eauto.
Qed.
Lemma plit_other c l d s : c <> d -> plit (c :: l) (d :: s) = Fail.
Proof. intros H. cbn [plit]. destruct (N.eqb_spec c d); [congruence|reflexivity]. Qed.
Lemma tokS_end a l m s : agap a -> firm m -> (forall x, plit (60%N :: l) (m ++ x) = Fail) -> tokS (60%N :: l) (a ++ m ++ s) = Fail.
Proof.
  intros A F H. destruct (spaces_of_agap a A) as (b & a' & B & -> & [->|(t & u & Ft & ->)]).
  - rewrite app_nil_r. now apply tokS_no.
  - rewrite <- !app_assoc. destruct (foreign_some t Ft) as (c & t' & Et & Sc). unfold tokS, pskip. rewrite spaces_ok; [|exact B|rewrite Et; exact Sc].
    rewrite Et. cbn [app]. apply plit_other. intros <-. destruct Ft as (k & v & K & Al & _ & _ & _ & E). destruct k as [|d k]; [congruence|].
    rewrite E in Et. cbn in Et. injection Et as -> _. apply Forall_inv in Al. unfold alnum in Al. lia.
Qed.
Section Body.
  Context {A : Type} (P : A -> bytes -> Prop) (part : parser A) (name open : bytes).
  Hypothesis P_some : forall a t, P a t -> t <> [].
  Hypothesis part_ok : forall g a t s, blanks g -> P a t -> part (g ++ t ++ s) = Parsed a s.
  Hypothesis part_inv : forall s a r, part s = Parsed a r -> exists g t, blanks g /\ P a t /\ s = g ++ t ++ r.
  (** The part begins with the literal <open. *)
  Hypothesis part_no : forall s, tokS (60%N :: open) s = Fail -> part s = Fail.
  Hypothesis open_tag : forall x, plit (60%N :: open) (str "<tag" ++ x) = Fail.
  Hypothesis open_end : forall x, plit (60%N :: open) (str "</" ++ x) = Fail.

  Lemma body_ok l u ts v a s : l <> [] -> listText blanks P l u -> listText blanks tagText ts v -> agap a ->
    pbody part (str "</" ++ name ++ str ">") (u ++ v ++ a ++ str "</" ++ name ++ str ">" ++ s) = Parsed (l, ts) s.
  Proof using P_some part_ok part_no open_tag open_end.
    clear part_inv.
    intros N L T Ag. unfold pbody.
    assert (E : str "</" ++ name ++ str ">" ++ s = (str "</" ++ name ++ str ">") ++ s) by now rewrite <- !app_assoc.
    rewrite E. assert (Tag : ptag (a ++ (str "</" ++ name ++ str ">") ++ s) = Fail).
    { unfold ptag. apply bind_no. rewrite <- app_assoc. apply (tokS_end a (tl (str "<tag")) (str "</")); [exact Ag|reflexivity|reflexivity]. }
    assert (Pa : part (v ++ a ++ (str "</" ++ name ++ str ">") ++ s) = Fail).
    { apply part_no. destruct T as [|g kv t ts v Hg Ht T]; cbn [app].
      - rewrite <- app_assoc. apply (tokS_end a open (str "</")); [exact Ag|reflexivity|exact open_end].
      - destruct Ht as (b1 & t1 & b2 & t2 & b3 & _ & _ & _ & _ & _ & ->). rewrite <- !app_assoc.
        apply (tokS_no g _ (str "<tag")); [exact Hg|reflexivity|exact open_tag]. }
    erewrite bind_ok by (apply expect_ok; apply (many1X_ok blanks P part P_some part_ok); [exact N|exact L|exact Pa]).
    erewrite bind_ok by (apply (manyX_ok blanks tagText ptag tag_some tag_ok); [exact T|exact Tag]).
    erewrite bind_ok by (apply expect_ok; apply tokA_ok; [exact Ag|split; reflexivity]). reflexivity.
  Qed.
  Lemma body_inv s l ts r : pbody part (str "</" ++ name ++ str ">") s = Parsed (l, ts) r ->
    exists u v a, l <> [] /\ listText blanks P l u /\ listText blanks tagText ts v /\ agap a /\
      s = u ++ v ++ a ++ str "</" ++ name ++ str ">" ++ r.
  Proof using part_inv.
    clear P_some part_ok part_no open_tag open_end.
    unfold pbody. intros H. apply bind_inv in H as (l' & r1 & H1 & H). apply bind_inv in H as (ts' & r2 & H2 & H).
    apply bind_inv in H as (u' & r3 & H3 & H). injection H as -> -> ->.
    apply expect_inv in H1. apply (many1X_inv blanks P part part_inv) in H1 as (u & N & L & ->).
    apply (manyX_inv blanks tagText ptag tag_inv) in H2 as (v & T & ->). apply expect_inv in H3. apply tokA_inv in H3 as (a & Ag & ->).
    exists u, v, a. repeat split; try assumption. now rewrite <- !app_assoc.
  Qed.
End Body.

Section Numbers.
  Context {T : Type} (zero : T) (numeral : T -> bytes -> Prop) (number : bytes -> option (T * bytes)).
  Hypothesis Good : goodNumber numeral number.

  Lemma doubleValue_ok b ds v s : blanks b -> numeral v ds -> pdoubleValue number (b ++ quoted ds ++ s) = Parsed v s.
  Proof using Good.
    intros B Nu. unfold pdoubleValue, pskip. rewrite spaces_ok; [|exact B|reflexivity]. unfold quoted. rewrite <- !app_assoc.
    rewrite (bind_ok _ _ _ tt (ds ++ [34%N] ++ s)) by apply (lit_ok xquote).
    rewrite (bind_ok _ _ _ v ([34%N] ++ s)) by (apply expect_ok; unfold pdouble; cbn [app]; now rewrite (proj2 Good v)).
    rewrite (bind_ok _ _ _ tt s) by (apply expect_ok, lit_ok). reflexivity.
  Qed.
  Lemma doubleValue_inv s v r : pdoubleValue number s = Parsed v r -> exists b ds, blanks b /\ numeral v ds /\ s = b ++ quoted ds ++ r.
  Proof using Good.
    unfold pdoubleValue, pskip. intros H. destruct (spaces_inv s) as (b & B & E). apply bind_inv in H as (u & r1 & H1 & H). apply lit_inv in H1.
    apply bind_inv in H as (v' & r2 & H2 & H). apply bind_inv in H as (u' & r3 & H3 & H). injection H as -> ->.
    apply expect_inv in H2. unfold pdouble in H2. destruct (number r1) as [[w q]|] eqn:En; [|discriminate]. injection H2 as -> ->.
    apply (proj1 Good) in En as (ds & Eq & Nu). apply expect_inv, lit_inv in H3. exists b, ds. split; [exact B|]. split; [exact Nu|].
    rewrite E, H1, Eq, H3. unfold quoted, xquote. now rewrite <- !app_assoc.
  Qed.
  Lemma coordinate_ok b key v t s : blanks b -> firm key -> coordinateText numeral key v t -> pcoordinate number (key ++ str "=") (b ++ t ++ s) = Parsed v s.
  Proof using Good.
    intros B F (b1 & ds & B1 & Nu & ->). unfold pcoordinate. rewrite <- !app_assoc.
    assert (F' : firm (key ++ str "=")) by (destruct key; [contradiction|exact F]).
    pose proof (tokS_ok b (key ++ str "=") (b1 ++ quoted ds ++ s) B F') as K. rewrite <- !app_assoc in K.
    erewrite bind_ok by exact K. apply expect_ok. now apply doubleValue_ok.
  Qed.
  Lemma coordinate_inv key s v r : pcoordinate number (key ++ str "=") s = Parsed v r ->
    exists b t, blanks b /\ coordinateText numeral key v t /\ s = b ++ t ++ r.
  Proof using Good.
    unfold pcoordinate. intros H. apply bind_inv in H as (u & r1 & H1 & H). apply tokS_inv in H1 as (b & B & ->).
    apply expect_inv, doubleValue_inv in H as (b1 & ds & B1 & Nu & ->). exists b, (key ++ str "=" ++ b1 ++ quoted ds).
    split; [exact B|]. split; [exists b1, ds; auto|]. now rewrite <- !app_assoc.
  Qed.

  (** *** bounds *)
  Lemma existsb_seen (seen : list (nat * T)) i : existsb (fun p => Nat.eqb (fst p) i) seen = true <-> In i (map fst seen).
  Proof using.
    clear Good number numeral zero. rewrite existsb_exists, in_map_iff. split; intros (p & H1 & H2); exists p; (split; [|try assumption]); try assumption.
    - now apply Nat.eqb_eq.
    - now apply Nat.eqb_eq.
  Qed.
  Lemma not_seen (seen : list (nat * T)) i : ~ In i (map fst seen) -> existsb (fun p => Nat.eqb (fst p) i) seen = false.
  Proof using. clear Good number numeral zero. intros H. destruct (existsb _ seen) eqn:E; [|reflexivity]. apply existsb_seen in E. contradiction. Qed.
  (** None of the keys is here. *)
  Lemma item_no keys i seen s : Forall (fun k => tokS k s = Fail) keys -> pboundsItem number i keys seen s = Fail.
  Proof using.
    clear Good numeral zero. intros F. revert i. induction F as [|k keys K _ IH]; intros i; cbn [pboundsItem]; [reflexivity|].
    destruct (existsb _ seen); [apply IH|]. rewrite or_no; [apply IH|]. apply bind_no. unfold pcoordinate. now apply bind_no.
  Qed.
  (** The key at a place. *)
  Lemma item_at keys j i seen s v r : (j < List.length keys)%nat -> ~ In (i + j)%nat (map fst seen) ->
    (forall m, (m < List.length keys)%nat -> m <> j -> tokS (nth m keys []) s = Fail) ->
    pcoordinate number (nth j keys []) s = Parsed v r -> pboundsItem number i keys seen s = Parsed ((i + j)%nat, v) r.
  Proof using.
    clear Good numeral zero. revert j i. induction keys as [|k keys IH]; intros j i L NI O P; [cbn in L; lia|]. cbn [pboundsItem]. destruct j as [|j].
    - rewrite Nat.add_0_r in *. rewrite not_seen by exact NI. apply or_ok. cbn [nth] in P. now rewrite (bind_ok _ _ _ _ _ P).
    - assert (R : pboundsItem number (S i) keys seen s = Parsed ((i + S j)%nat, v) r).
      { rewrite <- Nat.add_succ_comm in *. apply IH; [cbn in L; lia|exact NI| |exact P]. intros m M D. apply (O (S m)); [cbn; lia|lia]. }
      destruct (existsb _ seen); [exact R|]. rewrite or_no; [exact R|]. apply bind_no. unfold pcoordinate. apply bind_no. apply (O 0%nat); [cbn; lia|lia].
  Qed.
  Lemma boundsKey_eq i : (i < 4)%nat -> nth i boundsKeys [] = boundsKey i ++ str "=".
  Proof using. clear. intros H. destruct i as [|[|[|[|i]]]]; try reflexivity. lia. Qed.
  Lemma boundsKey_firm i : (i < 4)%nat -> firm (boundsKey i).
  Proof using. clear. intros H. destruct i as [|[|[|[|i]]]]; try reflexivity. lia. Qed.
  Lemma boundsKey_apart i m x : (i < 4)%nat -> (m < 4)%nat -> m <> i -> plit (nth m boundsKeys []) ((boundsKey i ++ str "=") ++ x) = Fail.
  Proof using.
    clear. intros Hi Hm D. destruct i as [|[|[|[|i]]]]; [| | | |lia]; (destruct m as [|[|[|[|m]]]]; [| | | |lia]); try congruence; reflexivity.
  Qed.
  Lemma item_ok b p t s seen : blanks b -> boundsItem numeral p t -> ~ In (fst p) (map fst seen) ->
    pboundsItem number 0 boundsKeys seen (b ++ t ++ s) = Parsed p s.
  Proof using Good.
    intros B [L C] NI. destruct p as [i v]. cbn [fst snd] in *. apply (item_at boundsKeys i 0); [exact L|exact NI| |].
    - intros m M D. destruct C as (b1 & ds & _ & _ & ->).
      replace ((boundsKey i ++ str "=" ++ b1 ++ quoted ds) ++ s) with ((boundsKey i ++ str "=") ++ (b1 ++ quoted ds) ++ s) by now rewrite <- !app_assoc.
      apply tokS_no; [exact B|pose proof (boundsKey_firm i L); destruct (boundsKey i); [contradiction|assumption]|].
      intros x. apply boundsKey_apart; [exact L|exact M|exact D].
    - rewrite boundsKey_eq by exact L. apply coordinate_ok; [exact B|now apply boundsKey_firm|exact C].
  Qed.
  Lemma item_inv_gen keys i seen s p r : pboundsItem number i keys seen s = Parsed p r ->
    exists j, (j < List.length keys)%nat /\ fst p = (i + j)%nat /\ ~ In (fst p) (map fst seen) /\ pcoordinate number (nth j keys []) s = Parsed (snd p) r.
  Proof using.
    clear Good numeral zero. revert i. induction keys as [|k keys IH]; intros i H; cbn [pboundsItem] in H; [discriminate|].
    assert (Next : pboundsItem number (S i) keys seen s = Parsed p r ->
      exists j, (j < List.length (k :: keys))%nat /\ fst p = (i + j)%nat /\ ~ In (fst p) (map fst seen) /\ pcoordinate number (nth j (k :: keys) []) s = Parsed (snd p) r).
    { intros H'. apply IH in H' as (j & L & E & NI & P). exists (S j). split; [cbn; lia|]. split; [lia|]. split; [exact NI|exact P]. }
    destruct (existsb _ seen) eqn:Ex; [now apply Next|]. apply or_inv in H as [H|H]; [|now apply Next].
    apply bind_inv in H as (v & r1 & H1 & H). injection H as <- ->. exists 0%nat. split; [cbn; lia|]. split; [cbn; lia|]. cbn [fst snd nth].
    split; [|exact H1]. intros I. apply existsb_seen in I. congruence.
  Qed.
  Lemma item_inv seen s p r : pboundsItem number 0 boundsKeys seen s = Parsed p r ->
    exists b t, blanks b /\ boundsItem numeral p t /\ ~ In (fst p) (map fst seen) /\ s = b ++ t ++ r.
  Proof using Good.
    intros H. apply item_inv_gen in H as (j & L & E & NI & P). cbn in E. rewrite boundsKey_eq in P by exact L.
    apply coordinate_inv in P as (b & t & B & C & ->). exists b, t. split; [exact B|]. split; [|auto]. rewrite <- E in L, C. split; [exact L|exact C].
  Qed.
  Lemma items_ok l u s fuel seen : listText blanks (boundsItem numeral) l u -> NoDup (map fst (rev l ++ seen)) -> (List.length l <= fuel)%nat ->
    Forall (fun k => tokS k s = Fail) boundsKeys -> pboundsItems number fuel seen (u ++ s) = Parsed (rev l ++ seen) s.
  Proof using Good.
    intros M. revert fuel seen. induction M as [|g a t l u Hg Ht M IH]; intros fuel seen ND L F.
    - cbn [app rev]. destruct fuel; [reflexivity|]. cbn [pboundsItems]. now rewrite item_no.
    - cbn [List.length] in L. destruct fuel as [|fuel]; [lia|]. cbn [pboundsItems rev] in *. rewrite <- !app_assoc in *. cbn [app] in ND.
      rewrite (item_ok g a t) by (try assumption; rewrite map_app in ND; cbn [map] in ND; apply NoDup_remove_2 in ND; intros I; apply ND, in_app_iff; now right).
      rewrite IH; [reflexivity|exact ND|lia|exact F].
  Qed.
  Lemma items_inv fuel seen s l r : NoDup (map fst seen) -> pboundsItems number fuel seen s = Parsed l r ->
    exists m u, l = rev m ++ seen /\ NoDup (map fst l) /\ listText blanks (boundsItem numeral) m u /\ s = u ++ r.
  Proof using Good.
    revert seen s. induction fuel as [|fuel IH]; intros seen s ND H; cbn [pboundsItems] in H.
    - injection H as <- <-. exists [], []. split; [reflexivity|]. split; [exact ND|]. split; [constructor|reflexivity].
    - destruct (pboundsItem number 0 boundsKeys seen s) as [| |p q] eqn:E; [injection H as <- <-; exists [], []; split; [reflexivity|]; split; [exact ND|]; split; [constructor|reflexivity]|discriminate|].
      apply item_inv in E as (b & t & B & P & NI & ->). apply IH in H as (m & u & -> & ND' & M & ->); [|cbn [map]; now constructor].
      exists (p :: m), (b ++ t ++ u). split; [cbn [rev]; now rewrite <- app_assoc|]. split; [exact ND'|]. split; [now constructor|]. now rewrite <- !app_assoc.
  Qed.
  Lemma alookup_in (l : list (nat * T)) i v : NoDup (map fst l) -> In (i, v) l -> alookup Nat.eqb i l = Some v.
  Proof using.
    clear Good number numeral zero. induction l as [|[j w] l IH]; intros ND I; [destruct I|]. cbn [alookup map fst] in *. apply NoDup_cons_iff in ND as [NI ND]. destruct I as [[= -> ->]|I].
    - now rewrite Nat.eqb_refl.
    - destruct (Nat.eqb_spec i j) as [->|]; [exfalso; apply NI, in_map_iff; exists (j, v); auto|now apply IH].
  Qed.
  Lemma alookup_out (l : list (nat * T)) i : ~ In i (map fst l) -> alookup Nat.eqb i l = None.
  Proof using.
    clear Good number numeral zero. induction l as [|[j w] l IH]; intros NI; [reflexivity|]. cbn [alookup map fst In] in *. destruct (Nat.eqb_spec i j) as [->|]; [exfalso; auto|apply IH; auto].
  Qed.
  Lemma boundsAt_ok (l : list (nat * T)) i v : NoDup (map fst l) -> valueAt zero l i v <-> boundsAt zero (rev l ++ []) i = v.
  Proof using.
    clear Good number numeral. intros ND. rewrite app_nil_r. assert (ND' : NoDup (map fst (rev l))) by (rewrite map_rev; apply NoDup_rev; exact ND).
    assert (NI : ~ In i (map fst l) -> ~ In i (map fst (rev l))) by (rewrite map_rev; intros H I; apply H; now apply in_rev).
    unfold boundsAt, valueAt. split.
    - intros [I|[N ->]]; [rewrite (alookup_in _ _ v); [reflexivity|exact ND'|now apply in_rev in I]|now rewrite alookup_out by auto].
    - intros <-. destruct (in_dec Nat.eq_dec i (map fst l)) as [I|N].
      + left. apply in_map_iff in I as ([j w] & <- & I). cbn [fst]. rewrite (alookup_in _ _ w); [exact I|exact ND'|now apply in_rev in I].
      + right. split; [exact N|]. now rewrite alookup_out by auto.
  Qed.
  Lemma NoDup_small l : NoDup l -> (forall i, In i l -> (i < 4)%nat) -> (List.length l <= 4)%nat.
  Proof using.
    clear. intros ND H. apply (NoDup_incl_length ND (l' := [0; 1; 2; 3]%nat)). intros i I. apply H in I. cbn [In]. lia.
  Qed.
  Lemma items_places l u : listText blanks (boundsItem numeral) l u -> forall i, In i (map fst l) -> (i < 4)%nat.
  Proof using.
    clear Good number zero. induction 1 as [|g a t l u _ [L _] _ IH]; intros i I; [destruct I|]. destruct I as [<-|I]; auto.
  Qed.
  Lemma bounds_ok a e t s : agap a -> boundsText zero numeral e t -> pbounds zero number (a ++ t ++ s) = Parsed e s.
  Proof using Good.
    intros A (l & u & b & v0 & v1 & v2 & v3 & N & ND & M & B & V0 & V1 & V2 & V3 & -> & ->). unfold pbounds, pskip. rewrite <- !app_assoc.
    rewrite attrs_ok; [|exact A|apply firmA_stop; split; reflexivity].
    erewrite bind_ok by (apply (tokS_ok [] (str "<bounds")); [constructor|reflexivity]).
    assert (F : Forall (fun k => tokS k (b ++ str "/>" ++ s) = Fail) boundsKeys).
    { unfold boundsKeys. repeat (apply Forall_cons; [apply tokS_no; [exact B|reflexivity|reflexivity]|]). apply Forall_nil. }
    assert (L4 : (List.length l <= 4)%nat).
    { rewrite <- (map_length fst). apply NoDup_small; [exact ND|]. now apply (items_places l u). }
    assert (P : pboundsSome number (u ++ b ++ str "/>" ++ s) = Parsed (rev l ++ []) (b ++ str "/>" ++ s)).
    { unfold pboundsSome. rewrite (items_ok l u _ 4 []); [|exact M|rewrite app_nil_r, map_rev; apply NoDup_rev; exact ND|exact L4|exact F].
      destruct (rev l ++ []) as [|x y] eqn:El; [|reflexivity]. exfalso. rewrite app_nil_r in El. apply N. rewrite <- (rev_involutive l), El. reflexivity. }
    erewrite bind_ok by (apply expect_ok; exact P).
    erewrite bind_ok by (apply expect_ok; apply tokS_ok; [exact B|reflexivity]).
    apply boundsAt_ok in V0, V1, V2, V3; try exact ND. rewrite V0, V1, V2, V3. reflexivity.
  Qed.
  Lemma bounds_inv s e r : pbounds zero number s = Parsed e r -> exists a t, agap a /\ boundsText zero numeral e t /\ s = a ++ t ++ r.
  Proof using Good.
    unfold pbounds, pskip. intros H. destruct (attrs_inv s) as (a & A & E & _). apply bind_inv in H as (x & r1 & H1 & H).
    apply bind_inv in H as (l & r2 & H2 & H). apply bind_inv in H as (y & r3 & H3 & H). injection H as <- ->.
    apply tokS_inv in H1 as (b0 & B0 & E1). apply expect_inv in H2. unfold pboundsSome in H2.
    destruct (pboundsItems number 4 [] r1) as [| |l' q] eqn:E2; try discriminate. destruct l' as [|p l''] eqn:El; [discriminate|]. rewrite <- El in *.
    injection H2 as <- ->. apply items_inv in E2 as (m & u & -> & ND & M & ->); [|constructor]. apply expect_inv in H3. apply tokS_inv in H3 as (b & B & ->).
    rewrite app_nil_r, map_rev in ND. apply NoDup_rev in ND. rewrite rev_involutive in ND.
    exists (a ++ b0), (str "<bounds" ++ u ++ b ++ str "/>"). split; [apply agap_app; [exact A|now apply blanks_agap]|]. split.
    - exists m, u, b. do 4 eexists. split; [intros ->; discriminate El|]. split; [exact ND|]. split; [exact M|]. split; [exact B|].
      repeat (split; [apply boundsAt_ok; [exact ND|reflexivity]|]). split; [reflexivity|reflexivity].
    - rewrite E, E1. now rewrite <- !app_assoc.
  Qed.

  (** *** Elements *)
  Lemma skipped_coordinate_ok a key v t s : agap a -> In key keys3 -> coordinateText numeral key v t ->
    pskip skipAttrs (pcoordinate number (key ++ str "=")) (a ++ t ++ s) = Parsed v s.
  Proof using Good.
    intros A I C. unfold pskip. assert (St : skipAttribute (t ++ s) = None).
    { destruct C as (b1 & ds & _ & _ & ->). rewrite <- !app_assoc. now apply (stop_known key). }
    rewrite attrs_ok by assumption. apply (coordinate_ok [] key v t s blanks_nil); [|exact C]. destruct I as [<-|[<-|[<-|[]]]]; reflexivity.
  Qed.
  Lemma skipped_coordinate_inv key s v r : pskip skipAttrs (pcoordinate number (key ++ str "=")) s = Parsed v r ->
    exists a t, agap a /\ coordinateText numeral key v t /\ s = a ++ t ++ r.
  Proof using Good.
    unfold pskip. intros H. destruct (attrs_inv s) as (a & A & E & _). apply coordinate_inv in H as (b1 & t & B1 & C & E').
    exists (a ++ b1), t. split; [apply agap_app; [exact A|now apply blanks_agap]|]. split; [exact C|]. rewrite E, E'. now rewrite <- app_assoc.
  Qed.
  Lemma node_ok a e t s : agap a -> nodeText numeral e t -> pnode number (a ++ t ++ s) = Parsed e s.
  Proof using Good.
    intros A (id & lat & lon & ts & a1 & t1 & a2 & t2 & a3 & t3 & a4 & rest & A1 & T1 & A2 & T2 & A3 & T3 & A4 & R & -> & ->). unfold pnode. rewrite <- !app_assoc.
    erewrite bind_ok by (apply tokA_ok; [exact A|split; reflexivity]).
    erewrite bind_ok by (apply expect_ok; apply (id_ok a1 id t1); assumption).
    erewrite bind_ok by (apply expect_ok; apply (skipped_coordinate_ok a2 (str "lat") lat t2); [exact A2|cbn; auto|exact T2]).
    erewrite bind_ok by (apply expect_ok; apply (skipped_coordinate_ok a3 (str "lon") lon t3); [exact A3|cbn; auto|exact T3]).
    rewrite (bind_ok _ _ _ ts s); [reflexivity|]. apply expect_ok. destruct R as [[-> ->]|(u & a5 & M & A5 & ->)].
    - rewrite or_no by (apply bind_no; apply (tokA_no a4 _ (str "/>")); [exact A4|split; reflexivity|reflexivity]).
      erewrite bind_ok by (apply expect_ok; apply tokA_ok; [exact A4|split; reflexivity]). reflexivity.
    - apply or_ok. rewrite <- !app_assoc. erewrite bind_ok by (apply tokA_ok; [exact A4|split; reflexivity]).
      erewrite bind_ok by (apply (manyX_ok blanks tagText ptag tag_some tag_ok); [exact M|]; unfold ptag; apply bind_no;
        apply (tokS_end a5 (tl (str "<tag")) (str "</node>")); [exact A5|reflexivity|reflexivity]).
      erewrite bind_ok by (apply expect_ok; apply tokA_ok; [exact A5|split; reflexivity]). reflexivity.
  Qed.
  Lemma node_inv s e r : pnode number s = Parsed e r -> exists a t, agap a /\ nodeText numeral e t /\ s = a ++ t ++ r.
  Proof using Good.
    unfold pnode. intros H. apply bind_inv in H as (x & r1 & H1 & H). apply bind_inv in H as (id & r2 & H2 & H).
    apply bind_inv in H as (lat & r3 & H3 & H). apply bind_inv in H as (lon & r4 & H4 & H). apply bind_inv in H as (ts & r5 & H5 & H). injection H as <- ->.
    apply tokA_inv in H1 as (a & A & ->). apply expect_inv in H2. apply id_inv in H2 as (a1 & t1 & A1 & T1 & ->).
    apply expect_inv in H3. apply (skipped_coordinate_inv (str "lat")) in H3 as (a2 & t2 & A2 & T2 & ->).
    apply expect_inv in H4. apply (skipped_coordinate_inv (str "lon")) in H4 as (a3 & t3 & A3 & T3 & ->).
    apply expect_inv in H5.
    assert (R : exists a4 rest, agap a4 /\ ((ts = [] /\ rest = str "/>") \/
       exists u a5, listText blanks tagText ts u /\ agap a5 /\ rest = str ">" ++ u ++ a5 ++ str "</node>") /\ r4 = a4 ++ rest ++ r).
    { apply or_inv in H5 as [H5|H5].
      - apply bind_inv in H5 as (y & q1 & Q1 & H5). apply bind_inv in H5 as (ts' & q2 & Q2 & H5). apply bind_inv in H5 as (z & q3 & Q3 & H5). injection H5 as -> ->.
        apply tokA_inv in Q1 as (a4 & A4 & ->). apply (manyX_inv blanks tagText ptag tag_inv) in Q2 as (u & M & ->).
        apply expect_inv in Q3. apply tokA_inv in Q3 as (a5 & A5 & ->). exists a4, (str ">" ++ u ++ a5 ++ str "</node>"). split; [exact A4|].
        split; [right; exists u, a5; auto|now rewrite <- !app_assoc].
      - apply bind_inv in H5 as (y & q1 & Q1 & H5). injection H5 as <- ->. apply expect_inv in Q1. apply tokA_inv in Q1 as (a4 & A4 & ->).
        exists a4, (str "/>"). split; [exact A4|]. split; [left; auto|reflexivity]. }
    destruct R as (a4 & rest & A4 & R & ->).
    exists a, (str "<node" ++ a1 ++ t1 ++ a2 ++ t2 ++ a3 ++ t3 ++ a4 ++ rest). split; [exact A|]. split; [|now rewrite <- !app_assoc].
    exists id, lat, lon, ts, a1, t1, a2, t2, a3, t3, a4, rest. auto 12.
  Qed.
  Lemma way_ok a e t s : agap a -> wayText (T := T) e t -> pway (a ++ t ++ s) = Parsed e s.
  Proof using.
    clear. intros A (id & l & ts & -> & a1 & t1 & a2 & u & v & a3 & A1 & T1 & A2 & N & L & Ts & A3 & ->). unfold pway. rewrite <- !app_assoc.
    erewrite bind_ok by (apply (tokA_ok a (str "<way")); [exact A|split; reflexivity]).
    erewrite bind_ok by (apply expect_ok; apply (id_ok a1 id t1); assumption).
    erewrite bind_ok by (apply expect_ok; apply tokA_ok; [exact A2|split; reflexivity]).
    rewrite (bind_ok _ _ _ (l, ts) s); [reflexivity|].
    apply (body_ok refText pnodeRef (str "way") (str "nd") ref_some nodeRef_ok); try assumption; try reflexivity.
    intros x H. unfold pnodeRef. now apply bind_no.
  Qed.
  Lemma way_inv s (e : xevent T) r : pway s = Parsed e r -> exists a t, agap a /\ wayText e t /\ s = a ++ t ++ r.
  Proof using.
    clear. unfold pway. intros H. apply bind_inv in H as (x & r1 & H1 & H). apply bind_inv in H as (id & r2 & H2 & H).
    apply bind_inv in H as (y & r3 & H3 & H). apply bind_inv in H as ([l ts] & r4 & H4 & H). injection H as <- ->.
    apply tokA_inv in H1 as (a & A & ->). apply expect_inv in H2. apply id_inv in H2 as (a1 & t1 & A1 & T1 & ->).
    apply expect_inv in H3. apply tokA_inv in H3 as (a2 & A2 & ->).
    apply (body_inv refText pnodeRef (str "way") nodeRef_inv) in H4 as (u & v & a3 & N & L & Ts & A3 & ->).
    exists a, (str "<" ++ str "way" ++ a1 ++ t1 ++ a2 ++ str ">" ++ u ++ v ++ a3 ++ str "</" ++ str "way" ++ str ">"). split; [exact A|]. split.
    - exists id, l, ts. split; [reflexivity|]. exists a1, t1, a2, u, v, a3. auto 12.
    - change (str "<way") with (str "<" ++ str "way"). now rewrite <- !app_assoc.
  Qed.
  Lemma relation_ok a e t s : agap a -> relationText (T := T) e t -> prelation (a ++ t ++ s) = Parsed e s.
  Proof using.
    clear. intros A (id & l & ts & -> & a1 & t1 & a2 & u & v & a3 & A1 & T1 & A2 & N & L & Ts & A3 & ->). unfold prelation. rewrite <- !app_assoc.
    erewrite bind_ok by (apply (tokA_ok a (str "<relation")); [exact A|split; reflexivity]).
    erewrite bind_ok by (apply expect_ok; apply (id_ok a1 id t1); assumption).
    erewrite bind_ok by (apply expect_ok; apply tokA_ok; [exact A2|split; reflexivity]).
    rewrite (bind_ok _ _ _ (l, ts) s); [reflexivity|].
    apply (body_ok memberText pmember (str "relation") (str "member") member_some member_ok); try assumption; try reflexivity.
    intros x H. unfold pmember. now apply bind_no.
  Qed.
  Lemma relation_inv s (e : xevent T) r : prelation s = Parsed e r -> exists a t, agap a /\ relationText e t /\ s = a ++ t ++ r.
  Proof using.
    clear. unfold prelation. intros H. apply bind_inv in H as (x & r1 & H1 & H). apply bind_inv in H as (id & r2 & H2 & H).
    apply bind_inv in H as (y & r3 & H3 & H). apply bind_inv in H as ([l ts] & r4 & H4 & H). injection H as <- ->.
    apply tokA_inv in H1 as (a & A & ->). apply expect_inv in H2. apply id_inv in H2 as (a1 & t1 & A1 & T1 & ->).
    apply expect_inv in H3. apply tokA_inv in H3 as (a2 & A2 & ->).
    apply (body_inv memberText pmember (str "relation") member_inv) in H4 as (u & v & a3 & N & L & Ts & A3 & ->).
    exists a, (str "<" ++ str "relation" ++ a1 ++ t1 ++ a2 ++ str ">" ++ u ++ v ++ a3 ++ str "</" ++ str "relation" ++ str ">"). split; [exact A|]. split.
    - exists id, l, ts. split; [reflexivity|]. exists a1, t1, a2, u, v, a3. auto 12.
    - change (str "<relation") with (str "<" ++ str "relation"). now rewrite <- !app_assoc.
  Qed.
End Numbers.

Definition sure {A} (p : parser A) : Prop := forall s, p s <> Fail.
Lemma sure_expect {A} (p : parser A) : sure (pexpect p).
Proof. intros s. unfold pexpect. destruct (p s); discriminate. Qed.
Lemma sure_bind {A B} (p : parser A) (f : A -> parser B) s : sure p -> (forall a, forall r, f a r <> Fail) -> pbind p f s <> Fail.
Proof. intros P F. unfold pbind. specialize (P s). destruct (p s); [congruence|discriminate|apply F]. Qed.
(** ** The head of a document *)
Lemma headChar_ok a c s : agap a -> skipAttribute (c :: s) = None -> c <> 62%N -> pheadChar (a ++ c :: s) = Parsed c s.
Proof.
  intros A St D. unfold pheadChar, pskip. rewrite attrs_ok by assumption. cbn [pchar]. destruct (N.eqb_spec c 62); [congruence|reflexivity].
Qed.
Lemma headChar_now c s : skipAttribute (c :: s) = None -> c <> 62%N -> pheadChar (c :: s) = Parsed c s.
Proof. apply (headChar_ok [] c s agap_nil). Qed.
Lemma stop_word k c s : k <> [] -> Forall alnum k -> isAlnum c = false -> c <> 61%N -> skipAttribute (k ++ c :: s) = None.
Proof.
  intros K A C D. destruct k as [|d k]; [congruence|]. cbn [app skipAttribute]. pose proof (Forall_inv A) as Ad. apply alnum_ok in Ad. rewrite (alnum_space d Ad).
  unfold pattribute. change (d :: k ++ c :: s) with ((d :: k) ++ c :: s). destruct (pknown ((d :: k) ++ c :: s)); try reflexivity.
  all: rewrite (bind_ok _ _ _ (d :: k) (c :: s)) by (apply chars_ok; [discriminate|eapply Forall_impl; [|exact A]; intros x; apply alnum_ok|exact C]);
    rewrite bind_no; [reflexivity|]; change (str "=" ++ xquote) with [61%N; 34%N]; apply plit_other; congruence.
Qed.
Lemma blank_alnum c : blank c -> isAlnum c = false.
Proof. unfold blank, isAlnum. lia. Qed.
Lemma header_ok h s : cleanHead h -> pheader (h ++ s) = Parsed tt s.
Proof.
  intros (c & a & a1 & a2 & C & A & A1 & A2 & ->). unfold pheader. rewrite <- !app_assoc. change (str "<?xml") with (str "<?" ++ [120; 109; 108]%N). rewrite <- !app_assoc.
  erewrite bind_ok by (apply (tokA_ok [] (str "<?")); [constructor|split; reflexivity]). cbn [app].
  rewrite <- !app_assoc. set (rest := a1 ++ str "<osm" ++ a2 ++ str ">" ++ s).
  assert (M : pmany pheadChar (120%N :: 109%N :: 108%N :: c :: a ++ str "?>" ++ rest) = Parsed [120; 109; 108; 63]%N (str ">" ++ rest)).
  { unfold pmany. remember (S (List.length _)) as f eqn:Ef.
    assert (Lf : (5 <= f)%nat) by (subst f; cbn [List.length]; rewrite !app_length; change (List.length (str "?>")) with 2%nat; lia). clear Ef.
    destruct f as [|[|[|[|[|f]]]]]; try lia. cbn [pmanyFuel].
    pose proof (blank_alnum c C) as Na. assert (D : c <> 61%N) by (unfold blank in C; lia).
    assert (W : forall k, k <> [] -> forallb isAlnum k = true -> skipAttribute (k ++ c :: a ++ str "?>" ++ rest) = None).
    { intros k K F. apply stop_word; [exact K| |exact Na|exact D]. apply Forall_forall. intros x I. apply alnum_ok. rewrite forallb_forall in F. now apply F. }
    rewrite (headChar_now 120%N); [|apply (W [120; 109; 108]%N); [discriminate|reflexivity]|discriminate].
    rewrite (headChar_now 109%N); [|apply (W [109; 108]%N); [discriminate|reflexivity]|discriminate].
    rewrite (headChar_now 108%N); [|apply (W [108]%N); [discriminate|reflexivity]|discriminate].
    pose proof (headChar_ok (c :: a) 63%N (str ">" ++ rest)) as Q. change (63%N :: str ">" ++ rest) with (str "?>" ++ rest) in Q. cbn [app] in Q.
    rewrite Q; [|now constructor|now apply stop_char|discriminate].
    assert (Z : pheadChar (str ">" ++ rest) = Fail).
    { unfold pheadChar, pskip. pose proof (attrs_ok [] (str ">" ++ rest) agap_nil) as Sk. cbn [app] in Sk. rewrite Sk; [reflexivity|now apply stop_char]. }
    rewrite Z. reflexivity. }
  erewrite bind_ok by (apply expect_ok; exact M). unfold rest.
  erewrite bind_ok by (apply expect_ok; apply (tokA_ok [] (str ">")); [constructor|split; reflexivity]).
  erewrite bind_ok by (apply expect_ok; apply tokA_ok; [exact A1|split; reflexivity]).
  apply expect_ok. apply tokA_ok; [exact A2|split; reflexivity].
Qed.
Lemma headMany_inv s l r : pmany pheadChar s = Parsed l r -> exists x, s = x ++ r.
Proof.
  unfold pmany. generalize (S (List.length s)). intros f. revert s l r. induction f as [|f IH]; intros s l r H; cbn [pmanyFuel] in H.
  - injection H as _ <-. exists []. reflexivity.
  - destruct (pheadChar s) as [| |c q] eqn:E; [injection H as _ <-; exists []; reflexivity|discriminate|].
    destruct (pmanyFuel f pheadChar q) as [| |l' r'] eqn:E'; try discriminate. injection H as _ <-. apply IH in E' as (x & ->).
    unfold pheadChar, pskip in E. destruct (attrs_inv s) as (a & _ & Ea & _). destruct (skipAttrs s) as [|d q'] eqn:Es; cbn [pchar] in E; [discriminate|].
    destruct (negb (N.eqb d 62)); [|discriminate]. injection E as -> ->. exists (a ++ c :: x). rewrite Ea. now rewrite <- app_assoc.
Qed.
Lemma header_inv s u r : pheader s = Parsed u r -> exists h, laxHead h /\ s = h ++ r.
Proof.
  unfold pheader. intros H. apply bind_inv in H as (y1 & r1 & H1 & H). apply bind_inv in H as (y2 & r2 & H2 & H). apply bind_inv in H as (y3 & r3 & H3 & H).
  apply bind_inv in H as (y4 & r4 & H4 & H5). apply expect_inv in H2, H3, H4, H5.
  apply tokA_inv in H1 as (a & A & ->). apply headMany_inv in H2 as (x & ->). apply tokA_inv in H3 as (a0 & A0 & ->).
  apply tokA_inv in H4 as (a1 & A1 & ->). apply tokA_inv in H5 as (a2 & A2 & ->).
  exists (a ++ str "<?" ++ x ++ a0 ++ str ">" ++ a1 ++ str "<osm" ++ a2 ++ str ">"). split; [exists a, x, a0, a1, a2; auto 10|now rewrite <- !app_assoc].
Qed.

(** ** What comes before the first node or bounds *)
Definition firstHere (s : bytes) : parsed unit := por (plit (str "<node")) (plit (str "<bounds")) s.
Lemma beforeFirst_eq s : beforeFirst s = match firstHere s with Parsed _ _ => s | _ => match s with [] => [] | _ :: s' => beforeFirst s' end end.
Proof. destruct s; reflexivity. Qed.
Lemma firstHere_yes s : startsFirst s -> exists r, firstHere s = Parsed tt r.
Proof.
  intros (r & [->| ->]); exists r; unfold firstHere.
  - apply or_ok, lit_ok.
  - rewrite or_no; [apply lit_ok|reflexivity].
Qed.
Lemma firstHere_inv s u r : firstHere s = Parsed u r -> startsFirst s.
Proof. intros H. apply or_inv in H as [H|H]; apply lit_inv in H; exists r; auto. Qed.
Lemma beforeFirst_inv s : exists junk, noFirst junk /\ s = junk ++ beforeFirst s /\ (beforeFirst s = [] \/ startsFirst (beforeFirst s)).
Proof.
  induction s as [|c s (junk & N & E & F)]; rewrite beforeFirst_eq.
  - exists []. split; [intros a r; split; destruct a; discriminate|]. cbn. auto.
  - assert (Go : firstHere (c :: s) <> Unexpected -> (forall u r, firstHere (c :: s) <> Parsed u r) -> exists junk0, noFirst junk0 /\ c :: s = junk0 ++ beforeFirst s /\ (beforeFirst s = [] \/ startsFirst (beforeFirst s))).
    { intros _ No. exists (c :: junk). split; [|split; [cbn [app]; now rewrite <- E|exact F]]. intros a r. destruct a as [|d a].
      - split; intros H; destruct (firstHere_yes (c :: s)) as (q & Q); try (now apply No in Q);
          exists (r ++ beforeFirst s); [left|right]; (transitivity ((c :: junk) ++ beforeFirst s); [cbn [app]; now rewrite <- E|rewrite H; cbn [app]; now rewrite <- app_assoc]).
      - split; intros H; injection H as -> H; destruct (N a r) as [N1 N2]; [now apply N1|now apply N2]. }
    destruct (firstHere (c :: s)) as [| |u r] eqn:H.
    + apply Go; [discriminate|discriminate].
    + exfalso. revert H. unfold firstHere, por. destruct (lit_prefix (str "<node") (c :: s)) as [(r & _ & ->)|[-> _]]; [discriminate|apply lit_no_expect].
    + exists []. split; [intros a q; split; destruct a; discriminate|]. split; [reflexivity|]. right. now apply firstHere_inv in H.
Qed.
Lemma lit_straddle l junk b r : ~ In 60%N l -> junk <> [] -> (60%N :: l) ++ r = junk ++ 60%N :: b -> exists x, junk = (60%N :: l) ++ x.
Proof.
  intros N J E. apply app_eq_app in E as (x & [[E1 E2]|[E1 E2]]).
  - destruct x as [|c x].
    + exists []. rewrite app_nil_r in *. now symmetry.
    + exfalso. cbn in E2. injection E2 as <- _. destruct junk as [|d junk]; [congruence|]. cbn in E1. injection E1 as _ ->. apply N, in_app_iff. right. now left.
  - now exists x.
Qed.
Lemma firstHere_straddle junk b u r : junk <> [] -> noFirst junk -> firstHere (junk ++ 60%N :: b) <> Parsed u r.
Proof.
  intros J N H. apply firstHere_inv in H as (q & [H|H]); symmetry in H.
  - apply (lit_straddle (str "node")) in H as (x & E); [|vm_compute; intuition discriminate|exact J]. now apply (proj1 (N [] x)).
  - apply (lit_straddle (str "bounds")) in H as (x & E); [|vm_compute; intuition discriminate|exact J]. now apply (proj2 (N [] x)).
Qed.
Lemma startsFirst_head body : startsFirst body -> exists b, body = 60%N :: b.
Proof. intros (r & [->| ->]); eexists; reflexivity. Qed.
Lemma startsFirst_app body s : startsFirst body -> startsFirst (body ++ s).
Proof. intros (r & [->| ->]); exists (r ++ s); rewrite <- app_assoc; auto. Qed.
Lemma noFirst_tail c junk : noFirst (c :: junk) -> noFirst junk.
Proof. intros N a r. destruct (N (c :: a) r) as [N1 N2]. split; intros ->; [now apply N1|now apply N2]. Qed.
Lemma beforeFirst_ok junk body : noFirst junk -> startsFirst body -> beforeFirst (junk ++ body) = body.
Proof.
  intros N F. induction junk as [|c junk IH]; rewrite beforeFirst_eq.
  - cbn [app]. destruct (firstHere_yes body F) as (r & ->). reflexivity.
  - destruct (firstHere ((c :: junk) ++ body)) as [| |u r] eqn:E.
    3:{ exfalso. destruct (startsFirst_head body F) as (b & ->). revert E. now apply firstHere_straddle. }
    all: cbn [app]; apply IH; now apply (noFirst_tail c).
Qed.
Lemma skipOther_ok a junk body : agap a -> noFirst junk -> (junk = [] \/ exists r, junk = str "<" ++ r) -> startsFirst body ->
  exists a', agap a' /\ skipOther (a ++ junk ++ body) = a' ++ body.
Proof.
  intros A N J F. unfold skipOther. rewrite attrs_ok; [|exact A|].
  2:{ destruct J as [->|(r & ->)]; [|now apply stop_char]. destruct (startsFirst_head body F) as (b & ->). now apply stop_char. }
  rewrite beforeFirst_ok by assumption. destruct (Nat.eqb_spec (List.length body) (List.length (junk ++ body))) as [E|_].
  - rewrite app_length in E. destruct junk; [|cbn in E; lia]. exists a. auto.
  - exists []. split; [constructor|reflexivity].
Qed.
Lemma skipOther_inv s : exists a junk, agap a /\ noFirst junk /\ s = a ++ junk ++ skipOther s /\
  (startsFirst (skipAttrs (skipOther s)) \/ skipAttrs (skipOther s) = []).
Proof.
  unfold skipOther. destruct (attrs_inv s) as (a & A & E & St). destruct (beforeFirst_inv (skipAttrs s)) as (junk & N & Ej & F).
  destruct (Nat.eqb_spec (List.length (beforeFirst (skipAttrs s))) (List.length (skipAttrs s))) as [El|_].
  - exists [], []. split; [constructor|]. split; [intros x r; split; destruct x; discriminate|]. split; [reflexivity|].
    rewrite Ej in El at 2. rewrite app_length in El. destruct junk; [|cbn in El; lia]. cbn [app] in Ej. rewrite Ej. tauto.
  - exists a, junk. split; [exact A|]. split; [exact N|]. split; [now rewrite <- Ej|]. destruct F as [->|F]; [right; reflexivity|left].
    destruct (startsFirst_head _ F) as (b & Eb). pose proof (attrs_ok [] (beforeFirst (skipAttrs s)) agap_nil) as Sk. cbn [app] in Sk.
    rewrite Sk; [exact F|]. rewrite Eb. now apply stop_char.
Qed.

(** ** Documents *)
Section Documents.
  Context {T : Type} (zero : T) (numeral : T -> bytes -> Prop) (number : bytes -> option (T * bytes)).
  Hypothesis Good : goodNumber numeral number.

  Lemma tellAll_ok (P : xevent T -> bytes -> Prop) p es u s fuel :
    (forall g a t s, agap g -> P a t -> p (g ++ t ++ s) = Parsed a s) -> listText agap P es u -> p s = Fail ->
    (List.length es < fuel)%nat -> tellAll fuel p (u ++ s) = (es, Some s).
  Proof using.
    clear. intros Pok M F. revert fuel. induction M as [|g a t l u Hg Ht _ IH]; intros fuel L; (destruct fuel as [|fuel]; [cbn in L; lia|]); cbn [tellAll].
    - cbn [app]. now rewrite F.
    - rewrite <- !app_assoc, (Pok g a t) by assumption. rewrite IH by (cbn in L; lia). reflexivity.
  Qed.
  Lemma tellAll_inv (P : xevent T -> bytes -> Prop) p fuel s es o :
    (forall s a r, p s = Parsed a r -> exists g t, agap g /\ P a t /\ s = g ++ t ++ r) -> tellAll fuel p s = (es, o) ->
    exists u r, listText agap P es u /\ s = u ++ r /\ (o = Some r \/ o = None).
  Proof using.
    clear. intros Pinv. revert s es o. induction fuel as [|fuel IH]; intros s es o H; cbn [tellAll] in H.
    - injection H as <- <-. exists [], s. split; [constructor|]. auto.
    - destruct (p s) as [| |e r] eqn:E.
      + injection H as <- <-. exists [], s. split; [constructor|]. auto.
      + injection H as <- <-. exists [], s. split; [constructor|]. auto.
      + destruct (tellAll fuel p r) as [es' o'] eqn:E'. injection H as <- <-. apply IH in E' as (u & q & M & -> & O).
        apply Pinv in E as (g & t & Hg & Ht & ->). exists (g ++ t ++ u), q. split; [now constructor|]. split; [now rewrite <- !app_assoc|exact O].
  Qed.
  Lemma node_some e t : nodeText numeral e t -> exists r, t = str "<node" ++ r.
  Proof using. clear. intros (id & lat & lon & ts & a1 & t1 & a2 & t2 & a3 & t3 & a4 & rest & _ & _ & _ & _ & _ & _ & _ & _ & _ & ->). eauto. Qed.
  Lemma way_some (e : xevent T) t : wayText e t -> exists r, t = str "<way" ++ r.
  Proof using. clear. intros (id & l & ts & _ & a1 & t1 & a2 & u & v & a3 & _ & _ & _ & _ & _ & _ & _ & ->). eexists. reflexivity. Qed.
  Lemma relation_some (e : xevent T) t : relationText e t -> exists r, t = str "<relation" ++ r.
  Proof using. clear. intros (id & l & ts & _ & a1 & t1 & a2 & u & v & a3 & _ & _ & _ & _ & _ & _ & _ & ->). eexists. reflexivity. Qed.
  Lemma bounds_some e t : boundsText zero numeral e t -> exists r, t = str "<bounds" ++ r.
  Proof using. clear. intros (l & u & b & v0 & v1 & v2 & v3 & _ & _ & _ & _ & _ & _ & _ & _ & _ & ->). eauto. Qed.
  Lemma list_len (P : xevent T -> bytes -> Prop) es u s : (forall e t, P e t -> exists c r, t = c :: r) -> listText agap P es u ->
    (List.length es < S (List.length (u ++ s)))%nat.
  Proof using.
    clear. intros Ps M. rewrite app_length. induction M as [|g a t l u _ Ht _ IH]; [cbn; lia|]. apply Ps in Ht as (c & r & ->). cbn [List.length]. rewrite !app_length. cbn [List.length]. lia.
  Qed.
  Lemma agap_head a c s : agap a -> a ++ c = 60%N :: s -> a = [].
  Proof using.
    clear. intros A E. destruct A as [|d a B _|t a F _]; [reflexivity| |].
    - cbn in E. injection E as -> _. unfold blank in B. lia.
    - exfalso. destruct F as (k & v & K & Al & _ & _ & _ & ->). destruct k as [|d k]; [congruence|]. cbn in E. injection E as -> _. apply Forall_inv in Al. unfold alnum in Al. lia.
  Qed.

  (** Behind the literal everything is expected. *)
  Lemma node_sure s : (exists q, skipAttrs s = str "<node" ++ q) -> pnode number s <> Fail.
  Proof using.
    clear. intros (q & E). unfold pnode. rewrite (bind_ok _ _ _ tt q) by (unfold tokA, pskip; rewrite E; apply lit_ok).
    repeat (apply sure_bind; [apply sure_expect|intros ? ?]). discriminate.
  Qed.
  Lemma bounds_sure s : (exists q, skipAttrs s = str "<bounds" ++ q) -> pbounds zero number s <> Fail.
  Proof using.
    clear. intros (q & E). unfold pbounds, pskip. rewrite E. rewrite (bind_ok _ _ _ tt q) by (apply (tokS_ok [] (str "<bounds")); [constructor|reflexivity]).
    repeat (apply sure_bind; [apply sure_expect|intros ? ?]). discriminate.
  Qed.
  (** What is left for each kind of element. *)
  Lemma relation_end a s : agap a -> prelation (T := T) (a ++ str "</osm>" ++ s) = Fail.
  Proof using. clear. intros A. unfold prelation. apply bind_no. apply (tokA_no a _ (str "</osm>")); [exact A|split; reflexivity|reflexivity]. Qed.
  Lemma way_end er tr a s : listText agap (relationText (T := T)) er tr -> agap a -> pway (T := T) (tr ++ a ++ str "</osm>" ++ s) = Fail.
  Proof using.
    clear. intros M A. unfold pway. apply bind_no. destruct M as [|g e t l u Hg Ht _].
    - apply (tokA_no a _ (str "</osm>")); [exact A|split; reflexivity|reflexivity].
    - apply relation_some in Ht as (r & ->). rewrite <- !app_assoc. apply (tokA_no g _ (str "<relation")); [exact Hg|split; reflexivity|reflexivity].
  Qed.
  Lemma node_end ew tw er tr a s : listText agap (wayText (T := T)) ew tw -> listText agap (relationText (T := T)) er tr -> agap a ->
    pnode number (tw ++ tr ++ a ++ str "</osm>" ++ s) = Fail.
  Proof using.
    clear. intros W M A. unfold pnode. apply bind_no. destruct W as [|g e t l u Hg Ht _]; [destruct M as [|g e t l u Hg Ht _]|].
    - apply (tokA_no a _ (str "</osm>")); [exact A|split; reflexivity|reflexivity].
    - apply relation_some in Ht as (r & ->). cbn [app]. rewrite <- !app_assoc. apply (tokA_no g _ (str "<relation")); [exact Hg|split; reflexivity|reflexivity].
    - apply way_some in Ht as (r & ->). rewrite <- !app_assoc. apply (tokA_no g _ (str "<way")); [exact Hg|split; reflexivity|reflexivity].
  Qed.
  Lemma parts_ok es body a' a s : partsText zero numeral es body -> startsFirst body -> agap a' -> agap a ->
    let all p q := tellAll (S (List.length q)) p q in
    tellThen (tellOption (pbounds zero number) (a' ++ body ++ a ++ str "</osm>" ++ s)) (fun r1 =>
      tellThen (all (pnode number) r1) (fun r2 => tellThen (all pway r2) (fun r3 => all prelation r3))) = (es, Some (a ++ str "</osm>" ++ s)).
  Proof using Good.
    intros (eb & tb & en & tn & ew & tw & er & tr & Hb & Hn & Hw & Hr & -> & ->) F A' A all.
    assert (Rest : forall n u, listText agap (nodeText numeral) n u ->
      tellThen (all (pnode number) (u ++ tw ++ tr ++ a ++ str "</osm>" ++ s)) (fun r2 => tellThen (all pway r2) (fun r3 => all prelation r3))
      = (n ++ ew ++ er, Some (a ++ str "</osm>" ++ s))).
    { intros n u Hu. unfold all. rewrite (tellAll_ok (nodeText numeral) _ n u); [|intros; now apply (node_ok numeral)|exact Hu|now apply (node_end ew tw er)|].
      2:{ apply (list_len (nodeText numeral)); [|exact Hu]. intros e t H. apply node_some in H as (r & ->). eexists. eexists. reflexivity. }
      cbn [tellThen]. rewrite (tellAll_ok wayText _ ew tw); [|intros; now apply way_ok|exact Hw|now apply (way_end er)|].
      2:{ apply (list_len wayText); [|exact Hw]. intros e t H. apply way_some in H as (r & ->). eexists. eexists. reflexivity. }
      cbn [tellThen]. rewrite (tellAll_ok relationText _ er tr); [|intros; now apply relation_ok|exact Hr|now apply relation_end|].
      2:{ apply (list_len relationText); [|exact Hr]. intros e t H. apply relation_some in H as (r & ->). eexists. eexists. reflexivity. }
      reflexivity. }
    destruct Hb as [[-> ->]|(e & -> & Hb)].
    - cbn [app] in F |- *. destruct Hn as [|g e t n u Hg Ht Hn].
      + exfalso. cbn [app] in F. destruct (startsFirst_head _ F) as (b & Eb). destruct F as (r & F). destruct Hw as [|g e t l u Hg Ht _]; [destruct Hr as [|g e t l u Hg Ht _]|].
        * discriminate Eb.
        * apply relation_some in Ht as (q & ->). cbn [app] in *. rewrite <- !app_assoc in *. apply agap_head in Eb; [|exact Hg]. subst g. destruct F as [F|F]; discriminate F.
        * apply way_some in Ht as (q & ->). rewrite <- !app_assoc in *. apply agap_head in Eb; [|exact Hg]. subst g. destruct F as [F|F]; discriminate F.
      + destruct (startsFirst_head _ F) as (b & Eb). rewrite <- !app_assoc in Eb. apply agap_head in Eb; [|exact Hg]. subst g. cbn [app].
        assert (Nb : pbounds zero number (a' ++ (t ++ u) ++ tw ++ tr ++ a ++ str "</osm>" ++ s) = Fail).
        { pose proof Ht as Ht'. apply node_some in Ht' as (r & ->). rewrite <- !app_assoc. unfold pbounds, pskip. rewrite attrs_ok; [|exact A'|apply firmA_stop; split; reflexivity].
          apply bind_no. apply (tokS_no [] _ (str "<node")); [constructor|reflexivity|reflexivity]. }
        unfold tellOption. rewrite <- !app_assoc in *. rewrite Nb. cbn [tellThen].
        replace (a' ++ t ++ u ++ tw ++ tr ++ a ++ str "</osm>" ++ s) with ((a' ++ t ++ u) ++ tw ++ tr ++ a ++ str "</osm>" ++ s) by now rewrite <- !app_assoc.
        rewrite (Rest (e :: n)) by now constructor. reflexivity.
    - unfold tellOption. rewrite <- !app_assoc. rewrite (bounds_ok zero numeral number Good a' e tb) by assumption. cbn [tellThen].
      rewrite (Rest en tn Hn). reflexivity.
  Qed.
  Lemma document_ok es t s : cleanText zero numeral es t -> parseXml zero number (t ++ s) = (es, Ok tt).
  Proof using Good.
    intros (h & a & junk & body & a1 & H & A & N & J & P & F & A1 & ->). unfold parseXml. rewrite <- !app_assoc. rewrite header_ok by exact H.
    destruct (skipOther_ok a junk (body ++ a1 ++ str "</osm>" ++ s) A N J) as (a' & A' & ->); [now apply startsFirst_app|].
    rewrite (parts_ok es body a' a1 s P F A' A1). now rewrite tokA_ok by (try exact A1; split; reflexivity).
  Qed.
  Definition leads (es : list (xevent T)) : Prop := match es with XBounds _ _ _ _ :: _ | XNode _ _ _ _ :: _ => True | _ => False end.
  Lemma leads_node e t : nodeText numeral e t -> forall es, leads (e :: es).
  Proof using. clear. intros (id & lat & lon & ts & a1 & t1 & a2 & t2 & a3 & t3 & a4 & rest & _ & _ & _ & _ & _ & _ & _ & _ & -> & _) es. exact I. Qed.
  Lemma parts_inv s es o : let all p q := tellAll (S (List.length q)) p q in
    tellThen (tellOption (pbounds zero number) s) (fun r1 =>
      tellThen (all (pnode number) r1) (fun r2 => tellThen (all pway r2) (fun r3 => all prelation r3))) = (es, o) ->
    exists a body r, agap a /\ partsText zero numeral es body /\ s = a ++ body ++ r /\ (o = Some r \/ o = None) /\
      (startsFirst (skipAttrs s) -> o = None \/ leads es).
  Proof using Good.
    intros all H.
    assert (Ways : forall r2 es o, tellThen (all pway r2) (fun r3 => all prelation r3) = (es, o) ->
      exists ew tw er tr r, listText agap (wayText (T := T)) ew tw /\ listText agap relationText er tr /\ es = ew ++ er /\ r2 = tw ++ tr ++ r /\ (o = Some r \/ o = None)).
    { clear H s es o. intros s es o H. unfold all in H. destruct (tellAll _ pway s) as [ew ow] eqn:Ew. apply (tellAll_inv wayText _ _ _ _ _ way_inv) in Ew as (tw & rw & Mw & -> & Ow).
      destruct Ow as [->| ->]; cbn [tellThen] in H.
      - destruct (tellAll _ prelation rw) as [er orr] eqn:Er. injection H as <- <-. apply (tellAll_inv relationText _ _ _ _ _ relation_inv) in Er as (tr & r & Mr & -> & Or).
        exists ew, tw, er, tr, r. auto.
      - injection H as <- <-. exists ew, tw, [], [], rw. split; [exact Mw|]. split; [constructor|]. split; [now rewrite app_nil_r|]. auto. }
    assert (Nodes : forall r1 es o, tellThen (all (pnode number) r1) (fun r2 => tellThen (all pway r2) (fun r3 => all prelation r3)) = (es, o) ->
      (exists en tn ew tw er tr r, listText agap (nodeText numeral) en tn /\ listText agap (wayText (T := T)) ew tw /\ listText agap relationText er tr /\
        es = en ++ ew ++ er /\ r1 = tn ++ tw ++ tr ++ r /\ (o = Some r \/ o = None)) /\
      (pnode number r1 <> Fail -> o = None \/ leads es)).
    { clear H s es o. intros s es o H. unfold all in H at 1. destruct (tellAll _ (pnode number) s) as [en on] eqn:En. pose proof En as En'.
      apply (tellAll_inv (nodeText numeral) _ _ _ _ _ (node_inv numeral number Good)) in En as (tn & rn & Mn & -> & On). destruct On as [->| ->]; cbn [tellThen] in H.
      - destruct (tellThen (all pway rn) _) as [es' o'] eqn:E'. injection H as <- <-. split.
        + apply Ways in E' as (ew & tw & er & tr & r & Mw & Mr & -> & -> & O). exists en, tn, ew, tw, er, tr, r. auto 10.
        + intros NF. right. cbn [tellAll] in En'. destruct (pnode number (tn ++ rn)) as [| |e q] eqn:Ep; [congruence|discriminate|].
          destruct (tellAll _ _ _) in En'. injection En' as <- _. apply (node_inv numeral number Good) in Ep as (g & t & _ & Ht & _). pose proof (leads_node e t Ht) as L. cbn [app]. apply L.
      - injection H as <- <-. split; [|auto]. exists en, tn, [], [], [], [], rn. split; [exact Mn|]. split; [constructor|]. split; [constructor|]. split; [now rewrite !app_nil_r|]. auto. }
    unfold tellOption in H. destruct (pbounds zero number s) as [| |e r] eqn:Eb; cbn [tellThen] in H.
    - destruct (tellThen _ _) as [es' o'] eqn:E'. cbn [app] in H. injection H as <- <-. apply Nodes in E' as [(en & tn & ew & tw & er & tr & r & Mn & Mw & Mr & -> & -> & O) Em].
      exists [], (tn ++ tw ++ tr), r. split; [constructor|]. split; [exists [], [], en, tn, ew, tw, er, tr; auto 10|]. split; [cbn [app]; now rewrite <- !app_assoc|].
      split; [exact O|]. intros SF. apply Em. clear Em O Mn Mw Mr Nodes Ways. intros Fn. destruct SF as (q & [SF|SF]).
      + revert Fn. apply node_sure. exists q. exact SF.
      + revert Eb. apply bounds_sure. exists q. exact SF.
    - injection H as <- <-. exists [], [], s. split; [constructor|]. split; [exists [], [], [], [], [], [], [], []; repeat (split; [auto; constructor|]); auto|]. split; [reflexivity|]. auto.
    - destruct (tellThen _ _) as [es' o'] eqn:E'. injection H as <- <-. apply Nodes in E' as [(en & tn & ew & tw & er & tr & q & Mn & Mw & Mr & -> & -> & O) _].
      apply (bounds_inv zero numeral number Good) in Eb as (a & t & A & B & ->).
      exists a, (t ++ tn ++ tw ++ tr), q. split; [exact A|]. split; [exists [e], t, en, tn, ew, tw, er, tr; split; [right; eauto|]; auto 10|].
      split; [now rewrite <- !app_assoc|]. split; [exact O|]. intros _. right. destruct B as (? & ? & ? & ? & ? & ? & ? & _ & _ & _ & _ & _ & _ & _ & _ & -> & _). exact I.
  Qed.
End Documents.

(** ** What can be told *)
Lemma natural_exists v : exists ds, natural ds v.
Proof.
  induction v as [v IH] using (well_founded_induction N.lt_wf_0). destruct (N.le_gt_cases v 9) as [L|L].
  - exists [(48 + v)%N]. now constructor.
  - destruct (IH (v / 10)%N) as (ds & D); [apply N.div_lt; lia|]. exists (ds ++ [48 + v mod 10])%N. rewrite (N.div_mod v 10) at 2 by lia.
    apply nat_more; [exact D|]. pose proof (N.mod_upper_bound v 10). lia.
Qed.
Lemma numbered_exists key v : (v < 2 ^ 64)%N -> exists t, numberedText key v t.
Proof. intros L. destruct (natural_exists v) as (ds & D). eexists. exists [], ds, []. repeat split; [constructor|exact D|exact L|constructor]. Qed.
Lemma keyed_exists key v : unquoted v -> exists t, keyedText key v t.
Proof. intros U. eexists. exists []. repeat split; [constructor|exact U]. Qed.
Lemma list_exists {A} (G : bytes -> Prop) (P : A -> bytes -> Prop) (Q : A -> Prop) l : G [] -> (forall a, Q a -> exists t, P a t) -> Forall Q l -> exists u, listText G P l u.
Proof.
  intros G0 H F. induction F as [|a l Qa _ (u & U)]; [exists []; constructor|]. destruct (H a Qa) as (t & Ht). exists ([] ++ t ++ u). now constructor.
Qed.
Lemma tags_exists ts : goodTags ts -> exists u, listText blanks tagText ts u.
Proof.
  apply list_exists; [constructor|]. intros [k v] [K V]. destruct (keyed_exists (str "k") k K) as (t1 & T1). destruct (keyed_exists (str "v") v V) as (t2 & T2).
  eexists. exists [], t1, [], t2, []. repeat split; try constructor; assumption.
Qed.
Lemma list_good {A} (G : bytes -> Prop) (P : A -> bytes -> Prop) (Q : A -> Prop) l u : (forall a t, P a t -> Q a) -> listText G P l u -> Forall Q l.
Proof. intros H M. induction M; constructor; eauto. Qed.
Lemma tag_good kv t : tagText kv t -> unquoted (fst kv) /\ unquoted (snd kv).
Proof. intros (b1 & t1 & b2 & t2 & b3 & _ & (x & _ & U & _) & _ & (y & _ & V & _) & _). auto. Qed.
Lemma ref_good r t : refText r t -> (r < 2 ^ 64)%N.
Proof. intros (b1 & t1 & b2 & _ & (x & ds & y & _ & _ & L & _) & _). exact L. Qed.
Lemma member_good m t : memberText m t -> goodMember m.
Proof.
  intros (b1 & ty & t1 & b2 & t2 & b3 & t3 & b4 & _ & _ & Ty & _ & (x & ds & y & _ & _ & L & _) & _ & (z & _ & U & _) & _). split; [|auto].
  cbn [In]. destruct Ty as [[_ E]|[[_ E]|(_ & _ & E)]]; auto.
Qed.
Lemma ref_exists r : (r < 2 ^ 64)%N -> exists t, refText r t.
Proof. intros L. destruct (numbered_exists (str "ref") r L) as (t1 & T1). eexists. exists [], t1, []. repeat split; try constructor. exact T1. Qed.
Lemma member_exists m : goodMember m -> exists t, memberText m t.
Proof.
  intros (I & L & U). assert (Ty : exists ty, typeName ty (fst (fst m)) /\ unquoted ty).
  { destruct I as [E|[E|[E|[]]]]; [exists (str "node")|exists (str "way")|exists (str "relation")]; rewrite <- E; (split; [|vm_compute; intuition discriminate]);
      [left|right; left|right; right]; repeat split; discriminate. }
  destruct Ty as (ty & Ty & Ut). destruct (keyed_exists (str "type") ty Ut) as (t1 & T1). destruct (numbered_exists (str "ref") _ L) as (t2 & T2).
  destruct (keyed_exists (str "role") _ U) as (t3 & T3). eexists. exists [], ty, t1, [], t2, [], t3, []. repeat split; try exact blanks_nil; try exact T1; try exact T2; try exact T3. exact Ty.
Qed.
Lemma body_exists {A} name (P : A -> bytes -> Prop) (Q : A -> Prop) id l ts : (forall a, Q a -> exists t, P a t) -> (id < 2 ^ 64)%N -> l <> [] -> Forall Q l -> goodTags ts ->
  exists t, bodyText name P id l ts t.
Proof.
  intros H L N F G. destruct (numbered_exists (str "id") id L) as (t1 & T1). destruct (list_exists blanks P Q l blanks_nil H F) as (u & U).
  destruct (tags_exists ts G) as (v & V). eexists. exists [], t1, [], u, v, []. repeat split; try exact agap_nil; assumption.
Qed.
Section Tellable.
  Context {T : Type} (zero : T) (numeral : T -> bytes -> Prop) (number : bytes -> option (T * bytes)).
  Hypothesis Good : goodNumber numeral number.

  Lemma coordinate_exists key v : writable numeral v -> exists t, coordinateText numeral key v t.
  Proof using. clear. intros (w & W). eexists. exists [], w. repeat split; [constructor|exact W]. Qed.
  Lemma bounds_exists e : goodBounds zero numeral e -> exists t, boundsText zero numeral e t.
  Proof using.
    clear Good number. intros (o0 & o1 & o2 & o3 & -> & Ex & All).
    assert (H : forall (os : list (option T)) i, (i + List.length os <= 4)%nat -> Forall (fun o => match o with Some v => writable numeral v | None => True end) os ->
      exists l u, listText blanks (boundsItem numeral) l u /\ NoDup (map fst l) /\ (forall j, In j (map fst l) -> (i <= j)%nat) /\
        (forall j, (j < List.length os)%nat -> valueAt zero l (i + j) (given zero (nth j os None))) /\ (Exists (fun o => o <> None) os -> l <> [])).
    { clear. induction os as [|o os IH]; intros i L F.
      - exists [], []. split; [constructor|]. split; [constructor|]. split; [intros j []|]. split; [intros j J; cbn in J; lia|]. intros E. inversion E.
      - cbn [List.length] in L. apply Forall_cons_iff in F as [Fv F]. destruct (IH (S i)) as (l & u & M & ND & Lo & Va & Ne); [lia|exact F|].
        assert (Ni : ~ In i (map fst l)) by (intros I; apply Lo in I; lia). destruct o as [v|].
        + destruct (coordinate_exists (boundsKey i) v Fv) as (t & Ct). exists ((i, v) :: l), ([] ++ t ++ u).
          split; [constructor; [constructor|split; [cbn; lia|exact Ct]|exact M]|]. split; [cbn; now constructor|]. split; [intros j [<-|I]; [cbn; lia|apply Lo in I; lia]|].
          split; [|discriminate]. intros [|j] J; [rewrite Nat.add_0_r; left; now left|]. cbn [List.length] in J. cbn [nth]. rewrite <- Nat.add_succ_comm.
          destruct (Va j) as [I|[N Z]]; [lia|left; now right|right]. split; [|exact Z]. cbn [map fst In]. intros [E|I]; [lia|contradiction].
        + exists l, u. split; [exact M|]. split; [exact ND|]. split; [intros j I; apply Lo in I; lia|]. split.
          * intros [|j] J; [rewrite Nat.add_0_r; right; auto|]. cbn [List.length] in J. cbn [nth]. rewrite <- Nat.add_succ_comm. apply Va. lia.
          * intros E. apply Ne. apply Exists_cons in E as [E|E]; [congruence|exact E]. }
    destruct (H [o0; o1; o2; o3] 0%nat) as (l & u & M & ND & _ & Va & Ne); [cbn; lia|exact All|]. eexists. exists l, u, []. do 4 eexists.
    split; [now apply Ne|]. split; [exact ND|]. split; [exact M|]. split; [constructor|]. split; [apply (Va 0%nat); cbn; lia|]. split; [apply (Va 1%nat); cbn; lia|].
    split; [apply (Va 2%nat); cbn; lia|]. split; [apply (Va 3%nat); cbn; lia|]. split; reflexivity.
  Qed.
  Lemma bounds_good e t : boundsText zero numeral e t -> goodBounds zero numeral e.
  Proof using.
    clear Good number. intros (l & u & b & v0 & v1 & v2 & v3 & N & ND & M & _ & V0 & V1 & V2 & V3 & -> & _).
    assert (Pl : forall j, In j (map fst l) -> (j < 4)%nat) by now apply (items_places numeral l u).
    assert (W : forall j v, In (j, v) l -> writable numeral v).
    { clear - M. induction M as [|g a t l u _ [_ (b & ds & _ & Nu & _)] _ IH]; intros j v I; [destruct I|]. destruct I as [->|I]; [exists ds; exact Nu|now apply (IH j)]. }
    assert (H : forall i v, valueAt zero l i v -> exists o, v = given zero o /\ (In i (map fst l) -> o <> None) /\ match o with Some v => writable numeral v | None => True end).
    { intros i v [I|[O ->]].
      - exists (Some v). split; [reflexivity|]. split; [discriminate|]. now apply (W i).
      - exists None. split; [reflexivity|]. split; [contradiction|exact I]. }
    apply H in V0 as (o0 & -> & N0 & W0). apply H in V1 as (o1 & -> & N1 & W1). apply H in V2 as (o2 & -> & N2 & W2). apply H in V3 as (o3 & -> & N3 & W3).
    exists o0, o1, o2, o3. split; [reflexivity|]. split; [|repeat constructor; assumption].
    destruct l as [|[j v] l]; [congruence|]. pose proof (Pl j (or_introl eq_refl)) as J. destruct j as [|[|[|[|j]]]]; [| | | |lia].
    - apply Exists_cons_hd, N0. now left.
    - apply Exists_cons_tl, Exists_cons_hd, N1. now left.
    - do 2 apply Exists_cons_tl. apply Exists_cons_hd, N2. now left.
    - do 3 apply Exists_cons_tl. apply Exists_cons_hd, N3. now left.
  Qed.
  Lemma node_exists e : goodNode numeral e -> exists t, nodeText numeral e t.
  Proof using.
    clear. intros (id & lat & lon & ts & -> & L & La & Lo & G). destruct (numbered_exists (str "id") id L) as (t1 & T1).
    destruct (coordinate_exists (str "lat") lat La) as (t2 & T2). destruct (coordinate_exists (str "lon") lon Lo) as (t3 & T3). destruct (tags_exists ts G) as (u & U).
    eexists. exists id, lat, lon, ts, [], t1, [], t2, [], t3, [], (str ">" ++ u ++ [] ++ str "</node>"). repeat split; try exact agap_nil; try assumption.
    right. exists u, []. repeat split; [exact U|constructor].
  Qed.
  Lemma node_good e t : nodeText numeral e t -> goodNode numeral e.
  Proof using.
    clear. intros (id & lat & lon & ts & a1 & t1 & a2 & t2 & a3 & t3 & a4 & rest & _ & (x & ds & y & _ & _ & L & _) & _ & (x2 & w2 & _ & W2 & _) & _ & (x3 & w3 & _ & W3 & _) & _ & R & -> & _).
    exists id, lat, lon, ts. split; [reflexivity|]. split; [exact L|]. split; [exists w2; exact W2|]. split; [exists w3; exact W3|].
    destruct R as [[-> _]|(u & a5 & M & _)]; [constructor|]. apply (list_good blanks tagText _ ts u tag_good M).
  Qed.
  Lemma way_exists e : goodWay (T := T) e -> exists t, wayText e t.
  Proof using.
    clear. intros (id & l & ts & -> & L & N & F & G). destruct (body_exists (str "way") refText _ id l ts ref_exists L N F G) as (t & H). exists t, id, l, ts. auto.
  Qed.
  Lemma way_good e t : wayText (T := T) e t -> goodWay e.
  Proof using.
    clear. intros (id & l & ts & -> & a1 & t1 & a2 & u & v & a3 & _ & (x & ds & y & _ & _ & L & _) & _ & N & M & Ts & _).
    exists id, l, ts. split; [reflexivity|]. split; [exact L|]. split; [exact N|]. split; [exact (list_good blanks refText _ l u ref_good M)|exact (list_good blanks tagText _ ts v tag_good Ts)].
  Qed.
  Lemma relation_exists e : goodRelation (T := T) e -> exists t, relationText e t.
  Proof using.
    clear. intros (id & l & ts & -> & L & N & F & G). destruct (body_exists (str "relation") memberText _ id l ts member_exists L N F G) as (t & H). exists t, id, l, ts. auto.
  Qed.
  Lemma relation_good e t : relationText (T := T) e t -> goodRelation e.
  Proof using.
    clear. intros (id & l & ts & -> & a1 & t1 & a2 & u & v & a3 & _ & (x & ds & y & _ & _ & L & _) & _ & N & M & Ts & _).
    exists id, l, ts. split; [reflexivity|]. split; [exact L|]. split; [exact N|]. split; [exact (list_good blanks memberText _ l u member_good M)|exact (list_good blanks tagText _ ts v tag_good Ts)].
  Qed.
  Lemma document_exists es : tellable zero numeral es -> exists t, cleanText zero numeral es t.
  Proof using.
    clear Good number. intros (eb & en & ew & er & -> & Lb & Fb & Fn & Fw & Fr & Ne).
    destruct (list_exists agap (wayText (T := T)) _ ew agap_nil way_exists Fw) as (tw & Tw). destruct (list_exists agap (relationText (T := T)) _ er agap_nil relation_exists Fr) as (tr & Tr).
    assert (B : exists tb tn, ((eb = [] /\ tb = []) \/ exists e, eb = [e] /\ boundsText zero numeral e tb) /\ listText agap (nodeText numeral) en tn /\ startsFirst (tb ++ tn)).
    { destruct eb as [|e eb].
      - cbn [app] in Ne. destruct Fn as [|e en Fe Fn]; [congruence|]. destruct (node_exists e Fe) as (t & Ht). destruct (list_exists agap (nodeText numeral) _ en agap_nil node_exists Fn) as (u & U).
        exists [], ([] ++ t ++ u). split; [auto|]. split; [constructor; [exact agap_nil|exact Ht|exact U]|]. apply (node_some numeral) in Ht as (r & ->). exists (r ++ u). left. cbn [app]. now rewrite <- app_assoc.
      - destruct eb; [|cbn in Lb; lia]. apply Forall_inv in Fb. destruct (bounds_exists e Fb) as (t & Ht). destruct (list_exists agap (nodeText numeral) _ en agap_nil node_exists Fn) as (u & U).
        exists t, u. split; [right; eauto|]. split; [exact U|]. apply (bounds_some zero numeral) in Ht as (r & ->). exists (r ++ u). right. now rewrite <- app_assoc. }
    destruct B as (tb & tn & Hb & Tn & SF).
    exists ((str "<?xml" ++ 32%N :: [] ++ str "?>" ++ [] ++ str "<osm" ++ [] ++ str ">") ++ [] ++ [] ++ (tb ++ tn ++ tw ++ tr) ++ [] ++ str "</osm>").
    eexists. exists [], [], (tb ++ tn ++ tw ++ tr), []. split; [exists 32%N, [], [], []; split; [now left|]; repeat (split; [constructor|]); reflexivity|].
    split; [constructor|]. split; [intros x r; split; destruct x; discriminate|]. split; [auto|]. split; [exists eb, tb, en, tn, ew, tw, er, tr; auto 10|].
    split; [rewrite app_assoc; now apply startsFirst_app|]. split; [constructor|]. reflexivity.
  Qed.
  Lemma parts_head es body a s : partsText zero numeral es body -> agap a -> exists g r, agap g /\ body ++ a ++ str "</osm>" ++ s = g ++ 60%N :: r.
  Proof using.
    clear Good number. intros (eb & tb & en & tn & ew & tw & er & tr & Hb & Hn & Hw & Hr & _ & ->) A. destruct Hb as [[_ ->]|(e & _ & Hb)].
    2:{ apply bounds_some in Hb as (r & ->). exists []. eexists. split; [constructor|]. rewrite <- !app_assoc. reflexivity. }
    cbn [app]. destruct Hn as [|g e t l u Hg Ht _]; [destruct Hw as [|g e t l u Hg Ht _]; [destruct Hr as [|g e t l u Hg Ht _]|]|].
    - exists a. eexists. split; [exact A|]. reflexivity.
    - apply relation_some in Ht as (r & ->). exists g. eexists. split; [exact Hg|]. cbn [app]. rewrite <- !app_assoc. reflexivity.
    - apply way_some in Ht as (r & ->). exists g. eexists. split; [exact Hg|]. cbn [app]. rewrite <- !app_assoc. reflexivity.
    - apply node_some in Ht as (r & ->). exists g. eexists. split; [exact Hg|]. rewrite <- !app_assoc. reflexivity.
  Qed.
  Lemma parse_inv s es o : parseXml zero number s = (es, o) ->
    (o = Throw DomainError /\ (es = [] \/ exists t rest, laxText zero numeral es t /\ s = t ++ rest)) \/
    (o = Ok tt /\ leads es /\ exists t a rest, laxText zero numeral es t /\ agap a /\ s = t ++ a ++ str "</osm>" ++ rest).
  Proof using Good.
    unfold parseXml. destruct (pheader s) as [| |x r] eqn:Eh; [intros [= <- <-]; auto|intros [= <- <-]; auto|].
    apply header_inv in Eh as (h & Hh & ->). destruct (skipOther_inv r) as (a & junk & A & N & E & SF).
    destruct (tellThen _ _) as [es' o'] eqn:Et. apply (parts_inv zero numeral number Good) in Et as (a' & body & q & A' & P & Eq & O & Em).
    assert (Lax : laxText zero numeral es' (h ++ a ++ junk ++ a' ++ body)) by (exists h, a, junk, a', body; auto 10).
    assert (Er : r = a ++ junk ++ a' ++ body ++ q) by (rewrite E at 1; now rewrite Eq).
    destruct o' as [r4|].
    - destruct O as [[= ->]|]; [|discriminate]. destruct (tokA (str "</osm>") q) as [| |y z] eqn:Ec.
      + intros [= <- <-]. left. split; [reflexivity|]. right. exists (h ++ a ++ junk ++ a' ++ body), q. split; [exact Lax|]. rewrite Er. now rewrite <- !app_assoc.
      + intros [= <- <-]. left. split; [reflexivity|]. right. exists (h ++ a ++ junk ++ a' ++ body), q. split; [exact Lax|]. rewrite Er. now rewrite <- !app_assoc.
      + intros [= <- <-]. right. split; [reflexivity|]. apply tokA_inv in Ec as (a1 & A1 & ->). split.
        * destruct SF as [SF|SF]; [destruct (Em SF) as [|L]; [discriminate|exact L]|]. exfalso. rewrite Eq in SF.
          destruct (parts_head es' body a1 z P A1) as (g & q & Hg & Eg). rewrite Eg, app_assoc in SF.
          rewrite attrs_ok in SF; [discriminate SF|now apply agap_app|now apply stop_char].
        * exists (h ++ a ++ junk ++ a' ++ body), a1, z. split; [exact Lax|]. split; [exact A1|]. rewrite Er. now rewrite <- !app_assoc.
    - intros [= <- <-]. left. split; [reflexivity|]. right. exists (h ++ a ++ junk ++ a' ++ body), q. split; [exact Lax|]. rewrite Er. now rewrite <- !app_assoc.
  Qed.
  (** Everything which is told can be told. *)
  Lemma parts_tellable es body : partsText zero numeral es body ->
    exists eb en ew er, es = eb ++ en ++ ew ++ er /\ (List.length eb <= 1)%nat /\ Forall (goodBounds zero numeral) eb /\ Forall (goodNode numeral) en /\
      Forall goodWay ew /\ Forall goodRelation er.
  Proof using.
    clear Good number. intros (eb & tb & en & tn & ew & tw & er & tr & Hb & Hn & Hw & Hr & -> & _). exists eb, en, ew, er. split; [reflexivity|].
    assert (R : Forall (goodNode numeral) en /\ Forall (goodWay (T := T)) ew /\ Forall (goodRelation (T := T)) er).
    { split; [exact (list_good agap (nodeText numeral) _ en tn node_good Hn)|]. split; [exact (list_good agap wayText _ ew tw way_good Hw)|exact (list_good agap relationText _ er tr relation_good Hr)]. }
    destruct Hb as [[-> _]|(e & -> & Hb)].
    - split; [cbn; lia|]. split; [constructor|exact R].
    - split; [cbn; lia|]. split; [constructor; [now apply (bounds_good e tb)|constructor]|exact R].
  Qed.
  Lemma leads_tellable es body : partsText zero numeral es body -> leads es -> tellable zero numeral es.
  Proof using.
    clear Good number. intros P L. destruct (parts_tellable es body P) as (eb & en & ew & er & -> & Lb & Fb & Fn & Fw & Fr). exists eb, en, ew, er.
    repeat (split; [assumption || reflexivity|]). intros E. apply app_eq_nil in E as [-> ->]. cbn [app] in L. destruct Fw as [|e ew Fe _]; [destruct Fr as [|e er Fe _]|].
    - exact L.
    - destruct Fe as (? & ? & ? & -> & _). exact L.
    - destruct Fe as (? & ? & ? & -> & _). exact L.
  Qed.
End Tellable.
