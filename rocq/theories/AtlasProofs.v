From Coq Require Import String.
From Verif Require Import Base Bytes BytesProofs JsonModel Peg PegProofs StyleModel LsysParseModel XmlModel XmlSpec XmlProofs LsysParseSpec LsysParseProofs AtlasModel AtlasSpec.
Local Open Scope list_scope.
Local Arguments str : simpl never.

(** ** Numbers and names *)
Definition noDigit (s : bytes) : Prop := match s with [] => True | c :: _ => isDigitX c = false end.
Lemma noDigit_iff s : noDigit s <-> ~ startsDigit s.
Proof. destruct s as [|c s]; cbn; [tauto|]. unfold isDigitX. lia. Qed.
Lemma blanks_digit b s : blanks b -> ~ startsDigit s -> ~ startsDigit (b ++ s).
Proof. destruct 1 as [|c b B _]; cbn; [auto|]. unfold blank in B. lia. Qed.
Lemma int_solid z w s : integer z w -> solid (w ++ s).
Proof.
  intros (ds & v & D & _ & W). destruct (natural_head _ _ D) as (c & ds' & -> & C).
  destruct W as [[-> _]|[[-> _]|[-> _]]]; [|reflexivity|reflexivity]. cbn. unfold isSpace. lia.
Qed.
Lemma intS_ok b z w s : blanks b -> integer z w -> ~ startsDigit s -> pintS (b ++ w ++ s) = Parsed z s.
Proof. intros B W D. unfold pintS, pskip. rewrite spaces_ok; [|exact B|now apply (int_solid z)]. apply int_ok; [exact W|now apply noDigit_iff]. Qed.
Lemma int_stops s z r : pint s = Parsed z r -> ~ startsDigit r.
Proof.
  unfold pint. destruct (signOf s) as [sg s']. rewrite span_same. pose proof (span_app isDigitX s') as Sp. destruct (spanOf isDigitX s') as [ds q]. destruct Sp as (_ & _ & F).
  destruct ds as [|d ds]; [discriminate|]. destruct (_ && _)%bool; [|discriminate]. intros [= _ <-]. now apply noDigit_iff.
Qed.
Lemma intS_inv s z r : pintS s = Parsed z r -> exists b w, blanks b /\ integer z w /\ ~ startsDigit r /\ s = b ++ w ++ r.
Proof.
  unfold pintS, pskip. intros H. pose proof (int_stops _ _ _ H) as D. apply int_inv in H as (w & W & E). destruct (spaces_inv s) as (b & B & Es). exists b, w. split; [exact B|]. split; [exact W|]. split; [exact D|].
  rewrite Es at 1. now rewrite E.
Qed.
Lemma first_field z t : firstField z t -> field z t.
Proof. intros H. exists [], t. split; [constructor|]. auto. Qed.
Lemma field_digit z t s : field z t -> ~ startsDigit (t ++ s).
Proof. intros (b1 & t' & B1 & (b2 & w & _ & _ & ->) & ->). rewrite <- app_assoc. apply blanks_digit; [exact B1|]. change (str ",") with [44%N]. cbn. lia. Qed.
(** A comma and a number. *)
Definition pfield : parser Z := pbind pcomma (fun _ => pintS).
Lemma field_ok z t s : field z t -> ~ startsDigit s -> pfield (t ++ s) = Parsed z s.
Proof.
  intros (b1 & t' & B1 & (b2 & w & B2 & W & ->) & ->) D. unfold pfield, pcomma. rewrite <- !app_assoc. erewrite bind_ok by (apply (tokS_ok b1 (str ",")); [exact B1|reflexivity]). now apply intS_ok.
Qed.
Lemma field_inv s z r : pfield s = Parsed z r -> exists t, field z t /\ ~ startsDigit r /\ s = t ++ r.
Proof.
  unfold pfield, pcomma. intros H. apply bind_inv in H as (? & q & H1 & H2). apply (tokS_inv (str ",")) in H1 as (b1 & B1 & ->). apply intS_inv in H2 as (b2 & w & B2 & W & D & ->).
  exists (b1 ++ str "," ++ b2 ++ w). split; [exists b1, (str "," ++ b2 ++ w); split; [exact B1|]; split; [exists b2, w; auto|reflexivity]|]. split; [exact D|]. now rewrite <- !app_assoc.
Qed.
Lemma fields_bind {A} (f : Z -> parser A) s : pbind pcomma (fun _ => pbind pintS f) s = pbind pfield f s.
Proof. unfold pfield, pbind. destruct (pcomma s); reflexivity. Qed.
Lemma inName_iff c : inName c = true <-> (c < 128 /\ c <> 44)%N.
Proof. unfold inName, isAscii. lia. Qed.
Lemma space_blank c : isSpace c = true <-> blank c.
Proof. unfold isSpace, blank. lia. Qed.
Lemma name_ok b n s : blanks b -> nameText n -> pskip skipSpaces (pchars1 inName) (b ++ n ++ str "," ++ s) = Parsed n (str "," ++ s).
Proof.
  intros B [F H]. destruct n as [|c n]; [contradiction|]. unfold pskip. rewrite spaces_ok; [|exact B|].
  - apply chars_ok; [discriminate|eapply Forall_impl; [|exact F]; intros x; apply inName_iff|reflexivity].
  - cbn. destruct (isSpace c) eqn:E; [apply space_blank in E; contradiction|reflexivity].
Qed.
Lemma solid_skip s : solid (skipSpaces s).
Proof.
  unfold skipSpaces. pose proof (span_app isSpace s) as H. destruct (spanOf isSpace s) as [a r]. cbn. destruct H as (_ & _ & H). exact H.
Qed.
Lemma name_inv s n r : pskip skipSpaces (pchars1 inName) s = Parsed n r -> exists b, blanks b /\ nameText n /\ s = b ++ n ++ r.
Proof.
  unfold pskip. intros H. apply chars_inv in H as (E & N & F). destruct (spaces_inv s) as (b & B & Es). exists b. split; [exact B|]. split.
  - split; [eapply Forall_impl; [|exact F]; intros x; apply inName_iff|]. destruct n as [|c n]; [congruence|]. pose proof (solid_skip s) as S. rewrite E in S. cbn in S. intros Bl. apply space_blank in Bl. congruence.
  - rewrite Es at 1. now rewrite E.
Qed.
Lemma name_stops s n r : pskip skipSpaces (pchars1 inName) s = Parsed n r -> match r with [] => True | c :: _ => inName c = false end.
Proof.
  unfold pskip, pchars1. pose proof (span_app inName (skipSpaces s)) as H. destruct (spanOf inName (skipSpaces s)) as [a q]. destruct a; [discriminate|]. intros [= _ <-]. now destruct H as (_ & _ & H).
Qed.

(** ** Regions *)
Lemma region_ok b r t s : blanks b -> regionText r t -> ~ startsDigit s -> pregion (b ++ t ++ s) = Parsed r s.
Proof.
  destruct r as [n x y w h]. intros B (t1 & t2 & t3 & t4 & N & F1 & F2 & F3 & F4 & ->) D. cbn [wname wleft wtop wwidth wheight] in *. unfold pregion. rewrite <- !app_assoc.
  assert (F1' := first_field _ _ F1). destruct F1 as (b1 & v & B1 & V & Et).
  rewrite (bind_ok _ _ _ n (t1 ++ t2 ++ t3 ++ t4 ++ s)) by (rewrite Et, <- !app_assoc; now apply name_ok).
  rewrite fields_bind. erewrite bind_ok by (apply field_ok; [exact F1'|now apply (field_digit y)]).
  rewrite fields_bind. erewrite bind_ok by (apply field_ok; [exact F2|now apply (field_digit w)]).
  rewrite fields_bind. erewrite bind_ok by (apply field_ok; [exact F3|now apply (field_digit h)]).
  rewrite fields_bind. erewrite bind_ok by (apply field_ok; [exact F4|exact D]). reflexivity.
Qed.
Lemma region_inv s r q : pregion s = Parsed r q -> exists b t, blanks b /\ regionText r t /\ ~ startsDigit q /\ s = b ++ t ++ q.
Proof.
  unfold pregion. intros H. apply bind_inv in H as (n & s0 & H0 & H). rewrite fields_bind in H. apply bind_inv in H as (x & s1 & H1 & H). rewrite fields_bind in H. apply bind_inv in H as (y & s2 & H2 & H).
  rewrite fields_bind in H. apply bind_inv in H as (w & s3 & H3 & H). rewrite fields_bind in H. apply bind_inv in H as (h & s4 & H4 & H). injection H as <- ->.
  pose proof (name_stops _ _ _ H0) as St. apply name_inv in H0 as (b & B & N & ->). apply field_inv in H1 as (t1 & F1 & _ & ->). apply field_inv in H2 as (t2 & F2 & _ & ->). apply field_inv in H3 as (t3 & F3 & _ & ->).
  apply field_inv in H4 as (t4 & F4 & D & ->). exists b, (n ++ t1 ++ t2 ++ t3 ++ t4). split; [exact B|]. split; [|split; [exact D|now rewrite <- !app_assoc]].
  exists t1, t2, t3, t4. cbn [wname wleft wtop wwidth wheight]. split; [exact N|]. split; [|auto].
  destruct F1 as (b1 & t' & B1 & F1 & ->). destruct B1 as [|c b1 Bc _]; [exact F1|]. exfalso. cbn in St. unfold blank in Bc. unfold inName, isAscii in St. lia.
Qed.
Lemma int_bad' s : pintS s <> Unexpected.
Proof. apply int_bad. Qed.
Lemma comma_bad s : pcomma s <> Unexpected.
Proof. apply lit_no_expect. Qed.
Lemma bind_never {A B} (p : parser A) (f : A -> parser B) s : (forall s, p s <> Unexpected) -> (forall a s, f a s <> Unexpected) -> pbind p f s <> Unexpected.
Proof. intros P F. unfold pbind. specialize (P s). destruct (p s); [discriminate|congruence|apply F]. Qed.
Lemma region_bad s : pregion s <> Unexpected.
Proof.
  unfold pregion. revert s. assert (X : forall s, pskip skipSpaces (pchars1 inName) s <> Unexpected) by (intros s; unfold pskip, pchars1; destruct (spanOf inName (skipSpaces s)) as [[|]]; discriminate).
  intros s. repeat (apply bind_never; [first [exact X|exact comma_bad|exact int_bad']|intros ? ?]). discriminate.
Qed.
Lemma region_less s r q : pregion s = Parsed r q -> (List.length q < List.length s)%nat.
Proof.
  intros H. apply region_inv in H as (b & t & _ & (t1 & t2 & t3 & t4 & (_ & N) & _ & _ & _ & _ & ->) & _ & ->). rewrite !app_length. destruct (wname r); [contradiction|]. cbn. lia.
Qed.
Lemma rest_region s : restText s -> pregion s = Fail.
Proof.
  intros [_ H]. destruct (pregion s) as [| |r q] eqn:E; [reflexivity|now apply region_bad in E|]. exfalso. apply H. apply region_inv in E as (b & t & B & R & D & E). exists b, r, t, q. auto.
Qed.
Lemma region_rest s : ~ startsDigit s -> pregion s = Fail -> restText s.
Proof. intros D H. split; [exact D|]. intros (b & r & t & q & B & R & Dq & ->). now rewrite (region_ok b r t q B R Dq) in H. Qed.
Lemma digit_app u s : ~ startsDigit u -> ~ startsDigit s -> ~ startsDigit (u ++ s).
Proof. destruct u; [auto|intros H _; exact H]. Qed.
Lemma regionsMany_ok rs u s : regionsText rs u -> restText s -> pmany pregion (u ++ s) = Parsed rs s.
Proof.
  intros M R. unfold pmany. assert (L : (List.length rs < S (List.length (u ++ s)))%nat).
  { rewrite app_length. clear R. induction M as [|b r t rs u _ (t1 & t2 & t3 & t4 & (_ & N) & _ & _ & _ & _ & ->) _ IH _]; [cbn; lia|]. destruct (wname r); [contradiction|]. cbn [List.length]. rewrite !app_length. cbn [List.length]. lia. }
  generalize dependent (S (List.length (u ++ s))). induction M as [|b r t rs u B Rt M IH D]; intros f L; (destruct f as [|f]; [cbn in L; lia|]); cbn [pmanyFuel].
  - cbn [app]. now rewrite rest_region.
  - cbn [List.length] in L. rewrite <- !app_assoc. rewrite (region_ok b r t (u ++ s) B Rt) by (apply digit_app; [exact D|apply R]). rewrite IH by lia. reflexivity.
Qed.
Lemma regions1_ok rs u s : rs <> [] -> regionsText rs u -> restText s -> pmany1 pregion (u ++ s) = Parsed rs s.
Proof.
  intros N M R. destruct M as [|b r t rs u B Rt M D]; [congruence|]. unfold pmany1. rewrite <- !app_assoc.
  erewrite bind_ok by (apply region_ok; [exact B|exact Rt|apply digit_app; [exact D|apply R]]). erewrite bind_ok by (apply regionsMany_ok; eassumption). reflexivity.
Qed.
Lemma regionsMany_inv s rs q : ~ startsDigit s -> pmany pregion s = Parsed rs q -> exists u, regionsText rs u /\ ~ startsDigit u /\ s = u ++ q /\ restText q.
Proof.
  intros D H. pose proof (many_stops pregion s rs q region_less H) as St.
  assert (X : exists u, regionsText rs u /\ ~ startsDigit u /\ s = u ++ q /\ ~ startsDigit q).
  { clear St. unfold pmany in H. revert D H. generalize (S (List.length s)). intros f. revert s rs q. induction f as [|f IH]; intros s rs q D H; cbn [pmanyFuel] in H.
    - injection H as <- <-. exists []. split; [constructor|]. auto.
    - destruct (pregion s) as [| |r q1] eqn:E; [injection H as <- <-; exists []; split; [constructor|]; auto|discriminate|].
      destruct (pmanyFuel f pregion q1) as [| |l' r'] eqn:E'; try discriminate. injection H as <- <-.
      apply region_inv in E as (b & t & B & Rt & D1 & ->). destruct (IH q1 l' r' D1 E') as (u & U & Du & -> & Dq). exists (b ++ t ++ u). split; [now constructor|]. split; [|split; [now rewrite <- !app_assoc|exact Dq]].
      intros X. apply D. destruct b; [|exact X]. destruct t; [|exact X]. destruct Rt as (? & ? & ? & ? & (_ & N) & _ & _ & _ & _ & E). destruct (wname r); [contradiction|discriminate]. }
  destruct X as (u & U & Du & -> & Dq). exists u. split; [exact U|]. split; [exact Du|]. split; [reflexivity|]. now apply region_rest.
Qed.
Lemma regions1_inv s rs q : ~ startsDigit s -> pmany1 pregion s = Parsed rs q -> exists u, rs <> [] /\ regionsText rs u /\ ~ startsDigit u /\ s = u ++ q /\ restText q.
Proof.
  unfold pmany1. intros D H. apply bind_inv in H as (r & q1 & H1 & H). apply bind_inv in H as (l & q2 & H2 & H). injection H as <- ->.
  apply region_inv in H1 as (b & t & B & Rt & D1 & ->). destruct (regionsMany_inv q1 l q D1 H2) as (u & U & Du & -> & R). exists (b ++ t ++ u). split; [discriminate|]. split; [now constructor|].
  split; [|split; [now rewrite <- !app_assoc|exact R]].
  intros X. apply D. destruct b; [|exact X]. destruct t; [|exact X]. destruct Rt as (? & ? & ? & ? & (_ & N) & _ & _ & _ & _ & E). destruct (wname r); [contradiction|discriminate].
Qed.
Lemma atlas_ok a t s : atlasText a t -> restText s -> patlas (t ++ s) = Parsed a s.
Proof.
  destruct a as [i w h rs]. intros (b & ti & t2 & t3 & u & B & I & F2 & F3 & N & M & D & ->) R. cbn [wid wwide whigh wregions] in *. unfold patlas. rewrite <- !app_assoc.
  erewrite bind_ok by (apply intS_ok; [exact B|exact I|now apply (field_digit w)]). rewrite fields_bind. erewrite bind_ok by (apply field_ok; [exact F2|now apply (field_digit h)]).
  rewrite fields_bind. erewrite bind_ok by (apply field_ok; [exact F3|apply digit_app; [exact D|apply R]]). erewrite bind_ok by (apply regions1_ok; eassumption). reflexivity.
Qed.
Lemma atlas_inv s a r : patlas s = Parsed a r -> exists t, atlasText a t /\ restText r /\ s = t ++ r.
Proof.
  unfold patlas. intros H. apply bind_inv in H as (i & s1 & H1 & H). rewrite fields_bind in H. apply bind_inv in H as (w & s2 & H2 & H). rewrite fields_bind in H. apply bind_inv in H as (h & s3 & H3 & H).
  apply bind_inv in H as (rs & s4 & H4 & H). injection H as <- ->. apply intS_inv in H1 as (b & ti & B & I & _ & ->). apply field_inv in H2 as (t2 & F2 & _ & ->). apply field_inv in H3 as (t3 & F3 & D3 & ->).
  destruct (regions1_inv s3 rs r D3 H4) as (u & N & M & D & -> & R). exists (b ++ ti ++ t2 ++ t3 ++ u). split; [|split; [exact R|now rewrite <- !app_assoc]].
  exists b, ti, t2, t3, u. cbn [wid wwide whigh wregions]. auto 9.
Qed.
Lemma atlas_bad s : patlas s <> Unexpected.
Proof.
  unfold patlas. assert (X : forall s, pmany1 pregion s <> Unexpected).
  { intros q. unfold pmany1. apply bind_never; [exact region_bad|]. intros a q'. apply bind_never; [|discriminate]. clear. intros s. unfold pmany. generalize (S (List.length s)). intros f. revert s.
    induction f as [|f IH]; intros s; cbn [pmanyFuel]; [discriminate|]. pose proof (region_bad s) as B. destruct (pregion s) as [| |r q]; [discriminate|congruence|]. specialize (IH q). destruct (pmanyFuel f pregion q); [discriminate|congruence|discriminate]. }
  repeat (apply bind_never; [first [exact X|exact comma_bad|exact int_bad']|intros ? ?]). discriminate.
Qed.

(** ** Groups *)
Lemma addTo_lookup n r m k : alookup beqb k (addTo n r m) = if list_eq_dec N.eq_dec n k then Some (match alookup beqb k m with Some g => g | None => [] end ++ [r]) else alookup beqb k m.
Proof.
  assert (D : forall a b, beqb a b = if list_eq_dec N.eq_dec a b then true else false).
  { intros a b. destruct (list_eq_dec N.eq_dec a b) as [->|X]; [apply beqb_refl|now apply beqb_neq]. }
  induction m as [|[k' g] m IH]; cbn [addTo alookup].
  - rewrite D. destruct (list_eq_dec N.eq_dec k n), (list_eq_dec N.eq_dec n k); cbn; try reflexivity; congruence.
  - rewrite !D. destruct (list_eq_dec N.eq_dec n k') as [X|X]; cbn [alookup]; rewrite ?D, ?IH.
    + destruct (list_eq_dec N.eq_dec k k') as [Y|Y], (list_eq_dec N.eq_dec n k); try reflexivity; congruence.
    + destruct (list_eq_dec N.eq_dec k k') as [Y|Y], (list_eq_dec N.eq_dec n k); try reflexivity; congruence.
Qed.
Section Conversion.
  Variable convert : Z -> outcome N.
  Lemma regionOf_converted a r x y g : intSum (wleft r) (wwidth r) = Ok x -> intSum (wtop r) (wheight r) = Ok y ->
    regionOf convert (cast16 (wwide a)) (cast16 (whigh a)) (wleft r) (wtop r) x y = Ok g <-> converted convert a r g.
  Proof.
    unfold intSum. intros X Y. destruct (_ && _)%bool in X; [|discriminate]. destruct (_ && _)%bool in Y; [|discriminate]. injection X as <-. injection Y as <-.
    unfold regionOf. replace (wleft r + wwidth r - wleft r)%Z with (wwidth r) by lia. replace (wtop r + wheight r - wtop r)%Z with (wheight r) by lia. unfold converted, cast16. split.
    - destruct (convert (wleft r)) as [p| |] eqn:E1; cbn [bind]; try discriminate. destruct (convert (wtop r)) as [q| |] eqn:E2; cbn [bind]; try discriminate.
      destruct (convert (wwidth r)) as [v| |] eqn:E3; cbn [bind]; try discriminate. destruct (convert (wheight r)) as [u| |] eqn:E4; cbn [bind]; try discriminate. intros [= <-]. exists p, q, v, u. auto.
    - intros (p & q & v & u & -> & -> & -> & -> & ->). reflexivity.
  Qed.
  Lemma addRegions_inv a rs m m' : addRegions convert a rs m = Ok m' -> forall n, exists gs, Forall2 (converted convert a) (named n rs) gs /\
    alookup beqb n m' = match alookup beqb n m, gs with None, [] => None | None, _ => Some gs | Some g, _ => Some (g ++ gs) end.
  Proof.
    revert m. induction rs as [|r rs IH]; intros m H n; cbn [addRegions] in H.
    - injection H as <-. exists []. split; [constructor|]. destruct (alookup beqb n m); [now rewrite app_nil_r|reflexivity].
    - unfold addRegion in H. destruct (intSum (wleft r) (wwidth r)) as [x| |] eqn:X; cbn [bind] in H; try discriminate. destruct (intSum (wtop r) (wheight r)) as [y| |] eqn:Y; cbn [bind] in H; try discriminate.
      destruct (regionOf convert (cast16 (wwide a)) (cast16 (whigh a)) (wleft r) (wtop r) x y) as [g| |] eqn:G; cbn [bind] in H; try discriminate. apply (regionOf_converted a r x y g X Y) in G.
      destruct (IH _ H n) as (gs & F & E). rewrite addTo_lookup in E. unfold named. cbn [List.filter]. destruct (list_eq_dec N.eq_dec (wname r) n) as [En|En].
      + exists (g :: gs). split; [now constructor|]. rewrite E. destruct (alookup beqb n m); [now rewrite <- app_assoc|reflexivity].
      + exists gs. auto.
  Qed.
  Lemma addRegions_ok a rs m : goodConvert convert -> Forall regionFits rs -> exists m', addRegions convert a rs m = Ok m'.
  Proof.
    intros G F. revert m. induction F as [|r rs (F1 & F2 & F3 & F4) _ IH]; intros m; cbn [addRegions]; [eexists; reflexivity|]. unfold fits in *.
    unfold addRegion, intSum. destruct (Z.leb_spec (-2147483648) (wleft r + wwidth r)); [|lia]. destruct (Z.leb_spec (wleft r + wwidth r) 2147483647); [|lia]. cbn [andb bind].
    destruct (Z.leb_spec (-2147483648) (wtop r + wheight r)); [|lia]. destruct (Z.leb_spec (wtop r + wheight r) 2147483647); [|lia]. cbn [andb bind].
    unfold regionOf. replace (wleft r + wwidth r - wleft r)%Z with (wwidth r) by lia. replace (wtop r + wheight r - wtop r)%Z with (wheight r) by lia.
    rewrite !G by assumption. cbn [bind]. apply IH.
  Qed.
  Lemma converted_exact a r g : goodConvert convert -> regionFits r -> converted convert a r g -> g = exactRegion a r.
  Proof.
    intros G (F1 & F2 & F3 & F4) (x & y & w & h & E1 & E2 & E3 & E4 & ->). rewrite G in E1, E2, E3, E4 by assumption. injection E1 as <-. injection E2 as <-. injection E3 as <-. injection E4 as <-. reflexivity.
  Qed.
End Conversion.
