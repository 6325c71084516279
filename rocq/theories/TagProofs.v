From Verif Require Import Base Bytes ElementModel TagModel TagSpec.
From Coq Require Import Permutation Sorted.

Lemma ascending_lt tags : ascending tags -> forall i j a b, i < j ->
  nth_error tags i = Some a -> nth_error tags j = Some b -> (tkey a < tkey b)%N.
Proof.
  intros H; induction H as [|t l H IH F]; intros i j a b L Ha Hb.
  - destruct i; discriminate.
  - destruct j as [|j]; [lia|]. destruct i as [|i]; cbn [nth_error] in *.
    + injection Ha as <-. rewrite Forall_forall in F. apply F. eapply nth_error_In; eauto.
    + apply (IH i j); auto; lia.
Qed.

Lemma searchTag_total fuel key tags : forall b e, e <= length tags -> e - b < fuel ->
  exists r, searchTag fuel key tags b e = Some r.
Proof.
  induction fuel as [|fuel IH]; intros b e He Hf; [lia|]. cbn [searchTag].
  destruct (Nat.ltb_spec b e) as [L|L]; [|eauto].
  assert (M : (e - b) / 2 < e - b) by (apply Nat.div_lt; lia).
  destruct (nth_error tags (b + (e - b) / 2)) as [t|] eqn:E.
  2:{ apply nth_error_None in E; lia. }
  destruct (N.eqb (tkey t) key); [eauto|].
  destruct (N.ltb key (tkey t)); apply IH; lia.
Qed.

Lemma searchTag_sound fuel key tags : forall b e t,
  searchTag fuel key tags b e = Some (Some t) -> In t tags /\ tkey t = key.
Proof.
  induction fuel as [|fuel IH]; intros b e t H; [discriminate|]. cbn [searchTag] in H.
  destruct (b <? e); [|discriminate].
  destruct (nth_error tags (b + (e - b) / 2)) as [t'|] eqn:E; [|discriminate].
  destruct (N.eqb_spec (tkey t') key) as [K|K].
  - injection H as <-. split; auto. eapply nth_error_In; eauto.
  - destruct (N.ltb key (tkey t')); eauto.
Qed.

Lemma searchTag_none fuel key tags : ascending tags -> forall b e,
  searchTag fuel key tags b e = Some None -> forall i t,
  b <= i < e -> nth_error tags i = Some t -> tkey t <> key.
Proof.
  intros A. induction fuel as [|fuel IH]; intros b e H i t Hi Ht; [discriminate|].
  cbn [searchTag] in H. destruct (Nat.ltb_spec b e) as [L|L]; [|lia].
  set (m := b + (e - b) / 2) in *.
  destruct (nth_error tags m) as [t'|] eqn:E; [|discriminate].
  destruct (N.eqb_spec (tkey t') key) as [K|K]; [discriminate|].
  destruct (N.ltb_spec key (tkey t')) as [G|G].
  - destruct (Nat.lt_ge_cases i m) as [Lm|Lm]; [apply (IH b m H i t); auto; lia|].
    destruct (Nat.eq_dec i m) as [->|N1]; [congruence|].
    assert (tkey t' < tkey t)%N by (apply (ascending_lt tags A m i); auto; lia). lia.
  - destruct (Nat.lt_ge_cases m i) as [Lm|Lm]; [apply (IH (m + 1) e H i t); auto; lia|].
    destruct (Nat.eq_dec i m) as [->|N1]; [congruence|].
    assert (tkey t < tkey t')%N by (apply (ascending_lt tags A i m); auto; lia). lia.
Qed.

Lemma ascending_unique tags a b : ascending tags -> In a tags -> In b tags -> tkey a = tkey b -> a = b.
Proof.
  intros A Ha Hb K. apply In_nth_error in Ha as [i Hi]. apply In_nth_error in Hb as [j Hj].
  destruct (Nat.lt_trichotomy i j) as [L|[->|L]]; [| congruence |].
  - pose proof (ascending_lt tags A i j a b L Hi Hj). lia.
  - pose proof (ascending_lt tags A j i b a L Hj Hi). lia.
Qed.

(** The whole search of the code. *)
Definition findTag (key : N) (tags : list tag) : option (option tag) :=
  searchTag (S (length tags)) key tags 0 (length tags).

Lemma findTag_total key tags : exists r, findTag key tags = Some r.
Proof. apply searchTag_total; lia. Qed.

Lemma findTag_some key tags t : ascending tags ->
  (findTag key tags = Some (Some t) <-> In t tags /\ tkey t = key).
Proof.
  intros A. split; [apply searchTag_sound|].
  intros [Hi Hk]. destruct (findTag_total key tags) as [[t'|] E].
  - rewrite E. pose proof (searchTag_sound _ _ _ _ _ _ E) as [Hi' Hk'].
    do 2 f_equal. apply (ascending_unique tags); auto; congruence.
  - apply In_nth_error in Hi as [i Hi].
    exfalso. apply (searchTag_none _ _ _ A _ _ E i t); auto. split; [lia|].
    apply nth_error_Some. congruence.
Qed.

Lemma findTag_none key tags : ascending tags ->
  (findTag key tags = Some None <-> forall t, In t tags -> tkey t <> key).
Proof.
  intros A. split.
  - intros E t Hi. apply In_nth_error in Hi as [i Hi].
    apply (searchTag_none _ _ _ A _ _ E i t); auto. split; [lia|].
    apply nth_error_Some. congruence.
  - intros H. destruct (findTag_total key tags) as [[t|] E]; auto.
    pose proof (searchTag_sound _ _ _ _ _ _ E) as [Hi Hk]. exfalso. apply (H t); auto.
Qed.

Lemma getTagValue_found key tags d f v : ascending tags -> In (mkTag key v) tags ->
  getTagValue key tags d f = f v.
Proof.
  intros A Hi. unfold getTagValue. fold (findTag key tags).
  assert (E : findTag key tags = Some (Some (mkTag key v))) by (apply findTag_some; auto).
  rewrite E. reflexivity.
Qed.

Lemma getTagValue_missing key tags d f : ascending tags -> (forall v, ~ In (mkTag key v) tags) ->
  getTagValue key tags d f = Ok d.
Proof.
  intros A Hn. unfold getTagValue. fold (findTag key tags).
  assert (E : findTag key tags = Some None).
  { apply findTag_none; auto. intros [k v] Hi K. cbn in K. subst k. exact (Hn v Hi). }
  rewrite E. reflexivity.
Qed.

Lemma tag_cases key tags : (exists v, In (mkTag key v) tags) \/ (forall v, ~ In (mkTag key v) tags).
Proof.
  induction tags as [|[k v] l IH]; [right; intros v []|].
  destruct (N.eq_dec k key) as [->|K]; [left; exists v; left; reflexivity|].
  destruct IH as [[w H]|H]; [left; exists w; right; exact H|].
  right. intros w [E|Hi]; [congruence|exact (H w Hi)].
Qed.

Lemma hasTag_spec key value tags : ascending tags -> value <> noId ->
  hasTag key value tags = Ok true <-> In (mkTag key value) tags.
Proof.
  intros A V. unfold hasTag. destruct (tag_cases key tags) as [[v H]|H].
  - rewrite (getTagValue_found _ _ _ _ v A H). cbn [omap bind]. split.
    + intros E. injection E as E. apply N.eqb_eq in E. congruence.
    + intros H'. assert (E : mkTag key v = mkTag key value) by (apply (ascending_unique tags); auto).
      injection E as ->. rewrite N.eqb_refl. reflexivity.
  - rewrite (getTagValue_missing _ _ _ _ A H). cbn [omap bind]. split.
    + intros E. injection E as E. apply N.eqb_eq in E. contradiction.
    + intros H'. destruct (H _ H').
Qed.

(** Sorting tags with distinct keys gives ascending tags. *)
Lemma sort_ascending sort l : isSort sort -> NoDup (map tkey l) -> ascending (sort l).
Proof.
  intros S D. destruct (S l) as [P H].
  assert (D' : NoDup (map tkey (sort l))).
  { eapply Permutation_NoDup; [|exact D]. apply Permutation_map. apply Permutation_sym; exact P. }
  unfold ascending. clear P D S. induction H as [|a r H IH F]; [constructor|].
  cbn [map] in D'. apply NoDup_cons_iff in D' as [N1 D'].
  constructor; auto. rewrite Forall_forall in *. intros b Hb.
  specialize (F b Hb). assert (tkey a <> tkey b) by (intros E; apply N1; rewrite E; apply in_map; exact Hb).
  lia.
Qed.

Lemma convertTags_in intern sort l t : isSort sort ->
  In t (convertTags intern sort l) <-> exists k v, In (k, v) l /\ t = mkTag (intern k) (intern v).
Proof.
  intros S. unfold convertTags. destruct (S (map (convertTag intern) l)) as [P _].
  split.
  - intros H. apply (Permutation_in _ P) in H. apply in_map_iff in H as [[k v] [<- H]].
    exists k, v. auto.
  - intros (k & v & H & ->). apply (Permutation_in _ (Permutation_sym P)).
    apply in_map_iff. exists (k, v). auto.
Qed.

Lemma sort_in (sort : list tag -> list tag) l t : isSort sort -> In t (sort l) <-> In t l.
Proof.
  intros S. destruct (S l) as [P _].
  split; apply Permutation_in; auto using Permutation_sym.
Qed.

Lemma NoDup_intern (intern : bytes -> N) (l : list rawTag) :
  (forall a b, In a (map fst l) -> In b (map fst l) -> intern a = intern b -> a = b) ->
  NoDup (map fst l) -> NoDup (map tkey (map (convertTag intern) l)).
Proof.
  intros I D. rewrite map_map. cbn [convertTag tkey].
  induction l as [|[k v] l IH]; [constructor|]. cbn [map fst] in *.
  apply NoDup_cons_iff in D as [N1 D]. constructor.
  - intros H. apply in_map_iff in H as [[k' v'] [E H]]. cbn [fst] in E. apply N1.
    assert (k' = k). { apply I; auto; [right|left]; auto. apply in_map_iff. exists (k', v'); auto. }
    subst k'. apply in_map_iff. exists (k, v'); auto.
  - apply IH; auto. intros a b Ha Hb. apply I; right; auto.
Qed.

Lemma convertTags_ascending intern sort l : isSort sort -> goodIds intern (stringsOf l) ->
  NoDup (map fst l) -> ascending (convertTags intern sort l).
Proof.
  intros S [G _] D. apply sort_ascending; auto. apply NoDup_intern; auto.
  intros a b Ha Hb. apply G; unfold stringsOf; apply in_or_app; left; auto.
Qed.

Lemma insertTag_perm t l : Permutation (insertTag t l) (t :: l).
Proof.
  induction l as [|a l IH]; cbn [insertTag]; auto.
  destruct (N.leb (tkey t) (tkey a)); auto.
  rewrite IH. apply perm_swap.
Qed.

Lemma insertTag_sorted t l : StronglySorted (fun a b => (tkey a <= tkey b)%N) l ->
  StronglySorted (fun a b => (tkey a <= tkey b)%N) (insertTag t l).
Proof.
  induction 1 as [|a l H IH F]; cbn [insertTag]; [repeat constructor|].
  destruct (N.leb_spec (tkey t) (tkey a)) as [L|L].
  - constructor; [constructor; auto|]. constructor; auto.
    rewrite Forall_forall in *. intros x Hx. specialize (F x Hx). lia.
  - constructor; auto. rewrite Forall_forall in *. intros x Hx.
    apply (Permutation_in _ (insertTag_perm t l)) in Hx as [<-|Hx]; [lia|auto].
Qed.

Lemma insertionSort_isSort : isSort insertionSort.
Proof.
  intros l. induction l as [|t l [P H]]; [split; constructor|].
  cbn [insertionSort fold_right]. fold (insertionSort l). split.
  - rewrite insertTag_perm. auto.
  - apply insertTag_sorted; auto.
Qed.
