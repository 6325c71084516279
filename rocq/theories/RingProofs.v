(** Lemmas about the assembly of rings. *)
From Coq Require Import QArith Qabs SetoidList SetoidPermutation Permutation Lqa.
From Verif Require Import Base Bytes GeoModel RingModel RingSpec.
Local Open Scope nat_scope.

(** * Segments *)

Section Edges.
  Context {A : Type} (R : A -> A -> Prop) (ER : Equivalence R).

  Lemma edgeEq_equiv : Equivalence (edgeEq R).
  Proof.
    split.
    - intros [a b]. left. split; apply Equivalence_Reflexive.
    - intros [a b] [c d] [[H1 H2]|[H1 H2]]; cbn [fst snd] in *; [left|right]; split; apply Equivalence_Symmetric; auto.
    - intros [a b] [c d] [e f]. unfold edgeEq. cbn [fst snd]. intros [[H1 H2]|[H1 H2]] [[H3 H4]|[H3 H4]].
      + left. split; eapply Equivalence_Transitive; eauto.
      + right. split; eapply Equivalence_Transitive; eauto.
      + right. split; eapply Equivalence_Transitive; eauto.
      + left. split; eapply Equivalence_Transitive; eauto.
  Qed.
  Local Instance edgeEq_E : Equivalence (edgeEq R) := edgeEq_equiv.

  Lemma same_refl l : sameEdges R l l.
  Proof. unfold sameEdges. reflexivity. Qed.
  Lemma same_sym l l' : sameEdges R l l' -> sameEdges R l' l.
  Proof. unfold sameEdges. intros H. symmetry. exact H. Qed.
  Lemma same_trans l l' l'' : sameEdges R l l' -> sameEdges R l' l'' -> sameEdges R l l''.
  Proof. apply permA_trans. Qed.
  Lemma same_app a b c d : sameEdges R a c -> sameEdges R b d -> sameEdges R (a ++ b) (c ++ d).
  Proof. intros H1 H2. unfold sameEdges in *. rewrite H1, H2. reflexivity. Qed.
  Lemma same_perm l l' : Permutation l l' -> sameEdges R l l'.
  Proof.
    induction 1.
    - constructor.
    - constructor; auto. apply (Equivalence_Reflexive (R := edgeEq R)).
    - apply permA_swap.
    - eapply permA_trans; eauto.
  Qed.

  Lemma edges_app (l : list A) (x : A) (l' : list A) : edges (l ++ x :: l') = edges (l ++ [x]) ++ edges (x :: l').
  Proof.
    unfold edges. induction l as [|a l IH]; [reflexivity|].
    destruct l as [|b l]; [reflexivity|]. cbn [app tl combine] in *. f_equal. exact IH.
  Qed.

  Lemma edges_rev (l : list A) : sameEdges R (edges (rev l)) (edges l).
  Proof.
    induction l as [|a l IH]; [apply same_refl|]. cbn [rev]. destruct l as [|b l]; [apply same_refl|].
    cbn [rev] in *. rewrite <- app_assoc. cbn [app]. rewrite edges_app.
    eapply same_trans; [apply same_app; [exact IH|apply same_refl]|].
    change (edges (a :: b :: l)) with ((a, b) :: edges (b :: l)).
    eapply same_trans; [apply same_perm, Permutation_app_comm|]. cbn [app edges tl combine].
    constructor; [|apply same_refl]. right. cbn. split; apply Equivalence_Reflexive.
  Qed.

  Lemma edges_last (l : list A) a b : R a b -> sameEdges R (edges (l ++ [a])) (edges (l ++ [b])).
  Proof.
    intros H. induction l as [|x l IH]; [apply same_refl|]. destruct l as [|y l].
    - cbn. constructor; [|constructor]. left. cbn. split; [apply Equivalence_Reflexive|auto].
    - change (edges ((x :: y :: l) ++ [a])) with ((x, y) :: edges ((y :: l) ++ [a])).
      change (edges ((x :: y :: l) ++ [b])) with ((x, y) :: edges ((y :: l) ++ [b])).
      constructor; [apply (Equivalence_Reflexive (R := edgeEq R))|exact IH].
  Qed.
  Lemma edges_first (l : list A) a b : R a b -> sameEdges R (edges (a :: l)) (edges (b :: l)).
  Proof.
    intros H. destruct l as [|x l]; [apply same_refl|].
    change (edges (a :: x :: l)) with ((a, x) :: edges (x :: l)).
    change (edges (b :: x :: l)) with ((b, x) :: edges (x :: l)).
    constructor; [|apply same_refl]. left. cbn. split; [auto|apply Equivalence_Reflexive].
  Qed.

  (** Joining two lines at ends that are the same place. *)
  Lemma edges_join (l : list A) a b (l' : list A) : R a b ->
    sameEdges R (edges (l ++ b :: l')) (edges (l ++ [a]) ++ edges (b :: l')).
  Proof.
    intros H. rewrite edges_app. apply same_app; [|apply same_refl]. apply edges_last. apply Equivalence_Symmetric. auto.
  Qed.
  Lemma edges_join' l a b l' : R a b ->
    sameEdges R (edges (l ++ b :: l')) (edges (l ++ [b]) ++ edges (a :: l')).
  Proof.
    intros H. rewrite edges_app. apply same_app; [apply same_refl|]. apply edges_first. apply Equivalence_Symmetric. auto.
  Qed.
End Edges.

Lemma edges_length {A} (l : list A) : length (edges l) = pred (length l).
Proof. unfold edges. rewrite combine_length. destruct l as [|x l]; cbn [tl length]; lia. Qed.

Lemma same_length {A} (R : A -> A -> Prop) l l' : sameEdges R l l' -> length l = length l'.
Proof. induction 1; cbn [length]; lia. Qed.

(** * Joining *)

Lemma split_last {A} (l : list A) x : l <> [] -> l = removelast l ++ [last l x].
Proof. apply app_removelast_last. Qed.
Lemma last_irr {A} (l : list A) x y : l <> [] -> last l x = last l y.
Proof. induction l as [|a l IH]; intros H; [contradiction|]. destruct l as [|b l]; [reflexivity|]. apply IH. discriminate. Qed.
Lemma last_rev {A} (l : list A) f x : last (rev (f :: l)) x = f.
Proof. cbn [rev]. apply last_last. Qed.
Lemma last_app_ne {A} (l l' : list A) x : l' <> [] -> last (l ++ l') x = last l' x.
Proof.
  intros H. induction l as [|a l IH]; [reflexivity|]. cbn [app].
  destruct (l ++ l') as [|b m] eqn:E; [|rewrite <- IH; reflexivity].
  apply app_eq_nil in E as [_ E]. contradiction.
Qed.
Lemma last_snoc_rev {A} (l : list A) f : l <> [] -> exists m, rev l = last l f :: m.
Proof.
  intros H. rewrite (split_last l f H). rewrite rev_app_distr. cbn [rev app]. rewrite last_last. eauto.
Qed.

Lemma okSome_inj {B} (a b : B) : Ok (Some a) = Ok (Some b) -> a = b.
Proof. intros H. injection H. auto. Qed.

Section Join.
  Context {A : Type} (same : A -> A -> bool).
  Variable R : A -> A -> Prop.
  Hypothesis ER : Equivalence R.
  Hypothesis same_R : forall a b, same a b = true -> R a b.

  Lemma tryAdd_edges s o s' : tryAdd same s o = Ok (Some s') ->
    sameEdges R (edges (scoords s')) (edges (scoords s) ++ edges (scoords o)) /\ scoords s' <> [] /\ sid s' = sid s.
  Proof using ER same_R.
    unfold tryAdd. destruct s as [i sc], o as [j oc]. cbn [scoords sid].
    destruct sc as [|sf sc]; [discriminate|]. destruct oc as [|f oc]; [discriminate|].
    set (S := sf :: sc). set (O := f :: oc).
    assert (SN : S <> []) by discriminate. assert (ON : O <> []) by discriminate.
    set (sl := last S sf). set (ol := last O f).
    assert (ES : S = removelast S ++ [sl]) by (apply split_last; auto).
    assert (EO : O = removelast O ++ [ol]) by (apply split_last; auto).
    destruct (same sl f) eqn:C1; [|destruct (same sl ol) eqn:C2; [|destruct (same sf ol) eqn:C3; [|destruct (same sf f) eqn:C4; [|discriminate]]]];
      intros E; apply okSome_inj in E; subst s'; cbn [scoords sid]; (split; [|split; [|reflexivity]]).
    - replace (edges S) with (edges (removelast S ++ [sl])) by (rewrite <- ES; reflexivity). apply edges_join; auto.
    - intros H. apply app_eq_nil in H as [_ H]. discriminate.
    - destruct (last_snoc_rev O f ON) as (m & Em). rewrite Em. fold ol.
      eapply same_trans; [apply (edges_join R ER); apply same_R; exact C2|].
      rewrite <- ES. apply same_app; [exact ER|apply same_refl; exact ER|]. fold ol in Em. rewrite <- Em. apply edges_rev; auto.
    - intros H. apply app_eq_nil in H as [_ H]. apply (f_equal (@rev A)) in H. rewrite rev_involutive in H. discriminate.
    - cbn [tl S]. rewrite EO at 1. rewrite <- app_assoc. cbn [app].
      eapply same_trans; [apply (edges_join' R ER) with (a := sf); apply same_R; exact C3|].
      rewrite <- EO. apply same_perm; [exact ER|]. apply Permutation_app_comm.
    - intros H. apply app_eq_nil in H as [H _]. discriminate.
    - cbn [tl S]. cbn [rev O]. rewrite <- app_assoc. cbn [app].
      eapply same_trans; [apply (edges_join' R ER) with (a := sf); apply same_R; exact C4|].
      eapply same_trans; [apply same_perm; [exact ER|apply Permutation_app_comm]|].
      apply same_app; [exact ER|apply same_refl; exact ER|].
      change (rev oc ++ [f]) with (rev O). apply edges_rev; auto.
    - intros H. apply app_eq_nil in H as [H _]. apply app_eq_nil in H as [_ H]. discriminate.
  Qed.
End Join.

Section Loop.
  Context {A : Type} (same : A -> A -> bool).
  Notation tryAdd := (tryAdd same).
  Notation joinFirst := (joinFirst same).
  Notation ringLoop := (ringLoop same).
  Notation isClosed := (isClosed same).
  Notation finish := (finish same).

  Definition filled (s : sequence A) : Prop := scoords s <> [].

  Lemma tryAdd_defined s o : filled s -> filled o -> exists r, tryAdd s o = Ok r.
  Proof.
    unfold filled, RingModel.tryAdd. destruct (scoords s), (scoords o); intros; try contradiction.
    repeat (match goal with |- context [if ?b then _ else _] => destruct b end); eauto.
  Qed.

  Lemma joinFirst_defined c l : filled c -> Forall filled l -> exists r, joinFirst c l = Ok r.
  Proof.
    intros F. induction 1 as [|s l H1 H2 IH]; cbn [RingModel.joinFirst]; eauto.
    destruct (tryAdd_defined c s F H1) as ([r|] & ->); cbn [bind]; eauto.
    destruct IH as (r & ->). eexists. reflexivity.
  Qed.

  (** One sequence is taken. *)
  Lemma joinFirst_some c l c' rest : joinFirst c l = Ok (Some (c', rest)) ->
    exists b s a, l = b ++ s :: a /\ rest = b ++ a /\ tryAdd c s = Ok (Some c') /\
      Forall (fun x => tryAdd c x = Ok None) b.
  Proof.
    revert rest. induction l as [|s l IH]; intros rest; cbn [RingModel.joinFirst]; [discriminate|].
    destruct (tryAdd c s) as [[r|]| |] eqn:T; cbn [bind]; try discriminate.
    - intros E. injection E as -> ->. exists [], s, rest. auto.
    - destruct (joinFirst c l) as [[[c2 rest2]|]| |]; cbn [omap bind option_map]; try discriminate.
      intros E. injection E as -> <-. destruct (IH rest2 eq_refl) as (b & x & a & -> & -> & T2 & F).
      exists (s :: b), x, a. auto.
  Qed.
  Lemma joinFirst_none c l : joinFirst c l = Ok None -> Forall (fun x => tryAdd c x = Ok None) l.
  Proof.
    induction l as [|s l IH]; cbn [RingModel.joinFirst]; [constructor|].
    destruct (tryAdd c s) as [[r|]| |] eqn:T; cbn [bind]; try discriminate.
    destruct (joinFirst c l) as [[[c2 rest2]|]| |]; cbn [omap bind option_map]; try discriminate.
    intros _. constructor; auto.
  Qed.

  Lemma isClosed_spec s : isClosed s = true <-> closedLine same (scoords s).
  Proof.
    unfold RingModel.isClosed, closedLine. destruct (scoords s) as [|f [|x l]].
    - split; [discriminate|]. intros (f & m & e & H & _). discriminate.
    - split; [discriminate|]. intros (g & m & e & H & _). injection H as _ H. destruct m; discriminate.
    - split.
      + intros H. exists f, (removelast (x :: l)), (last (x :: l) f). split; [|exact H].
        f_equal. apply split_last. discriminate.
      + intros (g & m & e & H & E). injection H as <- H. change (last (f :: x :: l) f) with (last (x :: l) f). rewrite H, last_last. exact E.
  Qed.

  Definition optEdges (c : option (sequence A)) : list (A * A) :=
    match c with None => [] | Some s => edges (scoords s) end.

  (** The state of the loop. *)
  Record loopOk (cur : option (sequence A)) (seqs closed : list (sequence A)) : Prop := {
    lo_cur : forall c, cur = Some c -> filled c /\ isClosed c = false;
    lo_seqs : Forall filled seqs;
    lo_closed : Forall (fun s => isClosed s = true) closed
  }.

  Lemma finish_ok c closed seqs cur' closed' : finish c closed = (cur', closed') -> filled c -> Forall filled seqs ->
    Forall (fun s => isClosed s = true) closed -> loopOk cur' seqs closed'.
  Proof.
    unfold RingModel.finish. destruct (isClosed c) eqn:C; intros E F S K; injection E as <- <-; split; auto.
    - discriminate.
    - apply Forall_app. split; auto.
    - intros x X. injection X as <-. auto.
  Qed.

  Lemma Forall_removelast {B} (P : B -> Prop) l : Forall P l -> Forall P (removelast l).
  Proof.
    induction 1 as [|x l H1 H2 IH]; [constructor|]. destruct l; cbn [removelast]; [constructor|]. constructor; auto.
  Qed.
  Lemma Forall_last {B} (P : B -> Prop) l d : Forall P l -> l <> [] -> P (last l d).
  Proof.
    induction 1 as [|x l H1 H2 IH]; intros N; [contradiction|]. destruct l; [exact H1|]. apply IH. discriminate.
  Qed.

  Section WithR.
    Variable R : A -> A -> Prop.
    Hypothesis ER : Equivalence R.
    Hypothesis same_R : forall a b, same a b = true -> R a b.

    Lemma tryAdd_filled s o s' : tryAdd s o = Ok (Some s') -> filled s'.
    Proof using ER same_R. intros H. apply (tryAdd_edges same R ER same_R) in H. apply H. Qed.

    Lemma finish_edges c closed cur' closed' : finish c closed = (cur', closed') ->
      Permutation (optEdges cur' ++ edgesOf closed') (edges (scoords c) ++ edgesOf closed).
    Proof.
      unfold RingModel.finish. destruct (isClosed c); intros E; injection E as <- <-; cbn [optEdges app]; auto.
      unfold edgesOf. rewrite flat_map_app. cbn [flat_map]. rewrite app_nil_r. apply Permutation_app_comm.
    Qed.

    Lemma ringLoop_main fuel : forall cur seqs closed, length seqs <= fuel -> loopOk cur seqs closed ->
      exists r, ringLoop fuel cur seqs closed = Some (Ok r) /\
      (forall rings left, r = Some (rings, left) ->
         loopOk left [] rings /\
         sameEdges R (optEdges left ++ edgesOf rings) (optEdges cur ++ edgesOf seqs ++ edgesOf closed)).
    Proof using ER same_R.
      induction fuel as [|fuel IH]; intros cur seqs closed L O; destruct seqs as [|s0 seqs0]; cbn [RingModel.ringLoop].
      - eexists. split; [reflexivity|]. intros rings left E. injection E as <- <-. split; auto. apply same_refl; auto.
      - cbn [length] in L. lia.
      - eexists. split; [reflexivity|]. intros rings left E. injection E as <- <-. split; auto. apply same_refl; auto.
      - set (seqs := s0 :: seqs0) in *. assert (NE : seqs <> []) by discriminate.
        destruct O as [OC OS OK]. destruct cur as [c|].
        + destruct (OC c eq_refl) as [FC NC].
          destruct (joinFirst_defined c seqs FC OS) as ([[c' rest]|] & J); rewrite J.
          * apply joinFirst_some in J as (b & s & a & E & -> & T & _).
            destruct (finish c' closed) as [cur' closed'] eqn:Fi.
            rewrite E in OS, L. apply Forall_app in OS as [OB OS]. inversion OS as [|? ? OS1 OA]; subst.
            rewrite app_length in L. cbn [length] in L.
            assert (LO : loopOk cur' (b ++ a) closed').
            { eapply finish_ok; eauto; [eapply tryAdd_filled; eauto|]. apply Forall_app; auto. }
            destruct (IH cur' (b ++ a) closed') as (r & Er & Sp); [rewrite app_length; lia|auto|].
            exists r. split; auto. intros rings left Hr. destruct (Sp rings left Hr) as [L1 L2]. split; auto.
            eapply same_trans; [exact L2|].
            apply (tryAdd_edges same R ER same_R) in T as (T & _).
            apply finish_edges in Fi. rewrite E. cbn [optEdges].
            eapply same_trans; [apply same_perm; [exact ER|]|].
            { rewrite (Permutation_app_comm (edgesOf (b ++ a))). rewrite app_assoc. rewrite Fi. reflexivity. }
            eapply same_trans; [apply same_app; [exact ER|apply same_app; [exact ER|exact T|apply same_refl; exact ER]|apply same_refl; exact ER]|].
            apply same_perm; auto. unfold edgesOf. rewrite !flat_map_app. cbn [flat_map].
            rewrite <- !app_assoc. apply Permutation_app_head.
            rewrite (Permutation_app_comm (flat_map _ closed)). rewrite <- !app_assoc.
            rewrite !app_assoc. apply Permutation_app_tail. rewrite <- !app_assoc.
            rewrite !app_assoc. apply Permutation_app_tail. apply Permutation_app_comm.
          * eexists. split; [reflexivity|]. discriminate.
        + destruct (finish (last seqs s0) closed) as [cur' closed'] eqn:Fi.
          assert (LO : loopOk cur' (removelast seqs) closed').
          { eapply finish_ok; eauto; [apply (Forall_last filled)|apply Forall_removelast]; auto. }
          destruct (IH cur' (removelast seqs) closed') as (r & Er & Sp).
          { rewrite (split_last seqs s0 NE), app_length in L. cbn [length] in L. lia. }
          { auto. }
          exists r. split; auto. intros rings left Hr. destruct (Sp rings left Hr) as [L1 L2]. split; auto.
          eapply same_trans; [exact L2|]. apply same_perm; auto. cbn [optEdges app].
          apply finish_edges in Fi.
          rewrite Permutation_app_swap_app, Fi, app_assoc.
          replace (edgesOf seqs) with (edgesOf (removelast seqs) ++ edges (scoords (last seqs s0))); [reflexivity|].
          rewrite (split_last seqs s0 NE) at 3. unfold edgesOf. rewrite flat_map_app. cbn [flat_map]. rewrite app_nil_r. reflexivity.
    Qed.
  End WithR.
End Loop.

(** * Parity of the ends *)

Section Parity.
  Context {A : Type} (same : A -> A -> bool) (EQ : equivalence same).
  Notation tryAdd := (tryAdd same).
  Notation joinFirst := (joinFirst same).
  Notation ringLoop := (ringLoop same).
  Notation isClosed := (isClosed same).
  Notation finish := (finish same).

  Definition oddAt (c : A) (l : list A) : bool := fold_right xorb false (map (same c) l).
  Definition long (s : sequence A) : Prop := 2 <= length (scoords s).

  Lemma oddAt_app c l l' : oddAt c (l ++ l') = xorb (oddAt c l) (oddAt c l').
  Proof.
    unfold oddAt. induction l as [|x l IH]; cbn [app map fold_right]; [destruct (fold_right _ _ _); reflexivity|].
    rewrite IH. symmetry. apply xorb_assoc_reverse.
  Qed.
  Lemma oddAt_perm c l l' : Permutation l l' -> oddAt c l = oddAt c l'.
  Proof.
    induction 1 as [|x l l' P IH|x y l|l l' l'' P1 IH1 P2 IH2]; unfold oddAt in *; cbn [map fold_right]; auto; try congruence.
    destruct (same c x), (same c y), (fold_right xorb false (map (same c) l)); reflexivity.
  Qed.
  Lemma oddAt_degree c seqs : oddAt c (flat_map endsOf seqs) = Nat.odd (degree same c seqs).
  Proof.
    unfold degree, oddAt. induction (flat_map endsOf seqs) as [|x l IH]; [reflexivity|].
    cbn [map fold_right List.filter]. rewrite IH. destruct (same c x); cbn [length]; [|destruct (Nat.odd _); reflexivity].
    rewrite Nat.odd_succ, <- Nat.negb_odd. destruct (Nat.odd _); reflexivity.
  Qed.

  Lemma same_sub a b c : same a b = true -> same c a = same c b.
  Proof.
    intros H. destruct (same c a) eqn:X, (same c b) eqn:Y; auto.
    - rewrite (eqv_trans _ EQ c a b X H) in Y. discriminate.
    - apply (eqv_sym _ EQ) in H. rewrite (eqv_trans _ EQ c b a Y H) in X. discriminate.
  Qed.

  Lemma ends_cons (f : A) l i : endsOf (mkSeq i (f :: l)) = [f; last (f :: l) f].
  Proof. reflexivity. Qed.

  Lemma tryAdd_ends c s o s' : tryAdd s o = Ok (Some s') ->
    oddAt c (endsOf s') = xorb (oddAt c (endsOf s)) (oddAt c (endsOf o)).
  Proof.
    unfold RingModel.tryAdd. destruct s as [i sc], o as [j oc]. cbn [scoords sid].
    destruct sc as [|sf sc]; [discriminate|]. destruct oc as [|f oc]; [discriminate|].
    rewrite !ends_cons.
    set (S := sf :: sc). set (O := f :: oc).
    assert (SN : S <> []) by discriminate. assert (ON : O <> []) by discriminate.
    set (sl := last S sf). set (ol := last O f).
    assert (ES : S = removelast S ++ [sl]) by (apply split_last; auto).
    assert (EO : O = removelast O ++ [ol]) by (apply split_last; auto).
    (** The ends of a list that starts with [x] and ends with [y]. *)
    assert (G : forall l x y, l <> [] -> (forall d, last l d = y) -> (exists t, l = x :: t) ->
      oddAt c (endsOf (mkSeq i l)) = xorb (same c x) (same c y)).
    { intros l x y N L (t & ->). rewrite ends_cons, L. unfold oddAt. cbn [map fold_right].
      destruct (same c x), (same c y); reflexivity. }
    assert (H2 : forall a b, oddAt c [a; b] = xorb (same c a) (same c b)).
    { intros a b. unfold oddAt. cbn [map fold_right]. destruct (same c a), (same c b); reflexivity. }
    rewrite !H2.
    destruct (same sl f) eqn:C1; [|destruct (same sl ol) eqn:C2; [|destruct (same sf ol) eqn:C3; [|destruct (same sf f) eqn:C4; [|discriminate]]]];
      intros E; apply okSome_inj in E; subst s'.
    - assert (X : exists x t, removelast S ++ O = x :: t /\ same c x = same c sf).
      { destruct sc as [|y sc].
        - exists f, oc. split; auto. symmetry. apply same_sub. exact C1.
        - exists sf, (removelast (y :: sc) ++ O). split; auto. }
      destruct X as (x & t & Ex & Sx). rewrite (G _ x ol).
      + rewrite Sx, (same_sub _ _ c C1). destruct (same c sf), (same c f), (same c ol); reflexivity.
      + rewrite Ex. discriminate.
      + intros d. rewrite last_app_ne by auto. apply last_irr; auto.
      + eauto.
    - destruct (last_snoc_rev O f ON) as (m & Em). fold ol in Em.
      assert (X : exists x t, removelast S ++ rev O = x :: t /\ same c x = same c sf).
      { destruct sc as [|y sc].
        - exists ol, m. split; auto. symmetry. apply same_sub. exact C2.
        - exists sf, (removelast (y :: sc) ++ rev O). split; auto. }
      destruct X as (x & t & Ex & Sx). rewrite (G _ x f).
      + rewrite Sx, (same_sub _ _ c C2). destruct (same c sf), (same c f), (same c ol); reflexivity.
      + rewrite Ex. discriminate.
      + intros d. rewrite last_app_ne; [apply last_rev|]. rewrite Em. discriminate.
      + eauto.
    - assert (X : exists y, (forall d, last (O ++ tl S) d = y) /\ same c y = same c sl).
      { destruct sc as [|y sc].
        - exists ol. split; [intros d; cbn [tl S]; rewrite app_nil_r; apply last_irr; auto|].
          symmetry. apply same_sub. exact C3.
        - exists sl. split; auto. intros d. rewrite last_app_ne by discriminate.
          change (last (y :: sc) d = last (y :: sc) sf). apply last_irr. discriminate. }
      destruct X as (y & Ly & Sy). rewrite (G _ f y).
      + rewrite Sy, (same_sub _ _ c C3). destruct (same c sl), (same c f), (same c ol); reflexivity.
      + discriminate.
      + exact Ly.
      + exists (oc ++ tl S). reflexivity.
    - destruct (last_snoc_rev O f ON) as (m & Em). fold ol in Em.
      assert (X : exists y, (forall d, last (rev O ++ tl S) d = y) /\ same c y = same c sl).
      { destruct sc as [|y sc].
        - exists f. split; [intros d; cbn [tl S]; rewrite app_nil_r; apply last_rev|].
          symmetry. apply same_sub. exact C4.
        - exists sl. split; auto. intros d. rewrite last_app_ne by discriminate.
          change (last (y :: sc) d = last (y :: sc) sf). apply last_irr. discriminate. }
      destruct X as (y & Ly & Sy). rewrite (G _ ol y).
      + rewrite Sy, (same_sub _ _ c C4). destruct (same c sl), (same c f), (same c ol); reflexivity.
      + rewrite Em. discriminate.
      + exact Ly.
      + rewrite Em. exists (m ++ tl S). reflexivity.
  Qed.

  Lemma tryAdd_long s o s' : tryAdd s o = Ok (Some s') -> long s -> long o -> long s'.
  Proof.
    unfold RingModel.tryAdd, long. destruct s as [i sc], o as [j oc]. cbn [scoords sid].
    destruct sc as [|sf sc]; [discriminate|]. destruct oc as [|f oc]; [discriminate|].
    intros H L1 L2.
    assert (RL : length (removelast (sf :: sc)) = length sc).
    { rewrite (split_last (sf :: sc) sf) in L1 |- * by discriminate.
      assert (Q := f_equal (@length A) (split_last (sf :: sc) sf ltac:(discriminate))).
      rewrite app_length in Q. cbn [length] in Q. rewrite removelast_last. lia. }
    repeat (match type of H with context [if ?b then _ else _] => destruct b end); try discriminate;
      apply okSome_inj in H; subst s'; cbn [scoords tl];
      rewrite app_length; rewrite ?rev_length; cbn [length] in *; lia.
  Qed.

  (** A sequence that shares the last point can be added. *)
  Lemma tryAdd_found s o e : long s -> In e (endsOf o) -> (forall f, hd_error (scoords s) = Some f -> same (last (scoords s) f) e = true) ->
    tryAdd s o <> Ok None.
  Proof.
    unfold RingModel.tryAdd, long. destruct s as [i sc], o as [j oc]. cbn [scoords sid endsOf].
    destruct sc as [|sf sc]; [cbn [length]; lia|]. destruct oc as [|f oc]; [contradiction|].
    intros _ I H. specialize (H sf eq_refl).
    destruct I as [<-|[<-|[]]].
    - rewrite H. discriminate.
    - destruct (same (last (sf :: sc) sf) f); [discriminate|]. cbn [endsOf scoords] in H. rewrite H. discriminate.
  Qed.

  Definition optEnds (c : option (sequence A)) : list A := match c with None => [] | Some s => endsOf s end.

  Lemma closed_even c s : isClosed s = true -> oddAt c (endsOf s) = false.
  Proof.
    unfold RingModel.isClosed, endsOf. destruct (scoords s) as [|f [|x l]]; try discriminate.
    intros H. unfold oddAt. cbn [map fold_right]. rewrite <- (same_sub _ _ c H). destruct (same c f); reflexivity.
  Qed.
  Lemma finish_ends c s closed cur' closed' : finish s closed = (cur', closed') -> oddAt c (optEnds cur') = oddAt c (endsOf s).
  Proof.
    unfold RingModel.finish. destruct (isClosed s) eqn:C; intros E; injection E as <- <-; auto.
    rewrite closed_even by auto. reflexivity.
  Qed.
  Lemma finish_long s closed cur' closed' c : finish s closed = (cur', closed') -> long s -> cur' = Some c -> long c.
  Proof. unfold RingModel.finish. destruct (isClosed s); intros E; injection E as <- <-; intros H E; [discriminate|]. injection E as <-. auto. Qed.

  Lemma ringLoop_parity fuel : forall cur seqs closed rings left,
    ringLoop fuel cur seqs closed = Some (Ok (Some (rings, left))) ->
    (forall c, cur = Some c -> long c) -> Forall long seqs ->
    (forall c, oddAt c (optEnds left) = oddAt c (optEnds cur ++ flat_map endsOf seqs)) /\
    (forall c, left = Some c -> long c).
  Proof.
    induction fuel as [|fuel IH]; intros cur seqs closed rings left H LC LS;
      destruct seqs as [|s0 seqs0]; cbn [RingModel.ringLoop] in H.
    - injection H as <- <-. split; auto. intros c. cbn [flat_map]. rewrite app_nil_r. reflexivity.
    - discriminate.
    - injection H as <- <-. split; auto. intros c. cbn [flat_map]. rewrite app_nil_r. reflexivity.
    - set (seqs := s0 :: seqs0) in *. assert (NE : seqs <> []) by discriminate.
      destruct cur as [c0|].
      + destruct (joinFirst c0 seqs) as [[[c' rest]|]| |] eqn:J; try discriminate.
        apply joinFirst_some in J as (b & s & a & E & -> & T & _).
        destruct (finish c' closed) as [cur' closed'] eqn:Fi.
        rewrite E in LS. apply Forall_app in LS as [LB LS]. inversion LS as [|? ? L1 LA]; subst x l.
        destruct (IH _ _ _ _ _ H) as [P Q].
        { intros c Hc. eapply finish_long; eauto. eapply tryAdd_long; eauto. }
        { apply Forall_app; auto. }
        split; auto. intros c. rewrite P, !oddAt_app, (finish_ends c _ _ _ _ Fi), (tryAdd_ends c _ _ _ T), E.
        rewrite !flat_map_app. cbn [flat_map optEnds]. rewrite !oddAt_app.
        destruct (oddAt c (endsOf c0)), (oddAt c (endsOf s)), (oddAt c (flat_map endsOf b)), (oddAt c (flat_map endsOf a)); reflexivity.
      + destruct (finish (last seqs s0) closed) as [cur' closed'] eqn:Fi.
        destruct (IH _ _ _ _ _ H) as [P Q].
        { intros c Hc. eapply finish_long; eauto. apply (Forall_last long); auto. }
        { apply Forall_removelast; auto. }
        split; auto. intros c. rewrite P, oddAt_app, (finish_ends c _ _ _ _ Fi). cbn [optEnds app].
        rewrite (split_last seqs s0 NE) at 3. rewrite flat_map_app, oddAt_app. cbn [flat_map]. rewrite app_nil_r.
        apply xorb_comm.
  Qed.

  Lemma ringLoop_even fuel : forall cur seqs closed, length seqs <= fuel ->
    (forall c, cur = Some c -> long c /\ isClosed c = false) -> Forall long seqs ->
    (forall c, oddAt c (optEnds cur ++ flat_map endsOf seqs) = false) ->
    exists rings, ringLoop fuel cur seqs closed = Some (Ok (Some (rings, None))).
  Proof.
    assert (Open : forall c f, long c -> isClosed c = false -> hd_error (scoords c) = Some f ->
      oddAt (last (scoords c) f) (endsOf c) = true).
    { intros c f L C Hf. unfold long, RingModel.isClosed, endsOf in *. destruct (scoords c) as [|g [|x l]]; cbn [length] in L; try lia.
      cbn [hd_error] in Hf. injection Hf as <-. unfold oddAt. cbn [map fold_right].
      rewrite (eqv_refl _ EQ). destruct (same (last (g :: x :: l) g) g) eqn:X; [|reflexivity].
      apply (eqv_sym _ EQ) in X. congruence. }
    assert (End : forall c, long c /\ isClosed c = false -> (forall x, oddAt x (optEnds (Some c) ++ flat_map endsOf []) = false) -> False).
    { intros c [Lc Cc] EV. assert (X : exists f, hd_error (scoords c) = Some f).
      { unfold long in Lc. destruct (scoords c); [cbn [length] in Lc; lia|eexists; reflexivity]. }
      destruct X as (f & Hf). assert (Q := Open c f Lc Cc Hf). specialize (EV (last (scoords c) f)).
      cbn [flat_map optEnds] in EV. rewrite app_nil_r in EV. congruence. }
    induction fuel as [|fuel IH]; intros cur seqs closed L OC LS EV; destruct seqs as [|s0 seqs0]; cbn [RingModel.ringLoop];
      try (cbn [length] in L; lia).
    1, 2: destruct cur as [c|]; [|eauto]; exfalso; apply (End c); [apply OC; reflexivity|exact EV].
    set (seqs := s0 :: seqs0) in *. assert (NE : seqs <> []) by discriminate.
    destruct cur as [c0|].
    - destruct (OC c0 eq_refl) as [Lc Cc].
      assert (FS : Forall filled seqs).
      { eapply Forall_impl; [|exact LS]. intros s Hs. unfold long, filled in *. destruct (scoords s); [cbn [length] in Hs; lia|discriminate]. }
      destruct (joinFirst_defined same c0 seqs) as ([[c' rest]|] & J); auto.
      { unfold long, filled in *. destruct (scoords c0); [cbn [length] in Lc; lia|discriminate]. }
      + rewrite J. apply joinFirst_some in J as (b & s & a & E & -> & T & _).
        destruct (finish c' closed) as [cur' closed'] eqn:Fi.
        rewrite E in LS, L. apply Forall_app in LS as [LB LS]. inversion LS as [|? ? L1 LA]; subst x l.
        rewrite app_length in L. cbn [length] in L.
        apply IH.
        * rewrite app_length. lia.
        * intros c Hc. split; [eapply finish_long; eauto; eapply tryAdd_long; eauto|].
          unfold RingModel.finish in Fi. destruct (isClosed c') eqn:K; injection Fi as <- <-; [discriminate|]. injection Hc as <-. auto.
        * apply Forall_app; auto.
        * intros c. specialize (EV c). rewrite E in EV. rewrite !flat_map_app, !oddAt_app in *. cbn [flat_map optEnds] in EV. rewrite !oddAt_app in EV.
          rewrite (finish_ends c _ _ _ _ Fi), (tryAdd_ends c _ _ _ T).
          destruct (oddAt c (endsOf c0)), (oddAt c (endsOf s)), (oddAt c (flat_map endsOf b)), (oddAt c (flat_map endsOf a)); auto.
      + exfalso. apply joinFirst_none in J.
        assert (X : exists f, hd_error (scoords c0) = Some f).
        { unfold long in Lc. destruct (scoords c0); [cbn [length] in Lc; lia|eexists; reflexivity]. }
        destruct X as (f & Hf). assert (Q := Open c0 f Lc Cc Hf). set (e := last (scoords c0) f) in *.
        specialize (EV e). rewrite oddAt_app in EV. cbn [optEnds] in EV. rewrite Q in EV.
        destruct (oddAt e (flat_map endsOf seqs)) eqn:O; [|discriminate].
        assert (Y : exists x, In x (flat_map endsOf seqs) /\ same e x = true).
        { revert O. unfold oddAt. induction (flat_map endsOf seqs) as [|y l IHl]; cbn [map fold_right]; [discriminate|].
          destruct (same e y) eqn:S; [intros _; exists y; split; [left|]; auto|].
          rewrite xorb_false_l. intros O. destruct (IHl O) as (x & X1 & X2). exists x. split; [right|]; auto. }
        destruct Y as (x & X1 & X2). apply in_flat_map in X1 as (s & S1 & S2).
        rewrite Forall_forall in J. apply (tryAdd_found c0 s x Lc S2); auto.
        intros g Hg. rewrite Hf in Hg. injection Hg as <-. exact X2.
    - destruct (finish (last seqs s0) closed) as [cur' closed'] eqn:Fi. apply IH.
      + rewrite (split_last seqs s0 NE), app_length in L. cbn [length] in L. lia.
      + intros c Hc. split; [eapply finish_long; eauto; apply (Forall_last long); auto|].
        unfold RingModel.finish in Fi. destruct (isClosed (last seqs s0)) eqn:K; injection Fi as <- <-; [discriminate|]. injection Hc as <-. auto.
      + apply Forall_removelast; auto.
      + intros c. specialize (EV c). cbn [optEnds app] in EV. rewrite oddAt_app, (finish_ends c _ _ _ _ Fi).
        rewrite (split_last seqs s0 NE) in EV. rewrite flat_map_app, oddAt_app in EV. cbn [flat_map] in EV. rewrite app_nil_r in EV.
        rewrite xorb_comm. exact EV.
  Qed.
End Parity.

(** * Outer and inner rings *)

Section Fill.
  Context {A : Type} (same : A -> A -> bool) (clockwise : list A -> bool) (inside : A -> list A -> bool).
  Notation containsRing := (containsRing inside).
  Notation findOuter := (findOuter inside).
  Notation findInners := (findInners inside).
  Notation fillRelation := (fillRelation same clockwise inside).

  Lemma findOuter_some after : forall before c rest, findOuter before after = Some (c, rest) ->
    Permutation (rev before ++ after) (c :: rest) /\ (forall o, In o rest -> containsRing o c = false).
  Proof.
    induction after as [|x after IH]; intros before c rest; cbn [RingModel.findOuter]; [discriminate|].
    destruct (existsb _ _) eqn:E.
    - intros H. apply IH in H as [P Q]. cbn [rev] in P. rewrite <- app_assoc in P. auto.
    - intros H. injection H as <- <-. split; [symmetry; apply Permutation_middle|].
      intros o O. destruct (containsRing o x) eqn:X; auto. rewrite <- E. symmetry. apply existsb_exists. eauto.
  Qed.
  Lemma findOuter_none after : forall before, findOuter before after = None ->
    forall c, In c after -> exists o, In o (rev before ++ after) /\ containsRing o c = true.
  Proof.
    induction after as [|x after IH]; intros before; cbn [RingModel.findOuter]; [contradiction|].
    destruct (existsb _ _) eqn:E; [|discriminate]. intros H c [<-|C].
    - apply existsb_exists in E as (o & O & X). exists o. split; auto. apply in_app_or in O as [O|O]; apply in_or_app; [left|right; right]; auto.
    - destruct (IH _ H c C) as (o & O & X). exists o. split; auto. cbn [rev] in O. rewrite <- app_assoc in O. exact O.
  Qed.

  Lemma findInners_spec outer after : forall before inn rest, findInners outer before after = (inn, rest) ->
    Permutation (rev before ++ after) (inn ++ rest) /\ Forall (fun i => containsRing outer i = true) inn.
  Proof.
    induction after as [|x after IH]; intros before inn rest; cbn [RingModel.findInners].
    - intros H. injection H as <- <-. rewrite app_nil_r. auto.
    - destruct (containsRing outer x && _) eqn:E.
      + destruct (findInners outer before after) as [i r] eqn:F. intros H. injection H as <- <-.
        destruct (IH _ _ _ F) as [P Q]. apply andb_prop in E as [E _]. split; [|constructor; auto].
        rewrite <- Permutation_middle. cbn [app]. constructor. exact P.
      + intros H. apply IH in H as [P Q]. cbn [rev] in P. rewrite <- app_assoc in P. auto.
  Qed.

  (** Where the points of a polygon around a point can be. *)
  Variable above : A -> A -> bool.
  Hypothesis above_irr : forall a, above a a = false.
  Hypothesis above_trans : forall a b c, above a b = true -> above b c = true -> above a c = true.
  Hypothesis inside_above : forall p l, inside p l = true -> exists q, In q l /\ above p q = true.

  Lemma top l : l <> [] -> exists p, In p l /\ forall q, In q l -> above p q = false.
  Proof.
    induction l as [|a l IH]; [contradiction|]. intros _. destruct l as [|b l].
    - exists a. split; [left; auto|]. intros q [<-|[]]. auto.
    - destruct IH as (p & P & Q); [discriminate|]. destruct (above p a) eqn:X.
      + exists a. split; [left; auto|]. intros q [<-|Hq]; auto. destruct (above a q) eqn:Y; auto.
        rewrite <- (Q q Hq). symmetry. eapply above_trans; eauto.
      + exists p. split; [right; auto|]. intros q [<-|Hq]; auto.
  Qed.

  Lemma findOuter_found rings : rings <> [] -> Forall filled rings -> findOuter [] rings <> None.
  Proof.
    intros NE F H. assert (N := findOuter_none rings [] H). cbn [rev app] in N.
    destruct (top (flat_map scoords rings)) as (p & P & Q).
    - destruct rings as [|r rings]; [contradiction|]. inversion F as [|? ? F1 _]; subst. unfold filled in F1. cbn [flat_map].
      destruct (scoords r); [contradiction|discriminate].
    - apply in_flat_map in P as (c & C & P). destruct (N c C) as (o & O & X).
      unfold RingModel.containsRing in X. rewrite forallb_forall in X. destruct (inside_above p (scoords o) (X p P)) as (q & Q1 & Q2).
      rewrite Q in Q2; [discriminate|]. apply in_flat_map. eauto.
  Qed.

  (** How an area comes from a ring. *)
  Definition areaFor (g : bool * sequence A) (a : ringArea) : Prop :=
    isOuter a = fst g /\ ringId a = (if fst g then sid (snd g) else 0%N) /\
    insertCoordinates same clockwise (scoords (snd g)) (fst g) = Ok (ringCoords a).

  Lemma makeArea_filled b s : filled s -> exists a, makeArea same clockwise b s = Ok a /\ areaFor (b, s) a.
  Proof.
    unfold filled, makeArea, areaFor, insertCoordinates. cbn [fst snd]. intros F. destruct (scoords s) as [|f l]; [contradiction|].
    destruct (Bool.eqb b _); (eexists; split; [reflexivity|]; cbn; auto).
  Qed.
  Lemma makeAll_filled b l : Forall filled l -> exists as_, makeAll same clockwise b l = Ok as_ /\ Forall2 areaFor (map (pair b) l) as_.
  Proof.
    induction 1 as [|s l H1 H2 IH]; cbn [makeAll map]; [eexists; split; [reflexivity|constructor]|].
    destruct (makeArea_filled b s H1) as (a & -> & Ha). destruct IH as (as_ & -> & Has). cbn [bind omap].
    eexists; split; [reflexivity|constructor; auto].
  Qed.

  Lemma fillRelation_spec fuel : forall rings, length rings <= fuel -> Forall filled rings ->
    exists areas groups, fillRelation fuel rings = Some (Ok areas) /\
      Permutation rings (flat_map (fun g => fst g :: snd g) groups) /\
      Forall (fun g => Forall (fun i => containsRing (fst g) i = true) (snd g)) groups /\
      Forall2 areaFor (flat_map (fun g => (true, fst g) :: map (pair false) (snd g)) groups) areas.
  Proof.
    induction fuel as [|fuel IH]; intros rings L F; destruct rings as [|r0 rings0]; cbn [RingModel.fillRelation].
    - exists [], []. repeat split; auto. constructor.
    - cbn [length] in L. lia.
    - exists [], []. repeat split; auto. constructor.
    - set (rings := r0 :: rings0) in *.
      destruct (findOuter [] rings) as [[outer rest]|] eqn:O.
      2: { exfalso. apply (findOuter_found rings); auto. discriminate. }
      apply findOuter_some in O as [P _]. cbn [rev app] in P.
      destruct (findInners outer [] rest) as [inn rest'] eqn:I. apply findInners_spec in I as [P2 C]. cbn [rev app] in P2.
      assert (F1 := Permutation_Forall P F). inversion F1 as [|? ? F2 F3]; subst x l.
      assert (F4 := Permutation_Forall P2 F3). apply Forall_app in F4 as [F5 F6].
      destruct (makeArea_filled true outer F2) as (a & -> & Ha).
      destruct (makeAll_filled false inn F5) as (is_ & -> & Hi).
      assert (LL := Permutation_length P). assert (LL2 := Permutation_length P2). rewrite app_length in LL2. cbn [length] in LL.
      destruct (IH rest') as (areas & groups & -> & P3 & G & F7); [lia|auto|].
      exists (a :: is_ ++ areas), ((outer, inn) :: groups). cbn [flat_map fst snd]. repeat split.
      + rewrite P, P2, P3. rewrite <- app_comm_cons. reflexivity.
      + constructor; auto.
      + rewrite <- app_comm_cons. constructor; auto. apply Forall2_app; auto.
  Qed.

  (** ** At most two levels *)
  Lemma findInners_kept outer after : forall before inn rest c, findInners outer before after = (inn, rest) -> In c rest ->
    In c (rev before) \/ containsRing outer c = false \/ exists r, In r (inn ++ rest) /\ containsRing r c = true.
  Proof using.
    induction after as [|x after IH]; intros before inn rest c; cbn [RingModel.findInners].
    - intros H. injection H as <- <-. auto.
    - destruct (containsRing outer x && _) eqn:E.
      + destruct (findInners outer before after) as [i r] eqn:F. intros H C. injection H as <- <-.
        destruct (IH _ _ _ _ F C) as [X|[X|(y & Y & X)]]; auto. right; right. exists y. split; auto. right. auto.
      + intros H C. destruct (findInners_spec _ _ _ _ _ H) as [P _].
        destruct (IH _ _ _ _ H C) as [X|[X|X]]; auto. cbn [rev] in X. apply in_app_or in X as [X|[<-|[]]]; auto.
        right. apply andb_false_iff in E as [E|E]; auto. right. rewrite negb_false_iff in E. apply existsb_exists in E as (o & O & E).
        exists o. split; auto. eapply Permutation_in; [exact P|]. cbn [rev]. rewrite <- app_assoc.
        apply in_app_or in O as [O|O]; apply in_or_app; [left|right; right]; auto.
  Qed.

  Lemma fillRelation_levels (all : list (sequence A)) :
    (forall a b c, In a all -> In b all -> In c all -> containsRing a b = true -> containsRing b c = false) ->
    forall fuel rings, length rings <= fuel -> Forall filled rings -> incl rings all ->
    (forall c o, In c rings -> In o all -> containsRing o c = true -> exists o', In o' rings /\ containsRing o' c = true) ->
    exists areas groups, fillRelation fuel rings = Some (Ok areas) /\
      Permutation rings (flat_map (fun g => fst g :: snd g) groups) /\
      Forall (fun g => Forall (fun i => containsRing (fst g) i = true) (snd g)) groups /\
      Forall (fun g => forall o, In o all -> containsRing o (fst g) = false) groups /\
      Forall2 areaFor (flat_map (fun g => (true, fst g) :: map (pair false) (snd g)) groups) areas.
  Proof.
    intros TWO.
    induction fuel as [|fuel IH]; intros rings L F IN INV; destruct rings as [|r0 rings0]; cbn [RingModel.fillRelation].
    - exists [], []. repeat split; auto. constructor.
    - cbn [length] in L. lia.
    - exists [], []. repeat split; auto. constructor.
    - set (rings := r0 :: rings0) in *.
      destruct (findOuter [] rings) as [[outer rest]|] eqn:O.
      2: { exfalso. apply (findOuter_found rings); auto. discriminate. }
      apply findOuter_some in O as [P NO]. cbn [rev app] in P.
      destruct (findInners outer [] rest) as [inn rest'] eqn:I. assert (K := findInners_kept outer rest [] inn rest').
      assert (I' := I). apply findInners_spec in I as [P2 C]. cbn [rev app] in P2.
      assert (F1 := Permutation_Forall P F). inversion F1 as [|? ? F2 F3]; subst x l.
      assert (F4 := Permutation_Forall P2 F3). apply Forall_app in F4 as [F5 F6].
      assert (INo : In outer all) by (apply IN; eapply Permutation_in; [symmetry; exact P|left; auto]).
      assert (INr : incl (inn ++ rest') rings).
      { intros x X. eapply Permutation_in; [symmetry; exact P|]. right. eapply Permutation_in; [symmetry; exact P2|]. auto. }
      assert (Top : forall o, In o all -> containsRing o outer = false).
      { intros o Ho. destruct (containsRing o outer) eqn:X; auto.
        destruct (INV outer o) as (o' & O1 & O2); auto; [eapply Permutation_in; [symmetry; exact P|left; auto]|].
        apply (Permutation_in _ P) in O1 as [<-|O1]; [|rewrite NO in O2; auto].
        rewrite <- O2. apply (TWO outer outer outer); auto. }
      destruct (makeArea_filled true outer F2) as (a & -> & Ha).
      destruct (makeAll_filled false inn F5) as (is_ & -> & Hi).
      assert (LL := Permutation_length P). assert (LL2 := Permutation_length P2). rewrite app_length in LL2. cbn [length] in LL.
      destruct (IH rest') as (areas & groups & -> & P3 & G & G2 & F7); [lia|auto| | |].
      { intros x X. apply IN, INr. apply in_or_app. auto. }
      { intros c o Hc Ho X.
        assert (Cin : In c all) by (apply IN, INr, in_or_app; auto).
        assert (Inn : forall y, In y inn -> containsRing y c = false).
        { intros y Y. rewrite Forall_forall in C. apply (TWO outer y c); auto. apply IN, INr, in_or_app. auto. }
        destruct (INV c o) as (o' & O1 & O2); auto; [apply INr, in_or_app; auto|].
        apply (Permutation_in _ P) in O1 as [<-|O1].
        - destruct (K c I' Hc) as [[]|[Y|(y & Y1 & Y2)]]; [congruence|].
          apply in_app_or in Y1 as [Y1|Y1]; [rewrite Inn in Y2 by auto; discriminate|eauto].
        - apply (Permutation_in _ P2), in_app_or in O1 as [O1|O1]; [rewrite Inn in O2 by auto; discriminate|eauto]. }
      exists (a :: is_ ++ areas), ((outer, inn) :: groups). cbn [flat_map fst snd]. repeat split.
      + rewrite P, P2, P3. rewrite <- app_comm_cons. reflexivity.
      + constructor; auto.
      + constructor; auto.
      + rewrite <- app_comm_cons. constructor; auto. apply Forall2_app; auto.
  Qed.
End Fill.

(** Over numbers: a point in a polygon has a corner above it. *)
Lemma crossings_found {T} (n : nums T) p l : forall j c, crossings n p j c l = true -> c = true \/
  exists q, In q (j :: l) /\ nlt n (plat p) (plat q) = true.
Proof.
  induction l as [|i l IH]; intros j c H; cbn [crossings] in H; [auto|].
  apply IH in H as [H|(q & Q & H)].
  - destruct (crosses n p i j) eqn:C; [|auto]. right. unfold crosses in C. apply andb_prop in C as [C _].
    destruct (nlt n (plat p) (plat i)) eqn:X; [exists i; split; [right; left|]; auto|].
    destruct (nlt n (plat p) (plat j)) eqn:Y; [exists j; split; [left|]; auto|]. discriminate.
  - right. exists q. split; [right|]; auto.
Qed.
Lemma last_in {A} (l : list A) d : l <> [] -> In (last l d) l.
Proof.
  induction l as [|x l IH]; intros H; [contradiction|]. destruct l; [left; auto|]. right. apply IH. discriminate.
Qed.
Lemma inside_corner {T} (n : nums T) p l : isPointInPolygon n p l = true ->
  exists q, In q l /\ nlt n (plat p) (plat q) = true.
Proof.
  unfold isPointInPolygon. destruct l as [|c l]; [discriminate|]. intros H.
  apply crossings_found in H as [H|(q & [<-|Q] & H)]; [discriminate| |eauto].
  exists (last (c :: l) c). split; auto. apply last_in. discriminate.
Qed.

(** * Area *)

Lemma last_skip {A} (l : list A) : forall a b, last (b :: l) a = last l b.
Proof. induction l as [|x l IH]; intros a b; [reflexivity|]. change (last (x :: l) a = last (x :: l) b). rewrite !IH. reflexivity. Qed.

Definition wedge (a b : point Q) : Q := (plon a * plat b - plon b * plat a)%Q.
Fixpoint chain (a : point Q) (l : list (point Q)) : Q :=
  match l with [] => 0%Q | b :: l' => (wedge a b + chain b l')%Q end.

Lemma areaFrom_chain l : forall p acc, (areaFrom exactNums p acc l == acc + chain p l)%Q.
Proof.
  induction l as [|q l IH]; intros p acc; cbn [areaFrom chain]; [ring|]. rewrite IH. cbn [exactNums nadd nsub nmul]. unfold wedge. ring.
Qed.
Lemma chain_app l : forall a b l', (chain a (l ++ b :: l') == chain a (l ++ [b]) + chain b l')%Q.
Proof.
  induction l as [|x l IH]; intros a b l'; cbn [app chain]; [ring|]. rewrite IH. ring.
Qed.
Lemma getArea_chain o l : (getArea exactNums (o :: l) == chain o l + wedge (last l o) o)%Q.
Proof.
  unfold getArea. rewrite areaFrom_chain. cbn [exactNums nzero chain].
  rewrite last_skip. ring.
Qed.
Lemma fan_chain o l : forall a, (fan o a l == chain a l + wedge (last l a) o + wedge o a)%Q.
Proof.
  induction l as [|b l IH]; intros a; cbn [fan chain].
  - cbn [last]. unfold wedge. ring.
  - rewrite IH, last_skip. unfold cross, wedge. ring.
Qed.
Lemma area_signed l : (getArea exactNums l == signedArea l)%Q.
Proof.
  destruct l as [|o [|a l]].
  - reflexivity.
  - rewrite getArea_chain. cbn. unfold wedge. ring.
  - rewrite getArea_chain. unfold signedArea. rewrite fan_chain. cbn [chain].
    rewrite last_skip. ring.
Qed.

(** The other direction. *)
Lemma chain_rev l : forall a, match rev (a :: l) with [] => True | b :: m => (chain b m == - chain a l)%Q end.
Proof.
  induction l as [|b l IH]; intros a; [cbn; reflexivity|].
  cbn [rev]. specialize (IH b). cbn [rev] in IH. destruct (rev l ++ [b]) as [|x m] eqn:E; [destruct (rev l); discriminate|].
  cbn [app]. assert (Q : m = [] /\ x = b \/ exists m', m = m' ++ [b]).
  { destruct (rev l) as [|y r]; cbn [app] in E; injection E as <- <-; [left; auto|right; eauto]. }
  destruct Q as [[-> ->]|(m' & ->)].
  - cbn [app chain] in *. rewrite <- IH || idtac. cbn [chain]. unfold wedge in *.
    assert (C0 : (chain b l == 0)%Q) by (cbn [chain] in IH; lra). rewrite C0. ring.
  - rewrite <- app_assoc. cbn [app]. rewrite chain_app, IH. cbn [chain]. unfold wedge. ring.
Qed.
Lemma area_rev l : (signedArea (rev l) == - signedArea l)%Q.
Proof.
  rewrite <- !area_signed. destruct l as [|a l]; [reflexivity|].
  assert (C := chain_rev l a). assert (L := last_rev l a). assert (E := last_snoc_rev (a :: l) a ltac:(discriminate)).
  destruct E as (m & E). rewrite E in *. rewrite !getArea_chain. rewrite C. specialize (L (last (a :: l) a)).
  assert (L2 : last m (last (a :: l) a) = a). { destruct m; [exact L|]. exact L. }
  rewrite L2, last_skip. unfold wedge. ring.
Qed.
(** Without the repeated point. *)
Lemma area_closed f m : (signedArea (f :: m ++ [f]) == signedArea (f :: m))%Q.
Proof.
  rewrite <- !area_signed, !getArea_chain. rewrite last_last. destruct m as [|x m].
  - cbn. unfold wedge. ring.
  - assert (E := split_last (x :: m) f ltac:(discriminate)). set (y := last (x :: m) f) in *. set (r := removelast (x :: m)) in *.
    rewrite E. rewrite <- app_assoc. cbn [app]. rewrite chain_app. cbn [chain]. unfold wedge. ring.
Qed.

Lemma isClockwise_exact l : isClockwise exactNums l = true <-> (signedArea l < 0)%Q.
Proof.
  unfold isClockwise. cbn [exactNums nlt nzero]. rewrite <- area_signed. rewrite negb_true_iff. split.
  - intros H. apply Qnot_le_lt. intros X. apply Qle_bool_iff in X. congruence.
  - intros H. destruct (Qle_bool 0 _) eqn:X; auto. apply Qle_bool_iff in X. exfalso. apply (Qlt_not_le _ _ H X).
Qed.
Lemma isClockwise_exact_false l : isClockwise exactNums l = false <-> (0 <= signedArea l)%Q.
Proof.
  split.
  - intros H. apply Qnot_lt_le. intros X. apply isClockwise_exact in X. congruence.
  - intros H. destruct (isClockwise exactNums l) eqn:X; auto. apply isClockwise_exact in X. exfalso. apply (Qlt_not_le _ _ X H).
Qed.

(** * Coordinates of the areas *)

Lemma insert_closed {A} (same : A -> A -> bool) clockwise f m e outer : same f e = true ->
  insertCoordinates same clockwise (f :: m ++ [e]) outer =
  Ok (if Bool.eqb outer (negb (clockwise (f :: m ++ [e]))) then f :: m else rev (f :: m)).
Proof.
  intros SE. unfold insertCoordinates. change (f :: m ++ [e]) with ((f :: m) ++ [e]). rewrite last_last, SE.
  destruct (Bool.eqb _ _); f_equal.
  - rewrite app_length. cbn [length]. replace (S (length m) + 1 - 1) with (length (f :: m)) by (cbn [length]; lia).
    rewrite firstn_app, Nat.sub_diag, firstn_all, app_nil_r. reflexivity.
  - rewrite rev_app_distr. reflexivity.
Qed.
