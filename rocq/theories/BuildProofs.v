(** Lemmas about building tiles and the mesh pool. *)
From Verif Require Import Base Bytes BytesProofs ElementModel MeshModel StyleModel BuildModel BuildSpec.
From Coq Require Import Permutation Sorted.
Local Open Scope nat_scope.

Lemma NoDup_end {A} (l : list A) x : NoDup l -> ~ In x l -> NoDup (l ++ [x]).
Proof.
  intros D H. apply NoDup_Add with (a := x) (l := l).
  - rewrite <- (app_nil_r l) at 1. apply Add_app.
  - auto.
Qed.
Lemma existsb_beqb name l : existsb (beqb name) l = true <-> In name l.
Proof.
  rewrite existsb_exists. split.
  - intros (x & H & E). apply beqb_eq in E as ->. auto.
  - intros H. exists name. split; auto. apply beqb_refl.
Qed.
Lemma existsb_id i l : existsb (N.eqb i) l = true <-> In i l.
Proof.
  rewrite existsb_exists. split.
  - intros (x & H & E). apply N.eqb_eq in E as ->. auto.
  - intros H. exists i. split; auto. apply N.eqb_refl.
Qed.

(** An element is not one of its own members. *)
Fixpoint weight (e : element) : nat :=
  match e with Relation _ _ es => S (list_sum (map weight es)) | _ => 0 end.
Lemma part_neq i t es x : In x es -> Relation i t es <> x.
Proof.
  intros H E. apply (f_equal weight) in E. cbn [weight] in E.
  assert (W : weight x <= list_sum (map weight es)).
  { clear E. induction es as [|e es IH]; [destruct H|]. cbn [map list_sum fold_right].
    change (fold_right Nat.add 0 (map weight es)) with (list_sum (map weight es)).
    destruct H as [->|H]; [lia|]. specialize (IH H). lia. }
  lia.
Qed.

Section B.
  Variable styleOf : element -> style.
  Variable factories : list bytes.

  Notation getBuilder := (getBuilder factories).
  Notation dispatch := (dispatch factories).
  Notation visitElement := (visitElement styleOf factories).
  Notation visit := (visit styleOf factories).

  (** An invariant of all visitors. *)
  Definition lifecycle (v : visitor) : Prop :=
    NoDup (vbuilders v) /\
    (forall name, ~ In name (vbuilders v) -> List.filter (about name) (vlog v) = []) /\
    (forall name, In name (vbuilders v) ->
       exists es, List.filter (about name) (vlog v) =
                  Create name (negb (existsb (beqb name) factories)) :: map (Visit name) es /\ es <> []).

  (** The same for one name while an element is dispatched. *)
  Lemma getBuilder_in v name : In name (vbuilders (getBuilder v name)).
  Proof.
    unfold BuildModel.getBuilder. destruct (existsb (beqb name) (vbuilders v)) eqn:E.
    - apply existsb_beqb; auto.
    - cbn. apply in_or_app. right; left; reflexivity.
  Qed.

  Lemma dispatch_lifecycle e v name : lifecycle v -> lifecycle (dispatch e v name).
  Proof.
    intros (D & O & I). unfold BuildModel.dispatch, BuildModel.getBuilder.
    destruct (existsb (beqb name) (vbuilders v)) eqn:E; cbn [vids vbuilders vlog].
    - apply existsb_beqb in E. split; [auto|split]; intros n Hn; cbn [vlog vbuilders] in *; rewrite filter_app; cbn [List.filter about].
      + rewrite O by auto. destruct (beqb name n) eqn:B; auto. apply beqb_eq in B as ->. contradiction.
      + destruct (I n Hn) as (es & Q & NE). rewrite Q. destruct (beqb name n) eqn:B.
        * apply beqb_eq in B as ->. exists (es ++ [e]). rewrite map_app. split; auto. destruct es; discriminate.
        * exists es. rewrite app_nil_r. auto.
    - assert (N1 : ~ In name (vbuilders v)).
      { intros H. apply existsb_beqb in H. congruence. }
      split; [|split].
      + cbn [vbuilders]. apply NoDup_end; auto.
      + intros n Hn. cbn [vbuilders vlog] in *. rewrite !filter_app. cbn [List.filter about].
        rewrite O by (intros H; apply Hn; apply in_or_app; auto).
        destruct (beqb name n) eqn:B; auto. apply beqb_eq in B as ->. exfalso. apply Hn. apply in_or_app. right; left; auto.
      + intros n Hn. cbn [vbuilders vlog] in *. rewrite !filter_app. cbn [List.filter about].
        apply in_app_or in Hn as [Hn|[<-|[]]].
        * destruct (I n Hn) as (es & Q & NE). exists es. rewrite Q. destruct (beqb name n) eqn:B; [|rewrite !app_nil_r; auto].
          apply beqb_eq in B as ->. contradiction.
        * rewrite O by auto. rewrite beqb_refl. exists [e]. split; [reflexivity|discriminate].
  Qed.

  Lemma fold_lifecycle {A} (f : visitor -> A -> visitor) :
    (forall v a, lifecycle v -> lifecycle (f v a)) -> forall l v, lifecycle v -> lifecycle (fold_left f l v).
  Proof. intros F. induction l as [|a l IH]; intros v H; cbn [fold_left]; auto. Qed.

  Lemma visitElement_lifecycle v e : lifecycle v -> lifecycle (visitElement v e).
  Proof.
    intros H. unfold BuildModel.visitElement. destruct (canBuild styleOf v e); auto.
    apply fold_lifecycle; [intros; apply dispatch_lifecycle; auto|]. destruct H as (D & O & I). repeat split; auto.
  Qed.
  Lemma visit_lifecycle v e : lifecycle v -> lifecycle (visit v e).
  Proof.
    intros H. unfold BuildModel.visit. destruct e as [| | |i [|t ts] es]; try apply visitElement_lifecycle; auto.
    apply fold_lifecycle; [intros; apply visitElement_lifecycle; auto|]. destruct H as (D & O & I). repeat split; auto.
  Qed.
  Lemma build_lifecycle es : lifecycle (fold_left visit es newVisitor).
  Proof.
    apply fold_lifecycle; [intros; apply visit_lifecycle; auto|].
    split; [constructor|]. split; [reflexivity|contradiction].
  Qed.

  (** What one element adds. *)
  Lemma dispatch_ids e v name : vids (dispatch e v name) = vids v.
  Proof. unfold BuildModel.dispatch, BuildModel.getBuilder. destruct (existsb _ _); reflexivity. Qed.

  Lemma dispatch_log e v name : exists l, vlog (dispatch e v name) = vlog v ++ l ++ [Visit name e] /\
    forall n x, ~ In (Visit n x) l.
  Proof.
    unfold BuildModel.dispatch, BuildModel.getBuilder. destruct (existsb _ _); cbn [vlog].
    - exists []. split; auto.
    - eexists. rewrite <- app_assoc. split; [reflexivity|]. intros n x [H|[]]. discriminate.
  Qed.

  Lemma dispatch_in e l v name x : In (Visit name x) (vlog (fold_left (dispatch e) l v)) <->
    In (Visit name x) (vlog v) \/ (x = e /\ In name l).
  Proof.
    revert v. induction l as [|n l IH]; intros v; cbn [fold_left].
    - split; [auto|]. intros [H|[_ []]]; auto.
    - rewrite IH. destruct (dispatch_log e v n) as (t & -> & N). rewrite !in_app_iff. cbn [In]. split.
      + intros [[H|[H|[H|[]]]]|[-> H]]; auto; [destruct (N _ _ H)|injection H as -> ->; auto].
      + intros [H|[-> [->|H]]]; auto.
  Qed.

  Lemma dispatch_count e l : NoDup l -> forall v name i,
    length (List.filter (visits name i) (vlog (fold_left (dispatch e) l v))) =
    length (List.filter (visits name i) (vlog v)) + (if existsb (beqb name) l then if N.eqb (eid e) i then 1 else 0 else 0).
  Proof.
    induction 1 as [|n l N1 D IH]; intros v name i; cbn [fold_left existsb]; [lia|].
    rewrite IH. destruct (dispatch_log e v n) as (t & -> & N). rewrite !filter_app, !app_length.
    assert (T : List.filter (visits name i) t = []).
    { destruct (List.filter (visits name i) t) as [|y ys] eqn:E; auto. exfalso.
      assert (H : In y (List.filter (visits name i) t)) by (rewrite E; left; auto).
      apply filter_In in H as [H V]. destruct y; try discriminate. apply (N _ _ H). }
    rewrite T. cbn [List.filter visits length]. destruct (beqb name n) eqn:B.
    - apply beqb_eq in B as ->. rewrite beqb_refl. cbn [andb orb].
      destruct (existsb (beqb n) l) eqn:X; [apply existsb_beqb in X; contradiction|].
      destruct (N.eqb (eid e) i); cbn [length]; lia.
    - assert (B' : beqb n name = false).
      { destruct (beqb n name) eqn:Y; auto. apply beqb_eq in Y as ->. rewrite beqb_refl in B. discriminate. }
      rewrite B'. cbn [andb orb length]. destruct (existsb (beqb name) l), (N.eqb (eid e) i); lia.
  Qed.

  Lemma fold_dispatch_ids e l v : vids (fold_left (dispatch e) l v) = vids v.
  Proof. revert v. induction l as [|n l IH]; intros v; cbn [fold_left]; auto. rewrite IH. apply dispatch_ids. Qed.

  (** At most one visit per id. *)
  Definition once (v : visitor) : Prop := forall name i, i <> 0%N ->
    length (List.filter (visits name i) (vlog v)) <= (if existsb (N.eqb i) (vids v) then 1 else 0).

  Hypothesis builders_nodup : forall e, NoDup (sbuilders (styleOf e)).

  Lemma visitElement_once v e : once v -> once (visitElement v e).
  Proof.
    intros O name i Hi. unfold BuildModel.visitElement. destruct (canBuild styleOf v e) eqn:C; auto.
    rewrite dispatch_count, fold_dispatch_ids by auto. cbn [vids vlog existsb].
    specialize (O name i Hi). unfold canBuild in C. destruct (sdecls (styleOf e)); [discriminate|].
    destruct (N.eqb (eid e) i) eqn:E.
    - apply N.eqb_eq in E. rewrite E in C. rewrite N.eqb_sym, E, N.eqb_refl. cbn [orb].
      destruct (N.eqb_spec i 0); [contradiction|]. cbn [orb] in C. destruct (existsb (N.eqb i) (vids v)); [discriminate|].
      destruct (existsb _ _); lia.
    - rewrite N.eqb_sym, E. cbn [orb]. destruct (existsb (beqb name) _), (existsb (N.eqb i) (vids v)); lia.
  Qed.
  Lemma fold_once es : forall v, once v -> once (fold_left visitElement es v).
  Proof. induction es as [|e es IH]; intros v H; cbn [fold_left]; auto. apply IH. apply visitElement_once; auto. Qed.
  Lemma visit_once v e : once v -> once (visit v e).
  Proof.
    intros H. unfold BuildModel.visit. destruct e as [| | |i [|t ts] es]; try apply visitElement_once; auto.
    apply fold_once. intros name j Hj. specialize (H name j Hj). cbn [vids vlog existsb].
    destruct (N.eqb j i); cbn [orb]; destruct (existsb (N.eqb j) (vids v)); lia.
  Qed.
  Lemma build_once es : once (fold_left visit es newVisitor).
  Proof.
    assert (G : forall v, once v -> once (fold_left visit es v)).
    { induction es as [|e es' IH]; intros v H; cbn [fold_left]; auto. apply IH. apply visit_once; auto. }
    apply G. intros name i _. cbn. lia.
  Qed.

  (** Only what the style says. *)
  Definition justified (es : list element) (v : visitor) : Prop :=
    forall name x, In (Visit name x) (vlog v) ->
      In x (flat_map parts es) /\ In name (sbuilders (styleOf x)) /\ sdecls (styleOf x) <> [].

  Lemma visitElement_in v e name x : In (Visit name x) (vlog (visitElement v e)) <->
    In (Visit name x) (vlog v) \/ (canBuild styleOf v e = true /\ x = e /\ In name (sbuilders (styleOf e))).
  Proof.
    unfold BuildModel.visitElement. destruct (canBuild styleOf v e).
    - rewrite dispatch_in. cbn [vlog]. intuition.
    - split; [auto|]. intros [H|[H _]]; [auto|discriminate].
  Qed.

  Lemma canBuild_style v e : canBuild styleOf v e = true -> sdecls (styleOf e) <> [].
  Proof. unfold canBuild. destruct (sdecls (styleOf e)); discriminate. Qed.

  Lemma fold_in es : forall v name x, In (Visit name x) (vlog (fold_left visitElement es v)) ->
    In (Visit name x) (vlog v) \/ (In x es /\ In name (sbuilders (styleOf x)) /\ sdecls (styleOf x) <> []).
  Proof.
    induction es as [|e es IH]; intros v name x H; cbn [fold_left] in H; auto.
    apply IH in H as [H|(H1 & H2 & H3)]; [|right; split; [right|]; auto].
    apply visitElement_in in H as [H|(C & -> & H)]; auto. right. split; [left; auto|]. split; auto.
    apply (canBuild_style _ _ C).
  Qed.

  Lemma visit_in v e name x : In (Visit name x) (vlog (visit v e)) ->
    In (Visit name x) (vlog v) \/ (In x (parts e) /\ In name (sbuilders (styleOf x)) /\ sdecls (styleOf x) <> []).
  Proof.
    assert (One : forall e, In (Visit name x) (vlog (visitElement v e)) ->
      In (Visit name x) (vlog v) \/ (In x [e] /\ In name (sbuilders (styleOf x)) /\ sdecls (styleOf x) <> [])).
    { intros e' H. apply (fold_in [e'] v name x). exact H. }
    unfold BuildModel.visit. destruct e as [| | |i [|t ts] es]; try apply One.
    intros H. apply fold_in in H as [H|H]; auto.
  Qed.

  Lemma build_justified es : justified es (fold_left visit es newVisitor).
  Proof.
    assert (G : forall l v name x, In (Visit name x) (vlog (fold_left visit l v)) ->
      In (Visit name x) (vlog v) \/ (In x (flat_map parts l) /\ In name (sbuilders (styleOf x)) /\ sdecls (styleOf x) <> [])).
    { induction l as [|e es' IH]; intros v name x H; cbn [fold_left flat_map] in *; auto.
      apply IH in H as [H|(H1 & H2 & H3)].
      - apply visit_in in H as [H|(H1 & H2 & H3)]; auto. right. rewrite in_app_iff. auto.
      - right. rewrite in_app_iff. auto. }
    intros name x H. apply G in H as [H|H]; auto. destruct H.
  Qed.

  (** Ids seen so far come from the elements. *)
  Lemma fold_ids es : forall v i, In i (vids (fold_left visitElement es v)) -> In i (vids v) \/ In i (map eid es).
  Proof.
    induction es as [|e es IH]; intros v i H; cbn [fold_left map] in *; auto.
    apply IH in H as [H|H]; [|right; right; auto].
    unfold BuildModel.visitElement in H. destruct (canBuild styleOf v e); auto.
    rewrite fold_dispatch_ids in H. destruct H as [<-|H]; auto. right; left; auto.
  Qed.
  Lemma visit_ids v e i : In i (vids (visit v e)) -> In i (vids v) \/ In i (idsOf e).
  Proof.
    unfold BuildModel.visit, idsOf.
    assert (One : forall e, In i (vids (visitElement v e)) -> In i (vids v) \/ In i (map eid [e])).
    { intros e' H. apply (fold_ids [e'] v i). exact H. }
    destruct e as [| | |j [|t ts] es]; try (intros H; apply One in H as [H|H]; auto; right; right; exact H).
    intros H. apply fold_ids in H as [H|H]; [|right; right; exact H].
    destruct H as [<-|H]; auto. right; left; reflexivity.
  Qed.
  Lemma build_ids es i : In i (vids (fold_left visit es newVisitor)) -> In i (flat_map idsOf es).
  Proof.
    assert (G : forall l v, In i (vids (fold_left visit l v)) -> In i (vids v) \/ In i (flat_map idsOf l)).
    { induction l as [|e es' IH]; intros v H; cbn [fold_left flat_map] in *; auto. rewrite in_app_iff.
      apply IH in H as [H|H]; auto. apply visit_ids in H as [H|H]; auto. }
    intros H. apply G in H as [[]|H]; auto.
  Qed.

  (** Visits stay. *)
  Lemma fold_keeps es : forall v name x, In (Visit name x) (vlog v) -> In (Visit name x) (vlog (fold_left visitElement es v)).
  Proof. induction es as [|e es IH]; intros v name x H; cbn [fold_left]; auto. apply IH. apply visitElement_in; auto. Qed.
  Lemma visit_keeps v e name x : In (Visit name x) (vlog v) -> In (Visit name x) (vlog (visit v e)).
  Proof.
    intros H. unfold BuildModel.visit. destruct e as [| | |j [|t ts] es]; try (apply visitElement_in; auto).
    apply fold_keeps. exact H.
  Qed.

  Lemma visitElement_builds v e name : sdecls (styleOf e) <> [] -> In name (sbuilders (styleOf e)) ->
    (eid e = 0%N \/ ~ In (eid e) (vids v)) -> In (Visit name e) (vlog (visitElement v e)).
  Proof.
    intros S N C. apply visitElement_in. right. split; auto. unfold canBuild.
    destruct (sdecls (styleOf e)); [contradiction|]. destruct C as [->|C]; [reflexivity|].
    destruct (existsb (N.eqb (eid e)) (vids v)) eqn:X; [apply existsb_id in X; contradiction|].
    apply orb_true_r.
  Qed.

  Lemma build_built pre e post before x after name :
    parts e = before ++ x :: after -> sdecls (styleOf x) <> [] -> In name (sbuilders (styleOf x)) ->
    (eid x = 0%N \/ (~ In (eid x) (flat_map idsOf pre) /\ ~ In (eid x) (map eid before) /\ (e = x \/ eid x <> eid e))) ->
    In (Visit name x) (vlog (fold_left visit (pre ++ e :: post) newVisitor)).
  Proof.
    intros P S Nm C. rewrite fold_left_app. cbn [fold_left].
    set (v := fold_left visit pre newVisitor).
    assert (K : forall l u, In (Visit name x) (vlog u) -> In (Visit name x) (vlog (fold_left visit l u))).
    { induction l as [|a l IH]; intros u H; cbn [fold_left]; auto. apply IH. apply visit_keeps; auto. }
    apply K.
    assert (F : eid x = 0%N \/ ~ In (eid x) (vids v)).
    { destruct C as [C|(C & _)]; auto. right. intros H. apply C. apply build_ids. exact H. }
    assert (Single : forall e0, e = e0 -> parts e0 = [e0] -> visit v e0 = visitElement v e0 -> In (Visit name x) (vlog (visit v e0))).
    { intros e0 -> P0 ->. rewrite P0 in P. destruct before as [|b before]; [|destruct before; discriminate].
      injection P as -> _. apply visitElement_builds; auto. }
    destruct e as [| | |i [|t ts] es]; try (eapply Single; reflexivity).
    cbn [BuildModel.visit parts] in *. subst es. rewrite fold_left_app. cbn [fold_left]. apply fold_keeps.
    apply visitElement_builds; auto. destruct C as [C|(C1 & C2 & C3)]; auto. right.
    intros H. apply fold_ids in H as [[H|H]|H]; auto.
    - cbn [eid] in *. destruct C3 as [C3|C3]; [|congruence].
      apply (part_neq i [] (before ++ x :: after) x); auto. apply in_or_app. right; left; auto.
    - destruct F as [F|F]; [|contradiction]. rewrite F in *. apply C1. apply build_ids. exact H.
  Qed.
End B.

(** * Pool *)

Definition keyLt (a b : N * pmesh) : Prop := (fst a < fst b)%N.
Definition emptyMesh (m : mesh) : Prop :=
  vertices m = [] /\ triangles m = [] /\ colors m = [] /\ uvs m = [] /\ uvMap m = [].
Record poolOk (s : pool * list pmesh) : Prop := {
  ok_sorted : StronglySorted keyLt (pmap (fst s));
  ok_entry : forall k m, In (k, m) (pmap (fst s)) -> k = pcap m /\ emptyMesh (pmeshOf m);
  ok_bound : forall i, In i (map pid (snd s) ++ map (fun e => pid (snd e)) (pmap (fst s))) -> i < pcount (fst s);
  ok_nodup : NoDup (map pid (snd s) ++ map (fun e => pid (snd e)) (pmap (fst s)))
}.

Lemma emplacePool_cases k m l : StronglySorted keyLt l ->
  StronglySorted keyLt (emplacePool k m l) /\
  ((exists m', In (k, m') l /\ emplacePool k m l = l) \/
   ((forall m', ~ In (k, m') l) /\ Permutation (emplacePool k m l) ((k, m) :: l))).
Proof.
  induction 1 as [|[k' m'] l S IH F]; cbn [emplacePool].
  - split; [repeat constructor|]. right. auto.
  - destruct (N.ltb_spec k k').
    + split.
      * constructor; [constructor; auto|]. constructor; [exact H|].
        eapply Forall_impl; [|exact F]. intros [a b] L. unfold keyLt in *. cbn in *. lia.
      * right. split; [|auto]. intros x [E|E]; [injection E; lia|].
        rewrite Forall_forall in F. specialize (F _ E). unfold keyLt in F. cbn in F. lia.
    + destruct (N.eqb_spec k k') as [->|NE].
      * split; [constructor; auto|]. left. exists m'. split; [left|]; auto.
      * destruct IH as (IS & IC). split.
        -- constructor; auto. apply Forall_forall. intros x Hx.
           assert (X : x = (k, m) \/ In x l).
           { destruct IC as [(y & _ & E)|(_ & P)]; [rewrite E in Hx; auto|].
             apply (Permutation_in _ P) in Hx as [E|E]; auto. }
           destruct X as [->|X]; [unfold keyLt; cbn; lia|]. rewrite Forall_forall in F. auto.
        -- destruct IC as [(y & Y & E)|(Nn & P)].
           ++ left. exists y. split; [right; auto|]. rewrite E. auto.
           ++ right. split.
              ** intros x [E|E]; [injection E; intros; lia|]. apply (Nn x E).
              ** rewrite P. apply perm_swap.
Qed.

Lemma takeFirst_some ok l m r : takeFirst ok l = Some (m, r) ->
  exists k before after, l = before ++ (k, m) :: after /\ r = before ++ after /\ ok k = true /\
    Forall (fun e => ok (fst e) = false) before.
Proof.
  revert r. induction l as [|[k' m'] l IH]; intros r; cbn [takeFirst]; [discriminate|].
  destruct (ok k') eqn:O.
  - intros E. injection E as -> ->. exists k', [], r. repeat split; auto.
  - destruct (takeFirst ok l) as [[x r']|]; [|discriminate]. cbn [option_map]. intros E. injection E as -> <-.
    destruct (IH r' eq_refl) as (k & b & a & -> & -> & Ok & F).
    exists k, ((k', m') :: b), a. repeat split; auto.
Qed.
Lemma takeFirst_none ok l : takeFirst ok l = None -> Forall (fun e => ok (fst e) = false) l.
Proof.
  induction l as [|[k m] l IH]; cbn [takeFirst]; [constructor|].
  destruct (ok k) eqn:O; [discriminate|]. destruct (takeFirst ok l) as [[? ?]|]; [discriminate|].
  intros _. constructor; auto.
Qed.

Lemma sorted_remove {A} (R : A -> A -> Prop) b x a : StronglySorted R (b ++ x :: a) -> StronglySorted R (b ++ a).
Proof.
  induction b as [|y b IH]; cbn [app]; intros H; inversion H; subst; auto.
  constructor; auto. rewrite Forall_forall in *. intros z Hz. apply H3.
  apply in_app_or in Hz as [Hz|Hz]; apply in_or_app; [left|right; right]; auto.
Qed.

Lemma poolUse_ok cap s : poolUse cap s -> poolOk s.
Proof.
  induction 1 as [|p held name lo m p' U IH G|p b m a m' U IH P|p b m a U IH].
  - constructor; cbn; [constructor|contradiction|contradiction|constructor].
  - destruct IH as [S E B D]; cbn [fst snd] in *. unfold getMesh in G.
    destruct (takeFirst _ (pmap p)) as [[x rest]|] eqn:T.
    + apply takeFirst_some in T as (k & bf & af & L & R & _ & _). injection G as <- <-. subst rest.
      assert (PP : Permutation (map pid held ++ map (fun e => pid (snd e)) (pmap p))
                               (pid x :: map pid held ++ map (fun e => pid (snd e)) (bf ++ af))).
      { rewrite L, !map_app. cbn [map snd]. rewrite !app_assoc. symmetry. apply Permutation_middle. }
      constructor; cbn [fst snd pmap pcount map pid app].
      * rewrite L in S. apply sorted_remove in S. exact S.
      * intros j y H. apply E. rewrite L. apply in_app_or in H as [H|H]; apply in_or_app; [left|right; right]; auto.
      * intros i H. apply B. apply (Permutation_in _ (Permutation_sym PP)). exact H.
      * apply (Permutation_NoDup PP D).
    + injection G as <- <-. constructor; cbn [fst snd pmap pcount map pid app].
      * exact S.
      * exact E.
      * intros i [<-|H]; [lia|]. specialize (B i H). lia.
      * constructor; auto. intros H. specialize (B _ H). lia.
  - destruct IH as [S E B D]; cbn [fst snd] in *.
    assert (M : map pid (b ++ m' :: a) = map pid (b ++ m :: a)) by (rewrite !map_app; cbn [map]; congruence).
    constructor; cbn [fst snd]; try rewrite M; auto.
  - destruct IH as [S E B D]; cbn [fst snd] in *. unfold release.
    destruct (emplacePool_cases (pcap m) (cleared m) (pmap p) S) as (S' & C).
    assert (PP : Permutation (map pid (b ++ m :: a) ++ map (fun e => pid (snd e)) (pmap p))
                             (pid m :: map pid (b ++ a) ++ map (fun e => pid (snd e)) (pmap p))).
    { rewrite !map_app. cbn [map]. rewrite <- !app_assoc. cbn [app]. symmetry. apply Permutation_middle. }
    assert (D1 := Permutation_NoDup PP D).
    constructor; cbn [fst snd pmap pcount].
    + exact S'.
    + intros k y H. destruct C as [(z & _ & Q)|(_ & P)]; [rewrite Q in H; auto|].
      apply (Permutation_in _ P) in H as [H|H]; auto. injection H as <- <-. unfold emptyMesh. cbn. auto 7.
    + intros i H. apply B. apply (Permutation_in _ (Permutation_sym PP)).
      destruct C as [(z & _ & Q)|(_ & P)]; [rewrite Q in H; right; auto|].
      apply in_app_or in H as [H|H]; [right; apply in_or_app; auto|].
      apply (Permutation_in _ (Permutation_map (fun e => pid (snd e)) P)) in H. cbn [map snd cleared pid] in H.
      destruct H as [<-|H]; [left; auto|right; apply in_or_app; auto].
    + destruct C as [(z & _ & Q)|(_ & P)]; [rewrite Q; inversion D1; auto|].
      eapply Permutation_NoDup; [|exact D1].
      rewrite (Permutation_map (fun e => pid (snd e)) P). cbn [map snd cleared pid]. apply Permutation_middle.
Qed.
