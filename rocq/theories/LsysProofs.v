From Coq Require Import Lia.
From Verif Require Import Base Bytes RingModel MeshBuildModel QuatModel LsysModel LsysSpec.
Local Open Scope nat_scope.

Lemma bytesLess_irrefl a : bytesLess a a = false.
Proof. induction a; cbn; auto. rewrite N.ltb_irrefl. auto. Qed.
Lemma bytesLess_total a b : bytesLess a b = false -> bytesLess b a = false -> a = b.
Proof.
  revert b; induction a as [|x a IH]; destruct b as [|y b]; cbn; try congruence.
  destruct (N.ltb_spec x y); [congruence|]. destruct (N.ltb_spec y x); [congruence|].
  intros. assert (x = y) by lia. subst. f_equal; auto.
Qed.

Lemma rule_dec (a b : rule) : {a = b} + {a <> b}.
Proof. decide equality. apply (list_eq_dec N.eq_dec). Defined.

Lemma sameRule_iff rank a b : classOrder rank -> sameRule rank a b = true <-> a = b.
Proof.
  intros Hr. unfold sameRule. rewrite Bool.andb_true_iff, !Bool.negb_true_iff. split.
  - intros [H1 H2]. destruct a, b; cbn [ruleLess classOf] in *; try reflexivity;
      try (apply Nat.ltb_ge in H1; apply Nat.ltb_ge in H2;
           match type of H1 with rank ?x <= rank ?y => assert (E : rank x = rank y) by lia; apply Hr in E; discriminate end).
    f_equal. now apply bytesLess_total.
  - intros <-. destruct a; cbn [ruleLess classOf]; rewrite ?Nat.ltb_irrefl, ?bytesLess_irrefl; auto.
Qed.

Section Rewriting.
  Context {W : Type} (rank : nat -> nat) (Hr : classOrder rank).

  Lemma lookup_some (ps : productions W) r l : alookup (sameRule rank) r ps = Some l -> In (r, l) ps.
  Proof.
    induction ps as [|[r' l'] ps IH]; cbn; [discriminate|].
    destruct (sameRule rank r r') eqn:E; [|auto].
    apply sameRule_iff in E; auto. subst. intros [= ->]. now left.
  Qed.
  Lemma lookup_none (ps : productions W) r l : alookup (sameRule rank) r ps = None -> ~ In (r, l) ps.
  Proof.
    induction ps as [|[r' l'] ps IH]; cbn; [tauto|].
    destruct (sameRule rank r r') eqn:E; [discriminate|].
    intros H [[= -> ->]|H']; [|now apply IH].
    rewrite (proj2 (sameRule_iff rank r r Hr) eq_refl) in E. discriminate.
  Qed.
  Lemma lookup_in (ps : productions W) r l :
    NoDup (map fst ps) -> In (r, l) ps -> alookup (sameRule rank) r ps = Some l.
  Proof.
    induction ps as [|[r' l'] ps IH]; cbn; [tauto|]. intros ND H. inversion ND; subst.
    destruct (sameRule rank r r') eqn:E.
    - apply sameRule_iff in E; auto. subst. destruct H as [[= ->]|H]; [reflexivity|].
      elim H2. now apply (in_map fst) in H.
    - destruct H as [[= -> ->]|H]; [|auto].
      rewrite (proj2 (sameRule_iff rank r r Hr) eq_refl) in E. discriminate.
  Qed.
  Lemma lookup_notin (ps : productions W) r :
    (forall l, ~ In (r, l) ps) -> alookup (sameRule rank) r ps = None.
  Proof.
    intros H. destruct (alookup (sameRule rank) r ps) eqn:E; [|reflexivity].
    apply lookup_some in E. now elim (H _ E).
  Qed.

  Lemma generation_sound ps pick d u w d' :
    generation rank ps pick d u = Ok (w, d') -> rewrites (W := W) ps u w.
  Proof.
    revert d w d'; induction u as [|r u IH]; cbn; intros d w d' H.
    - injection H as <- <-. constructor.
    - destruct (alookup _ r ps) as [l|] eqn:E.
      + destruct (nth_error l _) as [[p s]|] eqn:E2; [|discriminate].
        destruct (generation rank ps pick (Datatypes.S d) u) as [[w0 d0]| |] eqn:E3; cbn in H; try discriminate.
        injection H as <- <-. eapply rw_replace; [apply lookup_some; eassumption | eapply nth_error_In; eassumption | eauto].
      + destruct (generation rank ps pick d u) as [[w0 d0]| |] eqn:E3; cbn in H; try discriminate.
        injection H as <- <-. apply rw_keep; [|eauto]. intros. now apply lookup_none.
  Qed.

  Lemma generations_sound ps pick d g u w :
    generations rank ps pick d g u = Ok w -> derives (W := W) ps g u w.
  Proof.
    revert d u; induction g as [|g IH]; cbn; intros d u H.
    - injection H as <-. constructor.
    - destruct (generation rank ps pick d u) as [[v d']| |] eqn:E; cbn in H; try discriminate.
      econstructor; [eapply generation_sound; eassumption|eauto].
  Qed.

  Lemma generation_total ps pick d u :
    wellFormed (W := W) ps -> validDraws pick -> exists w d', generation rank ps pick d u = Ok (w, d').
  Proof.
    intros [_ HF] HV. revert d; induction u as [|r u IH]; cbn; intros d; [eauto|].
    destruct (alookup _ r ps) as [l|] eqn:E.
    - apply lookup_some in E. rewrite Forall_forall in HF. specialize (HF _ E). cbn in HF.
      assert (L : 0 < length l) by (destruct l; cbn; [congruence|lia]).
      specialize (HV d _ L). apply nth_error_Some in HV.
      destruct (nth_error l _) as [[p s]|]; [|congruence].
      destruct (IH (Datatypes.S d)) as (w & d' & ->). cbn. eauto.
    - destruct (IH d) as (w & d' & ->). cbn. eauto.
  Qed.

  Lemma generations_total ps pick d g u :
    wellFormed (W := W) ps -> validDraws pick -> exists w, generations rank ps pick d g u = Ok w.
  Proof.
    intros HW HV. revert d u; induction g as [|g IH]; cbn; intros d u; [eauto|].
    destruct (generation_total ps pick d u HW HV) as (w & d' & ->). cbn. auto.
  Qed.

  (** [pick] follows the list of indices [l] from draw [d] on. *)
  Definition follows (pick : nat -> nat -> nat) (d : nat) (l : list nat) : Prop :=
    forall i x c, nth_error l i = Some x -> x < c -> pick (d + i) c = x.

  Lemma follows_app pick d l1 l2 :
    follows pick d (l1 ++ l2) -> follows pick d l1 /\ follows pick (d + length l1) l2.
  Proof.
    intros H. split; intros i x c E L.
    - apply H; auto. rewrite nth_error_app1; [auto|]. apply nth_error_Some. congruence.
    - rewrite <- Nat.add_assoc. apply H; auto. rewrite nth_error_app2 by lia.
      replace (length l1 + i - length l1) with i by lia. auto.
  Qed.

  Lemma rewrites_draws ps u v : NoDup (map fst ps) ->
    rewrites (W := W) ps u v ->
    exists l, forall pick d, follows pick d l -> generation rank ps pick d u = Ok (v, d + length l).
  Proof.
    intros ND H. induction H as [|r w w' H1 H2 [l IH]|r ws p s w w' H1 H2 H3 [l IH]].
    - exists []. intros. cbn. now rewrite Nat.add_0_r.
    - exists l. intros pick d F. cbn. rewrite (lookup_notin ps r H1), (IH pick d F). reflexivity.
    - destruct (In_nth_error _ _ H2) as [i Hi]. exists (i :: l). intros pick d F. cbn.
      rewrite (lookup_in ps r ws ND H1).
      assert (L : i < length ws) by (apply nth_error_Some; congruence).
      pose proof (F 0 i (length ws) eq_refl L) as P. rewrite Nat.add_0_r in P. rewrite P, Hi.
      destruct (follows_app pick d [i] l F) as [_ F2]. cbn in F2. rewrite Nat.add_1_r in F2.
      rewrite (IH pick _ F2). cbn. do 3 f_equal. lia.
  Qed.

  Lemma derives_draws ps g u v : NoDup (map fst ps) ->
    derives (W := W) ps g u v ->
    exists l, forall pick d, follows pick d l -> generations rank ps pick d g u = Ok v.
  Proof.
    intros ND H. induction H as [w|g u v w H1 H2 [l IH]].
    - exists []. reflexivity.
    - destruct (rewrites_draws _ _ _ ND H1) as [l1 H3]. exists (l1 ++ l). intros pick d F.
      apply follows_app in F as [F1 F2]. cbn. rewrite (H3 _ _ F1). cbn. auto.
  Qed.

  Lemma derives_complete ps g u v : NoDup (map fst ps) ->
    derives (W := W) ps g u v ->
    exists pick, validDraws pick /\ generations rank ps pick 0 g u = Ok v.
  Proof.
    intros ND H. destruct (derives_draws _ _ _ _ ND H) as [l Hl].
    exists (fun d c => nth d l 0 mod c). split.
    - intros d c Hc. apply Nat.mod_upper_bound. lia.
    - apply Hl. intros i x c E L. cbn. rewrite (nth_error_nth _ _ _ E). now apply Nat.mod_small.
  Qed.

  Lemma find_spec (ps : productions W) r ws : NoDup (map fst ps) -> In (r, ws) ps ->
    find (fun p => if rule_dec r (fst p) then true else false) ps = Some (r, ws).
  Proof.
    induction ps as [|[r' l'] ps IH]; cbn [map fst In find]; [tauto|]. intros ND [E|H]; inversion ND; subst.
    - injection E as -> ->. destruct (rule_dec r r); congruence.
    - destruct (rule_dec r r') as [->|]; [|auto].
      match goal with H : ~ In r' _ |- _ => elim H end. now apply (in_map fst) in H.
  Qed.

  Lemma rewrites_deterministic ps u v : NoDup (map fst ps) -> deterministic ps ->
    rewrites (W := W) ps u v -> v = flat_map (successor rule_dec ps) u.
  Proof.
    intros ND HD H. induction H as [|r w w' H1 H2 IH|r ws p s w w' H1 H2 H3 IH]; cbn; [auto| |].
    - assert (E : successor rule_dec ps r = [r]).
      { unfold successor. destruct (find _ ps) as [[r' l']|] eqn:E; [|reflexivity].
        apply find_some in E as [E1 E2]. cbn in E2. destruct (rule_dec r r'); [|discriminate].
        subst. now elim (H1 l'). }
      rewrite E, <- IH. reflexivity.
    - assert (E : successor rule_dec ps r = s).
      { unfold successor. rewrite (find_spec _ _ _ ND H1).
        unfold deterministic in HD. rewrite Forall_forall in HD. specialize (HD _ H1). cbn in HD.
        destruct ws as [|[p1 s1] [|]]; cbn in HD; try discriminate.
        destruct H2 as [H2|[]]. congruence. }
      rewrite E, <- IH. reflexivity.
  Qed.

  Lemma iter_shift {A} (f : A -> A) g x : Nat.iter g f (f x) = Nat.iter (Datatypes.S g) f x.
  Proof. induction g as [|g IH]; [reflexivity|]. change (f (Nat.iter g f (f x)) = f (Nat.iter (Datatypes.S g) f x)). now rewrite IH. Qed.

  Lemma derives_deterministic ps g u v : NoDup (map fst ps) -> deterministic ps ->
    derives (W := W) ps g u v -> v = Nat.iter g (flat_map (successor rule_dec ps)) u.
  Proof.
    intros ND HD H. induction H as [w|g u v w H1 H2 IH]; [reflexivity|].
    rewrite IH, (rewrites_deterministic _ _ _ ND HD H1). apply iter_shift.
  Qed.

  Lemma addProduction_keys (ps : productions W) r w s x :
    In x (map fst (addProduction rank ps r w s)) -> x = r \/ In x (map fst ps).
  Proof.
    induction ps as [|[r' l] ps IH]; cbn; [intros [->|[]]; auto|].
    destruct (sameRule rank r r'); cbn; [tauto|]. intros [->|H]; auto. destruct (IH H); auto.
  Qed.
  Lemma addProduction_wellFormed (ps : productions W) r w s :
    wellFormed ps -> wellFormed (addProduction rank ps r w s).
  Proof.
    unfold wellFormed. induction ps as [|[r' l] ps IH]; cbn; intros [ND HF].
    - split; repeat constructor; cbn; tauto || congruence.
    - inversion ND; inversion HF; subst. destruct (sameRule rank r r') eqn:E; cbn.
      + split; constructor; cbn; auto. destruct l; cbn; congruence.
      + destruct IH as [I1 I2]; [auto|]. split; constructor; auto.
        intros H. apply addProduction_keys in H as [->|H]; [|auto].
        rewrite (proj2 (sameRule_iff rank r r Hr) eq_refl) in E. discriminate.
  Qed.
End Rewriting.

(** Brackets *)
Lemma opens_cons r w : opens (r :: w) = (match r with Save => 1 | _ => 0 end) + opens w.
Proof. unfold opens. destruct r; reflexivity. Qed.
Lemma closes_cons r w : closes (r :: w) = (match r with Restore => 1 | _ => 0 end) + closes w.
Proof. unfold closes. destruct r; reflexivity. Qed.
Lemma opens_app u v : opens (u ++ v) = opens u + opens v.
Proof. unfold opens. now rewrite map_app, count_occ_app. Qed.
Lemma closes_app u v : closes (u ++ v) = closes u + closes v.
Proof. unfold closes. now rewrite map_app, count_occ_app. Qed.

Local Arguments opens : simpl never.
Local Arguments closes : simpl never.
Local Notation nil_le := (Nat.le_0_l _).

Lemma app_split {A} (p s u v : list A) : u ++ v = p ++ s ->
  (exists m, u = p ++ m /\ s = m ++ v) \/ (exists m, p = u ++ m /\ v = m ++ s).
Proof.
  revert u; induction p as [|x p IH]; cbn; intros u E.
  - left. exists u. auto.
  - destruct u as [|y u]; cbn in E.
    + right. exists (x :: p). auto.
    + injection E as -> E. destruct (IH _ E) as [(m & -> & ->)|(m & -> & ->)]; [left|right]; exists m; auto.
Qed.

Lemma balanced_app u v : balanced u -> balanced v -> balanced (u ++ v).
Proof.
  intros [U1 U2] [V1 V2]. split.
  - intros p s E. apply app_split in E as [(m & -> & ->)|(m & -> & ->)].
    + apply (U1 p m eq_refl).
    + specialize (V1 m s eq_refl). rewrite closes_app, opens_app. lia.
  - rewrite closes_app, opens_app. lia.
Qed.

Lemma noUnderflow_cons d r w : noUnderflow d (r :: w) ->
  match r with
  | Save => noUnderflow (Datatypes.S d) w
  | Restore => exists d', d = Datatypes.S d' /\ noUnderflow d' w
  | _ => noUnderflow d w
  end.
Proof.
  intros H.
  assert (P : forall p s, w = p ++ s -> closes (r :: p) <= d + opens (r :: p)).
  { intros p s ->. apply (H (r :: p) s). reflexivity. }
  destruct r; try (intros p s E; specialize (P p s E); rewrite opens_cons, closes_cons in P; cbn in P; lia).
  pose proof (P [] w eq_refl) as Q. rewrite opens_cons, closes_cons in Q. change (closes []) with 0 in Q. change (opens []) with 0 in Q. cbn in Q.
  destruct d as [|d]; [lia|]. exists d. split; [reflexivity|].
  intros p s E; specialize (P p s E); rewrite opens_cons, closes_cons in P; cbn in P; lia.
Qed.

Lemma noUnderflow_rest d r w :
  (match r with Save => noUnderflow (Datatypes.S d) w
   | Restore => exists d', d = Datatypes.S d' /\ noUnderflow d' w | _ => noUnderflow d w end) ->
  noUnderflow d (r :: w).
Proof.
  intros H p s E. destruct p as [|x p]; [apply nil_le|]. injection E as <- ->.
  rewrite opens_cons, closes_cons.
  destruct r; try (specialize (H p s eq_refl); cbn; lia).
  destruct H as (d' & -> & H). specialize (H p s eq_refl). cbn. lia.
Qed.

(** Replacing the rules other than brackets by balanced words keeps the balance. *)
Lemma rewrites_noUnderflow {W} (ps : productions W) u v :
  (forall r ws, In (r, ws) ps -> r <> Save /\ r <> Restore /\ Forall (fun x => balanced (snd x)) ws) ->
  rewrites ps u v ->
  closes v + opens u = opens v + closes u /\ (forall d, noUnderflow d u -> noUnderflow d v).
Proof.
  intros HB H. induction H as [|r w w' H1 H2 [IH1 IH2]|r ws p s w w' H1 H2 H3 [IH1 IH2]].
  - split; auto.
  - split.
    + rewrite !opens_cons, !closes_cons. lia.
    + intros d Hd. apply noUnderflow_cons in Hd. apply noUnderflow_rest.
      destruct r; auto. destruct Hd as (d' & -> & Hd). exists d'. auto.
  - destruct (HB _ _ H1) as (N1 & N2 & F). rewrite Forall_forall in F. specialize (F _ H2). cbn in F.
    destruct F as [F1 F2]. split.
    + rewrite opens_app, closes_app, opens_cons, closes_cons. destruct r; cbn; (congruence || lia).
    + intros d Hd. apply noUnderflow_cons in Hd.
      assert (Hd' : noUnderflow d w) by (destruct r; auto; congruence).
      apply IH2 in Hd'. intros a b E. apply app_split in E as [(m & -> & ->)|(m & -> & ->)].
      * specialize (F1 a m eq_refl). lia.
      * specialize (Hd' m b eq_refl). rewrite opens_app, closes_app. lia.
Qed.

Lemma derives_balanced {W} (ps : productions W) g u v :
  (forall r ws, In (r, ws) ps -> r <> Save /\ r <> Restore /\ Forall (fun x => balanced (snd x)) ws) ->
  derives ps g u v -> balanced u -> balanced v.
Proof.
  intros HB H. induction H as [|g u v w H1 H2 IH]; auto.
  intros [B1 B2]. apply IH. destruct (rewrites_noUnderflow ps u v HB H1) as [E F].
  split; [auto|lia].
Qed.

Lemma derives_known {W} (ps : productions W) g u v :
  (forall r ws, In (r, ws) ps -> Forall (fun x => knownWords (snd x)) ws) ->
  derives ps g u v -> knownWords u -> knownWords v.
Proof.
  intros HB H. induction H as [|g u v w H1 H2 IH]; auto.
  intros K. apply IH. clear IH H2. induction H1; auto.
  - inversion K; subst. constructor; [assumption|apply IHrewrites; assumption].
  - inversion K; subst. apply Forall_app. split; [|apply IHrewrites; assumption].
    specialize (HB _ _ H). rewrite Forall_forall in HB. exact (HB _ H0).
Qed.

Section Exec.
  Context {T : Type} (n : nums T) (k : trig T) (angle scale around : T).
  Notation exec := (exec n k angle scale around).
  Notation apply := (apply n k angle scale around).

  Lemma exec_app u v t : exec (u ++ v) t = bind (exec u t) (exec v).
  Proof.
    revert t; induction u as [|r u IH]; cbn; [reflexivity|]. intros t.
    destruct (apply r t); cbn; auto.
  Qed.

  (** Except for brackets and unknown words every rule succeeds and keeps the stack. *)
  Lemma apply_plain r t :
    match r with
    | Save => exists t', apply r t = Ok t' /\ stack t' = cur t :: stack t /\ cur t' = cur t
    | Restore => match stack t with
                 | [] => apply r t = UB
                 | s :: st => exists t', apply r t = Ok t' /\ stack t' = st /\ cur t' = s
                 end
    | Word w => In w [coneWord; sphereWord; cylinderWord] -> exists t', apply r t = Ok t' /\ stack t' = stack t
    | _ => exists t', apply r t = Ok t' /\ stack t' = stack t
    end.
  Proof.
    destruct r; cbn [LsysModel.apply]; try (eexists; split; [reflexivity|reflexivity]).
    - eexists. repeat split.
    - destruct (stack t); [reflexivity|]. eexists. repeat split.
    - unfold wordEqb. intros [<-|[<-|[<-|[]]]];
        repeat match goal with |- context [list_eq_dec ?d ?a ?b] => destruct (list_eq_dec d a b); try congruence end;
        eexists; split; reflexivity.
  Qed.

  (** Without underflow below [a] the rest of the stack is not touched. *)
  Lemma exec_frame w t a rest :
    knownWords w -> stack t = a ++ rest -> noUnderflow (length a) w ->
    exists t' a', exec w t = Ok t' /\ stack t' = a' ++ rest /\ length a' + closes w = length a + opens w.
  Proof.
    revert t a; induction w as [|r w IH]; intros t a K E H.
    - exists t, a. repeat split; auto.
    - inversion K as [|? ? K1 K2]; subst. apply noUnderflow_cons in H. pose proof (apply_plain r t) as P.
      rewrite opens_cons, closes_cons. cbn [LsysModel.exec].
      destruct r;
        try (destruct P as (t1 & -> & P); cbn [bind];
             destruct (IH t1 a K2) as (t' & a' & E1 & E2 & E3); [congruence|assumption|];
             exists t', a'; split; [exact E1|split; [exact E2|cbn; lia]]).
      + destruct P as (t1 & -> & P & _). cbn [bind].
        destruct (IH t1 (cur t :: a) K2) as (t' & a' & E1 & E2 & E3); [rewrite P, E; reflexivity|exact H|].
        exists t', a'. split; [exact E1|split; [exact E2|cbn in *; lia]].
      + destruct H as (d & L & H). destruct a as [|s a]; [discriminate|]. injection L as L. rewrite E in P. cbn [app] in P.
        destruct P as (t1 & -> & P & _). cbn [bind].
        destruct (IH t1 a K2) as (t' & a' & E1 & E2 & E3); [congruence|rewrite L; exact H|].
        exists t', a'. split; [exact E1|split; [exact E2|cbn in *; lia]].
      + destruct (P K1) as (t1 & -> & P1); cbn [bind].
        destruct (IH t1 a K2) as (t' & a' & E1 & E2 & E3); [congruence|assumption|].
        exists t', a'. split; [exact E1|split; [exact E2|cbn; lia]].
  Qed.

  Lemma exec_balanced w t : knownWords w -> balanced w -> exists t', exec w t = Ok t' /\ stack t' = stack t.
  Proof.
    intros K [H1 H2]. destruct (exec_frame w t [] (stack t) K eq_refl H1) as (t' & a' & E1 & E2 & E3).
    cbn in E3. exists t'. split; [exact E1|]. destruct a'; [exact E2|cbn in E3; lia].
  Qed.

  Lemma exec_pair w t : knownWords w -> balanced w ->
    exists t', exec (Save :: w ++ [Restore]) t = Ok t' /\ cur t' = cur t /\ stack t' = stack t.
  Proof.
    intros K B. cbn [LsysModel.exec].
    destruct (apply_plain Save t) as (t1 & -> & P1 & P2). cbn [bind]. rewrite exec_app.
    destruct (exec_balanced w t1 K B) as (t2 & -> & Q). cbn [bind LsysModel.exec].
    pose proof (apply_plain Restore t2) as R. rewrite Q, P1 in R.
    destruct R as (t3 & -> & R1 & R2). cbn [bind]. exists t3. auto.
  Qed.

  (** Reading the top of an empty stack is reached exactly when brackets underflow. *)
  Lemma exec_undefined w t : knownWords w -> exec w t = UB <-> ~ noUnderflow (length (stack t)) w.
  Proof.
    revert t; induction w as [|r w IH]; intros t K.
    - split; [discriminate|]. intros H. elim H. intros p s E. destruct p; [apply nil_le|discriminate].
    - inversion K as [|? ? K1 K2]; subst. pose proof (apply_plain r t) as P. cbn [LsysModel.exec].
      assert (C : noUnderflow (length (stack t)) (r :: w) <->
        match r with Save => noUnderflow (Datatypes.S (length (stack t))) w
        | Restore => exists d', length (stack t) = Datatypes.S d' /\ noUnderflow d' w
        | _ => noUnderflow (length (stack t)) w end).
      { split; [apply noUnderflow_cons|apply noUnderflow_rest]. }
      rewrite C. clear C.
      destruct r; try (destruct P as (t1 & -> & P); cbn [bind]; rewrite (IH t1 K2), P; reflexivity).
      + destruct P as (t1 & -> & P & _). cbn [bind]. rewrite (IH t1 K2), P. reflexivity.
      + destruct (stack t) as [|s st].
        * rewrite P. cbn. split; [|reflexivity]. intros _ (d & L & _). discriminate.
        * destruct P as (t1 & -> & P & _). cbn [bind]. rewrite (IH t1 K2), P. cbn. split.
          -- intros H (d & [= <-] & H'). auto.
          -- intros H H'. apply H. eauto.
      + destruct (P K1) as (t1 & -> & P1). cbn [bind]. rewrite (IH t1 K2), P1. reflexivity.
  Qed.
End Exec.
