(** C36, C37: expansion of L-systems and the stack of the turtle. *)
From Coq Require Import Lia QArith.
From Verif Require Import Base Bytes RingModel MeshBuildModel QuatModel LsysModel LsysSpec LsysProofs.
Local Open Scope nat_scope.

(** C36: for any random draws, running a system executes a word which [gens] rounds of parallel
    rewriting derive from the axiom; no draw falls outside the alternatives. *)
Theorem C36_word : forall {T W} (n : nums T) (k : trig T) angle scale around rank
    (ps : productions W) pick gens axiom (t : turtle T),
  classOrder rank -> wellFormed ps -> validDraws pick ->
  exists w, derives ps (Z.to_nat gens) axiom w /\
            run n k angle scale around rank ps pick gens axiom t = exec n k angle scale around w t.
Proof.
  intros. destruct (generations_total rank H ps pick 0 (Z.to_nat gens) axiom H0 H1) as [w E].
  exists w. split; [eapply generations_sound; eassumption|]. unfold run. rewrite E. reflexivity.
Qed.

(** Without alternatives the word is the iterated substitution, whatever the draws. *)
Theorem C36_deterministic : forall {T W} (n : nums T) (k : trig T) angle scale around rank
    (ps : productions W) pick gens axiom (t : turtle T),
  classOrder rank -> wellFormed ps -> deterministic ps -> validDraws pick ->
  run n k angle scale around rank ps pick gens axiom t =
  exec n k angle scale around (Nat.iter (Z.to_nat gens) (flat_map (successor rule_dec ps)) axiom) t.
Proof.
  intros T W n k angle scale around rank ps pick gens axiom t Hr HW HD HV.
  destruct (C36_word n k angle scale around rank ps pick gens axiom t Hr HW HV) as (w & D & ->).
  rewrite (derives_deterministic ps _ _ _ (proj1 HW) HD D). reflexivity.
Qed.

(** Every derivable word is executed for some draws. *)
Theorem C36_every_word : forall {T W} (n : nums T) (k : trig T) angle scale around rank
    (ps : productions W) gens axiom w (t : turtle T),
  classOrder rank -> wellFormed ps -> derives ps (Z.to_nat gens) axiom w ->
  exists pick, validDraws pick /\
    run n k angle scale around rank ps pick gens axiom t = exec n k angle scale around w t.
Proof.
  intros T W n k angle scale around rank ps gens axiom w t Hr HW HD.
  destruct (derives_complete rank Hr ps _ _ _ (proj1 HW) HD) as (pick & V & E).
  exists pick. split; [exact V|]. unfold run. rewrite E. reflexivity.
Qed.

(** The rules read from a text always form such a system, and two rules share productions only when
    they are the same rule. *)
Theorem C36_parsed : forall {W} rank (lines : list (rule * W * list rule)),
  classOrder rank ->
  wellFormed (fold_left (fun ps '(r, w, s) => addProduction rank ps r w s) lines []) /\
  (forall a b, sameRule rank a b = true <-> a = b).
Proof.
  intros W rank lines Hr. split; [|intros; now apply sameRule_iff].
  assert (G : forall ps : productions W, wellFormed ps ->
    wellFormed (fold_left (fun ps '(r, w, s) => addProduction rank ps r w s) lines ps)).
  { induction lines as [|[[r w] s] lines IH]; cbn; auto. intros ps H. apply IH.
    now apply addProduction_wellFormed. }
  apply G. split; constructor.
Qed.

(** A system with two alternatives: F becomes [F+F] or G, and + stays. *)
Definition exProductions : productions nat :=
  fold_left (fun ps '(r, w, s) => addProduction (fun x => x) ps r w s)
    [(Forward, 3, [Save; Forward; TurnLeft; Forward; Restore]); (Forward, 1, [Jump])] [].
Definition exTrig : trig Q := mkTrig 1%Q (1 # 2)%Q 1%Q (fun _ => 1)%Q (fun _ => 0)%Q (fun x => x) (fun x _ => x).
Definition exRun pick g (axiom : list rule) := run exactNums exTrig 1%Q 2%Q 3%Q (fun x => x) exProductions pick g
  axiom (initTurtle exactNums exTrig 1%Q).
Example C36_case :
  classOrder (fun x => x) /\ wellFormed exProductions /\ validDraws (fun d c => d mod c) /\
  generations (fun x => x) exProductions (fun d c => d mod c) 0 2 [Forward; TurnLeft]
    = Ok [Save; Jump; TurnLeft; Save; Forward; TurnLeft; Forward; Restore; Restore; TurnLeft] /\
  (exists t, exRun (fun d c => d mod c) 2%Z [Forward; TurnLeft] = Ok t /\ length (drawn t) = 2) /\
  exRun (fun d c => d mod c) (-1)%Z [Forward] = exec exactNums exTrig 1%Q 2%Q 3%Q [Forward] (initTurtle exactNums exTrig 1%Q).
Proof.
  split; [intros a b H; exact H|]. split; [apply (C36_parsed (fun x => x)); intros a b H; exact H|].
  split; [intros d c H; apply Nat.mod_upper_bound; lia|]. split; [vm_compute; reflexivity|].
  split; [eexists; split; [vm_compute; reflexivity|reflexivity]|reflexivity].
Qed.
Example C36_deterministic_case :
  let ps := addProduction (fun x => x) ([] : productions nat) Forward 1 [Forward; TurnLeft; Forward] in
  wellFormed ps /\ deterministic ps /\
  Nat.iter 2 (flat_map (successor rule_dec ps)) [Forward; Jump]
    = [Forward; TurnLeft; Forward; TurnLeft; Forward; TurnLeft; Forward; Jump].
Proof.
  cbn zeta. split; [apply addProduction_wellFormed; [intros a b H; exact H|split; constructor]|].
  split; [repeat constructor|vm_compute; reflexivity].
Qed.

(** C37: if the axiom and all successors are balanced and brackets are not rewritten, a run at any number
    of generations neither underflows nor throws and leaves the stack as it was. *)
Theorem C37_balanced : forall {T W} (n : nums T) (k : trig T) angle scale around rank
    (ps : productions W) pick gens axiom (t : turtle T),
  classOrder rank -> wellFormed ps -> validDraws pick ->
  balanced axiom -> knownWords axiom ->
  (forall r ws, In (r, ws) ps ->
     r <> Save /\ r <> Restore /\ Forall (fun x => balanced (snd x) /\ knownWords (snd x)) ws) ->
  exists t', run n k angle scale around rank ps pick gens axiom t = Ok t' /\ stack t' = stack t.
Proof.
  intros T W n k angle scale around rank ps pick gens axiom t Hr HW HV HB HK HP.
  destruct (C36_word n k angle scale around rank ps pick gens axiom t Hr HW HV) as (w & D & ->).
  apply exec_balanced.
  - eapply derives_known; [|eassumption|assumption]. intros r ws HI. destruct (HP _ _ HI) as (_ & _ & F).
    eapply Forall_impl; [|exact F]. cbn. tauto.
  - eapply derives_balanced; [|eassumption|assumption]. intros r ws HI. destruct (HP _ _ HI) as (A & B & F).
    repeat split; auto. eapply Forall_impl; [|exact F]. cbn. tauto.
Qed.

(** A bracket pair around a balanced word restores position, orientation, sizes and stack. *)
Theorem C37_pair : forall {T} (n : nums T) (k : trig T) angle scale around w (t : turtle T),
  balanced w -> knownWords w ->
  exists t', exec n k angle scale around (Save :: w ++ [Restore]) t = Ok t' /\
             cur t' = cur t /\ stack t' = stack t.
Proof. intros. now apply exec_pair. Qed.

(** The empty stack is read exactly when some prefix closes more brackets than were open. *)
Theorem C37_undefined : forall {T} (n : nums T) (k : trig T) angle scale around w (t : turtle T),
  knownWords w ->
  (exec n k angle scale around w t = UB <->
   exists p s, w = p ++ s /\ length (stack t) + opens p < closes p).
Proof.
  intros T n k angle scale around w t K. rewrite exec_undefined by assumption. split.
  - intros H.
    assert (D : forall q s, w = q ++ s ->
      (forall p' s', q = p' ++ s' -> closes p' <= length (stack t) + opens p') \/
      exists p' s', q = p' ++ s' /\ length (stack t) + opens p' < closes p').
    { clear. intros q. induction q as [|x q IH] using rev_ind; intros s E.
      - left. intros p' s' E'. destruct p'; [apply Nat.le_0_l|discriminate].
      - rewrite <- app_assoc in E. destruct (IH _ E) as [L|(p' & s' & -> & L)].
        + destruct (le_lt_dec (closes (q ++ [x])) (length (stack t) + opens (q ++ [x]))) as [C|C].
          * left. intros p' s' E'. destruct s' as [|y s' _] using rev_ind.
            -- rewrite app_nil_r in E'. subst p'. exact C.
            -- rewrite app_assoc in E'. apply app_inj_tail in E' as [-> _]. eapply L. reflexivity.
          * right. exists (q ++ [x]), []. rewrite app_nil_r. auto.
        + right. exists p', (s' ++ [x]). rewrite app_assoc. auto. }
    destruct (D w [] (eq_sym (app_nil_r w))) as [L|R]; [|exact R].
    elim H. intros p s E. exact (L p s E).
  - intros (p & s & -> & L) H. specialize (H p s eq_refl). lia.
Qed.

Example C37_case :
  balanced [Save; Forward; TurnLeft; Forward; Restore] /\
  (exists t, exRun (fun _ _ => 0) 3%Z [Forward; TurnLeft; Forward] = Ok t /\ length (drawn t) = 16 /\ stack t = []).
Proof.
  split.
  - split; [|reflexivity]. intros p s E.
    assert (P : p = firstn (length p) [Save; Forward; TurnLeft; Forward; Restore]).
    { rewrite E, firstn_app, Nat.sub_diag, firstn_all, app_nil_r. reflexivity. }
    rewrite P. destruct (length p) as [|[|[|[|[|[|m]]]]]]; cbn; lia.
  - eexists. split; [vm_compute; reflexivity|]. split; vm_compute; reflexivity.
Qed.

(** Unbalanced productions are undefined: F becomes ]F. *)
Theorem C37_unbalanced_refuted : exists ps : productions nat,
  run exactNums exTrig 1%Q 2%Q 3%Q (fun x => x) ps (fun _ _ => 0) 1%Z [Forward] (initTurtle exactNums exTrig 1%Q) = UB.
Proof. exists [(Forward, [(1, [Restore; Forward])])]. vm_compute. reflexivity. Qed.

(** The style chosen inside a bracket pair stays in use after it: not everything is restored. *)
Theorem C37_style_refuted : exists t : turtle Q,
  exec exactNums exTrig 1%Q 2%Q 3%Q [Save; SwitchStyle; Restore; Forward] (initTurtle exactNums exTrig 1%Q) = Ok t /\
  ttexture (cur t) = 0 /\ map dstyle (drawn t) = [1] /\ cylStyle t = 1.
Proof. eexists. split; [vm_compute; reflexivity|]. repeat split. Qed.

Print Assumptions C36_word.
Print Assumptions C36_deterministic.
Print Assumptions C36_every_word.
Print Assumptions C36_parsed.
Print Assumptions C37_balanced.
Print Assumptions C37_pair.
Print Assumptions C37_undefined.
Print Assumptions C37_unbalanced_refuted.
Print Assumptions C37_style_refuted.
