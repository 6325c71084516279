(** Proofs about splitting segments by a grid. *)
From Coq Require Import Reals Lra Sorted Permutation.
From Verif Require Import Base RingModel MeshBuildModel QuatModel LineGridModel LineGridSpec.
Local Open Scope R_scope.

Notation rlt := (nlt realNums).
Lemma rlt_true a b : rlt a b = true <-> a < b.
Proof. cbn. destruct (Rlt_dec a b); split; easy. Qed.
Lemma rlt_false a b : rlt a b = false <-> b <= a.
Proof. cbn. destruct (Rlt_dec a b); split; try easy; lra. Qed.
Lemma isZero_ok a : isZero realNums a = true <-> a = 0.
Proof.
  unfold isZero. rewrite Bool.andb_true_iff, !Bool.negb_true_iff, !rlt_false. cbn. lra.
Qed.
Lemma isZero_not a : isZero realNums a = false <-> a <> 0.
Proof. rewrite <- isZero_ok. destruct (isZero realNums a); split; congruence. Qed.
Lemma vec2_eq (a b : vec2 R) : v2x a = v2x b -> v2y a = v2y b -> a = b.
Proof. destruct a, b; cbn. congruence. Qed.

(** Lines of the grid. *)
Section Lines.
  Context (step : R) (Hstep : 0 < step).
  Lemma loop_in fuel : forall v stop l, gridLoop realNums step fuel v stop = Some l ->
    forall x, In x l <-> exists m : nat, x = v + INR m * step /\ x < stop.
  Proof using Hstep.
    induction fuel as [|fuel IH]; intros v stop l H x; cbn [gridLoop] in H; destruct (rlt v stop) eqn:E.
    - discriminate.
    - injection H as <-. apply rlt_false in E. split; [easy|]. intros (m & -> & L). pose proof (pos_INR m).
      assert (0 <= INR m * step) by (apply Rmult_le_pos; lra). lra.
    - cbn [realNums nadd] in H. destruct (gridLoop realNums step fuel (v + step) stop) as [l'|] eqn:F; [|discriminate]. injection H as <-.
      apply rlt_true in E. cbn [In]. rewrite (IH _ _ _ F x). split.
      + intros [->|(m & -> & L)]; [exists 0%nat; cbn [INR]; lra|]. exists (S m). rewrite S_INR. split; [ring|]. lra.
      + intros (m & -> & L). destruct m as [|m]; [left; cbn [INR]; ring|]. right. exists m. rewrite S_INR in *. split; [ring|]. lra.
    - injection H as <-. apply rlt_false in E. split; [easy|]. intros (m & -> & L). pose proof (pos_INR m).
      assert (0 <= INR m * step) by (apply Rmult_le_pos; lra). lra.
  Qed.
  Lemma loop_ends fuel : forall v stop, stop <= v + INR fuel * step -> gridLoop realNums step fuel v stop <> None.
  Proof using Hstep.
    induction fuel as [|fuel IH]; intros v stop H; cbn [gridLoop]; destruct (rlt v stop) eqn:E; try discriminate.
    - apply rlt_true in E. cbn [INR] in H. lra.
    - assert (F : gridLoop realNums step fuel (v + step) stop <> None) by (apply IH; rewrite S_INR in H; lra).
      cbn [realNums nadd]. destruct (gridLoop realNums step fuel (v + step) stop); [discriminate|easy].
  Qed.
  Definition ceilZ (x : R) : Z := (- (up (- x) - 1))%Z.
  Lemma ceil_ok x : x <= IZR (ceilZ x) < x + 1.
  Proof. unfold ceilZ. destruct (archimed (- x)) as (A & B). rewrite opp_IZR, minus_IZR. lra. Qed.
  Lemma gridCeil_ok v : exists c : Z, gridCeil realNums realGrids step v = IZR c * step /\ v <= IZR c * step < v + step.
  Proof using Hstep.
    exists (ceilZ (v / step)). split; [reflexivity|]. destruct (ceil_ok (v / step)) as (A & B).
    assert (E : v / step * step = v) by (field; lra).
    apply Rmult_le_compat_r with (r := step) in A; [|lra]. apply Rmult_lt_compat_r with (r := step) in B; [|lra]. lra.
  Qed.
  Lemma step_notzero : isZero realNums step = false.
  Proof using Hstep. apply isZero_not. lra. Qed.
  Lemma lines_in fuel a b l : gridLines realNums realGrids step fuel a b = Some l ->
    forall x, In x l <-> exists z : Z, x = IZR z * step /\ a <= x < b.
  Proof using Hstep.
    unfold gridLines. rewrite step_notzero. intros H x. rewrite (loop_in _ _ _ _ H x).
    destruct (gridCeil_ok a) as (c & -> & A & B). split.
    - intros (m & -> & L). pose proof (pos_INR m). assert (0 <= INR m * step) by (apply Rmult_le_pos; lra).
      exists (c + Z.of_nat m)%Z. rewrite plus_IZR, <- INR_IZR_INZ. lra.
    - intros (z & -> & L & U). assert (Z : (c <= z)%Z).
      { apply Z.lt_pred_le. unfold Z.pred. apply lt_IZR. rewrite plus_IZR.
        apply Rmult_lt_reg_r with step; [exact Hstep|]. lra. }
      exists (Z.to_nat (z - c)). rewrite INR_IZR_INZ, Z2Nat.id by lia. rewrite minus_IZR. lra.
  Qed.
  Lemma lines_ends fuel a b : (b - a) / step <= INR fuel -> gridLines realNums realGrids step fuel a b <> None.
  Proof using Hstep.
    intros H. unfold gridLines. rewrite step_notzero. apply loop_ends. destruct (gridCeil_ok a) as (c & -> & A & _).
    apply Rmult_le_compat_r with (r := step) in H; [|lra]. unfold Rdiv in H. rewrite Rmult_assoc, Rinv_l in H by lra. lra.
  Qed.
End Lines.

(** Points of a segment. *)
Lemma between_0 s e : between s e 0 = s.
Proof. apply vec2_eq; cbn; ring. Qed.
Lemma between_1 s e : between s e 1 = e.
Proof. apply vec2_eq; cbn; ring. Qed.
Lemma frac_in a b v : a <> b -> a <= v <= b \/ b <= v <= a -> 0 <= (v - a) / (b - a) <= 1 /\ v = a + (v - a) / (b - a) * (b - a).
Proof.
  intros N H. assert (E : v = a + (v - a) / (b - a) * (b - a)) by (field; lra). split; [|exact E].
  set (t := (v - a) / (b - a)) in *. clearbody t. subst v. split; apply Rnot_lt_le; intros L; destruct H as [H|H].
  - assert (0 < - t * (b - a)) by (apply Rmult_lt_0_compat; lra). lra.
  - assert (0 < - t * (a - b)) by (apply Rmult_lt_0_compat; lra). lra.
  - assert (0 < (t - 1) * (b - a)) by (apply Rmult_lt_0_compat; lra). lra.
  - assert (0 < (t - 1) * (a - b)) by (apply Rmult_lt_0_compat; lra). lra.
Qed.
Lemma frac_range a b t : 0 <= t <= 1 -> a <= b -> a <= a + t * (b - a) <= b.
Proof. intros (A & B) H. split; nra. Qed.
Lemma frac_range' a b t : 0 <= t <= 1 -> b <= a -> b <= a + t * (b - a) <= a.
Proof. intros (A & B) H. split; nra. Qed.

(** Sorted along the segment, equal points allowed. *)
Definition upTo (s e p q : vec2 R) : Prop := exists t u, 0 <= t <= u /\ u <= 1 /\ p = between s e t /\ q = between s e u.
Lemma sorted_weak {A} (P Q : A -> A -> Prop) l : (forall a b, In a l -> In b l -> P a b -> Q a b) -> StronglySorted P l -> StronglySorted Q l.
Proof.
  intros H S. induction S as [|a l S IH F]; constructor.
  - apply IH. intros; apply H; try now right. assumption.
  - rewrite Forall_forall in *. intros b Hb. apply H; [now left|now right|auto].
Qed.
Lemma sorted_snoc {A} (P : A -> A -> Prop) l e : StronglySorted P l -> (forall a, In a l -> P a e) -> StronglySorted P (l ++ [e]).
Proof.
  intros S. induction S as [|a l S IH F]; intros H; cbn [app]; [constructor; constructor|]. constructor.
  - apply IH. intros b Hb. apply H. now right.
  - apply Forall_app. split; [exact F|]. constructor; [apply H; now left|constructor].
Qed.

Lemma ltX_order : weakOrder (ltX realNums).
Proof. repeat split; unfold ltX; intros; rewrite ?rlt_true, ?rlt_false in *; lra. Qed.
Lemma gtX_order : weakOrder (gtX realNums).
Proof. repeat split; unfold gtX; intros; rewrite ?rlt_true, ?rlt_false in *; lra. Qed.
Lemma ltY_order : weakOrder (ltY realNums).
Proof. repeat split; unfold ltY; intros; rewrite ?rlt_true, ?rlt_false in *; lra. Qed.
Lemma gtY_order : weakOrder (gtY realNums).
Proof. repeat split; unfold gtY; intros; rewrite ?rlt_true, ?rlt_false in *; lra. Qed.

(** A comparison which follows the segment. *)
Definition follows (s e : vec2 R) (lt : vec2 R -> vec2 R -> bool) : Prop :=
  weakOrder lt /\ forall t u, lt (between s e t) (between s e u) = false -> u <= t.
Lemma follows_x s e : v2x s <> v2x e -> follows s e (if rlt (v2x s) (v2x e) then ltX realNums else gtX realNums).
Proof.
  intros N. destruct (rlt (v2x s) (v2x e)) eqn:E.
  - split; [apply ltX_order|]. intros t u H. apply rlt_true in E. unfold ltX in H. apply rlt_false in H. cbn [between v2x] in H. nra.
  - split; [apply gtX_order|]. intros t u H. apply rlt_false in E. unfold gtX in H. apply rlt_false in H. cbn [between v2x] in H. nra.
Qed.
Lemma follows_y s e : v2y s <> v2y e -> follows s e (if rlt (v2y s) (v2y e) then ltY realNums else gtY realNums).
Proof.
  intros N. destruct (rlt (v2y s) (v2y e)) eqn:E.
  - split; [apply ltY_order|]. intros t u H. apply rlt_true in E. unfold ltY in H. apply rlt_false in H. cbn [between v2y] in H. nra.
  - split; [apply gtY_order|]. intros t u H. apply rlt_false in E. unfold gtY in H. apply rlt_false in H. cbn [between v2y] in H. nra.
Qed.

Section Raw.
  Context (srt : (vec2 R -> vec2 R -> bool) -> list (vec2 R) -> list (vec2 R)) (Hsrt : sorts srt) (step : R) (Hstep : 0 < step).
  (** All nodes in order. *)
  Definition complete (s e : vec2 R) (l : list (vec2 R)) : Prop :=
    (forall p, In p l <-> node step s e p) /\ StronglySorted (upTo s e) l.

  Lemma node_on s e p : node step s e p -> onSegment s e p.
  Proof.
    intros [->|[->|(H & _)]]; [exists 0|exists 1|exact H].
    - split; [lra|symmetry; apply between_0].
    - split; [lra|symmetry; apply between_1].
  Qed.
  Lemma sorted_complete s e lt l : follows s e lt ->
    (forall p, In p (l ++ [e]) <-> node step s e p) -> complete s e (srt lt l ++ [e]).
  Proof using Hsrt.
    intros (O & Fw) H. destruct (Hsrt lt l O) as (P & S).
    assert (I : forall p, In p (srt lt l ++ [e]) <-> node step s e p).
    { intros p. rewrite <- H, !in_app_iff. split; intros [Q|Q]; auto; left;
        [apply (Permutation_in p (Permutation_sym P) Q)|apply (Permutation_in p P Q)]. }
    split; [exact I|]. apply sorted_snoc.
    - eapply sorted_weak; [|exact S]. intros a b Ha Hb L. cbn beta in L.
      destruct (node_on s e a) as (t & Ht & ->); [apply I, in_or_app; now left|].
      destruct (node_on s e b) as (u & Hu & ->); [apply I, in_or_app; now left|]. apply Fw in L.
      exists t, u. repeat split; try reflexivity; lra.
    - intros a Ha. destruct (node_on s e a) as (t & Ht & ->); [apply I, in_or_app; now left|].
      exists t, 1. rewrite between_1. repeat split; try reflexivity; lra.
  Qed.

  Lemma vertical s e fuel pts : v2x s = v2x e -> v2y s <> v2y e ->
    zeroSlope realNums realGrids srt step fuel s e [s] = Some pts -> complete s e (pts ++ [e]).
  Proof using Hsrt Hstep.
    intros X Y H. unfold zeroSlope in H. cbn [realNums nsub] in H. 
    destruct (isZero realNums (v2x s - v2x e)) eqn:Z; [|apply isZero_not in Z; lra].
    pose proof (follows_y s e Y) as Fw.
    set (up := rlt (v2y s) (v2y e)) in *.
    assert (V : exists a b ys, gridLines realNums realGrids step fuel a b = Some ys /\ (if up then a = v2y s /\ b = v2y e else a = v2y e /\ b = v2y s) /\
      pts = srt (if up then ltY realNums else gtY realNums) (s :: map (fun y => mkV2 (v2x s) y) ys)).
    { change (rlt (v2y s) (v2y e)) with up in H. destruct up.
      - destruct (gridLines realNums realGrids step fuel (v2y s) (v2y e)) as [ys|] eqn:G; [|discriminate]. injection H as <-. exists (v2y s), (v2y e), ys. auto.
      - destruct (gridLines realNums realGrids step fuel (v2y e) (v2y s)) as [ys|] eqn:G; [|discriminate]. injection H as <-. exists (v2y e), (v2y s), ys. rewrite X. auto. }
    destruct V as (a & b & ys & G & AB & ->). apply sorted_complete; [exact Fw|]. clear Fw H Z.
    pose proof (lines_in step Hstep _ _ _ _ G) as L. clear G.
    assert (R : a < b /\ (a = v2y s /\ b = v2y e \/ a = v2y e /\ b = v2y s)).
    { unfold up in AB. destruct (rlt (v2y s) (v2y e)) eqn:E; [apply rlt_true in E|apply rlt_false in E]; lra. }
    clear AB. destruct R as (Lt & AB). intros p. rewrite in_app_iff. cbn [In]. rewrite in_map_iff. split.
    - intros [[<-|(y & <- & I)]|[<-|[]]]; [now left| |right; now left].
      apply L in I. destruct I as (z & -> & I). right. right. split.
      + destruct (frac_in (v2y s) (v2y e) (IZR z * step) Y) as (T & E); [lra|].
        eexists. split; [exact T|]. apply vec2_eq; cbn [between v2x v2y]; [rewrite X; ring|exact E].
      + exists z. right. split; [exact Y|reflexivity].
    - intros [->|[->|((t & T & ->) & z & C)]]; [auto|auto|].
      destruct C as [(C & _)|(_ & C)]; [lra|]. cbn [between v2y] in C.
      assert (Rg : a <= v2y s + t * (v2y e - v2y s) <= b).
      { destruct AB as [(-> & ->)|(-> & ->)]; [apply frac_range|apply frac_range']; lra. }
      destruct (Req_dec (v2y s + t * (v2y e - v2y s)) b) as [Eb|Eb].
      + destruct AB as [(-> & ->)|(-> & ->)].
        * right. left. assert (t = 1) by nra. subst t. now rewrite between_1.
        * left. left. assert (t = 0) by nra. subst t. now rewrite between_0.
      + left. right. exists (v2y s + t * (v2y e - v2y s)). split.
        * apply vec2_eq; cbn [between v2x v2y]; [rewrite X; ring|reflexivity].
        * apply L. exists z. lra.
  Qed.
  Lemma horizontal s e fuel pts : v2x s <> v2x e -> v2y s = v2y e ->
    zeroSlope realNums realGrids srt step fuel s e [s] = Some pts -> complete s e (pts ++ [e]).
  Proof using Hsrt Hstep.
    intros X Y H. unfold zeroSlope in H. cbn [realNums nsub] in H. 
    destruct (isZero realNums (v2x s - v2x e)) eqn:Z; [apply isZero_ok in Z; lra|].
    pose proof (follows_x s e X) as Fw.
    set (up := rlt (v2x s) (v2x e)) in *.
    assert (V : exists a b xs, gridLines realNums realGrids step fuel a b = Some xs /\ (if up then a = v2x s /\ b = v2x e else a = v2x e /\ b = v2x s) /\
      pts = srt (if up then ltX realNums else gtX realNums) (s :: map (fun x => mkV2 x (v2y s)) xs)).
    { change (rlt (v2x s) (v2x e)) with up in H. destruct up.
      - destruct (gridLines realNums realGrids step fuel (v2x s) (v2x e)) as [ys|] eqn:G; [|discriminate]. injection H as <-. exists (v2x s), (v2x e), ys. auto.
      - destruct (gridLines realNums realGrids step fuel (v2x e) (v2x s)) as [ys|] eqn:G; [|discriminate]. injection H as <-. exists (v2x e), (v2x s), ys. rewrite Y. auto. }
    destruct V as (a & b & ys & G & AB & ->). apply sorted_complete; [exact Fw|]. clear Fw H Z.
    pose proof (lines_in step Hstep _ _ _ _ G) as L. clear G.
    assert (R : a < b /\ (a = v2x s /\ b = v2x e \/ a = v2x e /\ b = v2x s)).
    { unfold up in AB. destruct (rlt (v2x s) (v2x e)) eqn:E; [apply rlt_true in E|apply rlt_false in E]; lra. }
    clear AB. destruct R as (Lt & AB). intros p. rewrite in_app_iff. cbn [In]. rewrite in_map_iff. split.
    - intros [[<-|(y & <- & I)]|[<-|[]]]; [now left| |right; now left].
      apply L in I. destruct I as (z & -> & I). right. right. split.
      + destruct (frac_in (v2x s) (v2x e) (IZR z * step) X) as (T & E); [lra|].
        eexists. split; [exact T|]. apply vec2_eq; cbn [between v2x v2y]; [exact E|rewrite Y; ring].
      + exists z. left. split; [exact X|reflexivity].
    - intros [->|[->|((t & T & ->) & z & C)]]; [auto|auto|].
      destruct C as [(_ & C)|(C & _)]; [|lra]. cbn [between v2x] in C.
      assert (Rg : a <= v2x s + t * (v2x e - v2x s) <= b).
      { destruct AB as [(-> & ->)|(-> & ->)]; [apply frac_range|apply frac_range']; lra. }
      destruct (Req_dec (v2x s + t * (v2x e - v2x s)) b) as [Eb|Eb].
      + destruct AB as [(-> & ->)|(-> & ->)].
        * right. left. assert (t = 1) by nra. subst t. now rewrite between_1.
        * left. left. assert (t = 0) by nra. subst t. now rewrite between_0.
      + left. right. exists (v2x s + t * (v2x e - v2x s)). split.
        * apply vec2_eq; cbn [between v2x v2y]; [reflexivity|rewrite Y; ring].
        * apply L. exists z. lra.
  Qed.
  Lemma slanted s e fuel pts : v2x s <> v2x e -> v2y s <> v2y e ->
    normalCase realNums realGrids srt step fuel s e ((v2y e - v2y s) / (v2x e - v2x s)) [s] = Some pts -> complete s e (pts ++ [e]).
  Proof using Hsrt Hstep.
    intros X Y H. pose proof (follows_x s e X) as Fw. set (slope := (v2y e - v2y s) / (v2x e - v2x s)) in *.
    assert (V : exists a b c d xs ys, gridLines realNums realGrids step fuel a b = Some xs /\ gridLines realNums realGrids step fuel c d = Some ys /\
      a < b /\ c < d /\ (a = v2x s /\ b = v2x e \/ a = v2x e /\ b = v2x s) /\ (c = v2y s /\ d = v2y e \/ c = v2y e /\ d = v2y s) /\
      pts = srt (if rlt (v2x s) (v2x e) then ltX realNums else gtX realNums)
        (s :: map (fun x => mkV2 x (slope * x + (v2y s - slope * v2x s))) xs ++
              map (fun y => mkV2 ((y - (v2y s - slope * v2x s)) * (1 / slope)) y) ys)).
    { unfold normalCase in H. cbn [realNums nsub nmul nadd ndiv realGrids done] in H. clear Fw.
      change (fun x y : R => if Rlt_dec x y then true else false) with rlt in H.
      change {| nzero := _ |} with realNums in H.
      destruct (rlt (v2x s) (v2x e)) eqn:E1.
      - destruct (gridLines realNums realGrids step fuel (v2x s) (v2x e)) as [xs|] eqn:G1; [|discriminate].
        apply rlt_true in E1.
        destruct (rlt (v2y s) (v2y e)) eqn:E2.
        + destruct (gridLines realNums realGrids step fuel (v2y s) (v2y e)) as [ys|] eqn:G2; [|discriminate]. injection H as <-.
          apply rlt_true in E2. exists (v2x s), (v2x e), (v2y s), (v2y e), xs, ys. repeat (split; [first [assumption|now left]|]). reflexivity.
        + destruct (gridLines realNums realGrids step fuel (v2y e) (v2y s)) as [ys|] eqn:G2; [|discriminate]. injection H as <-.
          apply rlt_false in E2. exists (v2x s), (v2x e), (v2y e), (v2y s), xs, ys.
          repeat (split; [first [assumption|lra|now left|now right]|]). reflexivity.
      - destruct (gridLines realNums realGrids step fuel (v2x e) (v2x s)) as [xs|] eqn:G1; [|discriminate].
        apply rlt_false in E1.
        destruct (rlt (v2y e) (v2y s)) eqn:E2.
        + destruct (gridLines realNums realGrids step fuel (v2y e) (v2y s)) as [ys|] eqn:G2; [|discriminate]. injection H as <-.
          apply rlt_true in E2. exists (v2x e), (v2x s), (v2y e), (v2y s), xs, ys.
          repeat (split; [first [assumption|lra|now left|now right]|]). reflexivity.
        + destruct (gridLines realNums realGrids step fuel (v2y s) (v2y e)) as [ys|] eqn:G2; [|discriminate]. injection H as <-.
          apply rlt_false in E2. exists (v2x e), (v2x s), (v2y s), (v2y e), xs, ys.
          repeat (split; [first [assumption|lra|now left|now right]|]). reflexivity. }
    destruct V as (a & b & c & d & xs & ys & G1 & G2 & Lab & Lcd & AB & CD & ->). apply sorted_complete; [exact Fw|]. clear Fw H.
    pose proof (lines_in step Hstep _ _ _ _ G1) as L1. pose proof (lines_in step Hstep _ _ _ _ G2) as L2. clear G1 G2.
    assert (Sl : slope <> 0). { unfold slope. intros E. apply Rmult_integral in E. destruct E as [E|E]; [lra|]. revert E. apply Rinv_neq_0_compat. lra. }
    assert (PX : forall x, mkV2 x (slope * x + (v2y s - slope * v2x s)) = between s e ((x - v2x s) / (v2x e - v2x s))).
    { intros x. apply vec2_eq; cbn [between v2x v2y]; unfold slope; field; lra. }
    assert (PY : forall y, mkV2 ((y - (v2y s - slope * v2x s)) * (1 / slope)) y = between s e ((y - v2y s) / (v2y e - v2y s))).
    { intros y. apply vec2_eq; cbn [between v2x v2y]; [|field; lra]. unfold slope. field. lra. }
    intros p. rewrite in_app_iff. cbn [In]. rewrite in_app_iff, !in_map_iff. split.
    - intros [[<-|[(x & <- & I)|(y & <- & I)]]|[<-|[]]]; [now left| | |right; now left].
      + apply L1 in I. destruct I as (z & -> & I). right. right. split.
        * rewrite PX. eexists. split; [|reflexivity]. apply frac_in; [exact X|]. lra.
        * exists z. left. split; [exact X|reflexivity].
      + apply L2 in I. destruct I as (z & -> & I). right. right. split.
        * rewrite PY. eexists. split; [|reflexivity]. apply frac_in; [exact Y|]. lra.
        * exists z. right. split; [exact Y|reflexivity].
    - intros [->|[->|((t & T & ->) & z & C)]]; [auto|auto|].
      destruct C as [(_ & C)|(_ & C)]; cbn [between v2x v2y] in C.
      + assert (Rg : a <= v2x s + t * (v2x e - v2x s) <= b).
        { destruct AB as [(-> & ->)|(-> & ->)]; [apply frac_range|apply frac_range']; lra. }
        destruct (Req_dec (v2x s + t * (v2x e - v2x s)) b) as [Eb|Eb].
        * destruct AB as [(-> & ->)|(-> & ->)].
          -- right. left. assert (t = 1) by nra. subst t. now rewrite between_1.
          -- left. left. assert (t = 0) by nra. subst t. now rewrite between_0.
        * left. right. left. exists (v2x s + t * (v2x e - v2x s)). split; [|apply L1; exists z; lra].
          rewrite PX. f_equal. field. lra.
      + assert (Rg : c <= v2y s + t * (v2y e - v2y s) <= d).
        { destruct CD as [(-> & ->)|(-> & ->)]; [apply frac_range|apply frac_range']; lra. }
        destruct (Req_dec (v2y s + t * (v2y e - v2y s)) d) as [Eb|Eb].
        * destruct CD as [(-> & ->)|(-> & ->)].
          -- right. left. assert (t = 1) by nra. subst t. now rewrite between_1.
          -- left. left. assert (t = 0) by nra. subst t. now rewrite between_0.
        * left. right. right. exists (v2y s + t * (v2y e - v2y s)). split; [|apply L2; exists z; lra].
          rewrite PY. f_equal. field. lra.
  Qed.
End Raw.

(** The order of points on a segment. *)
Lemma between_inj s e t u : s <> e -> between s e t = between s e u -> t = u.
Proof.
  intros N E. unfold between in E. injection E as E1 E2.
  destruct (Req_dec (v2x e - v2x s) 0) as [X|X].
  - destruct (Req_dec (v2y e - v2y s) 0) as [Y|Y]; [exfalso; apply N, vec2_eq; lra|].
    apply Rmult_eq_reg_r with (v2y e - v2y s); [lra|exact Y].
  - apply Rmult_eq_reg_r with (v2x e - v2x s); [lra|exact X].
Qed.
Lemma between_same s t : between s s t = s.
Proof. apply vec2_eq; cbn; ring. Qed.
Lemma vec2_dec (a b : vec2 R) : a = b \/ a <> b.
Proof.
  destruct (Req_dec (v2x a) (v2x b)) as [X|X]; [|right; congruence].
  destruct (Req_dec (v2y a) (v2y b)) as [Y|Y]; [|right; congruence]. left. now apply vec2_eq.
Qed.
Lemma upTo_trans s e p q r : upTo s e p q -> upTo s e q r -> upTo s e p r.
Proof.
  intros (t & u & A & B & -> & ->) (u' & v & A' & B' & E & ->).
  destruct (vec2_dec s e) as [<-|N].
  - exists t, 1. rewrite !between_same. repeat split; lra.
  - apply between_inj in E; [|exact N]. subst u'. exists t, v. repeat split; lra.
Qed.
Lemma upTo_anti s e p q : upTo s e p q -> upTo s e q p -> p = q.
Proof.
  intros (t & u & A & B & -> & ->) (u' & v & A' & B' & E & E').
  destruct (vec2_dec s e) as [<-|N]; [now rewrite !between_same|].
  apply between_inj in E; [|exact N]. apply between_inj in E'; [|exact N]. subst. f_equal. lra.
Qed.
Lemma before_upTo s e p q : before s e p q <-> p <> q /\ upTo s e p q.
Proof.
  split; intros (N & t & u & A & B & -> & ->); (split; [exact N|]); exists t, u.
  - repeat split; lra.
  - assert (t <> u) by congruence. repeat split; lra.
Qed.
Lemma before_anti s e p q : before s e p q -> before s e q p -> False.
Proof. rewrite !before_upTo. intros (N & A) (_ & B). apply N, (upTo_anti s e); assumption. Qed.
Lemma before_flip s e p q : before s e p q -> before e s q p.
Proof.
  intros (N & t & u & A & B & -> & ->). split; [congruence|]. exists (1 - u), (1 - t).
  repeat split; try lra; apply vec2_eq; cbn [between v2x v2y]; ring.
Qed.
Lemma node_flip step s e p : node step s e p -> node step e s p.
Proof.
  intros [->|[->|((t & T & ->) & z & C)]]; [right; now left|now left|]. right. right. split.
  - exists (1 - t). split; [lra|]. apply vec2_eq; cbn [between v2x v2y]; ring.
  - exists z. destruct C as [(N & C)|(N & C)]; [left|right]; split; auto.
Qed.

(** Keeping what is not too close to the last one kept. *)
Fixpoint keep (l : vec2 R) (pts : list (vec2 R)) : list (vec2 R) :=
  match pts with
  | [] => []
  | c :: pts => if tooClose realNums realGrids l c then keep l pts else c :: keep c pts
  end.
Lemma merge_keep pts : forall r l, mergeResults realNums realGrids pts (r ++ [l]) = r ++ l :: keep l pts.
Proof.
  induction pts as [|c pts IH]; intros r l; [reflexivity|]. cbn [mergeResults keep].
  destruct (r ++ [l]) as [|h r'] eqn:E; [now destruct r|]. rewrite <- E. 
  replace (last (r ++ [l]) h) with l by (symmetry; apply last_last).
  destruct (tooClose realNums realGrids l c); [apply IH|]. rewrite IH, <- app_assoc. reflexivity.
Qed.
Lemma merge_first c pts : mergeResults realNums realGrids (c :: pts) [] = c :: keep c pts.
Proof. cbn [mergeResults]. apply (merge_keep pts [] c). Qed.
Notation eps := (/ 2 ^ 52).
Lemma eps_pos : 0 < eps.
Proof. apply Rinv_0_lt_compat, pow_lt. lra. Qed.
Lemma close_near a b : tooClose realNums realGrids a b = true <-> near eps a b.
Proof. unfold tooClose, near. rewrite Bool.andb_true_iff, !rlt_true. reflexivity. Qed.
Lemma near_refl a : near eps a a.
Proof. unfold near. rewrite !Rminus_diag_eq, Rabs_R0 by reflexivity. pose proof eps_pos. lra. Qed.

Lemma keep_ok s e pts : forall l, StronglySorted (upTo s e) (l :: pts) ->
  StronglySorted (before s e) (l :: keep l pts) /\ incl (keep l pts) pts /\
  forall p, In p pts -> exists q, In q (l :: keep l pts) /\ near eps q p.
Proof.
  induction pts as [|c pts IH]; intros l S.
  - cbn [keep]. split; [repeat constructor|]. split; [intros x []|]. intros p [].
  - inversion S as [|? ? S1 F1]; subst. inversion F1 as [|? ? L1 F2]; subst. inversion S1 as [|? ? S2 F3]; subst.
    cbn [keep]. destruct (tooClose realNums realGrids l c) eqn:E.
    + destruct (IH l) as (A & B & C); [constructor; assumption|]. split; [exact A|]. split; [intros x Hx; right; auto|].
      intros p [<-|Hp]; [|auto]. exists l. split; [now left|]. now apply close_near.
    + destruct (IH c S1) as (A & B & C). split; [|split].
      * constructor; [exact A|]. apply Forall_forall. intros x Hx. apply before_upTo.
        assert (N : l <> c) by (intros ->; pose proof (proj2 (close_near c c) (near_refl c)); congruence).
        destruct Hx as [<-|Hx]; [split; assumption|].
        rewrite Forall_forall in F2, F3. pose proof (F3 x (B x Hx)). split; [|apply F2, B, Hx].
        intros <-. apply N. apply (upTo_anti s e); assumption.
      * intros x [<-|Hx]; [now left|right; auto].
      * intros p [<-|Hp]; [exists c; split; [right; now left|apply near_refl]|].
        destruct (C p Hp) as (q & Q & Qn). exists q. split; [now right|exact Qn].
Qed.

(** Lists sorted in the same order with the same members are the same. *)
Lemma sorted_unique {A} (lt : A -> A -> Prop) l : (forall a b, lt a b -> lt b a -> False) -> forall m,
  StronglySorted lt l -> StronglySorted lt m -> (forall a, In a l <-> In a m) -> l = m.
Proof.
  intros Asym. induction l as [|a l IH]; intros m S1 S2 H.
  - destruct m as [|b m]; [reflexivity|]. exfalso. apply (H b). now left.
  - destruct m as [|b m]; [exfalso; apply (H a); now left|].
    inversion S1 as [|? ? T1 F1]; subst. inversion S2 as [|? ? T2 F2]; subst. rewrite Forall_forall in F1, F2.
    assert (E : a = b).
    { destruct (proj1 (H a) (or_introl eq_refl)) as [E|Ha]; [now symmetry|].
      destruct (proj2 (H b) (or_introl eq_refl)) as [E|Hb]; [exact E|]. exfalso. apply (Asym a b); auto. }
    subst b. f_equal. apply IH; [assumption|assumption|]. intros x. split; intros Hx.
    + destruct (proj1 (H x) (or_intror Hx)) as [<-|G]; [exfalso; apply (Asym a a); auto|exact G].
    + destruct (proj2 (H x) (or_intror Hx)) as [<-|G]; [exfalso; apply (Asym a a); auto|exact G].
Qed.
Lemma sorted_app {A} (lt : A -> A -> Prop) l m : StronglySorted lt l -> StronglySorted lt m -> (forall a b, In a l -> In b m -> lt a b) ->
  StronglySorted lt (l ++ m).
Proof.
  induction 1 as [|a l S IH F]; intros T H; [exact T|]. cbn [app]. constructor.
  - apply IH; [exact T|]. intros; apply H; [now right|assumption].
  - apply Forall_app. split; [exact F|]. apply Forall_forall. intros b Hb. apply H; [now left|exact Hb].
Qed.
Lemma sorted_rev {A} (lt gt : A -> A -> Prop) l : (forall a b, lt a b -> gt b a) -> StronglySorted lt l -> StronglySorted gt (rev l).
Proof.
  intros H. induction 1 as [|a l S IH F]; [constructor|]. cbn [rev]. apply sorted_app; [exact IH|repeat constructor|].
  intros x y Hx [<-|[]]. apply H. rewrite Forall_forall in F. apply F. now apply in_rev.
Qed.

(** Corners with whole coordinates. *)
Definition moderate (a b : Z * Z) : Prop := (Z.abs (fst b - fst a) <= 2 ^ 52)%Z.
Section Split.
  Context (srt : (vec2 R -> vec2 R -> bool) -> list (vec2 R) -> list (vec2 R)) (Hsrt : sorts srt)
    (scale step : R) (Hscale : 0 < scale) (Hstep : 0 < step).
  Notation realSplit := (split realNums realGrids srt scale step).
  Notation at_ := (cornerOf realNums realGrids scale).

  Lemma flat_slope a b : moderate a b -> v2x (at_ b) <> v2x (at_ a) ->
    Rabs ((v2y (at_ b) - v2y (at_ a)) / (v2x (at_ b) - v2x (at_ a))) < eps -> v2y (at_ b) = v2y (at_ a).
  Proof using Hscale.
    unfold moderate, cornerOf. cbn [realNums realGrids dint ndiv v2x v2y]. intros M N H.
    destruct (Z.eq_dec (snd b) (snd a)) as [->|Ny]; [reflexivity|]. exfalso.
    assert (Nx : (fst b - fst a <> 0)%Z). { intros E. apply N. replace (fst b) with (fst a) by lia. reflexivity. }
    assert (Sl : (IZR (snd b) / scale - IZR (snd a) / scale) / (IZR (fst b) / scale - IZR (fst a) / scale) = IZR (snd b - snd a) / IZR (fst b - fst a)).
    { assert (IZR (fst b - fst a) <> 0) by (apply not_0_IZR; exact Nx). rewrite !minus_IZR in *. field. lra. }
    rewrite Sl in H. clear Sl.
    unfold Rdiv in H. rewrite Rabs_mult, Rabs_inv in H. rewrite <- !abs_IZR in H.
    set (y := Z.abs (snd b - snd a)) in *. set (x := Z.abs (fst b - fst a)) in *.
    assert (Y : 1 <= IZR y) by (apply IZR_le; lia). assert (X : 1 <= IZR x) by (apply IZR_le; lia).
    assert (X' : IZR x <= 2 ^ 52). { apply IZR_le in M. rewrite (pow_IZR 2 52). exact M. }
    assert (eps <= / IZR x) by (apply Rinv_le_contravar; lra).
    assert (/ IZR x <= IZR y * / IZR x).
    { rewrite <- (Rmult_1_l (/ IZR x)) at 1. apply Rmult_le_compat_r; [|exact Y]. left. apply Rinv_0_lt_compat. lra. }
    lra.
  Qed.

  (** What is merged into the result. *)
  Definition rawOf (fuel : nat) (a b : Z * Z) : option (list (vec2 R)) :=
    let s := at_ a in let e := at_ b in
    let dx := v2x e - v2x s in let dy := v2y e - v2y s in
    option_map (fun pts => pts ++ [e])
      (if isZero realNums dx then if isZero realNums dy then Some [s] else zeroSlope realNums realGrids srt step fuel s e [s]
       else if rlt (Rabs (dy / dx)) eps then zeroSlope realNums realGrids srt step fuel s e [s]
       else normalCase realNums realGrids srt step fuel s e (dy / dx) [s]).
  Lemma split_raw fuel a b result : realSplit fuel a b result = option_map (fun raw => mergeResults realNums realGrids raw result) (rawOf fuel a b).
  Proof.
    unfold split, rawOf. cbv zeta. set (s := at_ a). set (e := at_ b). cbn [realNums nsub ndiv nabs realGrids deps].
    change {| nzero := _ |} with realNums. change {| dint := _ |} with realGrids.
    destruct (isZero realNums (v2x e - v2x s)); [destruct (isZero realNums (v2y e - v2y s))|].
    - reflexivity.
    - destruct (zeroSlope realNums realGrids srt step fuel s e [s]); reflexivity.
    - change (if Rlt_dec ?x ?y then true else false) with (rlt x y).
      destruct (rlt (Rabs ((v2y e - v2y s) / (v2x e - v2x s))) eps).
      + destruct (zeroSlope realNums realGrids srt step fuel s e [s]); reflexivity.
      + destruct (normalCase realNums realGrids srt step fuel s e _ [s]); reflexivity.
  Qed.
  Lemma raw_complete fuel a b raw : moderate a b -> rawOf fuel a b = Some raw -> complete step (at_ a) (at_ b) raw.
  Proof using Hsrt Hscale Hstep.
    intros M. pose proof (flat_slope a b M) as Fl. unfold rawOf. cbv zeta. set (s := at_ a) in *. set (e := at_ b) in *.
    destruct (isZero realNums (v2x e - v2x s)) eqn:ZX.
    - apply isZero_ok in ZX. destruct (isZero realNums (v2y e - v2y s)) eqn:ZY.
      + apply isZero_ok in ZY. intros H. injection H as <-.
        assert (E : e = s) by (apply vec2_eq; lra). rewrite E. split.
        * intros p. cbn [app In]. split; [intros [<-|[<-|[]]]; now left|]. intros [->|[->|((t & _ & ->) & _)]]; auto. left. now rewrite between_same.
        * repeat constructor. exists 0, 1. rewrite !between_same. repeat split; lra.
      + apply isZero_not in ZY. destruct (zeroSlope realNums realGrids srt step fuel s e [s]) as [pts|] eqn:Z; [|discriminate].
        intros H. injection H as <-. apply (vertical srt Hsrt step Hstep s e fuel pts); [lra|lra|exact Z].
    - apply isZero_not in ZX. destruct (rlt (Rabs ((v2y e - v2y s) / (v2x e - v2x s))) eps) eqn:Sm.
      + apply rlt_true in Sm. apply Fl in Sm; [|lra].
        destruct (zeroSlope realNums realGrids srt step fuel s e [s]) as [pts|] eqn:Z; [|discriminate].
        intros H. injection H as <-. apply (horizontal srt Hsrt step Hstep s e fuel pts); [lra|now symmetry|exact Z].
      + destruct (normalCase realNums realGrids srt step fuel s e _ [s]) as [pts|] eqn:Z; [|discriminate].
        intros H. injection H as <-. apply (slanted srt Hsrt step Hstep s e fuel pts); [lra| |exact Z].
        intros Y. apply rlt_false in Sm. rewrite Y in Sm.
        replace ((v2y e - v2y e) / (v2x e - v2x s)) with 0 in Sm by (field; lra). rewrite Rabs_R0 in Sm. pose proof eps_pos. lra.
  Qed.
  Lemma raw_head s e raw : complete step s e raw -> exists r, raw = s :: r.
  Proof.
    intros (I & S). destruct raw as [|h r]; [exfalso; apply (I s); now left|]. exists r. f_equal.
    assert (Hs : In s (h :: r)) by (apply I; now left). destruct Hs as [->|Hs]; [reflexivity|].
    inversion S as [|? ? _ F]; subst. rewrite Forall_forall in F. apply F in Hs.
    destruct (node_on step s e h (proj1 (I h) (or_introl eq_refl))) as (t & T & ->).
    apply (upTo_anti s e); [exact Hs|]. exists 0, t. rewrite between_0. repeat split; lra.
  Qed.
  Lemma split_first fuel a b out : moderate a b -> realSplit fuel a b [] = Some out ->
    exists r, out = at_ a :: r /\ StronglySorted (before (at_ a) (at_ b)) out /\
      (forall p, In p out -> node step (at_ a) (at_ b) p) /\
      (forall p, node step (at_ a) (at_ b) p -> exists q, In q out /\ near eps q p).
  Proof using Hsrt Hscale Hstep.
    intros M H. rewrite split_raw in H. destruct (rawOf fuel a b) as [raw|] eqn:R; [|discriminate]. injection H as <-.
    pose proof (raw_complete fuel a b raw M R) as C. destruct (raw_head _ _ raw C) as (r & ->).
    rewrite merge_first. destruct C as (I & S). destruct (keep_ok _ _ _ _ S) as (A & B & D).
    exists (keep (at_ a) r). split; [reflexivity|]. split; [exact A|]. split.
    - intros p [<-|Hp]; [now left|]. apply I. right. auto.
    - intros p Hp. apply I in Hp. destruct Hp as [<-|Hp]; [exists (at_ a); split; [now left|apply near_refl]|auto].
  Qed.
  (** The result does not depend on what was there before, but for its last point. *)
  Lemma split_next fuel a b result out : moderate a b -> realSplit fuel a b (result ++ [at_ a]) = Some out ->
    exists r, realSplit fuel a b [] = Some (at_ a :: r) /\ out = result ++ at_ a :: r.
  Proof using Hsrt Hscale Hstep.
    intros M H. rewrite split_raw in H |- *. destruct (rawOf fuel a b) as [raw|] eqn:R; [|discriminate]. injection H as <-.
    destruct (raw_head _ _ raw (raw_complete fuel a b raw M R)) as (r & ->). exists (keep (at_ a) r). split.
    - cbn [option_map]. now rewrite merge_first.
    - rewrite merge_keep. cbn [keep]. now rewrite (proj2 (close_near _ _) (near_refl _)).
  Qed.
  Lemma split_more fuel a b result : realSplit fuel a b [] <> None -> realSplit fuel a b result <> None.
  Proof. rewrite !split_raw. destruct (rawOf fuel a b); cbn; congruence. Qed.

  (** Spaced nodes are all kept. *)
  Lemma split_exact fuel a b out : moderate a b -> spaced eps step (at_ a) (at_ b) -> realSplit fuel a b [] = Some out ->
    StronglySorted (before (at_ a) (at_ b)) out /\ forall p, In p out <-> node step (at_ a) (at_ b) p.
  Proof using Hsrt Hscale Hstep.
    intros M Sp H. destruct (split_first fuel a b out M H) as (r & _ & S & A & B). split; [exact S|].
    intros p. split; [apply A|]. intros N. destruct (B p N) as (q & Q & E). rewrite <- (Sp q p (A q Q) N E). exact Q.
  Qed.
  Lemma split_last fuel a b r : moderate a b -> spaced eps step (at_ a) (at_ b) -> realSplit fuel a b [] = Some (at_ a :: r) ->
    exists r', at_ a :: r = r' ++ [at_ b].
  Proof using Hsrt Hscale Hstep.
    intros M Sp H. destruct (split_exact fuel a b _ M Sp H) as (S & I).
    destruct (@exists_last _ (at_ a :: r)) as (r' & l & E); [discriminate|]. exists r'. rewrite E. do 2 f_equal.
    rewrite E in S, I. assert (Hb : In (at_ b) (r' ++ [l])) by (apply I; right; now left).
    apply in_app_or in Hb. destruct Hb as [Hb|[->|[]]]; [|reflexivity]. exfalso.
    assert (Hl : node step (at_ a) (at_ b) l) by (apply I, in_or_app; right; now left).
    assert (L : before (at_ a) (at_ b) (at_ b) l).
    { clear -S Hb. induction r' as [|c r' IH]; [easy|]. cbn [app] in S. inversion S as [|? ? S' F]; subst. destruct Hb as [->|Hb]; [|auto].
      rewrite Forall_forall in F. apply F, in_or_app. right. now left. }
    apply before_upTo in L. destruct L as (N & L). apply N. apply (upTo_anti (at_ a) (at_ b)); [exact L|].
    destruct (node_on _ _ _ _ Hl) as (t & T & ->). exists t, 1. rewrite between_1. repeat split; lra.
  Qed.

  (** Enough fuel. *)
  Lemma zero_ends fuel s e pts : Rabs (v2x e - v2x s) / step <= INR fuel -> Rabs (v2y e - v2y s) / step <= INR fuel ->
    zeroSlope realNums realGrids srt step fuel s e pts <> None.
  Proof using Hstep.
    intros X Y. assert (L : forall a b, Rabs (b - a) / step <= INR fuel -> gridLines realNums realGrids step fuel a b <> None).
    { intros a b H. apply lines_ends; [exact Hstep|]. eapply Rle_trans; [|exact H]. apply Rmult_le_compat_r; [left; apply Rinv_0_lt_compat, Hstep|apply Rle_abs]. }
    pose proof (L _ _ X). pose proof (L _ _ Y). rewrite Rabs_minus_sym in X, Y. pose proof (L _ _ X). pose proof (L _ _ Y).
    unfold zeroSlope. destruct (isZero realNums _).
    - destruct (rlt (v2y s) (v2y e)); [destruct (gridLines _ _ _ _ (v2y s) (v2y e))|destruct (gridLines _ _ _ _ (v2y e) (v2y s))]; easy.
    - destruct (rlt (v2x s) (v2x e)); [destruct (gridLines _ _ _ _ (v2x s) (v2x e))|destruct (gridLines _ _ _ _ (v2x e) (v2x s))]; easy.
  Qed.
  Lemma normal_ends fuel s e sl pts : Rabs (v2x e - v2x s) / step <= INR fuel -> Rabs (v2y e - v2y s) / step <= INR fuel ->
    normalCase realNums realGrids srt step fuel s e sl pts <> None.
  Proof using Hstep.
    intros X Y. assert (L : forall a b, Rabs (b - a) / step <= INR fuel -> gridLines realNums realGrids step fuel a b <> None).
    { intros a b H. apply lines_ends; [exact Hstep|]. eapply Rle_trans; [|exact H]. apply Rmult_le_compat_r; [left; apply Rinv_0_lt_compat, Hstep|apply Rle_abs]. }
    pose proof (L _ _ X). pose proof (L _ _ Y). rewrite Rabs_minus_sym in X, Y. pose proof (L _ _ X). pose proof (L _ _ Y). clear X Y L.
    unfold normalCase. destruct (rlt (v2x s) (v2x e)).
    - destruct (gridLines _ _ _ _ (v2x s) (v2x e)); [|easy].
      destruct (rlt (v2y s) (v2y e)); [destruct (gridLines _ _ _ _ (v2y s) (v2y e))|destruct (gridLines _ _ _ _ (v2y e) (v2y s))]; easy.
    - destruct (gridLines _ _ _ _ (v2x e) (v2x s)); [|easy].
      destruct (rlt (v2y e) (v2y s)); [destruct (gridLines _ _ _ _ (v2y e) (v2y s))|destruct (gridLines _ _ _ _ (v2y s) (v2y e))]; easy.
  Qed.
  Lemma split_ends a b : exists least, forall fuel result, (least <= fuel)%nat -> realSplit fuel a b result <> None.
  Proof using Hstep.
    set (m := Rmax (Rabs (v2x (at_ b) - v2x (at_ a)) / step) (Rabs (v2y (at_ b) - v2y (at_ a)) / step)).
    exists (Z.to_nat (up m)). intros fuel result L. destruct (archimed m) as (A & _).
    assert (F : m <= INR fuel).
    { left. eapply Rlt_le_trans; [exact A|]. rewrite INR_IZR_INZ. apply IZR_le. lia. }
    pose proof (Rmax_l (Rabs (v2x (at_ b) - v2x (at_ a)) / step) (Rabs (v2y (at_ b) - v2y (at_ a)) / step)) as Mx.
    pose proof (Rmax_r (Rabs (v2x (at_ b) - v2x (at_ a)) / step) (Rabs (v2y (at_ b) - v2y (at_ a)) / step)) as My. fold m in Mx, My.
    rewrite split_raw. unfold rawOf. cbv zeta.
    assert (N0 : forall sl, zeroSlope realNums realGrids srt step fuel (at_ a) (at_ b) [at_ a] <> None /\
      normalCase realNums realGrids srt step fuel (at_ a) (at_ b) sl [at_ a] <> None).
    { intros sl. split; [apply zero_ends|apply normal_ends]; lra. }
    set (sl := (v2y (at_ b) - v2y (at_ a)) / (v2x (at_ b) - v2x (at_ a))). destruct (N0 sl) as (N1 & N2).
    destruct (isZero realNums _); [destruct (isZero realNums _)|destruct (rlt _ _)].
    - discriminate.
    - now destruct (zeroSlope _ _ _ _ _ _ _ _).
    - now destruct (zeroSlope _ _ _ _ _ _ _ _).
    - now destruct (normalCase _ _ _ _ _ _ _ _ _).
  Qed.
End Split.

(** A contour. *)
Section Restore.
  Context (srt : (vec2 R -> vec2 R -> bool) -> list (vec2 R) -> list (vec2 R)) (Hsrt : sorts srt)
    (scale step : R) (Hscale : 0 < scale) (Hstep : 0 < step).
  Notation realSplit := (split realNums realGrids srt scale step).
  Notation at_ := (cornerOf realNums realGrids scale).
  Definition sideOk (x : (Z * Z) * (Z * Z)) : Prop := moderate (fst x) (snd x) /\ spaced eps step (at_ (fst x)) (at_ (snd x)).

  Lemma all_end sides : exists least, forall fuel, (least <= fuel)%nat -> forall x, In x sides -> forall result, realSplit fuel (fst x) (snd x) result <> None.
  Proof using Hstep.
    induction sides as [|x sides (m & IH)]; [exists 0%nat; easy|].
    destruct (split_ends srt scale step Hstep (fst x) (snd x)) as (m' & H). exists (Nat.max m m'). intros fuel L y [<-|Hy] result.
    - apply H. lia.
    - apply IH; [lia|exact Hy].
  Qed.
  Lemma split_from a z l : forall fuel R,
    (forall x, In x (combine (a :: l) (l ++ [z])) -> sideOk x /\ forall result, realSplit fuel (fst x) (snd x) result <> None) ->
    exists pieces, splitAll realNums realGrids srt scale step fuel (combine (a :: l) (l ++ [z])) (R ++ [at_ a]) = Some (R ++ at_ a :: concat pieces) /\
      Forall2 (fun x piece => realSplit fuel (fst x) (snd x) [] = Some (at_ (fst x) :: piece)) (combine (a :: l) (l ++ [z])) pieces /\
      exists r, at_ a :: concat pieces = r ++ [at_ z].
  Proof using Hsrt Hscale Hstep.
    revert a. induction l as [|b l IH]; intros a fuel R H.
    - cbn [app combine] in *. destruct (H (a, z)) as ((M & Sp) & N); [now left|]. cbn [fst snd] in *.
      specialize (N (R ++ [at_ a])). cbn [splitAll]. destruct (realSplit fuel a z (R ++ [at_ a])) as [out|] eqn:E; [|easy].
      destruct (split_next srt Hsrt scale step Hscale Hstep fuel a z R out M E) as (r & F & ->).
      exists [r]. cbn [concat]. rewrite app_nil_r. split; [reflexivity|]. split; [constructor; [exact F|constructor]|].
      apply (split_last srt Hsrt scale step Hscale Hstep fuel a z r M Sp F).
    - cbn [app combine] in *. destruct (H (a, b)) as ((M & Sp) & N); [now left|]. cbn [fst snd] in *.
      specialize (N (R ++ [at_ a])). cbn [splitAll]. destruct (realSplit fuel a b (R ++ [at_ a])) as [out|] eqn:E; [|easy].
      destruct (split_next srt Hsrt scale step Hscale Hstep fuel a b R out M E) as (r & F & ->).
      destruct (split_last srt Hsrt scale step Hscale Hstep fuel a b r M Sp F) as (r' & L).
      destruct (IH b fuel (R ++ r')) as (pieces & E' & F2 & r2 & L2); [intros x Hx; apply H; now right|].
      exists (r :: pieces). cbn [concat]. split; [|split].
      + rewrite L, app_assoc. cbn [combine] in E'. rewrite E'. f_equal. rewrite <- app_assoc. f_equal.
        rewrite (app_comm_cons r), L, <- app_assoc. reflexivity.
      + constructor; assumption.
      + exists (r' ++ r2). rewrite (app_comm_cons r), L, <- !app_assoc. cbn [app]. now rewrite L2.
  Qed.
  Lemma from_empty fuel a b sides : moderate a b ->
    splitAll realNums realGrids srt scale step fuel ((a, b) :: sides) [] = splitAll realNums realGrids srt scale step fuel ((a, b) :: sides) [at_ a].
  Proof using Hsrt Hscale Hstep.
    intros M. cbn [splitAll]. destruct (realSplit fuel a b [at_ a]) as [out|] eqn:E.
    - destruct (split_next srt Hsrt scale step Hscale Hstep fuel a b [] out M E) as (r & F & ->). cbn [fst snd] in F. now rewrite F.
    - destruct (realSplit fuel a b []) as [out|] eqn:F; [|reflexivity]. exfalso.
      apply (split_more srt scale step fuel a b [at_ a]); [congruence|exact E].
  Qed.

  (** A negative step. *)
  Lemma loop_forever fuel : forall st v stop, st < 0 -> v < stop -> gridLoop realNums st fuel v stop = None.
  Proof.
    induction fuel as [|fuel IH]; intros st v stop N L; cbn [gridLoop]; rewrite (proj2 (rlt_true v stop) L); [reflexivity|].
    now rewrite IH by (cbn; lra).
  Qed.
End Restore.
Lemma lines_forever step fuel a b : step < 0 -> a < b -> gridLines realNums realGrids step fuel a b = None.
Proof.
  intros N L. unfold gridLines. rewrite (proj2 (isZero_not step)) by lra. apply loop_forever; [exact N|].
  change (gridCeil realNums realGrids step a) with (IZR (ceilZ (a / step)) * step). destruct (ceil_ok (a / step)) as (A & _).
  assert (E : a / step * step = a) by (field; lra).
  assert (0 <= (IZR (ceilZ (a / step)) - a / step) * - step) by (apply Rmult_le_pos; lra). lra.
Qed.
