(** C85: colors of gradients with doubles. *)
From Coq Require Import Reals ZArith List Lra Lia. Import ListNotations.
From Flocq Require Import Core.Core IEEE754.Binary IEEE754.Bits.
From Verif Require Import Base RingModel MeshBuildModel ProjectionModel ProjectionFloat QuatModel GenModel RowModel ColorModel ColorSpec NoiseModel NoiseSpec
  RingFloatModel RingFloatSpec RingFloatProofs InsideFloatProofs LineFloatModel LineFloatProofs NoiseFloatModel NoiseFloatSpec NoiseFloatProofs NoiseFloatProps
  ColorFloatModel ColorFloatProofs.
Local Open Scope R_scope.

(** A finite double of moderate size. *)
Definition moderate (t : binary64) : Prop := is_finite 53 1024 t = true /\ Rabs (valueOf t) <= 1000000000.
(** Stops at such times with colors. *)
Definition stops (l : gradientD) : Prop := List.Forall (fun p => moderate (fst p) /\ validColor (snd p)) l.

(** ** A mixture is defined; each channel is between those of the two colors or one below. *)
Theorem C85_mix a b r : validColor a -> validColor b -> is_finite 53 1024 r = true -> 0 <= valueOf r <= 1 ->
  exists c, mixColorsD a b r = Ok c /\ validColor c /\ channels near a b c /\ (valueOf r = 0 -> c = a) /\ (valueOf r = 1 -> c = b).
Proof.
  intros A B F R. assert (M := mixed_ok a b r A B F R). cbv zeta in M. eexists. split; [exact M|]. assert (C := complement (valueOf r) R).
  destruct (rest_value r F R) as (_ & VS & BS). cbv zeta in VS, BS. rewrite VS in BS. destruct A as (A1 & A2 & A3 & A4), B as (B1 & B2 & B3 & B4).
  split; [unfold validColor; cbn [red green blue alpha]; pose proof mixed_valid; auto|].
  split; [unfold channels; cbn [red green blue alpha]; repeat split; apply mixed_near; assumption|]. split.
  - intros Z. rewrite Z, Rminus_0_r, (rnd64_whole 1) by (cbn; lia). rewrite !mixed_zero by (try assumption; reflexivity). now destruct a.
  - intros Z. rewrite Z, (Rminus_diag_eq 1 1 eq_refl), rnd64_0. rewrite !mixed_one by (try assumption; reflexivity). now destruct b.
Qed.
Print Assumptions C85_mix.

Lemma some_below {A} (l : list A) i x : nth_error l i = Some x -> (i < length l)%nat.
Proof. intros E. apply nth_error_Some. congruence. Qed.
Lemma same_stop {A} (l : list A) i x y : nth_error l i = Some x -> nth_error l i = Some y -> x = y.
Proof. congruence. Qed.
Lemma stop_of l j t c : stops l -> nth_error l j = Some (t, c) -> moderate t /\ validColor c.
Proof. intros S E. unfold stops in S. rewrite List.Forall_forall in S. apply (S (t, c)). eapply nth_error_In, E. Qed.
Lemma stops_finite l : stops l -> List.Forall (fun p => is_finite 53 1024 (fst p) = true) l.
Proof. apply List.Forall_impl. intros p ((F & _) & _). exact F. Qed.
Lemma evaluateD_at l time k ta a tb b : seekStopD l time = Datatypes.S k -> nth_error l k = Some (ta, a) -> nth_error l (Datatypes.S k) = Some (tb, b) ->
  evaluateD l time = mixColorsD a b (ndiv doubleNums (nsub doubleNums time ta) (nsub doubleNums tb ta)).
Proof.
  intros I A B. unfold evaluateD. destruct l as [|s l]; [destruct k; discriminate|]. cbn zeta. rewrite I.
  replace (Datatypes.S k - 1)%nat with k by lia. rewrite A, B. reflexivity.
Qed.
(** ** Up to the first stop not before a time the color is between those of that stop and the one before it. *)
Theorem C85_evaluate l time i tb b : stops l -> moderate time -> nth_error l i = Some (tb, b) -> valueOf time <= valueOf tb ->
  (forall j t c, (j < i)%nat -> nth_error l j = Some (t, c) -> valueOf t < valueOf time) ->
  exists c, evaluateD l time = Ok c /\ validColor c /\ (valueOf time = valueOf tb -> c = b) /\
    match i with
    | O => c = b
    | Datatypes.S k => exists ta a, nth_error l k = Some (ta, a) /\ valueOf ta < valueOf time /\ channels near a b c
    end.
Proof.
  intros S (FT & BT) E T B. destruct (stop_of l i tb b S E) as ((FB & BB) & Vb).
  assert (I : seekStopD l time = i).
  { apply seekD; [exact FT|apply stops_finite, S|exact (some_below l i _ E)|exact B|]. intros t c H. left. assert (Q := same_stop l i _ _ E H). injection Q as <- <-. exact T. }
  destruct i as [|k].
  - exists b. unfold evaluateD. destruct l as [|s l]; [discriminate|]. cbn zeta. rewrite I. change (0 - 1)%nat with O. rewrite E.
    destruct (wide_int 0 ltac:(cbn; lia)) as (V0 & F0). destruct (C85_mix b b (doubleInt 0) Vb Vb F0 ltac:(rewrite V0; lra)) as (c & M & _ & _ & Z & _).
    rewrite M, (Z V0). auto.
  - destruct (nth_error l k) as [[ta a]|] eqn:Ea.
    2:{ apply nth_error_None in Ea. assert (Datatypes.S k < length l)%nat by exact (some_below l _ _ E). lia. }
    assert (Lt := B k ta a ltac:(lia) Ea). destruct (stop_of l k ta a S Ea) as ((FA & BA) & Va). rewrite (evaluateD_at l time k ta a tb b I Ea E).
    destruct (part_value time ta tb FT FA FB BT BA BB (conj Lt T)) as (FR & R & One). cbv zeta in FR, R, One.
    destruct (C85_mix a b _ Va Vb FR R) as (c & M & Vc & N & _ & O). exists c. rewrite M. split; [reflexivity|]. split; [exact Vc|].
    split; [auto|]. exists ta, a. auto.
Qed.
Print Assumptions C85_evaluate.
(** ** At the time of a stop it is the color of the stop. *)
Theorem C85_stop l i t c : stops l -> (forall j k s d s' d', (j < k)%nat -> nth_error l j = Some (s, d) -> nth_error l k = Some (s', d') -> valueOf s < valueOf s') ->
  nth_error l i = Some (t, c) -> evaluateD l t = Ok c.
Proof.
  intros S L E. destruct (stop_of l i t c S E) as (Mt & _). destruct (C85_evaluate l t i t c S Mt E (Rle_refl _)) as (x & X & _ & Z & _).
  - intros j s d J H. exact (L j i s d t c J H E).
  - rewrite X, (Z eq_refl). reflexivity.
Qed.
Print Assumptions C85_stop.
(** ** A time beyond the last stop by up to a thousandth of the distance from the one before gives its color. *)
Theorem C85_last l time k ta a tb b : stops l -> moderate time -> length l = Datatypes.S (Datatypes.S k) ->
  nth_error l k = Some (ta, a) -> nth_error l (Datatypes.S k) = Some (tb, b) ->
  (forall j t c, nth_error l j = Some (t, c) -> valueOf t < valueOf time) ->
  valueOf ta + 1 / 1000000 <= valueOf tb -> valueOf time <= valueOf tb + 1 / 1000 * (valueOf tb - valueOf ta) ->
  evaluateD l time = Ok b.
Proof.
  intros S (FT & BT) N Ea Eb L D U. destruct (stop_of l _ _ _ S Ea) as ((FA & BA) & Va), (stop_of l _ _ _ S Eb) as ((FB & BB) & Vb).
  assert (I : seekStopD l time = Datatypes.S k).
  { apply seekD; [exact FT|apply stops_finite, S|exact (some_below l _ _ Eb)|intros j t c _ H; eapply L, H|]. intros t c _. right. symmetry. exact N. }
  rewrite (evaluateD_at l time k ta a tb b I Ea Eb). assert (G := L _ _ _ Eb).
  destruct (part_over time ta tb FT FA FB BT BA BB ltac:(lra) U) as (FR & R). now apply over_color.
Qed.
Print Assumptions C85_last.

(** The first stop not before a time. *)
Lemma first_stop (l : gradientD) v : (exists j t c, nth_error l j = Some (t, c) /\ v <= valueOf t) ->
  exists i t c, nth_error l i = Some (t, c) /\ v <= valueOf t /\ (forall j s d, (j < i)%nat -> nth_error l j = Some (s, d) -> valueOf s < v).
Proof.
  induction l as [|[t c] l IH]; intros (j & s & d & E & L); [destruct j; discriminate|]. destruct (Rle_dec v (valueOf t)) as [G|G].
  - exists O, t, c. split; [reflexivity|]. split; [exact G|]. intros; lia.
  - destruct j as [|j]; [cbn in E; injection E as <- <-; contradiction|]. destruct IH as (i & t' & c' & E' & L' & B); [now exists j, s, d|].
    exists (Datatypes.S i), t', c'. split; [exact E'|]. split; [exact L'|]. intros [|j'] s' d' J H; cbn [nth_error] in H; [injection H as <- <-; lra|].
    apply (B j' s' d'); [lia|exact H].
Qed.
(** ** So the shade of every place within reach of the noise is defined, with doubles throughout, for a gradient which ends at 1. *)
Theorem C85_shade k g x y f time l m ta a tb b : usual k g ->
  is_finite 53 1024 x = true -> is_finite 53 1024 y = true -> is_finite 53 1024 f = true -> doubleTime k g x y f = Ok time ->
  stops l -> length l = Datatypes.S (Datatypes.S m) -> nth_error l m = Some (ta, a) -> nth_error l (Datatypes.S m) = Some (tb, b) ->
  valueOf tb = 1 -> (forall j t c, nth_error l j = Some (t, c) -> valueOf t <= 1) -> valueOf ta <= 1 - 1 / 1000000 ->
  exists c, evaluateD l time = Ok c /\ validColor c.
Proof.
  intros U X Y F T S N Ea Eb V L D. destruct (C83_time k g x y f time U X Y F T) as (FT & BT).
  assert (Mt : moderate time) by (split; [exact FT|apply Rabs_le; lra]). destruct (stop_of l _ _ _ S Eb) as (_ & Vb).
  destruct (Rle_dec (valueOf time) 1) as [G|G].
  - destruct (first_stop l (valueOf time)) as (i & t & c & E & H & B); [exists (Datatypes.S m), tb, b; split; [exact Eb|lra]|].
    destruct (C85_evaluate l time i t c S Mt E H B) as (d & Ed & Vd & _). eauto.
  - exists b. split; [|exact Vb]. apply (C85_last l time m ta a tb b); try assumption; try lra. intros j t c E. specialize (L j t c E). lra.
Qed.
Print Assumptions C85_shade.

(** * Cases *)
Definition tenths (k : Z) : binary64 := ndiv doubleNums (doubleInt k) (doubleInt 10).
Definition someStops : gradientD := [(tenths 0, mkColor 0 0 0 255); (tenths 3, mkColor 100 200 0 255); (tenths 10, mkColor 255 255 255 255)].
(** Between stops, at a stop, past the end by little; two last stops at one time are undefined beyond it. *)
Example C85_case :
  evaluateD someStops (tenths 1) = Ok (mkColor 33 66 0 255) /\ evaluateD someStops (tenths 3) = Ok (mkColor 100 200 0 255) /\
  evaluateD someStops (nadd doubleNums (tenths 10) doubleEpsilon) = Ok (mkColor 255 255 255 255) /\
  evaluateD [(tenths 0, mkColor 0 0 0 255); (tenths 10, mkColor 1 1 1 255); (tenths 10, mkColor 2 2 2 255)] (tenths 11) = UB.
Proof. vm_compute. auto. Qed.
Lemma tenths_moderate k : (0 <= k <= 1000)%Z -> moderate (tenths k).
Proof.
  intros K. destruct (wide_int k ltac:(cbn; lia)) as (V & F), (wide_int 10 ltac:(cbn; lia)) as (W & G). assert (B : 0 <= IZR k <= 1000) by (split; apply IZR_le; lia).
  destruct (div_value (doubleInt k) (doubleInt 10) F) as (Q & FQ); [rewrite W; lra|rewrite V, W; apply Rabs_le; lra|]. split; [exact FQ|].
  unfold tenths. rewrite Q, V, W. eapply Rle_trans; [apply (rnd64_abs _ 100), Rabs_le; lra|]. assert (E := eta_unit). lra.
Qed.
Example C85_stops : stops someStops /\ moderate (tenths 1).
Proof.
  split; [|apply tenths_moderate; lia]. unfold stops, someStops.
  repeat (apply List.Forall_cons; [split; [apply tenths_moderate; lia|unfold validColor; cbn; lia]|]). apply List.Forall_nil.
Qed.
