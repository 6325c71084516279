(** C62: round parts of buildings stand on their footprints. *)
From Coq Require Import QArith Qabs Lqa.
From Verif Require Import Base RingModel MeshBuildModel RectModel RectSpec RectProofs.
Local Open Scope Q_scope.

(** Contours with points are always taken. *)
Theorem C62_taken env l : Forall (fun x => fst (fst x) <> []) l -> forall f, exists f', addFeet env f l = Ok f'.
Proof.
  induction 1 as [|[[c h] q] l Hc _ IH]; intros f; [eexists; reflexivity|]. cbn [fst] in Hc.
  cbn [addFeet]. unfold addFoot, addContour. destruct c as [|v c]; [easy|].
  destruct h, q; cbn [bind]; apply IH.
Qed.
Print Assumptions C62_taken.

(** A dome or a cylinder over a building with one outer contour has the circle of its footprint, provided
    the footprint reaches the north-eastern quarter of the map.  Missing: everything else, see below. *)
Theorem C62_one_partial env l f c : addFeet env noFoot l = Ok f -> outersOf (eEps env) l = [c] ->
  let all := pointsOf (eEps env) l in
  all <> [] -> Forall earthly all -> northEast tiny all -> exists k, roundParts f = [k] /\ circles all k.
Proof.
  intros H Ho all Hn He Hne. destruct (feet_run _ _ _ _ H) as (A & _ & os & C & D). rewrite Ho in D.
  inversion D as [|o ? os' ? _ D']; subst. inversion D'; subst. cbn [noFoot fpoly emptyPolygon pouters app] in C.
  exists (circleOf (frect f)). unfold roundParts, outerRects. rewrite C. split; [reflexivity|].
  rewrite A. now apply circle_of.
Qed.
Print Assumptions C62_one_partial.

(** With more outer contours each of them gets its own dome or cylinder, in the order of the contours. *)
Theorem C62_many_partial env l f : addFeet env noFoot l = Ok f -> length (outersOf (eEps env) l) <> 1%nat ->
  Forall (fun c => c <> [] /\ Forall earthly c /\ northEast tiny c) (outersOf (eEps env) l) ->
  Forall2 circles (outersOf (eEps env) l) (roundParts f).
Proof.
  intros H Hl Hc. destruct (feet_run _ _ _ _ H) as (_ & _ & os & C & D). cbn [noFoot fpoly emptyPolygon pouters app] in C.
  assert (E : roundParts f = map (fun o => circleOf (expandAll noRect (rangePoints (fpoly f) o))) os).
  { unfold roundParts, outerRects. rewrite C. assert (L : length os = length (outersOf (eEps env) l)) by (clear -D; induction D; cbn; congruence).
    destruct os as [|o [|o' os]]; [reflexivity| |cbn [map]; now rewrite map_map]. cbn [length] in L. lia. }
  rewrite E. clear E C Hl H. induction D as [|o c os cs Ho D IH]; [constructor|].
  inversion_clear Hc as [|? ? (Hn & He & Hne) Hc']. cbn [map]. constructor; [|apply IH, Hc'].
  rewrite (holds_points _ _ _ Ho). now apply circle_of.
Qed.
Print Assumptions C62_many_partial.

(** A sphere has the circle of all contours together. *)
Theorem C62_sphere_partial env l f : addFeet env noFoot l = Ok f ->
  let all := pointsOf (eEps env) l in
  all <> [] -> Forall earthly all -> northEast tiny all -> circles all (spherePart f).
Proof.
  intros H all Hn He Hne. destruct (feet_run _ _ _ _ H) as (A & _). unfold spherePart. rewrite A. now apply circle_of.
Qed.
Print Assumptions C62_sphere_partial.

Lemma one_is_sphere env l f c : addFeet env noFoot l = Ok f -> outersOf (eEps env) l = [c] -> roundParts f = [spherePart f].
Proof.
  intros H Ho. destruct (feet_run _ _ _ _ H) as (_ & _ & os & C & D). rewrite Ho in D.
  inversion D as [|o ? os' ? _ D']; subst. inversion D'; subst. cbn [noFoot fpoly emptyPolygon pouters app] in C.
  unfold roundParts, outerRects. now rewrite C.
Qed.
(** Refuted west of the prime meridian: a footprint with negative longitudes only is stretched to the
    meridian, so that the part is put in the middle between its western end and the meridian.  If the
    footprint is narrower than its distance from the meridian, the centre is not even above it. *)
Theorem C62_west_refuted env l f c lo hi : addFeet env noFoot l = Ok f -> outersOf (eEps env) l = [c] ->
  let all := pointsOf (eEps env) l in
  Forall earthly all -> least v2x all lo -> greatest v2x all hi -> hi < 0 ->
  exists centre size, roundParts f = [(centre, size)] /\
    v2x centre == (lo + tiny) / 2 /\ v2x size == (tiny - lo) / 2 /\
    ~ circles all (centre, size) /\ (hi - lo < - hi -> hi < v2x centre).
Proof.
  intros H Ho all He Hlo Hhi Hneg.
  assert (Ht : 0 < tiny) by (vm_compute; reflexivity).
  assert (Hn : all <> []). { destruct Hlo as ((p & Hp & _) & _). intros E. rewrite E in Hp. easy. }
  destruct (feet_run _ _ _ _ H) as (A & _). cbn [noFoot frect] in A. fold all in A.
  destruct (stretched_x all lo Hn He Hlo) as (E1 & E2). { intros p Hp. destruct Hhi as (_ & B). specialize (B p Hp). lra. }
  rewrite <- A in E1, E2.
  exists (fst (spherePart f)), (snd (spherePart f)). rewrite (one_is_sphere _ _ _ _ H Ho). unfold spherePart.
  split; [now destruct (circleOf (frect f))|]. split; [exact E1|]. split; [exact E2|].
  assert (P : (lo + tiny) / 2 == (lo + tiny) * (1 # 2)) by field.
  assert (P' : (tiny - lo) / 2 == (tiny - lo) * (1 # 2)) by field. split.
  - intros ((lo' & hi' & L & G & X & Y) & _). cbn [fst snd] in X, Y. rewrite E1, P in X. rewrite E2, P' in Y.
    assert (Q1 : (lo' + hi') / 2 == (lo' + hi') * (1 # 2)) by field.
    assert (Q2 : (hi' - lo') / 2 == (hi' - lo') * (1 # 2)) by field.
    rewrite Q1 in X. rewrite Q2 in Y. destruct G as ((p & Hp & Ep) & _). destruct Hhi as (_ & B). specialize (B p Hp). lra.
  - intros W. rewrite E1, P. lra.
Qed.
Print Assumptions C62_west_refuted.

(** The same to the south of the equator. *)
Theorem C62_south_refuted env l f c lo hi : addFeet env noFoot l = Ok f -> outersOf (eEps env) l = [c] ->
  let all := pointsOf (eEps env) l in
  Forall earthly all -> least v2y all lo -> greatest v2y all hi -> hi < 0 ->
  exists centre size, roundParts f = [(centre, size)] /\
    v2y centre == (lo + tiny) / 2 /\ v2y size == (tiny - lo) / 2 /\
    ~ circles all (centre, size) /\ (hi - lo < - hi -> hi < v2y centre).
Proof.
  intros H Ho all He Hlo Hhi Hneg.
  assert (Ht : 0 < tiny) by (vm_compute; reflexivity).
  assert (Hn : all <> []). { destruct Hlo as ((p & Hp & _) & _). intros E. rewrite E in Hp. easy. }
  destruct (feet_run _ _ _ _ H) as (A & _). cbn [noFoot frect] in A. fold all in A.
  destruct (stretched_y all lo Hn He Hlo) as (E1 & E2). { intros p Hp. destruct Hhi as (_ & B). specialize (B p Hp). lra. }
  rewrite <- A in E1, E2.
  exists (fst (spherePart f)), (snd (spherePart f)). rewrite (one_is_sphere _ _ _ _ H Ho). unfold spherePart.
  split; [now destruct (circleOf (frect f))|]. split; [exact E1|]. split; [exact E2|].
  assert (P : (lo + tiny) / 2 == (lo + tiny) * (1 # 2)) by field.
  assert (P' : (tiny - lo) / 2 == (tiny - lo) * (1 # 2)) by field. split.
  - intros (_ & (lo' & hi' & L & G & X & Y)). cbn [fst snd] in X, Y. rewrite E1, P in X. rewrite E2, P' in Y.
    assert (Q1 : (lo' + hi') / 2 == (lo' + hi') * (1 # 2)) by field.
    assert (Q2 : (hi' - lo') / 2 == (hi' - lo') * (1 # 2)) by field.
    rewrite Q1 in X. rewrite Q2 in Y. destruct G as ((p & Hp & Ep) & _). destruct Hhi as (_ & B). specialize (B p Hp). lra.
  - intros W. rewrite E1, P. lra.
Qed.
Print Assumptions C62_south_refuted.

(** The apex of a pyramidal roof, and the point from which a skillion roof is laid out, is the average of
    the points of the outer contour, wherever on the earth it is, and above the bounding box of that contour. *)
Theorem C62_centroid env l f : addFeet env noFoot l = Ok f -> Forall (fun c => c <> []) (outersOf (eEps env) l) ->
  Forall2 (fun c o => exists m, centroid (fpoly f) o = Some m /\ average c m /\
             (forall x0 x1, least v2x c x0 -> greatest v2x c x1 -> x0 <= v2x m <= x1) /\
             (forall y0 y1, least v2y c y0 -> greatest v2y c y1 -> y0 <= v2y m <= y1))
    (outersOf (eEps env) l) (pouters (fpoly f)).
Proof.
  intros H Hc. destruct (feet_run _ _ _ _ H) as (_ & _ & os & C & D). cbn [noFoot fpoly emptyPolygon pouters app] in C.
  rewrite C. clear C H. induction D as [|o c os cs Ho D IH]; [constructor|].
  inversion_clear Hc as [|? ? Hn Hc']. constructor; [|apply IH, Hc'].
  unfold centroid. rewrite (holds_points _ _ _ Ho). destruct Ho as (A & B & _ & ->). cbn [fst snd].
  replace (length A + 2 * length c - length A)%nat with (2 * length c)%nat by lia.
  assert (Hk : (0 < length c)%nat) by (destruct c; [easy|cbn; lia]).
  destruct (Nat.eqb_spec (2 * length c) 0); [lia|].
  assert (Ec : inject_Z (Z.of_nat (2 * length c)) / 2 == inject_Z (Z.of_nat (length c))).
  { rewrite Nat2Z.inj_mul, inject_Z_mult. change (inject_Z (Z.of_nat 2)) with 2. field. }
  assert (Pk : 0 < inject_Z (Z.of_nat (length c))) by (unfold Qlt; cbn; lia).
  set (k := inject_Z (Z.of_nat (length c))) in *.
  destruct (sums_fold c (mkV2 0 0)) as (S1 & S2). cbn [v2x v2y] in S1, S2. fold (sums c) in S1, S2.
  eexists. split; [reflexivity|].
  assert (Ax : v2x (sums c) / (inject_Z (Z.of_nat (2 * length c)) / 2) * k == total v2x c).
  { rewrite Ec, S1. field. lra. }
  assert (Ay : v2y (sums c) / (inject_Z (Z.of_nat (2 * length c)) / 2) * k == total v2y c).
  { rewrite Ec, S2. field. lra. }
  split; [split; assumption|]. cbn [v2x v2y].
  split.
  - intros x0 x1 (_ & L) (_ & G).
    destruct (total_between v2x c x0 x1) as (T1 & T2). { intros p Hp. split; auto. }
    fold k in T1, T2. rewrite <- Ax in T1, T2. split; apply (Qmult_le_r _ _ k Pk); assumption.
  - intros y0 y1 (_ & L) (_ & G).
    destruct (total_between v2y c y0 y1) as (T1 & T2). { intros p Hp. split; auto. }
    fold k in T1, T2. rewrite <- Ay in T1, T2. split; apply (Qmult_le_r _ _ k Pk); assumption.
Qed.
Print Assumptions C62_centroid.

(** Cases: a house with a courtyard in Berlin and the same house in New York. *)
Definition footEnv : builderEnv Q :=
  mkEnv 0 (1 # (2 ^ 52)) (fun _ _ => 0) (fun _ _ _ => 0) (fun _ _ _ => 0) (fun _ _ => 0) 0 0 0 0
    (fun _ => mkTri [] None 3 []) (fun _ _ t => t).

Definition yard (x y a : Q) : list (vec2 Q) := [mkV2 x y; mkV2 (x + a) y; mkV2 (x + a) (y + a); mkV2 x (y + a); mkV2 x y].
Definition house (x y : Q) : list part :=
  [(yard x y (4 # 1000), false, None); (yard (x + (1 # 1000)) (y + (1 # 1000)) (2 # 1000), true, Some (mkV2 (x + (2 # 1000)) (y + (2 # 1000))))].
Definition twoHouses (x y : Q) : list part := house x y ++ house (x + 1) y.

Ltac footHyps :=
  match goal with
  | |- Forall _ _ => repeat constructor; vm_compute; try discriminate; intros ?; discriminate
  | |- northEast _ _ => split; eexists; (split; [left; reflexivity|]); vm_compute; discriminate
  | |- _ <> [] => vm_compute; discriminate
  | |- _ => vm_compute; reflexivity
  end.
Example C62_one_case : exists f k, addFeet footEnv noFoot (house 13 52) = Ok f /\ roundParts f = [k] /\
  circles (pointsOf (eEps footEnv) (house 13 52)) k /\ v2x (fst k) == 13002 # 1000 /\ v2y (snd k) == 2 # 1000.
Proof.
  destruct (addFeet footEnv noFoot (house 13 52)) as [f| |] eqn:E; [|vm_compute in E; discriminate..].
  assert (O1 : exists c, outersOf (eEps footEnv) (house 13 52) = [c]) by (eexists; vm_compute; reflexivity).
  destruct O1 as (c & O1).
  destruct (C62_one_partial footEnv (house 13 52) f c E O1) as (k & R & K); [footHyps..|].
  exists f, k. split; [reflexivity|]. split; [exact R|]. split; [exact K|].
  vm_compute in E. injection E as <-. vm_compute in R. injection R as <-. split; vm_compute; reflexivity.
Qed.
Example C62_many_case : exists f, addFeet footEnv noFoot (twoHouses 13 52) = Ok f /\
  Forall2 circles (outersOf (eEps footEnv) (twoHouses 13 52)) (roundParts f) /\ length (roundParts f) = 2%nat /\
  circles (pointsOf (eEps footEnv) (twoHouses 13 52)) (spherePart f).
Proof.
  destruct (addFeet footEnv noFoot (twoHouses 13 52)) as [f| |] eqn:E; [|vm_compute in E; discriminate..].
  exists f. split; [reflexivity|]. split; [|split].
  - apply (C62_many_partial footEnv _ f E); [vm_compute; discriminate|].
    repeat (apply Forall_cons || apply Forall_nil); (split; [footHyps|split; footHyps]).
  - vm_compute in E. injection E as <-. vm_compute. reflexivity.
  - apply (C62_sphere_partial footEnv _ f E); footHyps.
Qed.
Example C62_west_case : exists f c lo hi, addFeet footEnv noFoot (house (-74) (-40)) = Ok f /\
  outersOf (eEps footEnv) (house (-74) (-40)) = [c] /\
  let all := pointsOf (eEps footEnv) (house (-74) (-40)) in
  Forall earthly all /\ least v2x all lo /\ greatest v2x all hi /\ hi < 0 /\ hi - lo < - hi /\
  Forall (fun k => -38 < v2x (fst k) /\ -21 < v2y (fst k)) (roundParts f).
Proof.
  destruct (addFeet footEnv noFoot (house (-74) (-40))) as [f| |] eqn:E; [|vm_compute in E; discriminate..].
  exists f. eexists. exists (-74), (-73996 # 1000).
  split; [reflexivity|]. split; [vm_compute; reflexivity|]. cbv zeta.
  split; [footHyps|]. split; [split|split; [split|]].
  - exists (mkV2 (-74) (-40)). split; [now left|reflexivity].
  - intros p Hp. vm_compute in Hp. repeat (destruct Hp as [<-|Hp]; [vm_compute; discriminate|]). destruct Hp.
  - exists (mkV2 (-74 + (4 # 1000)) (-40)). split; [right; now left|reflexivity].
  - intros p Hp. vm_compute in Hp. repeat (destruct Hp as [<-|Hp]; [vm_compute; discriminate|]). destruct Hp.
  - split; [vm_compute; reflexivity|]. split; [vm_compute; reflexivity|].
    vm_compute in E. injection E as <-. repeat constructor; vm_compute; reflexivity.
Qed.
Example C62_centroid_case : exists f m, addFeet footEnv noFoot (house (-74) (-40)) = Ok f /\
  Forall (fun c => c <> []) (outersOf (eEps footEnv) (house (-74) (-40))) /\
  centroid (fpoly f) (0, 8)%nat = Some m /\ v2x m == -73998 # 1000 /\ v2y m == -39998 # 1000.
Proof. eexists. eexists. split; [vm_compute; reflexivity|]. split; [footHyps|]. split; [vm_compute; reflexivity|]. split; vm_compute; reflexivity. Qed.
