(** Proofs about walls of raised regions. *)
From Coq Require Import Reals Lra Lia.
From Verif Require Import Base RingModel MeshBuildModel MeshBuildSpec MeshBuildProofs QuatModel GenSpec RowModel RowSpec RowProofs BorderModel BorderSpec.

Section Any.
  Context {T : Type} (n : nums T) (env : builderEnv T) (tol : T).
  (** The sides with a wall, as calls on the mesh. *)
  Definition keeps (r : rect T) (s : vec2 T * vec2 T) : bool := negb (isOnBorder n tol r (fst s) && isOnBorder n tol r (snd s)).
  Definition wallOps (r : rect T) (points : list (vec2 T)) (geo : geomOptions T) (look : lookOptions T) : list meshOp :=
    map (fun s => OpPlane2 (fst s) (snd s) geo look) (filter (keeps r) (ringSides points)).

  Lemma ring_nth (l : list (vec2 T)) i : i < length l -> exists p q,
    nth_error l i = Some p /\ nth_error l (if i =? length l - 1 then 0 else S i) = Some q /\ nth_error (ringSides l) i = Some (p, q).
  Proof.
    destruct l as [|x l]; [cbn; lia|]. intros H. cbn [ringSides].
    destruct (nth_error (x :: l) i) as [p|] eqn:P; [|apply nth_error_None in P; lia].
    assert (Q : exists q, nth_error (l ++ [x]) i = Some q /\ nth_error (x :: l) (if i =? length (x :: l) - 1 then 0 else S i) = Some q).
    { cbn [length] in *. destruct (Nat.eqb_spec i (S (length l) - 1)) as [E|E].
      - exists x. split; [|reflexivity]. rewrite nth_error_app2 by lia. replace (i - length l) with 0 by lia. reflexivity.
      - destruct (nth_error l i) as [q|] eqn:Q; [|apply nth_error_None in Q; lia]. exists q. split; [rewrite nth_error_app1 by (apply nth_error_Some; congruence); exact Q|exact Q]. }
    destruct Q as (q & Q1 & Q2). exists p, q. split; [reflexivity|]. split; [exact Q2|].
    revert P Q1. generalize (x :: l) (l ++ [x]) i. induction l0 as [|a l0 IH]; intros l1 [|j] P Q; try discriminate; destruct l1; try discriminate; cbn in *.
    - congruence.
    - now apply IH.
  Qed.
  Lemma ring_length {A} (l : list A) : length (ringSides l) = length l.
  Proof. destruct l; [reflexivity|]. cbn [ringSides]. rewrite combine_length, app_length. cbn [length]. lia. Qed.
  Lemma loop_run r points geo look fuel : forall i m, i + fuel = length points ->
    wallLoop n env tol r points geo look fuel i m =
    meshRun n env (map (fun s => OpPlane2 (fst s) (snd s) geo look) (filter (keeps r) (skipn i (ringSides points)))) m.
  Proof.
    induction fuel as [|fuel IH]; intros i m H.
    - rewrite skipn_all2 by (rewrite ring_length; lia). reflexivity.
    - destruct (ring_nth points i) as (p & q & P & Q & S); [lia|]. cbn [wallLoop]. rewrite P, Q.
      assert (E : skipn i (ringSides points) = (p, q) :: skipn (Datatypes.S i) (ringSides points)).
      { clear - S. revert i S. induction (ringSides points) as [|a l IH]; intros [|i] S; try discriminate; cbn in *; [congruence|now apply IH]. }
      rewrite E. cbn [filter]. unfold keeps at 1. cbn [fst snd].
      destruct (isOnBorder n tol r p && isOnBorder n tol r q); cbn [negb].
      + apply IH. lia.
      + cbn [map meshRun meshStep fst snd]. destruct (addPlane2 n env m p q geo look); cbn [bind]; try reflexivity. apply IH. lia.
  Qed.
  Lemma build_run r points geo look m :
    buildHeightOffset n env tol r points geo look m = meshRun n env (wallOps r points (noNoise n geo) look) m.
  Proof. unfold buildHeightOffset. now rewrite loop_run by lia. Qed.
  Lemma wall_ops_good r points geo look : Forall (goodOp n env) (wallOps r points geo look).
  Proof. apply Forall_map, Forall_forall. intros s _. exact I. Qed.
  Lemma wall_corners ops : (forall o, In o ops -> exists p q geo look, o = OpPlane2 p q geo look) ->
    length (flat_map (newCorners n env) ops) = 6 * length ops.
  Proof.
    induction ops as [|o ops IH]; intros H; [reflexivity|]. cbn [flat_map length]. rewrite app_length, IH by (intros o' I; apply H; now right).
    destruct (H o (or_introl eq_refl)) as (p & q & geo & look & ->). cbn [newCorners planeCorners length]. lia.
  Qed.
  Lemma wall_count r points geo look : length (flat_map (newCorners n env) (wallOps r points geo look)) = 6 * length (filter (keeps r) (ringSides points)).
  Proof.
    rewrite wall_corners; [unfold wallOps; now rewrite map_length|]. intros o I. apply in_map_iff in I as (s & <- & _). now do 4 eexists.
  Qed.
End Any.

Local Open Scope R_scope.
Definition realRect (t : tileBox) : rect R := rectOf realNums (tWest t) (tSouth t) (tEast t) (tNorth t).
Lemma on_line_iff (tol : R) (l : line R) p : onLine realNums tol l p = true <-> Rabs (v2x p * lnA l + v2y p * lnB l + lnC l) < tol.
Proof. unfold onLine. cbn [realNums nlt nabs nadd nmul]. destruct (Rlt_dec _ _); split; intros; try discriminate; try assumption; [reflexivity|contradiction]. Qed.
Lemma abs_scaled a b : 0 < b -> Rabs (a * b) = Rabs a * b.
Proof. intros H. rewrite Rabs_mult, (Rabs_pos_eq b); lra. Qed.
Lemma border_iff tol t p : properTile t -> isOnBorder realNums tol (realRect t) p = true <-> nearLines tol t p.
Proof.
  intros (W & H). unfold isOnBorder. rewrite !Bool.orb_true_iff, !on_line_iff. unfold realRect, rectOf, lineOf, nearLines, tileHigh, tileWide.
  cbn [rcLeft rcRight rcBottom rcTop lnA lnB lnC v2x v2y realNums nsub nmul].
  replace (v2x p * (tSouth t - tNorth t) + v2y p * (tWest t - tWest t) + (tWest t * tNorth t - tWest t * tSouth t)) with ((- (v2x p - tWest t)) * (tNorth t - tSouth t)) by ring.
  replace (v2x p * (tSouth t - tNorth t) + v2y p * (tEast t - tEast t) + (tEast t * tNorth t - tEast t * tSouth t)) with ((- (v2x p - tEast t)) * (tNorth t - tSouth t)) by ring.
  replace (v2x p * (tSouth t - tSouth t) + v2y p * (tEast t - tWest t) + (tWest t * tSouth t - tEast t * tSouth t)) with ((v2y p - tSouth t) * (tEast t - tWest t)) by ring.
  replace (v2x p * (tNorth t - tNorth t) + v2y p * (tEast t - tWest t) + (tWest t * tNorth t - tEast t * tNorth t)) with ((v2y p - tNorth t) * (tEast t - tWest t)) by ring.
  rewrite !abs_scaled by lra. rewrite !Rabs_Ropp. tauto.
Qed.

Section Real.
  Context (env : builderEnv R).
  Definition quiet : Prop := forall x y, ePerlin env x y 0 = 0.
  Lemma wall_seen geo look p q : quiet -> flat_map seen (newFaces realNums env (OpPlane2 p q (noNoise realNums geo) look)) = wall (groundAt env geo) (gheight geo) (p, q).
  Proof.
    intros Q. cbn [newFaces planeCorners face3 flat_map seen app wall]. unfold spot, place, groundPoint, ground, noNoise, groundAt.
    cbn [cpos v3x v3y v3z gele gnoise gheight realNums nadd nlt nzero].
    unfold quiet in Q. rewrite !Q. destruct (Rlt_dec (eLowest env) (gele geo)); rewrite !Rplus_0_r; reflexivity.
  Qed.
  Lemma build_drawn t points geo look m k tol : quiet -> wellFormed m k -> goodMap m ->
    (2 * Z.of_nat (k + 6 * length points) < 2 ^ 31)%Z ->
    exists m', buildHeightOffset realNums env tol (realRect t) points geo look m = Ok m' /\ goodMap m' /\
      wellFormed m' (k + 6 * length (filter (keeps realNums tol (realRect t)) (ringSides points))) /\
      drawnIn m' = drawnIn m ++ flat_map (wall (groundAt env geo) (gheight geo)) (filter (keeps realNums tol (realRect t)) (ringSides points)).
  Proof.
    intros Q W G L. rewrite build_run.
    assert (Le : (length (filter (keeps realNums tol (realRect t)) (ringSides points)) <= length points)%nat).
    { rewrite <- (ring_length points). induction (ringSides points) as [|a l IH]; [reflexivity|]. cbn [filter]. destruct (keeps realNums tol (realRect t) a); cbn [length]; lia. }
    destruct (run_ok realNums env (wallOps realNums tol (realRect t) points (noNoise realNums geo) look) m k) as (m' & E & A & B & C & D); try assumption.
    - apply wall_ops_good.
    - rewrite wall_count. lia.
    - exists m'. split; [exact E|]. split; [exact B|]. rewrite wall_count in A. split; [exact A|].
      unfold drawnIn. rewrite D, flat_map_app. f_equal. unfold wallOps. generalize (filter (keeps realNums tol (realRect t)) (ringSides points)).
      intros l. induction l as [|(p, q) l IH]; [reflexivity|]. cbn [map flat_map fst snd]. rewrite flat_map_app, IH. f_equal. apply (wall_seen geo look p q Q).
  Qed.
End Real.
