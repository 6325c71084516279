(** Directions of roofs: theorems for C87 (exact real arithmetic). *)
From Coq Require Import Reals Lra String.
From Verif Require Import Base Bytes BytesProofs RingModel EvalModel QuatModel JsonModel DirectionModel DirectionSpec DirectionProofs.
Local Open Scope R_scope.

Section Direction.
  Variable cast : bytes -> option R.
  Local Notation direction := (skillionDirection realNums IZR cast).

  (** A point of the compass is understood as its bearing to half a degree, the eight main ones exactly. *)
  Theorem C87_compass : forall s a, bearing s a -> exists k,
    Rabs (direction s - a - 360 * IZR k) <= 1 / 2 /\ ((length s <= 2)%nat -> direction s = a + 360 * IZR k).
  Proof.
    intros s a H. destruct (bearing_fair s a H) as (d & k & E & N & X). exists k.
    unfold skillionDirection. rewrite E. split; [exact N|exact X].
  Qed.

  (** So the vector the roof faces is within half a degree of the true one. *)
  Theorem C87_vector : forall s a, bearing s a ->
    cos (PI * (1 / 2) / 180) <= dot (towards (direction s)) (towards a) /\
    ((length s <= 2)%nat -> towards (direction s) = towards a).
  Proof.
    intros s a H. destruct (C87_compass s a H) as (k & N & X). split.
    - rewrite towards_dot. apply (cos_near _ _ k); [lra|exact N].
    - intro L. rewrite (X L). unfold towards.
      replace (PI * (a + 360 * IZR k) / 180) with (PI * a / 180 + 2 * PI * IZR k) by field.
      rewrite cos_turns. f_equal. rewrite <- !cos_shift.
      replace (PI / 2 - (PI * a / 180 + 2 * PI * IZR k)) with (PI / 2 - PI * a / 180 + 2 * PI * IZR (- k)) by (rewrite opp_IZR; ring).
      apply cos_turns.
  Qed.

  (** Any other text is a number of degrees, or north if it is not one. *)
  Theorem C87_other : forall s, (forall a, ~ bearing s a) ->
    direction s = match cast s with Some v => v | None => 0 end.
  Proof.
    intros s H. unfold skillionDirection. destruct (alookup beqb s directions) as [d|] eqn:E; [|reflexivity]. exfalso.
    assert (One : forall x, x = str "N" \/ x = str "S" \/ x = str "E" \/ x = str "W" -> length x = 1%nat)
      by (intros x [-> | [-> | [-> | ->]]]; reflexivity).
    assert (NE : bearing (str "N" ++ str "E") ((0 + 90) / 2))
      by (constructor; [auto|auto|constructor|constructor|split_Rabs; lra]).
    assert (SE : bearing (str "S" ++ str "E") ((180 + 90) / 2))
      by (constructor; [auto|auto|constructor|constructor|split_Rabs; lra]).
    assert (SW : bearing (str "S" ++ str "W") ((180 + 270) / 2))
      by (constructor; [auto|auto|constructor|constructor|split_Rabs; lra]).
    assert (NW : bearing (str "N" ++ str "W") ((360 + 270) / 2))
      by (constructor; [auto|auto|constructor|constructor|split_Rabs; lra]).
    unfold directions in E. cbn [alookup] in E.
    repeat match type of E with
    | (if beqb ?x ?y then _ else _) = _ =>
        destruct (beqb x y) eqn:B; [apply BytesProofs.beqb_eq in B; subst s; clear E|clear B]
    end; [| | | | | | | | | | | | | | | |discriminate E].
    - exact (H _ North).
    - apply (H ((0 + (0 + 90) / 2) / 2)). apply (Nearer (str "N") (str "N") (str "E")); auto; [constructor|split_Rabs; lra].
    - exact (H _ NE).
    - apply (H ((90 + (0 + 90) / 2) / 2)). apply (Nearer (str "E") (str "N") (str "E")); auto; [constructor|split_Rabs; lra].
    - exact (H _ East).
    - apply (H ((90 + (180 + 90) / 2) / 2)). apply (Nearer (str "E") (str "S") (str "E")); auto; [constructor|split_Rabs; lra].
    - exact (H _ SE).
    - apply (H ((180 + (180 + 90) / 2) / 2)). apply (Nearer (str "S") (str "S") (str "E")); auto; [constructor|split_Rabs; lra].
    - exact (H _ South).
    - apply (H ((180 + (180 + 270) / 2) / 2)). apply (Nearer (str "S") (str "S") (str "W")); auto; [constructor|split_Rabs; lra].
    - exact (H _ SW).
    - apply (H ((270 + (180 + 270) / 2) / 2)). apply (Nearer (str "W") (str "S") (str "W")); auto; [constructor|split_Rabs; lra].
    - exact (H _ West).
    - apply (H ((270 + (360 + 270) / 2) / 2)). apply (Nearer (str "W") (str "N") (str "W")); auto; [constructor|split_Rabs; lra].
    - exact (H _ NW).
    - apply (H ((360 + (360 + 270) / 2) / 2)). apply (Nearer (str "N") (str "N") (str "W")); auto; [constructor|split_Rabs; lra].
  Qed.

  (** It is refuted that the direction is the true one for all points of the compass: those of three letters are half a degree
      short, so that roofs to the left and to the right of north are not images of one another. *)
  Theorem C87_exact_refuted : bearing (str "NNE") (45 / 2) /\ direction (str "NNE") = 22 /\
    bearing (str "NNW") (360 - 45 / 2) /\ direction (str "NNW") = 337 /\ 337 <> 360 - 22.
  Proof.
    assert (NE : bearing (str "NE") ((0 + 90) / 2))
      by (apply (Between (str "N") (str "E")); [auto|auto|constructor|constructor|split_Rabs; lra]).
    assert (NW : bearing (str "NW") ((360 + 270) / 2))
      by (apply (Between (str "N") (str "W")); [auto|auto|constructor|constructor|split_Rabs; lra]).
    split; [|split; [reflexivity|split; [|split; [reflexivity|lra]]]].
    - replace (45 / 2) with ((0 + (0 + 90) / 2) / 2) by field.
      apply (Nearer (str "N") (str "N") (str "E")); auto; [constructor|split_Rabs; lra].
    - replace (360 - 45 / 2) with ((360 + (360 + 270) / 2) / 2) by field.
      apply (Nearer (str "N") (str "N") (str "W")); auto; [constructor|split_Rabs; lra].
  Qed.

  (** It is refuted that names are understood as mappers write them: in small letters south is north, unless the text is a
      number. *)
  Theorem C87_case_refuted : cast (str "s") = None -> cast (str "south") = None ->
    dot (towards (direction (str "s"))) (towards 180) = -1 /\ dot (towards (direction (str "south"))) (towards 180) = -1.
  Proof.
    intros A B.
    assert (D : direction (str "s") = 0) by (unfold skillionDirection, parseDouble; rewrite A; reflexivity).
    assert (D' : direction (str "south") = 0) by (unfold skillionDirection, parseDouble; rewrite B; reflexivity).
    rewrite D, D', towards_dot. replace (PI * (0 - 180) / 180) with (- PI) by field. rewrite cos_neg, cos_PI. auto.
  Qed.

  (** It is refuted that a roof faces its direction on the ground: directions are taken in degrees of longitude and latitude, so
      at 60 degrees of latitude one to the north east deviates by more than 18 degrees (the squared cosine is 9/10). *)
  Theorem C87_ground_refuted : bearing (str "NE") 45 /\
    let v := onGround 60 (towards (direction (str "NE"))) in
    dot v (towards 45) * dot v (towards 45) = 9 / 10 * dot v v /\ 0 < dot v v.
  Proof.
    split.
    - replace 45 with ((0 + 90) / 2) by field.
      apply (Between (str "N") (str "E")); [auto|auto|constructor|constructor|split_Rabs; lra].
    - change (direction (str "NE")) with 45. unfold onGround, towards, dot. cbn [fst snd].
      replace (PI * 45 / 180) with (PI / 4) by field. replace (PI * 60 / 180) with (PI / 3) by field.
      rewrite sin_PI4, cos_PI4, cos_PI3. set (q := 1 / sqrt 2).
      assert (Q : q * q = 1 / 2).
      { unfold q. replace (1 / sqrt 2 * (1 / sqrt 2)) with (1 / (sqrt 2 * sqrt 2)).
        - rewrite sqrt_sqrt by lra. reflexivity.
        - field. apply Rgt_not_eq, sqrt_lt_R0. lra. }
      cbv zeta. split.
      + replace ((q * (1 / 2) * q + q * q) * (q * (1 / 2) * q + q * q)) with (9 / 4 * (q * q) * (q * q)) by field.
        replace (q * (1 / 2) * (q * (1 / 2)) + q * q) with (5 / 4 * (q * q)) by field. rewrite Q. field.
      + replace (q * (1 / 2) * (q * (1 / 2)) + q * q) with (5 / 4 * (q * q)) by field. rewrite Q. lra.
  Qed.
End Direction.
Print Assumptions C87_compass.
Print Assumptions C87_vector.
Print Assumptions C87_other.
Print Assumptions C87_exact_refuted.
Print Assumptions C87_case_refuted.
Print Assumptions C87_ground_refuted.

Example C87_case : bearing (str "SW") 225 /\ skillionDirection realNums IZR (fun _ => None) (str "SW") = 225 /\
  (forall a, ~ bearing (str "12") a) /\ skillionDirection realNums IZR (fun _ => Some 12) (str "12") = 12 /\
  (fun _ : bytes => @None R) (str "s") = None.
Proof.
  split.
  { replace 225 with ((180 + 270) / 2) by field.
    apply (Between (str "S") (str "W")); [auto|auto|constructor|constructor|split_Rabs; lra]. }
  split; [reflexivity|]. split; [|split; reflexivity].
  intros a H. apply two_letters in H; [|reflexivity]. destruct H as [[E _]|[[E _]|[[E _]|[E _]]]]; discriminate E.
Qed.

(** A round roof is across for that word and along for any other. *)
Theorem C87_round : forall s, roundAcross s = true <-> s = str "across".
Proof. intro s. apply BytesProofs.beqb_eq. Qed.
Print Assumptions C87_round.
