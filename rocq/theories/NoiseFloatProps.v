(** C83: noise with doubles. *)
From Coq Require Import Reals ZArith List Lia Lra. Import ListNotations.
From Flocq Require Import Core.Core IEEE754.Binary IEEE754.Bits.
From Flocq Require IEEE754.BinarySingleNaN.
From Verif Require Import Base RingModel MeshBuildModel ProjectionModel ProjectionFloat QuatModel GenModel RowModel NoiseModel NoiseSpec NoiseProofs
  RingFloatModel RingFloatSpec RingFloatProofs InsideFloatProofs LineFloatModel LineFloatProofs NoiseFloatModel NoiseFloatSpec NoiseFloatProofs.
Local Open Scope R_scope.

Notation doublePerlin k g := (perlin2D doubleNums k g doubleFloor doubleTiny).
Notation doubleTime k g := (colorTime doubleNums k g doubleFloor doubleTiny).
(** Whatever sine and cosine are: the square root and the conversion of integers are those of double. *)
Definition usual (k : trig binary64) (g : gens binary64) : Prop := ksqrt k = doubleSqrt /\ gint g = doubleInt.

(** The noise is within 1e-12 of the exact noise at the rounded products of coordinates and frequency, in the cell on either side
    of a border. *)
Theorem C83_near : exists P, shuffled P /\
  forall k g x y f i j, usual k g -> nlt doubleNums f doubleTiny = false -> reachable x f -> reachable y f ->
    inCell i (rounded x f) -> inCell j (rounded y f) ->
    exists v, doublePerlin k g x y f = Ok v /\ is_finite 53 1024 v = true /\
      Rabs (valueOf v - noiseIn (gradientsOf P) i j (rounded x f) (rounded y f)) <= 1 / 1000000000000.
Proof.
  exists hashOf. split; [exact hash_shuffled|]. intros k g x y f i j (K & G) F X Y U V. rewrite any_cell by assumption.
  apply noise_close; assumption.
Qed.
(** Against the products not rounded at all, it is off by 13 times their rounding more. *)
Theorem C83_exact : exists P, shuffled P /\
  forall k g x y f i j v, usual k g -> nlt doubleNums f doubleTiny = false -> reachable x f -> reachable y f ->
    inCell i (valueOf x * valueOf f) -> inCell j (valueOf y * valueOf f) -> doublePerlin k g x y f = Ok v ->
    Rabs (valueOf v - noiseIn (gradientsOf P) i j (valueOf x * valueOf f) (valueOf y * valueOf f)) <=
      2 / 1000000000000 + 13 / 9007199254740992 * (Rabs (valueOf x * valueOf f) + Rabs (valueOf y * valueOf f)).
Proof.
  exists hashOf. split; [exact hash_shuffled|]. intros k g x y f i j v (K & G) F X Y U V E. rewrite any_cell by assumption.
  destruct (noise_close k g K G x y f F X Y) as (w & W & _ & C). rewrite W in E. injection E as <-.
  assert (S := noise_slope (gradientsOf hashOf) (rounded x f) (rounded y f) (valueOf x * valueOf f) (valueOf y * valueOf f) (gradients_unit hashOf)).
  assert (EX := rnd64_error (valueOf x * valueOf f)). assert (EY := rnd64_error (valueOf y * valueOf f)).
  change (rnd64 (valueOf x * valueOf f)) with (rounded x f) in EX. change (rnd64 (valueOf y * valueOf f)) with (rounded y f) in EY.
  assert (E1 := eta_unit). apply abs_bounds in C, S. apply Rabs_le. lra.
Qed.
(** It is undefined exactly if a product is out of the range of an int. *)
Theorem C83_defined k g x y f : usual k g -> is_finite 53 1024 x = true -> is_finite 53 1024 y = true -> is_finite 53 1024 f = true ->
  (doublePerlin k g x y f = UB <-> nlt doubleNums f doubleTiny = false /\ ~ (reachable x f /\ reachable y f)) /\
  (nlt doubleNums f doubleTiny = true -> doublePerlin k g x y f = Ok (nzero doubleNums)).
Proof.
  intros (K & G) X Y F. split; [split|].
  - intros U. destruct (nlt doubleNums f doubleTiny) eqn:L; [unfold perlin2D in U; rewrite L in U; discriminate U|]. split; [reflexivity|].
    intros (A & B). destruct (noise_close k g K G x y f L A B) as (v & E & _). rewrite E in U. discriminate U.
  - intros (L & N). apply noise_undefined; assumption.
  - intros L. unfold perlin2D. rewrite L. reflexivity.
Qed.
Lemma cases k g x y f v : usual k g -> is_finite 53 1024 x = true -> is_finite 53 1024 y = true -> is_finite 53 1024 f = true ->
  doublePerlin k g x y f = Ok v -> is_finite 53 1024 v = true /\ (valueOf v = 0 \/
  Rabs (valueOf v - noise (gradientsOf hashOf) (rounded x f) (rounded y f)) <= 1 / 1000000000000).
Proof.
  intros U X Y F E. destruct (C83_defined k g x y f U X Y F) as ((_ & D) & Z). destruct (nlt doubleNums f doubleTiny) eqn:L.
  - rewrite (Z eq_refl) in E. injection E as <-. split; [reflexivity|left; reflexivity].
  - destruct U as (K & G). destruct (fits_dec (Zfloor (rounded x f))) as [A|A].
    + destruct (fits_dec (Zfloor (rounded y f))) as [B|B].
      * destruct (noise_close k g K G x y f L (conj X (conj F A)) (conj Y (conj F B))) as (w & E' & FW & W). rewrite E' in E. injection E as <-. auto.
      * rewrite D in E; [discriminate|]. split; [reflexivity|]. intros (_ & _ & _ & C). contradiction.
    + rewrite D in E; [discriminate|]. split; [reflexivity|]. intros ((_ & _ & C) & _). contradiction.
Qed.
(** It does not leave the range from -1 to 1, nor the time of a color that from 0 to 1, by more than 1e-12. *)
Theorem C83_range k g x y f v : usual k g -> is_finite 53 1024 x = true -> is_finite 53 1024 y = true -> is_finite 53 1024 f = true ->
  doublePerlin k g x y f = Ok v -> Rabs (valueOf v) <= 1 + 1 / 1000000000000.
Proof.
  intros U X Y F E. destruct (cases k g x y f v U X Y F E) as (_ & [Z|C]); [rewrite Z, Rabs_R0; lra|].
  assert (R := noise_range (gradientsOf hashOf) (rounded x f) (rounded y f) (gradients_unit hashOf)). apply abs_bounds in C. apply Rabs_le. lra.
Qed.
Theorem C83_time k g x y f t : usual k g -> is_finite 53 1024 x = true -> is_finite 53 1024 y = true -> is_finite 53 1024 f = true ->
  doubleTime k g x y f = Ok t -> is_finite 53 1024 t = true /\ - (1 / 1000000000000) <= valueOf t <= 1 + 1 / 1000000000000.
Proof.
  intros U X Y F E. unfold colorTime in E. destruct (doublePerlin k g x y f) as [v|e|] eqn:V; cbn [bind] in E; try discriminate. injection E as <-.
  assert (R := C83_range k g x y f v U X Y F V). destruct (cases k g x y f v U X Y F V) as (FV & _). destruct U as (_ & G). rewrite G.
  destruct (wide_int 1 ltac:(cbn; lia)) as (V1 & F1), (wide_int 2 ltac:(cbn; lia)) as (V2 & F2). assert (R' := abs_bounds _ _ R).
  assert (A : Rabs (valueOf v + valueOf (doubleInt 1)) <= 3) by (rewrite V1; apply Rabs_le; lra).
  destruct (add_value v (doubleInt 1) FV F1) as (VS & FS); [lra|]. assert (RS := rnd64_bounded _ _ A). rewrite <- VS in RS. apply abs_bounds in RS. rewrite V1 in RS.
  assert (E1 := eta_unit). set (s := nadd doubleNums v (doubleInt 1)) in *.
  assert (B : Rabs (valueOf s / valueOf (doubleInt 2)) <= 2) by (rewrite V2; apply Rabs_le; lra).
  destruct (div_value s (doubleInt 2) FS) as (VD & FD); [rewrite V2; lra|lra|]. assert (RD := rnd64_bounded _ _ B). rewrite <- VD in RD. apply abs_bounds in RD. rewrite V2 in RD.
  change (is_finite 53 1024 (ndiv doubleNums s (doubleInt 2)) = true /\ - (1 / 1000000000000) <= valueOf (ndiv doubleNums s (doubleInt 2)) <= 1 + 1 / 1000000000000).
  split; [exact FD|]. lra.
Qed.
(** Close places have close noise, also across borders of cells. *)
Theorem C83_smooth k g x y f x' y' f' v v' : usual k g -> nlt doubleNums f doubleTiny = false -> nlt doubleNums f' doubleTiny = false ->
  reachable x f -> reachable y f -> reachable x' f' -> reachable y' f' ->
  doublePerlin k g x y f = Ok v -> doublePerlin k g x' y' f' = Ok v' ->
  Rabs (valueOf v - valueOf v') <= 2 / 1000000000000 + 13 * (Rabs (rounded x f - rounded x' f') + Rabs (rounded y f - rounded y' f')).
Proof.
  intros (K & G) L L' X Y X' Y' E E'. destruct (noise_close k g K G x y f L X Y) as (w & W & _ & C). rewrite W in E. injection E as <-.
  destruct (noise_close k g K G x' y' f' L' X' Y') as (w' & W' & _ & C'). rewrite W' in E'. injection E' as <-.
  assert (S := noise_slope (gradientsOf hashOf) (rounded x f) (rounded y f) (rounded x' f') (rounded y' f') (gradients_unit hashOf)).
  apply abs_bounds in C, C', S. apply Rabs_le. lra.
Qed.

Print Assumptions C83_near.
Print Assumptions C83_exact.
Print Assumptions C83_defined.
Print Assumptions C83_range.
Print Assumptions C83_time.
Print Assumptions C83_smooth.

(** * Cases *)
Definition someTrig : trig binary64 :=
  mkTrig (doubleInt 1) (doubleInt 1) (doubleInt 0) (fun x => x) (fun x => x) doubleSqrt (fun x _ => x).
Definition someGens : gens binary64 := mkGens doubleInt (fun _ => None) (doubleInt 3) (doubleInt 0).
Definition half (k : Z) : binary64 := ndiv doubleNums (doubleInt k) (doubleInt 2).
(** In the middle of the cell (1, 22) the noise is 1 with doubles too; a frequency of 2^31 is out of reach. *)
Example C83_case : usual someTrig someGens /\
  match doublePerlin someTrig someGens (half 3) (half 45) (doubleInt 1) with Ok v => B2FF 53 1024 v = F754_finite false 4503599627370496 (-52) | _ => False end /\
  doublePerlin someTrig someGens (doubleInt 1) (doubleInt 1) (doubleInt 2147483648) = UB /\
  nlt doubleNums (doubleInt 1) doubleTiny = false /\ reachable (half 3) (doubleInt 1).
Proof.
  split; [split; reflexivity|]. split; [vm_compute; reflexivity|]. split; [vm_compute; reflexivity|]. split; [vm_compute; reflexivity|].
  split; [vm_compute; reflexivity|]. split; [vm_compute; reflexivity|].
  assert (V : valueOf (half 3) = 3 / 2).
  { unfold valueOf. rewrite <- FF2R_B2FF. replace (B2FF 53 1024 (half 3)) with (F754_finite false 6755399441055744 (-52)) by (vm_compute; reflexivity).
    unfold FF2R, F2R. cbn -[IZR]. lra. }
  destruct (wide_int 1 ltac:(cbn; lia)) as (V1 & _). change (rounded (half 3) (doubleInt 1)) with (rnd64 (valueOf (half 3) * valueOf (doubleInt 1))). rewrite V1.
  rewrite Rmult_1_r. assert (E : rnd64 (valueOf (half 3)) = valueOf (half 3)) by (apply round_generic; [apply valid_rnd_N|apply generic_format_B2R]).
  rewrite E, V. replace (Zfloor (3 / 2)) with 1%Z; [unfold fits; lia|]. symmetry. apply Zfloor_imp. cbn. lra.
Qed.
