From Coq Require Import ZArith Reals Lra.
From Flocq Require Import Core.Core IEEE754.Binary IEEE754.Bits.
From Verif Require Import Base Bytes BytesProofs StreamModel FloatModel FloatProofs MeshModel MeshSpec.

Lemma fe32_FLT e : SpecFloat.fexp 24 128 e = FLT_exp (-149) 24 e.
Proof. reflexivity. Qed.

Lemma cycle_rounded d : isBits64 d -> singleRounded d (f64of32 (f32of64 d)).
Proof.
  intros Hd. split; [apply f64_bound|]. unfold isnan64, sign64, finite64, real64.
  destruct (is_nan 53 1024 (b64_of_bits (Z.of_N d))) eqn:Hn.
  { split; [|discriminate].
    destruct (nan_payload d Hn) as (s & q & Q & _ & _ & E3). rewrite E3.
    destruct (join_bits_range 52 11 s (q * 2 ^ 29) 2047) as [J1 J2]; [lia|cbn; lia|].
    rewrite Z2N.id by lia. apply nan_join64. lia. }
  assert (E : b64_of_bits (Z.of_N (f64of32 (f32of64 d))) = toDouble (toSingle (b64_of_bits (Z.of_N d)))).
  { pose proof (toSingle_nan _ Hn) as N1. unfold f32of64. rewrite Hn.
    set (y := toSingle (b64_of_bits (Z.of_N d))) in *.
    pose proof (range32 y). unfold f64of32. rewrite Z2N.id by lia. rewrite of_bits32, N1.
    pose proof (range64 (toDouble y)). rewrite Z2N.id by lia. apply of_bits64. }
  rewrite E. set (x := b64_of_bits (Z.of_N d)) in *.
  split; [apply toDouble_nan; apply toSingle_nan; exact Hn|]. intros _.
  destruct (is_finite 53 1024 x) eqn:Hf.
  - destruct (toSingle_correct x Hf) as (N1 & S1 & R1 & I1).
    change (SpecFloat.fexp 24 128) with (FLT_exp (-149) 24) in R1, I1.
    unfold roundSingle. repeat apply conj.
    + destruct (Rlt_le_dec (Rabs (round radix2 (FLT_exp (-149) 24) ZnearestE (B2R 53 1024 x))) (bpow radix2 128)) as [L|L].
      * destruct (R1 L) as [F2 R2]. destruct (toDouble_correct _ F2) as (_ & S3 & _). rewrite S3. exact S1.
      * rewrite (I1 L). reflexivity.
    + discriminate.
    + intros _ L. destruct (R1 L) as [F2 R2]. destruct (toDouble_correct _ F2) as (F3 & _ & R3).
      split; [exact F3|]. rewrite R3. exact R2.
    + intros _ L. rewrite (I1 L). reflexivity.
  - destruct x as [|s| |] eqn:Ex; try discriminate. repeat apply conj; try discriminate; [reflexivity|].
    intros _. apply N2Z.inj. 
    assert (G : forall u, (0 <= Z.of_N u < 2 ^ 64)%Z -> bits_of_b64 (b64_of_bits (Z.of_N u)) = Z.of_N u).
    { intros u Hu. apply (bits_of_binary_float_of_bits 52 11 eq_refl eq_refl eq_refl). exact Hu. }
    pose proof (f64_bound (f32of64 d)).
    rewrite <- (G (f64of32 (f32of64 d))) by lia. rewrite E.
    rewrite <- (G d) by (unfold isBits64 in Hd; lia). fold x. rewrite Ex. reflexivity.
Qed.

(** Fields. *)
Lemma readUninit_full n x rest : (x < 256 ^ N.of_nat n)%N ->
  readUninit n (mkStream (le n x ++ rest) false) = (Some (le n x), mkStream rest false).
Proof.
  intros Hx. unfold readUninit; cbn [failed rem].
  rewrite firstn_app_exact, skipn_app_exact by apply le_length. rewrite le_length.
  rewrite (proj2 (Nat.ltb_ge n n)) by lia. reflexivity.
Qed.

Lemma readInt_full z rest : isInt z ->
  readInt (mkStream (writeInt z ++ rest) false) = (Some z, mkStream rest false).
Proof.
  unfold isInt. intros Hz. unfold readInt, writeInt.
  assert (M : (0 <= z mod 2 ^ 32 < 2 ^ 32)%Z) by (apply Z.mod_pos_bound; lia).
  assert (B : (Z.to_N (z mod 2 ^ 32) < 256 ^ N.of_nat 4)%N) by (change (256 ^ N.of_nat 4)%N with (2 ^ 32)%N; lia).
  rewrite readUninit_full by exact B. rewrite unle_le by exact B. rewrite Z2N.id by lia.
  f_equal. f_equal. destruct (Z.ltb_spec (z mod 2 ^ 32) (2 ^ 31)) as [L|L].
  - destruct (Z_lt_le_dec z 0).
    + rewrite <- (Z.mod_add z 1) in L |- * by lia. rewrite Z.mod_small in L |- * by lia. lia.
    + rewrite Z.mod_small by lia. reflexivity.
  - destruct (Z_lt_le_dec z 0).
    + rewrite <- (Z.mod_add z 1) by lia. rewrite Z.mod_small by lia. lia.
    + rewrite Z.mod_small in L by lia. lia.
Qed.

Lemma readDouble_full d rest :
  readDouble (mkStream (writeDouble d ++ rest) false) = (Some (f64of32 (f32of64 d)), mkStream rest false).
Proof.
  unfold readDouble, writeDouble. assert (B : (f32of64 d < 256 ^ N.of_nat 4)%N) by exact (f32_bound d).
  rewrite readUninit_full by exact B. rewrite unle_le by exact B. reflexivity.
Qed.

Lemma readItems32_full {A} (r : istream -> option A * istream) (w : A -> bytes) (g : A -> A) (P : A -> Prop) l :
  (forall a rest, P a -> r (mkStream (w a ++ rest) false) = (Some (g a), mkStream rest false)) ->
  Forall P l -> forall rest,
  readItems32 r (length l) (mkStream (flat_map w l ++ rest) false) = Ok (map g l, mkStream rest false).
Proof.
  intros Hr F. induction F as [|a l Ha F IH]; intros rest; [reflexivity|].
  cbn [length readItems32 flat_map map]. rewrite <- app_assoc, Hr by exact Ha. rewrite IH. reflexivity.
Qed.

Lemma readVec32_full {A} (r : istream -> option A * istream) (w : A -> bytes) (g : A -> A) (P : A -> Prop) l rest :
  (forall a rest, P a -> r (mkStream (w a ++ rest) false) = (Some (g a), mkStream rest false)) ->
  Forall P l -> (N.of_nat (length l) < 2 ^ 32)%N ->
  readVec32 r (mkStream (writeVec32 w l ++ rest) false) = Ok (map g l, mkStream rest false).
Proof.
  intros Hr F L. unfold readVec32, writeVec32. rewrite <- app_assoc.
  assert (E : u32 (N.of_nat (length l)) = N.of_nat (length l)) by (apply N.mod_small; exact L).
  rewrite E. unfold readInto; cbn [failed rem].
  rewrite firstn_app_exact, skipn_app_exact by apply le_length. rewrite le_length.
  cbn [skipn]. rewrite app_nil_r. rewrite unle_le by exact L. rewrite Nat2N.id.
  cbn [Nat.ltb Nat.leb]. apply readItems32_full with (P := P); auto.
Qed.

(** The mesh that comes back. *)
Definition cycle (m : mesh) : mesh :=
  mkMesh (mname m) (map (fun d => f64of32 (f32of64 d)) (vertices m)) (triangles m) (colors m)
         (map (fun d => f64of32 (f32of64 d)) (uvs m)) (uvMap m).

Lemma read_write_mesh m rest : wfMesh m ->
  readMesh (mkStream (writeMesh m ++ rest) false) = Ok (cycle m, mkStream rest false).
Proof.
  intros (Hn & Hv & Ht & Hc & Hu & Hm & Lv & Lt & Lc & Lu & Lm).
  unfold readMesh, writeMesh. rewrite cstr_nulFree by exact Hn.
  rewrite <- !app_assoc. cbn [app]. rewrite <- !app_assoc.
  unfold readName; cbn [failed rem]. rewrite getline_nul by exact Hn. cbn [negb].
  rewrite (readVec32_full readDouble writeDouble (fun d => f64of32 (f32of64 d)) isBits64) by (auto using readDouble_full).
  cbn [bind].
  rewrite (readVec32_full readInt writeInt (fun z => z) isInt) by (auto using readInt_full). cbn [bind].
  rewrite (readVec32_full readInt writeInt (fun z => z) isInt) by (auto using readInt_full). cbn [bind].
  rewrite (readVec32_full readDouble writeDouble (fun d => f64of32 (f32of64 d)) isBits64) by (auto using readDouble_full).
  cbn [bind].
  rewrite (readVec32_full readInt writeInt (fun z => z) isInt) by (auto using readInt_full). cbn [bind].
  rewrite !map_id. reflexivity.
Qed.

Lemma cycle_wf m : wfMesh m -> wfMesh (cycle m).
Proof.
  intros (Hn & Hv & Ht & Hc & Hu & Hm & Lv & Lt & Lc & Lu & Lm).
  assert (G : forall l, Forall isBits64 (map (fun d => f64of32 (f32of64 d)) l))
    by (intros l; apply Forall_map, Forall_forall; intros d _; apply f64_bound).
  unfold wfMesh; cbn. rewrite !map_length. repeat (split; auto).
Qed.

Lemma cycle_cycle m : cycle (cycle m) = cycle m.
Proof.
  unfold cycle; cbn. rewrite !map_map. f_equal; apply map_ext; intros d; rewrite f32_idem; reflexivity.
Qed.

Lemma mesh_roundtrip m rest : wfMesh m ->
  exists m', readMesh (mkStream (writeMesh m ++ rest) false) = Ok (m', mkStream rest false) /\
    mname m' = mname m /\ triangles m' = triangles m /\ colors m' = colors m /\ uvMap m' = uvMap m /\
    Forall2 singleRounded (vertices m) (vertices m') /\ Forall2 singleRounded (uvs m) (uvs m').
Proof.
  intros H. exists (cycle m). split; [apply read_write_mesh; exact H|].
  destruct H as (Hn & Hv & Ht & Hc & Hu & Hm & _).
  assert (G : forall l, Forall isBits64 l -> Forall2 singleRounded l (map (fun d => f64of32 (f32of64 d)) l)).
  { induction 1; cbn [map]; constructor; auto. apply cycle_rounded; auto. }
  cbn. repeat split; auto.
Qed.

Lemma mesh_second_cycle m m' rest rest' s : wfMesh m ->
  readMesh (mkStream (writeMesh m ++ rest) false) = Ok (m', s) ->
  readMesh (mkStream (writeMesh m' ++ rest') false) = Ok (m', mkStream rest' false) /\
  writeMesh m' = writeMesh m.
Proof.
  intros H E. rewrite read_write_mesh in E by exact H. injection E as <- _.
  rewrite read_write_mesh by (apply cycle_wf; exact H). rewrite cycle_cycle. split; [reflexivity|].
  unfold writeMesh, cycle. cbn [mname vertices triangles colors uvs uvMap].
  assert (G : forall l, writeVec32 writeDouble (map (fun d => f64of32 (f32of64 d)) l) = writeVec32 writeDouble l).
  { intros l. unfold writeVec32. rewrite map_length. f_equal.
    induction l as [|d l IH]; cbn [map flat_map]; [reflexivity|]. rewrite IH.
    unfold writeDouble. rewrite f32_idem. reflexivity. }
  rewrite !G. reflexivity.
Qed.
