From Verif Require Import Base Bytes BytesProofs StreamModel ElementModel ElementSpec.

(** Induction over element trees. *)
Fixpoint element_ind2 (P : element -> Prop)
  (HN : forall i t c, P (Node i t c)) (HW : forall i t cs, P (Way i t cs))
  (HA : forall i t cs, P (Area i t cs))
  (HR : forall i t es, Forall P es -> P (Relation i t es)) (e : element) : P e :=
  match e with
  | Node i t c => HN i t c
  | Way i t cs => HW i t cs
  | Area i t cs => HA i t cs
  | Relation i t es =>
      HR i t es ((fix go l : Forall P l :=
        match l with
        | [] => Forall_nil P
        | m :: l' => Forall_cons m (element_ind2 P HN HW HA HR m) (go l')
        end) es)
  end.

Lemma all_Forall (P : element -> Prop) es :
  (fix all l := match l with [] => True | m :: l' => P m /\ all l' end) es <-> Forall P es.
Proof.
  induction es as [|m es IH]; [split; [constructor|trivial]|].
  rewrite IH. split; [intros []; constructor; auto|intros H; inversion H; auto].
Qed.

Fixpoint depth (e : element) : nat :=
  match e with
  | Relation _ _ es => S (fold_right (fun m n => max (depth m) n) 0 es)
  | _ => 1
  end.

Lemma depth_pos e : 1 <= depth e.
Proof. destruct e; cbn; lia. Qed.

Lemma write_pos e : 1 <= length (write e).
Proof. destruct e; cbn; lia. Qed.

Lemma depth_write e : depth e <= length (write e).
Proof.
  induction e as [i t c|i t cs|i t cs|i t es IH] using element_ind2; try (cbn; lia).
  cbn [depth write length]. rewrite !app_length.
  enough (fold_right (fun m n => max (depth m) n) 0 es <= length (flat_map (fun m => le 8 (eid m) ++ write m) es)) by lia.
  induction IH as [|m es Hm _ IH2]; cbn [fold_right flat_map length]; [lia|].
  rewrite !app_length. lia.
Qed.

(** Reading complete fields. *)
Lemma readInto_full n old x rest : (x < 256 ^ N.of_nat n)%N -> length old = n ->
  readInto n old (mkStream (le n x ++ rest) false) = (le n x, mkStream rest false).
Proof.
  intros Hx Ho. unfold readInto; cbn [failed rem].
  rewrite firstn_app_exact, skipn_app_exact by apply le_length. rewrite le_length.
  rewrite skipn_all2 by lia. rewrite app_nil_r. rewrite (proj2 (Nat.ltb_ge n n)) by lia. reflexivity.
Qed.

Lemma readTag_full t rest : wfTag t ->
  readTag (mkStream (writeTag t ++ rest) false) = (t, mkStream rest false).
Proof.
  intros [H1 H2]. unfold readTag, writeTag. rewrite <- app_assoc.
  rewrite readInto_full by (auto; exact H1). rewrite readInto_full by (auto; exact H2).
  rewrite !unle_le by assumption. destruct t; reflexivity.
Qed.

Lemma readCoord_full c rest : wfCoord c ->
  readCoord (mkStream (writeCoord c ++ rest) false) = (c, mkStream rest false).
Proof.
  intros [H1 H2]. unfold readCoord, writeCoord. rewrite <- app_assoc.
  rewrite readInto_full by (auto; exact H1). rewrite readInto_full by (auto; exact H2).
  rewrite !unle_le by assumption. destruct c; reflexivity.
Qed.

Lemma readItems_full {A} (r : istream -> A * istream) w (P : A -> Prop) l :
  (forall a rest, P a -> r (mkStream (w a ++ rest) false) = (a, mkStream rest false)) ->
  Forall P l -> forall rest,
  readItems r (length l) (mkStream (flat_map w l ++ rest) false) = (l, mkStream rest false).
Proof.
  intros Hr F. induction F as [|a l Ha F IH]; intros rest; [reflexivity|].
  cbn [length readItems flat_map]. rewrite <- app_assoc, Hr by exact Ha. rewrite IH. reflexivity.
Qed.

Lemma readSize_full {A} (l : list A) rest : fits l ->
  readSize (mkStream (writeSize l ++ rest) false) = (length l, mkStream rest false).
Proof.
  unfold fits. intros H. unfold readSize, writeSize.
  assert (E : u16 (N.of_nat (length l)) = N.of_nat (length l)) by (apply N.mod_small; lia).
  rewrite E, readInto_full by (cbn; lia). rewrite unle_le by (cbn; lia). rewrite Nat2N.id. reflexivity.
Qed.

Lemma readVec_full {A} (r : istream -> A * istream) w (P : A -> Prop) l rest :
  (forall a rest, P a -> r (mkStream (w a ++ rest) false) = (a, mkStream rest false)) ->
  Forall P l -> fits l ->
  readVec r (mkStream (writeVec w l ++ rest) false) = (l, mkStream rest false).
Proof.
  intros Hr F Hl. unfold readVec, writeVec. rewrite <- app_assoc, readSize_full by exact Hl.
  apply readItems_full with (P := P); auto.
Qed.

Lemma setId_eid e : setId (eid e) e = e.
Proof. destruct e; reflexivity. Qed.
Lemma setId_setId i j e : setId i (setId j e) = setId i e.
Proof. destruct e; reflexivity. Qed.

Lemma readChar_type b bs : (b <= 3)%N -> readChar (mkStream (b :: bs) false) = (Some b, mkStream bs false).
Proof.
  intros H. unfold readChar; cbn [failed rem skipSpace].
  assert (E : isSpace b = false).
  { unfold isSpace. destruct (N.eqb_spec b 32); [lia|]. destruct (N.leb_spec 9 b); [lia|]. reflexivity. }
  rewrite E. reflexivity.
Qed.

Lemma readElem_write e : wfElement e -> fitsElement e ->
  forall fuel rest, depth e <= fuel ->
  readElem fuel (mkStream (write e ++ rest) false) = Some (Ok (setId 0 e, mkStream rest false)).
Proof.
  induction e as [i t c|i t cs|i t cs|i t es IH] using element_ind2; intros Hw Hf [|fuel] rest Hd;
    try (exfalso; cbn in Hd; lia).
  - destruct Hw as (_ & Ht & Hc). destruct Hf as [Hft _].
    cbn [write app readElem]. rewrite readChar_type by lia. cbn [N.eqb Pos.eqb].
    rewrite <- !app_assoc, (readVec_full _ _ wfTag) by (auto using readTag_full).
    rewrite readCoord_full by exact Hc. reflexivity.
  - destruct Hw as (_ & Ht & Hc). destruct Hf as [Hft Hfc].
    cbn [write app readElem]. rewrite readChar_type by lia. cbn [N.eqb Pos.eqb].
    rewrite <- !app_assoc, (readVec_full _ _ wfTag) by (auto using readTag_full).
    rewrite (readVec_full _ _ wfCoord) by (auto using readCoord_full). reflexivity.
  - destruct Hw as (_ & Ht & Hc). destruct Hf as [Hft Hfc].
    cbn [write app readElem]. rewrite readChar_type by lia. cbn [N.eqb Pos.eqb].
    rewrite <- !app_assoc, (readVec_full _ _ wfTag) by (auto using readTag_full).
    rewrite (readVec_full _ _ wfCoord) by (auto using readCoord_full). reflexivity.
  - destruct Hw as (_ & Ht & Hm). destruct Hf as (Hft & Hfe & Hfm).
    rewrite all_Forall in Hm, Hfm. cbn [etags] in Ht, Hft.
    assert (Hd' : forall m, In m es -> depth m <= fuel).
    { cbn [depth] in Hd. apply le_S_n in Hd. revert Hd. generalize fuel. clear.
      induction es as [|m es IH]; intros fuel H x Hx; [contradiction|]. cbn [fold_right] in H.
      destruct Hx as [->|Hx]; [lia|]. apply (IH fuel); [lia|auto]. }
    assert (HM : forall rest, readMembers (readElem fuel) (length es)
        (mkStream (flat_map (fun m => le 8 (eid m) ++ write m) es ++ rest) false)
        = Some (Ok (es, mkStream rest false))).
    { clear Hd Hfe. induction es as [|m es IHes]; intros rest'; [reflexivity|].
      inversion IH as [|? ? IHm IHrest]; inversion Hm as [|? ? Hwm Hwrest];
        inversion Hfm as [|? ? Hffm Hfrest]; subst.
      cbn [length readMembers flat_map]. rewrite <- !app_assoc.
      unfold readUninit; cbn [failed rem].
      rewrite firstn_app_exact, skipn_app_exact by apply le_length. rewrite le_length.
      cbn [Nat.ltb Nat.leb].
      rewrite IHm; auto; [|apply Hd'; left; reflexivity].
      rewrite IHes; auto; [|intros x Hx; apply Hd'; right; exact Hx].
      rewrite unle_le, setId_setId, setId_eid; [reflexivity|].
      destruct m; cbn in Hwm; destruct Hwm as [Hid _]; exact Hid. }
    cbn [write app readElem]. rewrite readChar_type by lia. cbn [N.eqb Pos.eqb].
    rewrite <- !app_assoc, (readVec_full _ _ wfTag) by (auto using readTag_full).
    rewrite readSize_full by exact Hfe. rewrite HM. reflexivity.
Qed.

Lemma read_write e rest : wfElement e -> fitsElement e ->
  read (write e ++ rest) (eid e) = Some (Ok (e, mkStream rest false)).
Proof.
  intros Hw Hf. unfold read. rewrite (readElem_write e Hw Hf).
  - rewrite setId_setId, setId_eid. reflexivity.
  - rewrite app_length. pose proof (depth_write e). lia.
Qed.

(** Whatever the reader returns fits. *)
Lemma readInto_len n old s : length old = n -> length (fst (readInto n old s)) = n.
Proof.
  intros H. unfold readInto. destruct (failed s); cbn [fst]; [exact H|].
  rewrite app_length, skipn_length. pose proof (firstn_le_length n (rem s)).
  pose proof (firstn_length n (rem s)). lia.
Qed.

(** All bytes of a stream are bytes. *)
Definition okBytes (bs : bytes) : Prop := Forall (fun b => b < 256)%N bs.

Lemma okBytes_skipn n bs : okBytes bs -> okBytes (skipn n bs).
Proof. unfold okBytes. intros H. rewrite <- (firstn_skipn n) in H. apply Forall_app in H. tauto. Qed.
Lemma okBytes_firstn n bs : okBytes bs -> okBytes (firstn n bs).
Proof. unfold okBytes. intros H. rewrite <- (firstn_skipn n) in H. apply Forall_app in H. tauto. Qed.

Lemma readInto_ok n old s : okBytes old -> okBytes (rem s) ->
  okBytes (fst (readInto n old s)) /\ okBytes (rem (snd (readInto n old s))).
Proof.
  intros Ho Hs. unfold readInto. destruct (failed s); cbn [fst snd rem]; [auto|]. split.
  - apply Forall_app. split; [apply okBytes_firstn; auto|apply okBytes_skipn; auto].
  - apply okBytes_skipn; auto.
Qed.

Definition keeps {A} (r : istream -> A * istream) : Prop :=
  forall s, okBytes (rem s) -> okBytes (rem (snd (r s))).

Lemma readTag_keeps : keeps readTag.
Proof.
  intros s H. unfold readTag.
  destruct (readInto 4 [0; 0; 0; 0]%N s) as [k s1] eqn:E1.
  pose proof (readInto_ok 4 [0; 0; 0; 0]%N s) as H1. rewrite E1 in H1. cbn in H1.
  destruct (readInto 4 [0; 0; 0; 0]%N s1) as [v s2] eqn:E2.
  pose proof (readInto_ok 4 [0; 0; 0; 0]%N s1) as H2. rewrite E2 in H2. cbn in H2.
  assert (Z : okBytes [0; 0; 0; 0]%N) by (repeat constructor; lia).
  cbn. apply H2; auto. apply H1; auto.
Qed.

Lemma readCoord_keeps : keeps readCoord.
Proof.
  intros s H. unfold readCoord.
  destruct (readInto 8 infBytes s) as [k s1] eqn:E1.
  pose proof (readInto_ok 8 infBytes s) as H1. rewrite E1 in H1. cbn in H1.
  destruct (readInto 8 infBytes s1) as [v s2] eqn:E2.
  pose proof (readInto_ok 8 infBytes s1) as H2. rewrite E2 in H2. cbn in H2.
  assert (Z : okBytes infBytes) by (repeat constructor; lia).
  cbn. apply H2; auto. apply H1; auto.
Qed.

Lemma readItems_keeps {A} (r : istream -> A * istream) n : keeps r -> keeps (readItems r n).
Proof.
  intros K. induction n as [|n IH]; intros s H; [exact H|]. cbn [readItems].
  pose proof (K s H) as K1. destruct (r s) as [a s1]. cbn [snd] in K1.
  pose proof (IH s1 K1) as K2. destruct (readItems r n s1). exact K2.
Qed.

Lemma readItems_len {A} (r : istream -> A * istream) n s : length (fst (readItems r n s)) = n.
Proof.
  revert s; induction n as [|n IH]; intros s; [reflexivity|]. cbn [readItems].
  destruct (r s) as [a s1]. specialize (IH s1). destruct (readItems r n s1). cbn in *. lia.
Qed.

Lemma readSize_ok s : okBytes (rem s) ->
  (N.of_nat (fst (readSize s)) <= 65535)%N /\ okBytes (rem (snd (readSize s))).
Proof.
  intros H. unfold readSize. assert (Z : okBytes [0; 0]%N) by (repeat constructor; lia).
  pose proof (readInto_ok 2 [0; 0]%N s Z H) as [H1 H2].
  pose proof (readInto_len 2 [0; 0]%N s eq_refl) as HL.
  destruct (readInto 2 [0; 0]%N s) as [b s1]. cbn [fst snd] in *. split; [|auto].
  pose proof (unle_bound b H1) as HB. rewrite HL in HB. cbn in HB. lia.
Qed.

Lemma readVec_fits {A} (r : istream -> A * istream) s : keeps r -> okBytes (rem s) ->
  fits (fst (readVec r s)) /\ okBytes (rem (snd (readVec r s))).
Proof.
  intros K H. unfold readVec, fits. pose proof (readSize_ok s H) as [H1 H2].
  destruct (readSize s) as [n s1]. cbn [fst snd] in *.
  rewrite readItems_len. split; [exact H1|]. apply readItems_keeps; auto.
Qed.

Lemma readChar_keeps s b s' : okBytes (rem s) -> readChar s = (Some b, s') -> okBytes (rem s').
Proof.
  intros H. unfold readChar. destruct (failed s); [discriminate|].
  assert (G : forall bs, okBytes bs -> okBytes (skipSpace bs)).
  { induction 1; [constructor|]. cbn [skipSpace]. destruct (isSpace x); [auto|constructor; auto]. }
  specialize (G (rem s) H). destruct (skipSpace (rem s)) as [|x xs]; [discriminate|].
  intros [= <- <-]. cbn. inversion G; auto.
Qed.

Lemma readUninit_keeps n s b s' : okBytes (rem s) -> readUninit n s = (Some b, s') -> okBytes (rem s').
Proof.
  intros H. unfold readUninit. destruct (failed s); [discriminate|].
  destruct (Nat.ltb _ _); [discriminate|]. intros [= <- <-]. cbn. apply okBytes_skipn; auto.
Qed.

Lemma fits_setId i e : fitsElement (setId i e) <-> fitsElement e.
Proof. destruct e; cbn; reflexivity. Qed.

Lemma readMembers_fits r n :
  (forall s e s', okBytes (rem s) -> r s = Some (Ok (e, s')) -> fitsElement e /\ okBytes (rem s')) ->
  forall s es s', okBytes (rem s) -> readMembers r n s = Some (Ok (es, s')) ->
    length es = n /\ Forall fitsElement es /\ okBytes (rem s').
Proof.
  intros Hr. induction n as [|n IH]; intros s es s' H E; cbn [readMembers] in E.
  - injection E as <- <-. auto.
  - destruct (readUninit 8 s) as [[b|] s1] eqn:E1; [|discriminate].
    pose proof (readUninit_keeps _ _ _ _ H E1) as H1.
    destruct (r s1) as [[[e s2]|x|]|] eqn:E2; try discriminate.
    destruct (Hr _ _ _ H1 E2) as [F2 H2].
    destruct (readMembers r n s2) as [[[es2 s3]|x|]|] eqn:E3; try discriminate.
    destruct (IH _ _ _ H2 E3) as (L3 & F3 & H3). injection E as <- <-.
    split; [cbn; lia|]. split; [constructor; [apply fits_setId; auto|auto]|auto].
Qed.

Lemma readElem_fits fuel : forall s e s', okBytes (rem s) ->
  readElem fuel s = Some (Ok (e, s')) -> fitsElement e /\ okBytes (rem s').
Proof.
  induction fuel as [|f IH]; intros s e s' H E; [discriminate|]. cbn [readElem] in E.
  destruct (readChar s) as [[b|] s1] eqn:E1; [|discriminate].
  pose proof (readChar_keeps _ _ _ H E1) as H1.
  pose proof (readVec_fits readTag s1 readTag_keeps H1) as [F2 H2].
  destruct (readVec readTag s1) as [t s2]. cbn [fst snd] in F2, H2.
  destruct (N.eqb b 0); [|destruct (N.eqb b 1); [|destruct (N.eqb b 2); [|destruct (N.eqb b 3); [|discriminate]]]].
  - pose proof (readCoord_keeps s2 H2) as H3. destruct (readCoord s2) as [c s3].
    injection E as <- <-. cbn. auto.
  - pose proof (readVec_fits readCoord s2 readCoord_keeps H2) as [F3 H3].
    destruct (readVec readCoord s2) as [cs s3]. injection E as <- <-. cbn in *. auto.
  - pose proof (readVec_fits readCoord s2 readCoord_keeps H2) as [F3 H3].
    destruct (readVec readCoord s2) as [cs s3]. injection E as <- <-. cbn in *. auto.
  - pose proof (readSize_ok s2 H2) as [F3 H3]. destruct (readSize s2) as [n s3]. cbn [fst snd] in *.
    destruct (readMembers (readElem f) n s3) as [[[es s4]|x|]|] eqn:E4; try discriminate.
    injection E as <- <-. destruct (readMembers_fits _ _ IH _ _ _ H3 E4) as (L4 & F4 & H4).
    split; [|auto]. cbn [fitsElement etags]. split; [auto|]. split; [unfold fits; lia|].
    apply all_Forall; auto.
Qed.

Lemma read_fits bs id e s : okBytes bs -> read bs id = Some (Ok (e, s)) -> fitsElement e.
Proof.
  intros H. unfold read. destruct (readElem _ _) as [[[e' s']|x|]|] eqn:E; try discriminate.
  intros [= <- <-]. apply fits_setId. eapply readElem_fits; [|exact E]. exact H.
Qed.

(** Bytes written are bytes. *)
Lemma ok_app a b : okBytes a -> okBytes b -> okBytes (a ++ b).
Proof. intros. apply Forall_app; auto. Qed.
Lemma ok_le n x : okBytes (le n x).
Proof. apply le_byte. Qed.
Lemma ok_flat_map {A} (w : A -> bytes) l : (forall a, In a l -> okBytes (w a)) -> okBytes (flat_map w l).
Proof.
  induction l as [|a l IH]; intros H; [constructor|]. cbn [flat_map]. apply ok_app.
  - apply H; left; reflexivity.
  - apply IH. intros; apply H; right; auto.
Qed.
Lemma ok_vec {A} (w : A -> bytes) l : (forall a, okBytes (w a)) -> okBytes (writeVec w l).
Proof. intros H. apply ok_app; [apply ok_le|]. apply ok_flat_map; auto. Qed.
Lemma ok_tag t : okBytes (writeTag t).
Proof. apply ok_app; apply ok_le. Qed.
Lemma ok_coord t : okBytes (writeCoord t).
Proof. apply ok_app; apply ok_le. Qed.
Lemma write_ok e : okBytes (write e).
Proof.
  induction e as [i t c|i t cs|i t cs|i t es IH] using element_ind2; cbn [write];
    (constructor; [lia|]); apply ok_app; try solve [apply ok_vec; auto using ok_tag, ok_coord];
    auto using ok_coord.
  apply ok_app; [apply ok_le|]. apply ok_flat_map. rewrite Forall_forall in IH.
  intros m Hm. apply ok_app; [apply ok_le|auto].
Qed.

Lemma roundtrip_iff e rest : wfElement e -> okBytes rest ->
  (read (write e ++ rest) (eid e) = Some (Ok (e, mkStream rest false)) <-> fitsElement e).
Proof.
  intros Hw Hr. split.
  - intros H. eapply read_fits; [|exact H]. apply Forall_app; split; [apply write_ok|auto].
  - apply read_write; auto.
Qed.

(** The fuel never runs out. *)
Definition consumes {A} (r : istream -> A * istream) : Prop :=
  forall s, length (rem (snd (r s))) <= length (rem s).

Lemma readInto_consumes n old : consumes (readInto n old).
Proof.
  intros s. unfold readInto. destruct (failed s); cbn [snd rem]; [lia|]. rewrite skipn_length. lia.
Qed.

Lemma readTag_consumes : consumes readTag.
Proof.
  intros s. unfold readTag.
  pose proof (readInto_consumes 4 [0; 0; 0; 0]%N s). destruct (readInto 4 _ s) as [k s1].
  pose proof (readInto_consumes 4 [0; 0; 0; 0]%N s1). destruct (readInto 4 _ s1) as [v s2].
  cbn in *. lia.
Qed.

Lemma readCoord_consumes : consumes readCoord.
Proof.
  intros s. unfold readCoord.
  pose proof (readInto_consumes 8 infBytes s). destruct (readInto 8 _ s) as [k s1].
  pose proof (readInto_consumes 8 infBytes s1). destruct (readInto 8 _ s1) as [v s2].
  cbn in *. lia.
Qed.

Lemma readItems_consumes {A} (r : istream -> A * istream) n : consumes r -> consumes (readItems r n).
Proof.
  intros K. induction n as [|n IH]; intros s; [cbn; lia|]. cbn [readItems].
  pose proof (K s) as K1. destruct (r s) as [a s1]. cbn [snd] in K1.
  pose proof (IH s1) as K2. destruct (readItems r n s1). cbn [snd] in *. lia.
Qed.

Lemma readSize_consumes : consumes readSize.
Proof.
  intros s. unfold readSize. pose proof (readInto_consumes 2 [0; 0]%N s).
  destruct (readInto 2 _ s). cbn in *. lia.
Qed.

Lemma readVec_consumes {A} (r : istream -> A * istream) : consumes r -> consumes (readVec r).
Proof.
  intros K s. unfold readVec. pose proof (readSize_consumes s). destruct (readSize s) as [n s1].
  pose proof (readItems_consumes r n K s1). cbn in *. lia.
Qed.

Lemma readChar_consumes s b s' : readChar s = (Some b, s') -> length (rem s') < length (rem s).
Proof.
  unfold readChar. destruct (failed s); [discriminate|].
  assert (G : forall bs, length (skipSpace bs) <= length bs).
  { induction bs; cbn [skipSpace]; [lia|]. destruct (isSpace a); cbn [length]; lia. }
  specialize (G (rem s)). destruct (skipSpace (rem s)) as [|x xs]; [discriminate|].
  intros [= <- <-]. cbn in *. lia.
Qed.

Lemma readUninit_consumes n s b s' : readUninit n s = (Some b, s') -> length (rem s') <= length (rem s).
Proof.
  unfold readUninit. destruct (failed s); [discriminate|].
  destruct (Nat.ltb _ _); [discriminate|]. intros [= <- <-]. cbn. rewrite skipn_length. lia.
Qed.

Lemma readMembers_fuel r n bound :
  (forall s, length (rem s) <= bound ->
     r s <> None /\ forall e s', r s = Some (Ok (e, s')) -> length (rem s') <= length (rem s)) ->
  forall s, length (rem s) <= bound ->
    readMembers r n s <> None /\
    forall es s', readMembers r n s = Some (Ok (es, s')) -> length (rem s') <= length (rem s).
Proof.
  intros Hr. induction n as [|n IH]; intros s H; cbn [readMembers].
  - split; [discriminate|]. intros es s' [= <- <-]. lia.
  - destruct (readUninit 8 s) as [[b|] s1] eqn:E1; [|split; discriminate].
    pose proof (readUninit_consumes _ _ _ _ E1) as H1.
    destruct (Hr s1) as [N2 C2]; [lia|].
    destruct (r s1) as [[[e s2]|x|]|] eqn:E2; try (split; discriminate); try tauto.
    specialize (C2 _ _ eq_refl). destruct (IH s2) as [N3 C3]; [lia|].
    destruct (readMembers r n s2) as [[[es2 s3]|x|]|] eqn:E3; try (split; discriminate); try tauto.
    specialize (C3 _ _ eq_refl). split; [discriminate|]. intros es s' [= <- <-]. lia.
Qed.

Lemma readElem_fuel fuel : forall s, length (rem s) < fuel ->
  readElem fuel s <> None /\
  forall e s', readElem fuel s = Some (Ok (e, s')) -> length (rem s') <= length (rem s).
Proof.
  induction fuel as [|f IH]; intros s H; [lia|]. cbn [readElem].
  destruct (readChar s) as [[b|] s1] eqn:E1; [|split; discriminate].
  pose proof (readChar_consumes _ _ _ E1) as H1.
  pose proof (readVec_consumes readTag readTag_consumes s1) as H2.
  destruct (readVec readTag s1) as [t s2]. cbn [snd] in H2.
  destruct (N.eqb b 0); [|destruct (N.eqb b 1); [|destruct (N.eqb b 2); [|destruct (N.eqb b 3); [|split; discriminate]]]].
  - pose proof (readCoord_consumes s2) as H3. destruct (readCoord s2) as [c s3]. cbn [snd] in H3.
    split; [discriminate|]. intros e s' [= <- <-]. lia.
  - pose proof (readVec_consumes readCoord readCoord_consumes s2) as H3.
    destruct (readVec readCoord s2) as [c s3]. cbn [snd] in H3.
    split; [discriminate|]. intros e s' [= <- <-]. lia.
  - pose proof (readVec_consumes readCoord readCoord_consumes s2) as H3.
    destruct (readVec readCoord s2) as [c s3]. cbn [snd] in H3.
    split; [discriminate|]. intros e s' [= <- <-]. lia.
  - pose proof (readSize_consumes s2) as H3. destruct (readSize s2) as [n s3]. cbn [snd] in H3.
    destruct (readMembers_fuel (readElem f) n (length (rem s3))) with (s := s3) as [N4 C4]; [|lia|].
    { intros s0 H0. apply IH. lia. }
    destruct (readMembers (readElem f) n s3) as [[[es s4]|x|]|] eqn:E4; try (split; discriminate); try tauto.
    specialize (C4 _ _ eq_refl). split; [discriminate|]. intros e s' [= <- <-]. lia.
Qed.

Lemma read_total bs id : read bs id <> None.
Proof.
  unfold read. destruct (readElem_fuel (S (length bs)) (mkStream bs false)) as [H _]; [cbn; lia|].
  destruct (readElem (S (length bs)) (mkStream bs false)) as [[[e s]|x|]|]; try discriminate. tauto.
Qed.

Lemma readSeq_write es rest : Forall wfElement es -> Forall fitsElement es ->
  readSeq (map eid es) (flat_map write es ++ rest) = Some (Ok (es, rest)).
Proof.
  intros Hw Hf. induction es as [|e es IH]; [reflexivity|].
  inversion Hw; inversion Hf; subst. cbn [map flat_map readSeq]. rewrite <- app_assoc, read_write by auto.
  cbn [failed rem]. rewrite IH by auto. reflexivity.
Qed.

Lemma read_offset pre e post : wfElement e -> fitsElement e ->
  read (skipn (length pre) (pre ++ write e ++ post)) (eid e) = Some (Ok (e, mkStream post false)).
Proof. intros. rewrite skipn_app_exact by reflexivity. apply read_write; auto. Qed.

Lemma read_unknown b bs id : (3 < b)%N -> isSpace b = false ->
  read (b :: bs) id = Some (Throw DomainError).
Proof.
  intros Hb Hs. unfold read. cbn [length readElem readChar failed rem skipSpace].
  unfold readChar; cbn [failed rem skipSpace]. rewrite Hs.
  destruct (N.eqb_spec b 0); [lia|]. destruct (N.eqb_spec b 1); [lia|].
  destruct (N.eqb_spec b 2); [lia|]. destruct (N.eqb_spec b 3); [lia|]. reflexivity.
Qed.

Lemma read_space b bs id : isSpace b = true ->
  read (b :: bs) id = read bs id.
Proof.
  intros Hs. unfold read.
  assert (M : forall f s, length (rem s) < f -> readElem (S f) s = readElem f s).
  { induction f as [|f IH]; intros s H; [lia|].
    cbn [readElem]. destruct (readChar s) as [[c|] s1] eqn:E1; [|reflexivity].
    pose proof (readChar_consumes _ _ _ E1) as H1.
    pose proof (readVec_consumes readTag readTag_consumes s1) as H2.
    destruct (readVec readTag s1) as [t s2]. cbn [snd] in H2.
    destruct (N.eqb c 0); [reflexivity|]. destruct (N.eqb c 1); [reflexivity|].
    destruct (N.eqb c 2); [reflexivity|]. destruct (N.eqb c 3); [|reflexivity].
    pose proof (readSize_consumes s2) as H3. destruct (readSize s2) as [n s3]. cbn [snd] in H3.
    assert (HM : forall n s, length (rem s) < f -> readMembers (readElem (S f)) n s = readMembers (readElem f) n s).
    { clear -IH. induction n as [|n IHn]; intros s H; [reflexivity|]. cbn [readMembers].
      destruct (readUninit 8 s) as [[b|] s1] eqn:E1; [|reflexivity].
      pose proof (readUninit_consumes _ _ _ _ E1) as H1.
      rewrite (IH s1) by lia. destruct (readElem f s1) as [[[e s2]|x|]|] eqn:E2; try reflexivity.
      destruct (readElem_fuel f s1) as [_ C]; [lia|]. specialize (C _ _ E2). rewrite IHn by lia. reflexivity. }
    rewrite HM by lia. reflexivity. }
  assert (S1 : readElem (S (length (b :: bs))) (mkStream (b :: bs) false) = readElem (S (length (b :: bs))) (mkStream bs false)).
  { cbn [readElem]. unfold readChar; cbn [failed rem skipSpace]. rewrite Hs. reflexivity. }
  rewrite S1, M by (cbn; lia). reflexivity.
Qed.

(** Records of nodes, ways and areas cut anywhere after the type byte are accepted. *)
Lemma read_cut e p : (match e with Relation _ _ _ => False | _ => True end) ->
  1 <= p -> exists e' s, read (firstn p (write e)) (eid e) = Some (Ok (e', s)).
Proof.
  intros He Hp. destruct p as [|p]; [lia|].
  destruct e as [i t c|i t cs|i t cs|]; [..|contradiction];
    cbn [write]; rewrite firstn_cons; set (bs := firstn p _); clearbody bs;
    unfold read; cbn [length readElem]; rewrite readChar_type by lia; cbn [N.eqb Pos.eqb];
    destruct (readVec readTag (mkStream bs false)) as [t' s1].
  - destruct (readCoord s1) as [c' s2]. eauto.
  - destruct (readVec readCoord s1) as [c' s2]. eauto.
  - destruct (readVec readCoord s1) as [c' s2]. eauto.
Qed.

(** What a way with too many coordinates becomes. *)
Lemma readItems_prefix {A} (r : istream -> A * istream) w (P : A -> Prop) :
  (forall a rest, P a -> r (mkStream (w a ++ rest) false) = (a, mkStream rest false)) ->
  forall k l rest, Forall P l -> k <= length l ->
  readItems r k (mkStream (flat_map w l ++ rest) false)
  = (firstn k l, mkStream (flat_map w (skipn k l) ++ rest) false).
Proof.
  intros Hr. induction k as [|k IH]; intros l rest F H; [reflexivity|].
  destruct l as [|a l]; [cbn in H; lia|]. inversion F; subst.
  cbn [readItems flat_map firstn skipn]. rewrite <- app_assoc, Hr by auto.
  rewrite IH by (auto; cbn in H; lia). reflexivity.
Qed.

Lemma read_way_truncated i t cs rest :
  wfElement (Way i t cs) -> fits t ->
  let n := N.to_nat (N.of_nat (length cs) mod 65536) in
  read (write (Way i t cs) ++ rest) i
  = Some (Ok (Way i t (firstn n cs), mkStream (flat_map writeCoord (skipn n cs) ++ rest) false)).
Proof.
  intros (_ & Ht & Hc) Hft n. cbn [etags] in Ht.
  unfold read. cbn [length write app readElem]. rewrite readChar_type by lia. cbn [N.eqb Pos.eqb].
  rewrite <- !app_assoc, (readVec_full _ _ wfTag) by (auto using readTag_full).
  unfold readVec, writeVec. rewrite <- app_assoc. unfold readSize, writeSize.
  assert (B : (u16 (N.of_nat (length cs)) < 256 ^ N.of_nat 2)%N)
    by (unfold u16; change (256 ^ N.of_nat 2)%N with (2 ^ 16)%N; apply N.mod_lt; discriminate).
  rewrite readInto_full by (auto; exact B). rewrite unle_le by exact B.
  change (N.to_nat (u16 (N.of_nat (length cs)))) with n.
  rewrite (readItems_prefix readCoord writeCoord wfCoord); auto using readCoord_full.
  unfold n. pose proof (N.mod_le (N.of_nat (length cs)) 65536). lia.
Qed.
