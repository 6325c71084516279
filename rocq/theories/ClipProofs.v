(** Lemmas about clipping. *)
From Verif Require Import Base Bytes ElementModel ElementProofs GeoModel ClipModel ClipSpec.
Local Open Scope nat_scope.

Lemma and_forall {A} (P : A -> Prop) l : fold_right and True (map P l) <-> Forall P l.
Proof.
  induction l as [|x l IH]; cbn [map fold_right]; [split; auto|]. rewrite IH. split.
  - intros [H1 H2]. constructor; auto.
  - intros H. inversion H; auto.
Qed.

  Lemma relabel_id i ts e : eid (relabel i ts e) = i. Proof. destruct e; reflexivity. Qed.
  Lemma relabel_tags i ts e : etags (relabel i ts e) = ts. Proof. destruct e; reflexivity. Qed.
  Lemma relabel_coords i ts e : coordinates (relabel i ts e) = coordinates e. Proof. destruct e; reflexivity. Qed.
  Lemma relabel_plural i ts e : plural (relabel i ts e) <-> plural e. Proof. destruct e; reflexivity. Qed.
  Lemma relabel_kind i ts e : sameKind e (relabel i ts e). Proof. destruct e; exact I. Qed.

  Lemma gather_cases i ts l e : gather i ts l = Some e ->
    (exists m, l = [m] /\ e = relabel i ts m) \/ (2 <= length l /\ e = Relation i ts l).
  Proof.
    destruct l as [|m [|m2 l]]; cbn [gather]; [discriminate| |]; intros E; injection E as <-.
    - left. exists m. auto.
    - right. cbn [length]. split; [lia|auto].
  Qed.


Section P.
  Variable snap : N -> Z.
  Variable unsnap : Z -> N.
  Variable intersection : list gridPoint -> bool -> list gridPoint -> list (list gridPoint).
  Notation clip := (clip snap unsnap intersection).
  Notation clipElement := (clipElement snap unsnap intersection).
  Notation kept b es := (flat_map (fun m => match clip b m with Some m' => [m'] | None => [] end) es).

  Lemma clipElement_inside make closed b i ts cs :
    forallb (inBox b) cs = true -> clipElement make closed b i ts cs = Some (make i ts cs).
  Proof. intros H. unfold ClipModel.clipElement, checkElement. rewrite H. reflexivity. Qed.

  (** The forms of a clipped way or area. *)
  Lemma clipElement_cases make closed b i ts cs e : clipElement make closed b i ts cs = Some e ->
    (forallb (inBox b) cs = true /\ e = make i ts cs) \/
    (exists c, e = make i ts (coordsOf unsnap c) /\ intersection (clipPath snap b) closed (shapeOf snap cs) = [c]) \/
    (exists ps, 2 <= length ps /\ e = Relation i [] (map (fun p => make 0%N ts (coordsOf unsnap p)) ps) /\
       intersection (clipPath snap b) closed (shapeOf snap cs) = ps).
  Proof.
    unfold ClipModel.clipElement, checkElement. destruct (forallb (inBox b) cs); cbn [andb].
    - intros E. injection E as <-. auto.
    - destruct (areConnected closed b cs _); [|discriminate].
      destruct (intersection _ _ _) as [|c [|c2 l]] eqn:I; [discriminate| |]; intros E; injection E as <-.
      + right; left. exists c. auto.
      + right; right. exists (c :: c2 :: l). cbn [length map]. repeat split; try lia; auto.
  Qed.

  Lemma kept_in b es x : In x (kept b es) <-> exists m, In m es /\ clip b m = Some x.
  Proof.
    rewrite in_flat_map. split; intros (m & H & K); exists m; split; auto.
    - destruct (clip b m); [destruct K as [->|[]]; auto|destruct K].
    - rewrite K. left; auto.
  Qed.

  Lemma clip_id b e e' : clip b e = Some e' -> eid e' = eid e.
  Proof.
    destruct e as [i t c|i t cs|i t cs|i t es]; cbn [ClipModel.clip eid].
    - destruct (inBox b c); [|discriminate]. intros E. injection E as <-. reflexivity.
    - intros H. apply clipElement_cases in H as [(_ & ->)|[(c & -> & _)|(ps & _ & -> & _)]]; reflexivity.
    - intros H. apply clipElement_cases in H as [(_ & ->)|[(c & -> & _)|(ps & _ & -> & _)]]; reflexivity.
    - intros H. apply gather_cases in H as [(m & _ & ->)|(_ & ->)]; [apply relabel_id|reflexivity].
  Qed.

  Lemma clip_coords b e : forall e', clip b e = Some e' -> forall c, In c (coordinates e') ->
    (In c (coordinates e) /\ inBox b c = true) \/
    (exists closed cs p, In p (intersection (clipPath snap b) closed (shapeOf snap cs)) /\ In c (coordsOf unsnap p)).
  Proof.
    assert (L : forall make closed i ts cs e' c, (forall i ts cs, coordinates (make i ts cs) = cs) ->
      clipElement make closed b i ts cs = Some e' -> In c (coordinates e') ->
      (In c cs /\ inBox b c = true) \/
      (exists closed cs p, In p (intersection (clipPath snap b) closed (shapeOf snap cs)) /\ In c (coordsOf unsnap p))).
    { intros make closed i ts cs e' c M H K.
      apply clipElement_cases in H as [(F & ->)|[(p & -> & I)|(ps & _ & -> & I)]].
      - rewrite M in K. left. split; auto. rewrite forallb_forall in F. auto.
      - rewrite M in K. right. exists closed, cs, p. rewrite I. split; [left|]; auto.
      - right. exists closed, cs. cbn [coordinates] in K. apply in_flat_map in K as (x & X & K).
        apply in_map_iff in X as (p & <- & P). exists p. rewrite M in K. rewrite I. auto. }
    induction e as [i t c0|i t cs|i t cs|i t es IH] using element_ind2; intros e' H c K; cbn [ClipModel.clip coordinates] in *.
    - destruct (inBox b c0) eqn:B; [|discriminate]. injection H as <-. destruct K as [<-|[]]. left. split; [left|]; auto.
    - apply (L Way false i t cs e' c); auto.
    - apply (L Area true i t cs e' c); auto.
    - assert (G : forall x, In x (kept b es) -> In c (coordinates x) ->
        (In c (flat_map coordinates es) /\ inBox b c = true) \/
        (exists closed cs p, In p (intersection (clipPath snap b) closed (shapeOf snap cs)) /\ In c (coordsOf unsnap p))).
      { intros x X Kx. apply kept_in in X as (m & M & C). rewrite Forall_forall in IH.
        destruct (IH m M x C c Kx) as [(A & B)|A]; auto. left. split; auto. apply in_flat_map. exists m; auto. }
      apply gather_cases in H as [(m & E & ->)|(_ & ->)].
      + rewrite relabel_coords in K. apply (G m); auto. rewrite E. left; auto.
      + cbn [coordinates] in K. apply in_flat_map in K as (x & X & Kx). apply (G x); auto.
  Qed.

  (** What a clip yields has no small relations. *)
  Lemma clip_plural b e : forall e', clip b e = Some e' -> plural e'.
  Proof.
    assert (L : forall make closed i ts cs e', (forall i ts cs, plural (make i ts cs)) ->
      clipElement make closed b i ts cs = Some e' -> plural e').
    { intros make closed i ts cs e' M H.
      apply clipElement_cases in H as [(F & ->)|[(p & -> & I)|(ps & G & -> & I)]]; auto.
      cbn [plural]. rewrite map_length. split; auto. apply and_forall. apply Forall_forall.
      intros x X. apply in_map_iff in X as (p & <- & _). auto. }
    induction e as [i t c0|i t cs|i t cs|i t es IH] using element_ind2; intros e' H; cbn [ClipModel.clip] in *.
    - destruct (inBox b c0); [|discriminate]. injection H as <-. exact I.
    - apply (L Way false i t cs e'); auto. intros; exact I.
    - apply (L Area true i t cs e'); auto. intros; exact I.
    - assert (G : forall x, In x (kept b es) -> plural x).
      { intros x X. apply kept_in in X as (m & M & C). rewrite Forall_forall in IH. eauto. }
      apply gather_cases in H as [(m & E & ->)|(N & ->)].
      + apply relabel_plural. apply G. rewrite E. left; auto.
      + cbn [plural]. split; auto. apply and_forall. apply Forall_forall. exact G.
  Qed.

  Lemma clip_inside b e : plural e -> forallb (inBox b) (coordinates e) = true -> clip b e = Some e.
  Proof.
    induction e as [i t c0|i t cs|i t cs|i t es IH] using element_ind2; intros P F; cbn [ClipModel.clip coordinates] in *.
    - cbn [forallb] in F. destruct (inBox b c0); [reflexivity|discriminate].
    - apply clipElement_inside; auto.
    - apply clipElement_inside; auto.
    - assert (K : kept b es = es).
      { cbn [plural] in P. destruct P as [_ P]. apply and_forall in P.
        clear - IH P F. induction es as [|m es IHs]; [reflexivity|]. cbn [flat_map].
        inversion IH as [|? ? H1 H2]; subst. inversion P as [|? ? P1 P2]; subst.
        cbn [flat_map] in F. rewrite forallb_app in F. apply andb_prop in F as [F1 F2].
        rewrite (H1 P1 F1), (IHs H2 P2 F2). reflexivity. }
      rewrite K. cbn [plural] in P. destruct es as [|m [|m2 es]]; cbn [length] in P; [lia|lia|]. reflexivity.
  Qed.
End P.
