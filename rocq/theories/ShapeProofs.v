(** Proofs about the shape file parser. *)
From Verif Require Import Base Bytes ElevModel ElevProofs ShapeModel ShapeSpec.
Local Open Scope Z_scope.

Section Polygon.
  Context {C : Type}.
  Variable past : outcome Z.
  Notation run := (polygonFrom past).

  Lemma addTo_last (ms : list (member C)) r cs c :
    addTo (ms ++ [mkMember r cs]) (length ms) c = Ok (ms ++ [mkMember r (cs ++ [c])]).
  Proof. induction ms as [|m ms IH]; cbn; [reflexivity|]. now rewrite IH. Qed.

  Lemma within (s : shape C) : forall (p rest : list C) k i ms r cs, k = length ms ->
    (forall st, nth_error (shStarts s) (S k) = Some st -> i + Z.of_nat (length p) <= st) ->
    (nth_error (shStarts s) (S k) = None -> p <> [] -> length (shStarts s) = S k) ->
    run s i (p ++ rest) (S k) k (ms ++ [mkMember r cs]) =
    if match nth_error (shStarts s) (S k), p with None, _ :: _ => true | _, _ => false end
    then bind past (fun _ => run s (i + Z.of_nat (length p)) rest (S k) k (ms ++ [mkMember r (cs ++ p)]))
    else run s (i + Z.of_nat (length p)) rest (S k) k (ms ++ [mkMember r (cs ++ p)]).
  Proof.
    induction p as [|c p IH]; intros rest k i ms r cs -> ST PA.
    - destruct (nth_error (shStarts s) (S (length ms))); cbn [app length]; rewrite app_nil_r, Z.add_0_r; reflexivity.
    - cbn [app polygonFrom]. unfold partStart. destruct (nth_error (shStarts s) (S (length ms))) as [st|] eqn:E.
      + cbn [bind]. specialize (ST st eq_refl). cbn [length] in ST. destruct (Z.eqb_spec st i); [lia|]. rewrite andb_false_r.
        rewrite addTo_last. cbn [bind]. rewrite (IH rest _ (i + 1) ms r (cs ++ [c]) eq_refl).
        * rewrite E. cbn [length]. replace (i + 1 + Z.of_nat (length p)) with (i + Z.of_nat (S (length p))) by lia.
          rewrite <- app_assoc. reflexivity.
        * intros st' [= <-]%(eq_trans (eq_sym E)). lia.
        * congruence.
      + rewrite (PA eq_refl ltac:(discriminate)), Nat.eqb_refl. destruct past as [g|e|]; [|reflexivity|reflexivity]. cbn [bind].
        rewrite Nat.ltb_irrefl. cbn [andb]. rewrite addTo_last. cbn [bind]. rewrite (IH rest _ (i + 1) ms r (cs ++ [c]) eq_refl).
        * rewrite E. cbn [length]. replace (i + 1 + Z.of_nat (length p)) with (i + Z.of_nat (S (length p))) by lia.
          rewrite <- app_assoc. destruct p; reflexivity.
        * intros st' H. congruence.
        * intros _ _. exact (PA eq_refl ltac:(discriminate)).
  Qed.

  Lemma offsets_nth : forall (parts : list (list C)) at_ k, (k < length parts)%nat ->
    nth_error (offsets at_ parts) k = Some (Z.of_nat (at_ + length (concat (firstn k parts)))).
  Proof.
    induction parts as [|p parts IH]; intros at_ [|k] L; cbn [length] in L; try lia; cbn [offsets nth_error firstn concat].
    - cbn. now rewrite Nat.add_0_r.
    - rewrite IH by lia. rewrite app_length. do 2 f_equal. lia.
  Qed.

  Lemma offsets_length : forall (parts : list (list C)) at_, length (offsets at_ parts) = length parts.
  Proof. induction parts as [|p parts IH]; intros at_; cbn; [reflexivity|]. now rewrite IH. Qed.

  Definition ringOf (p : list C) : member C := mkMember true p.
  (** The last part has more than one vertex, so that one start too many is read. *)
  Definition reads (parts : list (list C)) : bool := (1 <? length (last parts []))%nat.

  Lemma parts_run (s : shape C) all : polygonOf all s -> forall parts done, done ++ parts = all -> parts <> [] ->
    run s (Z.of_nat (length (concat done))) (concat parts) (length done) (pred (length done)) (map ringOf done) =
    if reads parts then bind past (fun _ => Ok (map ringOf all)) else Ok (map ringOf all).
  Proof.
    intros (_ & NE & _ & ST & RI). induction parts as [|p parts IH]; intros done E PN; [contradiction|].
    assert (IN : In p all) by (rewrite <- E; apply in_or_app; right; left; reflexivity).
    rewrite Forall_forall in NE. specialize (NE p IN). destruct p as [|c p]; [contradiction|].
    assert (LA : length all = (length done + S (length parts))%nat) by (rewrite <- E, app_length; reflexivity).
    cbn [concat app polygonFrom]. unfold partStart.
    rewrite ST, offsets_nth by lia. assert (F : firstn (length done) all = done).
    { rewrite <- E, firstn_app, firstn_all, Nat.sub_diag. cbn. apply app_nil_r. }
    rewrite F. cbn [bind Nat.add]. rewrite offsets_length. destruct (Nat.ltb_spec (length done) (length all)); [|lia].
    rewrite Z.eqb_refl. cbn [andb].
    assert (RR : readAt (shRings s) (Z.of_nat (length done)) = Ok true).
    { rewrite RI. destruct (readAt_ok (repeat true (length all)) (Z.of_nat (length done))) as (a & R & N); [rewrite repeat_length; lia|].
      rewrite R. f_equal. apply nth_error_In in N. now apply repeat_spec in N. }
    rewrite RR. cbn [bind]. replace (length done) with (length (map ringOf done)) at 1 by apply map_length.
    rewrite addTo_last. cbn [bind].
    rewrite (within s p (concat parts) (length done) _ (map ringOf done) true ([] ++ [c])); [| now rewrite map_length | | ].
    - assert (M : map ringOf done ++ [mkMember true (([] ++ [c]) ++ p)] = map ringOf (done ++ [c :: p])) by (rewrite map_app; reflexivity).
      rewrite M. rewrite ST. destruct parts as [|p2 parts].
      + assert (nth_error (offsets 0 all) (S (length done)) = None) as N by (apply nth_error_None; rewrite offsets_length; cbn in LA; lia).
        rewrite N. cbn [concat]. cbn [reads last]. unfold reads. cbn [last length]. subst all.
        destruct p; reflexivity.
      + rewrite offsets_nth by (cbn [length] in LA; lia). specialize (IH (done ++ [c :: p])).
        rewrite <- app_assoc in IH. specialize (IH E ltac:(discriminate)).
        rewrite app_length in IH. cbn [length] in IH. replace (length done + 1)%nat with (S (length done)) in IH by lia. cbn [pred] in IH.
        rewrite concat_app, app_length in IH. cbn [concat] in IH. rewrite app_nil_r in IH. cbn [length] in IH.
        replace (Z.of_nat (length (concat done)) + 1 + Z.of_nat (length p)) with (Z.of_nat (length (concat done) + S (length p))) by lia.
        cbn [concat]. rewrite IH. unfold reads. cbn [last]. reflexivity.
    - intros st. rewrite ST. destruct (Nat.lt_ge_cases (S (length done)) (length all)) as [L|L].
      + rewrite offsets_nth by exact L.
        assert (F2 : firstn (S (length done)) all = done ++ [c :: p]).
        { rewrite <- E. rewrite firstn_app. rewrite firstn_all2 by lia. replace (S (length done) - length done)%nat with 1%nat by lia. reflexivity. }
        rewrite F2, concat_app, app_length. cbn [concat]. rewrite app_nil_r. cbn [length]. intros [= <-]. lia.
      + intros H2. assert (nth_error (offsets 0 all) (S (length done)) = None) by (apply nth_error_None; rewrite offsets_length; lia). congruence.
    - intros N _. rewrite ST in *. apply nth_error_None in N. rewrite offsets_length in *. lia.
  Qed.

  Lemma polygon_run (s : shape C) parts tags : polygonOf parts s -> parts <> [] ->
    visitPolygon past s tags =
    if reads parts then bind past (fun _ => Ok [CRelation (map ringOf parts) tags]) else Ok [CRelation (map ringOf parts) tags].
  Proof.
    intros P NE. pose proof (parts_run s parts P parts [] eq_refl NE) as H. unfold visitPolygon.
    destruct P as (_ & _ & SP & _). rewrite SP. change (Z.of_nat (length (concat (@nil (list C))))) with 0 in H. cbn [length pred map] in H.
    rewrite H. destruct (reads parts); [|reflexivity]. destruct past; reflexivity.
  Qed.

  (** What shapelib lets through is a polygon of parts. *)
  Lemma cut_parts : forall starts x (points : list C), ascending (Z.of_nat x :: starts) ->
    Forall (fun st => st < Z.of_nat (x + length points)) (Z.of_nat x :: starts) ->
    exists parts, concat parts = points /\ Forall (fun p => p <> []) parts /\ offsets x parts = Z.of_nat x :: starts.
  Proof.
    induction starts as [|y starts IH]; intros x points A F.
    - inversion F; subst. exists [points]. cbn. rewrite app_nil_r. split; [reflexivity|]. split; [|reflexivity].
      constructor; [|constructor]. intros ->. cbn in *. lia.
    - destruct A as (L & A). inversion F as [|? ? _ F']; subst. inversion F' as [|? ? Ly _]; subst.
      set (n := (Z.to_nat y - x)%nat). assert (Y : y = Z.of_nat (x + n)) by (subst n; lia).
      destruct (IH (x + n)%nat (skipn n points)) as (parts & E1 & E2 & E3).
      + rewrite <- Y. exact A.
      + rewrite <- Y. rewrite skipn_length. eapply Forall_impl; [|exact F']. cbn beta. intros st. lia.
      + exists (firstn n points :: parts). split; [cbn; now rewrite E1, firstn_skipn|]. split.
        * constructor; [|exact E2]. intros Z0. apply (f_equal (@length C)) in Z0. rewrite firstn_length in Z0. cbn in Z0. lia.
        * cbn [offsets]. rewrite firstn_length. replace (Nat.min n (length points)) with n by lia. rewrite E3. now rewrite Y.
  Qed.
End Polygon.

Lemma records_open {C} ceqb past fields : forall (shapes : list (option (shape C))) values,
  (rEnd (records ceqb past fields shapes values) = Ok tt /\ rOpen (records ceqb past fields shapes values) = 0%nat) \/
  (rEnd (records ceqb past fields shapes values) <> Ok tt /\ rOpen (records ceqb past fields shapes values) = 2%nat).
Proof.
  induction shapes as [|[s|] shapes IH]; intros values; cbn [records]; [left; split; reflexivity| |right; split; [discriminate|reflexivity]].
  destruct values as [|v values]; [right; split; [discriminate|reflexivity]|].
  destruct (visitShape ceqb past s (parseTags fields v)); cbn; [apply IH|right; split; [discriminate|reflexivity]|right; split; [discriminate|reflexivity]].
Qed.

Lemma counts_fold {C} (acc : selem C -> bool) : forall cs n0,
  let n := fold_left (countCall acc) cs n0 in
  nNodes n = (nNodes n0 + countOf (fun e => acc e && isNode e) (map elementOf cs))%nat /\
  nWays n = (nWays n0 + countOf (fun e => acc e && isWay e) (map elementOf cs))%nat /\
  nAreas n = (nAreas n0 + countOf (fun e => acc e && isArea e) (map elementOf cs))%nat /\
  nRelations n = (nRelations n0 + countOf (fun e => acc e && isRelation e) (map elementOf cs))%nat.
Proof.
  unfold countOf. induction cs as [|c cs IH]; intros n0; cbn [fold_left map filter]; [cbn; lia|].
  specialize (IH (countCall acc n0 c)). cbn zeta in *.
  set (m := fold_left (countCall acc) cs (countCall acc n0 c)) in *. clearbody m. unfold countCall in IH.
  destruct (acc (elementOf c)); destruct (elementOf c); cbn in *; lia.
Qed.
