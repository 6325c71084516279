(** Proofs about forests. *)
From Coq Require Import Reals Lra Lia.
From Verif Require Import Base GeoModel RingModel MeshBuildModel MeshBuildSpec MeshBuildProofs QuatModel GenModel GenSpec LsysModel
  RowModel RowSpec RowProofs TreeModel TreeSpec.
Local Open Scope nat_scope.

(** * Every [f]th element *)
Fixpoint pickEvery {A} (s f : nat) (l : list A) : list A :=
  match l with
  | [] => []
  | a :: l' => match s with Datatypes.S s' => pickEvery s' f l' | O => a :: pickEvery (f - 1) f l' end
  end.
Lemma pick_filter {A} f (l : list A) : forall s a, s < f -> (a + s) mod f = 0 ->
  pickEvery s f l = map snd (filter (fun p => fst p mod f =? 0) (combine (seq a (length l)) l)).
Proof.
  induction l as [|x l IH]; intros s a L M; [reflexivity|]. cbn [length seq combine filter fst]. destruct s as [|s]; cbn [pickEvery].
  - rewrite Nat.add_0_r in M. rewrite M. cbn [Nat.eqb map snd]. f_equal. apply IH; [lia|].
    replace (S a + (f - 1)) with (a + 1 * f) by lia. rewrite Nat.mod_add by lia. exact M.
  - destruct (Nat.eqb_spec (a mod f) 0) as [E|E].
    + exfalso. apply Nat.mod_divides in M as (q & M); [|lia]. apply Nat.mod_divides in E as (r & E); [|lia].
      assert (q <= r \/ r < q) as [Q|Q] by lia; [|nia]. assert (f * q <= f * r) by (apply Nat.mul_le_mono_l, Q). lia.
    + apply IH; [lia|]. now replace (S a + s) with (a + S s) by lia.
Qed.
Lemma pick_every {A} f (l : list A) : 0 < f -> pickEvery 0 f l = every f l.
Proof. intros F. apply pick_filter; [exact F|]. apply Nat.mod_0_l. lia. Qed.
Lemma pick_map {A B} (h : A -> B) f l : forall s, pickEvery s f (map h l) = map h (pickEvery s f l).
Proof. induction l as [|a l IH]; intros [|s]; cbn [map pickEvery]; rewrite ?IH; reflexivity. Qed.
Lemma pick_length {A} f (l : list A) : forall s, s < f -> length (pickEvery s f l) = (length l - s + (f - 1)) / f.
Proof.
  induction l as [|a l IH]; intros [|s] L; cbn [pickEvery length].
  - rewrite Nat.div_small; [reflexivity|lia].
  - rewrite Nat.div_small; [reflexivity|lia].
  - rewrite IH by lia. destruct (Nat.le_gt_cases (f - 1) (length l)).
    + replace (S (length l) - 0 + (f - 1)) with ((length l - (f - 1) + (f - 1)) + 1 * f) by lia. rewrite Nat.div_add by lia. lia.
    + replace (length l - (f - 1) + (f - 1)) with (f - 1) by lia. rewrite (Nat.div_small (f - 1)) by lia.
      change (S 0 = (S (length l) - 0 + (f - 1)) / f). apply (Nat.div_unique _ f 1 (length l)); lia.
  - rewrite IH by lia. reflexivity.
Qed.

(** * Pieces of a list *)
Lemma cut_nil {A} c : @cutInto A c [] [].
Proof. split; [reflexivity|]. intros [|i] p; discriminate. Qed.
Lemma cut_one {A} c (p : list A) : p <> [] -> length p <= c -> cutInto c p [p].
Proof.
  intros N L. split; [cbn; apply app_nil_r|]. intros [|i] q E; [|destruct i; discriminate]. injection E as <-.
  split; [exact N|]. split; [exact L|]. cbn. lia.
Qed.
Lemma cut_cons {A} c (p l : list A) ps : p <> [] -> length p = c -> cutInto c l ps -> cutInto c (p ++ l) (p :: ps).
Proof.
  intros N L (E & H). split; [cbn; now rewrite E|]. intros [|i] q Q.
  - injection Q as <-. split; [exact N|]. split; [lia|]. intros _. exact L.
  - cbn in Q. destruct (H i q Q) as (A1 & A2 & A3). split; [exact A1|]. split; [exact A2|]. cbn [length]. intros B. apply A3. lia.
Qed.
Lemma cut_count {A} c (l : list A) ps : 0 < c -> cutInto c l ps -> length ps = (length l + (c - 1)) / c.
Proof.
  intros C. revert l. induction ps as [|p ps IH]; intros l (E & H).
  - cbn in E. subst l. cbn. rewrite Nat.div_small; lia.
  - destruct (H 0 p eq_refl) as (N & L & Fl). destruct ps as [|p2 ps].
    + cbn in E. rewrite app_nil_r in E. subst l. cbn [length]. apply (Nat.div_unique _ c 1 (length p - 1)); destruct p; cbn in *; try contradiction; lia.
    + cbn [length] in Fl. specialize (Fl ltac:(lia)). change (concat (p :: p2 :: ps)) with (p ++ concat (p2 :: ps)) in E. subst l. rewrite app_length, Fl.
      replace (c + length (concat (p2 :: ps)) + (c - 1)) with (length (concat (p2 :: ps)) + (c - 1) + 1 * c) by lia. rewrite Nat.div_add by lia.
      cbn [length]. rewrite <- (IH (concat (p2 :: ps))); [cbn [length]; lia|]. split; [reflexivity|].
      intros i q Q. destruct (H (S i) q Q) as (A1 & A2 & A3). split; [exact A1|]. split; [exact A2|]. cbn [length] in *. intros B. apply A3. lia.
Qed.

(** * Vertices *)
Lemma threes_nth {A} (l : list A) : forall i a b c, nth_error (threes l) i = Some (a, b, c) ->
  nth_error l (3 * i) = Some a /\ nth_error l (3 * i + 1) = Some b.
Proof.
  intros i. revert l. induction i as [|i IH]; intros l a b c E.
  - destruct l as [|x [|y [|z l]]]; try discriminate. cbn in E. injection E as <- <- <-. now split.
  - destruct l as [|x [|y [|z l]]]; try discriminate. cbn in E. apply IH in E.
    replace (3 * S i) with (S (S (S (3 * i)))) by lia. exact E.
Qed.
Lemma nth_some {A} (l : list A) i : i < length l -> exists a, nth_error l i = Some a.
Proof. intros L. destruct (nth_error l i) eqn:E; [eauto|]. apply nth_error_None in E. lia. Qed.
Definition spotAt (m : bmesh R) (i : Z) : vec3 R :=
  match cornerAt (corners m) i with Some c => spot c | None => mkV3 0%R 0%R 0%R end.
Lemma combine_nth {A B} (l : list A) (l' : list B) i a b : nth_error l i = Some a -> nth_error l' i = Some b -> nth_error (combine l l') i = Some (a, b).
Proof.
  revert l l'. induction i as [|i IH]; intros [|x l] [|y l']; cbn; try discriminate; [congruence|]. apply IH.
Qed.
Lemma vertex_number (m : bmesh R) q i : sized m q -> (0 <= i < Z.of_nat q)%Z -> (3 * Z.of_nat q < 2 ^ 31)%Z ->
  vertexNumber m i 0 = Ok (v3x (spotAt m i)) /\ vertexNumber m i 1 = Ok (v3z (spotAt m i)) /\
  cornerAt (corners m) i <> None.
Proof.
  intros (A & B & C) I L. destruct (nth_some (threes (bverts m)) (Z.to_nat i)) as ([[x y] h] & E); [rewrite (threes_length _ q A); lia|].
  destruct (nth_some (bcols m) (Z.to_nat i)) as (cl & E2); [lia|].
  destruct (nth_some (twos (buvs m)) (Z.to_nat i)) as (uv & E3); [rewrite (twos_length _ q C); lia|].
  assert (Cn : cornerAt (corners m) i = Some (mkCorner (x, y, h) cl uv)).
  { unfold cornerAt, corners. destruct (Z.ltb_spec i 0); [lia|].
    rewrite (map_nth_error _ _ _ (combine_nth _ _ _ _ _ (combine_nth _ _ _ _ _ E E2) E3)). reflexivity. }
  apply threes_nth in E as (Ex & Ey). unfold vertexNumber, spotAt. rewrite Cn.
  destruct (Z.leb_spec 0 i); [|lia]. destruct (Z.ltb_spec (3 * i) (2 ^ 31)); [|lia]. cbn [andb].
  rewrite Nat.add_0_r, Ex, Ey. split; [reflexivity|]. split; [reflexivity|discriminate].
Qed.
Definition triAt (m : bmesh R) (t : Z * Z * Z) : tri3 := let '(a, b, c) := t in (spotAt m a, spotAt m b, spotAt m c).
Lemma seen_all (m : bmesh R) ts : Forall (fun '(a, b, c) => cornerAt (corners m) a <> None /\ cornerAt (corners m) b <> None /\ cornerAt (corners m) c <> None) ts ->
  flat_map seen (map (faceOf (corners m)) ts) = map (triAt m) ts.
Proof.
  intros F. induction F as [|[[a b] c] ts (A & B & C) F IH]; [reflexivity|]. cbn [map flat_map]. rewrite IH. unfold faceOf, triAt at 2, spotAt.
  destruct (cornerAt (corners m) a); [|contradiction]. destruct (cornerAt (corners m) b); [|contradiction].
  destruct (cornerAt (corners m) c); [|contradiction]. reflexivity.
Qed.
Lemma threes_skip {A} s : forall (l : list A), threes (skipn (3 * s) l) = skipn s (threes l).
Proof.
  induction s as [|s IH]; intros l; [reflexivity|]. replace (3 * S s) with (S (S (S (3 * s)))) by lia.
  destruct l as [|a [|b [|c l]]]; try (cbn [skipn threes]; now destruct s).
Qed.
Lemma drawn_from (m : bmesh R) q s : wellFormed m q -> (3 * Z.of_nat q < 2 ^ 31)%Z ->
  skipn s (drawnIn m) = map (triAt m) (threes (skipn (3 * s) (btris m))).
Proof.
  intros (Sz & _ & F) L. unfold drawnIn, faces. rewrite seen_all.
  - rewrite skipn_map. f_equal. symmetry. apply threes_skip.
  - apply threes_forall. eapply Forall_impl; [|exact F]. intros i I. now apply (vertex_number m q).
Qed.

(** * The loop *)
Section Loop.
  Context {T : Type} (n : nums T).
  (** The trees put at offsets, in chunks. *)
  Fixpoint chunkLoop (tree : bmesh T) (chunk : Z) (offs : list (vec3 T)) (forest : bmesh T) (count : Z) : outcome (list (bmesh T)) :=
    match offs with
    | [] => Ok (if (0 <? count)%Z then [forest] else [])
    | o :: offs' =>
        bind (copyMesh n o tree forest) (fun forest' =>
        if (count + 1 =? chunk)%Z
        then bind (chunkLoop tree chunk offs' emptyMesh 0) (fun r => Ok (forest' :: r))
        else chunkLoop tree chunk offs' forest' (count + 1))
    end.
End Loop.
Lemma forest_loop (g : gens R) env (m tree : bmesh R) center f chunk (off : Z * Z * Z -> vec3 R) : 0 < f ->
  forall k l, length l = 3 * k ->
  Forall (fun '(a, b, c) => treeOffset realNums g env m center a b c = Ok (off (a, b, c))) (threes l) ->
  forall s forest count,
  forestLoop realNums g env m tree center (3 * f) chunk (3 * s) l forest count =
  chunkLoop realNums tree chunk (map off (pickEvery s f (threes l))) forest count.
Proof.
  intros Hf. induction k as [|k IH]; intros l Ll F s forest count.
  - destruct l; [|discriminate]. now destruct (3 * s).
  - destruct l as [|a [|b [|c l]]]; try (cbn in Ll; lia). cbn [threes] in F. inversion_clear F as [|? ? Fa Fl].
    assert (Ll' : length l = 3 * k) by (cbn in Ll; lia). cbn [threes]. destruct s as [|s].
    + change (3 * 0) with 0. cbn [forestLoop pickEvery map chunkLoop]. rewrite Fa. cbn [bind].
      destruct (copyMesh realNums (off (a, b, c)) tree forest) as [forest'| |]; [cbn [bind]|reflexivity|reflexivity].
      replace (3 * f - 1) with (S (S (3 * (f - 1)))) by lia. cbn [forestLoop]. rewrite !(IH l Ll' Fl). reflexivity.
    + replace (3 * S s) with (S (S (S (3 * s)))) by lia. cbn [forestLoop pickEvery]. apply (IH l Ll' Fl).
Qed.

(** What a chunk of trees at [piece] is. *)
Definition isChunk (off : point R -> vec3 R) (tree : bmesh R) (k : nat) (piece : list (point R)) (mesh : bmesh R) : Prop :=
  wellFormed mesh (length piece * k) /\ goodMap mesh /\ drawnIn mesh = flat_map (fun q => map (shiftTri (off q)) (drawnIn tree)) piece.
Lemma chunk_step (env : builderEnv R) off tree k piece q mesh : wellFormed tree k -> goodMap tree -> isChunk off tree k piece mesh ->
  (2 * Z.of_nat (S (length piece) * k) < 2 ^ 31)%Z ->
  exists mesh', copyMesh realNums (off q) tree mesh = Ok mesh' /\ isChunk off tree k (piece ++ [q]) mesh'.
Proof.
  intros W G (Wm & Gm & D) L.
  assert (Nc : length (newCorners realNums env (OpCopy (off q) tree)) = k) by (cbn [newCorners]; rewrite map_length; apply corners_length, W).
  destruct (copy_ok realNums env mesh _ (off q) tree Wm Gm (ex_intro _ k (conj W G))) as (mesh' & E & W' & _ & F & G' & _); [rewrite Nc; lia|].
  rewrite Nc in W'. exists mesh'. split; [exact E|]. split; [rewrite app_length; cbn [length]; replace ((length piece + 1) * k) with (length piece * k + k) by lia; exact W'|].
  split; [exact G'|]. unfold drawnIn at 1. rewrite F, flat_map_app, (seen_copy env). fold (drawnIn mesh). rewrite D, flat_map_app.
  cbn [flat_map]. now rewrite app_nil_r.
Qed.
Lemma chunk_loop (env : builderEnv R) off tree k c : wellFormed tree k -> goodMap tree -> 0 < c -> (2 * Z.of_nat (c * k) < 2 ^ 31)%Z ->
  forall l piece mesh, length piece < c -> isChunk off tree k piece mesh ->
  exists pieces meshes, chunkLoop realNums tree (Z.of_nat c) (map off l) mesh (Z.of_nat (length piece)) = Ok meshes /\
    cutInto c (piece ++ l) pieces /\ Forall2 (isChunk off tree k) pieces meshes.
Proof.
  intros W G C L. induction l as [|q l IH]; intros piece mesh P H; cbn [map chunkLoop].
  - rewrite app_nil_r. destruct piece as [|p piece].
    + exists [], []. split; [reflexivity|]. split; [apply cut_nil|constructor].
    + exists [p :: piece], [mesh]. split; [reflexivity|]. split; [apply cut_one; [discriminate|lia]|]. constructor; [exact H|constructor].
  - destruct (chunk_step env off tree k piece q mesh W G H) as (mesh' & E & H').
    { apply Z.le_lt_trans with (2 * Z.of_nat (c * k))%Z; [|exact L]. assert (S (length piece) * k <= c * k) by (apply Nat.mul_le_mono_r; lia). lia. }
    rewrite E. cbn [bind]. destruct (Z.eqb_spec (Z.of_nat (length piece) + 1) (Z.of_nat c)) as [Q|Q].
    + destruct (IH [] emptyMesh) as (pieces & meshes & El & Cu & F); [cbn; lia|split; [apply empty_wf|split; [apply empty_wf|reflexivity]]|].
      cbn [length Z.of_nat app] in El, Cu. exists ((piece ++ [q]) :: pieces), (mesh' :: meshes). rewrite El. cbn [bind]. split; [reflexivity|].
      split; [|now constructor]. replace (piece ++ q :: l) with ((piece ++ [q]) ++ l) by now rewrite <- app_assoc.
      apply cut_cons; [now destruct piece|rewrite app_length; cbn [length]; lia|exact Cu].
    + replace (Z.of_nat (length piece) + 1)%Z with (Z.of_nat (length (piece ++ [q]))) by (rewrite app_length; cbn [length]; lia).
      destruct (IH (piece ++ [q]) mesh') as (pieces & meshes & El & Cu & F); [rewrite app_length; cbn [length]; lia|exact H'|].
      exists pieces, meshes. split; [exact El|]. split; [|exact F]. now rewrite <- app_assoc in Cu.
Qed.

(** * Numbers of the style *)
Local Open Scope R_scope.
Lemma at_least v f : wholeOf v f -> truncR (atLeastOne realNums realTrig v) = Z.of_nat f.
Proof.
  intros (F & H). apply trunc_nat. unfold atLeastOne. cbn [realNums realTrig nlt kone]. destruct (Rlt_dec v 1) as [L|L].
  - destruct H as [(_ & ->)|H]; [cbn; lra|]. apply le_INR in F. cbn [INR] in F. lra.
  - destruct H as [(Q & _)|H]; [lra|exact H].
Qed.
Lemma tree_step v f : wholeOf v f -> (Z.of_nat f < 2 ^ 61)%Z -> treeStep realNums realTrig truncR v = Ok (3 * f)%nat.
Proof.
  intros H L. unfold treeStep. rewrite (at_least v f H). cbv zeta. destruct (Z.ltb_spec (Z.of_nat f) (2 ^ 61)); [|lia].
  now rewrite Nat2Z.id.
Qed.
Lemma chunk_size v c : wholeOf v c -> (Z.of_nat c < 2 ^ 31)%Z -> castInt (truncR (atLeastOne realNums realTrig v)) = Ok (Z.of_nat c).
Proof.
  intros H L. rewrite (at_least v c H). unfold castInt. destruct (Z.leb_spec (- 2 ^ 31) (Z.of_nat c)), (Z.ltb_spec (Z.of_nat c) (2 ^ 31)); cbn; try lia; reflexivity.
Qed.
Lemma tree_offset env (m : bmesh R) q center a b c : wellFormed m q -> (3 * Z.of_nat q < 2 ^ 31)%Z ->
  (0 <= a < Z.of_nat q)%Z -> (0 <= b < Z.of_nat q)%Z -> (0 <= c < Z.of_nat q)%Z ->
  treeOffset realNums realGens env m center a b c = Ok (offsetTo (eElevation env) center (centroid (triAt m (a, b, c)))).
Proof.
  intros (Sz & _) L A B C. destruct (vertex_number m q a Sz A L) as (A0 & A1 & _), (vertex_number m q b Sz B L) as (B0 & B1 & _), (vertex_number m q c Sz C L) as (C0 & C1 & _).
  unfold treeOffset, centroidPart. rewrite A0, A1, B0, B1, C0, C1. cbn [bind]. unfold offsetTo, centroid, triAt. cbn [plat plon].
  cbn [realNums realGens nadd nzero ndiv nsub gint]. rewrite !Rplus_0_l. reflexivity.
Qed.
Lemma forest_ok env (m tree : bmesh R) q k center s frequency size f c : wellFormed m q -> (3 * Z.of_nat q < 2 ^ 31)%Z ->
  wellFormed tree k -> goodMap tree -> (3 * s <= length (btris m))%nat -> wholeOf frequency f -> (Z.of_nat f < 2 ^ 61)%Z ->
  wholeOf size c -> (Z.of_nat c < 2 ^ 31)%Z -> (2 * Z.of_nat (c * k) < 2 ^ 31)%Z ->
  exists pieces meshes, addForest realNums realTrig realGens env truncR m tree center (3 * s) frequency size = Ok meshes /\
    cutInto c (map centroid (every f (skipn s (drawnIn m)))) pieces /\ Forall2 (isChunk (offsetTo (eElevation env) center) tree k) pieces meshes.
Proof.
  intros Wm Lm Wt Gt Ls Hf Lf Hc Lc B. unfold addForest. rewrite (tree_step _ f Hf Lf). cbn [bind]. rewrite (chunk_size _ c Hc Lc). cbn [bind].
  assert (F0 : (0 < f)%nat) by (destruct Hf; lia). assert (C0 : (0 < c)%nat) by (destruct Hc; lia).
  pose proof Wm as (_ & M3 & Fi).
  rewrite (forest_loop realGens env m tree center f (Z.of_nat c) (fun t => offsetTo (eElevation env) center (centroid (triAt m t))) F0
            (length (btris m) / 3 - s)%nat _) with (s := 0%nat).
  - rewrite (drawn_from m q s Wm Lm), <- (pick_every f) by exact F0. rewrite pick_map.
    rewrite <- (map_map (fun t => centroid (triAt m t)) (offsetTo (eElevation env) center)), <- (map_map (triAt m) centroid).
    destruct (chunk_loop env (offsetTo (eElevation env) center) tree k c Wt Gt C0 B (map centroid (map (triAt m) (pickEvery 0 f (threes (skipn (3 * s) (btris m)))))) [] emptyMesh)
      as (pieces & meshes & E & Cu & F); [exact C0|split; [apply empty_wf|split; [apply empty_wf|reflexivity]]|].
    exists pieces, meshes. split; [exact E|]. split; [exact Cu|exact F].
  - rewrite skipn_length. pose proof (Nat.div_mod (length (btris m)) 3 ltac:(lia)). lia.
  - apply threes_forall with (P := fun i => (0 <= i < Z.of_nat q)%Z) in Fi.
    assert (Fs : Forall (fun '(a, b, c) => (0 <= a < Z.of_nat q)%Z /\ (0 <= b < Z.of_nat q)%Z /\ (0 <= c < Z.of_nat q)%Z) (threes (skipn (3 * s) (btris m)))).
    { rewrite threes_skip. clear -Fi. revert s. induction Fi as [|t l Ft F IH]; intros [|s]; try constructor; try assumption. apply IH. }
    eapply Forall_impl; [|exact Fs]. intros [[x y] z] (X & Y & Z). now apply (tree_offset env m q).
Qed.
