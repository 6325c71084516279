(** Proofs about building meshes. *)
From Verif Require Import Base RingModel MeshBuildModel MeshBuildSpec.
Local Open Scope nat_scope.

Section Lists.
  Context {A : Type}.
  Implicit Types l : list A.

  Lemma threes_app l l' k : length l = 3 * k -> threes (l ++ l') = threes l ++ threes l'.
  Proof.
    revert l. induction k as [|k IH]; intros l H.
    - now destruct l; [|discriminate].
    - destruct l as [|a [|b [|c l]]]; try (cbn in H; lia).
      cbn [threes app]. rewrite IH; [easy|]. cbn in H. lia.
  Qed.
  Lemma twos_app l l' k : length l = 2 * k -> twos (l ++ l') = twos l ++ twos l'.
  Proof.
    revert l. induction k as [|k IH]; intros l H.
    - now destruct l; [|discriminate].
    - destruct l as [|a [|b l]]; try (cbn in H; lia).
      cbn [twos app]. rewrite IH; [easy|]. cbn in H. lia.
  Qed.
  Lemma threes_length l k : length l = 3 * k -> length (threes l) = k.
  Proof.
    revert l. induction k as [|k IH]; intros l H.
    - now destruct l; [|discriminate].
    - destruct l as [|a [|b [|c l]]]; try (cbn in H; lia).
      cbn [threes length]. f_equal. apply IH. cbn in H. lia.
  Qed.
  Lemma twos_length l k : length l = 2 * k -> length (twos l) = k.
  Proof.
    revert l. induction k as [|k IH]; intros l H.
    - now destruct l; [|discriminate].
    - destruct l as [|a [|b l]]; try (cbn in H; lia).
      cbn [twos length]. f_equal. apply IH. cbn in H. lia.
  Qed.
  Lemma mod3_mult l : length l mod 3 = 0 -> length l = 3 * (length l / 3).
  Proof. intros H. pose proof (Nat.div_mod (length l) 3 ltac:(lia)). lia. Qed.
  Lemma threes_forall P l : Forall P l -> Forall (fun '(a, b, c) => P a /\ P b /\ P c) (threes l).
  Proof.
    enough (E : forall k l, length l <= k -> Forall P l -> Forall (fun '(a, b, c) => P a /\ P b /\ P c) (threes l))
      by (intros; now apply (E (length l))).
    clear l.
    induction k as [|k IH]; intros l Hk H.
    - destruct l; [constructor|cbn in Hk; lia].
    - destruct l as [|a [|b [|c l]]]; try constructor.
      + inversion_clear H as [|? ? Ha H1]. inversion_clear H1 as [|? ? Hb H2].
        inversion_clear H2. auto.
      + apply IH; [cbn in Hk; lia|]. inversion_clear H as [|? ? Ha H1].
        inversion_clear H1 as [|? ? Hb H2]. now inversion_clear H2.
  Qed.
  Lemma combine_app {B} l l' (r r' : list B) :
    length l = length r -> combine (l ++ l') (r ++ r') = combine l r ++ combine l' r'.
  Proof.
    revert r. induction l as [|a l IH]; intros [|b r] H; try discriminate; [easy|].
    cbn. now rewrite IH by now injection H.
  Qed.
End Lists.

Lemma toInt_small k : (Z.of_nat k < 2 ^ 31)%Z -> toInt k = Z.of_nat k.
Proof.
  intros H. unfold toInt. rewrite Z.mod_small by lia.
  destruct (Z.ltb_spec (Z.of_nat k) (2 ^ 31)); lia.
Qed.
Lemma intAdd_small a b : (- 2 ^ 31 <= a + b < 2 ^ 31)%Z -> intAdd a b = Ok (a + b)%Z.
Proof.
  intros H. unfold intAdd.
  destruct (Z.leb_spec (- 2 ^ 31) (a + b)), (Z.ltb_spec (a + b) (2 ^ 31)); cbn; try lia; easy.
Qed.

Section MeshBuildProofs.
  Context {T : Type}.
  Implicit Types m : bmesh T.

  Lemma corners_length m k : sized m k -> length (corners m) = k.
  Proof.
    intros (A & B & C). unfold corners.
    rewrite map_length, !combine_length, (threes_length _ _ A), (twos_length _ _ C), B. lia.
  Qed.

  (** Appending vertices. *)
  Lemma corners_app m v c u t mp k :
    sized m k ->
    corners (mkBMesh (bverts m ++ v) t (bcols m ++ c) (buvs m ++ u) mp) =
    corners m ++ map (fun '(p, c, u) => mkCorner p c u) (combine (combine (threes v) c) (twos u)).
  Proof.
    intros (A & B & C). unfold corners. cbn [bverts bcols buvs].
    rewrite (threes_app _ _ _ A), (twos_app _ _ _ C).
    rewrite combine_app by (rewrite (threes_length _ _ A); lia).
    rewrite combine_app, map_app; [easy|].
    rewrite combine_length, (threes_length _ _ A), (twos_length _ _ C). lia.
  Qed.

  Lemma cornerAt_app (cs cs' : list (corner T)) i :
    (0 <= i < Z.of_nat (length cs))%Z -> cornerAt (cs ++ cs') i = cornerAt cs i.
  Proof.
    intros H. unfold cornerAt. destruct (Z.ltb_spec i 0); [easy|].
    apply nth_error_app1. lia.
  Qed.
  Lemma cornerAt_new (cs cs' : list (corner T)) i :
    (0 <= i)%Z -> cornerAt (cs ++ cs') (Z.of_nat (length cs) + i) = cornerAt cs' i.
  Proof.
    intros H. unfold cornerAt.
    destruct (Z.ltb_spec i 0); [lia|]. destruct (Z.ltb_spec (Z.of_nat (length cs) + i) 0); [lia|].
    rewrite nth_error_app2 by lia. f_equal. lia.
  Qed.

  (** Adding corners and triangles leaves the faces there were. *)
  Lemma faces_app m m' k t cs :
    wellFormed m k -> btris m' = btris m ++ t -> corners m' = corners m ++ cs ->
    faces m' = faces m ++ map (faceOf (corners m ++ cs)) (threes t).
  Proof.
    intros (S0 & M & R) Ht Hc. unfold faces. rewrite Ht, Hc.
    rewrite (threes_app _ _ _ (mod3_mult _ M)), map_app. f_equal.
    apply map_ext_in. intros [[a b] c] Hin.
    pose proof (threes_forall _ _ R) as F. rewrite Forall_forall in F.
    specialize (F _ Hin). cbn beta iota in F. unfold faceOf.
    rewrite !cornerAt_app; [easy|..]; rewrite (corners_length _ _ S0); lia.
  Qed.

  Lemma wf_app m m' k j t cs :
    wellFormed m k -> sized m' (k + j) -> btris m' = btris m ++ t -> length t mod 3 = 0 ->
    Forall (fun i => 0 <= i < Z.of_nat (k + j))%Z t -> corners m' = corners m ++ cs ->
    wellFormed m' (k + j).
  Proof.
    intros (S0 & M & R) S1 Ht Hm F Hc. split; [easy|]. rewrite Ht. split.
    - rewrite app_length. rewrite Nat.add_mod, M, Hm by lia. easy.
    - apply Forall_app. split; [|easy].
      eapply Forall_impl; [|exact R]. cbn beta. intros; lia.
  Qed.

  Section Fill.
    Context (n : nums T) (env : builderEnv T).

    Definition cornerOf geo look mk (p : T * T) : corner T :=
      let '(x, y) := p in
      let uv := mapUv n env look x y in
      mkCorner (x, y, pointEle n env geo x y mk) (lgradient look (ePerlin env x y (lnoise look)))
               (v2x uv, v2y uv).
    Definition marker (io : option (list Z)) i : option Z :=
      match io with None => None | Some l => Some (nth i l 1%Z) end.

    Lemma fillPoints_ok geo look mks ps : forall i m k,
      sized m k -> match mks with None => True | Some l => length l = i + length ps end ->
      exists m', fillPoints n env geo look mks i ps m = Ok m' /\ sized m' (k + length ps) /\
        btris m' = btris m /\ bmap m' = bmap m /\
        corners m' = corners m ++
          map (fun '(j, p) => cornerOf geo look (marker mks j) p) (combine (seq i (length ps)) ps).
    Proof.
      induction ps as [|[x y] ps IH]; intros i m k Sz Hm.
      - exists m. cbn. rewrite Nat.add_0_r, app_nil_r. auto.
      - cbn [fillPoints].
        assert (E : (match mks with
                     | None => Ok None
                     | Some l => match nth_error l i with Some k => Ok (Some k) | None => UB end
                     end) = Ok (marker mks i)).
        { destruct mks as [l|]; [|easy]. cbn [marker].
          destruct (nth_error l i) as [z|] eqn:Hz.
          - now rewrite (nth_error_nth _ _ 1%Z Hz).
          - apply nth_error_None in Hz. cbn in Hm. lia. }
        rewrite E. cbn [bind].
        match goal with |- context [fillPoints n env geo look mks (S i) ps ?mm] => set (m1 := mm) end.
        assert (S1 : sized m1 (k + 1)).
        { destruct Sz as (A & B & C). subst m1. unfold sized; cbn. rewrite !app_length; cbn. lia. }
        destruct (IH (Datatypes.S i) m1 (k + 1) S1) as (m' & R & S2 & Ht & Hmp & Hc).
        { destruct mks; [|easy]. cbn in Hm. lia. }
        exists m'. split; [exact R|]. split.
        { cbn [length]. replace (k + S (length ps)) with (k + 1 + length ps) by lia. easy. }
        split; [exact Ht|]. split; [exact Hmp|].
        rewrite Hc. subst m1. rewrite (corners_app _ _ _ _ _ _ k Sz).
        cbn [length seq combine map threes twos]. rewrite <- app_assoc. f_equal.
    Qed.

    Lemma fillTriangles_ok start flip rows : forall m,
      Forall (fun r => 3 <= length r /\ Forall (fun i => - 2 ^ 31 <= start + i < 2 ^ 31)%Z r) rows ->
      fillTriangles start flip rows m =
      Ok (mkBMesh (bverts m)
            (btris m ++ flat_map (fun r => let at_ j := (start + nth j r 0)%Z in
               if flip then [at_ 2; at_ 0; at_ 1] else [at_ 1; at_ 0; at_ 2]) rows)
            (bcols m) (buvs m) (bmap m)).
    Proof.
      induction rows as [|r rows IH]; intros m H; cbn [fillTriangles flat_map].
      - rewrite app_nil_r. now destruct m.
      - inversion_clear H as [|? ? [L F] Hr].
        destruct r as [|a [|b [|c r]]]; try (cbn in L; lia).
        inversion_clear F as [|? ? Fa F1]. inversion_clear F1 as [|? ? Fb F2].
        inversion_clear F2 as [|? ? Fc F3].
        destruct flip; cbn [nth_error nth]; rewrite !intAdd_small by easy; cbn [bind];
          rewrite IH by easy; cbn [bverts btris bcols buvs bmap]; rewrite <- app_assoc; reflexivity.
    Qed.

    Lemma triCorner_of geo look io i p :
      triCorner n env geo look io i p = cornerOf geo look (marker (tmarkers io) i) p.
    Proof.
      destruct p as [x y]. unfold triCorner, cornerOf, pointEle, mapUv, emptyRegion, marker, ground.
      destruct (tmarkers io) as [l|]; cbn [negb];
        [destruct (nth i l 1 =? 1)%Z|]; cbn [negb];
        destruct ((ratlasW (lregion look) =? 0) || (ratlasH (lregion look) =? 0))%Z; reflexivity.
    Qed.

    Lemma flat_threes {A} (f : A -> list Z) l :
      (forall a, length (f a) = 3) -> threes (flat_map f l) = flat_map (fun a => threes (f a)) l.
    Proof.
      intros H. induction l as [|a l IH]; [easy|]. cbn [flat_map].
      rewrite (threes_app _ _ 1) by (now rewrite H). now rewrite IH.
    Qed.
    Lemma flat_length3 {A} (f : A -> list Z) l :
      (forall a, length (f a) = 3) -> length (flat_map f l) mod 3 = 0.
    Proof.
      intros H. induction l as [|a l IH]; [easy|]. cbn [flat_map].
      rewrite app_length, Nat.add_mod, H, IH by lia. easy.
    Qed.

    Lemma map_flat_single {A B C} (f : B -> C) (g : A -> list B) (h : A -> C) l :
      (forall a, In a l -> map f (g a) = [h a]) -> map f (flat_map g l) = map h l.
    Proof.
      intros H. induction l as [|a l IH]; [easy|]. cbn [flat_map map].
      rewrite map_app, H by now left. cbn [app]. f_equal. apply IH. intros b Hb. apply H. now right.
    Qed.

    Lemma fillMesh_ok io geo look m k :
      goodTri io -> wellFormed m k -> (Z.of_nat (k + length (tpoints io)) < 2 ^ 31)%Z ->
      exists m', fillMesh n env io geo look m = Ok m' /\
        wellFormed m' (k + length (tpoints io)) /\ bmap m' = bmap m /\
        corners m' = corners m ++ triCorners n env geo look io /\
        faces m' = faces m ++
          map (fun r => let at_ j := cornerAt (triCorners n env geo look io) (nth j r 0%Z) in
                        if gflip geo then (at_ 2, at_ 0, at_ 1) else (at_ 1, at_ 0, at_ 2)) (ttris io).
    Proof.
      intros (Gm & Gt) W Hk. pose proof W as (Sz & M & R).
      unfold fillMesh.
      destruct (fillPoints_ok geo look (tmarkers io) (tpoints io) 0 m k Sz) as (m1 & E & S1 & Ht & Hmp & Hc).
      { destruct (tmarkers io); [cbn; lia|easy]. }
      rewrite E. cbn [bind].
      assert (Hs : toInt (length (bverts m) / 3) = Z.of_nat k).
      { destruct Sz as (A & _). rewrite A, Nat.mul_comm, Nat.div_mul by lia. apply toInt_small. lia. }
      rewrite Hs. rewrite fillTriangles_ok.
      2:{ eapply Forall_impl; [|exact Gt]. cbn beta. intros r (L & F). split; [easy|].
          eapply Forall_impl; [|exact F]. cbn beta. intros i Hi. lia. }
      eexists. split; [reflexivity|].
      assert (Hcs : triCorners n env geo look io =
                    map (fun '(j, p) => cornerOf geo look (marker (tmarkers io) j) p)
                        (combine (seq 0 (length (tpoints io))) (tpoints io))).
      { unfold triCorners, numbered. apply map_ext. intros [j p]. apply triCorner_of. }
      match goal with |- wellFormed ?mm _ /\ _ => set (m' := mm) end.
      assert (Hc' : corners m' = corners m ++ triCorners n env geo look io).
      { subst m'. rewrite Hcs, <- Hc. reflexivity. }
      assert (Ht' : btris m' = btris m ++ flat_map (fun r => let at_ j := (Z.of_nat k + nth j r 0)%Z in
               if gflip geo then [at_ 2; at_ 0; at_ 1] else [at_ 1; at_ 0; at_ 2]) (ttris io)).
      { subst m'. cbn [btris]. now rewrite Ht. }
      assert (L3 : forall r, length ((fun r => let at_ j := (Z.of_nat k + nth j r 0)%Z in
               if gflip geo then [at_ 2; at_ 0; at_ 1] else [at_ 1; at_ 0; at_ 2]) r) = 3).
      { intros r. cbn. now destruct (gflip geo). }
      assert (Nth : forall r j, In r (ttris io) -> j < 3 ->
                (0 <= nth j r 0 < Z.of_nat (length (tpoints io)))%Z).
      { intros r j Hr Hj. rewrite Forall_forall in Gt. destruct (Gt _ Hr) as (L & F).
        rewrite Forall_forall in F. apply F. apply nth_In. lia. }
      split; [|split; [exact Hmp|split; [exact Hc'|]]].
      - eapply wf_app; try eassumption.
        + now apply (flat_length3 (fun r => let at_ j := (Z.of_nat k + nth j r 0)%Z in
               if gflip geo then [at_ 2; at_ 0; at_ 1] else [at_ 1; at_ 0; at_ 2])).
        + apply Forall_flat_map, Forall_forall. intros r Hr.
          pose proof (Nth r 0 Hr). pose proof (Nth r 1 Hr). pose proof (Nth r 2 Hr).
          cbn zeta. destruct (gflip geo); repeat constructor; lia.
      - rewrite (faces_app _ _ _ _ _ W Ht' Hc'). f_equal.
        rewrite (flat_threes (fun r => let at_ j := (Z.of_nat k + nth j r 0)%Z in
               if gflip geo then [at_ 2; at_ 0; at_ 1] else [at_ 1; at_ 0; at_ 2])) by exact L3.
        apply map_flat_single. intros r Hr.
        pose proof (Nth r 0 Hr). pose proof (Nth r 1 Hr). pose proof (Nth r 2 Hr).
        pose proof (corners_length _ _ Sz) as Lk.
        cbn zeta. destruct (gflip geo); cbn [threes map faceOf];
          rewrite <- Lk, !cornerAt_new by lia; reflexivity.
    Qed.

    (** [m'] is [m] with corners and indices added. *)
    Definition grown m m' k cs ts : Prop :=
      sized m' (k + length cs) /\ btris m' = btris m ++ ts /\ bmap m' = bmap m /\
      corners m' = corners m ++ cs.
    Lemma grown_refl m k : sized m k -> grown m m k [] [].
    Proof. intros H. unfold grown. cbn. now rewrite Nat.add_0_r, !app_nil_r. Qed.
    Lemma grown_vertex m0 m k cs ts p color i uv :
      grown m0 m k cs ts -> grown m0 (addVertex m p color i uv) k (cs ++ [place p color uv]) (ts ++ [i]).
    Proof.
      intros (Sz & Ht & Hm & Hc). unfold addVertex. repeat split; cbn [bverts btris bcols buvs bmap].
      - destruct Sz as (A & _). rewrite !app_length, A; cbn. lia.
      - destruct Sz as (_ & B & _). rewrite !app_length, B; cbn. lia.
      - destruct Sz as (_ & _ & C). rewrite !app_length, C; cbn. lia.
      - now rewrite Ht, app_assoc.
      - easy.
      - rewrite (corners_app _ _ _ _ _ _ _ Sz), Hc, app_assoc. reflexivity.
    Qed.
    Lemma faces_shift (cs0 cs : list (corner T)) k ts :
      length cs0 = k -> Forall (fun i => 0 <= i < Z.of_nat (length cs))%Z ts ->
      map (faceOf (cs0 ++ cs)) (threes (map (fun i => Z.of_nat k + i)%Z ts)) = map (faceOf cs) (threes ts).
    Proof.
      intros Lk. 
      enough (E : forall j l, length l <= j -> Forall (fun i => 0 <= i < Z.of_nat (length cs))%Z l ->
                map (faceOf (cs0 ++ cs)) (threes (map (fun i => Z.of_nat k + i)%Z l)) =
                map (faceOf cs) (threes l)) by (intros; now apply (E (length ts))).
      induction j as [|j IH]; intros l Hl F.
      - destruct l; [easy|cbn in Hl; lia].
      - destruct l as [|a [|b [|c l]]]; try easy.
        inversion_clear F as [|? ? Fa F1]. inversion_clear F1 as [|? ? Fb F2].
        inversion_clear F2 as [|? ? Fc F3].
        cbn [map threes]. rewrite IH by (try easy; cbn in Hl; lia). f_equal.
        unfold faceOf. rewrite <- Lk, !cornerAt_new by lia. reflexivity.
    Qed.
    Lemma grown_done m m' k cs ts :
      wellFormed m k -> grown m m' k cs (map (fun i => Z.of_nat k + i)%Z ts) ->
      length ts mod 3 = 0 -> Forall (fun i => 0 <= i < Z.of_nat (length cs))%Z ts ->
      wellFormed m' (k + length cs) /\ bmap m' = bmap m /\ corners m' = corners m ++ cs /\
      faces m' = faces m ++ map (faceOf cs) (threes ts).
    Proof.
      intros W (Sz & Ht & Hm & Hc) L F. split; [|split; [easy|split; [easy|]]].
      - eapply wf_app; try eassumption; [now rewrite map_length|].
        apply Forall_map. eapply Forall_impl; [|exact F]. cbn beta. intros; lia.
      - rewrite (faces_app _ _ _ _ _ W Ht Hc). f_equal.
        destruct W as (S0 & _). apply faces_shift; [now apply corners_length|easy].
    Qed.

    Lemma start_ok m k : sized m k -> (Z.of_nat k < 2 ^ 31)%Z -> toInt (length (bverts m) / 3) = Z.of_nat k.
    Proof. intros (A & _) H. rewrite A, Nat.mul_comm, Nat.div_mul by lia. now apply toInt_small. Qed.

    Lemma plane_ok m k p1 p2 geo look :
      wellFormed m k -> (Z.of_nat (k + 6) < 2 ^ 31)%Z ->
      exists m', addPlane3 n env m p1 p2 geo look = Ok m' /\
        let o := OpPlane3 p1 p2 geo look in
        wellFormed m' (k + length (newCorners n env o)) /\ bmap m' = bmap m /\
        corners m' = corners m ++ newCorners n env o /\ faces m' = faces m ++ newFaces n env o.
    Proof.
      intros W Hk. pose proof W as (Sz & _). unfold addPlane3. rewrite (start_ok _ _ Sz) by lia.
      repeat (rewrite intAdd_small by lia; cbn [bind]).
      eexists. split; [reflexivity|]. cbn zeta.
      match goal with |- wellFormed ?mm _ /\ _ => set (m' := mm) end.
      pose (cs := newCorners n env (OpPlane3 p1 p2 geo look)).
      destruct (grown_done m m' k cs [0; 2; 1; 3; 5; 4]%Z W) as (A & B & C & D).
      - subst m'. cbn [map]. replace (Z.of_nat k + 0)%Z with (Z.of_nat k) by lia.
        replace (Z.of_nat k + 5)%Z with (Z.of_nat k + 3 + 2)%Z by lia.
        replace (Z.of_nat k + 4)%Z with (Z.of_nat k + 3 + 1)%Z by lia.
        unfold cs, newCorners, planeCorners.
        exact (grown_vertex _ _ _ _ _ _ _ _ _ (grown_vertex _ _ _ _ _ _ _ _ _
          (grown_vertex _ _ _ _ _ _ _ _ _ (grown_vertex _ _ _ _ _ _ _ _ _
          (grown_vertex _ _ _ _ _ _ _ _ _ (grown_vertex _ _ _ _ _ _ _ _ _ (grown_refl _ _ Sz))))))).
      - reflexivity.
      - cbn. repeat constructor; lia.
      - split; [exact A|]. split; [exact B|]. split; [exact C|]. rewrite D. reflexivity.
    Qed.

    Lemma triangle_ok m k v0 v1 v2 uv0 uv1 uv2 geo look :
      let o := OpTriangle v0 v1 v2 uv0 uv1 uv2 geo look in
      wellFormed m k -> (Z.of_nat (k + length (newCorners n env o)) < 2 ^ 31)%Z ->
      exists m', addTriangle env m v0 v1 v2 uv0 uv1 uv2 geo look = Ok m' /\
        wellFormed m' (k + length (newCorners n env o)) /\ bmap m' = bmap m /\
        corners m' = corners m ++ newCorners n env o /\ faces m' = faces m ++ newFaces n env o.
    Proof.
      intros o W Hk. pose proof W as (Sz & _). unfold addTriangle. rewrite (start_ok _ _ Sz) by lia.
      subst o. unfold newCorners in Hk. rewrite app_length in Hk. cbn [length] in Hk.
      repeat (rewrite intAdd_small by lia; cbn [bind]).
      pose (c := lgradient look (ePerlin env (v3x v0) (v3z v0) (lnoise look))).
      pose proof (grown_vertex _ _ _ _ _ v2 c (Z.of_nat k + 1 + 1)%Z uv2
                 (grown_vertex _ _ _ _ _ v1 c (Z.of_nat k + 1)%Z uv1
                 (grown_vertex _ _ _ _ _ v0 c (Z.of_nat k) uv0 (grown_refl _ _ Sz)))) as G.
      pose (cs := newCorners n env (OpTriangle v0 v1 v2 uv0 uv1 uv2 geo look)).
      destruct (gback geo) eqn:Hb.
      - cbn [length] in Hk. repeat (rewrite intAdd_small by lia; cbn [bind]).
        eexists. split; [reflexivity|].
        match goal with |- wellFormed ?mm _ /\ _ => set (m' := mm) end.
        destruct (grown_done m m' k cs [0; 1; 2; 2; 3; 4]%Z W) as (A & B & C & D).
        + subst m'. cbn [map]. replace (Z.of_nat k + 0)%Z with (Z.of_nat k) by lia.
          replace (Z.of_nat k + 2)%Z with (Z.of_nat k + 1 + 1)%Z by lia.
          replace (Z.of_nat k + 3)%Z with (Z.of_nat k + 1 + 1 + 1)%Z by lia.
          replace (Z.of_nat k + 4)%Z with (Z.of_nat k + 1 + 1 + 1 + 1)%Z by lia.
          unfold cs, newCorners. rewrite Hb.
          exact (grown_vertex _ _ _ _ _ _ _ _ _ (grown_vertex _ _ _ _ _ _ _ _ _
                (grown_vertex _ _ _ _ _ _ _ _ _ G))).
        + reflexivity.
        + unfold cs, newCorners. rewrite Hb. cbn. repeat constructor; lia.
        + split; [exact A|]. split; [exact B|]. split; [exact C|]. rewrite D. f_equal.
          unfold newFaces, cs, newCorners. rewrite Hb. reflexivity.
      - eexists. split; [reflexivity|].
        match goal with |- wellFormed ?mm _ /\ _ => set (m' := mm) end.
        destruct (grown_done m m' k cs [0; 1; 2]%Z W) as (A & B & C & D).
        + subst m'. cbn [map]. replace (Z.of_nat k + 0)%Z with (Z.of_nat k) by lia.
          replace (Z.of_nat k + 2)%Z with (Z.of_nat k + 1 + 1)%Z by lia.
          unfold cs, newCorners. rewrite Hb. exact G.
        + reflexivity.
        + unfold cs, newCorners. rewrite Hb. cbn. repeat constructor; lia.
        + split; [exact A|]. split; [exact B|]. split; [exact C|]. rewrite D. f_equal.
          unfold newFaces, cs, newCorners. rewrite Hb. reflexivity.
    Qed.

    (** Copies. *)
    Lemma moved_ok off l k :
      length l = 3 * k ->
      exists r, moved n off l = Ok r /\ length r = 3 * k /\
        threes r = map (fun '(x, y, h) => (nadd n x (v3x off), nadd n y (v3z off), nadd n h (v3y off))) (threes l).
    Proof.
      revert l. induction k as [|k IH]; intros l H.
      - destruct l; [|discriminate]. now exists [].
      - destruct l as [|a [|b [|c l]]]; try (cbn in H; lia).
        destruct (IH l) as (r & E & L & R); [cbn in H; lia|].
        eexists. cbn [moved]. rewrite E. cbn [bind]. split; [reflexivity|].
        cbn [length threes map]. split; [lia|now rewrite R].
    Qed.
    Lemma shifted_ok d l :
      Forall (fun i => - 2 ^ 31 <= i + d < 2 ^ 31)%Z l -> shifted d l = Ok (map (fun i => i + d)%Z l).
    Proof.
      induction 1 as [|i l Hi _ IH]; [easy|]. cbn [shifted map].
      rewrite intAdd_small by easy. cbn [bind]. now rewrite IH.
    Qed.
    Definition moveRecord (d : Z) (r : Z * list Z) := (fst r + d, snd r)%Z.
    Lemma shiftMap_ok d j : forall l,
      length l = 8 * j -> Forall (fun r => - 2 ^ 31 <= fst r + d < 2 ^ 31)%Z (records l) ->
      exists r, shiftMap d 0 l = Ok r /\ length r = 8 * j /\ records r = map (moveRecord d) (records l).
    Proof.
      induction j as [|j IH]; intros l H F.
      - destruct l; [|discriminate]. now exists [].
      - do 8 (destruct l as [|? l]; [cbn in H; lia|]).
        cbn [records] in F. inversion_clear F as [|? ? F0 F1].
        destruct (IH l) as (r & E & L & R); [cbn in H; lia|easy|].
        eexists. cbn [shiftMap fst] in *. rewrite intAdd_small by easy. cbn [bind]. rewrite E. cbn [bind].
        split; [reflexivity|]. cbn [length records map]. split; [lia|]. now rewrite R.
    Qed.

    Lemma records_app j : forall l l',
      length l = 8 * j -> records (l ++ l') = records l ++ records l'.
    Proof.
      induction j as [|j IH]; intros l l' H.
      - now destruct l; [|discriminate].
      - do 8 (destruct l as [|? l]; [cbn in H; lia|]).
        cbn [records app]. now rewrite IH by (cbn in H; lia).
    Qed.

    Lemma last_cons {A} (l : list A) : forall e d, last (e :: l) d = last l e.
    Proof.
      induction l as [|a l IH]; intros e d; [easy|].
      change (last (e :: a :: l) d) with (last (a :: l) d). now rewrite !IH.
    Qed.
    Lemma ascending_app l : forall from l' limit limit',
      ascending from l limit -> ascending (last l from) l' limit' -> ascending from (l ++ l') limit'.
    Proof.
      induction l as [|e l IH]; intros from l' limit limit' A B; [exact B|].
      rewrite last_cons in B.
      cbn [app ascending] in *. split; [easy|]. destruct A as (_ & A).
      eapply IH; [exact A|exact B].
    Qed.
    Lemma ascending_split l : forall from l' limit,
      ascending from (l ++ l') limit -> ascending (last l from) l' limit /\
      forall lim, (last l from <= lim)%Z -> ascending from l lim.
    Proof.
      induction l as [|e l IH]; intros from l' limit A; [now cbn|].
      rewrite last_cons. cbn [app ascending] in *. destruct A as (A & B).
      apply IH in B. destruct B as (B & C). auto.
    Qed.
    Lemma ascending_last l : forall from limit, ascending from l limit -> (from <= last l from <= limit)%Z.
    Proof.
      induction l as [|e l IH]; intros from limit; [cbn; lia|].
      rewrite last_cons. cbn [ascending]. intros (A & B). specialize (IH _ _ B). lia.
    Qed.
    Lemma ascending_all l : forall from limit, ascending from l limit ->
      Forall (fun e => from <= e <= limit)%Z l.
    Proof.
      induction l as [|e l IH]; intros from limit; [constructor|]. cbn [ascending]. intros (A & B).
      pose proof (ascending_last _ _ _ B).
      constructor; [lia|]. eapply Forall_impl; [|exact (IH _ _ B)]. cbn beta. intros; lia.
    Qed.

    Lemma ascending_shift l : forall from limit d,
      ascending from l limit -> ascending (from + d) (map (fun e => e + d)%Z l) (limit + d).
    Proof.
      induction l as [|e l IH]; intros from limit d; cbn [ascending map]; [lia|].
      intros (A & B). split; [lia|auto].
    Qed.
    Lemma nonnil {A B} (l : list A) (x y : B) : l <> [] -> match l with [] => x | _ => y end = y.
    Proof. now destruct l. Qed.

    Lemma textureIn_app rs rs' i :
      textureIn (rs ++ rs') i = match textureIn rs i with Some t => Some t | None => textureIn rs' i end.
    Proof.
      induction rs as [|[e t] rs IH]; [easy|]. cbn [textureIn app]. now destruct (i <? e)%Z.
    Qed.
    Lemma textureIn_none rs : forall from limit i,
      ascending from (map fst rs) limit -> (last (map fst rs) from <= i)%Z -> textureIn rs i = None.
    Proof.
      induction rs as [|[e t] rs IH]; intros from limit i A H; [easy|].
      cbn [map fst] in *. rewrite last_cons in H. cbn [ascending textureIn] in *. destruct A as (A & B).
      pose proof (ascending_last _ _ _ B). destruct (Z.ltb_spec i e); [lia|]. eapply IH; eassumption.
    Qed.
    Lemma textureIn_some rs : forall from limit i,
      ascending from (map fst rs) limit -> (from <= i < last (map fst rs) from)%Z ->
      exists t, textureIn rs i = Some t.
    Proof.
      induction rs as [|[e t] rs IH]; intros from limit i A H; [cbn in H; lia|].
      cbn [map fst] in *. rewrite last_cons in H. cbn [ascending textureIn] in *. destruct A as (A & B).
      destruct (Z.ltb_spec i e); [now exists t|]. eapply IH; [eassumption|lia].
    Qed.

    Lemma mod8_mult {A} (l : list A) : length l mod 8 = 0 -> length l = 8 * (length l / 8).
    Proof. intros H. pose proof (Nat.div_mod (length l) 8 ltac:(lia)). lia. Qed.
    Lemma split8 {A} (l : list A) j : length l = 8 * S j ->
      exists front e a b c d f g h, l = front ++ [e; a; b; c; d; f; g; h] /\ length front = 8 * j.
    Proof.
      intros H. rewrite <- (firstn_skipn (8 * j) l).
      assert (L : length (skipn (8 * j) l) = 8) by (rewrite skipn_length; lia).
      destruct (skipn (8 * j) l) as [|e [|a [|b [|c [|d [|f [|g [|h [|? ?]]]]]]]]]; try discriminate.
      exists (firstn (8 * j) l), e, a, b, c, d, f, g, h. split; [easy|]. rewrite firstn_length. lia.
    Qed.

    Lemma texture_ok m look :
      goodMap m -> (Z.of_nat (length (buvs m)) < 2 ^ 31)%Z ->
      exists mp, writeTexture m look = Ok (mkBMesh (bverts m) (btris m) (bcols m) (buvs m) mp) /\
        let m' := mkBMesh (bverts m) (btris m) (bcols m) (buvs m) mp in
        goodMap m' /\ covered m' = Z.of_nat (length (buvs m)) /\
        (forall i, (0 <= i < covered m)%Z -> textureAt m' i = textureAt m i) /\
        (forall i, (covered m <= i < Z.of_nat (length (buvs m)))%Z -> textureAt m' i = Some (textureOf look)).
    Proof.
      intros (M & A) Hu. unfold writeTexture.
      set (U := Z.of_nat (length (buvs m))) in *.
      assert (Er : mapRecord (length (buvs m)) look = U :: textureOf look).
      { unfold mapRecord. rewrite toInt_small by easy. reflexivity. }
      rewrite Er. cbn [tl].
      (* a new record *)
      assert (New : let m' := mkBMesh (bverts m) (btris m) (bcols m) (buvs m) (bmap m ++ U :: textureOf look) in
        goodMap m' /\ covered m' = U /\
        (forall i, (0 <= i < covered m)%Z -> textureAt m' i = textureAt m i) /\
        (forall i, (covered m <= i < U)%Z -> textureAt m' i = Some (textureOf look))).
      { cbn zeta. unfold goodMap, covered, textureAt. cbn [bmap buvs].
        rewrite (records_app _ _ _ (mod8_mult _ M)).
        change (records (U :: textureOf look)) with [(U, textureOf look)].
        rewrite map_app. cbn [map fst]. rewrite last_last.
        pose proof (ascending_last _ _ _ A) as B.
        split; [split|split; [easy|split]].
        - rewrite app_length, Nat.add_mod, M by lia. reflexivity.
        - eapply ascending_app; [exact A|]. cbn. lia.
        - intros i Hi. rewrite textureIn_app.
          destruct (textureIn_some _ _ _ i A) as (t & ->); [lia|easy].
        - intros i Hi. rewrite textureIn_app, (textureIn_none _ _ _ i A) by lia.
          cbn [textureIn]. destruct (Z.ltb_spec i U); [easy|lia]. }
      cbn zeta in New.
      destruct (length (bmap m) / 8) as [|j] eqn:Hj; pose proof (mod8_mult _ M) as L; rewrite Hj in L.
      { destruct (bmap m); [|cbn in L; lia]. exists (U :: textureOf look). split; [reflexivity|exact New]. }
      destruct (split8 _ _ L) as (front & e & a & b & c & d & f & g & h & E & Lf).
      rewrite nonnil by (intros H; rewrite H in L; cbn in L; lia).
      assert (Old : bind (matchBack (rev (bmap m)) (rev (textureOf look))) (fun o =>
         match o with
         | None => Ok (mkBMesh (bverts m) (btris m) (bcols m) (buvs m) (bmap m ++ U :: textureOf look))
         | Some [] => UB
         | Some (_ :: fr) => Ok (mkBMesh (bverts m) (btris m) (bcols m) (buvs m) (rev fr ++ U :: textureOf look))
         end) =
         if list_eq_dec Z.eq_dec [a; b; c; d; f; g; h] (textureOf look)
         then Ok (mkBMesh (bverts m) (btris m) (bcols m) (buvs m) (front ++ U :: textureOf look))
         else Ok (mkBMesh (bverts m) (btris m) (bcols m) (buvs m) (bmap m ++ U :: textureOf look))).
      { rewrite E at 1. rewrite rev_app_distr. unfold textureOf. cbn [rev app].
        destruct (list_eq_dec Z.eq_dec [a; b; c; d; f; g; h]) as [Heq|Hne].
        - injection Heq as -> -> -> -> -> -> ->. cbn [matchBack]. rewrite !Z.eqb_refl. cbn [bind].
          now rewrite rev_involutive.
        - cbn [matchBack].
          repeat match goal with |- context [(?x =? ?y)%Z] => destruct (Z.eqb_spec x y); [|reflexivity] end.
          exfalso. apply Hne. congruence. }
      cbn zeta. setoid_rewrite Old. clear Old.
      destruct (list_eq_dec Z.eq_dec [a; b; c; d; f; g; h] (textureOf look)) as [Heq|Hne];
        [|eexists; split; [reflexivity|exact New]].
      eexists. split; [reflexivity|].
      unfold goodMap, covered, textureAt in *. cbn [bmap buvs].
      rewrite E in A |- *. rewrite !(records_app _ _ _ Lf) in *.
      change (records (U :: textureOf look)) with [(U, textureOf look)].
      change (records [e; a; b; c; d; f; g; h]) with [(e, [a; b; c; d; f; g; h])] in *.
      rewrite Heq in *. rewrite !map_app in *. cbn [map fst] in *. rewrite !last_last.
      apply ascending_split in A. destruct A as (A1 & A2). cbn [ascending] in A1.
      split; [split|split; [easy|split]].
      - rewrite app_length, Nat.add_mod, Lf, Nat.mul_comm, Nat.mod_mul by lia. reflexivity.
      - eapply ascending_app; [apply (A2 U); lia|]. cbn. lia.
      - intros i Hi. rewrite !textureIn_app. destruct (textureIn (records front) i); [easy|].
        cbn [textureIn]. destruct (Z.ltb_spec i U), (Z.ltb_spec i e); try easy; lia.
      - intros i Hi. rewrite textureIn_app, (textureIn_none _ 0%Z U i) by (try apply A2; lia).
        cbn [textureIn]. destruct (Z.ltb_spec i U); [easy|lia].
    Qed.

    Lemma copy_ok m k off src :
      wellFormed m k -> goodMap m -> (exists j, wellFormed src j /\ goodMap src) ->
      let o := OpCopy off src in
      (2 * Z.of_nat (k + length (newCorners n env o)) < 2 ^ 31)%Z ->
      exists m', copyMesh n off src m = Ok m' /\
        wellFormed m' (k + length (newCorners n env o)) /\
        corners m' = corners m ++ newCorners n env o /\ faces m' = faces m ++ newFaces n env o /\
        goodMap m' /\
        records (bmap m') = records (bmap m) ++ map (moveRecord (Z.of_nat (length (buvs m)))) (records (bmap src)).
    Proof.
      intros W G (j & Ws & Gs) o Hk. pose proof W as (Sz & _). pose proof Ws as (Ss & Ms & Rs).
      assert (Lc : length (newCorners n env o) = j).
      { subst o. cbn [newCorners]. rewrite map_length. now apply corners_length. }
      rewrite Lc in *.
      unfold copyMesh. rewrite (start_ok _ _ Sz) by lia.
      destruct (moved_ok off (bverts src) j) as (vs & Ev & Lv & Rv); [apply Ss|].
      rewrite Ev. cbn [bind].
      rewrite shifted_ok by (eapply Forall_impl; [|exact Rs]; cbn beta; intros; lia). cbn [bind].
      replace (length (buvs m ++ buvs src) - length (buvs src)) with (length (buvs m))
        by (rewrite app_length; lia).
      rewrite toInt_small by (destruct Sz as (_ & _ & ->); lia).
      set (d := Z.of_nat (length (buvs m))).
      destruct Gs as (M8 & As). pose proof (mod8_mult _ M8) as L8.
      destruct (shiftMap_ok d _ _ L8) as (mp & Em & Lm & Rm).
      { pose proof (ascending_all _ _ _ As) as F. rewrite Forall_map in F.
        eapply Forall_impl; [|exact F]. cbn beta. intros r Hr. subst d.
        destruct Sz as (_ & _ & Su), Ss as (_ & _ & Su'). rewrite Su, Su' in *. lia. }
      rewrite Em. cbn [bind]. eexists. split; [reflexivity|].
      match goal with |- wellFormed ?mm _ /\ _ => set (m' := mm) end.
      destruct G as (G8 & Ga). pose proof (mod8_mult _ G8) as Lg.
      assert (Rec : records (bmap m') = records (bmap m) ++ map (moveRecord d) (records (bmap src))).
      { subst m'. cbn [bmap]. now rewrite (records_app _ _ _ Lg), Rm. }
      assert (Gr : grown m m' k (newCorners n env o) (map (fun i => Z.of_nat k + i)%Z (btris src)) \/ True) by now right.
      assert (Cs : corners m' = corners m ++ newCorners n env o).
      { subst m'. rewrite (corners_app _ _ _ _ _ _ _ Sz). f_equal. subst o. cbn [newCorners].
        unfold corners. rewrite Rv, map_map.
        destruct Ss as (S1 & S2 & S3).
        clear. generalize (threes (bverts src)) as l1, (bcols src) as l2, (twos (buvs src)) as l3.
        induction l1 as [|[[x y] h] l1 IH]; intros [|c l2] [|u l3]; try reflexivity.
        cbn [map combine]. f_equal. apply IH. }
      clear Gr.
      assert (Sz' : sized m' (k + j)).
      { subst m'. destruct Sz as (S1 & S2 & S3), Ss as (T1 & T2 & T3). unfold sized. cbn.
        rewrite !app_length. lia. }
      assert (Tr : btris m' = btris m ++ map (fun i => Z.of_nat k + i)%Z (btris src)).
      { subst m'. cbn [btris]. f_equal. apply map_ext. intros; lia. }
      split; [|split; [exact Cs|split; [|split; [|exact Rec]]]].
      - eapply wf_app; try eassumption; [now rewrite map_length|].
        apply Forall_map. eapply Forall_impl; [|exact Rs]. cbn beta. intros; lia.
      - rewrite (faces_app _ _ _ _ _ W Tr Cs). f_equal. subst o. cbn [newFaces].
        apply faces_shift; [now rewrite (corners_length _ _ Sz)|]. now rewrite Lc.
      - split.
        + subst m'. cbn [bmap]. rewrite app_length, Lg, Lm, Nat.add_mod, !(Nat.mul_comm 8), !Nat.mod_mul by lia.
          reflexivity.
        + rewrite Rec, map_app, map_map. eapply ascending_app; [exact Ga|].
          pose proof (ascending_last _ _ _ Ga) as B. fold d in B.
          replace (Z.of_nat (length (buvs m'))) with (Z.of_nat (length (buvs src)) + d)%Z
            by (subst m' d; cbn [buvs]; rewrite app_length; lia).
          pose proof (ascending_shift _ _ _ d As) as Ad.
          rewrite map_map in Ad. cbn [moveRecord fst] in *.
          destruct (records (bmap src)); cbn [map ascending] in *; [lia|]. split; [lia|apply Ad].
    Qed.

    Lemma textureIn_shift d rs i : textureIn (map (moveRecord d) rs) (d + i) = textureIn rs i.
    Proof.
      induction rs as [|[e t] rs IH]; [easy|]. cbn [map moveRecord fst snd textureIn].
      destruct (Z.ltb_spec (d + i) (e + d)), (Z.ltb_spec i e); try lia; easy.
    Qed.
    Lemma copy_textures m m' (src : bmesh T) :
      goodMap m ->
      records (bmap m') = records (bmap m) ++ map (moveRecord (Z.of_nat (length (buvs m)))) (records (bmap src)) ->
      (forall i, (0 <= i < covered m)%Z -> textureAt m' i = textureAt m i) /\
      (forall i, (0 <= i)%Z -> textureAt m' (Z.of_nat (length (buvs m)) + i) = textureAt src i).
    Proof.
      intros (M & A) R. unfold textureAt, covered. rewrite R. split; intros i Hi; rewrite textureIn_app.
      - destruct (textureIn_some _ _ _ i A) as (t & ->); [lia|easy].
      - rewrite (textureIn_none _ _ _ _ A), textureIn_shift; [easy|].
        pose proof (ascending_last _ _ _ A). lia.
    Qed.

    (** One call, and any sequence of them. *)
    Lemma step_ok o m k :
      goodOp n env o -> wellFormed m k -> goodMap m ->
      (2 * Z.of_nat (k + length (newCorners n env o)) < 2 ^ 31)%Z ->
      exists m', meshStep n env o m = Ok m' /\
        wellFormed m' (k + length (newCorners n env o)) /\ goodMap m' /\
        corners m' = corners m ++ newCorners n env o /\ faces m' = faces m ++ newFaces n env o.
    Proof.
      intros G W Gm Hk.
      assert (Keep : forall m', wellFormed m' (k + length (newCorners n env o)) -> bmap m' = bmap m -> goodMap m').
      { intros m' ((_ & _ & U) & _) E. destruct Gm as (M & A). unfold goodMap. rewrite E. split; [easy|].
        destruct W as ((_ & _ & U0) & _).
        pose proof (ascending_split (map fst (records (bmap m))) 0%Z [] (Z.of_nat (length (buvs m)))) as Sp.
        rewrite app_nil_r in Sp. destruct (Sp A) as (B & C). apply C. cbn in B. lia. }
      destruct o as [p geo look|p1 p2 geo look|p1 p2 geo look|v0 v1 v2 uv0 uv1 uv2 geo look|look|off src];
        cbn [meshStep].
      - cbn [goodOp] in G.
        assert (Lp : length (newCorners n env (OpPolygon p geo look)) = length (tpoints (triangulation n env p geo))).
        { cbn [newCorners]. unfold triCorners, numbered. rewrite map_length, combine_length, seq_length. lia. }
        rewrite Lp in *.
        destruct (fillMesh_ok (triangulation n env p geo) geo look m k G W) as (m' & E & A & B & C & D); [lia|].
        exists m'. split; [|auto 6].
        unfold addPolygon. unfold triangulation in E.
        destruct (nlt n (nabs n (garea geo)) (eEps env)); exact E.
      - destruct (plane_ok m k (groundPoint n env geo p1) (groundPoint n env geo p2) geo look W)
          as (m' & E & A & B & C & D);
          [change (length (newCorners n env (OpPlane2 p1 p2 geo look))) with 6 in Hk; lia|].
        exists m'. split; [exact E|]. split; [exact A|]. split; [exact (Keep _ A B)|]. split; [exact C|exact D].
      - destruct (plane_ok m k p1 p2 geo look W) as (m' & E & A & B & C & D);
          [change (length (newCorners n env (OpPlane3 p1 p2 geo look))) with 6 in Hk; lia|].
        exists m'. split; [exact E|]. split; [exact A|]. split; [exact (Keep _ A B)|]. split; [exact C|exact D].
      - destruct (triangle_ok m k v0 v1 v2 uv0 uv1 uv2 geo look W) as (m' & E & A & B & C & D); [lia|].
        exists m'. split; [exact E|]. split; [exact A|]. split; [exact (Keep _ A B)|]. split; [exact C|exact D].
      - destruct (texture_ok m look Gm) as (mp & E & A & _).
        { destruct W as ((_ & _ & ->) & _). lia. }
        eexists. split; [exact E|]. cbn [newCorners newFaces length]. rewrite Nat.add_0_r, !app_nil_r.
        split; [exact W|]. split; [exact A|]. split; reflexivity.
      - destruct (copy_ok m k off src W Gm G Hk) as (m' & E & A & B & C & D & _).
        exists m'. auto 6.
    Qed.

    Lemma run_ok ops : forall m k,
      Forall (goodOp n env) ops -> wellFormed m k -> goodMap m ->
      (2 * Z.of_nat (k + length (flat_map (newCorners n env) ops)) < 2 ^ 31)%Z ->
      exists m', meshRun n env ops m = Ok m' /\
        wellFormed m' (k + length (flat_map (newCorners n env) ops)) /\ goodMap m' /\
        corners m' = corners m ++ flat_map (newCorners n env) ops /\
        faces m' = faces m ++ flat_map (newFaces n env) ops.
    Proof.
      induction ops as [|o ops IH]; intros m k F W G Hk.
      - exists m. cbn. now rewrite Nat.add_0_r, !app_nil_r.
      - inversion_clear F as [|? ? Fo Fs]. cbn [flat_map meshRun] in *. rewrite app_length in *.
        destruct (step_ok o m k Fo W G) as (m1 & E & A & B & C & D); [lia|].
        destruct (IH m1 _ Fs A B) as (m' & E' & A' & B' & C' & D'); [lia|].
        exists m'. rewrite E. cbn [bind]. split; [exact E'|].
        split; [now rewrite Nat.add_assoc|]. split; [easy|].
        rewrite C', D', C, D, <- !app_assoc. easy.
    Qed.

    (** Contours. *)
    Lemma contourLoop_ok offset count (l : list (vec2 T)) : forall i (p : polygon T),
      i + length l = count -> (Z.of_nat (offset + count) < 2 ^ 31)%Z ->
      contourLoop offset count i l p =
      mkPoly (ppoints p ++ coordinates l) (pholes p)
        (psegs p ++ flat_map (fun i => [Z.of_nat (offset + i);
                        Z.of_nat (offset + if Datatypes.S i =? count then 0 else Datatypes.S i)])
             (seq i (length l)))
        (pouters p) (pinners p).
    Proof.
      induction l as [|v l IH]; intros i p Hi Hb; cbn [contourLoop length seq flat_map coordinates].
      - rewrite !app_nil_r. now destruct p.
      - cbn [length] in Hi. rewrite IH by lia. cbn [ppoints pholes psegs pouters pinners].
        rewrite <- !app_assoc. cbn [app].
        assert (M : S i mod count = if S i =? count then 0 else S i).
        { destruct (Nat.eqb_spec (S i) count) as [->|H]; [apply Nat.mod_same; lia|apply Nat.mod_small; lia]. }
        rewrite M. rewrite !toInt_small; [reflexivity| |lia].
        destruct (Nat.eqb_spec (S i) count); lia.
    Qed.

    Lemma removelast_firstn_len {A} (l : list A) : removelast l = firstn (length l - 1) l.
    Proof.
      induction l as [|a l IH]; [easy|]. destruct l as [|b l]; [easy|].
      change (removelast (a :: b :: l)) with (a :: removelast (b :: l)). rewrite IH. cbn. now rewrite Nat.sub_0_r.
    Qed.

    Lemma contour_ok (p : polygon T) contour isHole inside c :
      contour <> [] -> (isHole = true -> inside <> None) ->
      length (ppoints p) = 2 * c -> length (psegs p) = 2 * c ->
      (Z.of_nat (c + length contour) < 2 ^ 31)%Z ->
      let ring := openContour (sameVec n env) contour in
      let range := (2 * c, 2 * c + 2 * length ring) in
      addContour n env p contour isHole inside =
      Ok (mkPoly (ppoints p ++ coordinates ring)
            (pholes p ++ match inside with
                         | Some q => if isHole then [v2x q; v2y q] else [] | None => [] end)
            (psegs p ++ ringSegments c (length ring))
            (pouters p ++ if isHole then [] else [range])
            (pinners p ++ if isHole then [range] else [])).
    Proof.
      intros Hn Hin Hp Hs Hb ring range. unfold addContour.
      destruct contour as [|v l]; [easy|]. rewrite Hp.
      set (contour := v :: l) in *. 
      set (count := if sameVec n env v (last contour v) then length contour - 1 else length contour).
      assert (Hr : firstn count contour = ring).
      { subst ring count. change (openContour (sameVec n env) contour) with
          (if sameVec n env v (last contour v) then removelast contour else contour).
        destruct (sameVec n env v (last contour v)); [symmetry; apply removelast_firstn_len|apply firstn_all]. }
      assert (Hc : length ring = count).
      { rewrite <- Hr, firstn_length. subst count. destruct (sameVec _ _ _ _); lia. }
      assert (Hle : count <= length contour) by (subst count; destruct (sameVec _ _ _ _); lia).
      destruct isHole.
      - destruct inside as [q|]; [|now destruct (Hin eq_refl)].
        cbn [psegs]. rewrite Hs, (Nat.mul_comm 2 c), Nat.div_mul by lia.
        rewrite Hr, contourLoop_ok by (rewrite ?Hc; lia). cbn [ppoints pholes psegs pouters pinners].
        subst range. rewrite Hc, app_nil_r, (Nat.mul_comm 2 c), (Nat.mul_comm 2 count). reflexivity.
      - cbn [psegs]. rewrite Hs, (Nat.mul_comm 2 c), Nat.div_mul by lia.
        rewrite Hr, contourLoop_ok by (rewrite ?Hc; lia). cbn [ppoints pholes psegs pouters pinners].
        subst range. rewrite Hc, app_nil_r, (Nat.mul_comm 2 c), (Nat.mul_comm 2 count).
        destruct inside; rewrite app_nil_r; reflexivity.
    Qed.
    Lemma flat_length2 {A B} (f : A -> list B) l :
      (forall a, length (f a) = 2) -> length (flat_map f l) = 2 * length l.
    Proof.
      intros H. induction l as [|a l IH]; [easy|]. cbn [flat_map length]. rewrite app_length, H, IH. lia.
    Qed.
    Lemma ringSegments_length c k : length (ringSegments c k) = 2 * k.
    Proof.
      unfold ringSegments. now rewrite flat_length2, seq_length.
    Qed.
    Lemma coordinates_length (l : list (vec2 T)) : length (coordinates l) = 2 * length l.
    Proof. unfold coordinates. now rewrite flat_length2. Qed.
    Lemma ringSegments_range c k : Forall (fun i => Z.of_nat c <= i < Z.of_nat (c + k))%Z (ringSegments c k).
    Proof.
      unfold ringSegments. apply Forall_flat_map, Forall_forall. intros i Hi. apply in_seq in Hi.
      destruct (Nat.eqb_spec (S i) k); repeat constructor; lia.
    Qed.

    Lemma open_length same (l : list (vec2 T)) : length (openContour same l) <= length l.
    Proof.
      unfold openContour. destruct l as [|v l]; [easy|]. destruct (same _ _); [|easy].
      rewrite removelast_firstn_len, firstn_length. lia.
    Qed.
    Lemma contours_ok l : forall (p : polygon T) c,
      Forall (fun '(contour, isHole, inside) => contour <> [] /\ (isHole = true -> inside <> None)) l ->
      length (ppoints p) = 2 * c -> length (psegs p) = 2 * c ->
      (Z.of_nat (c + length (concat (map (fun x => fst (fst x)) l))) < 2 ^ 31)%Z ->
      let rings := map (fun x => openContour (sameVec n env) (fst (fst x))) l in
      exists p', addContours n env p l = Ok p' /\
        ppoints p' = ppoints p ++ flat_map coordinates rings /\
        psegs p' = psegs p ++ layout c rings.
    Proof.
      induction l as [|[[contour isHole] inside] l IH]; intros p c F Hp Hs Hb rings.
      - exists p. cbn. now rewrite !app_nil_r.
      - inversion_clear F as [|? ? F0 F']. cbn beta iota in F0. destruct F0 as (Hn & Hi).
        cbn [map fst concat] in Hb. rewrite app_length in Hb.
        cbn [addContours]. rewrite (contour_ok p contour isHole inside c Hn Hi Hp Hs) by lia. cbn [bind].
        set (ring := openContour (sameVec n env) contour).
        pose proof (open_length (sameVec n env) contour) as Lr. fold ring in Lr.
        match goal with |- context [addContours n env ?pp l] => set (p1 := pp) end.
        destruct (IH p1 (c + length ring) F') as (p' & E & A & B).
        + subst p1. cbn [ppoints]. rewrite app_length, coordinates_length. lia.
        + subst p1. cbn [psegs]. rewrite app_length, ringSegments_length. lia.
        + lia.
        + exists p'. split; [exact E|]. subst rings p1. cbn [map fst flat_map layout ppoints psegs] in *.
          fold ring. rewrite A, B, <- !app_assoc. easy.
    Qed.
    Lemma layout_range rings : forall c,
      Forall (fun i => Z.of_nat c <= i < Z.of_nat (c + length (concat rings)))%Z (@layout T c rings).
    Proof.
      induction rings as [|r rings IH]; intros c; cbn [layout concat]; [constructor|].
      rewrite app_length. apply Forall_app. split.
      - eapply Forall_impl; [|apply ringSegments_range]. cbn beta. intros; lia.
      - eapply Forall_impl; [|apply IH]. cbn beta. intros; lia.
    Qed.
    Lemma faces_defined m k : wellFormed m k ->
      Forall (fun '(a, b, c) => a <> None /\ b <> None /\ c <> None) (faces m).
    Proof.
      intros (Sz & _ & R). unfold faces. apply Forall_map. apply threes_forall in R.
      eapply Forall_impl; [|exact R]. intros [[a b] c] R0. cbn beta iota in R0.
      destruct R0 as (Ha & Hb & Hc). cbn [faceOf].
      pose proof (corners_length _ _ Sz).
      assert (D : forall i, (0 <= i < Z.of_nat k)%Z -> cornerAt (corners m) i <> None).
      { intros i Hi. unfold cornerAt. destruct (Z.ltb_spec i 0); [lia|]. apply nth_error_Some. lia. }
      auto.
    Qed.
  End Fill.
End MeshBuildProofs.
