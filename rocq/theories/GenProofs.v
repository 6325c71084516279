(** Proofs about spheres and cylinders. *)
From Coq Require Import Reals Lra Permutation.
From Verif Require Import Base RingModel MeshBuildModel QuatModel QuatSpec GenModel GenSpec.
Local Open Scope nat_scope.

(** Deciding permutations. *)
Section Perm.
  Context {A : Type} (eqb : A -> A -> bool) (eqb_ok : forall a b, eqb a b = true -> a = b).
  Fixpoint takeOut (a : A) (l : list A) : option (list A) :=
    match l with
    | [] => None
    | b :: l' => if eqb a b then Some l' else match takeOut a l' with Some r => Some (b :: r) | None => None end
    end.
  Fixpoint permb (l l' : list A) : bool :=
    match l with
    | [] => match l' with [] => true | _ => false end
    | a :: l => match takeOut a l' with Some r => permb l r | None => false end
    end.
  Lemma takeOut_ok a l r : takeOut a l = Some r -> Permutation l (a :: r).
  Proof using eqb_ok.
    revert r. induction l as [|b l IH]; intros r; cbn [takeOut]; [easy|].
    destruct (eqb a b) eqn:E; intros H.
    - injection H as <-. apply eqb_ok in E. now subst.
    - destruct (takeOut a l) as [r'|]; [|easy]. injection H as <-. rewrite (IH r' eq_refl). apply perm_swap.
  Qed.
  Lemma permb_ok l : forall l', permb l l' = true -> Permutation l l'.
  Proof using eqb_ok.
    induction l as [|a l IH]; intros l' H; cbn [permb] in H.
    - now destruct l'.
    - destruct (takeOut a l') as [r|] eqn:E; [|easy]. rewrite (takeOut_ok _ _ _ E). constructor. auto.
  Qed.
End Perm.

Lemma allSides_map {P Q} (f : P -> Q) ts :
  allSides (map (fun '(a, b, c) => (f a, f b, f c)) ts) = map (fun s => (f (fst s), f (snd s))) (allSides ts).
Proof. unfold allSides. induction ts as [|[[a b] c] ts IH]; [easy|]. cbn [map flat_map sides app fst snd]. now rewrite IH. Qed.
Lemma watertight_map {P Q} (f : P -> Q) ts : watertight ts -> watertight (map (fun '(a, b, c) => (f a, f b, f c)) ts).
Proof.
  unfold watertight. intros H. rewrite allSides_map, map_map.
  rewrite (Permutation_map (fun s => (f (fst s), f (snd s))) H), map_map. apply Permutation_refl'. now apply map_ext.
Qed.
Lemma watertight_app {P} (a b : list (P * P * P)) : watertight a -> watertight b -> watertight (a ++ b).
Proof. unfold watertight, allSides. intros A B. rewrite flat_map_app, map_app. now apply Permutation_app. Qed.

(** Vertices of the refined icosahedron: those of the icosahedron and middles of two of them. *)
Inductive spot := Base (i : nat) | Mid (i j : nat).
Definition spotEqb (a b : spot) : bool :=
  match a, b with Base i, Base j => i =? j | Mid i j, Mid i' j' => (i =? i') && (j =? j') | _, _ => false end.
Lemma spotEqb_ok a b : spotEqb a b = true -> a = b.
Proof.
  destruct a, b; cbn; try easy; intros H.
  - apply Nat.eqb_eq in H. now subst.
  - apply andb_prop in H. destruct H as (A & B). apply Nat.eqb_eq in A, B. now subst.
Qed.
Definition sideEqb (a b : spot * spot) : bool := spotEqb (fst a) (fst b) && spotEqb (snd a) (snd b).
Lemma sideEqb_ok a b : sideEqb a b = true -> a = b.
Proof.
  destruct a, b; cbn; intros H. apply andb_prop in H. destruct H as (A & B). apply spotEqb_ok in A, B. cbn in *. now subst.
Qed.

(** The pairs of which middles are made, in this order. *)
Definition addPair (l : list (nat * nat)) (p : nat * nat) : list (nat * nat) :=
  if existsb (fun q => N.eqb (pairKey (fst p) (snd p)) (pairKey (fst q) (snd q))) l then l else l ++ [p].
Definition pairsFrom (fs : list indices) : list (nat * nat) :=
  fold_left addPair (flat_map (fun '(a, b, c) => [(a, b); (b, c); (c, a)]) fs) [].
Definition spots (fs : list indices) : list spot := map Base (seq 0 12) ++ map (fun '(i, j) => Mid i j) (pairsFrom fs).
(** The four triangles of a triangle. *)
Definition midSpot (ps : list (nat * nat)) (i j : nat) : spot :=
  match find (fun q => N.eqb (pairKey i j) (pairKey (fst q) (snd q))) ps with Some q => Mid (fst q) (snd q) | None => Base 0 end.
Definition four (ps : list (nat * nat)) (f : indices) : list (spot * spot * spot) :=
  let '(i, j, l) := f in
  let a := midSpot ps i j in let b := midSpot ps j l in let c := midSpot ps l i in
  [(Base i, a, c); (Base j, b, a); (Base l, c, b); (a, b, c)].
Definition spotFaces (fs : list indices) : list (spot * spot * spot) := flat_map (four (pairsFrom fs)) fs.

Section Ico.
  Context {T : Type} (n : nums T) (k : trig T) (g : gens T).
  Definition spotAt (verts : list (vec3 T)) (s : spot) : vec3 T :=
    match s with
    | Base i => nth i verts (vzero n)
    | Mid i j => middleOf n k g (nth i verts (vzero n)) (nth j verts (vzero n))
    end.

  Ltac run := vm_compute; reflexivity.
  Definition cacheOf (fs : list indices) : list (N * nat) :=
    let ps := pairsFrom fs in combine (map (fun p => pairKey (fst p) (snd p)) ps) (seq 12 (length ps)).
  Definition indexOf (s : spot) (l : list spot) : nat :=
    (fix go i l := match l with [] => i | a :: l' => if spotEqb s a then i else go (S i) l' end) 0 l.
  Definition indexFaces (fs : list indices) : list indices :=
    let sp := spots fs in map (fun '(a, b, c) => (indexOf a sp, indexOf b sp, indexOf c sp)) (spotFaces fs).

  Lemma first_pass semi x0 x1 x2 x3 x4 x5 x6 x7 x8 x9 x10 x11 :
    let verts := [x0; x1; x2; x3; x4; x5; x6; x7; x8; x9; x10; x11] in
    let fs := if semi : bool then semiSphereFaces else sphereFaces in
    refineFaces n k g ([], verts) fs = Ok ((cacheOf fs, map (spotAt verts) (spots fs)), indexFaces fs).
  Proof. destruct semi; run. Qed.
  Lemma next_pass semi verts :
    let fs := if semi : bool then semiSphereFaces else sphereFaces in
    refineFaces n k g (cacheOf fs, verts) fs = Ok ((cacheOf fs, verts), indexFaces fs).
  Proof. destruct semi; run. Qed.
  Lemma next_passes semi verts level :
    let fs := if semi : bool then semiSphereFaces else sphereFaces in
    refineLoop n k g fs level (cacheOf fs, verts) (indexFaces fs) = Ok ((cacheOf fs, verts), indexFaces fs).
  Proof.
    intros fs. induction level as [|level IH]; [reflexivity|]. cbn [refineLoop]. unfold fs. rewrite next_pass. cbn [bind].
    exact IH.
  Qed.
  Lemma all_passes semi level : (1 <= level)%Z ->
    let fs := if semi : bool then semiSphereFaces else sphereFaces in
    refineLoop n k g fs (Z.to_nat level) ([], vertexList n k g) [] =
    Ok ((cacheOf fs, map (spotAt (vertexList n k g)) (spots fs)), indexFaces fs).
  Proof.
    intros H fs. destruct (Z.to_nat level) as [|l] eqn:E; [lia|]. cbn [refineLoop]. unfold vertexList. cbn [map].
    unfold fs. rewrite first_pass. cbn [bind]. apply next_passes.
  Qed.
  Lemma triangles_all (place : vec3 T -> vec3 T) (at_ : spot -> vec3 T) sp fs :
    Forall (fun '(a, b, c) => a < length sp /\ b < length sp /\ c < length sp) fs ->
    faceTriangles (map at_ sp) place fs =
    Ok (map (fun '(a, b, c) => (place (at_ (nth a sp (Base 0))), place (at_ (nth b sp (Base 0))), place (at_ (nth c sp (Base 0))))) fs).
  Proof.
    induction 1 as [|[[a b] c] fs (A & B & C) _ IH]; [reflexivity|]. cbn [faceTriangles faceTriangle].
    assert (E : forall i, i < length sp -> nth_error (map at_ sp) i = Some (at_ (nth i sp (Base 0)))).
    { intros i Hi. apply map_nth_error. now apply nth_error_nth'. }
    rewrite !E by assumption. cbn [bind]. rewrite IH. reflexivity.
  Qed.
  Lemma spots_back semi :
    let fs := if semi : bool then semiSphereFaces else sphereFaces in
    (let sp := spots fs in
     forallb (fun '(a, b, c) => spotEqb (nth (indexOf a sp) sp (Base 0)) a && spotEqb (nth (indexOf b sp) sp (Base 0)) b &&
                                spotEqb (nth (indexOf c sp) sp (Base 0)) c) (spotFaces fs)) = true.
  Proof. destruct semi; run. Qed.
  Lemma spots_inside semi :
    let fs := if semi : bool then semiSphereFaces else sphereFaces in
    (let m := length (spots fs) in
     forallb (fun '(a, b, c) => (a <? m) && (b <? m) && (c <? m)) (indexFaces fs)) = true.
  Proof. destruct semi; run. Qed.
  Lemma ico_triangles tr center size semi level : (1 <= level)%Z ->
    let fs := if semi : bool then semiSphereFaces else sphereFaces in
    icoSphere n k g tr center size semi level =
    Ok (map (fun '(a, b, c) => (corner n tr center size (spotAt (vertexList n k g) a), corner n tr center size (spotAt (vertexList n k g) b),
                                corner n tr center size (spotAt (vertexList n k g) c))) (spotFaces fs)).
  Proof.
    intros H fs. unfold icoSphere. fold fs. unfold fs. rewrite (all_passes semi level H). cbn [bind snd].
    rewrite triangles_all.
    - f_equal. unfold indexFaces. rewrite map_map.
      assert (E : Forall (fun '(a, b, c) => nth (indexOf a (spots fs)) (spots fs) (Base 0) = a /\
                 nth (indexOf b (spots fs)) (spots fs) (Base 0) = b /\ nth (indexOf c (spots fs)) (spots fs) (Base 0) = c) (spotFaces fs)).
      { apply Forall_forall. intros [[a b] c] I. pose proof (proj1 (forallb_forall _ _) (spots_back semi) _ I) as B.
        cbn beta iota in B. apply andb_prop in B. destruct B as (B & B3). apply andb_prop in B. destruct B as (B1 & B2).
        apply spotEqb_ok in B1, B2, B3. fold fs in B1, B2, B3. rewrite B1, B2, B3. auto. }
      fold fs. clear -E. induction E as [|[[a b] c] l (A & B & C) _ IH]; [reflexivity|]. cbn [map]. now rewrite A, B, C, IH.
    - apply Forall_forall. intros [[a b] c] I. pose proof (proj1 (forallb_forall _ _) (spots_inside semi) _ I) as B.
      cbn beta iota in B. apply andb_prop in B. destruct B as (B & B3). apply andb_prop in B. destruct B as (B1 & B2).
      apply Nat.ltb_lt in B1, B2, B3. auto.
  Qed.
End Ico.

Lemma sphere_tight : watertight (spotFaces sphereFaces).
Proof. apply (permb_ok sideEqb sideEqb_ok). vm_compute. reflexivity. Qed.
