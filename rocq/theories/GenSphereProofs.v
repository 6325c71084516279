(** The sphere in exact real arithmetic. *)
From Coq Require Import Reals Lra Permutation.
From Verif Require Import Base RingModel MeshBuildModel QuatModel QuatSpec QuatProofs GenModel GenSpec GenProofs.
Local Open Scope R_scope.

(** The golden ratio. *)
Definition phi : R := (1 + sqrt 5) / 2.
Lemma sqrt5_bounds : 22 / 10 < sqrt 5 < 23 / 10.
Proof.
  assert (S : sqrt 5 * sqrt 5 = 5) by (apply sqrt_sqrt; lra). pose proof (sqrt_pos 5). split.
  - apply Rnot_le_lt. intros L. assert (sqrt 5 * sqrt 5 <= 22 / 10 * (22 / 10)) by (apply Rmult_le_compat; lra). lra.
  - apply Rnot_le_lt. intros L. assert (23 / 10 * (23 / 10) <= sqrt 5 * sqrt 5) by (apply Rmult_le_compat; lra). lra.
Qed.
Lemma phi_square : phi * phi = phi + 1.
Proof. unfold phi. assert (S : sqrt 5 * sqrt 5 = 5) by (apply sqrt_sqrt; lra). nra. Qed.
Lemma phi_bounds : 16 / 10 < phi < 165 / 100.
Proof. unfold phi. pose proof sqrt5_bounds. lra. Qed.

(** Numbers x + y phi. *)
Definition zphi : Type := Z * Z.
Definition ev (a : zphi) : R := IZR (fst a) + IZR (snd a) * phi.
Definition padd (a b : zphi) : zphi := (fst a + fst b, snd a + snd b)%Z.
Definition psub (a b : zphi) : zphi := (fst a - fst b, snd a - snd b)%Z.
Definition pmul (a b : zphi) : zphi :=
  (fst a * fst b + snd a * snd b, fst a * snd b + snd a * fst b + snd a * snd b)%Z.
Lemma ev_add a b : ev (padd a b) = ev a + ev b.
Proof. unfold ev, padd. cbn [fst snd]. rewrite !plus_IZR. ring. Qed.
Lemma ev_sub a b : ev (psub a b) = ev a - ev b.
Proof. unfold ev, psub. cbn [fst snd]. rewrite !minus_IZR. ring. Qed.
Lemma ev_mul a b : ev (pmul a b) = ev a * ev b.
Proof.
  unfold ev, pmul. cbn [fst snd]. rewrite !plus_IZR, !mult_IZR.
  replace ((IZR (fst a) + IZR (snd a) * phi) * (IZR (fst b) + IZR (snd b) * phi)) with
    (IZR (fst a) * IZR (fst b) + (IZR (fst a) * IZR (snd b) + IZR (snd a) * IZR (fst b)) * phi + IZR (snd a) * IZR (snd b) * (phi * phi)) by ring.
  rewrite phi_square. ring.
Qed.
Definition ppos (a : zphi) : bool := ((0 <? 100 * fst a + 160 * snd a) && (0 <? 100 * fst a + 165 * snd a))%Z.
Lemma ppos_ok a : ppos a = true -> 0 < ev a.
Proof.
  unfold ppos, ev. intros H. apply andb_prop in H. destruct H as (A & B).
  apply Z.ltb_lt in A, B. apply IZR_lt in A, B. rewrite plus_IZR, !mult_IZR in A, B. pose proof phi_bounds.
  set (x := IZR (fst a)) in *. set (y := IZR (snd a)) in *. destruct (Rle_dec 0 y) as [P|P]; nra.
Qed.
Definition pzerob (a : zphi) : bool := (fst a =? 0)%Z && (snd a =? 0)%Z.
Definition pdiff (a : zphi) : bool := ppos a || ppos (psub (0, 0)%Z a).
Lemma pdiff_ok a : pdiff a = true -> ev a <> 0.
Proof.
  unfold pdiff. intros H. apply orb_prop in H. destruct H as [H|H]; apply ppos_ok in H; [lra|].
  rewrite ev_sub in H. unfold ev in H at 1. cbn [fst snd] in H. lra.
Qed.

(** Vectors of such numbers. *)
Definition zvec : Type := zphi * zphi * zphi.
Definition evv (v : zvec) : vec3 R := let '(x, y, z) := v in mkV3 (ev x) (ev y) (ev z).
Definition vplus (u v : zvec) : zvec := let '(x, y, z) := u in let '(x', y', z') := v in (padd x x', padd y y', padd z z').
Definition vdotz (u v : zvec) : zphi :=
  let '(x, y, z) := u in let '(x', y', z') := v in padd (padd (pmul x x') (pmul y y')) (pmul z z').
Definition vdet (a b c : zvec) : zphi :=
  let '(ax, ay, az) := a in let '(bx, by_, bz) := b in let '(cx, cy, cz) := c in
  padd (psub (pmul ax (psub (pmul by_ cz) (pmul bz cy))) (pmul ay (psub (pmul bx cz) (pmul bz cx)))) (pmul az (psub (pmul bx cy) (pmul by_ cx))).
Lemma evv_dot u v : ev (vdotz u v) = dot3 (evv u) (evv v).
Proof. destruct u as [[a b] c], v as [[d e] f]. unfold vdotz, dot3, evv. cbn [v3x v3y v3z]. now rewrite !ev_add, !ev_mul. Qed.
Lemma evv_det u v w : ev (vdet u v w) = det3 (evv u) (evv v) (evv w).
Proof.
  destruct u as [[a b] c], v as [[d e] f], w as [[x y] z]. unfold vdet, det3, evv. cbn [v3x v3y v3z].
  now rewrite ev_add, ev_sub, !ev_mul, !ev_sub, !ev_mul.
Qed.

(** Vertices as multiples of such vectors. *)
Definition rawBase (i : nat) : zvec :=
  let o := (0, 0)%Z in let p := (1, 0)%Z in let m := (-1, 0)%Z in let t := (0, 1)%Z in let u := (0, -1)%Z in
  nth i [(m, t, o); (p, t, o); (m, u, o); (p, u, o); (o, m, t); (o, p, t); (o, m, u); (o, p, u); (t, o, m); (t, o, p); (u, o, m); (u, o, p)] (o, o, o).
Definition raw (s : spot) : zvec := match s with Base i => rawBase i | Mid i j => vplus (rawBase i) (rawBase j) end.
Definition rad : R := sqrt (1 + phi * phi).
Definition weight (s : spot) : R := match s with Base _ => / rad | Mid _ _ => / (2 * phi) end.
Definition times (w : R) (v : vec3 R) : vec3 R := mkV3 (w * v3x v) (w * v3y v) (w * v3z v).

Lemma rad_square : rad * rad = 1 + phi * phi.
Proof. apply sqrt_sqrt. pose proof phi_bounds. nra. Qed.
Lemma rad_bounds : 18 / 10 < rad < 194 / 100.
Proof.
  pose proof rad_square as S. rewrite phi_square in S. pose proof phi_bounds. assert (0 <= rad) by apply sqrt_pos.
  split; apply Rnot_le_lt; intros L.
  - assert (rad * rad <= 18 / 10 * (18 / 10)) by (apply Rmult_le_compat; lra). lra.
  - assert (194 / 100 * (194 / 100) <= rad * rad) by (apply Rmult_le_compat; lra). lra.
Qed.
Lemma weight_pos s : 0 < weight s.
Proof. pose proof phi_bounds. pose proof rad_bounds. destruct s; cbn; apply Rinv_0_lt_compat; lra. Qed.

Notation realNormalized := (normalized realNums realTrig realGens).
Lemma eps_small : / 2 ^ 52 < 1 / 2.
Proof.
  replace (1 / 2) with (/ 2) by field. apply Rinv_lt_contravar; [|]; cbn; lra.
Qed.
Lemma normalized_eq v l : 1 / 2 <= l -> l * l = dot3 v v -> realNormalized v = times (/ l) v.
Proof.
  intros Hl Hd. unfold normalized, magnitude. cbn [realTrig ksqrt realNums nadd nmul ndiv nlt realGens geps].
  assert (E : sqrt (v3x v * v3x v + v3y v * v3y v + v3z v * v3z v) = l).
  { fold (dot3 v v). rewrite <- Hd. apply sqrt_square. lra. }
  rewrite E. pose proof eps_small. destruct (Rlt_dec (/ 2 ^ 52) l); [|lra]. unfold times, Rdiv.
  rewrite !(Rmult_comm (/ l)). reflexivity.
Qed.

Lemma cons_eq {A} (a b : A) l m : a = b -> l = m -> a :: l = b :: m.
Proof. congruence. Qed.
Lemma real_vertices : vertexList realNums realTrig realGens = map (fun i => times (/ rad) (evv (rawBase i))) (seq 0 12).
Proof.
  unfold vertexList. cbn [map seq]. change (golden realNums realTrig realGens) with phi. pose proof rad_bounds. pose proof rad_square as S.
  cbn [realNums realTrig kone nzero nsub].
  rewrite !(fun v H => normalized_eq v rad (Rlt_le _ _ (Rlt_trans _ _ _ H (proj1 rad_bounds)))) by
    (try lra; unfold dot3; cbn [v3x v3y v3z]; rewrite S; ring).
  unfold rawBase. cbn [nth evv]. unfold ev. cbn [fst snd].
  repeat (apply cons_eq; [apply vec3_eq; cbn [v3x v3y v3z times]; ring|]). reflexivity.
Qed.

Definition goodSpot (s : spot) : bool :=
  match s with
  | Base i => (i <? 12)%nat
  | Mid i j => (i <? 12)%nat && (j <? 12)%nat && pzerob (psub (vdotz (raw s) (raw s)) (4, 4)%Z)
  end.
Notation realSpot := (spotAt realNums realTrig realGens (vertexList realNums realTrig realGens)).
Lemma evv_plus u v : evv (vplus u v) = mkV3 (v3x (evv u) + v3x (evv v)) (v3y (evv u) + v3y (evv v)) (v3z (evv u) + v3z (evv v)).
Proof. destruct u as [[a b] c], v as [[d e] f]. cbn [vplus evv v3x v3y v3z]. now rewrite !ev_add. Qed.
Lemma real_nth i : (i < 12)%nat -> nth i (vertexList realNums realTrig realGens) (vzero realNums) = times (/ rad) (evv (rawBase i)).
Proof.
  intros H. rewrite real_vertices. 
  rewrite (nth_indep _ _ (times (/ rad) (evv (rawBase 0)))) by (rewrite map_length, seq_length; exact H).
  rewrite (map_nth (fun i => times (/ rad) (evv (rawBase i)))), seq_nth by exact H. reflexivity.
Qed.
Lemma pzero_ok a : pzerob a = true -> ev a = 0.
Proof. unfold pzerob, ev. intros H. apply andb_prop in H. destruct H as (A & B). apply Z.eqb_eq in A, B. rewrite A, B. ring. Qed.
Lemma real_spot s : goodSpot s = true -> realSpot s = times (weight s) (evv (raw s)).
Proof.
  intros H. destruct s as [i|i j]; cbn [goodSpot spotAt weight] in *.
  - apply Nat.ltb_lt in H. now apply real_nth.
  - apply andb_prop in H. destruct H as (H & N). apply andb_prop in H. destruct H as (A & B). apply Nat.ltb_lt in A, B.
    rewrite !real_nth by assumption. apply pzero_ok in N. rewrite ev_sub, evv_dot in N.
    assert (E4 : ev (4, 4)%Z = 4 * (phi * phi)) by (rewrite phi_square; unfold ev; cbn [fst snd]; ring). rewrite E4 in N.
    unfold middleOf. cbn [realNums nadd ndiv realGens gint times v3x v3y v3z]. cbn [raw] in *. rewrite evv_plus in *.
    unfold dot3 in N. cbn [v3x v3y v3z] in N. pose proof rad_bounds. pose proof phi_bounds. pose proof rad_square as S.
    rewrite (normalized_eq _ (phi / rad)).
    + apply vec3_eq; cbn [times v3x v3y v3z]; field; lra.
    + apply Rmult_le_reg_r with rad; [lra|]. unfold Rdiv. rewrite (Rmult_assoc phi), Rinv_l by lra. lra.
    + unfold dot3. cbn [v3x v3y v3z]. apply Rmult_eq_reg_r with (4 * (rad * rad)); [|nra].
      match goal with |- ?l = ?r => replace l with (4 * (phi * phi)) by (field; lra) end.
      transitivity (4 * (phi * phi)); [reflexivity|].
      match type of N with ?a - _ = 0 => transitivity a; [lra|] end. field. lra.
Qed.

Lemma good_sphere : forallb (fun '(a, b, c) => goodSpot a && goodSpot b && goodSpot c) (spotFaces sphereFaces) = true.
Proof. vm_compute. reflexivity. Qed.
Lemma good_semi : forallb (fun '(a, b, c) => goodSpot a && goodSpot b && goodSpot c) (spotFaces semiSphereFaces) = true.
Proof. vm_compute. reflexivity. Qed.
Lemma outward_sphere : forallb (fun '(a, b, c) => ppos (vdet (raw a) (raw b) (raw c))) (spotFaces sphereFaces) = true.
Proof. vm_compute. reflexivity. Qed.

Lemma spot_unit s : goodSpot s = true -> dot3 (realSpot s) (realSpot s) = 1.
Proof.
  intros H. rewrite (real_spot s H). pose proof rad_bounds. pose proof phi_bounds. pose proof rad_square as S.
  assert (N : dot3 (evv (raw s)) (evv (raw s)) = / (weight s * weight s)).
  { destruct s as [i|i j]; cbn [goodSpot weight] in *.
    - apply Nat.ltb_lt in H. rewrite <- evv_dot.
      assert (E : vdotz (rawBase i) (rawBase i) = (2, 1)%Z) by (do 12 (destruct i as [|i]; [reflexivity|]); lia).
      cbn [raw]. rewrite E. unfold ev. cbn [fst snd]. rewrite <- Rinv_mult, Rinv_inv, S, phi_square. ring.
    - apply andb_prop in H. destruct H as (_ & N). apply pzero_ok in N. rewrite ev_sub, evv_dot in N.
      assert (E4 : ev (4, 4)%Z = 4 * (phi * phi)) by (rewrite phi_square; unfold ev; cbn [fst snd]; ring). rewrite E4 in N.
      rewrite <- Rinv_mult, Rinv_inv. lra. }
  pose proof (weight_pos s). unfold dot3 in *. cbn [times v3x v3y v3z].
  match goal with |- ?l = 1 => replace l with (weight s * weight s * (v3x (evv (raw s)) * v3x (evv (raw s)) + v3y (evv (raw s)) * v3y (evv (raw s)) +
      v3z (evv (raw s)) * v3z (evv (raw s)))) by ring end.
  rewrite N. field. lra.
Qed.

Notation realCorner c s := (corner realNums (fun v => v) c s).
Lemma corner_on c s v : positive s -> dot3 v v = 1 -> onEllipsoid c s (realCorner c s v).
Proof.
  intros (A & B & C) H. unfold onEllipsoid, corner, vadd. cbn [realNums nadd nmul v3x v3y v3z]. unfold dot3 in H. rewrite <- H.
  field. repeat split; lra.
Qed.
Lemma det_corner c s a b d : det3 (vsub (realCorner c s a) c) (vsub (realCorner c s b) c) (vsub (realCorner c s d) c) =
  v3x s * v3y s * v3z s * det3 a b d.
Proof. unfold det3, vsub, corner, vadd. cbn [realNums nadd nmul v3x v3y v3z]. ring. Qed.
Lemma det_times p q r a b c : det3 (times p a) (times q b) (times r c) = p * q * r * det3 a b c.
Proof. unfold det3, times. cbn [v3x v3y v3z]. ring. Qed.
Lemma sphere_outward c s a b d : positive s -> In (a, b, d) (spotFaces sphereFaces) ->
  outward c (realCorner c s (realSpot a), realCorner c s (realSpot b), realCorner c s (realSpot d)).
Proof.
  intros (A & B & C) H.
  pose proof (proj1 (forallb_forall _ _) good_sphere _ H) as G. cbn beta iota in G.
  apply andb_prop in G. destruct G as (G & Gd). apply andb_prop in G. destruct G as (Ga & Gb).
  pose proof (proj1 (forallb_forall _ _) outward_sphere _ H) as P. cbn beta iota in P. apply ppos_ok in P. rewrite evv_det in P.
  cbn [outward]. rewrite det_corner, !real_spot by assumption. rewrite det_times.
  pose proof (weight_pos a). pose proof (weight_pos b). pose proof (weight_pos d).
  repeat apply Rmult_lt_0_compat; assumption.
Qed.

(** Different places. *)
Definition crossz (u v : zvec) : zvec :=
  let '(x, y, z) := u in let '(x', y', z') := v in
  (psub (pmul y z') (pmul z y'), psub (pmul z x') (pmul x z'), psub (pmul x y') (pmul y x')).
Definition apart (a b : zvec) : bool :=
  let '(x, y, z) := crossz a b in pdiff x || pdiff y || pdiff z || ppos (psub (0, 0)%Z (vdotz a b)).
Lemma apart_ok a b p q : apart a b = true -> 0 < p -> 0 < q -> times p (evv a) <> times q (evv b).
Proof.
  unfold apart. intros H Hp Hq E. 
  destruct a as [[x y] z], b as [[x' y'] z']. cbn [crossz] in H.
  unfold times in E. cbn [evv v3x v3y v3z] in E. injection E as E1 E2 E3.
  assert (X : ev x = q / p * ev x') by (apply Rmult_eq_reg_l with p; [|lra]; rewrite E1; field; lra).
  assert (Y : ev y = q / p * ev y') by (apply Rmult_eq_reg_l with p; [|lra]; rewrite E2; field; lra).
  assert (Z : ev z = q / p * ev z') by (apply Rmult_eq_reg_l with p; [|lra]; rewrite E3; field; lra).
  assert (W : 0 < q / p) by (apply Rdiv_lt_0_compat; assumption).
  apply orb_prop in H. destruct H as [H|H]; [apply orb_prop in H; destruct H as [H|H]; [apply orb_prop in H; destruct H as [H|H]|]|].
  1-3: apply pdiff_ok in H; rewrite ev_sub, !ev_mul, ?X, ?Y, ?Z in H; apply H; ring.
  apply ppos_ok in H. rewrite ev_sub, evv_dot in H. unfold ev in H at 1. cbn [fst snd] in H.
  unfold dot3 in H. cbn [evv v3x v3y v3z] in H. rewrite X, Y, Z in H.
  assert (0 <= q / p * (ev x' * ev x' + ev y' * ev y' + ev z' * ev z')) by (apply Rmult_le_pos; [lra|nra]). lra.
Qed.
Fixpoint allApart (l : list spot) : bool :=
  match l with [] => true | a :: l' => forallb (fun b => apart (raw a) (raw b)) l' && allApart l' end.
Lemma sphere_apart : allApart (spots sphereFaces) = true.
Proof. vm_compute. reflexivity. Qed.
Lemma allApart_in l a b : allApart l = true -> Forall (fun s => goodSpot s = true) l -> In a l -> In b l -> realSpot a = realSpot b -> a = b.
Proof.
  induction l as [|c l IH]; [easy|]. cbn [allApart]. intros H F Ha Hb E. apply andb_prop in H. destruct H as (H & H').
  inversion_clear F as [|? ? Gc F']. rewrite forallb_forall in H. rewrite Forall_forall in F'.
  pose proof weight_pos as W.
  destruct Ha as [<-|Ha], Hb as [<-|Hb]; [easy| | |apply IH; try assumption; now apply Forall_forall].
  - rewrite !real_spot in E by auto. exfalso. exact (apart_ok _ _ _ _ (H b Hb) (W c) (W b) E).
  - rewrite !real_spot in E by auto. exfalso. exact (apart_ok _ _ _ _ (H a Ha) (W c) (W a) (eq_sym E)).
Qed.
Lemma corner_inj c s u v : positive s -> realCorner c s u = realCorner c s v -> u = v.
Proof.
  intros (A & B & C) E. unfold corner, vadd in E. cbn [realNums nadd nmul v3x v3y v3z] in E. injection E as E1 E2 E3.
  apply vec3_eq; [apply Rmult_eq_reg_r with (v3x s)|apply Rmult_eq_reg_r with (v3y s)|apply Rmult_eq_reg_r with (v3z s)]; lra.
Qed.

Lemma NoDup_map_in {A B} (f : A -> B) l : (forall a b, In a l -> In b l -> f a = f b -> a = b) -> NoDup l -> NoDup (map f l).
Proof.
  induction l as [|a l IH]; cbn [map]; intros H N; [constructor|]. inversion_clear N as [|? ? N1 N2]. constructor.
  - intros I. apply in_map_iff in I. destruct I as (b & E & Hb). apply N1. rewrite (H a b); auto; [now left|now right].
  - apply IH; [|assumption]. intros x y Hx Hy. apply H; now right.
Qed.
Fixpoint nodupb (l : list (spot * spot)) : bool :=
  match l with [] => true | a :: l' => negb (existsb (sideEqb a) l') && nodupb l' end.
Lemma spotEqb_refl a : spotEqb a a = true.
Proof. destruct a; cbn; now rewrite ?Nat.eqb_refl. Qed.
Lemma nodupb_ok l : nodupb l = true -> NoDup l.
Proof.
  induction l as [|a l IH]; cbn; [constructor|]. intros H. apply andb_prop in H. destruct H as (A & B). constructor; [|auto].
  intros I. apply Bool.negb_true_iff in A. assert (existsb (sideEqb a) l = true).
  { apply existsb_exists. exists a. split; [exact I|]. unfold sideEqb. now rewrite !spotEqb_refl. }
  congruence.
Qed.
Lemma sphere_once : nodupb (allSides (spotFaces sphereFaces)) = true.
Proof. vm_compute. reflexivity. Qed.
Lemma sphere_spots : (let l := spots sphereFaces in
  forallb (fun s => existsb (spotEqb (fst s)) l && existsb (spotEqb (snd s)) l) (allSides (spotFaces sphereFaces))) = true.
Proof. vm_compute. reflexivity. Qed.
Lemma sphere_nodup c s : positive s ->
  NoDup (map (fun e => (realCorner c s (realSpot (fst e)), realCorner c s (realSpot (snd e)))) (allSides (spotFaces sphereFaces))).
Proof.
  intros P. apply NoDup_map_in; [|apply nodupb_ok, sphere_once].
  assert (G : Forall (fun s => goodSpot s = true) (spots sphereFaces)) by (apply Forall_forall, forallb_forall; vm_compute; reflexivity).
  assert (I : forall e, In e (allSides (spotFaces sphereFaces)) -> In (fst e) (spots sphereFaces) /\ In (snd e) (spots sphereFaces)).
  { intros e He. pose proof sphere_spots as X. cbv zeta in X. pose proof (proj1 (forallb_forall _ _) X _ He) as X'. clear X. rename X' into X. cbn beta in X. apply andb_prop in X.
    destruct X as (X & Y). apply existsb_exists in X, Y. destruct X as (x & X1 & X2), Y as (y & Y1 & Y2).
    apply spotEqb_ok in X2, Y2. rewrite X2, Y2. split; assumption. }
  intros [a b] [a' b'] H1 H2 E. cbn [fst snd] in E. apply pair_equal_spec in E. destruct E as (E1 & E2).
  apply I in H1, H2. cbn [fst snd] in H1, H2. destruct H1 as (A1 & B1), H2 as (A2 & B2). apply pair_equal_spec. split.
  - apply (allApart_in _ _ _ sphere_apart G A1 A2). apply (corner_inj c s); assumption.
  - apply (allApart_in _ _ _ sphere_apart G B1 B2). apply (corner_inj c s); assumption.
Qed.

(** Middles do not depend on the order of the two vertices. *)
Definition ordered (s : spot) : spot := match s with Mid i j => Mid (Nat.min i j) (Nat.max i j) | Base i => Base i end.
Lemma ordered_same s : realSpot (ordered s) = realSpot s.
Proof.
  destruct s as [i|i j]; [reflexivity|]. cbn [ordered spotAt]. destruct (Nat.le_ge_cases i j) as [L|L].
  - now rewrite (Nat.min_l _ _ L), (Nat.max_r _ _ L).
  - rewrite (Nat.min_r _ _ L), (Nat.max_l _ _ L). unfold middleOf. f_equal. cbn [realNums nadd ndiv]. apply vec3_eq; cbn [v3x v3y v3z]; f_equal; ring.
Qed.
Definition faceEqb (t u : spot * spot * spot) : bool :=
  let '(a, b, c) := t in let '(x, y, z) := u in
  spotEqb (ordered a) (ordered x) && spotEqb (ordered b) (ordered y) && spotEqb (ordered c) (ordered z).
Definition place (c s : vec3 R) (t : spot * spot * spot) : vec3 R * vec3 R * vec3 R :=
  let '(x, y, z) := t in (realCorner c s (realSpot x), realCorner c s (realSpot y), realCorner c s (realSpot z)).
Lemma faceEqb_ok c s t u : faceEqb t u = true -> place c s t = place c s u.
Proof.
  destruct t as [[a b] d], u as [[x y] z]. cbn [faceEqb place]. intros H. apply andb_prop in H. destruct H as (H & H3).
  apply andb_prop in H. destruct H as (H1 & H2). apply spotEqb_ok in H1, H2, H3.
  rewrite <- (ordered_same a), <- (ordered_same b), <- (ordered_same d), H1, H2, H3, !ordered_same. reflexivity.
Qed.
Lemma semi_faces : (let l := spotFaces sphereFaces in forallb (fun t => existsb (faceEqb t) l) (spotFaces semiSphereFaces)) = true.
Proof. vm_compute. reflexivity. Qed.
Definition pbelow (s : spot) : bool := let '(_, y, _) := raw s in pzerob y || ppos (psub (0, 0)%Z y).
Lemma other_faces : (let l := spotFaces semiSphereFaces in
  forallb (fun t => existsb (faceEqb t) l || let '(a, b, c) := t in pbelow a && pbelow b && pbelow c) (spotFaces sphereFaces)) = true.
Proof. vm_compute. reflexivity. Qed.
Lemma below_ok c s a : positive s -> goodSpot a = true -> pbelow a = true -> v3y (realCorner c s (realSpot a)) <= v3y c.
Proof.
  intros (_ & P & _) G B. unfold corner, vadd. cbn [realNums nadd nmul v3y]. rewrite (real_spot a G). unfold times. cbn [v3y].
  unfold pbelow in B. destruct (raw a) as [[x y] z]. cbn [evv v3y]. pose proof (weight_pos a) as W.
  assert (ev y <= 0).
  { apply orb_prop in B. destruct B as [B|B]; [apply pzero_ok in B; lra|]. apply ppos_ok in B. rewrite ev_sub in B.
    unfold ev in B at 1. cbn [fst snd] in B. lra. }
  assert (0 <= weight a * - ev y) by (apply Rmult_le_pos; lra).
  assert (0 <= weight a * - ev y * v3y s) by (apply Rmult_le_pos; lra). lra.
Qed.
