(** Proofs about the text of gradients. *)
From Coq Require Import QArith String.
From Verif Require Import Base Bytes BytesProofs Peg JsonModel StyleModel ColorModel ColorSpec GradientModel GradientSpec.
From Verif Require ColorProps.
Local Open Scope nat_scope.

(** * Classes of characters *)
Lemma isDigit_spec c : isDigit c = true <-> digit c.
Proof. unfold isDigit, digit. rewrite Bool.andb_true_iff, !N.leb_le. reflexivity. Qed.
Lemma isLetter_spec c : isLetter c = true <-> letter c.
Proof. unfold isLetter, letter. rewrite Bool.orb_true_iff, !Bool.andb_true_iff, !N.leb_le. reflexivity. Qed.
Lemma isHex_spec c : isHex c = true <-> hexDigit c.
Proof.
  unfold isHex, hexDigit, digitValue, isDigit.
  destruct (N.leb_spec 48 c), (N.leb_spec c 57), (N.leb_spec 65 c), (N.leb_spec c 70), (N.leb_spec 97 c), (N.leb_spec c 102);
    cbn; split; intros; try congruence; try lia.
Qed.
Lemma isSpace_spec c : isSpace c = true <-> space c.
Proof. unfold isSpace, space. rewrite Bool.orb_true_iff, Bool.andb_true_iff, !N.leb_le, N.eqb_eq. reflexivity. Qed.
Lemma spec_false (f : N -> bool) (P : N -> Prop) (H : forall c, f c = true <-> P c) c : f c = false <-> ~ P c.
Proof. rewrite <- H. destruct (f c); split; congruence. Qed.
Lemma class_forall (f : N -> bool) (P : N -> Prop) (H : forall c, f c = true <-> P c) s : Forall P s <-> Forall (fun c => f c = true) s.
Proof. split; apply Forall_impl; intros c; apply H. Qed.
Lemma hex_not_space c : isHex c = true -> isSpace c = false.
Proof.
  unfold isHex, isDigit, isSpace. intros H. destruct (N.eqb_spec c 32) as [->|]; [discriminate|].
  destruct (N.leb_spec 9 c), (N.leb_spec c 13); try reflexivity.
  destruct (N.leb_spec 48 c), (N.leb_spec 65 c), (N.leb_spec 97 c); lia.
Qed.

(** * The first match *)
Definition first (a : matcher) (s : bytes) : option bytes := hd_error (a s).
Lemma first_seq a b s x y : first a s = Some x -> first b x = Some y -> first (mseq a b) s = Some y.
Proof.
  unfold first, mseq. destruct (a s) as [|z l]; [discriminate|]. cbn [hd_error flat_map]. intros [= ->].
  destruct (b x) as [|w k]; [discriminate|]. cbn. auto.
Qed.
Lemma first_alt a b s : first (malt a b) s = match first a s with Some x => Some x | None => first b s end.
Proof. unfold first, malt. now destruct (a s). Qed.
Lemma first_none a s : first a s = None <-> a s = [].
Proof. unfold first. destruct (a s); cbn; split; congruence. Qed.
Lemma first_opt a s : first (mopt a) s = Some match first a s with Some x => x | None => s end.
Proof. unfold first, mopt. now destruct (a s). Qed.
Lemma first_char f c s : f c = true -> first (mchar f) (c :: s) = Some s.
Proof. unfold first, mchar. now intros ->. Qed.
Lemma seq_nil a b s : a s = [] -> mseq a b s = [].
Proof. unfold mseq. now intros ->. Qed.
Lemma seq_none a b s : (forall x, In x (a s) -> b x = []) -> mseq a b s = [].
Proof. unfold mseq. induction (a s) as [|x l IH]; [reflexivity|]. intros H. cbn [flat_map]. rewrite H by now left. apply IH. intros y Hy. apply H. now right. Qed.
Lemma seq_one a b s x : a s = [x] -> mseq a b s = b x.
Proof. unfold mseq. intros ->. apply app_nil_r. Qed.
Lemma mlit_app l s : mlit l (l ++ s) = [s].
Proof. induction l as [|c l IH]; [reflexivity|]. cbn [mlit app]. rewrite (seq_one _ _ _ (l ++ s)); [exact IH|]. cbn. now rewrite N.eqb_refl. Qed.

Definition noHead (f : N -> bool) (r : bytes) : Prop := match r with c :: _ => f c = false | [] => True end.

Lemma mtimes_app f p r : Forall (fun c => f c = true) p -> mtimes (length p) (mchar f) (p ++ r) = [r].
Proof.
  induction p as [|c p IH]; intros H; [reflexivity|]. apply Forall_cons_iff in H as [H1 H2].
  cbn [length app mtimes]. rewrite (seq_one _ _ _ (p ++ r)); [now apply IH|]. cbn. now rewrite H1.
Qed.
Lemma mupto_app f n : forall p r, Forall (fun c => f c = true) p -> length p <= n -> (length p < n -> noHead f r) ->
  first (mupto n (mchar f)) (p ++ r) = Some r.
Proof.
  induction n as [|n IH]; intros p r H L N.
  - destruct p; [reflexivity|cbn in L; lia].
  - destruct p as [|c p].
    + unfold first. cbn [app mupto]. cbn [length] in N. specialize (N ltac:(lia)). rewrite seq_nil; [reflexivity|].
      destruct r as [|d r]; [reflexivity|]. cbn in *. now rewrite N.
    + apply Forall_cons_iff in H as [H1 H2]. cbn [length] in *. unfold first. cbn [app mupto].
      pose proof (first_seq (mchar f) (mupto n (mchar f)) (c :: p ++ r) (p ++ r) r (first_char f c _ H1)
                    (IH p r H2 ltac:(lia) ltac:(intros; apply N; lia))) as F.
      unfold first in F. destruct (mseq (mchar f) (mupto n (mchar f)) (c :: p ++ r)); [discriminate|exact F].
Qed.
Lemma mrange_app f n m p r : Forall (fun c => f c = true) p -> n <= length p <= m -> (length p < m -> noHead f r) ->
  first (mrange n m (mchar f)) (p ++ r) = Some r.
Proof.
  intros H L N. rewrite <- (firstn_skipn n p) in H |- *. apply Forall_app in H as [H1 H2]. rewrite <- app_assoc.
  apply (first_seq _ _ _ (skipn n p ++ r)).
  - unfold first. assert (E : length (firstn n p) = n) by (apply firstn_length_le; lia). rewrite <- E at 1. now rewrite mtimes_app.
  - apply mupto_app; auto; rewrite skipn_length; [lia|intros; apply N; lia].
Qed.
(** What may be left behind a run: the rest of the run with what follows. *)
Lemma mtimes_in f n : forall s x, In x (mtimes n (mchar f) s) -> exists p, length p = n /\ Forall (fun c => f c = true) p /\ s = p ++ x.
Proof.
  induction n as [|n IH]; intros s x H.
  - destruct H as [<-|[]]. exists []. auto.
  - cbn [mtimes] in H. unfold mseq in H. apply in_flat_map in H as (y & Hy & Hx). destruct s as [|c s]; [contradiction|].
    cbn in Hy. destruct (f c) eqn:E; [|contradiction]. destruct Hy as [<-|[]]. destruct (IH _ _ Hx) as (p & Lp & Hp & ->).
    exists (c :: p). cbn. auto.
Qed.
Lemma mupto_in f n : forall s x, In x (mupto n (mchar f) s) -> exists p, length p <= n /\ Forall (fun c => f c = true) p /\ s = p ++ x.
Proof.
  induction n as [|n IH]; intros s x H.
  - destruct H as [<-|[]]. exists []. auto.
  - cbn [mupto] in H. apply in_app_or in H as [H|[<-|[]]].
    + unfold mseq in H. apply in_flat_map in H as (y & Hy & Hx). destruct s as [|c s]; [contradiction|].
      cbn in Hy. destruct (f c) eqn:E; [|contradiction]. destruct Hy as [<-|[]]. destruct (IH _ _ Hx) as (p & Lp & Hp & ->).
      exists (c :: p). cbn. split; [lia|auto].
    + exists []. cbn. split; [lia|auto].
Qed.
Lemma mrange_in f n m s x : n <= m -> In x (mrange n m (mchar f) s) ->
  exists p, n <= length p <= m /\ Forall (fun c => f c = true) p /\ s = p ++ x.
Proof.
  intros L H. unfold mrange, mseq in H. apply in_flat_map in H as (y & Hy & Hx).
  apply mtimes_in in Hy as (p & Lp & Hp & ->). apply mupto_in in Hx as (q & Lq & Hq & ->).
  exists (p ++ q). rewrite app_length, Forall_app, app_assoc. split; [lia|auto].
Qed.
Lemma many_in g f n : forall s x, In x (many g (mchar f) n s) -> exists p, Forall (fun c => f c = true) p /\ s = p ++ x.
Proof.
  induction n as [|n IH]; intros s x H; [contradiction|].
  assert (K : In x (mseq (mchar f) (many g (mchar f) n) s) \/ x = s).
  { cbn [many] in H. destruct g; [apply in_app_or in H as [H|[<-|[]]]; auto|destruct H as [<-|H]; auto]. }
  destruct K as [K| ->]; [|exists []; auto].
  unfold mseq in K. apply in_flat_map in K as (y & Hy & Hx). destruct s as [|c s]; [contradiction|].
  cbn in Hy. destruct (f c) eqn:E; [|contradiction]. destruct Hy as [<-|[]]. destruct (IH _ _ Hx) as (p & Hp & ->).
  exists (c :: p). cbn. auto.
Qed.
(** Fuel of loops: any amount above the length of the text gives the same. *)
Lemma many_fuel g (a : matcher) (A : forall s r, In r (a s) -> length r < length s) f :
  forall f' s, length s < f -> length s < f' -> many g a f s = many g a f' s.
Proof.
  induction f as [|f IH]; intros [|f'] s L L'; try lia. cbn [many].
  assert (E : mseq a (many g a f) s = mseq a (many g a f') s).
  { unfold mseq. rewrite !flat_map_concat_map. f_equal. apply map_ext_in. intros x Hx. apply A in Hx. apply IH; lia. }
  now rewrite E.
Qed.
Lemma many_app f n : forall p r, Forall (fun c => f c = true) p -> noHead f r -> length p < n ->
  first (many true (mchar f) n) (p ++ r) = Some r.
Proof.
  induction n as [|n IH]; intros p r H N L; [lia|]. unfold first. cbn [many]. destruct p as [|c p].
  - rewrite seq_nil; [reflexivity|]. destruct r as [|d r]; [reflexivity|]. cbn in *. now rewrite N.
  - apply Forall_cons_iff in H as [H1 H2]. cbn [length] in L. cbn [app].
    pose proof (first_seq (mchar f) (many true (mchar f) n) (c :: p ++ r) (p ++ r) r (first_char f c _ H1)
                  (IH p r H2 N ltac:(lia))) as F.
    unfold first in F. destruct (mseq (mchar f) (many true (mchar f) n) (c :: p ++ r)); [discriminate|exact F].
Qed.
Lemma mstar_app f p r : Forall (fun c => f c = true) p -> noHead f r -> first (mstar true (mchar f)) (p ++ r) = Some r.
Proof. intros H N. unfold first, mstar. apply many_app; auto. rewrite app_length. lia. Qed.
Lemma mplus_app f p r : p <> [] -> Forall (fun c => f c = true) p -> noHead f r -> first (mplus true (mchar f)) (p ++ r) = Some r.
Proof.
  intros E H N. destruct p as [|c p]; [congruence|]. apply Forall_cons_iff in H as [H1 H2].
  apply (first_seq _ _ _ (p ++ r)); [now apply first_char|]. now apply mstar_app.
Qed.
Lemma flat_map_none {A B} (f : A -> list B) l : (forall x, In x l -> f x = []) -> flat_map f l = [].
Proof. induction l as [|x l IH]; [reflexivity|]. intros H. cbn. rewrite H by now left. apply IH. intros. apply H. now right. Qed.

(** * The alternatives *)
Definition hexTail : matcher := mseq (mchar isSpace) (mseq (mrange 1 3 (mchar isDigit)) (mchar isUnit)).
Definition nameTail : matcher :=
  mseq (mchar isSpace) (mseq (mrange 1 3 (mchar isDigit)) (mseq (mstar true (mchar isSpace)) (mopt (mchar isUnit)))).

Lemma quiet_nomatch c s : isLetter c = false -> c <> 35%N -> gradientRegEx (c :: s) = [].
Proof.
  intros H1 H2. assert (H3 : N.eqb 114 c = false).
  { apply N.eqb_neq. intros <-. discriminate. }
  unfold gradientRegEx, malt, reRgb, reHexTime, reHex, reName, mplus, mseq.
  change (str "rgb") with [114; 103; 98]%N. cbn [mlit mchar mseq flat_map]. unfold mseq. cbn [mchar]. rewrite H3, H1.
  replace (N.eqb 35 c) with false by (symmetry; apply N.eqb_neq; congruence). reflexivity.
Qed.
Lemma nil_nomatch : gradientRegEx [] = [].
Proof. reflexivity. Qed.

Lemma letter_not_hash c : isLetter c = true -> c <> 35%N.
Proof. intros H ->. discriminate. Qed.

(** A # with at least three digits is a match, with the longest run up to six. *)
Lemma hex_first h b : 3 <= length h <= 6 -> Forall (fun c => isHex c = true) h -> (length h < 6 -> noHead isHex b) ->
  first gradientRegEx (35%N :: h ++ b) = Some match first hexTail b with Some r => r | None => b end.
Proof.
  intros L H N. unfold gradientRegEx. rewrite first_alt.
  assert (E1 : first reRgb (35%N :: h ++ b) = None) by reflexivity. rewrite E1, first_alt.
  assert (E2 : first reHex (35%N :: h ++ b) = Some b).
  { apply (first_seq _ _ _ (h ++ b)); [reflexivity|]. now apply mrange_app. }
  destruct (first hexTail b) as [r|] eqn:E.
  - assert (E3 : first reHexTime (35%N :: h ++ b) = Some r) by exact (first_seq _ _ _ b r E2 E). now rewrite E3.
  - assert (E3 : reHexTime (35%N :: h ++ b) = []).
    { apply seq_none. intros x Hx. unfold reHex in Hx. rewrite (seq_one _ _ _ (h ++ b)) in Hx by reflexivity.
      assert (K : In x [b] \/ exists c x', x = c :: x' /\ isHex c = true).
      { apply mrange_in in Hx as (p & Lp & Hp & Ex); [|lia].
        destruct (Nat.lt_trichotomy (length p) (length h)) as [K|[K|K]].
        - right. exists (nth (length p) h 0%N), (skipn (S (length p)) h ++ b). split.
          + assert (E4 : x = skipn (length p) (h ++ b)) by (rewrite Ex, skipn_app, skipn_all, Nat.sub_diag; reflexivity).
            rewrite E4, skipn_app. replace (length p - length h) with 0 by lia. cbn [skipn].
            clear - K. revert p K. induction h as [|c h IH]; intros p K; [cbn in K; lia|].
            destruct p as [|d p]; [reflexivity|]. cbn [length skipn nth]. apply IH. cbn in K. lia.
          + rewrite Forall_forall in H. apply H, nth_In. exact K.
        - left. left. apply app_inv_head with p. rewrite <- Ex. f_equal.
          assert (E4 : firstn (length p) (h ++ b) = firstn (length p) (p ++ x)) by now rewrite Ex.
          rewrite K in E4 at 1. rewrite !firstn_app, !firstn_all, !Nat.sub_diag in E4. cbn in E4. now rewrite !app_nil_r in E4.
        - exfalso. specialize (N ltac:(lia)). assert (E4 : nth_error (h ++ b) (length h) = nth_error (p ++ x) (length h)) by now rewrite Ex.
          rewrite nth_error_app2, Nat.sub_diag in E4 by lia. rewrite nth_error_app1 in E4 by lia.
          destruct b as [|d b]; cbn in E4.
          + symmetry in E4. apply nth_error_None in E4. lia.
          + symmetry in E4. apply nth_error_In in E4. rewrite Forall_forall in Hp. apply Hp in E4. cbn in N. congruence. }
      destruct K as [[<-|[]]|(c & x' & -> & Hc)]; [now apply first_none|].
      unfold hexTail, mseq. cbn [mchar]. now rewrite (hex_not_space _ Hc). }
    apply first_none in E3. rewrite E3, first_alt, E2. reflexivity.
Qed.

Lemma run_cases (f : N -> bool) m : forall t, exists h b, t = h ++ b /\ length h <= m /\ Forall (fun c => f c = true) h /\ (length h < m -> noHead f b).
Proof.
  induction m as [|m IH]; intros t; [exists [], t; cbn; repeat split; auto; lia|].
  destruct t as [|c t]; [exists [], []; cbn; repeat split; auto; lia|].
  destruct (f c) eqn:E.
  - destruct (IH t) as (h & b & -> & L & H & N). exists (c :: h), b. cbn [length]. repeat split; auto; [lia|intros; apply N; lia].
  - exists [], (c :: t). cbn. repeat split; auto; lia.
Qed.
Lemma run_whole (f : N -> bool) : forall t, exists h b, t = h ++ b /\ Forall (fun c => f c = true) h /\ noHead f b.
Proof.
  intros t. destruct (run_cases f (S (length t)) t) as (h & b & E & L & H & N). exists h, b. repeat split; auto. apply N.
  rewrite E, app_length. lia.
Qed.
Lemma run_prefix (f : N -> bool) : forall p h x b, p ++ x = h ++ b -> Forall (fun c => f c = true) p -> noHead f b -> exists q, h = p ++ q /\ x = q ++ b.
Proof.
  induction p as [|c p IH]; intros h x b E H N; [exists h; auto|].
  apply Forall_cons_iff in H as [H1 H2]. destruct h as [|d h].
  - cbn in E. destruct b as [|d b]; [discriminate|]. injection E as -> _. cbn in N. congruence.
  - cbn in E. injection E as -> E. destruct (IH _ _ _ E H2 N) as (q & -> & ->). exists q. auto.
Qed.

(** ** What a match eats *)
Definition eats (P : N -> Prop) (a : matcher) : Prop := forall s r, In r (a s) -> exists p, s = p ++ r /\ Forall P p.
Definition eats1 (Q P : N -> Prop) (a : matcher) : Prop :=
  forall s r, In r (a s) -> exists c p, s = c :: p ++ r /\ Q c /\ Forall P p.
Lemma eats_char (P : N -> Prop) f : (forall c, f c = true -> P c) -> eats P (mchar f).
Proof. intros H s r K. destruct s as [|c s]; [contradiction|]. cbn in K. destruct (f c) eqn:E; [|contradiction]. destruct K as [<-|[]]. exists [c]. auto. Qed.
Lemma eats_seq (P : N -> Prop) a b : eats P a -> eats P b -> eats P (mseq a b).
Proof.
  intros A B s r H. unfold mseq in H. apply in_flat_map in H as (y & Hy & Hx).
  destruct (A _ _ Hy) as (p & -> & Hp). destruct (B _ _ Hx) as (q & -> & Hq). exists (p ++ q). rewrite app_assoc, Forall_app. auto.
Qed.
Lemma eats1_seq (Q P : N -> Prop) a b : eats1 Q P a -> eats P b -> eats1 Q P (mseq a b).
Proof.
  intros A B s r H. unfold mseq in H. apply in_flat_map in H as (y & Hy & Hx).
  destruct (A _ _ Hy) as (c & p & -> & Hc & Hp). destruct (B _ _ Hx) as (q & -> & Hq). exists c, (p ++ q).
  rewrite <- app_assoc, Forall_app. auto.
Qed.
Lemma eats_opt (P : N -> Prop) a : eats P a -> eats P (mopt a).
Proof. intros A s r H. apply in_app_or in H as [H|[<-|[]]]; [auto|]. exists []. auto. Qed.
Lemma eats_lit (P : N -> Prop) l : Forall P l -> eats P (mlit l).
Proof.
  induction l as [|c l IH]; intros H s r K.
  - destruct K as [<-|[]]. exists []. auto.
  - apply Forall_cons_iff in H as [H1 H2]. revert s r K. apply eats_seq; [|auto]. apply eats_char. intros d E. apply N.eqb_eq in E. now subst d.
Qed.
Lemma eats1_lit (Q P : N -> Prop) c l : Q c -> Forall P l -> eats1 Q P (mlit (c :: l)).
Proof.
  intros H1 H2. cbn [mlit]. intros s r K. unfold mseq in K. apply in_flat_map in K as (y & Hy & Hx).
  destruct s as [|d s]; [contradiction|]. cbn in Hy. destruct (N.eqb_spec c d) as [<-|]; [|contradiction]. destruct Hy as [<-|[]].
  destruct (eats_lit P l H2 _ _ Hx) as (p & -> & Hp). exists c, p. auto.
Qed.
Lemma eats_range (P : N -> Prop) n m f : n <= m -> (forall c, f c = true -> P c) -> eats P (mrange n m (mchar f)).
Proof. intros L H s r K. apply mrange_in in K as (p & _ & Hp & ->); [|exact L]. exists p. split; [reflexivity|]. eapply Forall_impl; [|exact Hp]. exact H. Qed.
Lemma eats_star (P : N -> Prop) g f : (forall c, f c = true -> P c) -> eats P (mstar g (mchar f)).
Proof. intros H s r K. apply many_in in K as (p & Hp & ->). exists p. split; [reflexivity|]. eapply Forall_impl; [|exact Hp]. exact H. Qed.
Lemma eats1_plus (Q P : N -> Prop) g f : (forall c, f c = true -> Q c) -> (forall c, f c = true -> P c) -> eats1 Q P (mplus g (mchar f)).
Proof.
  intros HQ H s r K. unfold mplus, mseq in K. apply in_flat_map in K as (y & Hy & Hx).
  destruct s as [|d s]; [contradiction|]. cbn in Hy. destruct (f d) eqn:E; [|contradiction]. destruct Hy as [<-|[]].
  destruct (eats_star P g f H _ _ Hx) as (p & -> & Hp). exists d, p. auto.
Qed.
Lemma eats_plus (P : N -> Prop) g f : (forall c, f c = true -> P c) -> eats P (mplus g (mchar f)).
Proof. intros H. apply eats_seq; [now apply eats_char|now apply eats_star]. Qed.

Definition noHash (c : N) : Prop := c <> 35%N.
Ltac nohash := let c := fresh in intros c; intros; unfold noHash; intros ->; discriminate.
Lemma rgb_eats : eats1 (fun c => isLetter c = true) noHash reRgb.
Proof.
  unfold reRgb. apply eats1_seq.
  - apply eats1_lit; [reflexivity|]. repeat constructor; discriminate.
  - apply eats_seq; [apply eats_opt, eats_lit; repeat constructor; discriminate|].
    apply eats_seq; [apply eats_lit; repeat constructor; discriminate|].
    apply eats_seq; [apply eats_plus; nohash|apply eats_lit; repeat constructor; discriminate].
Qed.
Lemma hexTail_eats : eats noHash hexTail.
Proof. apply eats_seq; [apply eats_char; nohash|]. apply eats_seq; [apply eats_range; [lia|nohash]|apply eats_char; nohash]. Qed.
Lemma nameTail_eats : eats noHash nameTail.
Proof.
  apply eats_seq; [apply eats_char; nohash|]. apply eats_seq; [apply eats_range; [lia|nohash]|].
  apply eats_seq; [apply eats_star; nohash|apply eats_opt, eats_char; nohash].
Qed.
Lemma hex_eats : eats1 (fun c => c = 35%N) noHash reHex.
Proof. apply eats1_seq; [apply eats1_lit; auto|apply eats_range; [lia|nohash]]. Qed.
Lemma name_eats : eats1 (fun c => isLetter c = true) noHash reName.
Proof. apply eats1_seq; [apply eats1_plus; [auto|nohash]|apply eats_opt, nameTail_eats]. Qed.
Lemma regex_eats : eats1 (fun c => isLetter c = true \/ c = 35%N) noHash gradientRegEx.
Proof.
  intros s r H. unfold gradientRegEx, malt in H. repeat (apply in_app_or in H as [H|H]).
  - destruct (rgb_eats _ _ H) as (c & p & E & Q & P). exists c, p. auto.
  - destruct (eats1_seq _ _ _ _ hex_eats hexTail_eats _ _ H) as (c & p & E & Q & P). exists c, p. auto.
  - destruct (hex_eats _ _ H) as (c & p & E & Q & P). exists c, p. auto.
  - destruct (name_eats _ _ H) as (c & p & E & Q & P). exists c, p. auto.
Qed.
Lemma first_in a s r : first a s = Some r -> In r (a s).
Proof. unfold first. destruct (a s); [discriminate|]. cbn. intros [= ->]. auto. Qed.

Lemma hex_none h b : length h < 3 -> Forall (fun c => isHex c = true) h -> noHead isHex b -> gradientRegEx (35%N :: h ++ b) = [].
Proof.
  intros L H N. assert (E : reHex (35%N :: h ++ b) = []).
  { unfold reHex. rewrite (seq_one _ _ _ (h ++ b)) by reflexivity.
    destruct (mrange 3 6 (mchar isHex) (h ++ b)) as [|x l] eqn:E; [reflexivity|]. exfalso.
    assert (K : In x (mrange 3 6 (mchar isHex) (h ++ b))) by (rewrite E; now left).
    apply mrange_in in K as (p & Lp & Hp & Ex); [|lia]. symmetry in Ex.
    destruct (run_prefix _ _ _ _ _ Ex Hp N) as (q & -> & _). rewrite app_length in L. lia. }
  unfold gradientRegEx, malt. replace (reHexTime (35%N :: h ++ b)) with (@nil bytes) by (symmetry; now apply seq_nil).
  rewrite E. reflexivity.
Qed.

(** ** Names *)
Lemma rgb_in s x : In x (reRgb s) -> exists sp y, s = str "rgb" ++ sp ++ 40%N :: y /\ (sp = [] \/ sp = [32%N]).
Proof.
  intros H. unfold reRgb in H. unfold mseq at 1 in H. apply in_flat_map in H as (s1 & H1 & H).
  apply (eats_lit (fun _ => True)) in H1 as H1'; [|repeat constructor].
  assert (E : s = str "rgb" ++ s1).
  { clear H1'. clear H. revert s H1. generalize (str "rgb"). intros l. induction l as [|c l IH]; intros s H1.
    - destruct H1 as [<-|[]]. reflexivity.
    - cbn [mlit] in H1. unfold mseq in H1. apply in_flat_map in H1 as (y & Hy & Hx). destruct s as [|d s]; [contradiction|].
      cbn in Hy. destruct (N.eqb_spec c d) as [<-|]; [|contradiction]. destruct Hy as [<-|[]]. cbn. f_equal. auto. }
  subst s. unfold mseq at 1 in H. apply in_flat_map in H as (s2 & H2 & H).
  unfold mseq at 1 in H. apply in_flat_map in H as (s3 & H3 & _).
  assert (E3 : s2 = 40%N :: s3).
  { destruct s2 as [|c s2]; [contradiction|]. cbn [mlit] in H3. unfold mseq in H3. cbn [mchar flat_map] in H3.
    destruct (N.eqb_spec 40 c) as [<-|]; [|contradiction]. cbn in H3. destruct H3 as [<-|[]]. reflexivity. }
  subst s2. unfold mopt in H2. apply in_app_or in H2 as [H2|[->|[]]].
  - destruct s1 as [|c s1]; [contradiction|]. cbn [mlit] in H2. unfold mseq in H2. cbn [mchar flat_map] in H2.
    destruct (N.eqb_spec 32 c) as [<-|]; [|contradiction]. cbn in H2. destruct H2 as [->|[]]. exists [32%N], s3. auto.
  - exists [], s3. auto.
Qed.
Lemma name_first n b : n <> [] -> Forall (fun c => isLetter c = true) n -> noHead isLetter b ->
  (n = str "rgb" -> forall sp y, b = sp ++ 40%N :: y -> sp = [] \/ sp = [32%N] -> False) ->
  first gradientRegEx (n ++ b) = Some match first nameTail b with Some r => r | None => b end.
Proof.
  intros E H N R. unfold gradientRegEx. rewrite first_alt.
  assert (E1 : first reRgb (n ++ b) = None).
  { apply first_none. destruct (reRgb (n ++ b)) as [|x l] eqn:K; [reflexivity|]. exfalso.
    assert (I : In x (reRgb (n ++ b))) by (rewrite K; now left). apply rgb_in in I as (sp & y & I & Hsp).
    assert (n = str "rgb" /\ b = sp ++ 40%N :: y) as [En Eb]; [|exact (R En sp y Eb Hsp)].
    assert (P : exists q, str "rgb" = n ++ q /\ b = q ++ sp ++ 40%N :: y).
    { apply (run_prefix isLetter); auto. destruct Hsp as [->| ->]; reflexivity. }
    destruct P as (q & P1 & P2). destruct q as [|c q]; [rewrite app_nil_r in P1; auto|]. exfalso.
    assert (L : isLetter c = true).
    { assert (F : forallb isLetter (str "rgb") = true) by reflexivity. rewrite P1, forallb_app in F.
      apply andb_prop in F as [_ F]. cbn in F. now apply andb_prop in F. }
    subst b. cbn in N. congruence. }
  rewrite E1, first_alt. assert (Hd : exists c n', n = c :: n') by (destruct n; [congruence|eauto]).
  destruct Hd as (c & n' & Hd).
  assert (Hc : N.eqb 35 c = false).
  { apply N.eqb_neq. intros <-. subst n. apply Forall_cons_iff in H as [H _]. discriminate. }
  assert (E2 : reHex (n ++ b) = []).
  { subst n. unfold reHex. apply seq_nil. cbn [app mlit]. apply seq_nil. unfold mchar. now rewrite Hc. }
  assert (E3 : first reHexTime (n ++ b) = None) by (apply first_none; now apply seq_nil).
  assert (E4 : first reHex (n ++ b) = None) by now apply first_none.
  rewrite E3, first_alt, E4. apply (first_seq _ _ _ b); [now apply mplus_app|]. apply first_opt.
Qed.

(** ** Times *)
Lemma tail_hex p u b : 1 <= length p <= 3 -> Forall (fun c => isDigit c = true) p -> isUnit u = true -> first hexTail (32%N :: p ++ u :: b) = Some b.
Proof.
  intros L H U. apply (first_seq _ _ _ (p ++ u :: b)); [reflexivity|]. apply (first_seq _ _ _ (u :: b)).
  - apply mrange_app; auto. intros _. cbn. destruct (isDigit u) eqn:D; [|reflexivity]. exfalso.
    unfold isDigit, isUnit in *. destruct (N.leb_spec 48 u), (N.leb_spec u 57); try discriminate.
    destruct (N.eqb_spec u 37), (N.eqb_spec u 124), (N.eqb_spec u 112), (N.eqb_spec u 120); lia.
  - now apply first_char.
Qed.
Lemma tail_name p sp b : 1 <= length p <= 3 -> Forall (fun c => isDigit c = true) p -> noHead isDigit (sp ++ b) ->
  Forall (fun c => isSpace c = true) sp -> noHead isSpace b ->
  first nameTail (32%N :: p ++ sp ++ b) = Some match b with c :: b' => if isUnit c then b' else b | [] => b end.
Proof.
  intros L H N S B. apply (first_seq _ _ _ (p ++ sp ++ b)); [reflexivity|]. apply (first_seq _ _ _ (sp ++ b)).
  - apply mrange_app; auto.
  - apply (first_seq _ _ _ b); [now apply mstar_app|]. rewrite first_opt. f_equal. destruct b as [|c b]; [reflexivity|]. unfold first. cbn.
    now destruct (isUnit c).
Qed.
Lemma tail_none (a : matcher) b : noTime b -> mseq (mchar isSpace) (mseq (mrange 1 3 (mchar isDigit)) a) b = [].
Proof.
  intros N. apply seq_none. intros x Hx. destruct b as [|c b]; [contradiction|]. cbn in Hx.
  destruct (isSpace c) eqn:S; [|contradiction]. destruct Hx as [<-|[]]. apply seq_nil.
  destruct (mrange 1 3 (mchar isDigit) b) as [|y l] eqn:K; [reflexivity|]. exfalso.
  assert (I : In y (mrange 1 3 (mchar isDigit) b)) by (rewrite K; now left).
  apply mrange_in in I as (p & Lp & Hp & ->); [|lia]. destruct p as [|d p]; [cbn in Lp; lia|].
  apply Forall_cons_iff in Hp as [Hd _]. apply (N c d (p ++ y)); [reflexivity|now apply isSpace_spec|now apply isDigit_spec].
Qed.

(** * Looking for matches *)
Lemma search_first s r m : s = m ++ r -> first gradientRegEx s = Some r -> search s = Some (m, r).
Proof.
  intros E F. unfold first in F. assert (K : search s = match gradientRegEx s with r :: _ => Some (firstn (length s - length r) s, r) | [] => match s with [] => None | _ :: s' => search s' end end) by (destruct s; reflexivity).
  rewrite K. destruct (gradientRegEx s) as [|x l]; [discriminate|]. cbn in F. injection F as ->. subst s.
  rewrite app_length. replace (length m + length r - length r) with (length m) by lia.
  now rewrite firstn_app, firstn_all, Nat.sub_diag, app_nil_r.
Qed.
Lemma search_skip c s : gradientRegEx (c :: s) = [] -> search (c :: s) = search s.
Proof. intros E. cbn [search]. now rewrite E. Qed.
Lemma search_quiet q s : quiet q -> search (q ++ s) = search s.
Proof.
  induction q as [|c q IH]; intros Q; [reflexivity|]. apply Forall_cons_iff in Q as [[A B] Q]. cbn [app].
  rewrite search_skip; [auto|]. apply quiet_nomatch; [|exact B]. now apply (spec_false _ _ isLetter_spec).
Qed.
Lemma search_leftmost s m r : search s = Some (m, r) -> exists a, s = a ++ m ++ r /\ m <> [] /\ first gradientRegEx (m ++ r) = Some r /\
  forall a1 c a2, a = a1 ++ c :: a2 -> gradientRegEx (c :: a2 ++ m ++ r) = [].
Proof.
  induction s as [|c s IH]; intros H; [discriminate|]. destruct (gradientRegEx (c :: s)) as [|x l] eqn:E.
  - rewrite search_skip in H by exact E. destruct (IH H) as (a & -> & H1 & H2 & H3). exists (c :: a). repeat split; auto.
    intros a1 d a2 Ea. destruct a1 as [|y a1]; cbn in Ea; injection Ea as -> ->; [exact E|now apply (H3 a1)].
  - assert (I : In x (gradientRegEx (c :: s))) by (rewrite E; now left).
    destruct (regex_eats _ _ I) as (d & p & Es & _).
    rewrite (search_first _ x (d :: p)) in H; [|exact Es|unfold first; now rewrite E]. injection H as <- <-.
    exists []. cbn [app]. rewrite <- Es. repeat split; [discriminate|unfold first; now rewrite E|]. intros [|? ?]; discriminate.
Qed.
Lemma search_some s m r : search s = Some (m, r) -> exists a, s = a ++ m ++ r /\ m <> [] /\ first gradientRegEx (m ++ r) = Some r.
Proof. intros H. destruct (search_leftmost _ _ _ H) as (a & A & B & C & _). eauto. Qed.
Lemma matches_total f : forall s, length s < f -> exists ms, allMatches f s = Some ms.
Proof.
  induction f as [|f IH]; intros s L; [lia|]. cbn [allMatches]. destruct (search s) as [[m r]|] eqn:E; [|eauto].
  apply search_some in E as (a & -> & M & _). rewrite !app_length in L. destruct m; [congruence|]. cbn in L.
  destruct (IH r) as (ms & ->); [lia|]. cbn. eauto.
Qed.
Lemma matches_fuel f : forall f' s ms, length s < f' -> allMatches f s = Some ms -> allMatches f' s = Some ms.
Proof.
  induction f as [|f IH]; intros f' s ms L H; [discriminate|]. destruct f' as [|f']; [lia|]. cbn [allMatches] in *.
  destruct (search s) as [[m r]|] eqn:E; [|exact H].
  apply search_some in E as (a & -> & M & _). rewrite !app_length in L. destruct m; [congruence|]. cbn in L.
  destruct (allMatches f r) as [ms'|] eqn:K; [|discriminate]. rewrite (IH f' r ms'); [exact H|lia|exact K].
Qed.

Inductive found : bytes -> list bytes -> Prop :=
| foundNone s : search s = None -> found s []
| foundOne s m r ms : search s = Some (m, r) -> found r ms -> found s (m :: ms).
Lemma found_all s ms : found s ms <-> allMatches (S (length s)) s = Some ms.
Proof.
  split.
  - induction 1 as [s E|s m r ms E _ IH].
    + cbn [allMatches]. now rewrite E.
    + cbn [allMatches]. rewrite E. apply search_some in E as (a & -> & M & _).
      rewrite (matches_fuel _ (length (a ++ m ++ r)) _ _) with (2 := IH); [reflexivity|].
      rewrite !app_length. destruct m; [congruence|]. cbn. lia.
  - generalize (S (length s)) as f. intros f. revert s ms. induction f as [|f IH]; intros s ms H; [discriminate|].
    cbn [allMatches] in H. destruct (search s) as [[m r]|] eqn:E.
    + destruct (allMatches f r) as [ms'|] eqn:K; [|discriminate]. injection H as <-. eapply foundOne; eauto.
    + injection H as <-. now apply foundNone.
Qed.
Lemma found_exists s : exists ms, found s ms.
Proof. destruct (matches_total (S (length s)) s) as (ms & H); [lia|]. exists ms. now apply found_all. Qed.
Lemma found_skip c s ms : gradientRegEx (c :: s) = [] -> found s ms -> found (c :: s) ms.
Proof. intros E F. destruct F; [apply foundNone|eapply foundOne; [|eassumption]]; now rewrite search_skip. Qed.
Lemma found_quiet q s ms : quiet q -> found s ms -> found (q ++ s) ms.
Proof. intros Q F. destruct F; [apply foundNone|eapply foundOne; [|eassumption]]; now rewrite search_quiet. Qed.
Lemma found_nil : found [] [].
Proof. now apply foundNone. Qed.
Lemma found_first m r ms : first gradientRegEx (m ++ r) = Some r -> found r ms -> found (m ++ r) (m :: ms).
Proof. intros E F. eapply foundOne; [|exact F]. now apply search_first. Qed.

Lemma afterWord_spec t s : wordBefore t s -> afterWord s = t.
Proof.
  unfold afterWord, gradientWord. intros [->|[-> H]].
  - rewrite firstn_app, firstn_all, Nat.sub_diag, app_nil_r, beqb_refl, skipn_app, skipn_all, Nat.sub_diag. reflexivity.
  - destruct (beqb (firstn (length (str "gradient")) t) (str "gradient")) eqn:E; [|reflexivity]. apply beqb_eq in E.
    exfalso. apply (H (skipn (length (str "gradient")) t)). rewrite <- E at 1. now rewrite firstn_skipn.
Qed.
Lemma wordBefore_exists s : exists t, wordBefore t s /\ afterWord s = t.
Proof.
  destruct (beqb (firstn (length gradientWord) s) gradientWord) eqn:E.
  - exists (skipn (length gradientWord) s). split; [left|unfold afterWord; now rewrite E].
    apply beqb_eq in E. fold gradientWord. rewrite <- E at 1. now rewrite firstn_skipn.
  - exists s. split; [right; split; [reflexivity|]|unfold afterWord; now rewrite E].
    intros u ->. fold gradientWord in E. rewrite firstn_app, firstn_all, Nat.sub_diag, app_nil_r, beqb_refl in E. discriminate.
Qed.
Lemma parse_found t s ms : wordBefore t s -> found t ms ->
  parseGradient s = bind (stopsOf true ms) (fun d => match d, s with [], _ :: _ => Ok [(0%Q, redColor)] | _, _ => Ok d end).
Proof. intros W F. unfold parseGradient. rewrite (afterWord_spec _ _ W). apply found_all in F. now rewrite F. Qed.

(** * Parts of a match *)
Lemma pieces_one p : p <> [] -> ~ In 32%N p -> pieces p = [p].
Proof.
  induction p as [|c p IH]; intros E H; [congruence|]. cbn [pieces].
  destruct (N.eqb_spec c 32) as [->|]; [exfalso; apply H; now left|].
  destruct p as [|d p]; [reflexivity|]. rewrite IH; [reflexivity|discriminate|intros K; apply H; now right].
Qed.
Lemma pieces_cut p q : ~ In 32%N p -> pieces (p ++ 32%N :: q) = p :: pieces q.
Proof.
  induction p as [|c p IH]; intros H; [reflexivity|]. cbn [app pieces].
  destruct (N.eqb_spec c 32) as [->|]; [exfalso; apply H; now left|].
  rewrite IH; [reflexivity|intros K; apply H; now right].
Qed.
Lemma pieces_head c s : N.eqb c 32 = false -> exists p ps, pieces (c :: s) = (c :: p) :: ps.
Proof. intros H. cbn [pieces]. rewrite H. destruct (pieces s) as [|p ps]; eauto. Qed.

Lemma decimal_acc p : forall a, fold_left (fun n c => n * 10 + (Z.of_N c - 48))%Z p a = (a * 10 ^ Z.of_nat (length p) + number p)%Z.
Proof.
  induction p as [|c p IH]; intros a; [cbn; lia|]. cbn [fold_left length number]. rewrite IH, Nat2Z.inj_succ, Z.pow_succ_r by lia. ring.
Qed.
Lemma decimal_number p : decimalValue p = number p.
Proof. unfold decimalValue. rewrite decimal_acc. lia. Qed.
Lemma span_all f p : Forall (fun c => f c = true) p -> spanOf f p = (p, []).
Proof. induction p as [|c p IH]; intros H; [reflexivity|]. apply Forall_cons_iff in H as [H1 H2]. cbn [spanOf]. rewrite H1, IH; auto. Qed.
Lemma cast_digits p : p <> [] -> Forall (fun c => isDigit c = true) p -> castDouble p = Some (inject_Z (number p)).
Proof. intros E H. unfold castDouble. rewrite (span_all _ _ H). destruct p; [congruence|]. now rewrite <- decimal_number. Qed.
Lemma digit_not_blank c : isDigit c = true -> c <> 32%N.
Proof. intros H ->. discriminate. Qed.
Lemma not_blank (f : N -> bool) p : f 32%N = false -> Forall (fun c => f c = true) p -> ~ In 32%N p.
Proof. intros E H K. rewrite Forall_forall in H. apply H in K. congruence. Qed.

(** * Colors *)
Lemma colorMap_distinct : NoDup (map fst colorMap).
Proof.
  assert (D : forall l : list bytes, (fix go l := match l with [] => true | x :: l' => (negb (existsb (beqb x) l') && go l')%bool end) l = true -> NoDup l).
  { induction l as [|x l IH]; intros H; [constructor|]. apply andb_prop in H as [H1 H2]. constructor; [|now apply IH].
    intros K. apply Bool.negb_true_iff in H1. assert (E : existsb (beqb x) l = true); [|congruence].
    apply existsb_exists. exists x. split; [exact K|apply beqb_refl]. }
  apply D. vm_compute. reflexivity.
Qed.
Lemma lookup_in {V} (l : list (bytes * V)) n v : alookup beqb n l = Some v -> In (n, v) l.
Proof.
  induction l as [|[k w] l IH]; [discriminate|]. cbn [alookup]. destruct (beqb n k) eqn:E; [|right; auto].
  intros [= ->]. apply beqb_eq in E. subst k. now left.
Qed.
Lemma lookup_none {V} (l : list (bytes * V)) n : alookup beqb n l = None <-> ~ In n (map fst l).
Proof.
  induction l as [|[k w] l IH]; [cbn; tauto|]. cbn [alookup map fst In]. destruct (beqb n k) eqn:E.
  - apply beqb_eq in E. subst k. split; [discriminate|intros H; exfalso; apply H; now left].
  - apply beqb_neq in E. rewrite IH. intuition.
Qed.
Lemma lookup_nodup {V} (l : list (bytes * V)) n v : NoDup (map fst l) -> In (n, v) l -> alookup beqb n l = Some v.
Proof.
  induction l as [|[k w] l IH]; intros D H; [contradiction|]. cbn [map fst] in D. apply NoDup_cons_iff in D as [D1 D2].
  cbn [alookup]. destruct H as [[= -> ->]|H]; [now rewrite beqb_refl|]. destruct (beqb n k) eqn:E; [|auto].
  apply beqb_eq in E. subst k. exfalso. apply D1. change n with (fst (n, v)). now apply in_map.
Qed.
Lemma fromName_means n : paintMeans colorMap (Name n) (fromName colorMap n).
Proof.
  unfold paintMeans, fromName. destruct (alookup beqb n colorMap) eqn:E; [left; now apply lookup_in|right]. split; [now apply lookup_none|reflexivity].
Qed.
Lemma hexDigits_value d : Forall hexDigit d -> forall a, exists n, hexValue a d = Some n.
Proof.
  induction d as [|c d IH]; intros H a; [cbn; eauto|]. apply Forall_cons_iff in H as [H1 H2]. unfold hexDigit in H1. cbn [hexValue].
  destruct (digitValue c); [auto|congruence].
Qed.
Lemma hexToInt_kind c : (exists v, hexToInt c = Ok v /\ isHex c = true) \/ hexToInt c = Throw InvalidArgument /\ isHex c = false.
Proof.
  unfold hexToInt. pose proof (isHex_spec c) as S. unfold hexDigit, digitValue in S.
  destruct ((48 <=? Z.of_N c)%Z && (Z.of_N c <=? 57)%Z)%bool eqn:A; [left; eexists; split; [reflexivity|]; apply S|].
  { destruct ((48 <=? c)%N && (c <=? 57)%N)%bool eqn:B; [discriminate|]. exfalso. lia. }
  destruct ((65 <=? Z.of_N c)%Z && (Z.of_N c <=? 70)%Z)%bool eqn:A2; [left; eexists; split; [reflexivity|]; apply S|].
  { destruct ((48 <=? c)%N && (c <=? 57)%N)%bool; [discriminate|]. destruct ((65 <=? c)%N && (c <=? 70)%N)%bool eqn:B; [discriminate|]. exfalso. lia. }
  destruct ((97 <=? Z.of_N c)%Z && (Z.of_N c <=? 102)%Z)%bool eqn:A3; [left; eexists; split; [reflexivity|]; apply S|].
  { destruct ((48 <=? c)%N && (c <=? 57)%N)%bool; [discriminate|]. destruct ((65 <=? c)%N && (c <=? 70)%N)%bool; [discriminate|].
    destruct ((97 <=? c)%N && (c <=? 102)%N)%bool eqn:B; [discriminate|]. exfalso. lia. }
  right. split; [reflexivity|]. unfold isHex, isDigit. lia.
Qed.

(** Ok or an exception of one kind. *)
Definition mild {A} (o : outcome A) : Prop := match o with Ok _ => True | Throw e => e = InvalidArgument | UB => False end.
Lemma mild_bind {A B} (o : outcome A) (f : A -> outcome B) : mild o -> (forall a, o = Ok a -> mild (f a)) -> mild (bind o f).
Proof. destruct o; cbn; auto. Qed.
Lemma hexPair_mild s i j : i <= length s -> j <= length s -> mild (hexPair s i j).
Proof.
  assert (K : forall k, k <= length s -> mild (bind (charAt s k) hexToInt)).
  { intros k L. unfold charAt. destruct (nth_error s k) as [c|] eqn:E.
    - cbn. destruct (hexToInt_kind c) as [(v & -> & _)|[-> _]]; exact I || reflexivity.
    - apply nth_error_None in E. replace (Nat.eqb k (length s)) with true by (symmetry; apply Nat.eqb_eq; lia). reflexivity. }
  intros L1 L2. unfold hexPair. apply mild_bind; [auto|]. intros a _. apply mild_bind; [auto|]. intros. exact I.
Qed.
Lemma fromHex_mild h q : 3 <= length h -> length h <> 4 -> Forall (fun c => isHex c = true) h -> noHead isHex q -> mild (fromHex (35%N :: h ++ q)).
Proof.
  intros L N4 H N. unfold fromHex.
  assert (L3 : 4 <= length (35%N :: h ++ q)) by (cbn; rewrite app_length; lia).
  destruct (Nat.eq_dec (length h) 3) as [E|E].
  - destruct h as [|h1 [|h2 [|h3 [|? ?]]]]; try discriminate E. apply mild_bind; [apply hexPair_mild; lia|]. intros r _.
    assert (T : hexPair (35%N :: [h1; h2; h3] ++ q) 4 3 = Throw InvalidArgument); [|rewrite T; reflexivity].
    unfold hexPair, charAt. cbn [app nth_error length]. destruct q as [|c q]; [reflexivity|]. cbn [nth_error bind].
    destruct (hexToInt_kind c) as [(v & _ & K)|[-> _]]; [cbn in N; congruence|reflexivity].
  - assert (L6 : 6 <= length (35%N :: h ++ q)) by (cbn; rewrite app_length; lia).
    repeat (apply mild_bind; [apply hexPair_mild; lia|intros ? _]). exact I.
Qed.
Lemma times_mild ps : forall t, mild (timesOf ps t).
Proof. induction ps as [|p ps IH]; intros t; [exact I|]. cbn [timesOf]. destruct (castDouble (removelast p)); [auto|reflexivity]. Qed.

(** * Stops *)
Lemma paint_text_nonempty p : paintOk p -> paintText p <> [].
Proof. destruct p; cbn; [discriminate|tauto]. Qed.
Lemma letter_not_blank n : Forall letter n -> ~ In 32%N n.
Proof. intros H. apply (not_blank isLetter); [reflexivity|]. now apply (class_forall _ _ isLetter_spec). Qed.
Lemma paint_text_blank p : paintOk p -> ~ In 32%N (paintText p).
Proof.
  destruct p as [d|n]; cbn [paintOk paintText].
  - intros [_ H] [K|K]; [discriminate|]. revert K. apply (not_blank isHex); [reflexivity|]. now apply (class_forall _ _ isHex_spec).
  - intros (_ & H & _). now apply letter_not_blank.
Qed.
Lemma parseColor_name n : n <> [] -> Forall letter n -> parseColor colorMap n = Ok (fromName colorMap n).
Proof.
  intros E H. unfold parseColor. destruct n as [|c n]; [congruence|]. unfold charAt. cbn [nth_error bind].
  apply Forall_cons_iff in H as [H _]. destruct (N.eqb_spec c 35) as [->|]; [|reflexivity]. exfalso. unfold letter in H. lia.
Qed.
Lemma stop_eval first p t c : p <> [] -> ~ In 32%N p -> 1 <= length t <= 3 -> Forall digit t ->
  parseColor colorMap p = Ok c -> stopOf first (p ++ 32%N :: t ++ [37%N]) = Ok ((inject_Z (number t) / 100)%Q, c).
Proof.
  intros E B L H C. unfold stopOf. rewrite (pieces_cut p _ B).
  apply (class_forall _ _ isDigit_spec) in H.
  rewrite pieces_one.
  - rewrite C. cbn [bind timesOf]. rewrite removelast_app by discriminate. cbn [removelast]. rewrite app_nil_r, cast_digits; [reflexivity| |exact H].
    destruct t; [cbn in L; lia|discriminate].
  - destruct t; discriminate.
  - intros K. apply in_app_or in K as [K|[K|[]]]; [|discriminate]. revert K. now apply (not_blank isDigit).
Qed.
Lemma stop_plain (first : bool) p c : p <> [] -> ~ In 32%N p -> parseColor colorMap p = Ok c -> stopOf first p = Ok ((if first then 0 else 1)%Q, c).
Proof. intros E B C. unfold stopOf. rewrite pieces_one by assumption. now rewrite C. Qed.

Lemma noHead_quiet_letter s : quiet s -> noHead isLetter s.
Proof. intros Q. destruct s as [|c s]; [exact I|]. apply Forall_cons_iff in Q as [[A _] _]. cbn. now apply (spec_false _ _ isLetter_spec). Qed.
Lemma noHead_app f a b : a <> [] -> noHead f a -> noHead f (a ++ b).
Proof. destruct a; [congruence|auto]. Qed.
Lemma stop_first s after rest : stopOk s -> quiet after -> (after = [] -> rest = []) -> (percent s = None -> noTime (after ++ rest)) ->
  first gradientRegEx (stopText s ++ after ++ rest) = Some (after ++ rest).
Proof.
  intros [P T] Q A N. destruct s as [p t]. cbn [paintOf percent] in *. unfold stopText. cbn [paintOf percent].
  assert (NL : noHead isLetter (after ++ rest)).
  { destruct after as [|c after]; [rewrite A by reflexivity; exact I|]. apply noHead_app; [discriminate|now apply noHead_quiet_letter]. }
  rewrite <- app_assoc. destruct p as [d|n]; cbn [paintOk paintText] in *.
  - destruct P as [L H]. apply (class_forall _ _ isHex_spec) in H. cbn [app]. destruct t as [t|].
    + destruct T as [Lt Ht]. apply (class_forall _ _ isDigit_spec) in Ht. cbn [app]. rewrite <- app_assoc. cbn [app].
      rewrite hex_first; [|lia|exact H|lia]. now rewrite (tail_hex t 37 (after ++ rest) Lt Ht eq_refl).
    + cbn [app]. rewrite hex_first; [|lia|exact H|lia].
      assert (E : first hexTail (after ++ rest) = None) by (apply first_none, tail_none; auto). now rewrite E.
  - destruct P as (E & H & R). apply (class_forall _ _ isLetter_spec) in H. destruct t as [t|].
    + destruct T as [Lt Ht]. apply (class_forall _ _ isDigit_spec) in Ht. cbn [app]. rewrite <- app_assoc. cbn [app].
      rewrite name_first; [|exact E|exact H|reflexivity|intros; contradiction].
      pose proof (tail_name t [] (37%N :: after ++ rest) Lt Ht eq_refl (Forall_nil _) eq_refl) as K. cbn [app] in K. now rewrite K.
    + cbn [app]. rewrite name_first; [|exact E|exact H|exact NL|intros; contradiction].
      assert (K : first nameTail (after ++ rest) = None) by (apply first_none, tail_none; auto). now rewrite K.
Qed.
Lemma stops_found l : stopsOk l -> found (stopsText l) (map (fun s => stopText (fst s)) l).
Proof.
  induction l as [|[s after] l IH]; [intros _; exact found_nil|]. intros (S & Q & A & N & K). cbn [stopsText map fst].
  apply found_first.
  - apply stop_first; auto. intros ->. destruct l; [reflexivity|]. exfalso. now apply A.
  - apply found_quiet; auto.
Qed.
Lemma paint_color p :
  paintOk p -> exists c, parseColor colorMap (paintText p) = Ok c /\ paintMeans colorMap p c.
Proof.
  destruct p as [d|n]; cbn [paintOk paintText].
  - intros [L H]. destruct (hexDigits_value d H 0%Z) as (n & E). destruct (ColorProps.C52_hex colorMap d n L E) as (c & C & V & R).
    exists c. split; [exact C|]. exists n. auto.
  - intros (E & H & _). exists (fromName colorMap n). split; [now apply parseColor_name|apply fromName_means].
Qed.
Lemma stop_value first s : stopOk s -> exists d, stopOf first (stopText s) = Ok d /\ stopMeans colorMap first s d.
Proof.
  intros [P T]. destruct (paint_color _ P) as (c & C & M). pose proof (paint_text_nonempty _ P) as E. pose proof (paint_text_blank _ P) as B.
  destruct s as [p [t|]]; cbn [paintOf percent] in *; unfold stopText; cbn [paintOf percent].
  - destruct T as [L H]. eexists. split; [apply stop_eval; eassumption|]. split; [reflexivity|exact M].
  - rewrite app_nil_r. eexists. split; [apply stop_plain; eassumption|]. split; [reflexivity|exact M].
Qed.
Lemma stops_value l : stopsOk l -> forall b, exists g, stopsOf b (map (fun s => stopText (fst s)) l) = Ok g /\
  stopsMean colorMap b (map fst l) g.
Proof.
  induction l as [|[s after] l IH]; intros K b; [exists []; split; [reflexivity|constructor]|].
  destruct K as (S & _ & _ & _ & K). cbn [map fst stopsOf]. destruct (stop_value b s S) as (d & -> & D).
  destruct (IH K false) as (g & -> & G). cbn [bind]. exists (d :: g). split; [reflexivity|now constructor].
Qed.

(** * Every text *)
Lemma found_hash a t ms : gradientRegEx (35%N :: t) <> [] -> found (a ++ 35%N :: t) ms ->
  exists m r, 35%N :: t = m ++ r /\ first gradientRegEx (35%N :: t) = Some r /\ In m ms.
Proof.
  intros R F. remember (a ++ 35%N :: t) as s eqn:Es. revert a Es. induction F as [s E|s m r ms E F IH]; intros a Es; subst s.
  - exfalso. revert E. induction a as [|c a IHa]; intros E.
    + cbn [app] in E. cbn [search] in E. destruct (gradientRegEx (35%N :: t)); [now apply R|discriminate].
    + cbn [app search] in E. destruct (gradientRegEx (c :: a ++ 35%N :: t)); [auto|discriminate].
  - apply search_leftmost in E as (b & Es & M & Fm & Left).
    assert (K : exists c p, m = c :: p /\ Forall noHash p).
    { apply first_in in Fm. destruct (regex_eats _ _ Fm) as (c & p & Em & _ & Hp). exists c, p. split; [|exact Hp].
      rewrite app_comm_cons in Em. now apply app_inv_tail in Em. }
    destruct K as (c & p & -> & Hp).
    (* the # is before, at the beginning of, or behind the match *)
    assert (T : (exists u, a = b ++ c :: p ++ u /\ r = u ++ 35%N :: t) \/ 35%N :: t = (c :: p) ++ r \/ exists u, 35%N :: t = (35%N :: u) ++ (c :: p) ++ r /\ b = a ++ 35%N :: u).
    { clear - Es Hp. revert b Es. induction a as [|x a IHa]; intros b Es.
      - destruct b as [|y b]; cbn in Es; [right; left; exact Es|]. injection Es as <- ->. right. right. exists b. auto.
      - destruct b as [|y b]; cbn in Es.
        + injection Es as -> Es. left. clear IHa. revert p Hp Es. induction a as [|x a IHa]; intros p Hp Es.
          * destruct p as [|y p]; [exists []; auto|]. cbn in Es. injection Es as <- _. apply Forall_cons_iff in Hp as [Hp _]. now destruct Hp.
          * destruct p as [|y p]; [exists (x :: a); auto|]. cbn in Es. injection Es as -> Es. apply Forall_cons_iff in Hp as [_ Hp].
            destruct (IHa p Hp Es) as (u & E1 & E2). exists u. cbn in *. split; [congruence|exact E2].
        + injection Es as -> Es. destruct (IHa b Es) as [(u & -> & ->)|[H|(u & H & ->)]]; [left; exists u; auto|right; left; exact H|].
          right. right. exists u. auto. }
    destruct T as [(u & -> & ->)|[T|(u & T & ->)]].
    + destruct (IH u eq_refl) as (m & r' & H1 & H2 & H3). exists m, r'. auto using in_cons.
    + exists (c :: p), r. rewrite T. split; [reflexivity|]. split; [exact Fm|now left].
    + exfalso. apply R. rewrite T. apply (Left a 35%N u). reflexivity.
Qed.

(** A match beginning with #. *)
Lemma hex_match t r : first gradientRegEx (35%N :: t) = Some r -> exists h q,
  35%N :: t = (35%N :: h ++ q) ++ r /\ 3 <= length h <= 6 /\ Forall (fun c => isHex c = true) h /\ noHead isHex q /\
  (length h < 6 -> noHead isHex (q ++ r)) /\ (q = [] \/ exists c q', q = c :: q' /\ isSpace c = true).
Proof.
  intros F. destruct (run_cases isHex 6 t) as (h & b & -> & L & H & N).
  destruct (Nat.lt_ge_cases (length h) 3) as [K|K].
  - exfalso. unfold first in F. rewrite hex_none in F; [discriminate|exact K|exact H|apply N; lia].
  - rewrite (hex_first h b) in F by auto. destruct (first hexTail b) as [x|] eqn:E; injection F as <-.
    + apply first_in in E. destruct b as [|c b]; [contradiction|].
      unfold hexTail, mseq in E. cbn [mchar] in E. destruct (isSpace c) eqn:S; [|contradiction]. cbn [flat_map] in E. rewrite app_nil_r in E.
      assert (P : eats (fun _ => True) (mseq (mrange 1 3 (mchar isDigit)) (mchar isUnit))) by (apply eats_seq; [apply eats_range; [lia|auto]|apply eats_char; auto]).
      destruct (P _ _ E) as (q & -> & _). exists h, (c :: q). cbn [app]. rewrite <- app_assoc. repeat split; auto.
      * destruct (isHex c) eqn:Hc; [|exact Hc]. apply hex_not_space in Hc. congruence.
      * right. exists c, q. auto.
    + exists h, []. rewrite app_nil_r. cbn [app]. repeat split; auto.
Qed.
Lemma rest_of_letter c t : isLetter c = true -> mild (stopOf true (c :: t)) /\ mild (stopOf false (c :: t)).
Proof.
  intros H. assert (B : N.eqb c 32 = false) by (apply N.eqb_neq; intros ->; discriminate).
  destruct (pieces_head c t B) as (p & ps & E). unfold stopOf. rewrite E.
  assert (C : parseColor colorMap (c :: p) = Ok (fromName colorMap (c :: p))).
  { unfold parseColor, charAt. cbn [nth_error bind]. destruct (N.eqb_spec c 35) as [->|]; [discriminate|reflexivity]. }
  rewrite C. cbn [bind]. split; (apply mild_bind; [apply times_mild|intros; exact I]).
Qed.
(** The head of the parts of a match beginning with #. *)
Lemma pieces_hash h q : Forall (fun c => isHex c = true) h -> (q = [] \/ exists c q', q = c :: q' /\ isSpace c = true) ->
  exists u ps, pieces (35%N :: h ++ q) = (35%N :: h ++ u) :: ps /\ noHead isHex u.
Proof.
  intros H Q. assert (B : ~ In 32%N (35%N :: h)).
  { intros [K|K]; [discriminate|]. revert K. now apply (not_blank isHex). }
  destruct Q as [->|(c & q' & -> & S)].
  - exists [], []. rewrite app_nil_r, pieces_one; [split; [reflexivity|exact I]|discriminate|exact B].
  - destruct (N.eqb_spec c 32) as [->|E].
    + exists [], (pieces q'). rewrite app_comm_cons, pieces_cut by exact B. rewrite app_nil_r. split; [reflexivity|exact I].
    + assert (P : exists p ps, pieces (c :: q') = (c :: p) :: ps) by (apply pieces_head; now apply N.eqb_neq).
      destruct P as (p & ps & P). exists (c :: p), ps. split.
      * rewrite !app_comm_cons. revert B. generalize (35%N :: h). intros l B. induction l as [|x l IH]; [exact P|]. cbn [app pieces].
        destruct (N.eqb_spec x 32) as [->|]; [exfalso; apply B; now left|]. rewrite IH; [reflexivity|]. intros K. apply B. now right.
      * cbn. destruct (isHex c) eqn:Hc; [|reflexivity]. apply hex_not_space in Hc. congruence.
Qed.
(** A match is a stop unless it has four hexadecimal digits. *)
Lemma match_mild m r b : m <> [] -> first gradientRegEx (m ++ r) = Some r -> ~ shortHex 4 (m ++ r) -> mild (stopOf b m).
Proof.
  intros M F NS. destruct m as [|c m]; [congruence|]. cbn [app] in F.
  pose proof (regex_eats _ _ (first_in _ _ _ F)) as (d & p & E & [Q|Q] & _); injection E as -> _.
  - destruct (rest_of_letter d m Q) as [A B]. now destruct b.
  - subst d. destruct (hex_match _ _ F) as (h & q & E & L & H & Nq & Nr & Q).
    rewrite app_comm_cons in E. apply app_inv_tail in E. injection E as ->.
    destruct (pieces_hash h q H Q) as (u & ps & P & Nu). unfold stopOf. rewrite P.
    assert (L4 : length h <> 4).
    { intros L4. apply NS. exists [], h, (q ++ r). cbn [app]. rewrite <- app_assoc. repeat split; auto.
      - now apply (class_forall _ _ isHex_spec).
      - intros c b' Eb. specialize (Nr ltac:(lia)). rewrite Eb in Nr. now apply (spec_false _ _ isHex_spec). }
    assert (PC : mild (parseColor colorMap (35%N :: h ++ u))).
    { unfold parseColor, charAt. cbn [nth_error bind]. change (N.eqb 35 35) with true. cbv iota. apply fromHex_mild; auto; lia. }
    apply mild_bind; [exact PC|]. intros col _. apply mild_bind; [apply times_mild|intros; exact I].
Qed.
Lemma shortHex_tail n a s : shortHex n s -> shortHex n (a ++ s).
Proof. intros (x & h & b & -> & K). exists (a ++ x), h, b. rewrite <- app_assoc. auto. Qed.
Lemma stops_mild s ms : found s ms -> ~ shortHex 4 s -> forall b, mild (stopsOf b ms).
Proof.
  induction 1 as [s E|s m r ms E F IH]; intros NS b; [exact I|]. apply search_some in E as (a & -> & M & K). cbn [stopsOf].
  apply mild_bind; [apply (match_mild m r); auto; intros Sh; apply NS; now apply shortHex_tail|]. intros x _.
  apply mild_bind; [apply IH; intros Sh; apply NS; rewrite app_assoc; now apply shortHex_tail|]. intros; exact I.
Qed.
Lemma stops_length ms : forall b g, stopsOf b ms = Ok g -> length g = length ms.
Proof.
  induction ms as [|m ms IH]; intros b g H; cbn [stopsOf] in H; [injection H as <-; reflexivity|].
  destruct (stopOf b m); try discriminate. cbn [bind] in H. destruct (stopsOf false ms) as [l| |] eqn:E; try discriminate. cbn [bind] in H.
  injection H as <-. cbn. f_equal. eauto.
Qed.
Lemma stops_all ms : forall b g m, stopsOf b ms = Ok g -> In m ms -> exists b' d, stopOf b' m = Ok d.
Proof.
  induction ms as [|x ms IH]; intros b g m H K; [contradiction|]. cbn [stopsOf] in H.
  destruct (stopOf b x) as [d| |] eqn:D; try discriminate. cbn [bind] in H. destruct (stopsOf false ms) as [l| |] eqn:E; try discriminate.
  destruct K as [<-|K]; eauto.
Qed.
Lemma short_never :
  forall n a h b s ms, 3 <= n < 6 -> s = a ++ 35%N :: h ++ b -> length h = n -> Forall hexDigit h ->
  (forall c b', b = c :: b' -> ~ hexDigit c) -> found s ms -> forall f g, stopsOf f ms <> Ok g.
Proof.
  intros n a h b s ms L -> Ln H Nb F f g G. apply (class_forall _ _ isHex_spec) in H.
  assert (NH : noHead isHex b). { destruct b as [|c b]; [exact I|]. cbn. apply (spec_false _ _ isHex_spec). eauto. }
  pose proof (hex_first h b ltac:(lia) H (fun _ => NH)) as R.
  assert (R1 : gradientRegEx (35%N :: h ++ b) <> []) by (intros E; unfold first in R; rewrite E in R; discriminate).
  destruct (found_hash _ _ _ R1 F) as (m & r & Em & Fm & Im).
  destruct (stops_all _ _ _ _ G Im) as (b' & d & D).
  destruct (hex_match _ _ Fm) as (h' & q & E & L' & H' & Nq & Nr & Q).
  rewrite Em in E. apply app_inv_tail in E. subst m.
  assert (Eh : h' = h).
  { cbn [app] in Em. injection Em as Em. rewrite <- app_assoc in Em.
    destruct (Nat.eq_dec (length h') 6) as [L6|L6].
    - symmetry in Em. destruct (run_prefix _ _ _ _ _ Em H' NH) as (y & -> & _). rewrite app_length in Ln. lia.
    - specialize (Nr ltac:(lia)). symmetry in Em. destruct (run_prefix _ _ _ _ _ Em H' NH) as (y & Ey & E2).
      symmetry in Em. destruct (run_prefix _ _ _ _ _ Em H Nr) as (z & Ez & _). subst h. apply (f_equal (@length N)) in Ez. rewrite !app_length in Ez.
      destruct y; [now rewrite app_nil_r|cbn in Ez; lia]. }
  subst h'. destruct (pieces_hash h q H' Q) as (u & ps & P & Nu). unfold stopOf in D. rewrite P in D.
  destruct (parseColor colorMap (35%N :: h ++ u)) as [c| |] eqn:C; try discriminate.
  destruct u as [|x u]; [rewrite app_nil_r in C; apply ColorProps.C52_short_refuted in C; [exact C|lia]|].
  (* a byte which is no digit is within the first seven *)
  clear D P. unfold parseColor, charAt in C. cbn [nth_error bind] in C. change (N.eqb 35 35) with true in C. cbv iota in C.
  cbn in Nu. destruct (hexToInt_kind x) as [(v & _ & B)|[T _]]; [congruence|].
  unfold fromHex, hexPair, charAt in C.
  destruct h as [|h1 [|h2 [|h3 [|h4 [|h5 [|? ?]]]]]]; cbn [length] in Ln; try lia; destruct u as [|y u]; cbn in C; rewrite ?T in C;
  repeat match type of C with context [hexToInt ?y] => destruct (hexToInt y) end; cbn in C; discriminate.
Qed.
