(** Properties of the text of gradients: C76. *)
From Coq Require Import QArith String Sorted.
From Verif Require Import Base Bytes BytesProofs Peg JsonModel MapCssModel StyleModel StyleSpec ColorModel ColorSpec GradientModel GradientSpec GradientProofs.
From Verif Require ColorProps StyleProofs.
Local Open Scope nat_scope.

(** Stops written with six hexadecimal digits or a name and, if at all, a percentage, give these colors at these times;
    the first stop without a percentage is at the begin, any other at the end. *)
Theorem C76_parse : forall s t lead l,
  wordBefore t s -> t = lead ++ stopsText l -> quiet lead -> l <> [] -> stopsOk l ->
  exists g, parseGradient s = Ok g /\ stopsMean colorMap true (map fst l) g.
Proof.
  intros s t lead l W -> Q E K. pose proof (found_quiet _ _ _ Q (stops_found l K)) as F.
  destruct (stops_value l K true) as (g & G & M). exists g. rewrite (parse_found _ _ _ W F), G. cbn [bind]. split; [|exact M].
  destruct l as [|[x y] l]; [congruence|]. inversion M. reflexivity.
Qed.
Print Assumptions C76_parse.
Definition demoStops : list (stop * bytes) :=
  [(mkStop (Hex (str "0fffff")) None, str ", "); (mkStop (Name (str "red")) (Some (str "50")), str " ,");
   (mkStop (Hex (str "099999")) (Some (str "7")), str ", "); (mkStop (Name (str "unheard")) None, str ")")].
Lemma demoStops_ok : stopsOk demoStops.
Proof.
  cbn [demoStops stopsOk]. unfold stopOk, paintOk, quiet. cbn [paintOf percent].
  repeat match goal with
  | |- _ /\ _ => split
  | |- Forall hexDigit _ => repeat constructor; cbv; discriminate
  | |- Forall letter _ => cbn [str list_ascii_of_string map]; repeat constructor; unfold letter; cbn; lia
  | |- Forall digit _ => cbn; repeat constructor; unfold digit; lia
  | |- Forall (fun c => ~ letter c /\ c <> 35%N) _ => cbn [str list_ascii_of_string map]; repeat constructor; unfold letter; cbn; lia
  end; try reflexivity; try discriminate; try exact I; try (cbn; lia); intros _ c d s' E; cbn in E; try discriminate E; injection E as <- <- _; unfold space, digit; lia.
Qed.
Example C76_parse_case : wordBefore (40%N :: stopsText demoStops) (str "gradient(#0fffff, red 50% ,#099999 7%, unheard)") /\
  parseGradient (str "gradient(#0fffff, red 50% ,#099999 7%, unheard)") =
  Ok [(0%Q, mkColor 15 255 255 255); ((50 # 100)%Q, mkColor 255 0 0 255); ((7 # 100)%Q, mkColor 9 153 153 255); (1%Q, mkColor 190 190 190 255)].
Proof. split; [left; reflexivity|vm_compute; reflexivity]. Qed.

(** Text without a color is red. *)
Theorem C76_nothing : forall s t, wordBefore t s -> quiet t ->
  parseGradient s = Ok (match s with [] => [] | _ => [(0%Q, mkColor 255 0 0 255)] end).
Proof.
  intros s t W Q. pose proof (found_quiet _ _ _ Q found_nil) as F. rewrite app_nil_r in F.
  rewrite (parse_found _ _ _ W F). cbn [stopsOf bind]. destruct s; reflexivity.
Qed.
Print Assumptions C76_nothing.
Example C76_nothing_case : wordBefore (str "(50%)") (str "gradient(50%)") /\ quiet (str "(50%)").
Proof. split; [left; reflexivity|]. unfold quiet. cbn. repeat (apply Forall_cons; [unfold letter; split; lia|]). apply Forall_nil. Qed.

(** No text is undefined behaviour unless there is a # with four hexadecimal digits, no text but the empty one gives a
    gradient without stops, and the only exception is one of reading a number. *)
Theorem C76_total : forall s, ~ shortHex 4 s ->
  (exists g, parseGradient s = Ok g /\ (g = [] <-> s = [])) \/ parseGradient s = Throw InvalidArgument.
Proof.
  intros s NS. destruct (wordBefore_exists s) as (t & W & _). destruct (found_exists t) as (ms & F).
  assert (NT : ~ shortHex 4 t).
  { intros K. apply NS. destruct W as [->|[-> _]]; [now apply shortHex_tail|exact K]. }
  rewrite (parse_found _ _ _ W F). pose proof (stops_mild _ _ F NT true) as M.
  destruct (stopsOf true ms) as [g|e|] eqn:G; cbn in M; [|right; now rewrite M|contradiction].
  left. cbn [bind]. destruct g as [|x g], s as [|c s]; eexists; (split; [reflexivity|]); try (split; congruence).
  exfalso. destruct W as [W|[W _]]; [discriminate|]. subst t.
  assert (E : ms = []) by (inversion F; [reflexivity|]; discriminate). subst ms. discriminate.
Qed.
Print Assumptions C76_total.
Example C76_total_case : ~ shortHex 4 (str "#12345") /\ parseGradient (str "#12345") = Throw InvalidArgument.
Proof.
  split; [|reflexivity]. intros (a & h & b & E & L & H & N).
  destruct a as [|x a].
  - cbn in E. injection E as E. destruct h as [|h1 [|h2 [|h3 [|h4 [|? ?]]]]]; try discriminate L. cbn in E. injection E as _ _ _ _ E.
    apply (N 53%N []); [now rewrite <- E|]. cbv. discriminate.
  - cbn in E. injection E as _ E. repeat (destruct a as [|? a]; [discriminate|injection E as _ E]). destruct a; discriminate.
Qed.

(** A # with three to five hexadecimal digits, wherever it is, is no color: nothing is returned (with four digits not even
    an exception is certain). *)
Theorem C76_short_refuted : forall s n g, 3 <= n < 6 -> shortHex n s -> parseGradient s <> Ok g.
Proof.
  intros s n g L (a & h & b & -> & Lh & H & N).
  destruct (wordBefore_exists (a ++ 35%N :: h ++ b)) as (t & W & _). destruct (found_exists t) as (ms & F).
  assert (T : exists a', t = a' ++ 35%N :: h ++ b).
  { destruct W as [E|[<- _]]; [|eauto]. change (str "gradient") with [103; 114; 97; 100; 105; 101; 110; 116]%N in E.
    repeat (destruct a as [|? a]; cbn [app] in E; [discriminate E|apply (f_equal (@tl BinNums.N)) in E; cbn [tl] in E]). exists a. symmetry. exact E. }
  destruct T as (a' & Et). rewrite (parse_found _ _ _ W F). intros G.
  destruct (stopsOf true ms) as [g'| |] eqn:K; try discriminate.
  exact (short_never n a' h b t ms L Et Lh H N F true g' K).
Qed.
Print Assumptions C76_short_refuted.
Example C76_short_case : shortHex 3 (str "gradient(red, #fff)") /\ parseGradient (str "gradient(red, #fff)") = Throw InvalidArgument /\
  shortHex 4 (str "#ffff") /\ parseGradient (str "#ffff") = UB.
Proof.
  split; [|split; [reflexivity|split; [|reflexivity]]].
  - exists (str "gradient(red, "), (str "fff"), (str ")"). repeat split; [repeat constructor; cbv; discriminate|].
    intros c b' [= <- <-] K. now apply K.
  - exists [], (str "ffff"), []. repeat split; [repeat constructor; cbv; discriminate|]. discriminate.
Qed.

(** A stylesheet in which such a value begins with # or with the word of gradients cannot be loaded. *)
Theorem C76_load_refuted : forall intern sortConds sh r s name d n f,
  In r (rules sh) -> In s (selectors r) -> In name (names s) -> In d (declarations r) ->
  3 <= n < 6 -> shortHex n (dvalue d) -> isGradient (dvalue d) = true ->
  compile intern checkDeclaration sortConds sh <> Ok f.
Proof.
  intros intern sortConds sh r s name d n f Hr Hs Hn Hd L K G C.
  assert (A : acceptable checkDeclaration sh) by (eapply StyleProofs.compile_total; eauto).
  destruct (A r s name Hr Hs Hn) as [B _]. specialize (B d Hd). unfold checkDeclaration in B. rewrite G in B.
  destruct (parseGradient (dvalue d)) as [g| |] eqn:P; try discriminate. now apply (C76_short_refuted _ n g L K).
Qed.
Print Assumptions C76_load_refuted.
Definition shortSheet : sheet :=
  mkSheet [mkRule [mkSelector [str "way"] (mkZoom 1 16) []] [mkDecl (str "fill-color") (str "#fff")]] [] [].
Example C76_load_case : compile (fun _ => 0%N) checkDeclaration (fun l => l) shortSheet = Throw InvalidArgument /\
  isGradient (str "#fff") = true /\ shortHex 3 (str "#fff").
Proof.
  split; [reflexivity|]. split; [reflexivity|]. exists [], (str "fff"), []. repeat split; [repeat constructor; cbv; discriminate|]. discriminate.
Qed.

(** * Names *)
Lemma table_ok : forallb (fun e => (forallb isLetter (fst e) && negb (beqb (fst e) (str "rgb")) && negb (beqb (fst e) []) &&
  forallb (fun c => negb (N.leb 65 c && N.leb c 90)) (fst e) && Z.eqb (alpha (snd e)) 255)%bool) colorMap = true.
Proof. vm_compute. reflexivity. Qed.
Lemma table_name n c : In (n, c) colorMap -> n <> [] /\ Forall letter n /\ n <> str "rgb" /\ Forall (fun x => ~ capital x) n.
Proof.
  intros H. pose proof table_ok as T. rewrite forallb_forall in T. specialize (T _ H). cbn [fst snd] in T.
  apply andb_prop in T as [T _]. apply andb_prop in T as [T T4]. apply andb_prop in T as [T T3]. apply andb_prop in T as [T1 T2].
  apply Bool.negb_true_iff, beqb_neq in T2, T3. repeat split; auto.
  - apply (class_forall _ _ isLetter_spec). apply Forall_forall. now apply forallb_forall.
  - apply Forall_forall. intros x Hx. rewrite forallb_forall in T4. specialize (T4 x Hx). unfold capital. lia.
Qed.
Lemma fromName_in n c : In (n, c) colorMap -> fromName colorMap n = c.
Proof. intros H. unfold fromName. now rewrite (lookup_nodup _ _ _ colorMap_distinct H). Qed.
(** A text of letters. *)
Lemma parse_word s n : wordBefore n s -> n <> [] -> Forall letter n -> parseGradient s = Ok [(0%Q, fromName colorMap n)].
Proof.
  intros W E H. assert (F : found n [n]).
  { rewrite <- (app_nil_r n) at 1. apply found_first; [|exact found_nil].
    rewrite name_first; [reflexivity|exact E|now apply (class_forall _ _ isLetter_spec)|exact I|].
    intros _ sp y K _. destruct sp; discriminate. }
  rewrite (parse_found _ _ _ W F). cbn [stopsOf].
  rewrite (stop_plain true n _ E (letter_not_blank n H) (parseColor_name n E H)). reflexivity.
Qed.

(** Every name of the table is its color, ... *)
Theorem C76_names : forall n c, In (n, c) colorMap -> (forall u, n <> str "gradient" ++ u) ->
  isGradient n = true /\ parseGradient n = Ok [(0%Q, c)].
Proof.
  intros n c H W. destruct (table_name n c H) as (E & L & _). split.
  - unfold isGradient. rewrite (lookup_nodup _ _ _ colorMap_distinct H). now rewrite Bool.orb_true_r.
  - rewrite (parse_word n n); [|right; auto|exact E|exact L]. now rewrite (fromName_in n c H).
Qed.
Print Assumptions C76_names.
Example C76_names_case : In (str "steelblue", mkColor 70 130 180 255) colorMap /\ parseGradient (str "steelblue") = Ok [(0%Q, mkColor 70 130 180 255)].
Proof. split; [|reflexivity]. apply lookup_in. reflexivity. Qed.

(** ... but the names which begin with the word of gradients are other colors: the word is skipped. *)
Theorem C76_prefix_refuted : exists n1 c1 n2 c2, n1 <> n2 /\ forall n c, In (n, c) colorMap -> forall u, n = str "gradient" ++ u ->
  ((n, c) = (n1, c1) \/ (n, c) = (n2, c2)) /\ exists c', parseGradient n = Ok [(0%Q, c')] /\ c' <> c.
Proof.
  exists (str "gradientactivecaption"), (mkColor 185 209 234 255), (str "gradientinactivecaption"), (mkColor 215 228 242 255).
  split; [discriminate|]. intros n c H u E.
  assert (F : List.filter (fun e => beqb (firstn 8 (fst e)) (str "gradient")) colorMap =
    [(str "gradientactivecaption", mkColor 185 209 234 255); (str "gradientinactivecaption", mkColor 215 228 242 255)]) by (vm_compute; reflexivity).
  assert (I : In (n, c) (List.filter (fun e => beqb (firstn 8 (fst e)) (str "gradient")) colorMap)).
  { apply filter_In. split; [exact H|]. cbn [fst]. subst n. reflexivity. }
  rewrite F in I. destruct I as [I|[I|[]]]; injection I as <- <-; (split; [auto|]); (eexists; split; [vm_compute; reflexivity|discriminate]).
Qed.
Print Assumptions C76_prefix_refuted.
Example C76_prefix_case : In (str "gradientactivecaption", mkColor 185 209 234 255) colorMap /\
  str "gradientactivecaption" = str "gradient" ++ str "activecaption".
Proof. split; [|reflexivity]. apply lookup_in. reflexivity. Qed.

(** A name with a capital letter, e.g. LightBlue, is grey, and is not taken for a gradient when a stylesheet is loaded. *)
Theorem C76_upper_refuted : forall n c, Forall letter n -> In c n -> capital c -> (forall u, n <> str "gradient" ++ u) ->
  isGradient n = false /\ parseGradient n = Ok [(0%Q, mkColor 190 190 190 255)].
Proof.
  intros n c H I C W. assert (E : n <> []) by (intros ->; contradiction).
  assert (K : alookup beqb n colorMap = None).
  { destruct (alookup beqb n colorMap) as [v|] eqn:K; [|reflexivity]. exfalso. apply lookup_in in K.
    destruct (table_name _ _ K) as (_ & _ & _ & N). rewrite Forall_forall in N. exact (N c I C). }
  split.
  - unfold isGradient. rewrite K, Bool.orb_false_r. apply Bool.orb_false_iff. split.
    + apply beqb_neq. intros G. apply (W (skipn 8 n)). rewrite <- (firstn_skipn 8 n) at 1. f_equal.
      change 8 with (Nat.min 8 9). rewrite <- firstn_firstn, G. reflexivity.
    + destruct n as [|x n]; [reflexivity|]. apply Forall_cons_iff in H as [H _]. apply N.eqb_neq. unfold letter in H. lia.
  - rewrite (parse_word n n); [|right; auto|exact E|exact H]. unfold fromName. now rewrite K.
Qed.
Print Assumptions C76_upper_refuted.
Example C76_upper_case : Forall letter (str "LightBlue") /\ capital 76 /\ parseGradient (str "LightBlue") = Ok [(0%Q, mkColor 190 190 190 255)] /\
  parseGradient (str "lightblue") = Ok [(0%Q, mkColor 173 216 230 255)].
Proof.
  split; [cbn; repeat (apply Forall_cons; [unfold letter; lia|]); apply Forall_nil|]. split; [unfold capital; lia|]. split; reflexivity.
Qed.

(** * Forms which the expression admits but the code does not read *)

Lemma arg_spec c : isArg c = true -> c <> 41%N.
Proof. intros H ->. discriminate. Qed.
Lemma char_seq f b c s : f c = true -> mseq (mchar f) b (c :: s) = b s.
Proof. intros H. apply (seq_one _ _ _ s). cbn. now rewrite H. Qed.
Lemma many_lazy a rest n : Forall (fun c => isArg c = true) a -> length a < n ->
  first (mseq (many false (mchar isArg) n) (mlit [41%N])) (a ++ 41%N :: rest) = Some rest.
Proof.
  revert n. induction a as [|c a IH]; intros n H L; destruct n as [|n]; cbn [length] in L; try lia.
  - reflexivity.
  - apply Forall_cons_iff in H as [H1 H2]. specialize (IH n H2 ltac:(lia)). unfold first in *. unfold mseq at 1. unfold mseq in IH. cbn [many app].
    rewrite (char_seq isArg _ _ _ H1). cbn [flat_map]. assert (E : mlit [41%N] (c :: a ++ 41%N :: rest) = []).
    { cbn [mlit]. unfold mseq. unfold mchar. replace (N.eqb 41 c) with false; [reflexivity|]. symmetry. apply N.eqb_neq. intros <-. discriminate. }
    rewrite E. exact IH.
Qed.
(** rgb(...) is grey, whatever is between the brackets, as long as there is no blank. *)
Theorem C76_rgb_refuted : forall args, args <> [] -> Forall (fun c => digit c \/ c = 46%N \/ c = 37%N \/ c = 44%N) args ->
  parseGradient (str "rgb(" ++ args ++ str ")") = Ok [(0%Q, mkColor 190 190 190 255)].
Proof.
  intros args E H. assert (HA : Forall (fun c => isArg c = true /\ c <> 32%N) args).
  { eapply Forall_impl; [|exact H]. unfold digit, isArg, isDigit. intros c K. cbn beta in K. split; lia. }
  assert (HB : ~ In 32%N (str "rgb(" ++ args ++ str ")")).
  { intros K. apply in_app_or in K as [K|K]; [cbn in K; intuition discriminate|]. apply in_app_or in K as [K|K].
    - rewrite Forall_forall in HA. apply HA in K. now destruct K.
    - cbn in K. intuition discriminate. }
  assert (F : found (str "rgb(" ++ args ++ str ")") [str "rgb(" ++ args ++ str ")"]).
  { rewrite <- (app_nil_r (str "rgb(" ++ args ++ str ")")) at 1. apply found_first; [|exact found_nil]. rewrite app_nil_r.
    unfold gradientRegEx. rewrite first_alt.
    assert (R : first reRgb (str "rgb(" ++ args ++ str ")") = Some []); [|now rewrite R].
    apply (first_seq _ _ _ (40%N :: args ++ [41%N])); [reflexivity|]. apply (first_seq _ _ _ (40%N :: args ++ [41%N])); [reflexivity|].
    apply (first_seq _ _ _ (args ++ [41%N])); [reflexivity|].
    destruct args as [|c args]; [congruence|]. apply Forall_cons_iff in HA as [[H1 _] H2].
    pose proof (char_seq isArg (mstar false (mchar isArg)) c (args ++ [41%N]) H1) as CS. unfold mplus, first, mseq at 1. cbn [app].
    rewrite CS. apply (many_lazy args []); [|rewrite app_length; cbn; lia].
    eapply Forall_impl; [|exact H2]. now intros x [? _]. }
  assert (WB : wordBefore (str "rgb(" ++ args ++ str ")") (str "rgb(" ++ args ++ str ")")) by (right; split; [reflexivity|intros u K; cbn in K; discriminate K]).
  rewrite (parse_found _ _ _ WB F).
  cbn [stopsOf]. rewrite (stop_plain true _ (mkColor 190 190 190 255)); [reflexivity|discriminate|exact HB|].
  change (parseColor colorMap (str "rgb(" ++ args ++ str ")")) with (Ok (fromName colorMap (str "rgb(" ++ args ++ str ")"))).
  unfold fromName. destruct (alookup beqb (str "rgb(" ++ args ++ str ")") colorMap) eqn:K; [|reflexivity]. exfalso.
  apply lookup_in in K. destruct (table_name _ _ K) as (_ & L & _). rewrite Forall_forall in L. specialize (L 40%N).
  assert (I : In 40%N (str "rgb(" ++ args ++ str ")")) by (cbn; tauto). apply L in I. unfold letter in I. lia.
Qed.
Print Assumptions C76_rgb_refuted.
(** With blanks the channels are times, and a blank before the bracket is an exception. *)
Example C76_rgb_case : parseGradient (str "rgb(255,0,0)") = Ok [(0%Q, mkColor 190 190 190 255)] /\
  parseGradient (str "rgb(255, 0, 20)") = Ok [((20 # 100)%Q, mkColor 190 190 190 255)] /\
  parseGradient (str "rgb (255,0,0)") = Throw InvalidArgument.
Proof. repeat split; reflexivity. Qed.

Lemma digits_blank p : Forall digit p -> ~ In 32%N p.
Proof. intros H. apply (not_blank isDigit); [reflexivity|]. now apply (class_forall _ _ isDigit_spec). Qed.
(** A name with a number without a unit: the last digit of the number is lost, and a single digit is an exception. *)
Theorem C76_unit_refuted : forall n p, n <> [] -> Forall letter n -> (forall u, n ++ 32%N :: p <> str "gradient" ++ u) ->
  1 <= length p <= 3 -> Forall digit p ->
  parseGradient (n ++ 32%N :: p) =
    match removelast p with
    | [] => Throw InvalidArgument
    | q => Ok [((inject_Z (number q) / 100)%Q, fromName colorMap n)]
    end.
Proof.
  intros n p E H W L P.
  assert (F : found (n ++ 32%N :: p) [n ++ 32%N :: p]).
  { rewrite <- (app_nil_r (n ++ 32%N :: p)) at 1. apply found_first; [|exact found_nil]. rewrite app_nil_r.
    rewrite name_first; [|exact E|now apply (class_forall _ _ isLetter_spec)|reflexivity|].
    - pose proof (tail_name p [] [] L) as T. cbn [app] in T. rewrite app_nil_r in T.
      rewrite T; auto; [now apply (class_forall _ _ isDigit_spec)|exact I|exact I].
    - intros _ sp y K [->| ->]; [discriminate|]. injection K as ->. apply Forall_cons_iff in P as [P _]. unfold digit in P. lia. }
  rewrite (parse_found _ _ _ (or_intror (conj eq_refl W)) F). cbn [stopsOf]. unfold stopOf.
  rewrite (pieces_cut n p (letter_not_blank n H)), (parseColor_name n E H). cbn [bind].
  rewrite pieces_one; [|destruct p; [cbn in L; lia|discriminate]|now apply digits_blank]. cbn [timesOf].
  destruct (removelast p) as [|q qs] eqn:R; [reflexivity|]. rewrite cast_digits; [reflexivity|discriminate|].
  apply (class_forall _ _ isDigit_spec) in P. rewrite Forall_forall in P |- *. intros x Hx. apply P. rewrite <- R in Hx.
  rewrite (app_removelast_last 0%N) by (destruct p; [discriminate|discriminate]). apply in_or_app. now left.
Qed.
Print Assumptions C76_unit_refuted.
Example C76_unit_case : parseGradient (str "red 50") = Ok [((5 # 100)%Q, mkColor 255 0 0 255)] /\ parseGradient (str "red 5") = Throw InvalidArgument.
Proof. split; reflexivity. Qed.

(** A time in px, which the expression seems to mean: its x is one more stop, at the end, of grey. *)
Theorem C76_px_refuted : forall n p, n <> [] -> Forall letter n -> (forall u, n ++ 32%N :: p ++ str "px" <> str "gradient" ++ u) ->
  1 <= length p <= 3 -> Forall digit p ->
  parseGradient (n ++ 32%N :: p ++ str "px") =
    Ok [((inject_Z (number p) / 100)%Q, fromName colorMap n); (1%Q, mkColor 190 190 190 255)].
Proof.
  intros n p E H W L P. pose proof (proj1 (class_forall _ _ isDigit_spec p) P) as P'.
  assert (F : found (n ++ 32%N :: p ++ str "px") [n ++ 32%N :: p ++ [112%N]; [120%N]]).
  { replace (n ++ 32%N :: p ++ str "px") with ((n ++ 32%N :: p ++ [112%N]) ++ [120%N]) by (rewrite <- app_assoc; cbn [app]; now rewrite <- app_assoc).
    apply found_first.
    - rewrite <- app_assoc. cbn [app]. rewrite <- app_assoc. cbn [app].
      rewrite name_first; [|exact E|now apply (class_forall _ _ isLetter_spec)|reflexivity|].
      + pose proof (tail_name p [] [112; 120]%N L P' eq_refl (Forall_nil _) eq_refl) as T. cbn [app] in T. now rewrite T.
      + intros _ sp y K [->| ->]; [discriminate|]. injection K as K. destruct p as [|c p]; [cbn in L; lia|]. injection K as -> _.
        apply Forall_cons_iff in P as [P _]. unfold digit in P. lia.
    - change [120%N] with ([120%N] ++ []) at 1. apply found_first; [reflexivity|exact found_nil]. }
  rewrite (parse_found _ _ _ (or_intror (conj eq_refl W)) F). cbn [stopsOf].
  assert (S1 : stopOf true (n ++ 32%N :: p ++ [112%N]) = Ok ((inject_Z (number p) / 100)%Q, fromName colorMap n)).
  { unfold stopOf. rewrite (pieces_cut n _ (letter_not_blank n H)), (parseColor_name n E H). cbn [bind].
    rewrite pieces_one; [|destruct p; discriminate|intros K; apply in_app_or in K as [K|[K|[]]]; [now apply (digits_blank p P)|discriminate]].
    cbn [timesOf]. rewrite removelast_app by discriminate. cbn [removelast]. rewrite app_nil_r, cast_digits; [reflexivity| |exact P'].
    destruct p; [cbn in L; lia|discriminate]. }
  rewrite S1. reflexivity.
Qed.
Print Assumptions C76_px_refuted.
Example C76_px_case : parseGradient (str "red 50px") = Ok [((50 # 100)%Q, mkColor 255 0 0 255); (1%Q, mkColor 190 190 190 255)].
Proof. reflexivity. Qed.

(** Letters behind six hexadecimal digits, e.g. an opacity, are one more stop. *)
Theorem C76_alpha_refuted : forall d w, length d = 6 -> Forall hexDigit d -> w <> [] -> Forall letter w -> w <> str "rgb" ->
  exists c, parseGradient (35%N :: d ++ w) = Ok [(0%Q, c); (1%Q, fromName colorMap w)] /\ paintMeans colorMap (Hex d) c.
Proof.
  intros d w L H E W R. pose proof (proj1 (class_forall _ _ isHex_spec d) H) as H'.
  assert (W' : Forall (fun c => isLetter c = true) w) by now apply (class_forall _ _ isLetter_spec).
  destruct (paint_color (Hex d)) as (c & C & M); [split; assumption|]. cbn [paintText] in C.
  assert (F : found (35%N :: d ++ w) [35%N :: d; w]).
  { rewrite app_comm_cons. apply found_first.
    - cbn [app]. rewrite hex_first; [|lia|exact H'|lia].
      assert (T : hexTail w = []).
      { apply tail_none. intros a b s -> S. apply Forall_cons_iff in W as [W _]. unfold letter, space in *. lia. }
      apply first_none in T. now rewrite T.
    - rewrite <- (app_nil_r w) at 1. apply found_first; [|exact found_nil].
      rewrite name_first; [reflexivity|exact E|exact W'|exact I|contradiction]. }
  exists c. split; [|exact M].
  assert (WB : wordBefore (35%N :: d ++ w) (35%N :: d ++ w)) by (right; split; [reflexivity|intros u K; cbn in K; discriminate K]).
  rewrite (parse_found _ _ _ WB F). cbn [stopsOf].
  rewrite (stop_plain true (35%N :: d) c); [|discriminate|exact (paint_text_blank (Hex d) (conj L H))|exact C]. cbn [bind].
  now rewrite (stop_plain false w _ E (letter_not_blank w W) (parseColor_name w E W)).
Qed.
Print Assumptions C76_alpha_refuted.
Example C76_alpha_case : parseGradient (str "#00ff00ff") = Ok [(0%Q, mkColor 0 255 0 255); (1%Q, mkColor 190 190 190 255)].
Proof. reflexivity. Qed.

(** A blank before the unit, for which the expression has a place of its own, is an exception. *)
Theorem C76_blank_refuted : forall n p, n <> [] -> Forall letter n -> (forall u, n ++ 32%N :: p ++ str " %" <> str "gradient" ++ u) ->
  1 <= length p <= 3 -> Forall digit p -> parseGradient (n ++ 32%N :: p ++ str " %") = Throw InvalidArgument.
Proof.
  intros n p E H W L P. pose proof (proj1 (class_forall _ _ isDigit_spec p) P) as P'.
  assert (F : found (n ++ 32%N :: p ++ str " %") [n ++ 32%N :: p ++ str " %"]).
  { rewrite <- (app_nil_r (n ++ 32%N :: p ++ str " %")) at 1. apply found_first; [|exact found_nil]. rewrite app_nil_r.
    rewrite name_first; [|exact E|now apply (class_forall _ _ isLetter_spec)|reflexivity|].
    - pose proof (tail_name p [32%N] [37%N] L P' eq_refl (Forall_cons 32%N eq_refl (Forall_nil _)) eq_refl) as T. cbn [app] in T.
      change (str " %") with [32; 37]%N. now rewrite T.
    - intros _ sp y K [->| ->]; [discriminate|]. injection K as K. destruct p as [|c p]; [cbn in L; lia|]. injection K as -> _.
      apply Forall_cons_iff in P as [P _]. unfold digit in P. lia. }
  rewrite (parse_found _ _ _ (or_intror (conj eq_refl W)) F). cbn [stopsOf]. unfold stopOf.
  rewrite (pieces_cut n _ (letter_not_blank n H)), (parseColor_name n E H). cbn [bind].
  change (str " %") with (32%N :: [37%N]). rewrite (pieces_cut p _ (digits_blank p P)). cbn [timesOf pieces N.eqb Pos.eqb].
  destruct (castDouble (removelast p)); reflexivity.
Qed.
Print Assumptions C76_blank_refuted.
Example C76_blank_case : parseGradient (str "red 50 %") = Throw InvalidArgument.
Proof. reflexivity. Qed.

(** * In use *)

Lemma table_valid n c : In (n, c) colorMap -> validColor c.
Proof.
  assert (T : forallb (fun e => let c := snd e in (Z.leb 0 (red c) && Z.ltb (red c) 256 && Z.leb 0 (green c) && Z.ltb (green c) 256 &&
    Z.leb 0 (blue c) && Z.ltb (blue c) 256 && Z.leb 0 (alpha c) && Z.ltb (alpha c) 256)%bool) colorMap = true) by (vm_compute; reflexivity).
  rewrite forallb_forall in T. intros H. specialize (T _ H). cbn [snd] in T. unfold validColor. lia.
Qed.
Lemma means_valid p c : paintMeans colorMap p c -> validColor c.
Proof.
  destruct p as [d|n]; cbn [paintMeans]; [now intros (_ & _ & V & _)|]. intros [H|[_ ->]]; [now apply table_valid in H|].
  unfold validColor. cbn. lia.
Qed.
(** Stops at ascending times: at the time of a stop the color is the color written there. *)
Theorem C76_evaluate : forall s t lead l g,
  wordBefore t s -> t = lead ++ stopsText l -> quiet lead -> l <> [] -> stopsOk l -> parseGradient s = Ok g ->
  StronglySorted Qlt (map fst g) ->
  forall i x, nth_error l i = Some x -> exists c,
    evaluate g (stopTime (Nat.eqb i 0) (fst x)) = Ok c /\ paintMeans colorMap (paintOf (fst x)) c.
Proof.
  intros s t lead l g W Et Q E K G S i x Hx. destruct (C76_parse s t lead l W Et Q E K) as (g' & G' & M).
  rewrite G in G'. injection G' as <-.
  assert (V : Forall (fun s => validColor (snd s)) g).
  { clear - M. induction M as [|b0 s0 l0 d0 g0 D _ IH]; constructor; [|exact IH]. destruct D as [_ D]. now apply means_valid in D. }
  assert (N : exists c, nth_error g i = Some (stopTime (Nat.eqb i 0) (fst x), c) /\ paintMeans colorMap (paintOf (fst x)) c).
  { assert (A : forall b (l : list (stop * bytes)) g, stopsMean colorMap b (map fst l) g -> forall i x, nth_error l i = Some x ->
      exists c, nth_error g i = Some (stopTime (b && Nat.eqb i 0)%bool (fst x), c) /\ paintMeans colorMap (paintOf (fst x)) c).
    { clear. intros b l. revert b. induction l as [|y l IH]; intros b g M i x Hx; [destruct i; discriminate|].
      inversion M as [|b' s' l' [td cd] g' [D1 D2] M']; subst. destruct i as [|i]; cbn [nth_error] in *.
      - injection Hx as ->. exists cd. cbn in D1, D2. rewrite D1. change (Nat.eqb 0 0) with true. rewrite Bool.andb_true_r. auto.
      - destruct (IH false g' M' i x Hx) as (c & C1 & C2). exists c. cbn [Nat.eqb]. rewrite Bool.andb_false_r. auto. }
    exact (A true l g M i x Hx). }
  destruct N as (c & N & P). exists c. split; [|exact P]. exact (ColorProps.C53_stop g i _ c V S N).
Qed.
Print Assumptions C76_evaluate.
Example C76_evaluate_case : exists g, parseGradient (str "gradient(#0fffff, red 50%, unheard)") = Ok g /\ StronglySorted Qlt (map fst g) /\
  evaluate g (50 # 100) = Ok (mkColor 255 0 0 255).
Proof.
  eexists. split; [vm_compute; reflexivity|]. split; [|vm_compute; reflexivity].
  repeat constructor.
Qed.

(** What a provider has been asked before does not matter: a gradient is the one of its text. *)
Inductive request := Add (key : bytes) | Get (key : bytes).
Definition perform (r : request) (m : gradients) : outcome gradients :=
  match r with Add k => addGradient k m | Get k => omap snd (getGradient k m) end.
Fixpoint performAll (l : list request) (m : gradients) : outcome gradients :=
  match l with [] => Ok m | r :: l' => bind (perform r m) (performAll l') end.
Definition honest (m : gradients) : Prop := forall k d, alookup beqb k m = Some d -> parseGradient k = Ok d /\ d <> [].
Lemma honest_set k d m : honest m -> parseGradient k = Ok d -> d <> [] -> honest (aset beqb k d m).
Proof.
  intros H P E k' d' K. assert (D : alookup beqb k' (aset beqb k d m) = if beqb k' k then Some d else alookup beqb k' m).
  { apply LruProofs.alookup_aset. intros a b. apply beqb_eq. }
  rewrite D in K. destruct (beqb k' k) eqn:B; [|now apply H]. apply beqb_eq in B. subst k'. injection K as <-. auto.
Qed.
Lemma honest_perform r m m' : honest m -> perform r m = Ok m' -> honest m'.
Proof.
  intros H. destruct r as [k|k]; cbn [perform]; unfold addGradient, getGradient; destruct (alookup beqb k m) as [d|] eqn:E.
  - now intros [= <-].
  - destruct (parseGradient k) as [[|x d]| |] eqn:P; cbn [bind]; try discriminate; intros [= <-]; [exact H|]. apply honest_set; auto; discriminate.
  - cbn. now intros [= <-].
  - destruct (parseGradient k) as [[|x d]| |] eqn:P; cbn; try discriminate; intros [= <-]. apply honest_set; auto; discriminate.
Qed.
Theorem C76_provider : forall l m k, performAll l [] = Ok m ->
  omap fst (getGradient k m) = match parseGradient k with Ok [] => Throw MapcssError | o => o end.
Proof.
  intros l m k R. assert (H : honest m).
  { assert (A : forall l m0, honest m0 -> performAll l m0 = Ok m -> honest m).
    { clear R. intros q. induction q as [|r q IH]; intros m0 H0 R; cbn [performAll] in R; [now injection R as <-|].
      destruct (perform r m0) as [m1| |] eqn:P; try discriminate. cbn [bind] in R. apply (IH m1); [|exact R]. eapply honest_perform; eauto. }
    apply (A l []); [intros ? ?; discriminate|exact R]. }
  unfold getGradient. destruct (alookup beqb k m) as [d|] eqn:E.
  - destruct (H k d E) as [-> N]. cbn. destruct d; [congruence|reflexivity].
  - destruct (parseGradient k) as [[|x d]| |]; reflexivity.
Qed.
Print Assumptions C76_provider.
Example C76_provider_case : exists m, performAll [Add (str "red"); Get (str "gradient(#0fffff, red 50%)"); Get (str "red")] [] = Ok m /\ length m = 2 /\
  omap fst (getGradient (str "red") m) = Ok [(0%Q, mkColor 255 0 0 255)] /\ omap fst (getGradient [] m) = Throw MapcssError.
Proof. eexists. split; [vm_compute; reflexivity|]. repeat split; reflexivity. Qed.
