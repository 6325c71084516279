(** C58: parsing a stylesheet. *)
From Coq Require Import String.
From Verif Require Import Base Bytes StyleModel JsonModel Peg PegProofs MapCssModel MapCssSpec MapCssProofs.
Local Open Scope list_scope.

(** A text written as intended gives its rules in order, the imported ones in the place of the import, its textures,
    and under every name the first L-system.  Missing from the full claim: the texts below. *)
Theorem C58_written_partial : forall file atlasOf lsystemOf directory t g rs ts ls,
  cleanWritten file atlasOf lsystemOf directory t rs ts ls -> gap g ->
  exists d0, forall d, (d0 <= d)%nat -> exists sh, parseSheet file atlasOf lsystemOf directory d (t ++ g) = Ran (Ok sh) /\
    rules sh = rs /\ textures sh = ts /\ forall k, alookup beqb k (lsystems sh) = alookup beqb k ls.
Proof.
  intros file at_ ls_ dir t g rs ts ls W G. destruct (items_ok file at_ ls_ dir t rs ts ls W) as (d0 & H). exists (S d0). intros d L.
  destruct d as [|d]; [lia|]. destruct (H d ltac:(lia) g (mkSheet [] [] []) (S (List.length (t ++ g)))) as (sh & E & A1 & A2 & A3).
  - rewrite <- (app_nil_r g). apply stops_unnoticed; [exact G|exact unnoticed_nil].
  - lia.
  - eexists. unfold parseSheet. cbn [parseInto]. rewrite E. cbn [rbind]. split; [reflexivity|]. cbn [rules textures lsystems]. auto.
Qed.
Print Assumptions C58_written_partial.

(** Whatever is accepted is explained by a beginning of the text, which is written as laid down in the specification
    (with fewer restrictions on words and numbers); nothing else gets into the stylesheet. *)
Theorem C58_explained : forall file atlasOf lsystemOf directory d s sh,
  parseSheet file atlasOf lsystemOf directory d s = Ran (Ok sh) ->
  exists t rest ls, s = t ++ rest /\ laxWritten file atlasOf lsystemOf directory t (rules sh) (textures sh) ls /\
    forall k, alookup beqb k (lsystems sh) = alookup beqb k ls.
Proof.
  intros file at_ ls_ dir d s sh H. unfold parseSheet in H.
  destruct (parseInto file at_ ls_ dir d s (mkSheet [] [] [])) as [|[sh1| |]] eqn:E; cbn [rbind] in H; try discriminate.
  injection H as <-. apply parse_inv in E as (t & rest & rs & ts & ls & -> & W & A1 & A2 & A3).
  unfold visible in A1. cbn [rules textures lsystems] in *. cbn [List.filter app] in A1, A2, A3. rewrite A1, A2. exists t, rest, ls. auto.
Qed.
Print Assumptions C58_explained.

(** The depth of imports does not matter once it is enough. *)
Theorem C58_depth : forall file atlasOf lsystemOf directory d d' s o, (d <= d')%nat ->
  parseSheet file atlasOf lsystemOf directory d s = Ran o -> parseSheet file atlasOf lsystemOf directory d' s = Ran o.
Proof.
  intros file at_ ls_ dir d d' s o L H. unfold parseSheet in *.
  destruct (parseInto file at_ ls_ dir d s (mkSheet [] [] [])) as [|o1] eqn:E; [discriminate|].
  now rewrite (parse_mono _ _ _ _ d d' _ _ _ L E).
Qed.
Print Assumptions C58_depth.

(** A sheet may end in text without a keyword, in a selector which goes on wrongly behind its name, or in a selector
    without a condition: everything from there on is dropped without an error, whatever it is. *)
Theorem C58_unnoticed : forall file atlasOf lsystemOf directory t g x rs ts ls,
  cleanWritten file atlasOf lsystemOf directory t rs ts ls -> gap g -> unnoticed x ->
  exists d0, forall d, (d0 <= d)%nat -> exists sh, parseSheet file atlasOf lsystemOf directory d (t ++ g ++ x) = Ran (Ok sh) /\
    rules sh = rs /\ textures sh = ts /\ forall k, alookup beqb k (lsystems sh) = alookup beqb k ls.
Proof.
  intros file at_ ls_ dir t g x rs ts ls W G U. destruct (items_ok file at_ ls_ dir t rs ts ls W) as (d0 & H). exists (S d0). intros d L.
  destruct d as [|d]; [lia|]. destruct (H d ltac:(lia) (g ++ x) (mkSheet [] [] []) (S (List.length (t ++ g ++ x)))) as (sh & E & A1 & A2 & A3).
  - now apply stops_unnoticed.
  - lia.
  - eexists. unfold parseSheet. cbn [parseInto]. rewrite E. cbn [rbind]. split; [reflexivity|]. cbn [rules textures lsystems]. auto.
Qed.
Print Assumptions C58_unnoticed.

(** A rule which begins well and goes wrong is reported: behind its selectors, in its level or condition, without
    declarations, without a semicolon at the end, without a closing brace. *)
Theorem C58_reported : forall file atlasOf lsystemOf directory t g x rs ts ls,
  cleanWritten file atlasOf lsystemOf directory t rs ts ls -> gap g -> broken x ->
  exists d0, forall d, (d0 <= d)%nat -> parseSheet file atlasOf lsystemOf directory d (t ++ g ++ x) = Ran (Throw MapcssError).
Proof.
  intros file at_ ls_ dir t g x rs ts ls W G B. destruct (items_broken file at_ ls_ dir t g x rs ts ls W G B) as (d0 & H).
  exists (S d0). intros d L. destruct d as [|d]; [lia|]. unfold parseSheet. cbn [parseInto]. now rewrite H by lia.
Qed.
Print Assumptions C58_reported.

(** A texture or an L-system which is not there is an error. *)
Theorem C58_missing_file : forall file atlasOf lsystemOf directory d g g1 url what s,
  gap g -> gap g1 -> cleanUrl url -> file (directory ++ url) = None -> In what [str "@texture"; str "@lsystem"] ->
  parseSheet file atlasOf lsystemOf directory (S d) (g ++ quoted what url g1 ++ s) = Ran (Throw MapcssError).
Proof.
  intros file at_ ls_ dir d g g1 url what s G G1 U F I. unfold parseSheet. cbn [parseInto items].
  destruct I as [<-|[<-|[]]].
  - rewrite at_rule_no by (apply (quoted_next (str "@texture")); [reflexivity|exact G]).
    rewrite url_other by (try assumption; reflexivity).
    rewrite (url_ok (str "@texture") litTexture) by (try assumption; reflexivity). unfold afterUrl, addAtlas, getContent. now rewrite F.
  - rewrite at_rule_no by (apply (quoted_next (str "@lsystem")); [reflexivity|exact G]).
    rewrite url_other by (try assumption; reflexivity). rewrite url_other by (try assumption; reflexivity).
    rewrite (url_ok (str "@lsystem") litLsystem) by (try assumption; reflexivity). unfold afterUrl, addLsystem, getContent. now rewrite F.
Qed.
Print Assumptions C58_missing_file.

(** ** Texts which do not mean what they say *)
Section Witness.
Definition noFile (_ : bytes) : option bytes := None.
Definition parse1 (s : string) : run sheet := parseSheet noFile (fun _ => UB) (fun _ => UB) [] 5 (str s).
Definition only (rs : list rule) : run sheet := Ran (Ok (mkSheet rs [] [])).
Definition wayRule (z : zoom) (c : condition) (k v : string) : rule := mkRule [mkSelector [sWay] z [c]] [mkDecl (str k) (str v)].
Definition has (k : string) : condition := mkCondition (str k) [] [].

(** One letter too many in a selector: this rule and all rules behind it are lost, and nothing is reported. *)
Theorem C58_lost_refuted :
  parse1 "way|z1[a]{b:c;} ways|z1[a]{b:c;} node|z1[a]{b:c;}" = only [wayRule (mkZoom 1 1) (has "a") "b" "c"].
Proof. vm_compute. reflexivity. Qed.
Print Assumptions C58_lost_refuted.

(** A forgotten semicolon: the next rule becomes part of a value. *)
Theorem C58_semicolon_refuted :
  parse1 "way|z1[a]{b:c} node|z1[d]{e:f;}" = only [wayRule (mkZoom 1 1) (has "a") "b" "c} node|z1[d]{e:f"].
Proof. vm_compute. reflexivity. Qed.
Print Assumptions C58_semicolon_refuted.

(** A blank before an operator belongs to the key, one behind the key of a declaration too, and a comment in a value to
    the value. *)
Theorem C58_blank_refuted :
  parse1 "way|z1[a = b]{c : d /* e */;}" =
    only [wayRule (mkZoom 1 1) (mkCondition (str "a ") (str "=") (str "b")) "c " "d /* e */"].
Proof. vm_compute. reflexivity. Qed.
Print Assumptions C58_blank_refuted.

(** Levels are cut to eight bits. *)
Theorem C58_level_refuted :
  parse1 "way|z300--1[a]{b:c;}" = only [wayRule (mkZoom 44 255) (has "a") "b" "c"].
Proof. vm_compute. reflexivity. Qed.
Print Assumptions C58_level_refuted.

(** A letter outside of ASCII is an error, even in the text of a name. *)
Theorem C58_letters_refuted :
  parseSheet noFile (fun _ => UB) (fun _ => UB) [] 5 (str "way|z1[a=" ++ [195; 188]%N ++ str "]{b:c;}") = Ran (Throw MapcssError) /\
  parseSheet noFile (fun _ => UB) (fun _ => UB) [] 5 (str "way|z1[a]{b:" ++ [195; 188]%N ++ str ";}") = Ran (Throw MapcssError).
Proof. split; vm_compute; reflexivity. Qed.
Print Assumptions C58_letters_refuted.

(** An import of a file which is not there is left out silently. *)
Theorem C58_import_refuted : forall file atlasOf lsystemOf directory url, cleanUrl url -> file (directory ++ url) = None ->
  exists d0, forall d, (d0 <= d)%nat -> exists sh,
    parseSheet file atlasOf lsystemOf directory d (quoted (str "@import") url []) = Ran (Ok sh) /\ rules sh = [] /\ textures sh = [].
Proof.
  intros file at_ ls_ dir url U F.
  destruct (C58_written_partial file at_ ls_ dir ([] ++ quoted (str "@import") url [] ++ []) [] ([] ++ []) ([] ++ []) ([] ++ [])) as (d0 & H).
  - eapply w_import; [constructor|constructor|exact U|rewrite F; instantiate (1 := []); instantiate (1 := []); reflexivity|constructor|apply w_end|apply w_end].
  - constructor.
  - exists d0. intros d L. destruct (H d L) as (sh & E & R & T & _). cbn [app] in E. rewrite !app_nil_r in E. exists sh. auto.
Qed.
Print Assumptions C58_import_refuted.

(** A file which imports itself is read again and again. *)
Theorem C58_cycle_refuted : forall atlasOf lsystemOf directory file url rest, cleanUrl url ->
  file (directory ++ url) = Some (quoted (str "@import") url [] ++ rest) ->
  forall d, parseSheet file atlasOf lsystemOf directory d (quoted (str "@import") url [] ++ rest) = Deep.
Proof.
  intros at_ ls_ dir file url rest U F d. unfold parseSheet.
  assert (H : forall d sh, parseInto file at_ ls_ dir d (quoted (str "@import") url [] ++ rest) sh = Deep).
  { clear d. induction d as [|d IH]; intros sh; [reflexivity|]. cbn [parseInto items].
    pose proof (at_rule_no ([] ++ quoted (str "@import") url [] ++ rest)) as R. cbn [app] in R.
    rewrite R by (apply (quoted_next (str "@import") url []); [reflexivity|constructor]).
    pose proof (url_ok (str "@import") litImport [] [] url rest eq_refl eq_refl gap_nil gap_nil U) as E. cbn [app] in E. rewrite E.
    unfold afterUrl, readImport. rewrite F, IH. reflexivity. }
  now rewrite H.
Qed.
Print Assumptions C58_cycle_refuted.
End Witness.

(** ** Cases which meet the hypotheses *)
Lemma ascii_word bad w : w <> [] -> forallb (fun c => N.ltb c 128 && negb (existsb (N.eqb c) bad)) w = true ->
  plainLit w -> cleanWord bad w.
Proof.
  intros W F P. split; [exact W|]. split; [|rewrite <- (app_nil_r w); now apply plainLit_opens].
  rewrite forallb_forall in F. apply Forall_forall. intros c I. apply F in I. apply andb_prop in I as [A B].
  split; [now apply N.ltb_lt|]. intros X. apply negb_true_iff in B. rewrite <- not_true_iff_false in B. apply B.
  apply existsb_exists. exists c. split; [exact X|apply N.eqb_refl].
Qed.
Lemma blanks n : gap (repeat 32%N n).
Proof. induction n; cbn [repeat]; constructor; [left; reflexivity|assumption]. Qed.

(** A rule with two selectors, and an import in front whose file holds another rule. *)
Definition exampleFile (n : bytes) : option bytes := if beqb n (str "m/x") then Some (str "canvas|z0-3{a:b;} ") else None.
Definition exampleText : bytes := str "@import url(" ++ [34%N] ++ str "x" ++ [34%N] ++ str "); area,way|z1[a=b] { color: #fff; }".
Definition exampleRules : list rule :=
  [ mkRule [mkSelector [sCanvas] (mkZoom 0 3) []] [mkDecl (str "a") (str "b")];
    mkRule [mkSelector [sArea; sWay] (mkZoom 1 1) [mkCondition (str "a") (str "=") (str "b")]] [mkDecl (str "color") (str "#fff")] ].

Lemma digit_text (a : N) : (a <= 9)%N -> decimal [(48 + a)%N] (Z.of_N a).
Proof. apply dec_one. Qed.
Example C58_example_written : cleanWritten exampleFile (fun _ => UB) (fun _ => UB) (str "m/") exampleText exampleRules [] [].
Proof.
  change exampleText with ([] ++ quoted (str "@import") (str "x") [] ++ ([32%N] ++ str "area,way|z1[a=b] { color: #fff; }" ++ [])).
  change exampleRules with ([hd (mkRule [] []) exampleRules] ++ tl exampleRules).
  change (@nil atlas) with (@nil atlas ++ []). change (@nil (bytes * N)) with (@nil (bytes * N) ++ []).
  eapply w_import with (t := [] ++ str "canvas|z0-3{a:b;}" ++ []) (left := [32%N]).
  - constructor.
  - constructor.
  - apply ascii_word; [discriminate|reflexivity|reflexivity].
  - reflexivity.
  - apply (blanks 1).
  - apply w_rule; [constructor| |constructor].
    change (str "canvas|z0-3{a:b;}") with (str "canvas|z0-3" ++ [] ++ str "{" ++ ([] ++ str "a:b;" ++ []) ++ [] ++ str "}").
    apply rule_text; [apply sep_one|constructor|discriminate| |constructor].
    + eapply (sel_canvas _ _ [] _ [] []); [constructor|constructor| |reflexivity].
      apply (cz_two [] [48%N] 0 [] [] [51%N] 3); [exact gap_nil|apply (digit_text 0); discriminate|discriminate|exact gap_nil|exact gap_nil|apply (digit_text 3); discriminate|discriminate].
    + apply many_cons; [constructor| |constructor]. exists []. split; [constructor|].
      split; [apply ascii_word; [discriminate|reflexivity|reflexivity]|]. split; [apply ascii_word; [discriminate|reflexivity|reflexivity]|reflexivity].
  - apply w_rule; [apply (blanks 1)| |constructor].
    change (str "area,way|z1[a=b] { color: #fff; }") with
      (str "area,way|z1[a=b]" ++ [32%N] ++ str "{" ++ ([32%N] ++ str "color: #fff;" ++ []) ++ [32%N] ++ str "}").
    apply rule_text; [apply sep_one|apply (blanks 1)|discriminate| |apply (blanks 1)].
    + change (str "area,way|z1[a=b]") with (str "area,way" ++ [] ++ str "|z1" ++ ([] ++ str "[a=b]" ++ [])).
      apply sel_named; [|constructor| |discriminate|].
      * change (str "area,way") with (sArea ++ [] ++ str "," ++ [] ++ sWay).
        apply sep_more; [split; [reflexivity|cbn; auto]|constructor|constructor|]. apply sep_one. split; [reflexivity|cbn; auto].
      * apply (cz_one [] [49%N] 1); [exact gap_nil|apply (digit_text 1); discriminate|discriminate].
      * apply many_cons; [constructor| |constructor].
        apply (cc_op [] (str "a") sEq [] (str "b")); try constructor; try discriminate; try reflexivity.
        -- split; [repeat constructor; cbn; intuition discriminate|]. apply (plainLit_opens (str "a") []). reflexivity.
        -- split; [repeat constructor; cbn; intuition discriminate|]. apply (plainLit_opens (str "b") []). reflexivity.
    + apply many_cons; [apply (blanks 1)| |constructor]. exists [32%N]. split; [apply (blanks 1)|].
      split; [apply ascii_word; [discriminate|reflexivity|reflexivity]|]. split; [apply ascii_word; [discriminate|reflexivity|reflexivity]|reflexivity].
Qed.
Example C58_example_parse : parseSheet exampleFile (fun _ => UB) (fun _ => UB) (str "m/") 3 exampleText = only exampleRules.
Proof. vm_compute. reflexivity. Qed.
Example C58_example_unnoticed : unnoticed (str "ways|z1[a]{b:c;}") /\ unnoticed (str "way|z1{b:c;}") /\ unnoticed (str "#x") /\ unnoticed [].
Proof.
  split; [|split; [|split; [|exact unnoticed_nil]]].
  - right. left. exists sWay, (str "s|z1[a]{b:c;}"). split; [split; [reflexivity|cbn; auto]|]. split; [reflexivity|].
    split; [apply plain_opens; reflexivity|]. split; intros q E; discriminate E.
  - right. right. exists [sWay], sWay, [], (mkZoom 1 1), (str "|z1"), 123%N, (str "b:c;}").
    split; [apply sep_one; split; [reflexivity|cbn; auto]|]. split; [constructor|].
    split; [apply (cz_one [] [49%N] 1); [exact gap_nil|apply (digit_text 1); discriminate|discriminate]|].
    split; [reflexivity|]. split; [apply plain_opens; reflexivity|]. split; [lia|cbn; lia].
  - left. split; [apply plain_opens; reflexivity|]. intros k r H E. unfold keywords in H. cbn [In] in H.
    repeat (destruct H as [<-|H]; [discriminate E|]). contradiction.
Qed.
Example C58_example_cycle :
  let text := quoted (str "@import") (str "x") [] in
  parseSheet (fun _ => Some text) (fun _ => UB) (fun _ => UB) [] 20 text = Deep.
Proof. vm_compute. reflexivity. Qed.
Example C58_example_reported : broken (str "canvas|z0-3;") /\ broken (str "canvas|z0-3{ }") /\ broken (str "element[a]{b:c;}") /\
  broken (str "way|z1[]{b:c;}").
Proof.
  assert (H : header (str "canvas|z0-3")).
  { eexists. apply sep_one. eapply (sel_canvas _ _ [] _ [] []); [constructor|constructor| |reflexivity].
    apply (cz_two [] [48%N] 0 [] [] [51%N] 3); [exact gap_nil|apply (digit_text 0); discriminate|discriminate|exact gap_nil|exact gap_nil|apply (digit_text 3); discriminate|discriminate]. }
  split; [|split; [|split]].
  - apply (br_header (str "canvas|z0-3") [] (str ";")); [exact H|constructor|apply plain_opens; reflexivity|]. cbn. lia.
  - apply (br_empty (str "canvas|z0-3") [] [32%N] []); [exact H|constructor|apply (blanks 1)].
  - apply (br_level sElement [] (str "[a]{b:c;}")); [cbn; auto|constructor|apply plain_opens; reflexivity| |]; intros q E; discriminate E.
  - apply (br_cond [sWay] sWay [] (mkZoom 1 1) (str "|z1") [] [] (str "{b:c;}")); try constructor.
    + split; [reflexivity|cbn; auto].
    + apply (cz_one [] [49%N] 1); [exact gap_nil|apply (digit_text 1); discriminate|discriminate].
Qed.
