(** Model of core/src/mapcss/MapCssParser.cpp, the parser of stylesheets, with the semantics of Boost.Spirit of
    Peg.v.  The files ([file], none if a file cannot be opened), TextureAtlasParser and LSystemParser are
    parameters.  Imports call the parser again; the nesting of these calls is bounded by a depth, and running
    beyond it is the distinct result [Deep]. *)
From Coq Require Import String.
From Verif Require Import Base Bytes StyleModel JsonModel Peg.
Local Open Scope list_scope.

(** ** CommentSkipper, lines 64-74 *)
(** MapCssParser.cpp:69, 70: *(qi::char_ - close) >> close, the text behind the first occurrence of [close]. *)
Fixpoint behind (close s : bytes) : option bytes :=
  match plit close s with
  | Parsed _ r => Some r
  | _ => match s with [] => None | _ :: s' => behind close s' end
  end.
(** MapCssParser.cpp:69, 70: a comment. *)
Definition comment (open close s : bytes) : option bytes :=
  match plit open s with Parsed _ r => behind close r | _ => None end.
(** MapCssParser.cpp:67-70: one match of the skipper. *)
Definition skipOne (s : bytes) : option bytes :=
  match s with
  | [] => None
  | c :: s' =>
      if isSpace c then Some s'
      else match comment (str "/*") (str "*/") s with
           | Some r => Some r
           | None => comment (str "<!--") (str "-->") s
           end
  end.
(** qi::skip_over (MapCssParser.cpp:286): as long as the skipper matches. *)
Fixpoint skipFuel (fuel : nat) (s : bytes) : bytes :=
  match fuel with
  | O => s
  | S fuel' => match skipOne s with Some r => skipFuel fuel' r | None => s end
  end.
(** MapCssParser.cpp:286; every match takes a character, so that the length is enough. *)
Definition skipGap (s : bytes) : bytes := skipFuel (List.length s) s.

(** A literal behind a skipper (e.g. MapCssParser.cpp:79). *)
Definition tok (l : bytes) : parser unit := pskip skipGap (plit l).

(** ** ConditionGrammar, lines 76-101 *)
(** MapCssParser.cpp:88-92: binary without a skipper in front. *)
Definition binaryRaw : parser bytes :=
  por (pbind (plit sEq) (fun _ => preturn sEq)) (por (pbind (plit sNe) (fun _ => preturn sNe))
  (por (pbind (plit sGt) (fun _ => preturn sGt)) (pbind (plit sLt) (fun _ => preturn sLt)))).
(** MapCssParser.cpp:86: ascii::char_ - (']' | binary), at the head of a text. *)
Definition keyChar (s : bytes) : bool :=
  match s with
  | [] => false
  | c :: _ => isAscii c && negb (N.eqb c 93) && match binaryRaw s with Parsed _ _ => false | _ => true end
  end.
(** MapCssParser.cpp:86: the repetition. *)
Fixpoint keySpan (s : bytes) : bytes * bytes :=
  if keyChar s then match s with c :: s' => let '(a, r) := keySpan s' in (c :: a, r) | [] => ([], []) end else ([], s).
(** MapCssParser.cpp:85-86, keyValue; the skipper is applied in front as for every rule without one. *)
Definition pkeyValue : parser bytes := pskip skipGap (fun s => match keySpan s with ([], _) => Fail | (a, r) => Parsed a r end).
(** MapCssParser.cpp:88-92, binary as it is used at line 81. *)
Definition pbinary : parser bytes := pskip skipGap binaryRaw.
(** An attribute which is left empty (MapCssParser.cpp:81, 82). *)
Definition orEmpty (o : option bytes) : bytes := match o with Some b => b | None => [] end.
(** MapCssParser.cpp:79-83, start. *)
Definition pcondition : parser condition :=
  pbind (tok (str "[")) (fun _ => pbind (pexpect pkeyValue) (fun k => pbind (poption pbinary) (fun o =>
  pbind (poption pkeyValue) (fun v => pbind (pexpect (tok (str "]"))) (fun _ =>
  preturn (mkCondition k (orEmpty o) (orEmpty v))))))).

(** ** ZoomGrammar, lines 103-115 *)
(** qi::int_ (MapCssParser.cpp:107): digits. *)
Definition isDigit (c : N) : bool := N.leb 48 c && N.leb c 57.
(** qi::int_ (MapCssParser.cpp:107): the value of digits. *)
Fixpoint digitsFrom (acc : Z) (ds : bytes) : Z :=
  match ds with [] => acc | d :: ds' => digitsFrom (acc * 10 + (Z.of_N d - 48))%Z ds' end.
(** qi::int_ (MapCssParser.cpp:107): an optional sign and digits; a number which does not fit an int is no match. *)
Definition intRaw : parser Z := fun s =>
  let '(neg, s1) := match s with
                    | c :: r => if N.eqb c 45 then (true, r) else if N.eqb c 43 then (false, r) else (false, s)
                    | [] => (false, s)
                    end in
  match spanOf isDigit s1 with
  | ([], _) => Fail
  | (ds, r) =>
      let v := if (neg : bool) then (- digitsFrom 0 ds)%Z else digitsFrom 0 ds in
      if ((- 2 ^ 31 <=? v) && (v <? 2 ^ 31))%Z then Parsed v r else Fail
  end.
(** MapCssParser.cpp:107, 110: the int is assigned to a uint8_t. *)
Definition toLevel (v : Z) : N := Z.to_N (v mod 256).
(** MapCssParser.cpp:106-110, start; the end is the start if there is no second number. *)
Definition pzoom : parser zoom :=
  pbind (tok (str "|z")) (fun _ => pbind (pexpect (pskip skipGap intRaw)) (fun a =>
  pbind (poption (tok (str "-"))) (fun _ => pbind (poption (pskip skipGap intRaw)) (fun b =>
  preturn (mkZoom (toLevel a) (toLevel (match b with Some b => b | None => a end))))))).

(** ** SelectorGrammar, lines 117-137 *)
(** ascii::string (e.g. MapCssParser.cpp:121), behind the skipper. *)
Definition word (w : bytes) : parser bytes := pbind (tok w) (fun _ => preturn w).
(** MapCssParser.cpp:120-124, name. *)
Definition pname : parser bytes := por (word sNode) (por (word sWay) (por (word sArea) (word sRelation))).
(** MapCssParser.cpp:127. *)
Definition pnamed : parser selector :=
  pbind (plist pname (tok (str ","))) (fun ns => pbind pzoom (fun z => pbind (pmany1 pcondition) (fun cs =>
  preturn (mkSelector ns z cs)))).
(** MapCssParser.cpp:128. *)
Definition pcanvas : parser selector :=
  pbind (pmany1 (word sCanvas)) (fun ns => pbind (pexpect pzoom) (fun z => preturn (mkSelector ns z []))).
(** MapCssParser.cpp:129. *)
Definition pelement : parser selector :=
  pbind (pmany1 (word sElement)) (fun ns => pbind (pexpect pzoom) (fun z => pbind (pexpect pcondition) (fun c =>
  preturn (mkSelector ns z [c])))).
(** MapCssParser.cpp:126-129, start. *)
Definition pselector : parser selector := por pnamed (por pcanvas pelement).

(** ** DeclarationGrammar, lines 139-151 *)
(** MapCssParser.cpp:143: ascii::char_ - (':' | '}'). *)
Definition inKey (c : N) : bool := isAscii c && negb (N.eqb c 58) && negb (N.eqb c 125).
(** MapCssParser.cpp:145: ascii::char_ - ';'. *)
Definition inValue (c : N) : bool := isAscii c && negb (N.eqb c 59).
(** MapCssParser.cpp:142-146, start; only the first two parts may fail without an exception. *)
Definition pdeclaration : parser declaration :=
  pbind (pskip skipGap (pchars1 inKey)) (fun k => pbind (tok (str ":")) (fun _ =>
  pbind (pexpect (pskip skipGap (pchars1 inValue))) (fun v => pbind (pexpect (tok (str ";"))) (fun _ =>
  preturn (mkDecl k v))))).

(** ** RuleGrammar, lines 153-166 *)
(** MapCssParser.cpp:156-160, start. *)
Definition prule : parser rule :=
  pbind (plist pselector (tok (str ","))) (fun ss => pbind (pexpect (tok (str "{"))) (fun _ =>
  pbind (pexpect (pmany1 pdeclaration)) (fun ds => pbind (pexpect (tok (str "}"))) (fun _ =>
  preturn (mkRule ss ds))))).

(** ** Imports, lines 168-247 *)
(** The quotation mark (MapCssParser.cpp:173, 176). *)
Definition quote : bytes := [34%N].
(** MapCssParser.cpp:173. *)
Definition litImport : bytes := str "@import url(" ++ quote.
(** MapCssParser.cpp:204. *)
Definition litTexture : bytes := str "@texture url(" ++ quote.
(** MapCssParser.cpp:209. *)
Definition litLsystem : bytes := str "@lsystem url(" ++ quote.
(** MapCssParser.cpp:176, 206, 211. *)
Definition litUrlEnd : bytes := quote ++ str ");".
(** MapCssParser.cpp:174, 201: ascii::char_ without the quotation mark. *)
Definition inUrl (c : N) : bool := isAscii c && negb (N.eqb c 34).
(** MapCssParser.cpp:173-174, 204-205, 209-210: up to the action. *)
Definition purl (lit : bytes) : parser bytes :=
  pbind (tok lit) (fun _ => pexpect (pskip skipGap (pchars1 inUrl))).
(** MapCssParser.cpp:176, 206, 211: behind the action. *)
Definition purlEnd : parser unit := pexpect (tok litUrlEnd).

(** The rest of a text behind the last of some characters, if any occurs (CoreUtils.hpp:22, 26, find_last_of). *)
Fixpoint lastOf (f : N -> bool) (s : bytes) : option (bytes * bytes) :=
  match s with
  | [] => None
  | c :: s' =>
      match lastOf f s' with
      | Some (a, b) => Some (c :: a, b)
      | None => if f c then Some ([], s') else None
      end
  end.
(** core/src/utils/CoreUtils.hpp:20-30, getFileNameWithoutExtension. *)
Definition baseName (s : bytes) : bytes :=
  let p := match lastOf (fun c => N.eqb c 92 || N.eqb c 47) s with Some (_, b) => b | None => s end in
  match lastOf (fun c => N.eqb c 46) p with Some (a, _) => a | None => p end.

(** Result of a parse with imports (MapCssParser.cpp:181-186). *)
Inductive run (A : Type) := Deep | Ran (o : outcome A).
Arguments Deep {A}. Arguments Ran {A}.
(** Sequencing of results (MapCssParser.cpp:185). *)
Definition rbind {A B} (r : run A) (f : A -> run B) : run B :=
  match r with Deep => Deep | Ran (Ok a) => f a | Ran (Throw e) => Ran (Throw e) | Ran UB => Ran UB end.

Section Sheet.
  Variable file : bytes -> option bytes.
  Variable atlasOf : bytes -> outcome atlas.
  Variable lsystemOf : bytes -> outcome N.
  Variable directory : bytes.

  (** MapCssParser.cpp:259: the attribute is appended to the rules of the stylesheet. *)
  Definition addRule (r : rule) (sh : sheet) : sheet := mkSheet (rules sh ++ [r]) (textures sh) (lsystems sh).
  (** MapCssParser.cpp:298: imports append an empty rule. *)
  Definition emptyRule : rule := mkRule [] [].
  (** MapCssParser.cpp:232-237, getContent. *)
  Definition getContent (name : bytes) : outcome bytes :=
    match file (directory ++ name) with Some c => Ok c | None => Throw MapcssError end.
  (** MapCssParser.cpp:220-222, addAtlas. *)
  Definition addAtlas (name : bytes) (sh : sheet) : outcome sheet :=
    bind (getContent name) (fun c => bind (atlasOf c) (fun a =>
    Ok (mkSheet (rules sh) (textures sh ++ [a]) (lsystems sh)))).
  (** MapCssParser.cpp:228: unordered_map::emplace keeps an entry which is there. *)
  Definition emplaceSystem (name : bytes) (l : N) (m : list (bytes * N)) : list (bytes * N) :=
    match alookup beqb name m with Some _ => m | None => m ++ [(name, l)] end.
  (** MapCssParser.cpp:225-229, addLSystem. *)
  Definition addLsystem (name : bytes) (sh : sheet) : outcome sheet :=
    bind (getContent name) (fun c => bind (lsystemOf c) (fun l =>
    Ok (mkSheet (rules sh) (textures sh) (emplaceSystem (baseName name) l (lsystems sh))))).

  Section Items.
    (** MapCssParser.cpp:185: the nested call. *)
    Variable nested : bytes -> sheet -> run sheet.
    (** MapCssParser.cpp:181-186, readImport; a file which cannot be opened has no characters. *)
    Definition readImport (url : bytes) (sh : sheet) : run sheet :=
      nested (match file (directory ++ url) with Some c => c | None => [] end) sh.
    (** MapCssParser.cpp:173-176, 204-206, 209-211: an action between the url and the end, then the empty rule. *)
    Definition afterUrl (act : run sheet) (r : bytes) (k : sheet -> bytes -> run sheet) : run sheet :=
      rbind act (fun sh => match purlEnd r with Parsed _ r' => k (addRule emptyRule sh) r' | _ => Ran (Throw MapcssError) end).
    (** MapCssParser.cpp:258-259 and 262-272: the repetition; what does not begin a rule or an import ends it, and a failed
        expectation makes phrase_parse answer false (line 286). *)
    Fixpoint items (fuel : nat) (s : bytes) (sh : sheet) : run sheet :=
      match fuel with
      | O => Deep
      | S fuel' =>
          match prule s with
          | Unexpected => Ran (Throw MapcssError)
          | Parsed r s' => items fuel' s' (addRule r sh)
          | Fail =>
              match purl litImport s with
              | Unexpected => Ran (Throw MapcssError)
              | Parsed url s' => afterUrl (readImport url sh) s' (fun sh' s'' => items fuel' s'' sh')
              | Fail =>
                  match purl litTexture s with
                  | Unexpected => Ran (Throw MapcssError)
                  | Parsed url s' => afterUrl (Ran (addAtlas url sh)) s' (fun sh' s'' => items fuel' s'' sh')
                  | Fail =>
                      match purl litLsystem s with
                      | Unexpected => Ran (Throw MapcssError)
                      | Parsed url s' => afterUrl (Ran (addLsystem url sh)) s' (fun sh' s'' => items fuel' s'' sh')
                      | Fail => Ran (Ok sh)
                      end
                  end
              end
          end
      end.
  End Items.

  (** MapCssParser.cpp:281-288, parse: what is left of the text is not looked at. *)
  Fixpoint parseInto (depth : nat) (s : bytes) (sh : sheet) : run sheet :=
    match depth with
    | O => Deep
    | S d => items (parseInto d) (S (List.length s)) s sh
    end.
  (** MapCssParser.cpp:294-306, MapCssParser::parse. *)
  Definition parseSheet (depth : nat) (s : bytes) : run sheet :=
    rbind (parseInto depth s (mkSheet [] [] [])) (fun sh =>
    Ran (Ok (mkSheet (List.filter (fun r => match selectors r with [] => false | _ => true end) (rules sh))
                     (textures sh) (lsystems sh)))).
End Sheet.
