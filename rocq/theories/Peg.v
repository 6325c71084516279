(** The parts of Boost.Spirit (qi) used by the parsers of the repository, e.g.
    core/src/mapcss/StyleEvaluator.cpp:25-51 and MapCssParser.cpp:66-263: alternatives without
    backtracking into a successful one, greedy repetition, expectation points and skippers. *)
From Verif Require Import Base Bytes.

(** The result of a parser: no match, a failed expectation (an exception, operator > at e.g.
    MapCssParser.cpp:78), or an attribute and the text left. *)
Inductive parsed (A : Type) : Type :=
| Fail
| Unexpected
| Parsed (a : A) (rest : bytes).
Arguments Fail {A}. Arguments Unexpected {A}. Arguments Parsed {A}.

(** A qi parser (e.g. StyleEvaluator.cpp:30): a function of the text ahead. *)
Definition parser (A : Type) : Type := bytes -> parsed A.

(** operator >> (e.g. StyleEvaluator.cpp:31). *)
Definition pbind {A B} (p : parser A) (f : A -> parser B) : parser B := fun s =>
  match p s with Fail => Fail | Unexpected => Unexpected | Parsed a r => f a r end.
(** The attribute of a rule (e.g. StyleEvaluator.cpp:71-75). *)
Definition preturn {A} (a : A) : parser A := fun s => Parsed a s.
(** Failure (qi::eps(false), e.g. the end of alternatives at StyleEvaluator.cpp:37). *)
Definition pfail {A} : parser A := fun _ => Fail.
(** operator | (e.g. StyleEvaluator.cpp:37): the first which matches, from the same place. *)
Definition por {A} (p q : parser A) : parser A := fun s =>
  match p s with Fail => q s | r => r end.
(** operator > (e.g. MapCssParser.cpp:78): a failure is an exception. *)
Definition pexpect {A} (p : parser A) : parser A := fun s =>
  match p s with Fail => Unexpected | r => r end.
(** Optional parser, operator - (e.g. MapCssParser.cpp:79). *)
Definition poption {A} (p : parser A) : parser (option A) := fun s =>
  match p s with Fail => Parsed None s | Unexpected => Unexpected | Parsed a r => Parsed (Some a) r end.

(** Kleene star (e.g. StyleEvaluator.cpp:31); every match takes text, so that the length of the text is
    enough fuel. *)
Fixpoint pmanyFuel {A} (fuel : nat) (p : parser A) (s : bytes) : parsed (list A) :=
  match fuel with
  | O => Parsed [] s
  | S fuel' =>
      match p s with
      | Fail => Parsed [] s
      | Unexpected => Unexpected
      | Parsed a r =>
          match pmanyFuel fuel' p r with
          | Parsed l r' => Parsed (a :: l) r'
          | Unexpected => Unexpected
          | Fail => Fail
          end
      end
  end.
(** Kleene star (e.g. MapCssParser.cpp:241). *)
Definition pmany {A} (p : parser A) : parser (list A) := fun s => pmanyFuel (S (length s)) p s.
(** operator + (e.g. MapCssParser.cpp:160). *)
Definition pmany1 {A} (p : parser A) : parser (list A) :=
  pbind p (fun a => pbind (pmany p) (fun l => preturn (a :: l))).
(** operator % (e.g. MapCssParser.cpp:158): a separator without an item behind it is given back. *)
Definition plist {A B} (p : parser A) (sep : parser B) : parser (list A) :=
  pbind p (fun a => pbind (pmany (pbind sep (fun _ => p))) (fun l => preturn (a :: l))).

(** A literal (e.g. StyleEvaluator.cpp:31). *)
Fixpoint plit (l : bytes) : parser unit := fun s =>
  match l, s with
  | [], _ => Parsed tt s
  | c :: l', d :: s' => if N.eqb c d then plit l' s' else Fail
  | _ :: _, [] => Fail
  end.
(** A character of a set (e.g. StyleEvaluator.cpp:34). *)
Definition pchar (f : N -> bool) : parser N := fun s =>
  match s with c :: s' => if f c then Parsed c s' else Fail | [] => Fail end.
(** The longest run of characters of a set (e.g. StyleEvaluator.cpp:40). *)
Fixpoint spanOf (f : N -> bool) (s : bytes) : bytes * bytes :=
  match s with
  | c :: s' => if f c then let '(a, r) := spanOf f s' in (c :: a, r) else ([], s)
  | [] => ([], [])
  end.
(** A run of at least one character (e.g. StyleEvaluator.cpp:40). *)
Definition pchars1 (f : N -> bool) : parser bytes := fun s =>
  match spanOf f s with ([], _) => Fail | (a, r) => Parsed a r end.

(** ascii::space: blank and the control characters 9 to 13 (e.g. StyleEvaluator.cpp:84). *)
Definition isSpace (c : N) : bool := N.eqb c 32 || (N.leb 9 c && N.leb c 13).
(** ascii::char_: seven bits (e.g. StyleEvaluator.cpp:40). *)
Definition isAscii (c : N) : bool := N.ltb c 128.
(** Skipping of spaces before a parser (StyleEvaluator.cpp:84-85). *)
Definition skipSpaces (s : bytes) : bytes := snd (spanOf isSpace s).
(** A parser behind a skipper (e.g. StyleEvaluator.cpp:84-85). *)
Definition pskip {A} (sk : bytes -> bytes) (p : parser A) : parser A := fun s => p (sk s).
