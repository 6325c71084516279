(** Model of core/src/lsys/LSystemParser.cpp, the parser of L-system files, with the semantics of Boost.Spirit of Peg.v.
    qi::double_ is a parameter ([number]).  All line numbers are of that file unless said otherwise. *)
From Coq Require Import String.
From Verif Require Import Base Bytes JsonModel Peg LsysModel.
Local Open Scope list_scope.

(** The line feed (LSystemParser.cpp:90, 126). *)
Definition feed : bytes := [10%N].
(** LSystemParser.cpp:90: everything up to the line feed, and the line feed. *)
Fixpoint afterFeed (s : bytes) : option bytes :=
  match s with [] => None | c :: s' => if N.eqb c 10 then Some s' else afterFeed s' end.
(** LSystemParser.cpp:86-94, CommentSkipper: one match. *)
Definition skipComment (s : bytes) : option bytes :=
  match s with
  | [] => None
  | c :: s' => if N.eqb c 32 then Some s' else if N.eqb c 35 then afterFeed s' else None
  end.
(** qi::skip_over (LSystemParser.cpp:169): as long as it matches. *)
Fixpoint skipCommentFuel (fuel : nat) (s : bytes) : bytes :=
  match fuel with
  | O => s
  | S fuel' => match skipComment s with Some r => skipCommentFuel fuel' r | None => s end
  end.
(** LSystemParser.cpp:169; every match takes a character, so that the length is enough. *)
Definition skipComments (s : bytes) : bytes := skipCommentFuel (List.length s) s.
(** A literal behind the skipper (e.g. LSystemParser.cpp:136). *)
Definition tokC (l : bytes) : parser unit := pskip skipComments (plit l).

(** LSystemParser.cpp:44-64, RuleTable. *)
Definition symbolOf (c : N) : option rule :=
  if N.eqb c 70 then Some Forward else if N.eqb c 71 then Some Jump else if N.eqb c 43 then Some TurnLeft
  else if N.eqb c 45 then Some TurnRight else if N.eqb c 124 then Some TurnAround else if N.eqb c 94 then Some PitchUp
  else if N.eqb c 38 then Some PitchDown else if N.eqb c 92 then Some RollLeft else if N.eqb c 47 then Some RollRight
  else if N.eqb c 36 then Some Increment else if N.eqb c 33 then Some Decrement else if N.eqb c 62 then Some ScaleUp
  else if N.eqb c 60 then Some ScaleDown else if N.eqb c 64 then Some SwitchStyle else if N.eqb c 91 then Some Save
  else if N.eqb c 93 then Some Restore else None.
(** LSystemParser.cpp:102: the symbols; all of them have one character. *)
Definition psymbol : parser rule := fun s =>
  match s with c :: s' => match symbolOf c with Some r => Parsed r s' | None => Fail end | [] => Fail end.
(** ascii::alpha (LSystemParser.cpp:100). *)
Definition isAlpha (c : N) : bool := (N.leb 65 c && N.leb c 90) || (N.leb 97 c && N.leb c 122).
(** LSystemParser.cpp:99-100 and 66-74: a word. *)
Definition pword : parser rule := pbind (pchars1 isAlpha) (fun w => preturn (Word w)).
(** LSystemParser.cpp:102, rule; the skipper comes before either. *)
Definition prule : parser rule := pskip skipComments (por psymbol pword).

(** qi::int_ (LSystemParser.cpp:136): digits. *)
Definition isDigitL (c : N) : bool := N.leb 48 c && N.leb c 57.
(** qi::int_ (LSystemParser.cpp:136): the value of digits. *)
Fixpoint digitsFrom (acc : Z) (ds : bytes) : Z :=
  match ds with [] => acc | d :: ds' => digitsFrom (acc * 10 + (Z.of_N d - 48))%Z ds' end.
(** qi::int_ (LSystemParser.cpp:136): a sign may come first. *)
Definition signOf (s : bytes) : Z * bytes :=
  match s with c :: s' => if N.eqb c 45 then (-1, s')%Z else if N.eqb c 43 then (1, s')%Z else (1, s)%Z | [] => (1, s)%Z end.
(** qi::int_ (LSystemParser.cpp:136): a number which does not fit 32 bits is no match. *)
Definition pint : parser Z := fun s =>
  let '(sg, s') := signOf s in
  match spanOf isDigitL s' with
  | ([], _) => Fail
  | (ds, r) => let v := (sg * digitsFrom 0 ds)%Z in if ((-2147483648 <=? v) && (v <=? 2147483647))%Z then Parsed v r else Fail
  end.
(** +ascii::space (LSystemParser.cpp:136-138); blanks are taken by the skipper. *)
Definition pbreak : parser N := pskip skipComments (pchar isSpace).

Section Parser.
  Context {T : Type} (one : T) (rank : nat -> nat).
  (** qi::double_. *)
  Variable number : bytes -> option (T * bytes).

  (** qi::double_ behind the skipper (LSystemParser.cpp:119, 137). *)
  Definition pnumber : parser T := pskip skipComments (fun s => match number s with Some (v, r) => Parsed v r | None => Fail end).
  (** LSystemParser.cpp:118-119, probability. *)
  Definition pprobability : parser T :=
    por (pbind (tokC (str "(")) (fun _ => pbind (pexpect pnumber) (fun v => pbind (pexpect (tokC (str ")"))) (fun _ => preturn v)))) (preturn one).
  (** A production: what is replaced, the probability and the replacement (LSystem.hpp:18-20). *)
  Definition line : Type := rule * T * list rule.
  (** LSystemParser.cpp:122-123. *)
  Definition pproduction : parser line :=
    pbind prule (fun r => pbind (pexpect pprobability) (fun p => pbind (pexpect (tokC (str "->"))) (fun _ =>
    pbind (pexpect (pmany1 prule)) (fun l => preturn (r, p, l))))).
  (** LSystemParser.cpp:121-123: the productions, one per line. *)
  Definition pproductions : parser (list line) := plist pproduction (tokC feed).
  (** LSystemParser.cpp:136: a key, its number and at least one break. *)
  Definition pentry {A} (p : parser A) : parser A := pbind p (fun v => pbind (pmany1 pbreak) (fun _ => preturn v)).

  (** LSystem.hpp:15-36 as it is read: the productions as lines. *)
  Record written := mkWritten { wgens : Z; wangle : T; wscale : T; waxiom : list rule; wlines : list line }.
  (** LSystemParser.cpp:135-140. *)
  Definition psystem : parser written :=
    pbind (tokC (str "generations:")) (fun _ => pbind (pexpect (pentry (pskip skipComments pint))) (fun g =>
    pbind (pexpect (tokC (str "angle:"))) (fun _ => pbind (pexpect (pentry pnumber)) (fun a =>
    pbind (pexpect (tokC (str "scale:"))) (fun _ => pbind (pexpect (pentry pnumber)) (fun sc =>
    pbind (pexpect (tokC (str "axiom:"))) (fun _ => pbind (pexpect (pmany1 prule)) (fun ax =>
    pbind (pexpect (tokC feed)) (fun _ => pbind (pexpect pproductions) (fun ls =>
    preturn (mkWritten g a sc ax ls))))))))))).

  (** LSystem.hpp:15-36. *)
  Record lsystem := mkLsystem { generationsOf : Z; angleOf : T; scaleOf : T; axiomOf : list rule; productionsOf : productions T }.
  (** LSystemParser.cpp:76-84 and 123: the lines are put into the map one after the other. *)
  Definition insertAll (ls : list line) : productions T :=
    fold_left (fun ps l => addProduction rank ps (fst (fst l)) (snd (fst l)) (snd l)) ls [].
  (** LSystemParser.cpp:166-179: an exception if there is no match; text behind the match does not matter. *)
  Definition parseLsystem (s : bytes) : outcome lsystem :=
    match psystem s with
    | Parsed w _ => Ok (mkLsystem (wgens w) (wangle w) (wscale w) (waxiom w) (insertAll (wlines w)))
    | _ => Throw DomainError
    end.
End Parser.
