(** Models of core/src/mapcss/StyleEvaluator.hpp/.cpp, StyleDeclaration.hpp and of the values of
    Style.hpp.  The arithmetic of double, the texts of numbers ([cast], boost::lexical_cast, and [number],
    qi::double_) and the tags of the element are parameters. *)
From Verif Require Import Base Bytes RingModel Peg.

(** StyleEvaluator.hpp:26-33, Operand, with Tag and Signed (lines 27, 35-38). *)
Inductive operand (T : Type) : Type :=
| ONil
| ODouble (v : T)
| OString (s : bytes)
| OTag (key : bytes)
| OSigned (sign : N) (o : operand T).
Arguments ONil {T}. Arguments ODouble {T}. Arguments OString {T}. Arguments OTag {T}. Arguments OSigned {T}.

(** StyleEvaluator.hpp:40-48, Operation and Tree. *)
Record tree (T : Type) := mkTree { first : operand T; rest : list (N * operand T) }.
Arguments mkTree {T}. Arguments first {T}. Arguments rest {T}.

Section Eval.
  Context {T : Type} (n : nums T).
  Variable number : bytes -> option (T * bytes).
  Variable cast : bytes -> option T.
  Variable show : T -> bytes.
  (** StyleEvaluator.hpp:96-97, 150: the text of a tag of the element; see TagModel.getTagString. *)
  Variable tagText : bytes -> outcome bytes.

  (** core/src/utils/CoreUtils.hpp:55-62, parseDouble. *)
  Definition parseDouble (s : bytes) : T := match cast s with Some v => v | None => nzero n end.

  (** StyleEvaluator.hpp:83-109, the operators () of DoubleEvaluator. *)
  Fixpoint operandDouble (o : operand T) : outcome T :=
    match o with
    | ONil => Ok (nzero n)
    | ODouble v => Ok v
    | OString s => Ok (parseDouble s)
    | OTag k => omap parseDouble (tagText k)
    | OSigned sign o' =>
        bind (operandDouble o') (fun v =>
        if N.eqb sign 45 then Ok (nsub n (nzero n) v) else if N.eqb sign 43 then Ok v else Ok (nzero n))
    end.
  (** StyleEvaluator.hpp:119-128, apply. *)
  Definition applyDouble (state : T) (op : N) (v : T) : T :=
    if N.eqb op 43 then nadd n state v else if N.eqb op 45 then nsub n state v
    else if N.eqb op 42 then nmul n state v else if N.eqb op 47 then ndiv n state v else state.
  (** StyleEvaluator.hpp:113-114: the loop. *)
  Fixpoint opsDouble (state : T) (ops : list (N * operand T)) : outcome T :=
    match ops with
    | [] => Ok state
    | (op, o) :: ops' => bind (operandDouble o) (fun v => opsDouble (applyDouble state op v) ops')
    end.
  (** StyleEvaluator.hpp:111-116, visit. *)
  Definition evalDouble (t : tree T) : outcome T :=
    bind (operandDouble (first t)) (fun v => opsDouble v (rest t)).

  (** StyleEvaluator.hpp:137-155, the operators () of StringEvaluator. *)
  Definition operandString (o : operand T) : outcome bytes :=
    match o with
    | ONil => Ok []
    | ODouble v => Ok (show v)
    | OString s => Ok s
    | OTag k => tagText k
    | OSigned _ _ => Throw DomainError
    end.
  (** StyleEvaluator.hpp:157-172, visit and apply. *)
  Fixpoint opsString (state : bytes) (ops : list (N * operand T)) : outcome bytes :=
    match ops with
    | [] => Ok state
    | (op, o) :: ops' =>
        bind (operandString o) (fun s => if N.eqb op 43 then opsString (state ++ s) ops' else Throw DomainError)
    end.
  (** StyleEvaluator.hpp:157-162. *)
  Definition evalString (t : tree T) : outcome bytes :=
    bind (operandString (first t)) (fun s => opsString s (rest t)).

  (** ** Parsing *)
  (** The literals of StyleEvaluator.cpp:31, 40. *)
  Definition litEval : bytes := [101; 118; 97; 108; 40; 34]%N.
  (** The end of the same rule (StyleEvaluator.cpp:31). *)
  Definition litClose : bytes := [34; 41]%N.
  (** StyleEvaluator.cpp:40. *)
  Definition litTag : bytes := [116; 97; 103; 40; 39]%N.
  (** StyleEvaluator.cpp:40. *)
  Definition litTagEnd : bytes := [39; 41]%N.
  (** StyleEvaluator.cpp:43. *)
  Definition litQuote : bytes := [39]%N.
  (** StyleEvaluator.cpp:40, 43: ascii::char_ - '\''. *)
  Definition inQuotes (c : N) : bool := isAscii c && negb (N.eqb c 39).
  (** qi::double_ (StyleEvaluator.cpp:37). *)
  Definition pnumber : parser T := fun s => match number s with Some (v, r) => Parsed v r | None => Fail end.
  (** StyleEvaluator.cpp:39-40, the rule tag, which does not skip spaces inside. *)
  Definition ptag : parser (operand T) :=
    pbind (plit litTag) (fun _ => pbind (pchars1 inQuotes) (fun k => pbind (plit litTagEnd) (fun _ => preturn (OTag k)))).
  (** StyleEvaluator.cpp:42-43, the rule string. *)
  Definition pstring : parser (operand T) :=
    pbind (plit litQuote) (fun _ => pbind (pchars1 inQuotes) (fun k => pbind (plit litQuote) (fun _ => preturn (OString k)))).
  (** StyleEvaluator.cpp:36-37, the rule operand. *)
  Definition poperand : parser (operand T) :=
    por (pbind (pskip skipSpaces pnumber) (fun v => preturn (ODouble v))) (por (pskip skipSpaces ptag) (pskip skipSpaces pstring)).
  (** StyleEvaluator.cpp:34: the signs of operations. *)
  Definition isOperator (c : N) : bool := N.eqb c 43 || N.eqb c 45 || N.eqb c 47 || N.eqb c 42.
  (** StyleEvaluator.cpp:33-34, the rule operation. *)
  Definition poperation : parser (N * operand T) :=
    pbind (pskip skipSpaces (pchar isOperator)) (fun c => pbind poperand (fun o => preturn (c, o))).
  (** StyleEvaluator.cpp:30-31, the rule expression. *)
  Definition pexpression : parser (tree T) :=
    pbind (pskip skipSpaces (plit litEval)) (fun _ => pbind poperand (fun o => pbind (pmany poperation) (fun ops =>
    pbind (pskip skipSpaces (plit litClose)) (fun _ => preturn (mkTree o ops))))).
  (** StyleEvaluator.cpp:77-90, parse. *)
  Definition parseEval (s : bytes) : option (tree T) :=
    match pexpression s with
    | Parsed t r => match skipSpaces r with [] => Some t | _ => None end
    | _ => None
    end.

  (** ** Values of a style *)
  (** StyleDeclaration.hpp:43-51 and Style.hpp:99-109, getString of a declaration, if there is one. *)
  Definition getString (value : option bytes) : outcome bytes :=
    match value with
    | None => Ok []
    | Some raw => match parseEval raw with Some t => evalString t | None => Ok raw end
    end.

  (** core/src/utils/GeoUtils.hpp:104-109, getOffset at the centre of the box, for a valid box. *)
  Variable offset : option (T -> T).
  (** 0.01 (Style.hpp:151). *)
  Variable hundredth : T.
  (** Style.hpp:132-157, getValue; the last character of an empty value is undefined. *)
  Definition getValue (value : option bytes) (relativeSize : T) : outcome T :=
    match value with
    | None => Ok (nzero n)
    | Some raw =>
        match rev raw with
        | [] => UB
        | dimen :: r =>
            if N.eqb dimen 109 then
              let v := parseDouble (rev r) in Ok (match offset with Some f => f v | None => v end)
            else if N.eqb dimen 37 then Ok (nmul n (nmul n relativeSize (parseDouble (rev r))) hundredth)
            else match parseEval raw with Some t => evalDouble t | None => Ok (parseDouble raw) end
        end
    end.
End Eval.
