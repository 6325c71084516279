(** The language of evaluated declarations, and what its expressions mean. *)
From Verif Require Import Base Bytes RingModel Peg EvalModel.

Section Spec.
  Context {T : Type} (n : nums T).
  (** The numerals of each number. *)
  Variable numeral : T -> bytes -> Prop.

  Definition blank (s : bytes) : Prop := Forall (fun c => isSpace c = true) s.
  (** Seven bit characters other than the quote, at least one of them. *)
  Definition quotable (s : bytes) : Prop := s <> [] /\ Forall (fun c => (c < 128)%N /\ c <> 39%N) s.

  (** 1.5, tag('key'), 'text'. *)
  Inductive writesOperand : operand T -> bytes -> Prop :=
  | WNumber v w : numeral v w -> writesOperand (ODouble v) w
  | WTag k : quotable k -> writesOperand (OTag k) ([116; 97; 103; 40; 39]%N ++ k ++ [39; 41]%N)
  | WString k : quotable k -> writesOperand (OString k) ([39]%N ++ k ++ [39]%N).
  (** + a - b ... *)
  Inductive writesRest : list (N * operand T) -> bytes -> Prop :=
  | WEnd : writesRest [] []
  | WOp op o l sp1 sp2 s r : In op [43; 45; 42; 47]%N -> blank sp1 -> blank sp2 ->
      writesOperand o s -> writesRest l r -> writesRest ((op, o) :: l) (sp1 ++ op :: sp2 ++ s ++ r).
  (** eval("a + b") *)
  Inductive writes : tree T -> bytes -> Prop :=
  | WTree o l sp1 sp2 sp3 sp4 s r : blank sp1 -> blank sp2 -> blank sp3 -> blank sp4 ->
      writesOperand o s -> writesRest l r ->
      writes (mkTree o l) (sp1 ++ [101; 118; 97; 108; 40; 34]%N ++ sp2 ++ s ++ r ++ sp3 ++ [34; 41]%N ++ sp4).

  (** What may follow a numeral: nothing, a space, an operator or the closing quote. *)
  Definition follows (r : bytes) : Prop :=
    match r with [] => True | c :: _ => isSpace c = true \/ In c [43; 45; 42; 47; 34]%N end.

  (** A number parser for the numerals: it takes numerals only, and takes a numeral whole if it is
      followed by one of those.  Numerals do not begin with a space, a quote or the letter t. *)
  Definition goodNumber (number : bytes -> option (T * bytes)) : Prop :=
    (forall s v r, number s = Some (v, r) -> exists w, s = w ++ r /\ numeral v w) /\
    (forall v w r, numeral v w -> follows r -> number (w ++ r) = Some (v, r)) /\
    (forall v w, numeral v w -> exists c w', w = c :: w' /\ isSpace c = false /\ c <> 39%N /\ c <> 116%N).

  (** An expression of arithmetic. *)
  Inductive arith := Leaf (v : T) | Bin (op : N) (a b : arith).
  Fixpoint value (e : arith) : T :=
    match e with
    | Leaf v => v
    | Bin op a b =>
        if N.eqb op 43 then nadd n (value a) (value b) else if N.eqb op 45 then nsub n (value a) (value b)
        else if N.eqb op 42 then nmul n (value a) (value b) else ndiv n (value a) (value b)
    end.
  (** ((a + b) * c) - d: every operation has the whole text before it as its left side. *)
  Inductive fromLeft : arith -> list (N * T) -> arith -> Prop :=
  | LNil a : fromLeft a [] a
  | LCons a op v l e : fromLeft (Bin op a (Leaf v)) l e -> fromLeft a ((op, v) :: l) e.
End Spec.
Arguments Leaf {T}. Arguments Bin {T}.

(** Numbers without sign, point or exponent, for the examples. *)
From Coq Require Import QArith.
Definition isDigit (c : N) : bool := (N.leb 48 c && N.leb c 57)%bool.
Fixpoint digitsZ (acc : Z) (s : bytes) : Z :=
  match s with [] => acc | c :: s' => digitsZ (acc * 10 + (Z.of_N c - 48)) s' end.
Definition natural (v : Q) (w : bytes) : Prop :=
  w <> [] /\ Forall (fun c => isDigit c = true) w /\ v = inject_Z (digitsZ 0 w).
Definition naturalNumber (s : bytes) : option (Q * bytes) :=
  match spanOf isDigit s with
  | ([], _) => None
  | (w, r) => Some (inject_Z (digitsZ 0 w), r)
  end.
