(** What a least-recently-used cache of capacity N has to answer, stated from the
    history of calls alone (no cache data structure). *)
From Verif Require Import Base LruModel.

Section Spec.
  Context {K V : Type} (keqb : K -> K -> bool) (N : nat).

  (** A history is a list of calls with their answers, most recent first. *)
  Definition history := list (@op K V * @res V).

  (** Keys in order of use, most recent first, since the last clear.  A key is used
      by a put and by a get or promote that found it. *)
  Fixpoint uses (h : history) : list K :=
    match h with
    | [] => []
    | (Put k _, _) :: h' => k :: uses h'
    | (Get k, RVal _) :: h' => k :: uses h'
    | (Promote k, RUnit) :: h' => k :: uses h'
    | (Clear, _) :: _ => []
    | _ :: h' => uses h'
    end.

  (** The value of the last put of [k] since the last clear. *)
  Fixpoint lastPut (k : K) (h : history) : option V :=
    match h with
    | [] => None
    | (Put k' v, _) :: h' => if keqb k k' then Some v else lastPut k h'
    | (Clear, _) :: _ => None
    | _ :: h' => lastPut k h'
    end.

  (** First occurrences only. *)
  Fixpoint distinct (l : list K) : list K :=
    match l with
    | [] => []
    | k :: l' => k :: filter (fun k' => negb (keqb k k')) (distinct l')
    end.

  (** The N most recently used distinct keys. *)
  Definition held (h : history) : list K := firstn N (distinct (uses h)).

  Definition isHeld (k : K) (h : history) : bool := existsb (keqb k) (held h).

  (** The value a held key must have. *)
  Definition heldValue (k : K) (h : history) : option V :=
    if isHeld k h then lastPut k h else None.

  (** The answer every call must give after history [h]. *)
  Definition expected (h : history) (o : @op K V) : @res V :=
    match o with
    | Put _ _ => RUnit
    | Get k | Peek k => match heldValue k h with Some v => RVal v | None => RThrow RangeError end
    | Promote k => if isHeld k h then RUnit else RThrow RangeError
    | Exists k => RBool (isHeld k h)
    | Size => RNat (length (held h))
    | Clear => RUnit
    end.

  (** The answers to a sequence of calls made after history [h]. *)
  Fixpoint answers (h : history) (os : list op) : list res :=
    match os with
    | [] => []
    | o :: os' => let r := expected h o in r :: answers ((o, r) :: h) os'
    end.
End Spec.
