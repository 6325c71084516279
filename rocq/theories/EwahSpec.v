(** Specification for property C10: sets of positions. *)
From Verif Require Import Base EwahModel.
From Coq Require Import NArith Sorted.
Local Open Scope N_scope.

(** Calls of set, in order, on a bitmap. *)
Fixpoint addAll (l : list N) (c : ewah) : res ewah :=
  match l with
  | [] => Done c
  | i :: l' => rbind (set i c) (fun '(_, c) => addAll l' c)
  end.
Definition build (l : list N) : res ewah := addAll l empty.

(** Bitmaps made by set and combined with the logical operations. *)
Inductive expr :=
| Build (l : list N)
| Or (x y : expr)
| And (x y : expr)
| Xor (x y : expr).

Fixpoint eval (e : expr) : res ewah :=
  match e with
  | Build l => build l
  | Or x y => rbind (eval x) (fun a => rbind (eval y) (fun b => logicalor a b))
  | And x y => rbind (eval x) (fun a => rbind (eval y) (fun b => logicaland a b))
  | Xor x y => rbind (eval x) (fun a => rbind (eval y) (fun b => logicalxor a b))
  end.

(** A position counts if it is larger than all positions set before it. *)
Definition accepted (l : list N) (p : N) : Prop :=
  exists l1 l2, l = l1 ++ p :: l2 /\ Forall (fun q => q < p) l1.

Fixpoint member (e : expr) (p : N) : Prop :=
  match e with
  | Build l => accepted l p
  | Or x y => member x p \/ member y p
  | And x y => member x p /\ member y p
  | Xor x y => (member x p /\ ~ member y p) \/ (~ member x p /\ member y p)
  end.

Fixpoint below (n : N) (e : expr) : Prop :=
  match e with
  | Build l => Forall (fun p => p < n) l
  | Or x y | And x y | Xor x y => below n x /\ below n y
  end.
(** Every operand of a xor is below [n]. *)
Fixpoint xorBelow (n : N) (e : expr) : Prop :=
  match e with
  | Build _ => True
  | Or x y | And x y => xorBelow n x /\ xorBelow n y
  | Xor x y => xorBelow n x /\ xorBelow n y /\ below n x /\ below n y
  end.

(** The answer of the iterator: increasing positions, exactly those with [P]. *)
Definition enumerates (c : ewah) (P : N -> Prop) : Prop :=
  exists l, enumerate c = Done l /\ StronglySorted N.lt l /\ forall p, In p l <-> P p.
