(** What an L-system is supposed to derive, and balanced words, independently of the model's loops. *)
From Verif Require Import Base Bytes LsysModel.
Local Open Scope nat_scope.

(** One round of parallel rewriting: every rule of the word is replaced at the same time, by any of its
    successors if it has productions, by itself otherwise. *)
Inductive rewrites {W} (ps : productions W) : list rule -> list rule -> Prop :=
| rw_nil : rewrites ps [] []
| rw_keep r w w' : (forall ws, ~ In (r, ws) ps) -> rewrites ps w w' -> rewrites ps (r :: w) (r :: w')
| rw_replace r ws p s w w' :
    In (r, ws) ps -> In (p, s) ws -> rewrites ps w w' -> rewrites ps (r :: w) (s ++ w').

(** [g] rounds. *)
Inductive derives {W} (ps : productions W) : nat -> list rule -> list rule -> Prop :=
| dr_zero w : derives ps 0 w w
| dr_round g u v w : rewrites ps u v -> derives ps g v w -> derives ps (Datatypes.S g) u w.

(** Every rule has one list of productions, which is not empty: what a parsed system satisfies. *)
Definition wellFormed {W} (ps : productions W) : Prop :=
  NoDup (map fst ps) /\ Forall (fun p => snd p <> []) ps.

(** No choice is left: at most one successor per rule. *)
Definition deterministic {W} (ps : productions W) : Prop :=
  Forall (fun p => length (snd p) = 1) ps.

(** Number of rules which push, and which pop, the state. *)
Definition opens (w : list rule) : nat := count_occ (fun a b : bool => Bool.bool_dec a b)
  (map (fun r => match r with Save => true | _ => false end) w) true.
Definition closes (w : list rule) : nat := count_occ (fun a b : bool => Bool.bool_dec a b)
  (map (fun r => match r with Restore => true | _ => false end) w) true.

(** Every closing bracket has an opening one before it. *)
Definition noUnderflow (depth : nat) (w : list rule) : Prop :=
  forall p s, w = p ++ s -> closes p <= depth + opens p.
(** Brackets are balanced. *)
Definition balanced (w : list rule) : Prop := noUnderflow 0 w /\ closes w = opens w.

(** Only the words "cone", "sphere" and "cylinder" are used. *)
Definition knownWords (w : list rule) : Prop :=
  Forall (fun r => match r with Word x => In x [coneWord; sphereWord; cylinderWord] | _ => True end) w.

(** Draws are indices of the offered alternatives. *)
Definition validDraws (pick : nat -> nat -> nat) : Prop := forall d c, 0 < c -> pick d c < c.

(** Distinct classes of rules have distinct ranks: std::type_index is a total order of the classes. *)
Definition classOrder (rank : nat -> nat) : Prop := forall a b, rank a = rank b -> a = b.

(** The one successor of a rule in a deterministic system. *)
Definition successor {W} (rule_dec : forall a b : rule, {a = b} + {a <> b}) (ps : productions W) (r : rule) : list rule :=
  match find (fun p => if rule_dec r (fst p) then true else false) ps with
  | Some (_, (_, s) :: _) => s
  | _ => [r]
  end.
