(** Notions for clipping. *)
From Verif Require Import Base Bytes ElementModel GeoModel.
Local Open Scope nat_scope.

(** The coordinates of an element, members included. *)
Fixpoint coordinates (e : element) : list coord :=
  match e with
  | Node _ _ c => [c]
  | Way _ _ cs | Area _ _ cs => cs
  | Relation _ _ es => flat_map coordinates es
  end.

(** Relations, at any depth, have at least two members. *)
Fixpoint plural (e : element) : Prop :=
  match e with
  | Relation _ _ es => 2 <= length es /\ fold_right and True (map plural es)
  | _ => True
  end.

(** Way or area, and the same kind. *)
Definition sameKind (a b : element) : Prop :=
  match a, b with
  | Node _ _ _, Node _ _ _ | Way _ _ _, Way _ _ _ | Area _ _ _, Area _ _ _
  | Relation _ _ _, Relation _ _ _ => True
  | _, _ => False
  end.
Definition isLine (e : element) : Prop := match e with Way _ _ _ | Area _ _ _ => True | _ => False end.
