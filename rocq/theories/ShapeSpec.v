(** What a shape file says, independent of the parser. *)
From Verif Require Import Base Bytes ShapeModel.

(** Where the parts of a polygon begin when they follow each other. *)
Fixpoint offsets {C} (at_ : nat) (parts : list (list C)) : list Z :=
  match parts with [] => [] | p :: ps => Z.of_nat at_ :: offsets (at_ + length p) ps end.
(** A polygon of rings, none of them empty, as shapelib gives it. *)
Definition polygonOf {C} (parts : list (list C)) (s : shape C) : Prop :=
  shKind s = KPolygon /\ Forall (fun p => p <> []) parts /\ shPoints s = concat parts /\
  shStarts s = offsets 0 parts /\ shRings s = repeat true (length parts).
(** shapelib (shpopen.c) gives a polygon only if the starts ascend within the vertices. *)
Fixpoint ascending (l : list Z) : Prop :=
  match l with x :: ((y :: _) as l') => (x < y)%Z /\ ascending l' | _ => True end.

(** Number of elements of a kind accepted. *)
Definition countOf {C} (p : selem C -> bool) (cs : list (selem C)) : nat := length (filter p cs).
Definition isNode {C} (e : selem C) := match e with SNode _ _ _ => true | _ => false end.
Definition isWay {C} (e : selem C) := match e with SWay _ _ _ => true | _ => false end.
Definition isArea {C} (e : selem C) := match e with SArea _ _ _ => true | _ => false end.
Definition isRelation {C} (e : selem C) := match e with SRelation _ _ _ => true | _ => false end.
Definition idOf {C} (e : selem C) : Z := match e with SNode i _ _ | SWay i _ _ | SArea i _ _ | SRelation i _ _ => i end.
