(** What the assembly of rings means. *)
From Coq Require Import QArith SetoidList SetoidPermutation.
From Verif Require Import Base Bytes GeoModel RingModel.
Local Open Scope nat_scope.

(** The segments of a line. *)
Definition edges {A} (l : list A) : list (A * A) := combine l (tl l).
Definition edgesOf {A} (seqs : list (sequence A)) : list (A * A) := flat_map (fun s => edges (scoords s)) seqs.

(** A segment in either direction; end points up to [R]. *)
Definition edgeEq {A} (R : A -> A -> Prop) (x y : A * A) : Prop :=
  (R (fst x) (fst y) /\ R (snd x) (snd y)) \/ (R (fst x) (snd y) /\ R (snd x) (fst y)).
(** The same segments, each as often. *)
Definition sameEdges {A} (R : A -> A -> Prop) : list (A * A) -> list (A * A) -> Prop := PermutationA (edgeEq R).

(** End points of lines. *)
Definition endsOf {A} (s : sequence A) : list A :=
  match scoords s with [] => [] | f :: _ => [f; last (scoords s) f] end.
(** How many of the ends are at a place. *)
Definition degree {A} (same : A -> A -> bool) (c : A) (seqs : list (sequence A)) : nat :=
  length (List.filter (same c) (flat_map endsOf seqs)).

(** Closed line: at least two points, the first is the last. *)
Definition closedLine {A} (same : A -> A -> bool) (l : list A) : Prop :=
  exists f m e, l = f :: m ++ [e] /\ same f e = true.

Record equivalence {A} (same : A -> A -> bool) : Prop := {
  eqv_refl : forall a, same a a = true;
  eqv_sym : forall a b, same a b = true -> same b a = true;
  eqv_trans : forall a b c, same a b = true -> same b c = true -> same a c = true
}.

(** Twice the signed area of a polygon: triangles with the first corner; positive if
    counter-clockwise with longitude to the right and latitude up. *)
Definition cross (o a b : point Q) : Q :=
  ((plon a - plon o) * (plat b - plat o) - (plon b - plon o) * (plat a - plat o))%Q.
Fixpoint fan (o a : point Q) (l : list (point Q)) : Q :=
  match l with [] => 0%Q | b :: l' => (cross o a b + fan o b l')%Q end.
Definition signedArea (l : list (point Q)) : Q :=
  match l with [] => 0%Q | o :: l' => match l' with [] => 0%Q | a :: l'' => fan o a l'' end end.
