(** Lines of a grid on a segment of the plane, without the model of the code. *)
From Coq Require Import Reals Sorted Permutation.
From Verif Require Import Base MeshBuildModel.
Local Open Scope R_scope.

(** The point at [t] between [s] and [e]. *)
Definition between (s e : vec2 R) (t : R) : vec2 R := mkV2 (v2x s + t * (v2x e - v2x s)) (v2y s + t * (v2y e - v2y s)).
Definition onSegment (s e p : vec2 R) : Prop := exists t, 0 <= t <= 1 /\ p = between s e t.
(** The segment crosses a line of the grid in [p]. *)
Definition crosses (step : R) (s e p : vec2 R) : Prop :=
  exists m : Z, (v2x s <> v2x e /\ v2x p = IZR m * step) \/ (v2y s <> v2y e /\ v2y p = IZR m * step).
(** Where the segment is to be split, with its ends. *)
Definition node (step : R) (s e p : vec2 R) : Prop := p = s \/ p = e \/ (onSegment s e p /\ crosses step s e p).
(** [p] comes before [q] on the way from [s] to [e]. *)
Definition before (s e p q : vec2 R) : Prop := p <> q /\ exists t u, 0 <= t < u /\ u <= 1 /\ p = between s e t /\ q = between s e u.
Definition near (eps : R) (p q : vec2 R) : Prop := Rabs (v2x p - v2x q) < eps /\ Rabs (v2y p - v2y q) < eps.
(** Different nodes of the segment are not near each other. *)
Definition spaced (eps step : R) (s e : vec2 R) : Prop := forall p q, node step s e p -> node step s e q -> near eps p q -> p = q.
(** What std::sort guarantees for a strict weak order. *)
Definition weakOrder {A} (lt : A -> A -> bool) : Prop :=
  (forall a, lt a a = false) /\ (forall a b c, lt a b = true -> lt b c = true -> lt a c = true) /\
  (forall a b c, lt a b = false -> lt b c = false -> lt a c = false).
Definition sorts {A} (srt : (A -> A -> bool) -> list A -> list A) : Prop :=
  forall lt l, weakOrder lt -> Permutation l (srt lt l) /\ StronglySorted (fun a b => lt b a = false) (srt lt l).
