(** What is expected along a way, without the model of the code but its elements (exact real arithmetic). *)
From Coq Require Import Reals.
From Verif Require Import Base GeoModel MeshBuildModel MeshBuildSpec GenSpec RowModel.
Local Open Scope R_scope.

Notation tri3 := (vec3 R * vec3 R * vec3 R)%type.

(** The triangles a reader of a mesh sees: x is longitude, z latitude and y height. *)
Definition spot (c : corner R) : vec3 R := let '(x, y, h) := cpos c in mkV3 x h y.
Definition seen (f : option (corner R) * option (corner R) * option (corner R)) : list tri3 :=
  match f with (Some a, Some b, Some c) => [(spot a, spot b, spot c)] | _ => [] end.
Definition drawnIn (m : bmesh R) : list tri3 := flat_map seen (faces m).
(** The same triangle elsewhere. *)
Definition shift (d v : vec3 R) : vec3 R := mkV3 (v3x v + v3x d) (v3y v + v3y d) (v3z v + v3z d).
Definition shiftTri (d : vec3 R) (t : tri3) : tri3 := let '(a, b, c) := t in (shift d a, shift d b, shift d c).

(** The sides of a line. *)
Definition sidesOf {P} (l : list P) : list (P * P) := combine l (tl l).
(** The point at a part of the way from [p] to [q]. *)
Definition along (p q : point R) (f : R) : point R :=
  mkPoint (plat p + f * (plat q - plat p)) (plon p + f * (plon q - plon p)).
(** [c] is the number of whole steps in a distance. *)
Definition wholeSteps (d step : R) (c : nat) : Prop := INR c * step <= d < (INR c + 1) * step.
(** The number of steps of every side; each can be counted by an int. *)
Definition counted (dist : point R -> point R -> R) (step : R) (cnt : point R -> point R -> nat) (l : list (point R)) : Prop :=
  forall p q, In (p, q) (sidesOf l) -> wholeSteps (dist p q) step (cnt p q) /\ (Z.of_nat (cnt p q) < 2 ^ 31)%Z.
(** Evenly distributed places, the first at [p]. *)
Definition rowOf (p q : point R) (c : nat) : list (point R) := map (fun i => along p q (INR i / INR c)) (seq 0 c).
Definition rowsOf (cnt : point R -> point R -> nat) (l : list (point R)) : list (point R) :=
  flat_map (fun '(p, q) => rowOf p q (cnt p q)) (sidesOf l).
(** From where something was made to a place on the ground. *)
Definition offsetTo (ele : R -> R -> R) (from q : point R) : vec3 R :=
  mkV3 (plon q - plon from) (ele (plat q) (plon q)) (plat q - plat from).
(** A distance which grows evenly between two points. *)
Definition evenly (dist : point R -> point R -> R) (p q : point R) : Prop :=
  forall s t, 0 <= s <= 1 -> 0 <= t <= 1 -> dist (along p q s) (along p q t) = Rabs (s - t) * dist p q.

(** The length of the vector from [p] to [q], in degrees. *)
Definition span (p q : point R) : R :=
  sqrt ((plon q - plon p) * (plon q - plon p) + (plat q - plat p) * (plat q - plat p)).
(** A point at the distance [d] to the left of the direction from [p] to [q]. *)
Definition aside (p q : point R) (d : R) (o : point R) : point R :=
  mkPoint (plat o + (plon q - plon p) / span p q * d) (plon o - (plat q - plat p) / span p q * d).

(** The lamps of a side cut into [c] parts: number 1 to c - 2, the odd ones to the right. *)
Definition lampsOf (width : R) (p q : point R) (c : nat) : list (point R) :=
  map (fun j => aside p q (if Nat.even j then width else - width) (along p q (INR j / INR c))) (seq 1 (c - 2)).
Definition lampRows (width : R) (cnt : point R -> point R -> nat) (l : list (point R)) : list (point R) :=
  flat_map (fun '(p, q) => lampsOf width p q (cnt p q)) (sidesOf l).

(** The pieces of a wall: the part [ratio] of each of [c] parts of a side. *)
Definition piecesOf (ratio : R) (p q : point R) (c : nat) : list (point R * point R) :=
  map (fun i => (along p q (INR i / INR c), along p q ((INR i + ratio) / INR c))) (seq 0 c).
Definition wallOf (ratio : R) (cnt : point R -> point R -> nat) (l : list (point R)) : list (point R * point R) :=
  flat_map (fun '(p, q) => piecesOf ratio p q (Nat.max 1 (cnt p q))) (sidesOf l).
(** On the line from one point to another. *)
Definition between (a b o : point R) : Prop := exists t, 0 <= t <= 1 /\ o = along a b t.

(** A corner of a box on the ground. *)
Definition onGround (ele : R -> R -> R) (o : point R) : vec3 R := mkV3 (plon o) (ele (plat o) (plon o)) (plat o).
(** The four walls and the roof of a box with the corners [l0], [l1] on the left and [r0], [r1] on the right. *)
Definition upright4 (a b : vec3 R) (h : R) : list tri3 := [(a, above b h, b); (above a h, above b h, a)].
Definition boxWalls (l0 l1 r0 r1 : vec3 R) (h : R) : list tri3 :=
  upright4 l1 l0 h ++ upright4 r1 l1 h ++ upright4 r0 r1 h ++ upright4 l0 r0 h.
Definition boxRoof (l0 l1 r0 r1 : vec3 R) (h : R) : list tri3 :=
  [(above l0 h, above l1 h, above r0 h); (above r0 h, above l1 h, above r1 h)].
Definition boxFloor (l0 l1 r0 r1 : vec3 R) : list tri3 := [(l1, l0, r0); (l1, r0, r1)].
(** The corners of the box of a piece of a wall. *)
Definition corner0 (ele : R -> R -> R) (width : R) (a b : point R) : vec3 R := onGround ele (aside a b width a).
Definition corner1 (ele : R -> R -> R) (width : R) (a b : point R) : vec3 R := onGround ele (aside a b width b).
Definition wallBox (ele : R -> R -> R) (width h : R) (piece : point R * point R) : list tri3 :=
  let '(a, b) := piece in
  let l0 := corner0 ele width a b in let l1 := corner1 ele width a b in
  let r0 := corner0 ele (- width) a b in let r1 := corner1 ele (- width) a b in
  boxWalls l0 l1 r0 r1 h ++ boxRoof l0 l1 r0 r1 h.
(** Seen from above, the corners go round counter-clockwise (x to the east, z to the north and y up). *)
Definition facesUp (t : tri3) : Prop :=
  let '(a, b, c) := t in
  0 < (v3z b - v3z a) * (v3x c - v3x a) - (v3x b - v3x a) * (v3z c - v3z a).

(** The lines of an element, in order, and what the style of the element depends on. *)
Fixpoint linesOf {E T} (b : barrier E T) : list (list (point T)) :=
  match b with
  | BNode _ c => [[c]]
  | BWay _ cs | BArea _ cs => [cs]
  | BRelation _ ms => flat_map linesOf ms
  end.
Definition ownOf {E T} (b : barrier E T) : E := match b with BNode e _ | BWay e _ | BArea e _ | BRelation e _ => e end.
(** The results for all elements of a list, one after the other. *)
Fixpoint inTurn {A B} (f : A -> outcome (list B)) (l : list A) : outcome (list B) :=
  match l with
  | [] => Ok []
  | a :: l' => bind (f a) (fun r => bind (inTurn f l') (fun s => Ok (r ++ s)))
  end.
