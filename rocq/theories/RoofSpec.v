(** What is expected of mansard, round and skillion roofs (exact real arithmetic), without the model of the code but its
    parameters. *)
From Coq Require Import Reals.
From Verif Require Import Base GeoModel RingModel MeshBuildModel MeshBuildSpec GenSpec RowSpec HouseModel HouseSpec RoofModel.
Local Open Scope R_scope.

(** Exact real arithmetic with any result of the Clipper library. *)
Definition realRoof (shrink : list (vec2 R) -> R -> list (list (vec2 R))) (counter : list (vec2 R) -> bool) : roofEnv R :=
  mkRoofEnv PI (1 / 10) shrink counter.

Definition length2 (a b : vec2 R) : R := sqrt ((v2x a - v2x b) * (v2x a - v2x b) + (v2y a - v2y b) * (v2y a - v2y b)).
(** The sides of a ring in the order of its points. *)
Definition ringSides {A} (r : list A) : list (A * A) := match r with [] => [] | x :: r' => combine r (r' ++ [x]) end.
(** The number of the point behind the [i]th. *)
Definition after (m i : nat) : nat := if (S i =? m)%nat then O else S i.
Definition pointOf (ring : list (vec2 R)) (i : nat) : vec2 R := nth i ring (mkV2 0 0).
(** The same ring, beginning at another point. *)
Definition beginAt {A} (j : nat) (r : list A) : list A := skipn j r ++ firstn j r.

(** * Mansard *)
(** The length of the shortest side. *)
Definition shortestSide (path : list (vec2 R)) (d : R) : Prop :=
  (exists a b, In (a, b) (ringSides path) /\ d = length2 a b) /\ forall a b, In (a, b) (ringSides path) -> d <= length2 a b.
(** The faces between a ring at a height and a ring at another height, point by point. *)
Definition slopes (low top : R) (lower upper : list (vec2 R)) : list tri3 :=
  flat_map (fun '((a, b), (c, d)) => [(at_ top d, at_ low a, at_ top c); (at_ low a, at_ top d, at_ low b)])
    (combine (ringSides lower) (ringSides upper)).
(** The point of the first half of [path] which is nearest to [q], the first one of them. *)
Definition nearestInHalf (q : vec2 R) (path : list (vec2 R)) (j : nat) : Prop :=
  (2 * j < length path)%nat /\
  forall i, (2 * i < length path)%nat -> length2 q (nth j path q) <= length2 q (nth i path q).
(** The shape as the outline of a part. *)
Definition shapePart (shape : list (vec2 R)) : part unit := mkPart tt [(map (fun v => mkPoint (v2y v) (v2x v)) shape, false)].

(** * Round *)
(** The points of a half circle from [a] to [b], seven sevenths of it; the height at the middle is [high] above [low]. *)
Definition arcPoint (low high : R) (a b : vec2 R) (j : nat) : vec3 R :=
  let t := INR j * PI / 7 in
  let m := mkV2 ((v2x a + v2x b) / 2) ((v2y a + v2y b) / 2) in
  mkV3 (v2x m + (v2x a - v2x m) * cos t) (low + high * sin t) (v2y m + (v2y a - v2y m) * cos t).
Definition midway (low : R) (a b : vec2 R) : vec3 R := mkV3 ((v2x a + v2x b) / 2) low ((v2y a + v2y b) / 2).
(** A barrel from the side [a] [d] to the side [b] [c]. *)
Definition barrel (low high : R) (a b c d : vec2 R) : list tri3 :=
  flat_map (fun j =>
    let f := arcPoint low high a d in let k := arcPoint low high b c in
    [(midway low a d, f (S j), f j); (midway low b c, k j, k (S j)); (f j, k (S j), k j); (f (S j), k (S j), f j)]) (seq 0 7).
(** Triangles without area: the sides the barrel ends at, against their halves. *)
Definition slivers (low : R) (a b c d : vec2 R) : list tri3 :=
  [(at_ low a, at_ low d, midway low a d); (at_ low c, at_ low b, midway low b c)].
(** The longest side of a ring begins at its [j]th point; the first one of them. *)
Definition longestSide (ring : list (vec2 R)) (j : nat) : Prop :=
  exists a b, nth_error (ringSides ring) j = Some (a, b) /\
    (forall c d, In (c, d) (ringSides ring) -> length2 c d <= length2 a b) /\
    (forall i c d, (i < j)%nat -> nth_error (ringSides ring) i = Some (c, d) -> length2 c d < length2 a b).
(** The first four points from the [j]th one on, or from the one behind it on. *)
Definition fourFrom (across : bool) (ring : list (vec2 R)) (j : nat) : vec2 R * vec2 R * vec2 R * vec2 R :=
  let next := after (length ring) in
  let p0 := pointOf ring j in let p1 := pointOf ring (next j) in
  let p2 := pointOf ring (next (next j)) in let p3 := pointOf ring (next (next (next j))) in
  if across then (p1, p2, p3, p0) else (p0, p1, p2, p3).
(** The ends of the barrel are longer than the double epsilon twice. *)
Definition wideEnds (q : vec2 R * vec2 R * vec2 R * vec2 R) : Prop :=
  let '(a, b, c, d) := q in 2 * / 2 ^ 52 < length2 a d /\ 2 * / 2 ^ 52 < length2 b c.
(** The ends of the barrel have the same direction. *)
Definition parallelEnds (q : vec2 R * vec2 R * vec2 R * vec2 R) : Prop :=
  let '(a, b, c, d) := q in exists t, 0 < t /\ v2x b - v2x c = t * (v2x a - v2x d) /\ v2y b - v2y c = t * (v2y a - v2y d).
Definition barrelOn (low high : R) (q : vec2 R * vec2 R * vec2 R * vec2 R) : list tri3 := let '(a, b, c, d) := q in barrel low high a b c d.
Definition sliversOn (low : R) (q : vec2 R * vec2 R * vec2 R * vec2 R) : list tri3 := let '(a, b, c, d) := q in slivers low a b c d.

(** * Skillion *)
(** Twice the area of a triangle, positive if it goes round counter-clockwise. *)
Definition area2 (a b c : vec2 R) : R := (v2x b - v2x a) * (v2y c - v2y a) - (v2y b - v2y a) * (v2x c - v2x a).
Definition between (lo hi v : R) : R := Rmax lo (Rmin v hi).
(** The height at [q] of a slope which begins at [low] along [a] [b] and is at its highest at [c]; 0 if there is no such
    slope. *)
Definition slopeAt (low high : R) (a b c q : vec2 R) : R :=
  between low (low + high) (if Req_EM_T (area2 a b c) 0 then 0 else low + high * (area2 a b q / area2 a b c)).
Definition topOf (low high : R) (ring : list (vec2 R)) (front peak i : nat) : R :=
  let next := after (length ring) front in
  if (i =? front)%nat || (i =? next)%nat then low
  else slopeAt low high (pointOf ring front) (pointOf ring next) (pointOf ring peak) (pointOf ring i).
(** The faces below the slope; none below the front side, and one only beside it. *)
Definition gables (low high : R) (ring : list (vec2 R)) (front peak : nat) : list tri3 :=
  let m := length ring in
  flat_map (fun i =>
    let j := after m i in
    let d := fun i => at_ low (pointOf ring i) in
    let u := fun i => at_ (topOf low high ring front peak i) (pointOf ring i) in
    if (i =? front)%nat then []
    else if (i =? after m front)%nat then [(d i, u j, d j)]
    else if (j =? front)%nat then [(d i, u i, d j)]
    else [(d i, u j, d j); (d i, u i, u j)]) (seq 0 m).
(** The slope itself, of the triangles of the plan. *)
Definition slopeTris (io : triio R) (low high : R) (ring : list (vec2 R)) (front peak : nat) : list tri3 :=
  let u i := at_ (topOf low high ring front peak (Z.to_nat i)) (pointOf ring (Z.to_nat i)) in
  map (fun '(a, b, c) => (u b, u a, u c)) (triples io).
(** The [i]th side of the ring is met by the line from the middle of the ring in the direction of the given degrees (clockwise from
    north) at [s], of which -0.1 to 0.1 is considered; a side along the line is not met. *)
Definition meets (ring mid : list (vec2 R)) (degrees : R) (i : nat) (s : R) : Prop :=
  let t := PI * degrees / 180 in
  let a := pointOf ring i in let b := pointOf ring (after (length ring) i) in
  let c := middle mid in
  (i < length ring)%nat /\ - (1 / 10) <= s <= 1 / 10 /\ (v2x b - v2x a) * cos t <> (v2y b - v2y a) * sin t /\
  exists r, 0 <= r <= 1 /\ v2x a + r * (v2x b - v2x a) = v2x c + s * sin t /\ v2y a + r * (v2y b - v2y a) = v2y c + s * cos t.
(** The front is the side which is met farthest, the peak the nearer end of the side which is met first (in case of doubt the
    first one of them, and the end of the side). *)
Definition isFront (ring mid : list (vec2 R)) (degrees : R) (front : nat) : Prop :=
  exists s, meets ring mid degrees front s /\ - (1 / 10) < s /\ (forall i s', meets ring mid degrees i s' -> s' <= s) /\
    forall i s', (i < front)%nat -> meets ring mid degrees i s' -> s' < s.
Definition isPeak (ring mid : list (vec2 R)) (degrees : R) (peak : nat) : Prop :=
  exists i s, meets ring mid degrees i s /\ (forall i' s', meets ring mid degrees i' s' -> s <= s') /\
    (forall i' s', (i' < i)%nat -> meets ring mid degrees i' s' -> s < s') /\
    let t := PI * degrees / 180 in
    let q := mkV2 (v2x (middle mid) + s * sin t) (v2y (middle mid) + s * cos t) in
    let next := after (length ring) i in
    peak = if Rlt_dec (length2 (pointOf ring i) q) (length2 (pointOf ring next) q) then i else next.
Definition frontAndPeak (ring mid : list (vec2 R)) (degrees : R) (front peak : nat) : Prop :=
  isFront ring mid degrees front /\ isPeak ring mid degrees peak.
(** There is none, or they fall together. *)
Definition noSlope (ring mid : list (vec2 R)) (degrees : R) : Prop :=
  (forall front, ~ isFront ring mid degrees front) \/ exists front, frontAndPeak ring mid degrees front front.
(** What is drawn for the outer rings [mids], one after the other: all points as one ring, with the middle of each; a flat roof
    ends it. *)
Fixpoint skillionDraws (io : triio R) (low high degrees : R) (ring : list (vec2 R)) (mids : list (list (vec2 R))) (ts : list tri3) : Prop :=
  match mids with
  | [] => ts = []
  | mid :: mids' =>
      (exists front peak ts', frontAndPeak ring mid degrees front peak /\ front <> peak /\
         ts = (gables low high ring front peak ++ slopeTris io low high ring front peak) ++ ts' /\
         skillionDraws io low high degrees ring mids' ts') \/
      (noSlope ring mid degrees /\ ts = fromAbove io low)
  end.
