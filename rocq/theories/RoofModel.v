(** Models of core/src/builders/buildings/roofs/MansardRoofBuilder.hpp, RoundRoofBuilder.hpp and
    SkillionRoofBuilder.hpp, over any operations on double: the calls which fill the mesh, as [RoofOther] of HouseModel takes
    them.  The direction of a skillion roof is given in degrees. *)
From Verif Require Import Base RingModel MeshBuildModel QuatModel GenModel RowModel HouseModel.
Local Open Scope nat_scope.

(** Functions and numbers of other parts: pi (MathUtils.hpp:11-13), 0.1 (SkillionRoofBuilder.hpp:59-60), the contours a
    contour is offset to by the Clipper library when it is moved inwards by a distance (MansardRoofBuilder.hpp:25-26, 38-47; the
    integers divided by Scale at lines 70 and 118), and getOrientation (line 62). *)
Record roofEnv (T : Type) := mkRoofEnv {
  fPi : T; fTenth : T; fShrink : list (vec2 T) -> T -> list (list (vec2 T)); fCounter : list (vec2 T) -> bool }.
Arguments mkRoofEnv {T}. Arguments fPi {T}. Arguments fTenth {T}. Arguments fShrink {T}. Arguments fCounter {T}.

Section Roof.
  Context {T : Type} (n : nums T) (k : trig T) (g : gens T) (env : builderEnv T) (w : houseEnv T) (f : roofEnv T).
  Local Notation "a + b" := (nadd n a b).
  Local Notation "a - b" := (nsub n a b).
  Local Notation "a * b" := (nmul n a b).
  Local Notation "a / b" := (ndiv n a b).

  (** Vector2.hpp:64-68, distance. *)
  Definition distance2 (a b : vec2 T) : T :=
    let x := v2x a - v2x b in let y := v2y a - v2y b in ksqrt k (x * x + y * y).
  (** RoofBuilder.hpp:51-60, addTriangle, with the geometry options of MeshContext.hpp:25 (MeshBuilder.hpp:24-31). *)
  Definition roofTriangle (look : lookOptions T) (v0 v1 v2 : vec3 T) (u0 u1 u2 : vec2 T) : meshOp :=
    OpTriangle v0 v1 v2 u0 u1 u2 (houseGeo n (eLowest env) (nzero n) false) look.
  (** A point at a height, e.g. MansardRoofBuilder.hpp:96. *)
  Definition lifted (y : T) (v : vec2 T) : vec3 T := mkV3 (v2x v) y (v2y v).

  (** * Mansard *)
  (** MansardRoofBuilder.hpp:30, 124: the smallest so far; before the first it is the greatest number there is. *)
  Definition nearer (d : T) (best : option T) : bool := match best with None => true | Some b => nlt n d b end.
  (** MansardRoofBuilder.hpp:29-41: the length of the shortest side. *)
  Definition shortest (path : list (vec2 T)) : option T :=
    match path with
    | [] => None
    | v :: path' =>
        fold_left (fun best '(a, b) => let d := distance2 a b in if nearer d best then Some d else best)
          (combine path (path' ++ [v])) None
    end.
  (** MansardRoofBuilder.hpp:116-135, findFirstIndex, the number of the point: size is the number of points, but it is
      compared with an index of coordinates. *)
  Definition firstIndex (q : vec2 T) (path : list (vec2 T)) : nat :=
    snd (fold_left (fun '(best, at_) '(j, v) => let d := distance2 q v in if nearer d best then (Some d, j) else (best, at_))
           (combine (seq 0 ((length path + 1) / 2)) path) (None, O)).
  (** MansardRoofBuilder.hpp:87-112: the triangles between a side of the polygon and a side of the shape at the top. *)
  Definition mansardSide (look : lookOptions T) (p top : polygon T) (height minHeight : T) (index i : nat) : outcome (list meshOp) :=
    let size := length (ppoints p) in
    let scale := kScaled w (lscale look) height in
    let o := nzero n in
    let topHeight := minHeight + height in
    bind (pointAt p ((index + i) mod size)%nat) (fun b0 =>
    bind (pointAt p ((index + i + 2) mod size)%nat) (fun b1 =>
    bind (pointAt top ((i + 2) mod size)%nat) (fun t1 =>
    bind (pointAt top i) (fun t0 =>
    let v0 := lifted minHeight b0 in let v1 := lifted minHeight b1 in
    let v2 := lifted topHeight t1 in let v3 := lifted topHeight t0 in
    Ok [roofTriangle look v2 v0 v3 (mkV2 scale scale) (mkV2 o o) (mkV2 o scale);
        roofTriangle look v0 v2 v1 (mkV2 o o) (mkV2 scale scale) (mkV2 scale o)])))).
  (** MansardRoofBuilder.hpp:59-114, build with the offset shape. *)
  Definition mansardOver (look : lookOptions T) (p : polygon T) (height minHeight : T) (shape : list (vec2 T)) (index : nat)
      : outcome (list meshOp) :=
    let shape := if fCounter f shape then shape else rev shape in
    bind (addContour n env emptyPolygon shape false None) (fun top =>
    bind (overAll (mansardSide look p top height minHeight index) (indicesOf (0, length (ppoints p)))) (fun sides =>
    Ok (OpPolygon top (houseGeo n height minHeight false) look :: concat sides))).
  (** MansardRoofBuilder.hpp:24-55, build: all points of the polygon are one path. *)
  Definition mansardRoof (look : lookOptions T) (p : polygon T) (height minHeight : T) : outcome (list meshOp) :=
    bind (overAll (pointAt p) (indicesOf (0, length (ppoints p)))) (fun path =>
    let flat := Ok (flatRoof n look p minHeight false) in
    match shortest path with
    | None => flat
    | Some min =>
        match fShrink f path (min / kTen w) with
        | [q :: shape] =>
            if (length (q :: shape) =? length path)%nat
            then mansardOver look p height minHeight (q :: shape) (2 * firstIndex q path)
            else flat
        | _ => flat
        end
    end).

  (** * Round *)
  (** RoundRoofBuilder.hpp:18: the number of segments of the half circle. *)
  Definition segmentCount : nat := 7.
  (** RoundRoofBuilder.hpp:128-133, restore. *)
  Definition restore (height minHeight : T) (v : vec3 T) (radius : T) (center : vec3 T) : vec3 T :=
    mkV3 (v3x center + v3x v * radius) (minHeight + v3y v * height) (v3z center + v3z v * radius).
  (** Vector3.hpp:36-38, a difference; the distance of lines 73-78 is its magnitude. *)
  Definition vminus (a b : vec3 T) : vec3 T := mkV3 (v3x a - v3x b) (v3y a - v3y b) (v3z a - v3z b).
  (** RoundRoofBuilder.hpp:95-96: the middle of two points (Vector3.hpp:28-34). *)
  Definition vmiddle (a b : vec3 T) : vec3 T :=
    mkV3 ((v3x a + v3x b) / kTwo w) ((v3y a + v3y b) / kTwo w) ((v3z a + v3z b) / kTwo w).
  (** RoundRoofBuilder.hpp:86-122, buildRoundShape. *)
  Definition roundShape (look : lookOptions T) (height minHeight : T) (p0 p1 p2 p3 : vec3 T) : list meshOp :=
    let u0 := mkV2 (nzero n) (nzero n) in
    let d := normalized n k g (vminus p3 p0) in
    let axis := mkV3 (nzero n - v3z d) (nzero n) (v3x d) in
    let front := vmiddle p0 p3 in
    let back := vmiddle p1 p2 in
    let frontRot := normalized n k g (vminus p0 front) in
    let backRot := normalized n k g (vminus p1 back) in
    let frontRadius := magnitude n k (vminus p0 front) in
    let backRadius := magnitude n k (vminus p1 back) in
    let q0 := fromAngleAxis n k (nzero n) axis in
    let q1 := fromAngleAxis n k (nzero n - fPi f) axis in
    let turn j := slerp n k q0 q1 (kCount w j / kCount w segmentCount) in
    let tri a b c := roofTriangle look a b c u0 u0 u0 in
    flat_map (fun j =>
      let front1 := restore height minHeight (qapply n k (turn j) frontRot) frontRadius front in
      let front2 := restore height minHeight (qapply n k (turn (Datatypes.S j)) frontRot) frontRadius front in
      let back1 := restore height minHeight (qapply n k (turn j) backRot) backRadius back in
      let back2 := restore height minHeight (qapply n k (turn (Datatypes.S j)) backRot) backRadius back in
      [tri front front2 front1; tri back back1 back2; tri front1 back2 back1; tri front2 back2 front1])
      (seq 0 segmentCount).
  (** RoundRoofBuilder.hpp:124-126, nextIndex. *)
  Definition nextIndex (current min max : nat) : nat := if (max <? current + 2)%nat then min else (current + 2)%nat.
  (** RoundRoofBuilder.hpp:52-65: where the longest side begins. *)
  Definition longestAt (p : polygon T) (range : nat * nat) : outcome nat :=
    bind (overAll (fun i =>
      bind (pointAt p i) (fun a =>
      bind (pointAt p (if (i =? snd range - 2)%nat then fst range else (i + 2)%nat)) (fun b => Ok (i, distance2 a b))))
      (indicesOf range)) (fun l =>
    Ok (fst (fold_left (fun '(at_, best) '(i, d) => if nlt n best d then (i, d) else (at_, best)) l (fst range, nzero n)))).
  (** RoundRoofBuilder.hpp:48-80: one outer contour. *)
  Definition roundRange (across : bool) (look : lookOptions T) (p : polygon T) (height minHeight : T) (range : nat * nat)
      : outcome (list meshOp) :=
    let point i := bind (pointAt p i) (fun v => Ok (lifted minHeight v)) in
    let next i := nextIndex i (fst range) (snd range - 2)%nat in
    bind (longestAt p range) (fun i =>
    bind (point i) (fun p0 => bind (point (next i)) (fun p1 =>
    bind (point (next (next i))) (fun p2 => bind (point (next (next (next i)))) (fun p3 =>
    Ok (if across then roundShape look height minHeight p1 p2 p3 p0 else roundShape look height minHeight p0 p1 p2 p3)))))).
  (** RoundRoofBuilder.hpp:31-39 and 44-83, build and buildRound. *)
  Definition roundRoof (across : bool) (look : lookOptions T) (p : polygon T) (height minHeight : T) : outcome (list meshOp) :=
    match pinners p with
    | [] =>
        bind (overAll (roundRange across look p height minHeight) (pouters p)) (fun l => Ok (concat l ++ [OpTexture look]))
    | _ => Ok (flatRoof n look p minHeight false)
    end.

  (** * Skillion *)
  (** GeometryUtils.hpp:116-137, getIntersection; no intersection is the lowest number. *)
  Definition crossing (s1 e1 s2 e2 : vec2 T) : option T :=
    let zero := nzero n in
    let denom := (v2x e1 - v2x s1) * (v2y e2 - v2y s2) - (v2y e1 - v2y s1) * (v2x e2 - v2x s2) in
    if kEqual w denom zero then None
    else
      let r := ((v2y s1 - v2y s2) * (v2x e2 - v2x s2) - (v2x s1 - v2x s2) * (v2y e2 - v2y s2)) / denom in
      let s := ((v2y s1 - v2y s2) * (v2x e1 - v2x s1) - (v2x s1 - v2x s2) * (v2y e1 - v2y s1)) / denom in
      if (nlt n r zero || nlt n (kone k) r) || (nlt n s zero || nlt n (kone k) s) then None else Some r.
  (** GeometryUtils.hpp:140-144, getPointAlongLine. *)
  Definition alongLine (a b : vec2 T) (r : T) : vec2 T := mkV2 (v2x a + r * (v2x b - v2x a)) (v2y a + r * (v2y b - v2y a)).
  (** MathUtils.hpp:20-22, clamp (std::max of the lower bound and std::min of value and upper bound). *)
  Definition clamp (v lo hi : T) : T := let m := if nlt n hi v then hi else v in if nlt n lo m then m else lo.
  (** The vertices of a mesh, three coordinates each (SkillionRoofBuilder.hpp:78-82): place and height. *)
  Fixpoint vertexList (l : list T) : list (vec2 T * T) :=
    match l with x :: y :: h :: l' => (mkV2 x y, h) :: vertexList l' | _ => [] end.
  (** SkillionRoofBuilder.hpp:79, 107, 135: the vertex behind the [i]th of [m] vertices. *)
  Definition nextVertex (m i : nat) : nat := if (i =? m - 1)%nat then O else (i + 1)%nat.
  (** SkillionRoofBuilder.hpp:73-99: the front side by its first vertex and the highest vertex, if there are any. *)
  Record sights := mkSights { sFront : option nat; sBack : option nat; sMax : T; sMin : option T }.
  (** SkillionRoofBuilder.hpp:79-98: one side. *)
  Definition sight (m : nat) (from to : vec2 T) (at_ : nat -> vec2 T) (s : sights) (i : nat) : sights :=
    let v0 := at_ i in let v1 := at_ (nextVertex m i) in
    match crossing v0 v1 from to with
    | None => s
    | Some r =>
        let q := alongLine v0 v1 r in
        let d := distance2 from q in
        let s := if nlt n (sMax s) d then mkSights (Some i) (sBack s) d (sMin s) else s in
        if nearer d (sMin s)
        then mkSights (sFront s) (Some (if nlt n (distance2 v0 q) (distance2 v1 q) then i else nextVertex m i)) (sMax s) (Some d)
        else s
    end.
  (** SkillionRoofBuilder.hpp:159-161, calcHeight. *)
  Definition planeHeight (p : vec2 T) (normal : vec3 T) (d : T) : T :=
    if kEqual w (v3y normal) (nzero n) then nzero n
    else (d - v3x normal * v2x p - v3z normal * v2y p) / v3y normal.
  (** SkillionRoofBuilder.hpp:105-121: the height of the vertex at [q], not one of the front side; [p1] and [p2] are the ends of
      the front side, [p3] the highest vertex. *)
  Definition slopeHeight (minHeight maxHeight : T) (p1 p2 p3 q : vec2 T) : T :=
    let a := lifted minHeight p1 in let b := lifted minHeight p2 in let c := lifted maxHeight p3 in
    let normal := vcross n (vminus a b) (vminus c b) in
    let d := v3x normal * v3x a + v3y normal * v3y a + v3z normal * v3z a in
    clamp (planeHeight q normal d) minHeight maxHeight.
  (** SkillionRoofBuilder.hpp:131-150: the faces below the side which begins at the [i]th vertex. *)
  Definition skillionSide (look : lookOptions T) (height minHeight : T) (m front : nat) (at_ : nat -> vec2 T) (top : nat -> T) (i : nat)
      : list meshOp :=
    let scale := kScaled w (lscale look) height in
    let o := nzero n in
    let u0 := mkV2 o o in let u1 := mkV2 o scale in let u2 := mkV2 scale scale in let u3 := mkV2 scale o in
    let next := nextVertex m i in
    let v0 := lifted minHeight (at_ i) in let v1 := lifted (top i) (at_ i) in
    let v2 := lifted (top next) (at_ next) in let v3 := lifted minHeight (at_ next) in
    if (i =? front)%nat then []
    else if (i =? nextVertex m front)%nat then [roofTriangle look v0 v2 v3 u0 u2 u3]
    else if (next =? front)%nat then [roofTriangle look v0 v1 v3 u0 u1 u3]
    else [roofTriangle look v0 v2 v3 u0 u2 u3; roofTriangle look v0 v1 v2 u0 u1 u2].
  (** SkillionRoofBuilder.hpp:56-152: one outer contour; [None] is the return of false at line 103.  The polygon is drawn with
      all its contours. *)
  Definition skillionRange (dir : vec2 T) (look : lookOptions T) (p : polygon T) (height minHeight : T) (range : nat * nat)
      : outcome (option (list meshOp)) :=
    let maxHeight := minHeight + height in
    bind (centroidAt n w p range) (fun center =>
    let back := mkV2 (v2x center - v2x dir * fTenth f) (v2y center - v2y dir * fTenth f) in
    let ahead := mkV2 (v2x center + v2x dir * fTenth f) (v2y center + v2y dir * fTenth f) in
    bind (addPolygon n env emptyMesh p (houseGeo n (nzero n) minHeight false) look) (fun mesh =>
    let vs := vertexList (bverts mesh) in
    let m := length vs in
    let at_ i := fst (nth i vs (mkV2 (nzero n) (nzero n), nzero n)) in
    let s := fold_left (sight m back ahead at_) (seq 0 m) (mkSights None None (nzero n) None) in
    match sFront s, sBack s with
    | Some front, Some peak =>
        if (front =? peak)%nat then Ok None
        else
          let next := nextVertex m front in
          let top i :=
            if (i =? front)%nat || (i =? next)%nat then snd (nth i vs (mkV2 (nzero n) (nzero n), nzero n))
            else slopeHeight minHeight maxHeight (at_ front) (at_ next) (at_ peak) (at_ i) in
          let verts := flat_map (fun i => [v2x (at_ i); v2y (at_ i); top i]) (seq 0 m) in
          Ok (Some (flat_map (skillionSide look height minHeight m front at_ top) (seq 0 m) ++
                    [OpCopy (vzero n) (mkBMesh verts (btris mesh) (bcols mesh) (buvs mesh) (bmap mesh))]))
    | _, _ => Ok None
    end)).
  (** SkillionRoofBuilder.hpp:56-155: the loop over the outer contours; what was drawn before a return of false stays. *)
  Fixpoint skillionAll (dir : vec2 T) (look : lookOptions T) (p : polygon T) (height minHeight : T) (ranges : list (nat * nat))
      : outcome (list meshOp * bool) :=
    match ranges with
    | [] => Ok ([], true)
    | r :: ranges' =>
        bind (skillionRange dir look p height minHeight r) (fun o =>
        match o with
        | None => Ok ([], false)
        | Some ops => bind (skillionAll dir look p height minHeight ranges') (fun '(rest, good) => Ok (ops ++ rest, good))
        end)
    end.
  (** SkillionRoofBuilder.hpp:37-48 and 50-54, build and the begin of buildSkillion. *)
  Definition skillionRoof (degrees : T) (look : lookOptions T) (p : polygon T) (height minHeight : T) : outcome (list meshOp) :=
    let grad := fPi f * degrees / kCount w 180 in
    let dir := normalized2 n k g (mkV2 (ksin k grad) (kcos k grad)) in
    bind (skillionAll dir look p height minHeight (pouters p)) (fun '(ops, good) =>
    Ok (ops ++ if good then [OpTexture look] else flatRoof n look p minHeight false)).
End Roof.
