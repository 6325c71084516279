(** Models of core/src/builders/generators/IcoSphereGenerator.cpp/.hpp and CylinderGenerator.hpp with the part of
    AbstractGenerator.hpp they use, over any operations on double.  The result is the list of triangles
    given to MeshBuilder::addTriangle (MeshBuildModel.addTriangle). *)
From Coq Require Import Reals.
From Verif Require Import Base RingModel MeshBuildModel QuatModel.
Local Open Scope nat_scope.

(** A triangle given to MeshBuilder::addTriangle (AbstractGenerator.hpp:63-80); the noise of line 66 is left out, it is 0 in all builders. *)
Definition triangle (T : Type) : Type := vec3 T * vec3 T * vec3 T.
(** IcoSphereGenerator.cpp:8-13. *)
Definition indices : Type := nat * nat * nat.

(** IcoSphereGenerator.cpp:40-66, getSphereFaces. *)
Definition sphereFaces : list indices :=
  [(0, 11, 5); (0, 5, 1); (0, 1, 7); (0, 7, 10); (0, 10, 11); (1, 5, 9); (5, 11, 4); (11, 10, 2); (10, 7, 6); (7, 1, 8);
   (3, 9, 4); (3, 4, 2); (3, 2, 6); (3, 6, 8); (3, 8, 9); (4, 9, 5); (2, 4, 11); (6, 2, 10); (8, 6, 7); (9, 8, 1)].
(** IcoSphereGenerator.cpp:68-86, getSemiSphereFaces. *)
Definition semiSphereFaces : list indices :=
  [(0, 11, 5); (0, 5, 1); (0, 1, 7); (0, 7, 10); (0, 10, 11); (1, 5, 9); (5, 11, 4); (10, 7, 6); (7, 1, 8); (4, 9, 5);
   (8, 6, 7); (9, 8, 1)].
(** IcoSphereGenerator.cpp:127-130: the key of a pair of vertices, 64 bits. *)
Definition pairKey (p1 p2 : nat) : N :=
  let s := if p1 <? p2 then p1 else p2 in
  let g := if p1 <? p2 then p2 else p1 in
  ((N.of_nat s * 2 ^ 32) mod 2 ^ 64 + N.of_nat g) mod 2 ^ 64.

(** Constants and conversions used beside [nums] and [trig]: an int as double, static_cast<int>(std::ceil(x)) which
    is undefined if the value is no int (CylinderGenerator.hpp:61), pi (MathUtils.hpp:11-13) and
    numeric_limits<double>::epsilon() (Vector3.hpp:19-21, 53). *)
Record gens (T : Type) := mkGens { gint : Z -> T; gceil : T -> option Z; gpi : T; geps : T }.
Arguments mkGens {T}. Arguments gint {T}. Arguments gceil {T}. Arguments gpi {T}. Arguments geps {T}.

Section Generators.
  Context {T : Type} (n : nums T) (k : trig T) (g : gens T).
  Local Notation "a + b" := (nadd n a b).
  Local Notation "a - b" := (nsub n a b).
  Local Notation "a * b" := (nmul n a b).
  Local Notation "a / b" := (ndiv n a b).

  (** Vector3.hpp:47-49, magnitude. *)
  Definition magnitude (v : vec3 T) : T := ksqrt k (v3x v * v3x v + v3y v * v3y v + v3z v * v3z v).
  (** Vector3.hpp:15 and 69-71: the zero vector. *)
  Definition vzero : vec3 T := mkV3 (nzero n) (nzero n) (nzero n).
  (** Vector3.hpp:51-56, normalized. *)
  Definition normalized (v : vec3 T) : vec3 T :=
    let l := magnitude v in
    if nlt n (geps g) l then mkV3 (v3x v / l) (v3y v / l) (v3z v / l) else vzero.
  (** Vector3.hpp:18-22, operator==. *)
  Definition sameVec3 (a b : vec3 T) : bool :=
    nlt n (nabs n (v3x a - v3x b)) (geps g) && nlt n (nabs n (v3y a - v3y b)) (geps g) && nlt n (nabs n (v3z a - v3z b)) (geps g).

  (** IcoSphereGenerator.cpp:17. *)
  Definition golden : T := (kone k + ksqrt k (gint g 5)) / gint g 2.
  (** IcoSphereGenerator.cpp:16-37, createVertexList. *)
  Definition vertexList : list (vec3 T) :=
    let t := golden in let o := nzero n in let i := kone k in
    let m := nsub n (nzero n) i in let mt := nsub n (nzero n) t in
    map normalized
      [mkV3 m t o; mkV3 i t o; mkV3 m mt o; mkV3 i mt o;
       mkV3 o m t; mkV3 o i t; mkV3 o m mt; mkV3 o i mt;
       mkV3 t o m; mkV3 t o i; mkV3 mt o m; mkV3 mt o i].

  (** IcoSphereGenerator.hpp:63-64: the cache of middle points and the vertices. *)
  Definition icoState : Type := list (N * nat) * list (vec3 T).
  (** IcoSphereGenerator.cpp:137-146: the middle of two vertices on the unit sphere. *)
  Definition middleOf (a b : vec3 T) : vec3 T :=
    normalized (mkV3 ((v3x a + v3x b) / gint g 2) ((v3y a + v3y b) / gint g 2) ((v3z a + v3z b) / gint g 2)).
  (** IcoSphereGenerator.cpp:125-152, getMiddlePoint; an index beyond the vertices is undefined. *)
  Definition middlePoint (st : icoState) (p1 p2 : nat) : outcome (icoState * nat) :=
    match alookup N.eqb (pairKey p1 p2) (fst st) with
    | Some i => Ok (st, i)
    | None =>
        match nth_error (snd st) p1, nth_error (snd st) p2 with
        | Some a, Some b =>
            let size := length (snd st) in
            Ok ((fst st ++ [(pairKey p1 p2, size)], snd st ++ [middleOf a b]), size)
        | _, _ => UB
        end
    end.
  (** IcoSphereGenerator.cpp:98-108: every triangle is replaced by four. *)
  Fixpoint refineFaces (st : icoState) (fs : list indices) : outcome (icoState * list indices) :=
    match fs with
    | [] => Ok (st, [])
    | (v1, v2, v3) :: fs' =>
        bind (middlePoint st v1 v2) (fun '(st, a) => bind (middlePoint st v2 v3) (fun '(st, b) =>
        bind (middlePoint st v3 v1) (fun '(st, c) => bind (refineFaces st fs') (fun '(st, r) =>
        Ok (st, (v1, a, c) :: (v2, b, a) :: (v3, c, b) :: (a, b, c) :: r)))))
    end.
  (** IcoSphereGenerator.cpp:93-110: the loop over the levels; every level starts from the faces of the icosahedron. *)
  Fixpoint refineLoop (fs : list indices) (level : nat) (st : icoState) (mesh : list indices) : outcome (icoState * list indices) :=
    match level with
    | O => Ok (st, mesh)
    | S level' => bind (refineFaces st fs) (fun '(st, fs2) => refineLoop fs level' st fs2)
    end.
  (** IcoSphereGenerator.cpp:114-116: a corner; [tr] is AbstractGenerator.hpp:58-60, [center] and [size] as set. *)
  Definition corner (tr : vec3 T -> vec3 T) (center size : vec3 T) (v : vec3 T) : vec3 T :=
    tr (vadd n (mkV3 (v3x v * v3x size) (v3y v * v3y size) (v3z v * v3z size)) center).
  (** IcoSphereGenerator.cpp:113-118: a triangle of vertices. *)
  Definition faceTriangle (verts : list (vec3 T)) (place : vec3 T -> vec3 T) (f : indices) : outcome (triangle T) :=
    let '(a, b, c) := f in
    match nth_error verts a, nth_error verts b, nth_error verts c with
    | Some a, Some b, Some c => Ok (place a, place b, place c)
    | _, _, _ => UB
    end.
  (** IcoSphereGenerator.cpp:112-118: all triangles. *)
  Fixpoint faceTriangles (verts : list (vec3 T)) (place : vec3 T -> vec3 T) (fs : list indices) : outcome (list (triangle T)) :=
    match fs with
    | [] => Ok []
    | f :: fs' => bind (faceTriangle verts place f) (fun t => bind (faceTriangles verts place fs') (fun ts => Ok (t :: ts)))
    end.
  (** IcoSphereGenerator.cpp:89-123, generate; the cache is empty before and after (line 121). *)
  Definition icoSphere (tr : vec3 T -> vec3 T) (center size : vec3 T) (semi : bool) (level : Z) : outcome (list (triangle T)) :=
    bind (refineLoop (if semi then semiSphereFaces else sphereFaces) (Z.to_nat level) ([], vertexList) []) (fun '(st, fs) =>
    faceTriangles (snd st) (corner tr center size) fs).

  (** MathUtils.hpp:34-38, lerp. *)
  Definition lerp (a b r : T) : T := a * (kone k - r) + b * r.
  (** CylinderGenerator.hpp:102-106, getRadius. *)
  Definition radiusAt (size1 size2 : vec3 T) (r : T) : vec3 T :=
    mkV3 (lerp (v3x size2) (v3x size1) r) (lerp (v3y size2) (v3y size1) r) (lerp (v3z size2) (v3z size1) r).
  (** CylinderGenerator.hpp:108-111, scale. *)
  Definition scaleBy (v size : vec3 T) : vec3 T := mkV3 (v3x v * v3x size) (v3y v * v3x size) (v3z v * v3z size).

  (** CylinderGenerator.hpp:113-119: what is set before generate. *)
  Record cylinder := mkCylinder { ccenter : vec3 T; cdirection : vec3 T; cright : vec3 T; csize1 : vec3 T; csize2 : vec3 T;
    cmaxHeight : T; cradial : Z; ctranslate : vec3 T -> vec3 T }.

  (** CylinderGenerator.hpp:67-91: the triangles of segment [j] and [i] of [h]. *)
  Definition cylinderPart (c : cylinder) (h : Z) (j i : Z) : list (triangle T) :=
    let heightStep := v3y (csize1 c) / gint g h in
    let angleStep := gint g 2 * gpi g / gint g (cradial c) in
    let direction1 := fromAngleAxis n k (gint g j * angleStep) (cdirection c) in
    let direction2 := fromAngleAxis n k (gint g (if (j =? cradial c - 1)%Z then 0 else j + 1)%Z * angleStep) (cdirection c) in
    let radius1 := radiusAt (csize1 c) (csize2 c) (gint g (h - i)%Z / gint g h) in
    let radius2 := radiusAt (csize1 c) (csize2 c) (gint g (h - i - 1)%Z / gint g h) in
    let center1 := vadd n (ccenter c) (vscale n (cdirection c) (heightStep * gint g i)) in
    let center2 := vadd n (ccenter c) (vscale n (cdirection c) (heightStep * gint g (i + 1)%Z)) in
    let tr := ctranslate c in
    let v0 := tr (vadd n center1 (scaleBy (qapply n k direction1 (cright c)) radius1)) in
    let v1 := tr (vadd n center1 (scaleBy (qapply n k direction2 (cright c)) radius1)) in
    let v2 := tr (vadd n center2 (scaleBy (qapply n k direction2 (cright c)) radius2)) in
    let v3 := tr (vadd n center2 (scaleBy (qapply n k direction1 (cright c)) radius2)) in
    [(v1, v2, v0); (v0, v2, v3)] ++
    (if (i =? 0)%Z then [(tr center1, v1, v0)] else []) ++
    (if (i =? h - 1)%Z && negb (sameVec3 (csize2 c) vzero) then [(tr center2, v3, v2)] else []).
  (** The ints from 0 on (loops of CylinderGenerator.hpp:65, 70). *)
  Definition upTo (h : Z) : list Z := map Z.of_nat (seq 0 (Z.to_nat h)).
  (** CylinderGenerator.hpp:60-62: the number of height segments. *)
  Definition heightSegments (c : cylinder) : option Z :=
    if nlt n (cmaxHeight c) (nzero n) || nlt n (nzero n) (cmaxHeight c)
    then gceil g (v3y (csize1 c) / cmaxHeight c) else Some 1%Z.
  (** CylinderGenerator.hpp:60-94, generate; no other operation is undefined, since an empty loop does not use the steps.
      NaN is left out. *)
  Definition cylinderOf (c : cylinder) : outcome (list (triangle T)) :=
    match heightSegments c with
    | None => UB
    | Some h => Ok (flat_map (fun j => flat_map (cylinderPart c h j) (upTo h)) (upTo (cradial c)))
    end.
End Generators.
Arguments mkCylinder {T}. Arguments ccenter {T}. Arguments cdirection {T}. Arguments cright {T}. Arguments csize1 {T}.
Arguments csize2 {T}. Arguments cmaxHeight {T}. Arguments cradial {T}. Arguments ctranslate {T}.

(** Exact real arithmetic; epsilon is that of double (Vector3.hpp:19, 53), the ceiling is an int if it fits one. *)
Definition realGens : gens R :=
  mkGens IZR (fun x => let z := (- (up (- x) - 1))%Z in
                       if ((- 2 ^ 31 <=? z) && (z <? 2 ^ 31))%Z then Some z else None) PI (/ 2 ^ 52)%R.
