(** What the calls that build a mesh are expected to draw. *)
From Verif Require Import Base RingModel MeshBuildModel.
Local Open Scope nat_scope.

(** Groups of three and of two consecutive entries. *)
Fixpoint threes {A} (l : list A) : list (A * A * A) :=
  match l with a :: b :: c :: l' => (a, b, c) :: threes l' | _ => [] end.
Fixpoint twos {A} (l : list A) : list (A * A) :=
  match l with a :: b :: l' => (a, b) :: twos l' | _ => [] end.

Section MeshBuildSpec.
  Context {T : Type}.

  (** A vertex as a reader of the mesh sees it: position (longitude, latitude, height), color
      and texture coordinate. *)
  Record corner := mkCorner { cpos : T * T * T; ccol : Z; cuv : T * T }.

  (** The vertices in order. *)
  Definition corners (m : bmesh T) : list corner :=
    map (fun '(p, c, u) => mkCorner p c u)
        (combine (combine (threes (bverts m)) (bcols m)) (twos (buvs m))).

  (** A corner by index: none when the index is out of range. *)
  Definition cornerAt (cs : list corner) (i : Z) : option corner :=
    if (i <? 0)%Z then None else nth_error cs (Z.to_nat i).

  (** The triangles of a mesh by the corners they connect. *)
  Definition faceOf (cs : list corner) (t : Z * Z * Z) :=
    let '(a, b, c) := t in (cornerAt cs a, cornerAt cs b, cornerAt cs c).
  Definition faces (m : bmesh T) := map (faceOf (corners m)) (threes (btris m)).

  (** Three coordinates, one color and two texture coordinates for each of [k] vertices, whole
      triangles, every index in range. *)
  Definition sized (m : bmesh T) (k : nat) : Prop :=
    length (bverts m) = 3 * k /\ length (bcols m) = k /\ length (buvs m) = 2 * k.
  Definition wellFormed (m : bmesh T) (k : nat) : Prop :=
    sized m k /\ length (btris m) mod 3 = 0 /\
    Forall (fun i => 0 <= i < Z.of_nat k)%Z (btris m).

  (** The texture map: records of eight; the first entry is where the record ends, the others
      describe the texture.  A record covers the texture coordinates from the end of the record
      before it. *)
  Fixpoint records (l : list Z) : list (Z * list Z) :=
    match l with
    | e :: a :: b :: c :: d :: f :: g :: h :: l' => (e, [a; b; c; d; f; g; h]) :: records l'
    | _ => []
    end.
  Fixpoint textureIn (rs : list (Z * list Z)) (i : Z) : option (list Z) :=
    match rs with
    | [] => None
    | (e, t) :: rs' => if (i <? e)%Z then Some t else textureIn rs' i
    end.
  Definition textureAt (m : bmesh T) (i : Z) : option (list Z) := textureIn (records (bmap m)) i.
  (** Where the last record ends. *)
  Definition covered (m : bmesh T) : Z := last (map fst (records (bmap m))) 0%Z.
  (** Whole records that end in ascending order, not beyond the texture coordinates. *)
  Fixpoint ascending (from : Z) (l : list Z) (limit : Z) : Prop :=
    match l with [] => (from <= limit)%Z | e :: l' => (from <= e)%Z /\ ascending e l' limit end.
  Definition goodMap (m : bmesh T) : Prop :=
    length (bmap m) mod 8 = 0 /\
    ascending 0 (map fst (records (bmap m))) (Z.of_nat (length (buvs m))).
  (** What [textureAt] reports for given options. *)
  Definition textureOf (look : lookOptions T) : list Z :=
    let r := lregion look in [ltexture look; ratlasW r; ratlasH r; rx r; ry r; rwidth r; rheight r].

  (** What the Triangle library is trusted to return: a marker for every point, if any, and
      triangles between those points. *)
  Definition goodTri (io : triio T) : Prop :=
    match tmarkers io with None => True | Some l => length l = length (tpoints io) end /\
    Forall (fun r => 3 <= length r /\ Forall (fun i => 0 <= i < Z.of_nat (length (tpoints io)))%Z r)
           (ttris io).

  Section Drawn.
    Context (n : nums T) (env : builderEnv T).

    (** The triangulation drawn for a polygon. *)
    Definition triangulation (p : polygon T) (geo : geomOptions T) : triio T :=
      if nlt n (nabs n (garea geo)) (eEps env) then eTriangulate env p
      else eRefine env (gsplit geo) (garea geo) (eTriangulate env p).

    (** A point of the triangulation: noise is added to its height off the boundary only
        (marker 1, or no markers at all). *)
    Definition ground (geo : geomOptions T) (x y : T) : T :=
      if nlt n (eLowest env) (gele geo) then gele geo else eElevation env y x.
    Definition triCorner (geo : geomOptions T) (look : lookOptions T) (io : triio T)
        (i : nat) (p : T * T) : corner :=
      let '(x, y) := p in
      let h := nadd n (gheight geo) (ground geo x y) in
      let inner := match tmarkers io with None => false | Some l => negb (nth i l 1 =? 1)%Z end in
      let scale v lo size := nmul n (ndiv n (nsub n v lo) size) (lscale look) in
      mkCorner (x, y, if inner then nadd n h (ePerlin env x y (gnoise geo)) else h)
        (lgradient look (ePerlin env x y (lnoise look)))
        (if ((ratlasW (lregion look) =? 0) || (ratlasH (lregion look) =? 0))%Z
         then (nzero n, nzero n)
         else (scale x (eMinLon env) (eWidth env), scale y (eMinLat env) (eHeight env))).
    Definition numbered {A} (l : list A) : list (nat * A) := combine (seq 0 (length l)) l.
    Definition triCorners (geo : geomOptions T) (look : lookOptions T) (io : triio T) : list corner :=
      map (fun '(i, p) => triCorner geo look io i p) (numbered (tpoints io)).

    Definition face3 (a b c : corner) := (Some a, Some b, Some c).
    (** A corner of a plane or a triangle. *)
    Definition place (v : vec3 T) (color : Z) (uv : vec2 T) : corner :=
      mkCorner (v3x v, v3z v, v3y v) color (v2x uv, v2y uv).

    (** The vertices and the faces one call adds. *)
    Definition planeCorners (p1 p2 : vec3 T) (geo : geomOptions T) (look : lookOptions T) :=
      let up v := mkV3 (v3x v) (nadd n (v3y v) (gheight geo)) (v3z v) in
      let color := lgradient look (ePerlin env (v3x p1) (v3y p1) (lnoise look)) in
      let size := ndiv n (eWidth env) (lscale look) in
      let w := ndiv n (eDistance env (mkV2 (v3x p2) (v3z p2)) (mkV2 (v3x p1) (v3z p1))) size in
      let h := ndiv n (eOffset env (v3y p1) (v3x p1) (gheight geo)) size in
      let o := nzero n in
      (place p1 color (mkV2 o o), place p2 color (mkV2 w o),
       place (up p2) color (mkV2 w h), place (up p1) color (mkV2 o h)).
    Definition groundPoint (geo : geomOptions T) (p : vec2 T) : vec3 T :=
      mkV3 (v2x p) (nadd n (ground geo (v2x p) (v2y p)) (ePerlin env (v2x p) (v2y p) (gnoise geo)))
           (v2y p).

    Definition newCorners (o : meshOp) : list corner :=
      let plane p1 p2 geo look :=
        let '(a, b, c, d) := planeCorners p1 p2 geo look in [a; b; c; d; a; c] in
      match o with
      | OpPolygon p geo look => triCorners geo look (triangulation p geo)
      | OpPlane2 p1 p2 geo look => plane (groundPoint geo p1) (groundPoint geo p2) geo look
      | OpPlane3 p1 p2 geo look => plane p1 p2 geo look
      | OpTriangle v0 v1 v2 uv0 uv1 uv2 geo look =>
          let at_ v := place v (lgradient look (ePerlin env (v3x v0) (v3z v0) (lnoise look))) in
          [at_ v0 uv0; at_ v1 uv1; at_ v2 uv2] ++
          if gback geo then [at_ v2 uv0; at_ v1 uv1; at_ v0 uv2] else []
      | OpTexture _ => []
      | OpCopy off src =>
          map (fun c => let '(x, y, h) := cpos c in
                        mkCorner (nadd n x (v3x off), nadd n y (v3z off), nadd n h (v3y off))
                                 (ccol c) (cuv c)) (corners src)
      end.

    Definition newFaces (o : meshOp) :=
      let plane p1 p2 geo look :=
        let '(a, b, c, d) := planeCorners p1 p2 geo look in [face3 a c b; face3 d c a] in
      match o with
      | OpPolygon p geo look =>
          let cs := newCorners o in
          map (fun r => let at_ j := cornerAt cs (nth j r 0%Z) in
                        if gflip geo then (at_ 2, at_ 0, at_ 1) else (at_ 1, at_ 0, at_ 2))
              (ttris (triangulation p geo))
      | OpPlane2 p1 p2 geo look => plane (groundPoint geo p1) (groundPoint geo p2) geo look
      | OpPlane3 p1 p2 geo look => plane p1 p2 geo look
      | OpTriangle v0 v1 v2 uv0 uv1 uv2 geo look =>
          match newCorners o with
          | a :: b :: c :: back =>
              face3 a b c ::
              (* the back face as it is: the third corner twice, then the second *)
              match back with d :: e :: f :: _ => [face3 c d e] | _ => [] end
          | _ => []
          end
      | OpTexture _ => []
      | OpCopy off src => map (faceOf (newCorners o)) (threes (btris src))
      end.

    (** The calls considered: triangulations as trusted, copied meshes well formed, with a good
        texture map when [maps]. *)
    Definition goodOp (o : meshOp) : Prop :=
      match o with
      | OpPolygon p geo look => goodTri (triangulation p geo)
      | OpCopy _ src => exists k, wellFormed src k /\ goodMap src
      | _ => True
      end.
  End Drawn.

  (** Contours: segment [i] of a contour of [count] points that starts at point [from] joins
      point [i] to the next one, the last point to the first. *)
  Definition ringSegments (from count : nat) : list Z :=
    flat_map (fun i => [Z.of_nat (from + i);
                        Z.of_nat (from + if Datatypes.S i =? count then 0 else Datatypes.S i)])
             (seq 0 count).
  (** The points of a contour given as [contour]: a last point that repeats the first is left out. *)
  Definition openContour (same : vec2 T -> vec2 T -> bool) (contour : list (vec2 T)) : list (vec2 T) :=
    match contour with
    | [] => []
    | v :: _ => if same v (last contour v) then removelast contour else contour
    end.
  Definition coordinates (l : list (vec2 T)) : list T := flat_map (fun v => [v2x v; v2y v]) l.
  (** The segments of several rings laid out one after the other. *)
  Fixpoint layout (from : nat) (rings : list (list (vec2 T))) : list Z :=
    match rings with
    | [] => []
    | r :: rings' => ringSegments from (length r) ++ layout (from + length r) rings'
    end.
End MeshBuildSpec.
Arguments corner T : clear implicits.
