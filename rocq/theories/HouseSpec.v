(** What is expected of buildings, without the model of the code but its elements, styles and the polygon handed to the
    Triangle library (exact real arithmetic). *)
From Coq Require Import Reals Permutation.
From Verif Require Import Base GeoModel RingModel MeshBuildModel MeshBuildSpec GenSpec RowSpec QuatModel HouseModel.
Local Open Scope R_scope.

(** Exact real arithmetic with any elevation, texture scale and search for a point inside a contour. *)
Definition realHouse (ele scaled : R -> R -> R) (inside : list (vec2 R) -> option (vec2 R)) : houseEnv R :=
  mkHouseEnv 10 2 (fun a b => if Req_EM_T a b then true else false) ele scaled INR inside.

(** A building or a part of one: whose style it has and its outlines, the holes marked. *)
Record part (E : Type) := mkPart { pOwner : E; pOutlines : list (list (point R) * bool) }.
Arguments mkPart {E}. Arguments pOwner {E}. Arguments pOutlines {E}.

Section HouseSpec.
  Context {E : Type} (env : builderEnv R) (w : houseEnv R) (idOf : E -> N) (styleOf : E -> houseStyle R).

  (** * The parts of an element *)
  Fixpoint areasIn (h : house E R) : list (list (point R)) :=
    match h with
    | HNode _ | HWay _ => []
    | HArea _ cs => [cs]
    | HRelation _ ms => flat_map areasIn ms
    end.
  Fixpoint onlyAreas (h : house E R) : bool :=
    match h with
    | HNode _ | HWay _ => false
    | HArea _ _ => true
    | HRelation _ ms => forallb onlyAreas ms
    end.
  Definition outlinesOf (e : E) : bool := hMulti (styleOf e) && hBuilding (styleOf e).
  Fixpoint partsOf (h : house E R) : list (part E) :=
    match h with
    | HNode _ | HWay _ => []
    | HArea e cs => if hBuilding (styleOf e) then [mkPart e [(cs, false)]] else []
    | HRelation _ [] => []
    | HRelation e ms =>
        if outlinesOf e then [mkPart e (map (fun cs => (cs, isClockwise realNums cs)) (flat_map areasIn ms))]
        else flat_map partsOf ms
    end.
  (** Relations drawn by the outlines of their members have areas only. *)
  Fixpoint sound (h : house E R) : bool :=
    match h with
    | HRelation e ms => if outlinesOf e then forallb onlyAreas ms else forallb sound ms
    | _ => true
    end.
  (** The element itself; whether it has anything to be drawn into. *)
  Definition ownerOf (h : house E R) : E := match h with HNode e | HWay e | HArea e _ | HRelation e _ => e end.
  Definition hasMesh (h : house E R) : bool :=
    match h with
    | HNode _ | HWay _ => false
    | HArea e _ => hBuilding (styleOf e)
    | HRelation _ ms => match ms with [] => false | _ => true end
    end.

  (** * The plan of a part *)
  Definition lineOf (cs : list (point R)) : list (vec2 R) := map (fun c => mkV2 (plon c) (plat c)) cs.
  (** A hole without a point inside is left out. *)
  Definition isKept (o : list (point R) * bool) : bool :=
    match kInside w (lineOf (fst o)) with None => negb (snd o) | Some _ => true end.
  (** The rings, the holes marked. *)
  Definition ringsOf (p : part E) : list (list (vec2 R) * bool) :=
    map (fun o : list (point R) * bool => (openContour (sameVec realNums env) (lineOf (fst o)), snd o)) (List.filter isKept (pOutlines p)).
  Definition holePoints (p : part E) : list R :=
    flat_map (fun o : list (point R) * bool => match kInside w (lineOf (fst o)) with
                       | Some q => if snd o then [v2x q; v2y q] else [] | None => [] end) (pOutlines p).
  (** Where the rings of a kind begin and end. *)
  Fixpoint rangesOf (from : nat) (hole : bool) (rings : list (list (vec2 R) * bool)) : list (nat * nat) :=
    match rings with
    | [] => []
    | (r, b) :: rings' =>
        let next := (from + 2 * length r)%nat in
        (if Bool.eqb b hole then [(from, next)] else []) ++ rangesOf next hole rings'
    end.
  Definition planOf (p : part E) : polygon R :=
    let rings := ringsOf p in
    mkPoly (coordinates (concat (map fst rings))) (holePoints p) (layout 0 (map fst rings))
      (rangesOf 0 false rings) (rangesOf 0 true rings).
  (** The rings of a kind. *)
  Definition ringsOnly (hole : bool) (p : part E) : list (list (vec2 R)) :=
    map fst (List.filter (fun r => Bool.eqb (snd r) hole) (ringsOf p)).
  (** Outlines are not empty and their points can be counted by an int. *)
  Definition countable (p : part E) : Prop :=
    Forall (fun o => fst o <> []) (pOutlines p) /\ (Z.of_nat (length (concat (map fst (pOutlines p)))) < 2 ^ 31)%Z.

  (** * One part after the other into the mesh made for the element with the id *)
  Definition contoursOf (p : part E) : list (list (vec2 R) * bool * option (vec2 R)) :=
    map (fun o : list (point R) * bool => (lineOf (fst o), snd o, kInside w (lineOf (fst o)))) (pOutlines p).
  Fixpoint drawParts (id : N) (l : list (part E)) (m : bmesh R) : outcome (bmesh R) :=
    match l with
    | [] => Ok m
    | p :: l' =>
        bind (addContours realNums env emptyPolygon (contoursOf p)) (fun plan =>
        bind (buildOps realNums env w id (styleOf (pOwner p)) plan) (fun ops =>
        bind (meshRun realNums env ops m) (drawParts id l')))
    end.
  (** Nothing is left of earlier elements. *)
  Definition cleanPoly (p : option (polygon R)) : Prop := p = None \/ p = Some emptyPolygon.
  Definition clean (s : site R E) : Prop := sMesh s = None /\ cleanPoly (sPoly s).

  (** * What is drawn of a part *)
  (** The sides of a ring, the one which ends at its first point first. *)
  Definition around {A} (r : list A) : list (A * A) :=
    match r with [] => [] | x :: _ => combine (last r x :: r) r end.
  Definition at_ (y : R) (v : vec2 R) : vec3 R := mkV3 (v2x v) y (v2y v).
  Definition walls (low top : R) (ring : list (vec2 R)) : list tri3 :=
    flat_map (fun '(a, b) => upright4 (at_ low a) (at_ low b) (top - low)) (rev (around ring)).
  Definition corner2 (io : triio R) (i : Z) : vec2 R :=
    let '(x, y) := nth (Z.to_nat i) (tpoints io) (0, 0) in mkV2 x y.
  Definition triples (io : triio R) : list (Z * Z * Z) :=
    map (fun r => (nth 0 r 0%Z, nth 1 r 0%Z, nth 2 r 0%Z)) (ttris io).
  (** A flat surface seen from above and from below, for triangles which go round counter-clockwise on the map. *)
  Definition fromAbove (io : triio R) (y : R) : list tri3 :=
    map (fun '(a, b, c) => (at_ y (corner2 io b), at_ y (corner2 io a), at_ y (corner2 io c))) (triples io).
  Definition fromBelow (io : triio R) (y : R) : list tri3 :=
    map (fun '(a, b, c) => (at_ y (corner2 io c), at_ y (corner2 io a), at_ y (corner2 io b))) (triples io).
  (** The middle of the points of a ring. *)
  Definition middle (ring : list (vec2 R)) : vec2 R :=
    mkV2 (fold_right Rplus 0 (map v2x ring) / INR (length ring)) (fold_right Rplus 0 (map v2y ring) / INR (length ring)).
  Definition tent (low top : R) (ring : list (vec2 R)) : list tri3 :=
    match ring with
    | [] => []
    | x :: ring' =>
        map (fun '(a, b) => (at_ low a, at_ top (middle ring), at_ low b)) (combine ring (ring' ++ [x]))
    end.
  (** The triangles of calls on a mesh (MeshBuildSpec). *)
  Definition drawnBy (ops : list (@meshOp R)) : list tri3 := flat_map (fun o => flat_map seen (newFaces realNums env o)) ops.
  Definition vertsOf (ops : list (@meshOp R)) : nat := length (flat_map (newCorners realNums env) ops).

  (** The height of a building above the ground; 10 for the height 0. *)
  Definition heightOf (st : houseStyle R) : R := if Req_EM_T (hHeight st) 0 then 10 else hHeight st.
  Definition sideCount (rings : list (list (vec2 R))) : nat := length (concat rings).

  (** The triangles and the number of vertices of the roof. *)
  Definition roofDraws (id : N) (p : part E) (top : R) (ts : list tri3) (k : nat) : Prop :=
    let st := styleOf (pOwner p) in
    let io := eTriangulate env (planOf p) in
    match hRoof st with
    | None => False
    | Some RoofNone => ts = [] /\ k = 0%nat
    | Some RoofFlat => goodTri io /\ eLowest env < top /\ ts = fromAbove io top /\ k = length (tpoints io)
    | Some RoofPyramidal =>
        ts = flat_map (tent top (top + hRoofHeight st)) (ringsOnly false p) /\ k = (3 * sideCount (ringsOnly false p))%nat
    | Some (RoofOther f) => exists ops, f (noNoise realNums (hRoofLook st id)) (planOf p) (hRoofHeight st) top = Ok ops /\
        Forall (goodOp realNums env) ops /\ ts = drawnBy ops /\ k = vertsOf ops
    end.
  Definition floorDraws (p : part E) (low : R) (ts : list tri3) (k : nat) : Prop :=
    let io := eTriangulate env (planOf p) in
    if Rlt_dec 0 (hMin (styleOf (pOwner p)))
    then goodTri io /\ eLowest env < low /\ ts = fromBelow io low /\ k = length (tpoints io)
    else ts = [] /\ k = 0%nat.
  Definition facadeDraws (id : N) (p : part E) (low top : R) (ts : list tri3) (k : nat) : Prop :=
    let st := styleOf (pOwner p) in
    match hFacade st with
    | None => False
    | Some FacadeFlat =>
        eLowest env < low /\
        let rings := ringsOnly false p ++ ringsOnly true p in ts = flat_map (walls low top) rings /\ k = (6 * sideCount rings)%nat
    | Some (FacadeOther f) => exists ops, f (noNoise realNums (hFacadeLook st id)) (planOf p) (top - low) low = Ok ops /\
        Forall (goodOp realNums env) ops /\ ts = drawnBy ops /\ k = vertsOf ops
    end.
  (** Where the lowest and the highest point of the walls of a part are; the ground is that of the first point. *)
  Definition standsAt (p : part E) (low top : R) : Prop :=
    let st := styleOf (pOwner p) in
    match concat (map fst (ringsOf p)) with
    | [] => False
    | q :: _ => low = kEle w (v2y q) (v2x q) + hMin st /\ top = kEle w (v2y q) (v2x q) + heightOf st
    end.
  Definition partDraws (id : N) (p : part E) (ts : list tri3) (k : nat) : Prop :=
    countable p /\
    exists low top roof kr floor kf facade kw, standsAt p low top /\
      roofDraws id p top roof kr /\ floorDraws p low floor kf /\ facadeDraws id p low top facade kw /\
      ts = roof ++ floor ++ facade /\ k = (kr + kf + kw)%nat.

  (** * Bodies *)
  (** What the Triangle library is trusted to return for a plan with its outer rings counter-clockwise and its holes
      clockwise: the points of the plan and triangles which fill it, so that sides in both directions cancel out but
      for the segments of the plan. *)
  Definition fills (io : triio R) (p : polygon R) : Prop :=
    tpoints io = twos (ppoints p) /\
    Permutation (allSides (triples io) ++ map flipped (twos (psegs p)))
                (map flipped (allSides (triples io)) ++ twos (psegs p)).
  (** The triangle goes round counter-clockwise on the map. *)
  Definition leftTurn (a b c : vec2 R) : Prop :=
    0 < (v2x b - v2x a) * (v2y c - v2y a) - (v2y b - v2y a) * (v2x c - v2x a).
  (** The floor a building on the ground does without. *)
  Definition openFloor (p : part E) (low : R) : list tri3 :=
    if Rlt_dec 0 (hMin (styleOf (pOwner p))) then [] else fromBelow (eTriangulate env (planOf p)) low.
End HouseSpec.
