(** Models of core/src/builders/generators/LSystemGenerator.cpp (what its turtle puts into a mesh; the turtle itself is in
    LsysModel), of splitBy of core/src/utils/CoreUtils.hpp, of trees of nodes of core/src/builders/poi/TreeBuilder.cpp and of
    core/src/builders/terrain/TerraExtras.cpp, over any operations on double. *)
From Coq Require Import Reals.
From Verif Require Import Base Bytes GeoModel RingModel MeshBuildModel QuatModel GenModel MetreModel LsysModel LsysParseModel RowModel.
Local Open Scope nat_scope.

(** CoreUtils.hpp:32-42, splitBy: std::getline up to the next separator; the stream is good until a getline meets its end, so
    there is always one more part than there are separators. *)
Fixpoint splitBy (c : N) (s : bytes) : list bytes :=
  match s with
  | [] => [[]]
  | b :: s' =>
      if N.eqb b c then [] :: splitBy c s'
      else match splitBy c s' with [] => [[b]] | p :: ps => (b :: p) :: ps end
  end.

(** The digits of a number below 65536 (CoreUtils.hpp:44-47, LSystemGenerator.cpp:33). *)
Fixpoint shortDigits (bs : bytes) (acc : N) : option N :=
  match bs with
  | [] => Some acc
  | b :: bs' =>
      if (N.leb 48 b && N.leb b 57)%bool then
        let acc' := (acc * 10 + (b - 48))%N in
        if N.ltb acc' 65536 then shortDigits bs' acc' else None
      else None
  end.
(** boost::lexical_cast<std::uint16_t> (CoreUtils.hpp:44-47, LSystemGenerator.cpp:33): an optional sign, digits and nothing else;
    a minus sign negates modulo 2^16. *)
Definition castShort (bs : bytes) : option N :=
  match bs with
  | [] | [43%N] | [45%N] => None
  | 43%N :: ds => shortDigits ds 0
  | 45%N :: ds => option_map (fun x => ((65536 - x) mod 65536)%N) (shortDigits ds 0)
  | ds => shortDigits ds 0
  end.

(** What is read of a style (LSystemGenerator.cpp:16-20, 25-28, 74): colors, texture indices, types and scales as texts, and
    the size. *)
Record treeStyle (T : Type) := mkTreeStyle { tsColors : bytes; tsIndices : bytes; tsTypes : bytes; tsScales : bytes; tsSize : T }.
Arguments mkTreeStyle {T}. Arguments tsColors {T}. Arguments tsIndices {T}. Arguments tsTypes {T}. Arguments tsScales {T}.
Arguments tsSize {T}.

(** Functions of other parts: StyleProvider::getGradient (LSystemGenerator.cpp:35), getTexture with random(0) (38) and
    boost::lexical_cast<double> (39). *)
Record treeEnv (T : Type) := mkTreeEnv { teGradient : bytes -> outcome (T -> Z); teTexture : N -> bytes -> outcome region;
  teDouble : bytes -> option T }.
Arguments mkTreeEnv {T}. Arguments teGradient {T}. Arguments teTexture {T}. Arguments teDouble {T}.

Section Trees.
  Context {T : Type} (n : nums T) (k : trig T) (g : gens T) (c : metres T) (env : builderEnv T) (te : treeEnv T).

  (** std::vector::at (LSystemGenerator.cpp:33, 35, 38, 39). *)
  Definition atOf {A} (l : list A) (i : nat) : outcome A :=
    match nth_error l i with Some a => Ok a | None => Throw OutOfRange end.
  (** A cast which may throw boost::bad_lexical_cast (LSystemGenerator.cpp:33, 39). *)
  Definition castOf {A} (o : option A) : outcome A :=
    match o with Some a => Ok a | None => Throw InvalidArgument end.
  (** LSystemGenerator.cpp:33-39: the appearance number [i].  The order of the arguments of lines 35 to 39 is not specified;
      it matters only for which exception is thrown if there are several reasons. *)
  Definition lookNo (colors indices types scales : list bytes) (i : nat) : outcome (lookOptions T) :=
    bind (atOf indices i) (fun ix => bind (castOf (castShort ix)) (fun ix =>
    bind (atOf colors i) (fun color => bind (teGradient te color) (fun gradient =>
    bind (atOf types i) (fun type => bind (teTexture te ix type) (fun texture =>
    bind (atOf scales i) (fun s => bind (castOf (teDouble te s)) (fun s =>
    Ok (mkLook gradient (nzero n) (Z.of_N ix) texture s))))))))).
  (** LSystemGenerator.cpp:32-40: the appearances of the given numbers. *)
  Fixpoint looksOf (colors indices types scales : list bytes) (is : list nat) : outcome (list (lookOptions T)) :=
    match is with
    | [] => Ok []
    | i :: is' =>
        bind (lookNo colors indices types scales i) (fun l =>
        bind (looksOf colors indices types scales is') (fun r => Ok (l :: r)))
    end.
  (** LSystemGenerator.cpp:23-43, createAppearances; 44 is a comma. *)
  Definition createAppearances (st : treeStyle T) : outcome (list (lookOptions T)) :=
    let colors := splitBy 44 (tsColors st) in
    looksOf colors (splitBy 44 (tsIndices st)) (splitBy 44 (tsTypes st)) (splitBy 44 (tsScales st)) (seq 0 (length colors)).
  (** LSystemGenerator.cpp:46-49, getAppearanceByIndex; the remainder by zero is undefined. *)
  Definition lookByIndex (looks : list (lookOptions T)) (index : nat) : outcome (lookOptions T) :=
    match looks with [] => UB | _ => atOf looks (index mod length looks) end.

  (** LSystemGenerator.cpp:143-146, translate. *)
  Definition treeTranslate (position : point T) (minHeight : T) (v : vec3 T) : vec3 T :=
    let q := worldToGeo n k c position (v3x v) (v3z v) in mkV3 (plon q) (nadd n (v3y v) minHeight) (plat q).
  (** LSystemGenerator.cpp:148-150, getSize. *)
  Definition treeSize (s : tstate T) : vec3 T := mkV3 (twidth s) (tlength s) (twidth s).
  (** LSystemGenerator.cpp:67-72, 98-130: the triangles of a cylinder, cone or sphere. *)
  Definition drawingTriangles (tr : vec3 T -> vec3 T) (d : drawing T) : outcome (list (triangle T)) :=
    let s := dstate d in
    match dshape d with
    | Cylinder => cylinderOf n k g (mkCylinder (tpos s) (tdir s) (tright s) (treeSize s) (treeSize s) (nzero n) 7 tr)
    | Cone => cylinderOf n k g (mkCylinder (tpos s) (tdir s) (tright s) (treeSize s) (vzero n) (nzero n) 7 tr)
    | Sphere => icoSphere n k g tr (tpos s) (treeSize s) false 1
    end.
  (** LSystemGenerator.cpp:98-141: the calls for a drawing, in the appearance of the context in use (lines 61-62, 133-138). *)
  Definition drawingOps (tr : vec3 T -> vec3 T) (looks : list (lookOptions T)) (d : drawing T) : outcome (list meshOp) :=
    bind (lookByIndex looks (dstyle d)) (fun look =>
    bind (drawingTriangles tr d) (fun ts =>
    Ok (map (fun '(a, b, c) => triangleOp n k env (nzero n) look a b c) ts ++ [OpTexture look]))).
  (** The calls for all drawings (Turtle.cpp:53-55). *)
  Fixpoint drawingsOps (tr : vec3 T -> vec3 T) (looks : list (lookOptions T)) (ds : list (drawing T)) : outcome (list meshOp) :=
    match ds with
    | [] => Ok []
    | d :: ds' => bind (drawingOps tr looks d) (fun a => bind (drawingsOps tr looks ds') (fun r => Ok (a ++ r)))
    end.
  (** LSystemGenerator.cpp:188-196 with 54-82: the mesh after a tree is added; [pick] are the random choices, [rank] as in
      LsysModel; the angles are those of Turtle3d.cpp:23-30 and 79.  The word is run first and its drawings put into the mesh afterwards, which makes no
      difference unless the mesh gets more vertices than an int can count. *)
  Definition addTree (rank : nat -> nat) (sys : @lsystem T) (pick : nat -> nat -> nat) (st : treeStyle T)
      (position : point T) (elevation : T) (m : bmesh T) : outcome (bmesh T) :=
    bind (createAppearances st) (fun looks =>
    bind (lookByIndex looks 0) (fun _ => bind (lookByIndex looks 1) (fun _ =>
    bind (run n k (deg2Rad n c (angleOf sys)) (scaleOf sys) (deg2Rad n c (m180 c)) rank (productionsOf sys) pick (generationsOf sys) (axiomOf sys)
              (initTurtle n k (tsSize st))) (fun t =>
    bind (drawingsOps (treeTranslate position elevation) looks (drawn t)) (fun ops =>
    meshRun n env ops m))))).
  (** LSystemGenerator.cpp:176-186 with StyleProvider.cpp:308-314: the system is looked up by its name. *)
  Definition addTreeNamed (rank : nat -> nat) (sys : option (@lsystem T)) (pick : nat -> nat -> nat)
      (st : treeStyle T) (position : point T) (elevation : T) (m : bmesh T) : outcome (bmesh T) :=
    match sys with None => Throw MapcssError | Some sys => addTree rank sys pick st position elevation m end.
  (** TreeBuilder.cpp:22-32: the mesh given to the callback for a node. *)
  Definition treeNode (rank : nat -> nat) (sys : option (@lsystem T)) (pick : nat -> nat -> nat)
      (st : treeStyle T) (p : point T) : outcome (bmesh T) :=
    addTreeNamed rank sys pick st p (eElevation env (plat p) (plon p)) emptyMesh.

  (** TerraExtras.cpp:34-36: a number of a vertex, [off] places after the first one of the vertex [i]; the product is an int. *)
  Definition vertexNumber (m : bmesh T) (i : Z) (off : nat) : outcome T :=
    if ((0 <=? i) && (3 * i <? 2 ^ 31))%Z
    then match nth_error (bverts m) (3 * Z.to_nat i + off) with Some v => Ok v | None => UB end
    else UB.
  (** TerraExtras.cpp:31-40: one coordinate of the centroid of three vertices. *)
  Definition centroidPart (m : bmesh T) (off : nat) (x y z : Z) : outcome T :=
    bind (vertexNumber m x off) (fun a => bind (vertexNumber m y off) (fun b => bind (vertexNumber m z off) (fun d =>
    Ok (ndiv n (nadd n (nadd n (nadd n (nzero n) a) b) d) (gint g 3))))).
  (** TerraExtras.cpp:31-46: the offset of the tree of a triangle. *)
  Definition treeOffset (m : bmesh T) (center : point T) (x y z : Z) : outcome (vec3 T) :=
    bind (centroidPart m 0 x y z) (fun cx => bind (centroidPart m 1 x y z) (fun cy =>
    Ok (mkV3 (nsub n cx (plon center)) (eElevation env cy cx) (nsub n cy (plat center))))).
  (** TerraExtras.cpp:30-57: the loop over the indices of triangles, [skip] of them before the next tree; the meshes given to
      the callback.  [count] trees are in the mesh [forest]. *)
  Fixpoint forestLoop (m tree : bmesh T) (center : point T) (step : nat) (chunk : Z) (skip : nat) (l : list Z)
      (forest : bmesh T) (count : Z) : outcome (list (bmesh T)) :=
    match l with
    | [] => Ok (if (0 <? count)%Z then [forest] else [])
    | x :: l' =>
        match skip with
        | Datatypes.S skip' => forestLoop m tree center step chunk skip' l' forest count
        | O =>
            match l' with
            | y :: z :: _ =>
                bind (treeOffset m center x y z) (fun off =>
                bind (copyMesh n off tree forest) (fun forest' =>
                if (count + 1 =? chunk)%Z
                then bind (forestLoop m tree center step chunk (step - 1) l' emptyMesh 0) (fun r => Ok (forest' :: r))
                else forestLoop m tree center step chunk (step - 1) l' forest' (count + 1)))
            | _ => UB
            end
        end
    end.
  (** std::max of a value and 1 (TerraExtras.cpp:26-27). *)
  Definition atLeastOne (v : T) : T := if nlt n v (kone k) then kone k else v.
  (** TerraExtras.cpp:26: the number of indices from a tree to the next; the conversion of 2^64 and more is undefined, numbers
      from 2^61 on are left out here (the product wraps at 2^64). *)
  Definition treeStep (trunc : T -> Z) (frequency : T) : outcome nat :=
    let z := trunc (atLeastOne frequency) in if (z <? 2 ^ 61)%Z then Ok (3 * Z.to_nat z) else UB.
  (** TerraExtras.cpp:14-60, addForest, for the indices from [start] on; [trunc] is the conversion towards zero. *)
  Definition addForest (trunc : T -> Z) (m tree : bmesh T) (center : point T) (start : nat) (frequency chunkSize : T)
    : outcome (list (bmesh T)) :=
    bind (treeStep trunc frequency) (fun step =>
    bind (castInt (trunc (atLeastOne chunkSize))) (fun chunk =>
    forestLoop m tree center step chunk 0 (skipn start (btris m)) emptyMesh 0)).
End Trees.
