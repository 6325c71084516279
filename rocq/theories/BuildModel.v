(** Models of core/src/builders/QuadKeyBuilder.cpp and core/src/builders/MeshPool.hpp. *)
From Verif Require Import Base Bytes ElementModel MeshModel StyleModel.
Local Open Scope nat_scope.

(** What happens to element builders: one is made by its factory (or is an ExternalBuilder) and
    prepared, an element is handed to it, it is completed (QuadKeyBuilder.cpp:48-85). *)
Inductive event := Create (name : bytes) (external : bool) | Visit (name : bytes) (e : element)
  | Complete (name : bytes).

(** QuadKeyBuilder.cpp:89-92: ids_, the keys of builders_ in order of insertion, and the calls
    made so far. *)
Record visitor := mkVisitor { vids : list N; vbuilders : list bytes; vlog : list event }.
(** QuadKeyBuilder.cpp:21-23. *)
Definition newVisitor : visitor := mkVisitor [] [] [].

Section Build.
  (** StyleProvider::forElement at the level of the tile, QuadKeyBuilder.cpp:56 (StyleModel.forElement). *)
  Variable styleOf : element -> style.
  (** The keys of builderFactoryMap_, QuadKeyBuilder.cpp:77. *)
  Variable factories : list bytes.
  (** The order in which the unordered_map builders_ is visited, QuadKeyBuilder.cpp:48. *)
  Variable order : list bytes -> list bytes.

  (** Lines 68-71, canBuild; Style::empty is Style.hpp:50-52. *)
  Definition canBuild (v : visitor) (e : element) : bool :=
    match sdecls (styleOf e) with
    | [] => false
    | _ => (N.eqb (eid e) 0 || negb (existsb (N.eqb (eid e)) (vids v)))%bool
    end.

  (** QuadKeyBuilder.cpp:73-86, getBuilder with prepare. *)
  Definition getBuilder (v : visitor) (name : bytes) : visitor :=
    if existsb (beqb name) (vbuilders v) then v
    else mkVisitor (vids v) (vbuilders v ++ [name])
           (vlog v ++ [Create name (negb (existsb (beqb name) factories))]).

  (** QuadKeyBuilder.cpp:62-64: one builder of the style. *)
  Definition dispatch (e : element) (v : visitor) (name : bytes) : visitor :=
    let v' := getBuilder v name in
    mkVisitor (vids v') (vbuilders v') (vlog v' ++ [Visit name e]).

  (** QuadKeyBuilder.cpp:55-66, visitElement; Style::getBuilders is StyleModel.sbuilders. *)
  Definition visitElement (v : visitor) (e : element) : visitor :=
    if canBuild v e then
      fold_left (dispatch e) (sbuilders (styleOf e)) (mkVisitor (eid e :: vids v) (vbuilders v) (vlog v))
    else v.

  (** QuadKeyBuilder.cpp:25-45: an element of the tile; a relation without tags stands for the parts of a
      clipped element. *)
  Definition visit (v : visitor) (e : element) : visitor :=
    match e with
    | Relation i [] es => fold_left visitElement es (mkVisitor (i :: vids v) (vbuilders v) (vlog v))
    | _ => visitElement v e
    end.

  (** QuadKeyBuilder.cpp:47-51, complete. *)
  Definition completeAll (v : visitor) : list event := vlog v ++ map Complete (order (vbuilders v)).

  (** QuadKeyBuilder.cpp:108-121, build: the elements the stores deliver for the tile. *)
  Definition build (es : list element) : list event := completeAll (fold_left visit es newVisitor).
End Build.

(** * MeshPool.hpp *)

(** A Mesh object (Mesh.hpp:11-17): its contents, the capacity of [vertices] and a number that
    tells objects apart. *)
Record pmesh := mkPooled { pid : nat; pcap : N; pmeshOf : mesh }.

(** The std::map<std::size_t, Mesh> of MeshPool.hpp:58 in the order of the keys, and how many meshes
    have been made. *)
Record pool := mkPool { pmap : list (N * pmesh); pcount : nat }.
(** The map of a new pool is empty (MeshPool.hpp:57). *)
Definition newPool : pool := mkPool [] 0.

(** MeshPool.hpp:15. *)
Definition thresholdSize : N := 20480.

(** Lines 35-39, release: clear (Mesh.hpp:41-47), the name, and the key; clearing keeps the
    capacity. *)
Definition cleared (m : pmesh) : pmesh := mkPooled (pid m) (pcap m) (mkMesh [] [] [] [] [] []).
(** std::map::emplace: an existing key keeps its mesh, the new one is destroyed (MeshPool.hpp:39). *)
Fixpoint emplacePool (k : N) (m : pmesh) (l : list (N * pmesh)) : list (N * pmesh) :=
  match l with
  | [] => [(k, m)]
  | (k', m') :: l' =>
      if N.ltb k k' then (k, m) :: l else if N.eqb k k' then l else (k', m') :: emplacePool k m l'
  end.
(** MeshPool.hpp:35-40, release. *)
Definition release (p : pool) (m : pmesh) : pool :=
  mkPool (emplacePool (pcap m) (cleared m) (pmap p)) (pcount p).

(** The first entry accepted by the bound, and the map without it (MeshPool.hpp:45-54). *)
Fixpoint takeFirst (ok : N -> bool) (l : list (N * pmesh)) : option (pmesh * list (N * pmesh)) :=
  match l with
  | [] => None
  | (k, m) :: l' =>
      if ok k then Some (m, l')
      else option_map (fun '(x, r) => (x, (k, m) :: r)) (takeFirst ok l')
  end.

(** Lines 43-56, getMesh: lower_bound(0) or upper_bound(ThresholdSize).  [cap] is the capacity
    a new mesh gets from reserve(4096) (Mesh.hpp:20). *)
Definition getMesh (cap : N) (p : pool) (name : bytes) (isLower : bool) : pmesh * pool :=
  match takeFirst (fun k => if isLower then N.leb 0 k else N.ltb thresholdSize k) (pmap p) with
  | None => (mkPooled (pcount p) cap (mkMesh name [] [] [] [] []), mkPool (pmap p) (S (pcount p)))
  | Some (m, rest) =>
      (mkPooled (pid m) (pcap m)
         (mkMesh name (vertices (pmeshOf m)) (triangles (pmeshOf m)) (colors (pmeshOf m))
                 (uvs (pmeshOf m)) (uvMap (pmeshOf m))), mkPool rest (pcount p))
  end.
