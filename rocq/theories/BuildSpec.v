(** What building a tile and the mesh pool mean. *)
From Verif Require Import Base Bytes ElementModel MeshModel StyleModel BuildModel.
Local Open Scope nat_scope.

(** The elements an element of a tile stands for. *)
Definition parts (e : element) : list element :=
  match e with Relation _ [] es => es | _ => [e] end.

(** Ids an element of a tile occupies. *)
Definition idsOf (e : element) : list N := eid e :: map eid (parts e).

(** Events about a builder. *)
Definition about (name : bytes) (x : event) : bool :=
  match x with Create n _ | Visit n _ | Complete n => beqb n name end.
(** Handing an element with the id to the builder. *)
Definition visits (name : bytes) (i : N) (x : event) : bool :=
  match x with Visit n e => (beqb n name && N.eqb (eid e) i)%bool | _ => false end.

(** Use of a pool: meshes are taken and given back, in between their contents change.  The
    state is the pool and the meshes in use. *)
Inductive poolUse (cap : N) : pool * list pmesh -> Prop :=
| use_new : poolUse cap (newPool, [])
| use_get : forall p held name isLower m p',
    poolUse cap (p, held) -> getMesh cap p name isLower = (m, p') -> poolUse cap (p', m :: held)
| use_change : forall p before m after m',
    poolUse cap (p, before ++ m :: after) -> pid m' = pid m -> poolUse cap (p, before ++ m' :: after)
| use_release : forall p before m after,
    poolUse cap (p, before ++ m :: after) -> poolUse cap (release p m, before ++ after).
