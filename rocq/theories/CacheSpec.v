(** What a mesh cache must do, over histories of tiles being built. *)
From Verif Require Import Base Bytes StreamModel MeshModel MeshSpec ElementModel ElementSpec
  GeoModel CacheModel.
Local Open Scope nat_scope.

(** Records that exist in C++ and fit the format (C05, C07). *)
Definition wfRecord (r : record) : Prop :=
  match r with
  | RMesh m => wfMesh m
  | RElem e => wfElement e /\ fitsElement e
  end.

(** A record that comes back: the same, but numbers of meshes are rounded to single
    precision. *)
Definition sameRecord (r r' : record) : Prop :=
  match r, r' with
  | RElem e, RElem e' => e = e'
  | RMesh m, RMesh m' =>
      mname m' = mname m /\ triangles m' = triangles m /\ colors m' = colors m /\
      uvMap m' = uvMap m /\
      Forall2 singleRounded (vertices m) (vertices m') /\ Forall2 singleRounded (uvs m) (uvs m')
  | _, _ => False
  end.

(** A tile that is being built: where its result belongs, the context in use, all that the
    builder has produced, and whether the token was seen cancelled. *)
Record session := mkSession {
  spath : path; shandle : handle; produced : list record; sawCancel : bool
}.

(** The cache, the tiles being built, and the results of all builds that were completed
    without cancellation. *)
Record world := mkWorld {
  wcache : cache; active : list session; completed : list (path * list record)
}.
Definition startWorld : world := mkWorld (newCache []) [] [].

(** One step, when no tile is built twice at the same time.  With [durable] at least one byte
    of every file reaches the disk. *)
Inductive step (durable : bool) : world -> world -> Prop :=
| step_enable : forall b c act done,
    step durable (mkWorld c act done) (mkWorld (setEnabled b c) act done)
| step_wrap : forall c act done p canOpen h c',
    (forall s, In s act -> pkey (spath s) <> pkey p) ->
    wrap c p canOpen = Ok (h, c') ->
    step durable (mkWorld c act done) (mkWorld c' (mkSession p h [] false :: act) done)
| step_emit : forall c before s after done cancelled canWrite r delivered c',
    (sawCancel s = true -> cancelled = true) -> wfRecord r ->
    emit c (shandle s) cancelled canWrite r = Ok (delivered, c') ->
    step durable (mkWorld c (before ++ s :: after) done)
         (mkWorld c' (before ++ mkSession (spath s) (shandle s) (produced s ++ [r]) cancelled :: after) done)
| step_unwrap : forall c before s after done cancelled f,
    (sawCancel s = true -> cancelled = true) -> (durable = true -> 1 <= kept f) ->
    step durable (mkWorld c (before ++ s :: after) done)
         (mkWorld (unwrap c (spath s) cancelled f) (before ++ after)
                  (if cancelled then done else (spath s, produced s) :: done))
| step_crash : forall c act done cut,
    (durable = true -> forall k, 1 <= cut k) ->
    step durable (mkWorld c act done) (mkWorld (crash c cut) [] done).

(** Any number of steps. *)
Inductive steps (durable : bool) : world -> world -> Prop :=
| steps_refl : forall w, steps durable w w
| steps_step : forall w1 w2 w3, steps durable w1 w2 -> step durable w2 w3 -> steps durable w1 w3.

(** The stream of the session could be opened and all its writes have succeeded. *)
Definition healthy (c : cache) (s : session) : Prop :=
  exists n o, shandle s = Wrapped (pkey (spath s)) n /\
    alookup keyEqb (pkey (spath s)) (caching c) = Some o /\ onum o = n /\ ogood o = true.
