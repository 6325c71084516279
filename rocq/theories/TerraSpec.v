(** Who owns a point of the tile, without the model of the code.  [wind p x] is the winding number of the path [p]
    around the point [x]: the points are those on no side of any path. *)
From Verif Require Import Base TerraModel.
Local Open Scope Z_scope.

Section Spec.
  Context {P X : Type} (wind : P -> X -> Z).
  (** The winding number of many paths. *)
  Fixpoint winding (ps : list P) (x : X) : Z := match ps with [] => 0 | p :: ps => wind p x + winding ps x end.
  (** Filled by the rule for numbers other than 0. *)
  Definition covers (ps : list P) (x : X) : Prop := winding ps x <> 0.
  (** No path runs the wrong way round without one which makes up for it. *)
  Definition oriented (ps : list P) : Prop := forall x, 0 <= winding ps x.

  (** What Execute promises, without rounding of coordinates: the result has the winding number 1 inside and 0
      outside. *)
  Definition filled (f : fillType) (w : Z) : bool := match f with EvenOdd => Z.odd w | NonZero => negb (w =? 0) end.
  Definition operate (op : clipType) (s c : bool) : bool :=
    match op with Intersection => s && c | Union => s || c | Difference => s && negb c end.
  Definition exactClipper (execute : clipType -> fillType -> fillType -> list P -> list P -> list P) : Prop :=
    forall op fs fc s c x, winding (execute op fs fc s c) x = Z.b2z (operate op (filled fs (winding s x)) (filled fc (winding c x))).
  Definition keepsWinding (clean : list P -> list P) : Prop := forall ps x, winding (clean ps) x = winding ps x.

  (** A layer of the list covers the point by one of its regions. *)
  Definition covered (rs : list (region (P := P))) (x : X) : Prop := exists r, In r rs /\ covers (rGeometry r) x.
End Spec.

(** What an element with the tags [g] asks for: the point [x] for the layer named [n], the empty name being that of
    elements without a layer. *)
Section Claims.
  Context {P W G X : Type} (wind : P -> X -> Z).
  Context (widen : W -> list P -> list P) (noTags : G -> bool) (styleOf : kind -> G -> style (W := W)) (hasStyle : kind -> G -> bool).
  Context (tile : P).
  Definition layerOf (s : style (W := W)) : name := match sLayer s with Some n => n | None => [] end.
  (** The tags of a member without tags are those of its relation [g]. *)
  Definition inherited (g : G) (m : element (P := P)) : G := if noTags (tagsOf m) then g else tagsOf m.
  (** Areas among the members of a relation, if they are in the stylesheet. *)
  Definition rings (g : G) (es : list element) : list P :=
    flat_map (fun m => match m with Area _ p => if hasStyle KArea (inherited g m) then [p] else [] | _ => [] end) es.
  Inductive claims : G -> element -> name -> X -> Prop :=
  | ClaimsWay g g0 p x : Z.odd (winding wind (widen (sWidth (styleOf KWay g)) [p]) x) = true -> Z.odd (winding wind [tile] x) = true ->
      claims g (Way g0 p) (layerOf (styleOf KWay g)) x
  | ClaimsArea g g0 p x : covers wind [p] x -> claims g (Area g0 p) (layerOf (styleOf KArea g)) x
  | ClaimsRelation g g0 es x : covers wind (rings g es) x -> claims g (Relation g0 es) (layerOf (styleOf KRelation g)) x
  | ClaimsMember g g0 es m n x : In m es -> kindOf m <> KArea -> hasStyle (kindOf m) (inherited g m) = true ->
      claims (inherited g m) m n x -> claims g (Relation g0 es) n x.
  (** Areas and relations run the right way round. *)
  Inductive proper : G -> element -> Prop :=
  | ProperNode g g0 : proper g (Node g0)
  | ProperWay g g0 p : proper g (Way g0 p)
  | ProperArea g g0 p : oriented wind [p] -> proper g (Area g0 p)
  | ProperRelation g g0 es : oriented wind (rings g es) -> (forall m, In m es -> kindOf m <> KArea -> proper (inherited g m) m) ->
      proper g (Relation g0 es).
  (** A point is asked for a layer of the given order. *)
  Definition orderOf (canvasOrder : name -> Z) (n : name) : Z := match n with [] => 0 | _ => canvasOrder n end.
  Definition claimed (canvasOrder : name -> Z) (es : list element) (order : Z) (x : X) : Prop :=
    exists e n, In e es /\ claims (tagsOf e) e n x /\ order = orderOf canvasOrder n.
End Claims.
