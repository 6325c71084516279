(** What tiles, boxes and ranges are meant to be, independently of how they are computed. *)
From Verif Require Import Base ElementModel GeoModel.
Open Scope Z_scope.

(** A tile of the pyramid: level l has 2^l times 2^l tiles. *)
Definition tile (k : quadKey) : Prop :=
  0 <= lod k /\ 0 <= tileX k < 2 ^ lod k /\ 0 <= tileY k < 2 ^ lod k.

(** The tile one level up that covers [k]. *)
Definition parent (k : quadKey) : quadKey := mkKey (lod k - 1) (tileX k / 2) (tileY k / 2).

(** Which quarter of its parent a tile is. *)
Definition quarter (k : quadKey) : N := Z.to_N (48 + tileX k mod 2 + 2 * (tileY k mod 2)).

(** The order on extended reals; nothing is related to a NaN. *)
Definition dle (a b : dbl) : Prop :=
  match a, b with
  | NaN, _ | _, NaN => False
  | Inf true, _ | _, Inf false => True
  | Fin x, Fin y => x <= y
  | _, _ => False
  end.

(** Closed boxes. *)
Definition inBox (b : box dbl) (p : point dbl) : Prop :=
  dle (plat (bmin b)) (plat p) /\ dle (plat p) (plat (bmax b)) /\
  dle (plon (bmin b)) (plon p) /\ dle (plon p) (plon (bmax b)).

(** The boxes share a point. *)
Definition meet (b c : box dbl) : Prop := exists p, inBox b p /\ inBox c p.

(** No NaN inside. *)
Definition isNumber (d : dbl) : Prop := d <> NaN.
Definition numberPoint (p : point dbl) : Prop := isNumber (plat p) /\ isNumber (plon p).
Definition numberBox (b : box dbl) : Prop := numberPoint (bmin b) /\ numberPoint (bmax b).

(** Coordinates of the globe, borders included. *)
Definition onGlobe (p : point dbl) : Prop :=
  dle (dlit (-90) 0) (plat p) /\ dle (plat p) (dlit 90 0) /\
  dle (dlit (-180) 0) (plon p) /\ dle (plon p) (dlit 180 0).

(** [b] is the smallest closed box with all the points in it, and each of its four bounds is
    the coordinate of one of them. *)
Definition smallestBox (b : box dbl) (ps : list (point dbl)) : Prop :=
  (forall p, In p ps -> inBox b p) /\
  (exists p, In p ps /\ plat p = plat (bmin b)) /\
  (exists p, In p ps /\ plon p = plon (bmin b)) /\
  (exists p, In p ps /\ plat p = plat (bmax b)) /\
  (exists p, In p ps /\ plon p = plon (bmax b)).

(** All coordinates of an element, members of relations included. *)
Fixpoint coordsOf (e : element) : list coord :=
  match e with
  | Node _ _ c => [c]
  | Way _ _ cs | Area _ _ cs => cs
  | Relation _ _ es => flat_map coordsOf es
  end.

(** Row order of the tiles of one level: first by y, then by x. *)
Definition rowBefore (k k' : quadKey) : Prop :=
  tileY k < tileY k' \/ (tileY k = tileY k' /\ tileX k < tileX k').
