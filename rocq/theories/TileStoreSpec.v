(** Which tiles an element belongs to, and what stores hold by name. *)
From Verif Require Import Base Bytes ElementModel GeoModel GeoSpec StoreModel TileStoreModel.

(** The tile [k] is in the rectangle of tiles between the corners of the element's bounding
    box, at its level, and meets the box. *)
Definition touches (tileOf : point dbl -> Z -> quadKey) (tileBox : quadKey -> box dbl)
    (e : element) (k : quadKey) : Prop :=
  let b := elementBox e in
  let lo := tileOf (bmin b) (lod k) in
  let hi := tileOf (bmax b) (lod k) in
  isValid dord b = true /\
  tileX lo <= tileX k <= tileX hi /\ tileY hi <= tileY k <= tileY lo /\
  meet b (tileBox k).

(** The style asks for the element at this level. *)
Definition asked (f : styleFlags) : Prop := sEmpty f = false /\ sSkip f = false.

(** What was saved for a tile, in order. *)
Definition savedAt (k : quadKey) (saves : list (quadKey * element)) : list element :=
  map snd (filter (fun s => keyEqb k (fst s)) saves).

(** What a tile that is touched gets: the element, or its clipped pieces. *)
Definition pieces (clip : quadKey -> box dbl -> element -> list element) (tileBox : quadKey -> box dbl)
    (f : styleFlags) (k : quadKey) (e : element) : list element :=
  if sClip f then clip k (tileBox k) e else [e].

(** Comparing centres tells tiles of one level apart. *)
Definition centresDiffer (tileBox : quadKey -> box dbl) (sameCenter : box dbl -> box dbl -> bool) : Prop :=
  forall k k', tile k -> tile k' -> lod k = lod k' -> (sameCenter (tileBox k) (tileBox k') = true <-> k = k').

(** Tiles computed for any coordinate exist (C16). *)
Definition tilesExist (tileOf : point dbl -> Z -> quadKey) : Prop :=
  forall p l, MinLod <= l <= MaxLod -> tile (tileOf p l) /\ lod (tileOf p l) = l.
