(** What the circle of a footprint is, without the model of the code. *)
From Coq Require Import QArith.
From Verif Require Import Base RingModel MeshBuildModel.
Local Open Scope Q_scope.

(** [m] is the least value of [f] on the points. *)
Definition least (f : vec2 Q -> Q) (l : list (vec2 Q)) (m : Q) : Prop :=
  (exists p, In p l /\ f p == m) /\ forall p, In p l -> m <= f p.
(** [m] is the greatest value of [f] on the points. *)
Definition greatest (f : vec2 Q -> Q) (l : list (vec2 Q)) (m : Q) : Prop :=
  (exists p, In p l /\ f p == m) /\ forall p, In p l -> f p <= m.
(** One coordinate of centre and radius: the middle and half of the extent of the points. *)
Definition spans (f : vec2 Q -> Q) (l : list (vec2 Q)) (centre radius : Q) : Prop :=
  exists lo hi, least f l lo /\ greatest f l hi /\ centre == (lo + hi) / 2 /\ radius == (hi - lo) / 2.
(** The circle (ellipse) [k] of the points: centre and half sizes of their bounding box. *)
Definition circles (l : list (vec2 Q)) (k : vec2 Q * vec2 Q) : Prop :=
  spans v2x l (v2x (fst k)) (v2x (snd k)) /\ spans v2y l (v2y (fst k)) (v2y (snd k)).

(** A contour without its last point if that is the first one again up to [eps]. *)
Definition ringOf (eps : Q) (c : list (vec2 Q)) : list (vec2 Q) :=
  match c with
  | [] => []
  | v :: _ =>
      let w := last c v in
      if negb (Qle_bool eps (Qabs.Qabs (v2x v - v2x w))) && negb (Qle_bool eps (Qabs.Qabs (v2y v - v2y w)))
      then removelast c else c
  end.
(** A contour with whether it is a hole and the point found inside it. *)
Definition part : Type := list (vec2 Q) * bool * option (vec2 Q).
(** A hole without a point inside is left out. *)
Definition keptPart (x : part) : bool := match x with (_, true, None) => false | _ => true end.
(** The outer contours. *)
Definition outersOf (eps : Q) (l : list part) : list (list (vec2 Q)) :=
  flat_map (fun '(c, h, _) => if h : bool then [] else [ringOf eps c]) l.
(** All points of the contours which are kept. *)
Definition pointsOf (eps : Q) (l : list part) : list (vec2 Q) :=
  flat_map (fun x => if keptPart x then ringOf eps (fst (fst x)) else []) l.
(** Coordinates of the earth, with room to spare. *)
Definition earthly (p : vec2 Q) : Prop := -1000 <= v2x p <= 1000 /\ -1000 <= v2y p <= 1000.
(** Some point of each is on or to the east of the prime meridian by [d], and one to the north of the equator. *)
Definition northEast (d : Q) (l : list (vec2 Q)) : Prop := (exists p, In p l /\ d <= v2x p) /\ (exists p, In p l /\ d <= v2y p).
(** The average of the points. *)
Definition total (f : vec2 Q -> Q) (l : list (vec2 Q)) : Q := fold_right Qplus 0 (map f l).
Definition average (l : list (vec2 Q)) (c : vec2 Q) : Prop :=
  v2x c * inject_Z (Z.of_nat (length l)) == total v2x l /\ v2y c * inject_Z (Z.of_nat (length l)) == total v2y l.
