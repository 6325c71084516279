(** What the points of the compass are, without a table, and how directions on a map look on the ground. *)
From Coq Require Import Reals String.
From Verif Require Import Base Bytes GenModel JsonModel.
Local Open Scope R_scope.

(** The points of the compass by the degrees from north clockwise: four of one letter; between north or south and east or west
    half way; and half way between such a one and one of its letters, which is put in front. *)
Inductive bearing : bytes -> R -> Prop :=
| North : bearing (str "N") 0
| NorthAgain : bearing (str "N") 360
| East : bearing (str "E") 90
| South : bearing (str "S") 180
| West : bearing (str "W") 270
| Between : forall x y a b, x = str "N" \/ x = str "S" -> y = str "E" \/ y = str "W" ->
    bearing x a -> bearing y b -> Rabs (a - b) = 90 -> bearing (x ++ y) ((a + b) / 2)
| Nearer : forall x y z a b, x = y \/ x = z -> length x = 1%nat -> length y = 1%nat -> length z = 1%nat ->
    bearing x a -> bearing (y ++ z) b -> Rabs (a - b) = 45 -> bearing (x ++ y ++ z) ((a + b) / 2).

(** The unit vector of a direction in degrees: to the east and to the north. *)
Definition towards (degrees : R) : R * R := (sin (PI * degrees / 180), cos (PI * degrees / 180)).
Definition dot (u v : R * R) : R := fst u * fst v + snd u * snd v.
(** Degrees of longitude and latitude as a direction on the ground at a latitude: a degree of longitude is shorter by the
    cosine of the latitude. *)
Definition onGround (latitude : R) (v : R * R) : R * R := (fst v * cos (PI * latitude / 180), snd v).
