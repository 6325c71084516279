(** What noise in two dimensions is expected to be, without the model of the code. *)
From Coq Require Import Reals.
From Verif Require Import Base.
Local Open Scope R_scope.

(** The fading of the influence of a corner: from 0 to 1, flat at both ends. *)
Definition fade (t : R) : R := 6 * t ^ 5 - 15 * t ^ 4 + 10 * t ^ 3.
(** The influence of a corner with the gradient [d] at a place [x], [y] from it. *)
Definition kernel (d : R * R) (x y : R) : R :=
  (1 - fade (Rabs x)) * (1 - fade (Rabs y)) * (fst d * x + snd d * y).
(** The noise in the cell with the corner [i], [j] for the gradients [dir] of corners. *)
Definition noiseIn (dir : Z -> Z -> R * R) (i j : Z) (u v : R) : R :=
  sqrt 2 * (kernel (dir i j) (u - IZR i) (v - IZR j) + kernel (dir (i + 1) j)%Z (u - IZR (i + 1)) (v - IZR j) +
            kernel (dir i (j + 1))%Z (u - IZR i) (v - IZR (j + 1)) + kernel (dir (i + 1) (j + 1))%Z (u - IZR (i + 1)) (v - IZR (j + 1))).
(** A place in a cell or on its border. *)
Definition inCell (i : Z) (u : R) : Prop := IZR i <= u <= IZR i + 1.

(** The eight directions: east, west, north, south and between them. *)
Definition compass (h : Z) : R * R :=
  let s := 1 / sqrt 2 in
  match h with
  | 0%Z => (1, 0) | 1%Z => (- 1, 0) | 2%Z => (0, 1) | 3%Z => (0, - 1)
  | 4%Z => (s, s) | 5%Z => (- s, s) | 6%Z => (s, - s) | _ => (- s, - s)
  end.
(** The gradients got from a table of numbers. *)
Definition gradientsOf (P : Z -> Z) (i j : Z) : R * R := compass (P ((P (i mod 256) + j) mod 256) mod 8)%Z.
(** A permutation of the numbers up to 255. *)
Definition shuffled (P : Z -> Z) : Prop :=
  (forall a, 0 <= a < 256 -> 0 <= P a < 256)%Z /\ (forall a b, 0 <= a < 256 -> 0 <= b < 256 -> P a = P b -> a = b)%Z.
(** Numbers of an int. *)
Definition fits (i : Z) : Prop := (- 2 ^ 31 <= i < 2 ^ 31)%Z.
