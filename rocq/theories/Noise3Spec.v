(** What noise in three dimensions is expected to be, without the model of the code. *)
From Coq Require Import Reals.
From Verif Require Import Base NoiseSpec.
Local Open Scope R_scope.

(** A direction in space. *)
Definition dir3 : Type := (R * R * R)%type.
(** Its product with a vector. *)
Definition along (d : dir3) (x y z : R) : R := let '(a, b, c) := d in a * x + b * y + c * z.
(** The influence of a corner with the gradient [d] at a place [x], [y], [z] from it. *)
Definition kernel3 (d : dir3) (x y z : R) : R :=
  (1 - fade (Rabs x)) * (1 - fade (Rabs y)) * (1 - fade (Rabs z)) * along d x y z.
(** That of the corner [i], [j], [k] at a place. *)
Definition influence (dir : Z -> Z -> Z -> dir3) (u v w : R) (i j k : Z) : R :=
  kernel3 (dir i j k) (u - IZR i) (v - IZR j) (w - IZR k).
(** The noise in the cell with the corner [i], [j], [k] for the gradients [dir] of corners. *)
Definition noise3In (dir : Z -> Z -> Z -> dir3) (i j k : Z) (u v w : R) : R :=
  let c := influence dir u v w in
  c i j k + c (i + 1)%Z j k + c i (j + 1)%Z k + c (i + 1)%Z (j + 1)%Z k +
  c i j (k + 1)%Z + c (i + 1)%Z j (k + 1)%Z + c i (j + 1)%Z (k + 1)%Z + c (i + 1)%Z (j + 1)%Z (k + 1)%Z.

(** From the middle of a cube to the middles of its twelve edges; four of them have two numbers. *)
Definition edges (h : Z) : dir3 :=
  match h with
  | 0%Z => (1, 1, 0) | 1%Z => (- 1, 1, 0) | 2%Z => (1, - 1, 0) | 3%Z => (- 1, - 1, 0)
  | 4%Z => (1, 0, 1) | 5%Z => (- 1, 0, 1) | 6%Z => (1, 0, - 1) | 7%Z => (- 1, 0, - 1)
  | 8%Z => (0, 1, 1) | 9%Z => (0, - 1, 1) | 10%Z => (0, 1, - 1) | 11%Z => (0, - 1, - 1)
  | 12%Z => (1, 1, 0) | 13%Z => (- 1, 1, 0) | 14%Z => (0, - 1, 1) | _ => (0, - 1, - 1)
  end.
(** The gradients got from a table of numbers. *)
Definition edgesOf (P : Z -> Z) (i j k : Z) : dir3 :=
  edges (P ((P ((P (i mod 256) + j) mod 256) + k) mod 256) mod 16)%Z.
