(** Grids of heights and samples, independently of the lookup code. *)
From Coq Require Import QArith Qround Qminmax.
From Verif Require Import Base.
Local Open Scope Z_scope.

(** The height of column [i] and row [j] of a square grid with [n] columns stored row by row. *)
Definition heightAt (heights : list Z) (n i j : Z) : option Z := nth_error heights (Z.to_nat (i + j * n)).

(** A value between the smallest and the largest of four. *)
Definition among (v : Q) (a b c d : Z) : Prop :=
  (inject_Z (Z.min (Z.min a b) (Z.min c d)) <= v <= inject_Z (Z.max (Z.max a b) (Z.max c d)))%Q.

(** [i] is the grid line at or before the position [x], for lines [step] apart and last line [last]. *)
Definition lineBefore (x step last i : Z) : Prop :=
  0 <= i <= last /\ i * step <= x /\ (x < (i + 1) * step \/ i = last).

(** The signed 16 bit number with the given high and low byte. *)
Definition signed16 (hi lo : Z) : Z := let u := hi * 256 + lo in if u <? 32768 then u else u - 65536.

(** Truncation towards zero of a number of degrees to units of 1e-7 degree. *)
Definition units (q : Q) : Z :=
  let u := (q * inject_Z 10000000)%Q in if Qle_bool 0 u then Qfloor u else Qceiling u.

(** The two bytes of the sample in a row (from the north) and column (from the west) of a square of [n]
    samples a side. *)
Definition bytesAt (data : list Z) (n row col : Z) : option (Z * Z) :=
  match nth_error data (Z.to_nat (2 * (row * n + col))), nth_error data (Z.to_nat (2 * (row * n + col) + 1)) with
  | Some hi, Some lo => Some (hi, lo)
  | _, _ => None
  end.

(** The name of the file of SRTM with the data of a position: hemisphere (true for north and east) and
    degree of the south west corner. *)
Definition properFile (lat lon : Q) : (bool * Z) * (bool * Z) :=
  ((0 <=? Qfloor lat, Z.abs (Qfloor lat)), (0 <=? Qfloor lon, Z.abs (Qfloor lon))).
