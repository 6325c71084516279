(** Vocabulary of the properties of colours and gradients. *)
From Coq Require Import QArith.
From Verif Require Import Base Bytes ColorModel.
Local Open Scope Z_scope.

(** Four bytes. *)
Definition validColor (c : color) : Prop :=
  0 <= red c < 256 /\ 0 <= green c < 256 /\ 0 <= blue c < 256 /\ 0 <= alpha c < 256.

(** The number with the four channels as digits. *)
Definition rgba (c : color) : Z := ((red c * 256 + green c) * 256 + blue c) * 256 + alpha c.

(** A property of each channel of three colours. *)
Definition channels (P : Z -> Z -> Z -> Prop) (a b c : color) : Prop :=
  P (red a) (red b) (red c) /\ P (green a) (green b) (green c) /\
  P (blue a) (blue b) (blue c) /\ P (alpha a) (alpha b) (alpha c).

(** Within the two ends, or one below. *)
Definition near (a b c : Z) : Prop := Z.min a b - 1 <= c <= Z.max a b.
Definition within (a b c : Z) : Prop := Z.min a b <= c <= Z.max a b.

(** The number denoted by hexadecimal digits, or nothing. *)
Definition digitValue (c : N) : option Z :=
  if ((48 <=? c) && (c <=? 57))%N then Some (Z.of_N c - 48)
  else if ((65 <=? c) && (c <=? 70))%N then Some (Z.of_N c - 65 + 10)
  else if ((97 <=? c) && (c <=? 102))%N then Some (Z.of_N c - 97 + 10)
  else None.
Fixpoint hexValue (acc : Z) (s : bytes) : option Z :=
  match s with
  | [] => Some acc
  | c :: s' => match digitValue c with Some d => hexValue (acc * 16 + d) s' | None => None end
  end.
