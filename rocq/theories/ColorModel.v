(** Models of core/src/mapcss/Color.hpp, ColorGradient.hpp and of the colours of
    core/src/utils/GradientUtils.cpp.  Channels and int are integers, doubles are exact rationals.  The
    regular expression which cuts a gradient into parts is not modelled. *)
From Coq Require Import QArith Qround.
From Verif Require Import Base Bytes ElevModel.
Local Open Scope Z_scope.

(** Color.hpp:12, the four unsigned char. *)
Record color := mkColor { red : Z; green : Z; blue : Z; alpha : Z }.

(** Color.hpp:14. *)
Definition noColor : color := mkColor 0 0 0 0.

(** Color.hpp:18-21: one argument of the constructor. *)
Definition channel (v : Z) : Z := Z.max 0 (Z.min v 255).

(** Color.hpp:17-22. *)
Definition colorOf (r g b a : Z) : color := mkColor (channel r) (channel g) (channel b) (channel a).

(** Color.hpp:24-29; the shift of a negative int is arithmetic. *)
Definition unpack (rgba : Z) : color :=
  mkColor (Z.land (Z.shiftr rgba 24) 255) (Z.land (Z.shiftr rgba 16) 255)
          (Z.land (Z.shiftr rgba 8) 255) (Z.land (Z.shiftr rgba 0) 255).

(** Conversion of an integer to int (e.g. the uint32_t of line 31 passed to line 24). *)
Definition toInt (z : Z) : Z := let m := z mod 2 ^ 32 in if m <? 2 ^ 31 then m else m - 2 ^ 32.

(** Color.hpp:31-33: the shifts are of int, the result is converted to std::uint32_t. *)
Definition pack (c : color) : Z :=
  Z.lor (Z.lor (Z.lor (toInt (Z.shiftl (red c) 24)) (Z.shiftl (green c) 16)) (Z.shiftl (blue c) 8)) (alpha c) mod 2 ^ 32.

(** Color.hpp:35-37. *)
Definition addColor (a b : color) : color :=
  colorOf (red a + red b) (green a + green b) (blue a + blue b) (alpha a + alpha b).

(** Color.hpp:39-44; a product outside of int is undefined. *)
Definition scaleColor (c : color) (f : Q) : outcome color :=
  bind (intOf (inject_Z (red c) * f)) (fun r =>
  bind (intOf (inject_Z (green c) * f)) (fun g =>
  bind (intOf (inject_Z (blue c) * f)) (fun b =>
  bind (intOf (inject_Z (alpha c) * f)) (fun a => Ok (colorOf r g b a))))).

(** ColorGradient.hpp:19, GradientData: times and colours. *)
Definition gradient : Type := list (Q * color).

(** ColorGradient.hpp:41-43: the loop, from the given stop on. *)
Fixpoint seekStop (l : gradient) (time : Q) : nat :=
  match l with
  | [] => 0
  | (t, _) :: l' =>
      match l' with
      | [] => 0
      | _ => if Qle_bool time t then 0 else S (seekStop l' time)
      end
  end.

(** ColorGradient.hpp:61-65. *)
Definition mixColors (a b : color) (r : Q) : outcome color :=
  bind (scaleColor a (1 - r)) (fun x => bind (scaleColor b r) (fun y => Ok (addColor x y))).

(** ColorGradient.hpp:37-53.  Two stops of the same time give an infinite or undefined [mu], whose
    products cannot be converted to int. *)
Definition evaluate (l : gradient) (time : Q) : outcome color :=
  match l with
  | [] => Ok noColor
  | _ =>
      let index := seekStop l time in
      match nth_error l (index - 1), nth_error l index with
      | Some (ta, a), Some (tb, b) =>
          match index with
          | O => mixColors a b 0
          | _ => if Qeq_bool tb ta then UB else mixColors a b ((time - ta) / (tb - ta))
          end
      | _, _ => UB
      end
  end.

(** GradientUtils.cpp:189-221. *)
Definition hexToInt (c : N) : outcome Z :=
  let z := Z.of_N c in
  if (48 <=? z) && (z <=? 57) then Ok (z - 48)
  else if (65 <=? z) && (z <=? 70) then Ok (z - 55)
  else if (97 <=? z) && (z <=? 102) then Ok (z - 87)
  else Throw InvalidArgument.

(** A char of a std::string (GradientUtils.cpp:232): at the size it is zero, behind it undefined. *)
Definition charAt (s : bytes) (i : nat) : outcome N :=
  match nth_error s i with
  | Some c => Ok c
  | None => if Nat.eqb i (length s) then Ok 0%N else UB
  end.

(** GradientUtils.cpp:232-234: two digits, the operands taken from left to right. *)
Definition hexPair (s : bytes) (lo hi : nat) : outcome Z :=
  bind (bind (charAt s lo) hexToInt) (fun l => bind (bind (charAt s hi) hexToInt) (fun h => Ok (l + h * 16))).

(** GradientUtils.cpp:231-236. *)
Definition fromHex (s : bytes) : outcome color :=
  bind (hexPair s 2 1) (fun r => bind (hexPair s 4 3) (fun g => bind (hexPair s 6 5) (fun b => Ok (colorOf r g b 255)))).

(** GradientUtils.cpp:186, the colour grey. *)
Definition grey : color := mkColor 190 190 190 255.

(** GradientUtils.cpp:223-228 over the table of names (lines 10-187). *)
Definition fromName (names : list (bytes * color)) (s : bytes) : color :=
  match alookup beqb s names with Some c => c | None => grey end.

(** GradientUtils.cpp:287-289. *)
Definition parseColor (names : list (bytes * color)) (s : bytes) : outcome color :=
  bind (charAt s 0) (fun c => if N.eqb c 35 then fromHex s else Ok (fromName names s)).
