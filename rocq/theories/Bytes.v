(** Bytes and little-endian integers.  A byte is an [N]; a file or stream content is
    a list of bytes. *)
From Verif Require Import Base.
From Coq Require Export NArith.

Notation byte := N (only parsing).
Notation bytes := (list N) (only parsing).

(** The [n] low bytes of [x], least significant first: what
    [stream.write(reinterpret_cast<const char*>(&x), n)] writes on the (little-endian)
    targets of the project. *)
Fixpoint le (n : nat) (x : N) : bytes :=
  match n with
  | O => []
  | S n' => (x mod 256)%N :: le n' (x / 256)%N
  end.

(** Inverse: what [stream.read(reinterpret_cast<char*>(&x), n)] stores. *)
Fixpoint unle (bs : bytes) : N :=
  match bs with
  | [] => 0%N
  | b :: bs' => (b + 256 * unle bs')%N
  end.

(** Narrowing casts to uint16_t and uint32_t. *)
Definition u16 (x : N) : N := (x mod 65536)%N.
Definition u32 (x : N) : N := (x mod 4294967296)%N.

(** A string as bytes: a C string stops at the first NUL ([std::string::c_str] passed to
    [operator<<]). *)
Fixpoint cstr (s : bytes) : bytes :=
  match s with
  | [] => []
  | b :: s' => if N.eqb b 0 then [] else b :: cstr s'
  end.

(** [std::getline(stream, s, '\0')]: the characters before the first NUL, whether a NUL was
    found, and what is left after it. *)
Fixpoint getline (bs : bytes) : bytes * bool * bytes :=
  match bs with
  | [] => ([], false, [])
  | b :: bs' =>
      if N.eqb b 0 then ([], true, bs')
      else let '(s, f, rest) := getline bs' in (b :: s, f, rest)
  end.

Fixpoint beqb (a b : bytes) : bool :=
  match a, b with
  | [], [] => true
  | x :: a', y :: b' => N.eqb x y && beqb a' b'
  | _, _ => false
  end.

(** No embedded NUL. *)
Definition nulFree (s : bytes) : Prop := ~ In 0%N s.
