(** Input streams as used by the binary readers: the bytes not yet consumed and the
    fail bit.  [std::istream::read] of [n] bytes on a good stream stores the bytes that are
    there and sets the fail bit when fewer than [n] are left; on a failed stream it does
    nothing (C++ standard, [istream.unformatted]). *)
From Verif Require Import Base Bytes.

(** A stream of ElementStream.cpp:27-28 or MeshStream.cpp:12-13 as it is read. *)
Record istream := mkStream { rem : bytes; failed : bool }.

(** stream.read(reinterpret_cast<char*>(&x), n) where [x] holds the bytes [old]
    (e.g. core/src/index/ElementStream.cpp:27-28, 56, 135): the new bytes of [x] and the
    stream. *)
Definition readInto (n : nat) (old : bytes) (s : istream) : bytes * istream :=
  if failed s then (old, s)
  else let got := firstn n (rem s) in
       (got ++ skipn (length got) old, mkStream (skipn n (rem s)) (Nat.ltb (length got) n)).

(** Same for a variable without initial value (ElementStream.cpp:138-139,
    MeshStream.cpp:12-13 and 20-21): [None] when the read is incomplete, because the
    variable is then (partly) indeterminate. *)
Definition readUninit (n : nat) (s : istream) : option bytes * istream :=
  if failed s then (None, s)
  else let got := firstn n (rem s) in
       if Nat.ltb (length got) n then (None, mkStream [] true)
       else (Some got, mkStream (skipn n (rem s)) false).

(** Whitespace of the classic "C" locale, skipped by [operator>>(char&)] (ElementStream.cpp:99-100). *)
Definition isSpace (b : byte) : bool :=
  (N.eqb b 32 || (N.leb 9 b && N.leb b 13))%bool.

(** Skipping before a char is extracted (ElementStream.cpp:99-100). *)
Fixpoint skipSpace (bs : bytes) : bytes :=
  match bs with
  | [] => []
  | b :: bs' => if isSpace b then skipSpace bs' else bs
  end.

(** stream >> c for an uninitialised char c (ElementStream.cpp:99-100): [None] when nothing
    is extracted. *)
Definition readChar (s : istream) : option byte * istream :=
  if failed s then (None, s)
  else match skipSpace (rem s) with
       | [] => (None, mkStream [] true)
       | b :: bs => (Some b, mkStream bs false)
       end.
