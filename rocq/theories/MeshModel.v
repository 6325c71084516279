(** Model of core/src/index/MeshStream.cpp and the data of core/src/math/Mesh.hpp. *)
From Verif Require Import Base Bytes StreamModel FloatModel.

(** core/src/math/Mesh.hpp:11-18.  Doubles as 64 bit patterns, int as Z. *)
Record mesh := mkMesh {
  mname : bytes; vertices : list N; triangles : list Z; colors : list Z;
  uvs : list N; uvMap : list Z }.

(** MeshStream.cpp:25-28 for int: two's complement, little endian. *)
Definition writeInt (z : Z) : bytes := le 4 (Z.to_N (z mod 2 ^ 32)).
(** MeshStream.cpp:31-35: double stored as float. *)
Definition writeDouble (d : N) : bytes := le 4 (f32of64 d).
(** MeshStream.cpp:37-44. *)
Definition writeVec32 {A} (w : A -> bytes) (l : list A) : bytes :=
  le 4 (u32 (N.of_nat (length l))) ++ flat_map w l.
(** MeshStream.cpp:56-59. *)
Definition writeMesh (m : mesh) : bytes :=
  cstr (mname m) ++ 0%N :: writeVec32 writeDouble (vertices m) ++ writeVec32 writeInt (triangles m) ++
  writeVec32 writeInt (colors m) ++ writeVec32 writeDouble (uvs m) ++ writeVec32 writeInt (uvMap m).

(** MeshStream.cpp:10-15 for int. *)
Definition readInt (s : istream) : option Z * istream :=
  match readUninit 4 s with
  | (Some b, s) =>
      let u := Z.of_N (unle b) in (Some (if (u <? 2 ^ 31)%Z then u else u - 2 ^ 32)%Z, s)
  | (None, s) => (None, s)
  end.
(** MeshStream.cpp:18-23. *)
Definition readDouble (s : istream) : option N * istream :=
  match readUninit 4 s with
  | (Some b, s) => (Some (f64of32 (unle b)), s)
  | (None, s) => (None, s)
  end.
(** MeshStream.cpp:51-52; an incomplete read yields an indeterminate value. *)
Fixpoint readItems32 {A} (r : istream -> option A * istream) (n : nat) (s : istream) : outcome (list A * istream) :=
  match n with
  | O => Ok ([], s)
  | S n' =>
      match r s with
      | (None, _) => UB
      | (Some a, s) => bind (readItems32 r n' s) (fun '(l, s) => Ok (a :: l, s))
      end
  end.
(** MeshStream.cpp:46-54. *)
Definition readVec32 {A} (r : istream -> option A * istream) (s : istream) : outcome (list A * istream) :=
  let '(b, s) := readInto 4 [0; 0; 0; 0]%N s in readItems32 r (N.to_nat (unle b)) s.

(** std::getline(stream, name, '\0'), MeshStream.cpp:62; without a terminator the stream is
    no longer good. *)
Definition readName (s : istream) : bytes * istream :=
  if failed s then ([], s)
  else let '(n, found, rest) := getline (rem s) in (n, mkStream rest (negb found)).

(** MeshStream.cpp:61-72. *)
Definition readMesh (s : istream) : outcome (mesh * istream) :=
  let '(n, s) := readName s in
  bind (readVec32 readDouble s) (fun '(v, s) =>
  bind (readVec32 readInt s) (fun '(t, s) =>
  bind (readVec32 readInt s) (fun '(c, s) =>
  bind (readVec32 readDouble s) (fun '(u, s) =>
  bind (readVec32 readInt s) (fun '(um, s) => Ok (mkMesh n v t c u um, s)))))).
