(** Property C07: meshes in cache files. *)
From Coq Require Import ZArith Reals.
From Flocq Require Import Core.Core IEEE754.Binary IEEE754.Bits.
From Verif Require Import Base Bytes StreamModel FloatModel MeshModel MeshSpec MeshProofs.

(** A written mesh is read back with everything equal except that coordinates and texture
    coordinates are rounded once to single precision; bytes that follow are untouched. *)
Theorem C07_mesh_roundtrip :
  forall (m : mesh) (rest : bytes), wfMesh m ->
    exists m', readMesh (mkStream (writeMesh m ++ rest) false) = Ok (m', mkStream rest false) /\
      mname m' = mname m /\ triangles m' = triangles m /\ colors m' = colors m /\ uvMap m' = uvMap m /\
      Forall2 singleRounded (vertices m) (vertices m') /\ Forall2 singleRounded (uvs m) (uvs m').
Proof. exact mesh_roundtrip. Qed.
Print Assumptions C07_mesh_roundtrip.

(** A mesh that was read from a cache survives any further cycle unchanged. *)
Theorem C07_second_cycle_exact :
  forall (m m' : mesh) (rest rest' : bytes) (s : istream), wfMesh m ->
    readMesh (mkStream (writeMesh m ++ rest) false) = Ok (m', s) ->
    readMesh (mkStream (writeMesh m' ++ rest') false) = Ok (m', mkStream rest' false) /\
    writeMesh m' = writeMesh m.
Proof. exact mesh_second_cycle. Qed.
Print Assumptions C07_second_cycle_exact.

(** 0.1, 2^-1074, 1e300, -0 and a signalling NaN; ints of both signs. *)
Definition exampleMesh : mesh :=
  mkMesh [116; 101]%N
    [4591870180066957722; 1; 9096006130098604668; 9223372036854775808; 9218868437227405313]%N
    [0; 1; 2; -1]%Z [-2147483648; 2147483647]%Z [4607182418800017408]%N [].

Example C07_example :
  wfMesh exampleMesh /\
  readMesh (mkStream (writeMesh exampleMesh ++ [9]%N) false)
  = Ok (mkMesh [116; 101]%N
          [4591870180174331904; 0; 9218868437227405312; 9223372036854775808; 9221120237041090560]%N
          [0; 1; 2; -1]%Z [-2147483648; 2147483647]%Z [4607182418800017408]%N [], mkStream [9]%N false).
Proof.
  split; [|vm_compute; reflexivity].
  unfold wfMesh, isBits64, isInt, nulFree. cbn [exampleMesh mname vertices triangles colors uvs uvMap].
  split; [cbn; intuition discriminate|].
  repeat (split || constructor); cbn; intros; discriminate.
Qed.

(** A cache file that ends inside a vector makes the reader use indeterminate values. *)
Example C07_cut_file :
  readMesh (mkStream (firstn 12 (writeMesh exampleMesh)) false) = UB /\
  readMesh (mkStream [116; 101]%N false) = Ok (mkMesh [116; 101]%N [] [] [] [] [], mkStream [] true).
Proof. vm_compute. auto. Qed.
