(** What a stored mesh must come back as. *)
From Coq Require Import Reals.
From Flocq Require Import Core.Core IEEE754.Binary IEEE754.Bits.
From Verif Require Import Base Bytes MeshModel.

(** A 32 bit int, a 64 bit pattern. *)
Definition isInt (z : Z) : Prop := (- 2 ^ 31 <= z < 2 ^ 31)%Z.
Definition isBits64 (d : N) : Prop := (d < 2 ^ 64)%N.

(** A mesh that exists in C++ memory, with fewer than 2^32 entries per vector. *)
Definition wfMesh (m : mesh) : Prop :=
  nulFree (mname m) /\
  Forall isBits64 (vertices m) /\ Forall isInt (triangles m) /\ Forall isInt (colors m) /\
  Forall isBits64 (uvs m) /\ Forall isInt (uvMap m) /\
  (N.of_nat (length (vertices m)) < 2 ^ 32 /\ N.of_nat (length (triangles m)) < 2 ^ 32 /\
   N.of_nat (length (colors m)) < 2 ^ 32 /\ N.of_nat (length (uvs m)) < 2 ^ 32 /\
   N.of_nat (length (uvMap m)) < 2 ^ 32)%N.

(** The reals denoted by bit patterns, and single precision rounding to nearest even. *)
Definition real64 (d : N) : R := B2R 53 1024 (b64_of_bits (Z.of_N d)).
Definition finite64 (d : N) : bool := is_finite 53 1024 (b64_of_bits (Z.of_N d)).
Definition isnan64 (d : N) : bool := is_nan 53 1024 (b64_of_bits (Z.of_N d)).
Definition sign64 (d : N) : bool := Bsign 53 1024 (b64_of_bits (Z.of_N d)).
Definition roundSingle (x : R) : R := round radix2 (FLT_exp (-149) 24) ZnearestE x.

(** [d'] is [d] rounded once to single precision: NaN stays NaN, signs stay, infinities stay,
    finite values are rounded to nearest even, and become infinite when that reaches 2^128. *)
Definition singleRounded (d d' : N) : Prop :=
  isBits64 d' /\ isnan64 d' = isnan64 d /\
  (isnan64 d = false ->
   sign64 d' = sign64 d /\
   (finite64 d = false -> d' = d) /\
   (finite64 d = true -> (Rabs (roundSingle (real64 d)) < bpow radix2 128)%R ->
      finite64 d' = true /\ real64 d' = roundSingle (real64 d)) /\
   (finite64 d = true -> (bpow radix2 128 <= Rabs (roundSingle (real64 d)))%R ->
      finite64 d' = false)).
