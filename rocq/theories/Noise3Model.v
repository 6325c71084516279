(** Model of NoiseUtils::perlin3D (core/src/utils/NoiseUtils.cpp and NoiseUtils.hpp), over any operations on double; what it shares
    with perlin2D is in NoiseModel.v. *)
From Verif Require Import Base RingModel MeshBuildModel QuatModel GenModel RowModel NoiseModel.
Local Open Scope Z_scope.

Section Noise3.
  Context {T : Type} (n : nums T) (g : gens T) (floor : T -> Z) (tiny : T).
  Local Notation "a + b" := (nadd n a b). Local Notation "a - b" := (nsub n a b). Local Notation "a * b" := (nmul n a b).

  (** NoiseUtils.cpp:56-74. *)
  Definition gradients3D : list (vec3 T) :=
    let o := gint g 0 in let i := gint g 1 in let m := gint g (-1) in
    [mkV3 i i o; mkV3 m i o; mkV3 i m o; mkV3 m m o; mkV3 i o i; mkV3 m o i; mkV3 i o m; mkV3 m o m;
     mkV3 o i i; mkV3 o m i; mkV3 o i m; mkV3 o m m; mkV3 i i o; mkV3 m i o; mkV3 o m i; mkV3 o m m].
  (** NoiseUtils.hpp:22-24. *)
  Definition dotG3 (v : vec3 T) (x y z : T) : T := v3x v * x + v3y v * y + v3z v * z.
  (** NoiseUtils.cpp:141-148: the gradient of a corner; [h] is the entry for its column and row. *)
  Definition cornerGradient3 (h z : Z) : outcome (vec3 T) :=
    bind (entryAt hashTable (Z.add h z)) (fun e => entryAt gradients3D (Z.land e 15)).
  (** NoiseUtils.cpp:115-173, perlin3D; [floor] is std::floor, [tiny] 1E-5. *)
  Definition perlin3D (x y z frequency : T) : outcome T :=
    if nlt n frequency tiny then Ok (nzero n)
    else
      let px := x * frequency in let py := y * frequency in let pz := z * frequency in
      bind (castInt (floor px)) (fun ix => bind (castInt (floor py)) (fun iy => bind (castInt (floor pz)) (fun iz =>
      let tx0 := px - gint g ix in let ty0 := py - gint g iy in let tz0 := pz - gint g iz in
      let tx1 := tx0 - gint g 1 in let ty1 := ty0 - gint g 1 in let tz1 := tz0 - gint g 1 in
      let ix0 := Z.land ix 255 in let iy0 := Z.land iy 255 in let iz0 := Z.land iz 255 in
      let ix1 := Z.add ix0 1 in let iy1 := Z.add iy0 1 in let iz1 := Z.add iz0 1 in
      bind (entryAt hashTable ix0) (fun h0 => bind (entryAt hashTable ix1) (fun h1 =>
      bind (entryAt hashTable (Z.add h0 iy0)) (fun h00 => bind (entryAt hashTable (Z.add h1 iy0)) (fun h10 =>
      bind (entryAt hashTable (Z.add h0 iy1)) (fun h01 => bind (entryAt hashTable (Z.add h1 iy1)) (fun h11 =>
      bind (cornerGradient3 h00 iz0) (fun g000 => bind (cornerGradient3 h10 iz0) (fun g100 =>
      bind (cornerGradient3 h01 iz0) (fun g010 => bind (cornerGradient3 h11 iz0) (fun g110 =>
      bind (cornerGradient3 h00 iz1) (fun g001 => bind (cornerGradient3 h10 iz1) (fun g101 =>
      bind (cornerGradient3 h01 iz1) (fun g011 => bind (cornerGradient3 h11 iz1) (fun g111 =>
      let v000 := dotG3 g000 tx0 ty0 tz0 in let v100 := dotG3 g100 tx1 ty0 tz0 in
      let v010 := dotG3 g010 tx0 ty1 tz0 in let v110 := dotG3 g110 tx1 ty1 tz0 in
      let v001 := dotG3 g001 tx0 ty0 tz1 in let v101 := dotG3 g101 tx1 ty0 tz1 in
      let v011 := dotG3 g011 tx0 ty1 tz1 in let v111 := dotG3 g111 tx1 ty1 tz1 in
      let tx := smooth n g tx0 in let ty := smooth n g ty0 in let tz := smooth n g tz0 in
      let a := v000 in let b := v100 - v000 in let c := v010 - v000 in let d := v001 - v000 in
      let e := v110 - v010 - v100 + v000 in let f := v101 - v001 - v100 + v000 in let q := v011 - v001 - v010 + v000 in
      let h := v111 - v011 - v101 + v001 - v110 + v010 + v100 - v000 in
      Ok (a + b * tx + (c + e * tx) * ty + (d + f * tx + (q + h * tx) * ty) * tz)))))))))))))))))).
End Noise3.
