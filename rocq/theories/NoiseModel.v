(** Model of core/src/utils/NoiseUtils.cpp and NoiseUtils.hpp (noise in two dimensions; the one in three is in Noise3Model.v),
    over any operations on double. *)
From Coq Require Import Reals.
From Verif Require Import Base RingModel MeshBuildModel QuatModel GenModel RowModel.
Local Open Scope Z_scope.

(** NoiseUtils.cpp:10-25: the first half of Hash. *)
Definition hashHalf : list Z :=
  [151; 160; 137; 91; 90; 15; 131; 13; 201; 95; 96; 53; 194; 233; 7; 225;
   140; 36; 103; 30; 69; 142; 8; 99; 37; 240; 21; 10; 23; 190; 6; 148;
   247; 120; 234; 75; 0; 26; 197; 62; 94; 252; 219; 203; 117; 35; 11; 32;
   57; 177; 33; 88; 237; 149; 56; 87; 174; 20; 125; 136; 171; 168; 68; 175;
   74; 165; 71; 134; 139; 48; 27; 166; 77; 146; 158; 231; 83; 111; 229; 122;
   60; 211; 133; 230; 220; 105; 92; 41; 55; 46; 245; 40; 244; 102; 143; 54;
   65; 25; 63; 161; 1; 216; 80; 73; 209; 76; 132; 187; 208; 89; 18; 169;
   200; 196; 135; 130; 116; 188; 159; 86; 164; 100; 109; 198; 173; 186; 3; 64;
   52; 217; 226; 250; 124; 123; 5; 202; 38; 147; 118; 126; 255; 82; 85; 212;
   207; 206; 59; 227; 47; 16; 58; 17; 182; 189; 28; 42; 223; 183; 170; 213;
   119; 248; 152; 2; 44; 154; 163; 70; 221; 153; 101; 155; 167; 43; 172; 9;
   129; 22; 39; 253; 19; 98; 108; 110; 79; 113; 224; 232; 178; 185; 112; 104;
   218; 246; 97; 228; 251; 34; 242; 193; 238; 210; 144; 12; 191; 179; 162; 241;
   81; 51; 145; 235; 249; 14; 239; 107; 49; 192; 214; 31; 181; 199; 106; 157;
   184; 84; 204; 176; 115; 121; 50; 45; 127; 4; 150; 254; 138; 236; 205; 93;
   222; 114; 67; 29; 24; 72; 243; 141; 128; 195; 78; 66; 215; 61; 156; 180].
(** NoiseUtils.cpp:8-42: the second half (26-41) repeats the first one. *)
Definition hashTable : list Z := hashHalf ++ hashHalf.

(** Reading an array: undefined beyond its ends (NoiseUtils.cpp:92-97). *)
Definition entryAt {A} (l : list A) (i : Z) : outcome A :=
  if i <? 0 then UB else match nth_error l (Z.to_nat i) with Some a => Ok a | None => UB end.

Section Noise.
  Context {T : Type} (n : nums T) (k : trig T) (g : gens T) (floor : T -> Z) (tiny : T).
  Local Notation "a + b" := (nadd n a b). Local Notation "a - b" := (nsub n a b).
  Local Notation "a * b" := (nmul n a b). Local Notation "a / b" := (ndiv n a b).

  (** NoiseUtils.cpp:6. *)
  Definition sqr2 : T := ksqrt k (gint g 2).
  (** NoiseUtils.cpp:44-54. *)
  Definition gradients2D : list (vec2 T) :=
    let o := gint g 0 in let i := gint g 1 in let m := gint g (-1) in let s := i / sqr2 in let t := m / sqr2 in
    [mkV2 i o; mkV2 m o; mkV2 o i; mkV2 o m; mkV2 s s; mkV2 t s; mkV2 s t; mkV2 t t].
  (** NoiseUtils.hpp:26-28. *)
  Definition dotG (v : vec2 T) (x y : T) : T := v2x v * x + v2y v * y.
  (** NoiseUtils.hpp:30-32. *)
  Definition smooth (t : T) : T := t * t * t * (t * (t * gint g 6 - gint g 15) + gint g 10).
  (** NoiseUtils.cpp:94-97: the gradient of a corner; [h] is the entry for its column. *)
  Definition cornerGradient (h y : Z) : outcome (vec2 T) :=
    bind (entryAt hashTable (Z.add h y)) (fun e => entryAt gradients2D (Z.land e 7)).
  (** NoiseUtils.cpp:76-113, perlin2D; [floor] is std::floor, [tiny] 1E-5.  The conversion to int of what does not fit is
      undefined. *)
  Definition perlin2D (x y frequency : T) : outcome T :=
    if nlt n frequency tiny then Ok (nzero n)
    else
      let px := x * frequency in let py := y * frequency in
      bind (castInt (floor px)) (fun ix => bind (castInt (floor py)) (fun iy =>
      let tx0 := px - gint g ix in let ty0 := py - gint g iy in
      let tx1 := tx0 - gint g 1 in let ty1 := ty0 - gint g 1 in
      let ix0 := Z.land ix 255 in let iy0 := Z.land iy 255 in
      let ix1 := Z.add ix0 1 in let iy1 := Z.add iy0 1 in
      bind (entryAt hashTable ix0) (fun h0 => bind (entryAt hashTable ix1) (fun h1 =>
      bind (cornerGradient h0 iy0) (fun g00 => bind (cornerGradient h1 iy0) (fun g10 =>
      bind (cornerGradient h0 iy1) (fun g01 => bind (cornerGradient h1 iy1) (fun g11 =>
      let v00 := dotG g00 tx0 ty0 in let v10 := dotG g10 tx1 ty0 in
      let v01 := dotG g01 tx0 ty1 in let v11 := dotG g11 tx1 ty1 in
      let tx := smooth tx0 in let ty := smooth ty0 in
      let a := v00 in let b := v10 - v00 in let c := v01 - v00 in let d := v11 - v01 - v10 + v00 in
      Ok ((a + b * tx + (c + d * tx) * ty) * sqr2))))))))).
  (** The time of a color (MeshBuilder.cpp:211, 242, GradientUtils.hpp:39). *)
  Definition colorTime (x y frequency : T) : outcome T :=
    bind (perlin2D x y frequency) (fun v => Ok ((v + gint g 1) / gint g 2)).
End Noise.

(** std::floor and 1E-5 (NoiseUtils.cpp:77, 81) of exact real arithmetic. *)
Definition realFloor (x : R) : Z := Int_part x.
(** 1E-5 (NoiseUtils.cpp:81). *)
Definition realTiny : R := (/ 100000)%R.
