(** Models of core/src/heightmap/GridElevationProvider.hpp and SrtmElevationProvider.hpp.  Doubles are
    exact rationals; int arithmetic is exact and undefined when it leaves 32 bits; reading a vector
    outside of its bounds is undefined.  Files are given as the decoded heights or the bytes; locks are
    not modelled. *)
From Coq Require Import QArith Qround.
From Verif Require Import Base.
Local Open Scope Z_scope.

(** An int result, or undefined behaviour on overflow (e.g. GridElevationProvider.hpp:57). *)
Definition checkInt (z : Z) : outcome Z :=
  if (- 2 ^ 31 <=? z) && (z <? 2 ^ 31) then Ok z else UB.
(** Truncation towards zero (static_cast<int>, e.g. GridElevationProvider.hpp:57). *)
Definition truncQ (q : Q) : Z := if Qle_bool 0 q then Qfloor q else Qceiling q.
(** static_cast<int> of a double (e.g. GridElevationProvider.hpp:57). *)
Definition intOf (q : Q) : outcome Z := checkInt (truncQ q).
(** Element of a std::vector at an int index (e.g. GridElevationProvider.hpp:70). *)
Definition readAt {A} (l : list A) (i : Z) : outcome A :=
  if i <? 0 then UB else match nth_error l (Z.to_nat i) with Some a => Ok a | None => UB end.
(** Division of int (GridElevationProvider.hpp:60). *)
Definition intDiv (a b : Z) : outcome Z := if b =? 0 then UB else checkInt (Z.quot a b).

(** GridElevationProvider.hpp:84 and SrtmElevationProvider.hpp:140. *)
Definition bilinear (h0 h1 h2 h3 : Z) (dx dy : Q) : Q :=
  (inject_Z h0 * dy * (1 - dx) + inject_Z h1 * dy * dx + inject_Z h2 * (1 - dy) * (1 - dx)
   + inject_Z h3 * (1 - dy) * dx)%Q.

(** ** Grid *)
(** GridElevationProvider.hpp:25-33, EleData. *)
Record grid := mkGrid {
  gxStart : Z; gyStart : Z; gxStep : Z; gyStep : Z; gres : Z; gheights : list Z }.
(** core/src/BoundingBox.hpp:11-16, the corners of a tile. *)
Record box := mkBox { minLat : Q; minLon : Q; maxLat : Q; maxLon : Q }.
(** GridElevationProvider.hpp:35. *)
Definition gscale : Q := inject_Z 10000000.

(** GridElevationProvider.hpp:94-128, preload, from the heights of the file and the box of the tile.
    Division by a resolution of zero gives an infinity, whose conversion is undefined. *)
Definition gridLoad (heights : list Z) (b : box) : outcome grid :=
  match heights with
  | [] => Throw DomainError
  | _ =>
      let res := Z.sqrt (Z.of_nat (length heights)) - 1 in
      bind (intOf (minLon b * gscale)) (fun xs =>
      bind (intOf (minLat b * gscale)) (fun ys =>
      if res =? 0 then UB else
      bind (intOf ((maxLon b - minLon b) / inject_Z res * gscale)) (fun xp =>
      bind (intOf ((maxLat b - minLat b) / inject_Z res * gscale)) (fun yp =>
      Ok (mkGrid xs ys xp yp res heights)))))
  end.

(** GridElevationProvider.hpp:89-91. *)
Definition clampInt (n lower upper : Z) : Z := Z.max lower (Z.min n upper).

(** GridElevationProvider.hpp:55-85: [X] and [Y] are the converted longitude and latitude. *)
Definition gridAt (g : grid) (X Y : Z) : outcome Q :=
  let res := gres g in
  bind (checkInt (X - gxStart g)) (fun x =>
  bind (checkInt (Y - gyStart g)) (fun y =>
  bind (intDiv x (gxStep g)) (fun qx =>
  bind (intDiv y (gyStep g)) (fun qy =>
  let x0 := clampInt qx 0 res in
  let y0 := clampInt qy 0 res in
  bind (checkInt (x0 + 1)) (fun x0' =>
  bind (checkInt (y0 + 1)) (fun y0' =>
  let x1 := Z.min x0' res in
  let y1 := Z.min y0' res in
  bind (checkInt (x0 * gxStep g)) (fun px =>
  bind (checkInt (y0 * gyStep g)) (fun py =>
  bind (checkInt (x - px)) (fun rx =>
  bind (checkInt (y - py)) (fun ry =>
  let dx := (inject_Z rx / inject_Z (gxStep g))%Q in
  let dy := (inject_Z ry / inject_Z (gyStep g))%Q in
  bind (checkInt (res + 1)) (fun cell =>
  let read i j := bind (checkInt (j * cell)) (fun p => bind (checkInt (i + p)) (readAt (gheights g))) in
  bind (read x0 y0) (fun h2 =>
  bind (read x0 y1) (fun h0 =>
  bind (read x1 y0) (fun h3 =>
  bind (read x1 y1) (fun h1 =>
  Ok (bilinear h0 h1 h2 h3 dx dy)))))))))))))))).

(** GridElevationProvider.hpp:48-85, getElevation of a tile which is not loaded yet. *)
Definition gridElevation (heights : list Z) (b : box) (lat lon : Q) : outcome Q :=
  bind (gridLoad heights b) (fun g =>
  bind (intOf (lon * gscale)) (fun X =>
  bind (intOf (lat * gscale)) (fun Y => gridAt g X Y))).

(** ** SRTM *)
(** A char of the platform is signed: the value of a byte read from a file
    (SrtmElevationProvider.hpp:36, 145). *)
Definition schar (b : Z) : Z := if b <? 128 then b else b - 256.
(** SrtmElevationProvider.hpp:34-44; [hdata] holds the bytes. *)
Record hgt := mkHgt { hpx : Z; hsec : Z; hdata : list Z }.
(** SrtmElevationProvider.hpp:41. *)
Definition hoffset (c : hgt) : Z := (hpx c * hpx c - hpx c) * 2.
(** SrtmElevationProvider.hpp:145: the two bytes of a sample.  The shift of a negative number is taken
    as a multiplication, as compilers do. *)
Definition sample (hi lo : Z) : Z := Z.lor (schar hi * 256) (schar lo).
(** SrtmElevationProvider.hpp:143-146, readPx. *)
Definition readPx (c : hgt) (y x : Z) : outcome Z :=
  let pos := hoffset c + 2 * (x - hpx c * y) in
  bind (readAt (hdata c) pos) (fun hi => bind (readAt (hdata c) (pos + 1)) (fun lo => Ok (sample hi lo))).
(** SrtmElevationProvider.hpp:148-173, readCell: the kind of the cell follows from the size. *)
Definition hgtOf (data : list Z) : outcome hgt :=
  let size := Z.of_nat (length data) in
  if size =? 1201 * 1201 * 2 then Ok (mkHgt 1201 3 data)
  else if size =? 3601 * 3601 * 2 then Ok (mkHgt 3601 1 data)
  else Throw DomainError.

(** SrtmElevationProvider.hpp:24-32: keys of cells and their order. *)
Definition cellKey : Type := (Z * Z)%type.
(** SrtmElevationProvider.hpp:29-31. *)
Definition keyLess (a b : cellKey) : bool :=
  (fst a <? fst b) || ((fst a <=? fst b) && (snd a <? snd b)).
(** Equivalence of keys in std::map (line 187). *)
Definition keySame (a b : cellKey) : bool := negb (keyLess a b) && negb (keyLess b a).

(** SrtmElevationProvider.hpp:175-185: the hemispheres and numbers of the name of a file. *)
Definition fileOf (k : cellKey) : (bool * Z) * (bool * Z) :=
  ((0 <? fst k, Z.abs (fst k)), (0 <? snd k, Z.abs (snd k))).

(** The integers from [a], [n] of them: the loops of SrtmElevationProvider.hpp:77-78. *)
Definition zfrom (a : Z) (n : Z) : list Z := map (fun i => a + Z.of_nat i) (seq 0 (Z.to_nat n)).
(** SrtmElevationProvider.hpp:77-87: loading the cells of a box; [disk] is the directory. *)
Fixpoint loadCells (disk : (bool * Z) * (bool * Z) -> list Z) (keys : list cellKey)
    (cells : list (cellKey * hgt)) : outcome (list (cellKey * hgt)) :=
  match keys with
  | [] => Ok cells
  | k :: keys' =>
      match alookup keySame k cells with
      | Some _ => loadCells disk keys' cells
      | None => bind (hgtOf (disk (fileOf k))) (fun c => loadCells disk keys' (cells ++ [(k, c)]))
      end
  end.
(** SrtmElevationProvider.hpp:62-88, preload. *)
Definition preload disk (b : box) (key : cellKey) (cells : list (cellKey * hgt)) : outcome (list (cellKey * hgt)) :=
  match alookup keySame key cells with
  | Some _ => Ok cells
  | None =>
      let la := truncQ (minLat b) in let lo := truncQ (minLon b) in
      let keys := flat_map (fun lat => map (fun lon => (lat, lon)) (zfrom lo (truncQ (maxLon b) - lo + 1)))
                           (zfrom la (truncQ (maxLat b) - la + 1)) in
      loadCells disk keys cells
  end.

(** std::fmod (SrtmElevationProvider.hpp:128). *)
Definition fmodQ (a : Q) (m : Z) : Q := (a - inject_Z (truncQ (a / inject_Z m)) * inject_Z m)%Q.

(** SrtmElevationProvider.hpp:94-95 and 118-140: the height inside the cell [c]. *)
Definition cellElevation (c : hgt) (lat lon : Q) : outcome Q :=
  let secLat := ((lat - inject_Z (truncQ lat)) * inject_Z 3600)%Q in
  let secLon := ((lon - inject_Z (truncQ lon)) * inject_Z 3600)%Q in
  let y := truncQ (secLat / inject_Z (hsec c)) in
  let x := truncQ (secLon / inject_Z (hsec c)) in
  bind (readPx c y x) (fun h2 =>
  bind (readPx c (y + 1) x) (fun h0 =>
  bind (readPx c y (x + 1)) (fun h3 =>
  bind (readPx c (y + 1) (x + 1)) (fun h1 =>
  Ok (bilinear h0 h1 h2 h3 (fmodQ secLon (hsec c) / inject_Z (hsec c)) (fmodQ secLat (hsec c) / inject_Z (hsec c))))))).

(** SrtmElevationProvider.hpp:90-141, getElevationImpl: the cells afterwards and the height.  Using the
    end iterator of line 104 is undefined. *)
Definition srtmElevation disk (b : box) (lat lon : Q) (cells : list (cellKey * hgt))
  : outcome (list (cellKey * hgt) * Q) :=
  let key := (truncQ lat, truncQ lon) in
  bind (preload disk b key cells) (fun cells' =>
  match alookup keySame key cells' with
  | None => UB
  | Some c => bind (cellElevation c lat lon) (fun h => Ok (cells', h))
  end).
