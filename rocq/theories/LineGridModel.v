(** Model of core/src/builders/terrain/LineGridSplitter.hpp and of restoreGeometry of
    core/src/builders/terrain/TerraGenerator.cpp, over any operations on double without infinities and NaN: the
    comments say where these would appear.  Loops over grid lines have fuel, [None] is lack of it. *)
From Coq Require Import Reals QArith Qround.
From Verif Require Import Base RingModel MeshBuildModel QuatModel.
Local Open Scope nat_scope.

(** Operations beside [nums]: an int as double (LineGridSplitter.hpp:49-50), std::ceil (line 70), 1 (line 112) and
    numeric_limits<double>::epsilon() (lines 57, 155-156). *)
Record grids T := mkGrids { dint : Z -> T; dceil : T -> T; done : T; deps : T }.
Arguments mkGrids {T}. Arguments dint {T}. Arguments dceil {T}. Arguments done {T}. Arguments deps {T}.

Section Splitter.
  Context {T : Type} (n : nums T) (g : grids T).
  (** std::sort (LineGridSplitter.hpp:88, 90, 105, 107, 140, 142) with the functions of lines 20-34. *)
  Context (srt : (vec2 T -> vec2 T -> bool) -> list (vec2 T) -> list (vec2 T)).
  (** What is set by LineGridSplitter.hpp:40-43. *)
  Context (scale step : T).
  Local Notation "a + b" := (nadd n a b).
  Local Notation "a - b" := (nsub n a b).
  Local Notation "a * b" := (nmul n a b).
  Local Notation "a / b" := (ndiv n a b).

  (** LineGridSplitter.hpp:20-22, sort_x. *)
  Definition ltX (a b : vec2 T) : bool := nlt n (v2x a) (v2x b).
  (** LineGridSplitter.hpp:24-26, sort_reverse_x. *)
  Definition gtX (a b : vec2 T) : bool := nlt n (v2x b) (v2x a).
  (** LineGridSplitter.hpp:28-30, sort_y. *)
  Definition ltY (a b : vec2 T) : bool := nlt n (v2y a) (v2y b).
  (** LineGridSplitter.hpp:32-34, sort_reverse_y. *)
  Definition gtY (a b : vec2 T) : bool := nlt n (v2y b) (v2y a).
  (** Equal to 0 (LineGridSplitter.hpp:56-57, 74). *)
  Definition isZero (a : T) : bool := negb (nlt n a (nzero n)) && negb (nlt n (nzero n) a).

  (** LineGridSplitter.hpp:69-71, ceil. *)
  Definition gridCeil (v : T) : T := dceil g (v / step) * step.
  (** The loops of LineGridSplitter.hpp:84-85, 101-102, 124-125 and 136-137: the values of the variable. *)
  Fixpoint gridLoop (fuel : nat) (v stop : T) : option (list T) :=
    if nlt n v stop then
      match fuel with
      | O => None
      | S fuel => match gridLoop fuel (v + step) stop with Some l => Some (v :: l) | None => None end
      end
    else Some [].
  (** The lines of the grid from [a] to [b] (LineGridSplitter.hpp:82-85 and the like); with step 0 the first value is NaN
      and there are none. *)
  Definition gridLines (fuel : nat) (a b : T) : option (list T) :=
    if isZero step then Some [] else gridLoop fuel (gridCeil a) b.

  (** LineGridSplitter.hpp:73-109, zeroSlope. *)
  Definition zeroSlope (fuel : nat) (start stop : vec2 T) (points : list (vec2 T)) : option (list (vec2 T)) :=
    if isZero (v2x start - v2x stop) then
      let up := nlt n (v2y start) (v2y stop) in
      let (a, b) := if up then (start, stop) else (stop, start) in
      option_map (fun ys => srt (if up then ltY else gtY) (points ++ map (fun y => mkV2 (v2x a) y) ys)) (gridLines fuel (v2y a) (v2y b))
    else
      let right := nlt n (v2x start) (v2x stop) in
      let (a, b) := if right then (start, stop) else (stop, start) in
      option_map (fun xs => srt (if right then ltX else gtX) (points ++ map (fun x => mkV2 x (v2y a)) xs)) (gridLines fuel (v2x a) (v2x b)).

  (** LineGridSplitter.hpp:111-143, normalCase. *)
  Definition normalCase (fuel : nat) (start stop : vec2 T) (slope : T) (points : list (vec2 T)) : option (list (vec2 T)) :=
    let inverseSlope := done g / slope in
    let b := v2y start - slope * v2x start in
    let right := nlt n (v2x start) (v2x stop) in
    let (p, q) := if right then (start, stop) else (stop, start) in
    match gridLines fuel (v2x p) (v2x q) with
    | None => None
    | Some xs =>
        let (p, q) := if nlt n (v2y p) (v2y q) then (p, q) else (q, p) in
        match gridLines fuel (v2y p) (v2y q) with
        | None => None
        | Some ys =>
            Some (srt (if right then ltX else gtX)
              (points ++ map (fun x => mkV2 x (slope * x + b)) xs ++ map (fun y => mkV2 ((y - b) * inverseSlope) y) ys))
        end
    end.

  (** LineGridSplitter.hpp:150-151: too close to be kept. *)
  Definition tooClose (a b : vec2 T) : bool := nlt n (nabs n (v2x a - v2x b)) (deps g) && nlt n (nabs n (v2y a - v2y b)) (deps g).
  (** LineGridSplitter.hpp:145-157, mergeResults. *)
  Fixpoint mergeResults (points result : list (vec2 T)) : list (vec2 T) :=
    match points with
    | [] => result
    | c :: points =>
        mergeResults points
          match result with
          | [] => [c]
          | h :: _ => if tooClose (last result h) c then result else result ++ [c]
          end
    end.

  (** LineGridSplitter.hpp:49-50: a corner. *)
  Definition cornerOf (p : Z * Z) : vec2 T := mkV2 (dint g (fst p) / scale) (dint g (snd p) / scale).
  (** LineGridSplitter.hpp:46-65, split.  The slope is infinite if only the difference of x is 0; if both are 0 it is NaN,
      then no grid line is between the two equal corners and there is nothing to sort. *)
  Definition split (fuel : nat) (start stop : Z * Z) (result : list (vec2 T)) : option (list (vec2 T)) :=
    let s := cornerOf start in
    let e := cornerOf stop in
    let dx := v2x e - v2x s in
    let dy := v2y e - v2y s in
    let points :=
      if isZero dx then if isZero dy then Some [s] else zeroSlope fuel s e [s]
      else if nlt n (nabs n (dy / dx)) (deps g) then zeroSlope fuel s e [s] else normalCase fuel s e (dy / dx) [s] in
    option_map (fun points => mergeResults (points ++ [e]) result) points.

  (** TerraGenerator.cpp:90-91: the loop over the sides of a contour. *)
  Fixpoint splitAll (fuel : nat) (sides : list ((Z * Z) * (Z * Z))) (points : list (vec2 T)) : option (list (vec2 T)) :=
    match sides with
    | [] => Some points
    | (a, b) :: sides => match split fuel a b points with Some points => splitAll fuel sides points | None => None end
    end.
  (** TerraGenerator.cpp:86-94, restoreGeometry; without points size() - 1 wraps and the first access is undefined. *)
  Definition restoreGeometry (fuel : nat) (path : list (Z * Z)) : option (outcome (list (vec2 T))) :=
    match path with
    | [] => Some UB
    | p :: path' => option_map Ok (splitAll fuel (combine path (path' ++ [p])) [])
    end.
End Splitter.

(** Exact rational arithmetic with the epsilon of double (LineGridSplitter.hpp:57, 70). *)
Definition exactGrids : grids Q := mkGrids inject_Z (fun q => inject_Z (Qceiling q)) 1%Q (1 # 2 ^ 52)%Q.
(** Exact real arithmetic with the epsilon of double (LineGridSplitter.hpp:57, 70). *)
Definition realGrids : grids R := mkGrids IZR (fun x => IZR (- (up (- x) - 1))) 1%R (/ 2 ^ 52)%R.
