(** Models of core/src/formats/osm/MultipolygonProcessor.cpp (assembly of rings) and of the
    geometry it uses: core/src/GeoCoordinate.hpp, core/src/utils/GeometryUtils.hpp and
    isPointInPolygon of core/src/utils/GeoUtils.hpp. *)
From Coq Require Import QArith Qabs.
From Verif Require Import Base Bytes GeoModel.
Local Open Scope nat_scope.

(** Operations on double.  [nlt] is [<]; [x > y] is [nlt y x] (those of GeometryUtils.hpp:20-145 and MultipolygonProcessor.cpp). *)
Record nums (T : Type) := mkNums {
  nzero : T; nadd : T -> T -> T; nsub : T -> T -> T; nmul : T -> T -> T; ndiv : T -> T -> T;
  nabs : T -> T; nlt : T -> T -> bool
}.
Arguments mkNums {T}. Arguments nzero {T}. Arguments nadd {T}. Arguments nsub {T}.
Arguments nmul {T}. Arguments ndiv {T}. Arguments nabs {T}. Arguments nlt {T}.

(** Exact arithmetic, for the properties of the formulas themselves (as used by GeometryUtils.hpp:20-145). *)
Definition exactNums : nums Q :=
  mkNums 0%Q Qplus Qminus Qmult Qdiv Qabs (fun x y => negb (Qle_bool y x)).

Section Geometry.
  Context {T : Type} (n : nums T).

  (** GeoCoordinate.hpp:26-29, operator==; [eps] is numeric_limits<double>::epsilon(). *)
  Definition sameCoord (eps : T) (a b : point T) : bool :=
    nlt n (nabs n (nsub n (plat a) (plat b))) eps && nlt n (nabs n (nsub n (plon a) (plon b))) eps.

  (** GeometryUtils.hpp:21-22: the terms from the pair (p, q) on. *)
  Fixpoint areaFrom (p : point T) (acc : T) (l : list (point T)) : T :=
    match l with
    | [] => acc
    | q :: l' =>
        areaFrom q (nadd n acc (nsub n (nmul n (plon p) (plat q)) (nmul n (plon q) (plat p)))) l'
    end.
  (** GeometryUtils.hpp:16-24, getArea. *)
  Definition getArea (l : list (point T)) : T :=
    match l with [] => nzero n | c :: _ => areaFrom (last l c) (nzero n) l end.
  (** GeometryUtils.hpp:27-30. *)
  Definition isClockwise (l : list (point T)) : bool := nlt n (getArea l) (nzero n).

  (** GeoUtils.hpp:95-97: whether the edge from i to j is crossed. *)
  Definition crosses (p i j : point T) : bool :=
    xorb (nlt n (plat p) (plat i)) (nlt n (plat p) (plat j)) &&
    nlt n (plon p)
      (nadd n (ndiv n (nmul n (nsub n (plon j) (plon i)) (nsub n (plat p) (plat i)))
                      (nsub n (plat j) (plat i))) (plon i)).
  (** GeoUtils.hpp:94-98: the loop from the edge (i, j) on. *)
  Fixpoint crossings (p j : point T) (c : bool) (l : list (point T)) : bool :=
    match l with
    | [] => c
    | i :: l' => crossings p i (if crosses p i j then negb c else c) l'
    end.
  (** GeoUtils.hpp:92-101, isPointInPolygon. *)
  Definition isPointInPolygon (p : point T) (l : list (point T)) : bool :=
    match l with [] => false | c :: _ => crossings p (last l c) false l end.
End Geometry.

(** MultipolygonProcessor.cpp:18-24, CoordinateSequence, over a type of coordinates. *)
Record sequence (A : Type) := mkSeq { sid : N; scoords : list A }.
Arguments mkSeq {A}. Arguments sid {A}. Arguments scoords {A}.

Section Rings.
  Context {A : Type}.
  (** operator== of coordinates. *)
  Variable same : A -> A -> bool.
  (** isClockwise and isPointInPolygon. *)
  Variable clockwise : list A -> bool.
  Variable inside : A -> list A -> bool.

  (** MultipolygonProcessor.cpp:29-57, tryAdd: the longer sequence, or [None]; first and last (71-73) of an empty
      deque are undefined. *)
  Definition tryAdd (s o : sequence A) : outcome (option (sequence A)) :=
    match scoords s, scoords o with
    | sf :: _, of :: _ =>
        let sl := last (scoords s) sf in
        let ol := last (scoords o) of in
        let ret l := Ok (Some (mkSeq (sid s) l)) in
        if same sl of then ret (removelast (scoords s) ++ scoords o)
        else if same sl ol then ret (removelast (scoords s) ++ rev (scoords o))
        else if same sf ol then ret (scoords o ++ tl (scoords s))
        else if same sf of then ret (rev (scoords o) ++ tl (scoords s))
        else Ok None
    | _, _ => UB
    end.

  (** MultipolygonProcessor.cpp:59-61, isClosed. *)
  Definition isClosed (s : sequence A) : bool :=
    match scoords s with
    | f :: _ :: _ => same f (last (scoords s) f)
    | _ => false
    end.

  (** MultipolygonProcessor.cpp:63-67, containsRing. *)
  Definition containsRing (s o : sequence A) : bool := forallb (fun c => inside c (scoords s)) (scoords o).

  (** MultipolygonProcessor.cpp:191-197: the first sequence that continues the ring, and the others. *)
  Fixpoint joinFirst (cur : sequence A) (seqs : list (sequence A))
    : outcome (option (sequence A * list (sequence A))) :=
    match seqs with
    | [] => Ok None
    | s :: seqs' =>
        bind (tryAdd cur s) (fun r =>
        match r with
        | Some cur' => Ok (Some (cur', seqs'))
        | None => omap (option_map (fun '(c, rest) => (c, s :: rest))) (joinFirst cur seqs')
        end)
    end.

  (** MultipolygonProcessor.cpp:204-208. *)
  Definition finish (cur : sequence A) (closed : list (sequence A))
    : option (sequence A) * list (sequence A) :=
    if isClosed cur then (None, closed ++ [cur]) else (Some cur, closed).

  (** MultipolygonProcessor.cpp:183-209: the loop.  [None] is exhausted fuel.  [Ok None] is the return of line 201;
      otherwise the closed rings, and the ring that is still open when the loop ends. *)
  Fixpoint ringLoop (fuel : nat) (cur : option (sequence A)) (seqs : list (sequence A))
    (closed : list (sequence A)) : option (outcome (option (list (sequence A) * option (sequence A)))) :=
    match seqs with
    | [] => Some (Ok (Some (closed, cur)))
    | s0 :: _ =>
        match fuel with
        | O => None
        | S fuel' =>
            match cur with
            | None =>
                let '(cur', closed') := finish (last seqs s0) closed in
                ringLoop fuel' cur' (removelast seqs) closed'
            | Some c =>
                match joinFirst c seqs with
                | Ok (Some (c', rest)) =>
                    let '(cur', closed') := finish c' closed in ringLoop fuel' cur' rest closed'
                | Ok None => Some (Ok None)
                | Throw e => Some (Throw e)
                | UB => Some UB
                end
            end
        end
    end.

  (** MultipolygonProcessor.cpp:179-212, createRings: a ring left open is dropped. *)
  Definition createRings (seqs : list (sequence A)) : option (outcome (list (sequence A))) :=
    option_map (omap (fun r => match r with None => [] | Some (closed, _) => closed end))
      (ringLoop (length seqs) None seqs []).

  (** MultipolygonProcessor.cpp:217-231: the first ring that no other ring contains; [before] in reverse. *)
  Fixpoint findOuter (before after : list (sequence A)) : option (sequence A * list (sequence A)) :=
    match after with
    | [] => None
    | c :: after' =>
        if existsb (fun o => containsRing o c) (rev before ++ after') then findOuter (c :: before) after'
        else Some (c, rev before ++ after')
    end.

  (** MultipolygonProcessor.cpp:234-251: inner rings, and the rings that stay; [before] in reverse. *)
  Fixpoint findInners (outer : sequence A) (before after : list (sequence A))
    : list (sequence A) * list (sequence A) :=
    match after with
    | [] => ([], rev before)
    | r :: after' =>
        if containsRing outer r && negb (existsb (fun o => containsRing o r) (rev before ++ after'))
        then let '(inn, rest) := findInners outer before after' in (r :: inn, rest)
        else findInners outer (r :: before) after'
    end.

  (** MultipolygonProcessor.cpp:267-278, insertCoordinates into an empty vector. *)
  Definition insertCoordinates (source : list A) (isOuter : bool) : outcome (list A) :=
    match source with
    | [] => UB
    | f :: _ =>
        let offset := if same f (last source f) then 1 else 0 in
        if Bool.eqb isOuter (negb (clockwise source))
        then Ok (firstn (length source - offset) source)
        else Ok (skipn offset (rev source))
    end.

  (** An area that is appended to the relation: whether as outer, its id and its ring.  Inner
      areas have id 0 (value initialised, MultipolygonProcessor.cpp:260). *)
  Record ringArea := mkRing { isOuter : bool; ringId : N; ringCoords : list A }.
  (** MultipolygonProcessor.cpp:253-263 (and 156-169). *)
  Definition makeArea (outer : bool) (s : sequence A) : outcome ringArea :=
    omap (mkRing outer (if outer then sid s else 0%N)) (insertCoordinates (scoords s) outer).
  (** The loop over sequences (MultipolygonProcessor.cpp:156-169). *)
  Fixpoint makeAll (outer : bool) (l : list (sequence A)) : outcome (list ringArea) :=
    match l with
    | [] => Ok []
    | s :: l' => bind (makeArea outer s) (fun a => omap (cons a) (makeAll outer l'))
    end.

  (** MultipolygonProcessor.cpp:214-265, fillRelation.  Without an outer ring, line 236 dereferences null if there
      is a ring left, and so does line 255 otherwise. *)
  Fixpoint fillRelation (fuel : nat) (rings : list (sequence A)) : option (outcome (list ringArea)) :=
    match rings with
    | [] => Some (Ok [])
    | _ =>
        match fuel with
        | O => None
        | S fuel' =>
            match findOuter [] rings with
            | None => Some UB
            | Some (outer, rest) =>
                let '(inners, rest') := findInners outer [] rest in
                match makeArea true outer, makeAll false inners with
                | Ok a, Ok is => option_map (omap (fun l => a :: is ++ l)) (fillRelation fuel' rest')
                | Throw e, _ | _, Throw e => Some (Throw e)
                | _, _ => Some UB
                end
            end
        end
    end.

  (** MultipolygonProcessor.cpp:171-176, complexCase. *)
  Definition complexCase (seqs : list (sequence A)) : option (outcome (list ringArea)) :=
    match createRings seqs with
    | None => None
    | Some (Ok rings) => fillRelation (length rings) rings
    | Some (Throw e) => Some (Throw e)
    | Some UB => Some UB
    end.

  (** MultipolygonProcessor.cpp:151-169, simpleCase: the outer sequence and the inner ones. *)
  Definition simpleCase (outer : sequence A) (inners : list (sequence A)) : outcome (list ringArea) :=
    bind (makeArea true outer) (fun a => omap (cons a) (makeAll false inners)).
End Rings.
