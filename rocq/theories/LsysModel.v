(** Models of core/src/lsys/Turtle.cpp, Rules.hpp, Turtle3d.cpp and of the turtle of
    core/src/builders/generators/LSystemGenerator.cpp.  Random choices are an oracle; drawing a
    cylinder, cone or sphere is recorded instead of performed. *)
From Verif Require Import Base Bytes RingModel MeshBuildModel QuatModel.
Local Open Scope nat_scope.

(** Rules.hpp:22-78 (the classes of rules), with the word of a WordRule. *)
Inductive rule : Type :=
| Forward | Jump | TurnLeft | TurnRight | TurnAround | PitchUp | PitchDown | RollLeft | RollRight
| Increment | Decrement | SwitchStyle | ScaleUp | ScaleDown | Save | Restore | Word (w : bytes).

(** std::type_index of a rule (Rules.hpp:83-86): an order of the classes chosen by the compiler,
    given by a rank. *)
Definition classOf (r : rule) : nat :=
  match r with
  | Forward => 0 | Jump => 1 | TurnLeft => 2 | TurnRight => 3 | TurnAround => 4 | PitchUp => 5
  | PitchDown => 6 | RollLeft => 7 | RollRight => 8 | Increment => 9 | Decrement => 10
  | SwitchStyle => 11 | ScaleUp => 12 | ScaleDown => 13 | Save => 14 | Restore => 15 | Word _ => 16
  end.
(** std::string operator< on bytes (Rules.hpp:89). *)
Fixpoint bytesLess (a b : bytes) : bool :=
  match a, b with
  | _, [] => false
  | [], _ :: _ => true
  | x :: a', y :: b' => if (x <? y)%N then true else if (y <? x)%N then false else bytesLess a' b'
  end.
(** Rules.hpp:82-93, RuleComparator; [rank] orders the classes. *)
Definition ruleLess (rank : nat -> nat) (a b : rule) : bool :=
  match a, b with
  | Word v, Word w => bytesLess v w
  | _, _ => rank (classOf a) <? rank (classOf b)
  end.
(** Equivalence of keys of the std::map of productions, LSystem.hpp:35. *)
Definition sameRule (rank : nat -> nat) (a b : rule) : bool :=
  negb (ruleLess rank a b) && negb (ruleLess rank b a).

Section Rewriting.
  Context {W : Type} (rank : nat -> nat).
  (** LSystem.hpp:20 and 35: productions with their weights. *)
  Definition productions := list (rule * list (W * list rule)).

  (** LSystemParser.cpp:81-84: adding a production. *)
  Fixpoint addProduction (ps : productions) (r : rule) (w : W) (succ : list rule) : productions :=
    match ps with
    | [] => [(r, [(w, succ)])]
    | (r', l) :: ps' =>
        if sameRule rank r r' then (r', l ++ [(w, succ)]) :: ps' else (r', l) :: addProduction ps' r w succ
    end.

  (** Turtle.cpp:41-49: one generation; [pick d count] is the index drawn among
      [count] at the [d]th draw (RuleSelector, lines 14-27), [d] counts the draws. *)
  Fixpoint generation (ps : productions) (pick : nat -> nat -> nat) (d : nat) (rules : list rule)
    : outcome (list rule * nat) :=
    match rules with
    | [] => Ok ([], d)
    | r :: rules' =>
        match alookup (sameRule rank) r ps with
        | None => bind (generation ps pick d rules') (fun '(w, d) => Ok (r :: w, d))
        | Some l =>
            match nth_error l (pick d (length l)) with
            | None => Throw OutOfRange
            | Some (_, succ) =>
                bind (generation ps pick (Datatypes.S d) rules') (fun '(w, d) => Ok (succ ++ w, d))
            end
        end
    end.
  (** Turtle.cpp:39-51: [g] generations. *)
  Fixpoint generations (ps : productions) (pick : nat -> nat -> nat) (d : nat) (g : nat) (rules : list rule)
    : outcome (list rule) :=
    match g with
    | O => Ok rules
    | Datatypes.S g' => bind (generation ps pick d rules) (fun '(w, d) => generations ps pick d g' w)
    end.
End Rewriting.
Arguments productions : clear implicits.

Section Turtle.
  Context {T : Type} (n : nums T) (k : trig T).

  (** Turtle3d.hpp:53-64, State. *)
  Record tstate := mkState {
    tlength : T; twidth : T; ttexture : nat; tpos : vec3 T; tdir : vec3 T; tright : vec3 T }.

  (** What LSystemGenerator.cpp:98-131 draws: shape, center, direction, right, size and the index
      of the style of the context in use. *)
  Inductive shape := Cylinder | Cone | Sphere.
  (** One of these drawings (LSystemGenerator.cpp:98-131); the index is before the modulo of line 48. *)
  Record drawing := mkDrawing { dshape : shape; dstate : tstate; dstyle : nat }.

  (** Turtle3d.hpp:66-77 and LSystemGenerator.cpp:152-165: the state, the stack, the styles of the two
      contexts and what has been drawn. *)
  Record turtle := mkTurtle {
    cur : tstate; stack : list tstate; cylStyle : nat; sphStyle : nat; drawn : list drawing }.

  (** Turtle3d.cpp:78-81: angle and scale of the running system; [around] is deg2Rad(180). *)
  Context (angle scale around : T).

  (** Turtle3d.hpp:55-63 and LSystemGenerator.cpp:61-62, 75-78. *)
  Definition initState (size : T) : tstate :=
    let o := nzero n in let i := kone k in
    mkState size size 0 (mkV3 o o o) (mkV3 o i o) (mkV3 i o o).
  (** LSystemGenerator.cpp:54-82. *)
  Definition initTurtle (size : T) : turtle := mkTurtle (initState size) [] 0 1 [].

  (** Replacing the state of a turtle, as every command of Turtle3d.cpp:11-67 does. *)
  Definition setState (t : turtle) (s : tstate) : turtle :=
    mkTurtle s (stack t) (cylStyle t) (sphStyle t) (drawn t).
  (** Turtle3d.cpp:85-87, createRotation. *)
  Definition rotation (s : tstate) (a : T) : quat T := fromAngleAxis n k a (vcross n (tdir s) (tright s)).
  (** -angle_, Turtle3d.cpp:16. *)
  Definition minus (a : T) : T := nsub n (nzero n) a.

  (** Turtle3d.cpp:11-13. *)
  Definition jump (s : tstate) : tstate :=
    mkState (tlength s) (twidth s) (ttexture s)
      (vadd n (tpos s) (vscale n (tdir s) (tlength s))) (tdir s) (tright s).
  (** Turtle3d.cpp:15-31: turns. *)
  Definition turn (a : T) (s : tstate) : tstate :=
    let q := rotation s a in
    mkState (tlength s) (twidth s) (ttexture s) (tpos s) (qapply n k q (tdir s)) (qapply n k q (tright s)).
  (** Turtle3d.cpp:33-39: pitch. *)
  Definition pitch (a : T) (s : tstate) : tstate :=
    mkState (tlength s) (twidth s) (ttexture s) (tpos s) (qapply n k (rotation s a) (tdir s)) (tright s).
  (** Turtle3d.cpp:41-47: roll. *)
  Definition roll (a : T) (s : tstate) : tstate :=
    mkState (tlength s) (twidth s) (ttexture s) (tpos s) (tdir s) (qapply n k (rotation s a) (tright s)).

  (** LSystemGenerator.cpp:98-131: draw, then jump. *)
  Definition draw (sh : shape) (t : turtle) : turtle :=
    let style := match sh with Sphere => sphStyle t | _ => cylStyle t end in
    mkTurtle (jump (cur t)) (stack t) (cylStyle t) (sphStyle t)
             (drawn t ++ [mkDrawing sh (cur t) style]).

  (** LSystemGenerator.cpp:170; the known words are those of lines 168-173. *)
  Definition coneWord : bytes := [99; 111; 110; 101]%N.
  (** LSystemGenerator.cpp:171. *)
  Definition sphereWord : bytes := [115; 112; 104; 101; 114; 101]%N.
  (** LSystemGenerator.cpp:172. *)
  Definition cylinderWord : bytes := [99; 121; 108; 105; 110; 100; 101; 114]%N.

  (** Equality of std::string as a key of WordMap, LSystemGenerator.cpp:52. *)
  Definition wordEqb (a b : bytes) : bool := if list_eq_dec N.eq_dec a b then true else false.

  (** Rules.hpp:22-77 with Turtle3d.cpp:11-76 and LSystemGenerator.cpp:84-95: applying a rule.
      The top of an empty std::stack is undefined. *)
  Definition apply (r : rule) (t : turtle) : outcome turtle :=
    let s := cur t in
    match r with
    | Forward => Ok (draw Cylinder t)
    | Jump => Ok (setState t (jump s))
    | TurnLeft => Ok (setState t (turn (minus angle) s))
    | TurnRight => Ok (setState t (turn angle s))
    | TurnAround => Ok (setState t (turn around s))
    | PitchUp => Ok (setState t (pitch angle s))
    | PitchDown => Ok (setState t (pitch (minus angle) s))
    | RollLeft => Ok (setState t (roll (minus angle) s))
    | RollRight => Ok (setState t (roll angle s))
    | Increment => Ok (setState t (mkState (tlength s) (nmul n (twidth s) scale) (ttexture s) (tpos s) (tdir s) (tright s)))
    | Decrement => Ok (setState t (mkState (tlength s) (ndiv n (twidth s) scale) (ttexture s) (tpos s) (tdir s) (tright s)))
    | ScaleUp => Ok (setState t (mkState (nmul n (tlength s) scale) (twidth s) (ttexture s) (tpos s) (tdir s) (tright s)))
    | ScaleDown => Ok (setState t (mkState (ndiv n (tlength s) scale) (twidth s) (ttexture s) (tpos s) (tdir s) (tright s)))
    | SwitchStyle =>
        let x := Datatypes.S (ttexture s) in
        Ok (mkTurtle (mkState (tlength s) (twidth s) x (tpos s) (tdir s) (tright s))
                     (stack t) x (Datatypes.S x) (drawn t))
    | Save => Ok (mkTurtle s (s :: stack t) (cylStyle t) (sphStyle t) (drawn t))
    | Restore =>
        match stack t with
        | [] => UB
        | s' :: st => Ok (mkTurtle s' st (cylStyle t) (sphStyle t) (drawn t))
        end
    | Word w =>
        if wordEqb w coneWord then Ok (draw Cone t)
        else if wordEqb w sphereWord then Ok (draw Sphere t)
        else if wordEqb w cylinderWord then Ok (draw Cylinder t)
        else Throw OutOfRange
    end.

  (** Turtle.cpp:53-55: the rules in order. *)
  Fixpoint exec (rules : list rule) (t : turtle) : outcome turtle :=
    match rules with [] => Ok t | r :: rules' => bind (apply r t) (exec rules') end.

  (** Turtle.cpp:35-56, run. *)
  Definition run {W} (rank : nat -> nat) (ps : productions W) (pick : nat -> nat -> nat) (gens : Z)
      (axiom : list rule) (t : turtle) : outcome turtle :=
    bind (generations rank ps pick 0 (Z.to_nat gens) axiom) (fun w => exec w t).
End Turtle.
Arguments tstate : clear implicits. Arguments turtle : clear implicits. Arguments drawing : clear implicits.
