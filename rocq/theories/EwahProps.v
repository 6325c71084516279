(** Property C10: the compressed bitmap represents a set of positions. *)
From Verif Require Import Base EwahModel EwahSpec EwahFacts EwahWitness.
From Coq Require Import NArith Sorted.
Local Open Scope N_scope.

(** Increasing positions come back exactly, in order. *)
Theorem C10_set_enumerate :
  forall l, StronglySorted N.lt l -> exists c, build l = Done c /\ enumerate c = Done l.
Proof. exact build_enumerates. Qed.
Print Assumptions C10_set_enumerate.

(** A position not above all earlier ones is refused and changes nothing ... *)
Theorem C10_set_refused :
  forall l c i q, build l = Done c -> In q l -> i <= q -> set i c = Done (false, c).
Proof. exact set_refused. Qed.
Print Assumptions C10_set_refused.

(** ... and one above them is taken. *)
Theorem C10_set_accepted :
  forall l c i, build l = Done c -> Forall (fun q => q < i) l ->
    exists c', set i c = Done (true, c') /\ build (l ++ [i]) = Done c'.
Proof. exact set_accepted. Qed.
Print Assumptions C10_set_accepted.

(** Whatever the order of the calls of set, and for every expression of and / or over such bitmaps, the
    iterator lists the set in increasing order.  Xor needs operands below 32767 * 32 = 1048544 (see the
    refutation below for what is missing). *)
Theorem C10_bitmap_algebra_partial :
  forall e, xorBelow 1048544 e -> exists c, eval e = Done c /\ enumerates c (member e).
Proof. exact eval_enumerates. Qed.
Print Assumptions C10_bitmap_algebra_partial.

Fixpoint xorFree (e : expr) : Prop :=
  match e with
  | Build _ => True
  | Or x y | And x y => xorFree x /\ xorFree y
  | Xor _ _ => False
  end.
Theorem C10_and_or :
  forall e, xorFree e -> exists c, eval e = Done c /\ enumerates c (member e).
Proof.
  intros e H. apply eval_enumerates. induction e; cbn in *; try tauto.
Qed.
Print Assumptions C10_and_or.

(** Without that bound the symmetric difference is wrong: a position in both operands is listed. *)
Theorem C10_xor_refuted :
  exists l1 l2 a b c l p,
    StronglySorted N.lt l1 /\ StronglySorted N.lt l2 /\ build l1 = Done a /\ build l2 = Done b /\
    logicalxor a b = Done c /\ enumerate c = Done l /\ In p l1 /\ In p l2 /\ In p l.
Proof. exact xor_wrong. Qed.
Print Assumptions C10_xor_refuted.

(** Literals, a run of zeros and a run of ones. *)
Definition exampleA : list N := [0; 5; 31] ++ map N.of_nat (seq 96 64) ++ [100000].
Definition exampleB : list N := [5; 40; 100; 159; 100000; 3000000].
Example C10_example_set :
  StronglySorted N.lt exampleA /\
  (match build exampleA with Done c => enumerate c | _ => Bad end) = Done exampleA /\
  (match build exampleA with Done c => Done (buf c) | _ => Bad end) =
    Done [131072; 2147483681; 4; 5; 137312; 1].
Proof.
  split; [|split; vm_compute; reflexivity].
  unfold exampleA. repeat (constructor; [|repeat (constructor; [reflexivity|]); constructor]). constructor.
Qed.

Example C10_example_algebra :
  let e := Xor (And (Build exampleA) (Build exampleB)) (Or (Build [7; 3; 9]) (Build [5; 64])) in
  xorBelow 1048544 (Xor (Build exampleA) (Build [5])) /\
  (match eval (And (Build exampleA) (Build exampleB)) with Done c => enumerate c | _ => Bad end) = Done [5; 100; 159; 100000] /\
  (match eval e with Done c => enumerate c | _ => Bad end) = Done [7; 9; 64; 100; 159; 100000].
Proof.
  split; [|split; vm_compute; reflexivity].
  cbn [xorBelow below]. repeat split; try exact I; repeat (constructor; [reflexivity|]); constructor.
Qed.
