(** Property C01. *)
From Verif Require Import Base LruModel LruSpec LruProofs.

(** Every sequence of calls on a fresh cache of any capacity N is answered exactly as the
    specification demands: the keys held are the N most recently used distinct ones, with
    the values of their last puts; other keys throw; nothing else is observable. *)
Theorem C01_lru_cache :
  forall (K V : Type) (keqb : K -> K -> bool),
    (forall a b, keqb a b = true <-> a = b) ->
    forall (N : nat) (calls : list (@op K V)),
      run keqb (empty N) calls = Some (answers keqb N [] calls).
Proof. exact @lru_correct. Qed.
Print Assumptions C01_lru_cache.

(** Non-trivial instance: capacity 2, promotion changes the victim of the eviction. *)
Example C01_example :
  (forall a b, Nat.eqb a b = true <-> a = b) /\
  run Nat.eqb (empty 2)
      [Put 1 10; Put 2 20; Get 1; Peek 2; Put 3 30; Exists 2; Get 1; Get 2; Size; Put 1 11; Peek 1]
  = Some [RUnit; RUnit; RVal 10; RVal 20; RUnit; RBool false; RVal 10; RThrow RangeError;
          RNat 2; RUnit; RVal 11].
Proof. split; [apply Nat.eqb_eq | reflexivity]. Qed.
