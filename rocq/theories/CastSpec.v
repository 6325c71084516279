(** What a text of digits means. *)
From Verif Require Import Base Bytes.
Local Open Scope N_scope.

Definition digit (b : N) : Prop := 48 <= b <= 57.
(** Digits by the powers of ten at their places. *)
Fixpoint decimal (ds : bytes) : N :=
  match ds with [] => 0 | b :: ds' => (b - 48) * 10 ^ N.of_nat (length ds') + decimal ds' end.
