(** What C86 speaks of, without the model's helpers. *)
From Verif Require Import Base Bytes.

(** A text which is something followed by an ending. *)
Definition endsIn (path ending : bytes) : Prop := exists p, path = p ++ ending.
