(** Which elements exist in C++ and which of them the format can represent. *)
From Verif Require Import Base Bytes ElementModel.

Definition wfTag (t : tag) : Prop := (tkey t < 2 ^ 32 /\ tvalue t < 2 ^ 32)%N.
Definition wfCoord (c : coord) : Prop := (clat c < 2 ^ 64 /\ clon c < 2 ^ 64)%N.

(** Every field is within its C++ type (uint32_t, uint64_t, 64 bit double). *)
Fixpoint wfElement (e : element) : Prop :=
  (eid e < 2 ^ 64)%N /\ Forall wfTag (etags e) /\
  match e with
  | Node _ _ c => wfCoord c
  | Way _ _ cs | Area _ _ cs => Forall wfCoord cs
  | Relation _ _ es => (fix all l := match l with [] => True | m :: l' => wfElement m /\ all l' end) es
  end.

(** At most 65535 entries in a list. *)
Definition fits {A} (l : list A) : Prop := (N.of_nat (length l) <= 65535)%N.

(** Every list in the element (tags, coordinates, members, recursively) fits. *)
Fixpoint fitsElement (e : element) : Prop :=
  fits (etags e) /\
  match e with
  | Node _ _ _ => True
  | Way _ _ cs | Area _ _ cs => fits cs
  | Relation _ _ es =>
      fits es /\ (fix all l := match l with [] => True | m :: l' => fitsElement m /\ all l' end) es
  end.
