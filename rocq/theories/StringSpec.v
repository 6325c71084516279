(** A string table is a growing list of distinct strings; the id of a string is its
    position. *)
From Verif Require Import Base Bytes StringModel.

Fixpoint position (s : bytes) (l : list bytes) : option nat :=
  match l with
  | [] => None
  | s' :: l' => if beqb s s' then Some 0 else option_map S (position s l')
  end.

Definition specStep (l : list bytes) (o : sop) : list bytes * sres :=
  match o with
  | GetId s => match position s l with
               | Some i => (l, SId (N.of_nat i))
               | None => (l ++ [s], SId (N.of_nat (length l)))
               end
  | GetString i => (l, SStr (nth (N.to_nat i) l []))
  | Reopen => (l, SUnit)
  end.

Fixpoint specRun (l : list bytes) (os : list sop) : list bytes * list sres :=
  match os with
  | [] => (l, [])
  | o :: os' =>
      let '(l1, r) := specStep l o in
      let '(l2, rs) := specRun l1 os' in (l2, r :: rs)
  end.

(** All strings passed to getId are free of NUL bytes. *)
Definition stringsOk (P : bytes -> Prop) (os : list sop) : Prop :=
  forall s, In (GetId s) os -> P s.

(** getString is only called with ids allocated earlier. *)
Fixpoint allocatedOnly (l : list bytes) (os : list sop) : Prop :=
  match os with
  | [] => True
  | o :: os' =>
      match o with GetString i => (N.to_nat i < length l)%nat | _ => True end /\
      allocatedOnly (fst (specStep l o)) os'
  end.

(** Bytes needed on disk for the strings (each is followed by a NUL). *)
Fixpoint diskBytes (l : list bytes) : N :=
  match l with [] => 0 | s :: l' => N.of_nat (length s) + 1 + diskBytes l' end.

(** The strings passed to getId by a sequence of calls. *)
Definition requested (os : list sop) : list bytes :=
  flat_map (fun o => match o with GetId s => [s] | _ => [] end) os.

(** Number of different strings in a list. *)
Definition countDistinct (l : list bytes) : nat :=
  length (nodup (list_eq_dec N.eq_dec) l).

(** Histories for which the code is expected to work: no embedded NUL, and either no empty
    string or no lookup of an id before its allocation; everything fits into 2^32 bytes. *)
Definition goodHistory (os : list sop) : Prop :=
  stringsOk nulFree os /\
  (stringsOk (fun s => s <> []) os \/ allocatedOnly [] os) /\
  (diskBytes (nodup (list_eq_dec N.eq_dec) (requested os)) < 4294967296)%N.

(** Crashes.  The abstract state is the list of registered strings and the number of
    bytes in the data file.  A crash keeps the index entries of the first [i/8] strings and
    [d] bytes of data; all later strings are forgotten. *)
Definition crashStep (st : list bytes * N) (o : cop) : (list bytes * N) * sres :=
  match o with
  | Call o => let '(l', r) := specStep (fst st) o in
              ((l', (snd st + (diskBytes l' - diskBytes (fst st)))%N), r)
  | Crash i d => ((firstn (i / 8) (fst st), N.of_nat d), SUnit)
  end.

Fixpoint crashRun (st : list bytes * N) (os : list cop) : list sres :=
  match os with
  | [] => []
  | o :: os' => let '(st', r) := crashStep st o in r :: crashRun st' os'
  end.

(** Histories with orderly crashes: calls as in [goodHistory] (no NUL, no lookup of
    unallocated ids, data below 2^32 bytes); a crash leaves whole index entries and loses
    data bytes only of strings whose index entry is lost as well. *)
Definition orderlyCall (st : list bytes * N) (o : cop) : Prop :=
  match o with
  | Call (GetId s) => nulFree s
  | Call (GetString i) => (N.to_nat i < length (fst st))%nat
  | Call Reopen => True
  | Crash i d => exists k, i = (8 * k)%nat /\ (k <= length (fst st))%nat /\
      (N.of_nat d <= snd st)%N /\ (snd st <= N.of_nat d + diskBytes (skipn k (fst st)))%N
  end.

Fixpoint orderly (st : list bytes * N) (os : list cop) : Prop :=
  match os with
  | [] => True
  | o :: os' =>
      orderlyCall st o /\ (snd (fst (crashStep st o)) < 4294967296)%N /\
      orderly (fst (crashStep st o)) os'
  end.
