(** Elements and model of core/src/index/ElementStream.cpp. *)
From Verif Require Import Base Bytes StreamModel.

(** core/src/entities/Element.hpp:16-27: two 32 bit string ids. *)
Record tag := mkTag { tkey : N; tvalue : N }.

(** core/src/GeoCoordinate.hpp:10-14: two doubles, here their 64 bit patterns. *)
Record coord := mkCoord { clat : N; clon : N }.

(** core/src/entities/{Node,Way,Area,Relation}.hpp.  Members of a relation are shared
    pointers; a null pointer and sharing are outside the model (Node.hpp:12-14, Way.hpp:12-14, Area.hpp:12-14, Relation.hpp:12-13). *)
Inductive element :=
| Node (id : N) (tags : list tag) (c : coord)
| Way (id : N) (tags : list tag) (cs : list coord)
| Area (id : N) (tags : list tag) (cs : list coord)
| Relation (id : N) (tags : list tag) (es : list element).

(** Element.hpp:31-35: the id and tag fields. *)
Definition eid (e : element) : N :=
  match e with Node i _ _ | Way i _ _ | Area i _ _ | Relation i _ _ => i end.
(** Element.hpp:35, the tags. *)
Definition etags (e : element) : list tag :=
  match e with Node _ t _ | Way _ t _ | Area _ t _ | Relation _ t _ => t end.
(** Assignment to the id field, ElementStream.cpp:141 and 154. *)
Definition setId (i : N) (e : element) : element :=
  match e with
  | Node _ t c => Node i t c
  | Way _ t c => Way i t c
  | Area _ t c => Area i t c
  | Relation _ t es => Relation i t es
  end.

(** ElementStream.cpp:20-24. *)
Definition writeTag (t : tag) : bytes := le 4 (tkey t) ++ le 4 (tvalue t).
(** ElementStream.cpp:32-36. *)
Definition writeCoord (c : coord) : bytes := le 8 (clat c) ++ le 8 (clon c).
(** ElementStream.cpp:46-47 and 81-82: a size narrowed to sixteen bits. *)
Definition writeSize {A} (l : list A) : bytes := le 2 (u16 (N.of_nat (length l))).
(** ElementStream.cpp:44-51. *)
Definition writeVec {A} (w : A -> bytes) (l : list A) : bytes := writeSize l ++ flat_map w l.

(** ElementStream.cpp:63-90, ElementWriter. *)
Fixpoint write (e : element) : bytes :=
  match e with
  | Node _ t c => 0%N :: writeVec writeTag t ++ writeCoord c
  | Way _ t cs => 1%N :: writeVec writeTag t ++ writeVec writeCoord cs
  | Area _ t cs => 2%N :: writeVec writeTag t ++ writeVec writeCoord cs
  | Relation _ t es =>
      3%N :: writeVec writeTag t ++ writeSize es ++ flat_map (fun m => le 8 (eid m) ++ write m) es
  end.

(** ElementStream.cpp:26-30, into a fresh Tag(0, 0) (Element.hpp:22 and the resize in
    ElementStream.cpp:57). *)
Definition readTag (s : istream) : tag * istream :=
  let '(k, s) := readInto 4 [0; 0; 0; 0]%N s in
  let '(v, s) := readInto 4 [0; 0; 0; 0]%N s in
  (mkTag (unle k) (unle v), s).

(** Bit pattern of +infinity, the default of GeoCoordinate.hpp:16-19, as bytes. *)
Definition infBytes : bytes := [0; 0; 0; 0; 0; 0; 240; 127]%N.

(** ElementStream.cpp:38-42, into a fresh GeoCoordinate(). *)
Definition readCoord (s : istream) : coord * istream :=
  let '(a, s) := readInto 8 infBytes s in
  let '(o, s) := readInto 8 infBytes s in
  (mkCoord (unle a) (unle o), s).

(** ElementStream.cpp:58-59: the loop over the items. *)
Fixpoint readItems {A} (r : istream -> A * istream) (n : nat) (s : istream) : list A * istream :=
  match n with
  | O => ([], s)
  | S n' => let '(a, s) := r s in let '(l, s) := readItems r n' s in (a :: l, s)
  end.

(** ElementStream.cpp:55-56 and 134-135. *)
Definition readSize (s : istream) : nat * istream :=
  let '(b, s) := readInto 2 [0; 0]%N s in (N.to_nat (unle b), s).

(** ElementStream.cpp:53-61. *)
Definition readVec {A} (r : istream -> A * istream) (s : istream) : list A * istream :=
  let '(n, s) := readSize s in readItems r n s.

(** ElementStream.cpp:137-143: the member loop, given the recursive reader. *)
Fixpoint readMembers (r : istream -> option (outcome (element * istream)))
  (n : nat) (s : istream) : option (outcome (list element * istream)) :=
  match n with
  | O => Some (Ok ([], s))
  | S n' =>
      match readUninit 8 s with
      | (None, _) => Some UB
      | (Some b, s) =>
          match r s with
          | None => None
          | Some (Ok (e, s)) =>
              match readMembers r n' s with
              | None => None
              | Some (Ok (es, s)) => Some (Ok (setId (unle b) e :: es, s))
              | Some (Throw x) => Some (Throw x)
              | Some UB => Some UB
              end
          | Some (Throw x) => Some (Throw x)
          | Some UB => Some UB
          end
      end
  end.

(** ElementStream.cpp:98-145.  The id of the new element is indeterminate until the caller
    assigns it (lines 141, 154); 0 stands for it here.  [None] is exhausted fuel; the fuel
    bounds the nesting depth only. *)
Fixpoint readElem (fuel : nat) (s : istream) : option (outcome (element * istream)) :=
  match fuel with
  | O => None
  | S f =>
      match readChar s with
      | (None, _) => Some UB
      | (Some b, s) =>
          if N.eqb b 0 then
            let '(t, s) := readVec readTag s in
            let '(c, s) := readCoord s in Some (Ok (Node 0 t c, s))
          else if N.eqb b 1 then
            let '(t, s) := readVec readTag s in
            let '(cs, s) := readVec readCoord s in Some (Ok (Way 0 t cs, s))
          else if N.eqb b 2 then
            let '(t, s) := readVec readTag s in
            let '(cs, s) := readVec readCoord s in Some (Ok (Area 0 t cs, s))
          else if N.eqb b 3 then
            let '(t, s) := readVec readTag s in
            let '(n, s) := readSize s in
            match readMembers (readElem f) n s with
            | None => None
            | Some (Ok (es, s)) => Some (Ok (Relation 0 t es, s))
            | Some (Throw x) => Some (Throw x)
            | Some UB => Some UB
            end
          else Some (Throw DomainError)
      end
  end.

(** ElementStream.cpp:151-156, ElementStream::read. *)
Definition read (bs : bytes) (id : N) : option (outcome (element * istream)) :=
  match readElem (S (length bs)) (mkStream bs false) with
  | Some (Ok (e, s)) => Some (Ok (setId id e, s))
  | r => r
  end.

(** Reading one record after another, ids given from outside (as the index file does,
    core/src/index/PersistentElementStore.cpp:155-163). *)
Fixpoint readSeq (ids : list N) (bs : bytes) : option (outcome (list element * bytes)) :=
  match ids with
  | [] => Some (Ok ([], bs))
  | i :: ids' =>
      match read bs i with
      | Some (Ok (e, s)) =>
          if failed s then Some UB else
          match readSeq ids' (rem s) with
          | Some (Ok (es, bs')) => Some (Ok (e :: es, bs'))
          | r => r
          end
      | Some (Throw x) => Some (Throw x)
      | Some UB => Some UB
      | None => None
      end
  end.
