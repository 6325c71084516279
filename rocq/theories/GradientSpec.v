(** Vocabulary of the properties of the text of gradients. *)
From Coq Require Import QArith String.
From Verif Require Import Base Bytes JsonModel ColorModel ColorSpec.
Local Open Scope nat_scope.

Definition letter (c : N) : Prop := (97 <= c <= 122 \/ 65 <= c <= 90)%N.
Definition capital (c : N) : Prop := (65 <= c <= 90)%N.
Definition digit (c : N) : Prop := (48 <= c <= 57)%N.
Definition hexDigit (c : N) : Prop := digitValue c <> None.
Definition space (c : N) : Prop := (c = 32 \/ 9 <= c <= 13)%N.

(** A color as written: hexadecimal digits behind a # or a name. *)
Inductive paint := Hex (d : bytes) | Name (n : bytes).
Definition paintText (p : paint) : bytes := match p with Hex d => 35%N :: d | Name n => n end.
Definition paintOk (p : paint) : Prop :=
  match p with
  | Hex d => length d = 6 /\ Forall hexDigit d
  | Name n => n <> [] /\ Forall letter n /\ n <> str "rgb"
  end.
(** What it means: six digits are red, green and blue; a name is looked up in a table and is grey if it is not there. *)
Definition paintMeans (table : list (bytes * color)) (p : paint) (c : color) : Prop :=
  match p with
  | Hex d => exists n, hexValue 0 d = Some n /\ validColor c /\ rgba c = (n * 256 + 255)%Z
  | Name n => In (n, c) table \/ ~ In n (map fst table) /\ c = mkColor 190 190 190 255
  end.

(** A stop as written: a color and, behind a blank, a percentage of one to three digits. *)
Record stop := mkStop { paintOf : paint; percent : option bytes }.
Definition stopText (s : stop) : bytes :=
  paintText (paintOf s) ++ match percent s with None => [] | Some p => 32%N :: p ++ [37%N] end.
Definition stopOk (s : stop) : Prop :=
  paintOk (paintOf s) /\ match percent s with None => True | Some p => 1 <= length p <= 3 /\ Forall digit p end.
(** Number in digits. *)
Fixpoint number (p : bytes) : Z :=
  match p with [] => 0 | c :: p' => (Z.of_N c - 48) * 10 ^ Z.of_nat (length p') + number p' end%Z.
(** The time: the percentage, or the begin for the first and the end for any other stop. *)
Definition stopTime (first : bool) (s : stop) : Q :=
  match percent s with Some p => inject_Z (number p) / 100 | None => if first then 0 else 1 end%Q.
Definition stopMeans (table : list (bytes * color)) (first : bool) (s : stop) (d : Q * color) : Prop :=
  fst d = stopTime first s /\ paintMeans table (paintOf s) (snd d).

(** The meaning of stops in a row. *)
Inductive stopsMean (table : list (bytes * color)) : bool -> list stop -> gradient -> Prop :=
| meanNone b : stopsMean table b [] []
| meanMore b s l d g : stopMeans table b s d -> stopsMean table false l g -> stopsMean table b (s :: l) (d :: g).

(** Text without a letter and without a #. *)
Definition quiet (s : bytes) : Prop := Forall (fun c => ~ letter c /\ c <> 35%N) s.
(** A time, or something which looks like one, does not begin here. *)
Definition noTime (s : bytes) : Prop := forall c d s', s = c :: d :: s' -> space c -> ~ digit d.
(** Stops, each with the text behind it. *)
Fixpoint stopsText (l : list (stop * bytes)) : bytes :=
  match l with [] => [] | (s, after) :: l' => stopText s ++ after ++ stopsText l' end.
Fixpoint stopsOk (l : list (stop * bytes)) : Prop :=
  match l with
  | [] => True
  | (s, after) :: l' =>
      stopOk s /\ quiet after /\ (l' <> [] -> after <> []) /\ (percent s = None -> noTime (after ++ stopsText l')) /\ stopsOk l'
  end.
(** [s] is the word gradient before [t], or just [t], which does not begin with that word. *)
Definition wordBefore (t s : bytes) : Prop :=
  s = str "gradient" ++ t \/ s = t /\ forall u, s <> str "gradient" ++ u.

(** A # with three, four or five hexadecimal digits and no sixth one. *)
Definition shortHex (n : nat) (s : bytes) : Prop :=
  exists a h b, s = a ++ 35%N :: h ++ b /\ length h = n /\ Forall hexDigit h /\ (forall c b', b = c :: b' -> ~ hexDigit c).
