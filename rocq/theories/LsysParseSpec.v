(** The texts of L-systems which are understood, and what they mean, independent of the parser. *)
From Coq Require Import String.
From Verif Require Import Base Bytes JsonModel LsysModel LsysParseModel XmlSpec.
Local Open Scope list_scope.

(** ** Blanks and comments: a comment goes up to and with the end of its line *)
Inductive cgap : bytes -> Prop :=
| cgap_nil : cgap []
| cgap_blank g : cgap g -> cgap (32%N :: g)
| cgap_comment c g : ~ In 10%N c -> cgap g -> cgap (str "#" ++ c ++ feed ++ g).

(** ** Rules *)
Definition letter (c : N) : Prop := (65 <= c <= 90 \/ 97 <= c <= 122)%N.
Definition symbols : list (bytes * rule) :=
  [(str "F", Forward); (str "G", Jump); (str "+", TurnLeft); (str "-", TurnRight); (str "|", TurnAround); (str "^", PitchUp);
   (str "&", PitchDown); (str "\", RollLeft); (str "/", RollRight); (str "$", Increment); (str "!", Decrement);
   (str ">", ScaleUp); (str "<", ScaleDown); (str "@", SwitchStyle); (str "[", Save); (str "]", Restore)].
(** A symbol, or a word which does not begin with one. *)
Definition wordText (w t : bytes) : Prop := t = w /\ w <> [] /\ Forall letter w /\ ~ In (firstn 1 w) (map fst symbols).
Definition ruleText (r : rule) (t : bytes) : Prop := In (t, r) symbols \/ exists w, r = Word w /\ wordText w t.
Definition startsLetter (t : bytes) : Prop := match t with c :: _ => letter c | [] => False end.
(** Rules one behind the other; words do not touch. *)
Inductive rulesText : list rule -> bytes -> Prop :=
| rules_nil : rulesText [] []
| rules_cons g r t rs u : cgap g -> ruleText r t -> rulesText rs u -> (forall w, r = Word w -> ~ startsLetter u) -> rulesText (r :: rs) (g ++ t ++ u).

(** ** Numbers *)
Definition integer (z : Z) (w : bytes) : Prop :=
  exists ds v, natural ds v /\ (-2147483648 <= z <= 2147483647)%Z /\
    ((w = ds /\ z = Z.of_N v) \/ (w = str "+" ++ ds /\ z = Z.of_N v) \/ (w = str "-" ++ ds /\ z = - Z.of_N v)%Z).
(** At least one line break or tabulator. *)
Definition breakText (t : bytes) : Prop := exists l, l <> [] /\ listText cgap (fun c u => u = [c] /\ (9 <= c <= 13)%N) l t.
Definition entryText (P : bytes -> Prop) (key t : bytes) : Prop :=
  exists g0 g w sp, cgap g0 /\ cgap g /\ P w /\ breakText sp /\ t = g0 ++ key ++ g ++ w ++ sp.

Section Numbers.
  Context {T : Type} (one : T) (numeral : T -> bytes -> Prop).
  (** What may follow a number. *)
  Definition endsNumber (r : bytes) : Prop := match r with [] => False | c :: _ => (c = 32 \/ c = 35 \/ c = 41 \/ 9 <= c <= 13)%N end.
  (** A number parser takes numerals only, and takes a numeral whole in front of these. *)
  Definition goodDouble (number : bytes -> option (T * bytes)) : Prop :=
    (forall s v r, number s = Some (v, r) -> exists w, s = w ++ r /\ numeral v w) /\
    (forall v w r, numeral v w -> endsNumber r -> number (w ++ r) = Some (v, r)) /\
    (forall v w, numeral v w -> exists c w', w = c :: w' /\ c <> 32%N /\ c <> 35%N).

  (** ** Productions *)
  Definition probabilityText (p : T) (t : bytes) : Prop :=
    (p = one /\ t = []) \/
    exists g1 g2 w g3, cgap g1 /\ cgap g2 /\ numeral p w /\ cgap g3 /\ t = g1 ++ str "(" ++ g2 ++ w ++ g3 ++ str ")".
  Definition lineText (l : @line T) (t : bytes) : Prop :=
    exists g tr tp g2 u, cgap g /\ ruleText (fst (fst l)) tr /\ probabilityText (snd (fst l)) tp /\ cgap g2 /\ snd l <> [] /\
      rulesText (snd l) u /\ t = g ++ tr ++ tp ++ g2 ++ str "->" ++ u.
  Definition feedGap (g : bytes) : Prop := exists g0, cgap g0 /\ g = g0 ++ feed.
  Definition linesText (ls : list (@line T)) (t : bytes) : Prop :=
    exists l ls' t0 tr, ls = l :: ls' /\ lineText l t0 /\ listText feedGap lineText ls' tr /\ t = t0 ++ tr.
  Definition systemText (w : @written T) (t : bytes) : Prop :=
    exists t1 t2 t3 g ta g' tl, entryText (integer (wgens w)) (str "generations:") t1 /\ entryText (numeral (wangle w)) (str "angle:") t2 /\
      entryText (numeral (wscale w)) (str "scale:") t3 /\ cgap g /\ waxiom w <> [] /\ rulesText (waxiom w) ta /\ cgap g' /\
      linesText (wlines w) tl /\ t = t1 ++ t2 ++ t3 ++ g ++ str "axiom:" ++ ta ++ g' ++ feed ++ tl.
End Numbers.

(** ** What may follow: nothing which is a rule, neither on this line nor at the beginning of the next one *)
Definition stuck (y : bytes) : Prop :=
  match y with [] => True | c :: y' => c <> 32%N /\ ~ letter c /\ ~ In [c] (map fst symbols) /\ (c = 35%N -> ~ In 10%N y') end.
Definition tailText (t : bytes) : Prop :=
  exists g y, cgap g /\ stuck y /\ t = g ++ y /\ (forall z, y = feed ++ z -> exists g' y', cgap g' /\ stuck y' /\ z = g' ++ y').

(** ** What a text means *)
Definition rule_eq_dec (a b : rule) : {a = b} + {a <> b}.
Proof. decide equality. apply (list_eq_dec N.eq_dec). Defined.
(** The lines of a rule, in their order. *)
Fixpoint linesOf {T} (r : rule) (ls : list (@line T)) : list (T * list rule) :=
  match ls with
  | [] => []
  | l :: ls' => if rule_eq_dec r (fst (fst l)) then (snd (fst l), snd l) :: linesOf r ls' else linesOf r ls'
  end.
(** A rule has its lines as productions, and no entry if it has none. *)
Definition means {T} (w : @written T) (rank : nat -> nat) (sys : @lsystem T) : Prop :=
  generationsOf sys = wgens w /\ angleOf sys = wangle w /\ scaleOf sys = wscale w /\ axiomOf sys = waxiom w /\
  forall r, alookup (sameRule rank) r (productionsOf sys) = match linesOf r (wlines w) with [] => None | l => Some l end.

(** ** L-systems which can be written *)
Definition goodRule (r : rule) : Prop := forall w, r = Word w -> wordText w w.
Definition goodRules (rs : list rule) : Prop := rs <> [] /\ Forall goodRule rs.
Definition goodLine {T} (number : T -> Prop) (l : @line T) : Prop := goodRule (fst (fst l)) /\ number (snd (fst l)) /\ goodRules (snd l).
Definition goodSystem {T} (number : T -> Prop) (w : @written T) : Prop :=
  (-2147483648 <= wgens w <= 2147483647)%Z /\ number (wangle w) /\ number (wscale w) /\ goodRules (waxiom w) /\
  wlines w <> [] /\ Forall (goodLine number) (wlines w).
