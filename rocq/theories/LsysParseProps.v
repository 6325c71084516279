(** C60: a text of an L-system is read as it is written. *)
From Coq Require Import String.
From Verif Require Import Base Bytes BytesProofs JsonModel Peg PegProofs LsysModel LsysSpec LsysProofs LsysParseModel XmlModel XmlSpec XmlProofs LsysParseSpec LsysParseProofs.
Local Open Scope list_scope.
Local Arguments str : simpl never.

(** A number parser as required: digits. *)
Definition plainNumber (s : bytes) : option (N * bytes) :=
  match spanOf isDigitX s with ([], _) => None | (ds, r) => Some (naturalFrom 0 ds, r) end.
Lemma plain_good : goodDouble (fun v w => natural w v) plainNumber.
Proof.
  unfold goodDouble, plainNumber. split; [|split].
  - intros s v r. pose proof (span_app isDigitX s) as H. destruct (spanOf isDigitX s) as [ds q]. destruct H as (-> & F & _).
    destruct ds as [|c ds]; [discriminate|]. intros [= <- <-]. exists (c :: ds). split; [reflexivity|]. apply from_natural; [discriminate|exact F].
  - intros v w r D E. destruct (natural_from _ _ D) as (N & F & V). rewrite span_all; [|exact F|destruct r as [|c r]; [exact I|]; cbn in E; unfold isDigitX; lia].
    destruct w as [|c w]; [congruence|]. now rewrite V.
  - intros v w D. destruct (natural_head _ _ D) as (c & w' & -> & C). exists c, w'. split; [reflexivity|]. lia.
Qed.
(** The parser with these numbers. *)
Definition read (s : bytes) : outcome (@lsystem N) := parseLsystem 1%N (fun n => n) plainNumber s.
(** The order of classes used in the examples. *)
Lemma plain_order : classOrder (fun n => n).
Proof. intros a b H. exact H. Qed.

(** A text as it is meant is understood, whatever comes behind which is not more of it. *)
Theorem C60_understood_partial : forall T (one : T) numeral number rank w t r, goodDouble numeral number -> classOrder rank ->
  systemText one numeral w t -> tailText r -> exists sys, parseLsystem one rank number (t ++ r) = Ok sys /\ means w rank sys.
Proof.
  intros T one numeral number rank w t r G C H R. unfold parseLsystem. rewrite (system_ok one numeral number G w t r H R). eexists. split; [reflexivity|].
  repeat (split; [reflexivity|]). intros q. now apply insertAll_lookup.
Qed.
Print Assumptions C60_understood_partial.
(** The tree of the demo, with whole numbers. *)
Definition aTree : bytes := str "# a tree
generations: 3
angle: 45

scale: 3
axiom: root
root(1) -> ! ! cylinder [ cylinder ] > G $ $ sphere
root(9) -> ! ! cylinder branch branch branch
branch -> [ + ! cylinder foliage ]
# the leaves
foliage -> [ G $ $ $ sphere ]
".
Example C60_understood_case : match read aTree with
  | Ok s => generationsOf s = 3%Z /\ angleOf s = 45%N /\ axiomOf s = [Word (str "root")] /\ List.length (productionsOf s) = 3%nat /\
      alookup (sameRule (fun n => n)) (Word (str "root")) (productionsOf s) =
        Some [(1%N, [Decrement; Decrement; Word (str "cylinder"); Save; Word (str "cylinder"); Restore; ScaleUp; Jump; Increment; Increment; Word (str "sphere")]);
              (9%N, [Decrement; Decrement; Word (str "cylinder"); Word (str "branch"); Word (str "branch"); Word (str "branch")])]
  | _ => False end.
Proof. vm_compute. repeat split. Qed.

(** What is understood is written in the text, and only what is not more of it is left. *)
Theorem C60_explained : forall T (one : T) numeral number rank s sys, goodDouble numeral number -> classOrder rank ->
  parseLsystem one rank number s = Ok sys -> exists w t r, systemText one numeral w t /\ tailText r /\ s = t ++ r /\ means w rank sys.
Proof.
  intros T one numeral number rank s sys G C H. unfold parseLsystem in H. destruct (psystem one number s) as [| |w r] eqn:E; try discriminate. injection H as <-.
  destruct (system_inv one numeral number G s w r E) as (t & St & R & ->). exists w, t, r. split; [exact St|]. split; [exact R|]. split; [reflexivity|].
  repeat (split; [reflexivity|]). intros q. now apply insertAll_lookup.
Qed.
Print Assumptions C60_explained.
Example C60_explained_case : exists sys, read aTree = Ok sys.
Proof. eexists. vm_compute. reflexivity. Qed.

(** Any other text is reported. *)
Theorem C60_told : forall T (one : T) numeral number rank s, goodDouble numeral number -> classOrder rank ->
  (~ exists w t r, systemText one numeral w t /\ tailText r /\ s = t ++ r) -> parseLsystem one rank number s = Throw DomainError.
Proof.
  intros T one numeral number rank s G C H. destruct (parseLsystem one rank number s) as [sys|e|] eqn:E.
  - exfalso. apply H. destruct (C60_explained T one numeral number rank s sys G C E) as (w & t & r & A & B & D & _). exists w, t, r. auto.
  - unfold parseLsystem in E. destruct (psystem one number s); congruence.
  - unfold parseLsystem in E. destruct (psystem one number s); discriminate.
Qed.
Print Assumptions C60_told.
Example C60_told_case : read (str "generations: 3") = Throw DomainError.
Proof. vm_compute. reflexivity. Qed.

(** Every L-system with names of letters, none of which begins with F or G, can be written down and is read back. *)
Theorem C60_written : forall T (one : T) numeral number rank w, goodDouble numeral number -> classOrder rank ->
  goodSystem (fun v => exists x, numeral v x) w -> exists t sys, parseLsystem one rank number t = Ok sys /\ means w rank sys.
Proof.
  intros T one numeral number rank w G C H. destruct (system_exists one numeral w H) as (t & St). exists t.
  destruct (C60_understood_partial T one numeral number rank w t [] G C St tail_nil) as (sys & E & M). rewrite app_nil_r in E. exists sys. auto.
Qed.
Print Assumptions C60_written.
Example C60_written_case : goodSystem (fun v => exists x, natural x v) (mkWritten (-1) 0%N 1%N [Word (str "a"); Word (str "b")] [(Forward, 1%N, [Forward; Forward])]).
Proof.
  assert (Z : exists x, natural x 0%N) by (exists [48%N]; apply (nat_one 0); lia). assert (O : exists x, natural x 1%N) by (exists [49%N]; apply (nat_one 1); lia).
  assert (W : forall c, (97 <= c <= 98)%N -> goodRule (Word [c])).
  { intros c C w [= <-]. split; [reflexivity|]. split; [discriminate|]. split; [constructor; [unfold letter; lia|constructor]|]. intros I. cbn in I. repeat (destruct I as [I|I]; [injection I; lia|]). destruct I. }
  assert (F : goodRule Forward) by (intros w H; discriminate).
  split; [cbn; lia|]. split; [exact Z|]. split; [exact O|]. split; [split; [discriminate|]; constructor; [apply (W 97%N); lia|constructor; [apply (W 98%N); lia|constructor]]|]. split; [discriminate|].
  constructor; [|constructor]. split; [exact F|]. split; [exact O|]. split; [discriminate|]. constructor; [exact F|]. constructor; [exact F|constructor].
Qed.

(** ** What is not as one expects *)
(** An empty line ends the system: what is written below it is ignored without a word. *)
Theorem C60_empty_line_refuted : forall T (one : T) numeral number rank w t x, goodDouble numeral number -> classOrder rank ->
  systemText one numeral w t -> exists sys, parseLsystem one rank number (t ++ feed ++ feed ++ x) = Ok sys /\ means w rank sys.
Proof.
  intros T one numeral number rank w t x G C H. apply (C60_understood_partial T one numeral number rank w t _ G C H).
  exists [], (feed ++ feed ++ x). split; [constructor|]. split; [apply feed_stuck|]. split; [reflexivity|]. intros z E. exists [], (feed ++ x). split; [constructor|]. split; [apply feed_stuck|].
  injection E as <-. reflexivity.
Qed.
Print Assumptions C60_empty_line_refuted.
Example C60_empty_line_case : match read (str "generations: 3
angle: 45
scale: 3
axiom: A
A -> B

B -> C") with Ok s => alookup (sameRule (fun n => n)) (Word (str "B")) (productionsOf s) = None | _ => False end.
Proof. vm_compute. reflexivity. Qed.

(** So does a character which is no rule, such as a digit or a carriage return: the rest of the line and all lines below are ignored. *)
Theorem C60_unknown_refuted : forall T (one : T) numeral number rank w t c x, goodDouble numeral number -> classOrder rank ->
  systemText one numeral w t -> ~ letter c -> ~ In [c] (map fst symbols) -> ~ In c [32; 35; 10]%N ->
  exists sys, parseLsystem one rank number (t ++ c :: x) = Ok sys /\ means w rank sys.
Proof.
  intros T one numeral number rank w t c x G C H L S N. apply (C60_understood_partial T one numeral number rank w t _ G C H).
  exists [], (c :: x). split; [constructor|]. split; [|split; [reflexivity|]].
  - split; [intros ->; apply N; cbn; auto|]. split; [exact L|]. split; [exact S|]. intros ->. exfalso. apply N. cbn. auto.
  - intros z E. injection E as -> _. exfalso. apply N. cbn. auto.
Qed.
Print Assumptions C60_unknown_refuted.
Example C60_unknown_case : match read (str "generations: 3
angle: 45
scale: 3
axiom: A
A -> B2 B
B -> C") with Ok s => productionsOf s = [(Word (str "A"), [(1%N, [Word (str "B")])])] | _ => False end.
Proof. vm_compute. reflexivity. Qed.

(** A comment behind a production takes the end of the line with it: the next line becomes a part of this production, its arrow becomes two rules. *)
Theorem C60_comment_refuted : forall T (one : T) numeral number rank w t l r p rs g c w2 t2 g3 rs2 u, goodDouble numeral number -> classOrder rank ->
  systemText one numeral w t -> wlines w = l ++ [(r, p, rs)] -> cgap g -> ~ In 10%N c -> wordText w2 t2 -> cgap g3 -> rulesText rs2 u -> exists sys,
  parseLsystem one rank number (t ++ g ++ str "#" ++ c ++ feed ++ t2 ++ g3 ++ str "->" ++ u) = Ok sys /\
  means (mkWritten (wgens w) (wangle w) (wscale w) (waxiom w) (l ++ [(r, p, rs ++ [Word w2; TurnRight; ScaleUp] ++ rs2)])) rank sys.
Proof.
  intros T one numeral number rank w t l r p rs g c w2 t2 g3 rs2 u G C H El Cg Cc W2 G3 U.
  assert (Cg' : cgap (g ++ str "#" ++ c ++ feed)).
  { apply cgap_app; [exact Cg|]. rewrite <- (app_nil_r feed). exact (cgap_comment c [] Cc cgap_nil). }
  assert (U' : rulesText ([Word w2; TurnRight; ScaleUp] ++ rs2) ((g ++ str "#" ++ c ++ feed) ++ t2 ++ (g3 ++ str "-" ++ ([] ++ str ">" ++ u)))).
  { cbn [app]. apply rules_cons; [exact Cg'|right; exists w2; auto| |].
    - apply rules_cons; [exact G3|left; unfold symbols; cbn; tauto| |discriminate]. apply (rules_cons [] ScaleUp); [constructor|left; unfold symbols; cbn; tauto|exact U|discriminate].
    - intros ? _. apply cgap_letter; [exact G3|]. change (str "-") with [45%N]. cbn. unfold letter. lia. }
  assert (S : ~ startsLetter ((g ++ str "#" ++ c ++ feed) ++ t2 ++ (g3 ++ str "-" ++ ([] ++ str ">" ++ u)))).
  { rewrite <- app_assoc. apply cgap_letter; [exact Cg|]. change (str "#") with [35%N]. cbn. unfold letter. lia. }
  destruct H as (t1 & t2' & t3 & g1 & ta & g' & tl & E1 & E2 & E3 & G1 & N & A & G' & L & ->). rewrite El in L. apply (lines_grow one numeral l r p rs tl _ _ L U') in S as L'.
  destruct (C60_understood_partial T one numeral number rank (mkWritten (wgens w) (wangle w) (wscale w) (waxiom w) (l ++ [(r, p, rs ++ [Word w2; TurnRight; ScaleUp] ++ rs2)]))
    (t1 ++ t2' ++ t3 ++ g1 ++ str "axiom:" ++ ta ++ g' ++ feed ++ (tl ++ (g ++ str "#" ++ c ++ feed) ++ t2 ++ (g3 ++ str "-" ++ ([] ++ str ">" ++ u)))) [] G C) as (sys & E & M).
  - exists t1, t2', t3, g1, ta, g', (tl ++ (g ++ str "#" ++ c ++ feed) ++ t2 ++ (g3 ++ str "-" ++ ([] ++ str ">" ++ u))). cbn [wgens wangle wscale waxiom wlines]. auto 12.
  - exact tail_nil.
  - exists sys. split; [|exact M]. rewrite <- E. f_equal. rewrite app_nil_r, <- !app_assoc. reflexivity.
Qed.
Print Assumptions C60_comment_refuted.
Example C60_comment_case : match read (str "generations: 3
angle: 45
scale: 3
axiom: A
A -> B # the first
B -> C") with Ok s => productionsOf s = [(Word (str "A"), [(1%N, [Word (str "B"); Word (str "B"); TurnRight; ScaleUp; Word (str "C")])])] | _ => False end.
Proof. vm_compute. reflexivity. Qed.

(** A comment behind the axiom makes the first production a part of the axiom if there is another production, and is reported otherwise;
    one behind a number of the head is reported. *)
Theorem C60_head_comment_refuted :
  (match read (str "generations: 3
angle: 45
scale: 3
axiom: A # begin
A -> B
B -> C") with Ok s => axiomOf s = [Word (str "A"); Word (str "A"); TurnRight; ScaleUp; Word (str "B")] /\ List.length (productionsOf s) = 1%nat | _ => False end) /\
  read (str "generations: 3
angle: 45
scale: 3
axiom: A # begin
A -> B") = Throw DomainError /\
  read (str "generations: 3 # three
angle: 45
scale: 3
axiom: A
A -> B") = Throw DomainError.
Proof. vm_compute. repeat split. Qed.
Print Assumptions C60_head_comment_refuted.

(** A name which begins with F or G is read as a step and another name. *)
Theorem C60_names_refuted : forall T (one : T) numeral number rank gens angle scale ls t1 t2 t3 tl w t c r, goodDouble numeral number -> classOrder rank ->
  entryText (integer gens) (str "generations:") t1 -> entryText (numeral angle) (str "angle:") t2 -> entryText (numeral scale) (str "scale:") t3 -> linesText one numeral ls tl ->
  In ([c], r) symbols -> wordText w t -> exists sys, parseLsystem one rank number (t1 ++ t2 ++ t3 ++ str "axiom:" ++ (c :: t) ++ feed ++ tl) = Ok sys /\ axiomOf sys = [r; Word w].
Proof.
  intros T one numeral number rank gens angle scale ls t1 t2 t3 tl w t c r G C E1 E2 E3 L I W.
  assert (A : rulesText [r; Word w] (c :: t)).
  { change (c :: t) with ([] ++ [c] ++ t). constructor; [constructor|left; exact I| |].
    - rewrite <- (app_nil_r t). change (rulesText [Word w] ([] ++ t ++ [])). constructor; [constructor|right; exists w; auto|constructor|auto].
    - intros x ->. exfalso. unfold symbols in I. cbn [In] in I. repeat (destruct I as [I|I]; [discriminate|]). destruct I. }
  destruct (C60_understood_partial T one numeral number rank (mkWritten gens angle scale [r; Word w] ls) (t1 ++ t2 ++ t3 ++ [] ++ str "axiom:" ++ (c :: t) ++ [] ++ feed ++ tl) [] G C) as (sys & E & M).
  - exists t1, t2, t3, [], (c :: t), [], tl. cbn [wgens wangle wscale waxiom wlines]. split; [exact E1|]. split; [exact E2|]. split; [exact E3|]. split; [constructor|]. split; [discriminate|]. split; [exact A|]. split; [constructor|]. auto.
  - exact tail_nil.
  - exists sys. rewrite app_nil_r in E. split; [exact E|]. apply M.
Qed.
Print Assumptions C60_names_refuted.
Example C60_names_case : match read (str "generations: 3
angle: 45
scale: 3
axiom: Garden
Garden -> cone") with Ok s => False | Throw e => e = DomainError | UB => False end /\ match read (str "generations: 3
angle: 45
scale: 3
axiom: Garden
arden -> cone") with Ok s => axiomOf s = [Jump; Word (str "arden")] | _ => False end.
Proof. vm_compute. repeat split. Qed.

(** Tabulators, an empty line below the axiom and carriage returns are reported; so is a head on one line. *)
Theorem C60_blanks_refuted :
  read (str "generations: 3
angle: 45
scale: 3
axiom: A

A -> B") = Throw DomainError /\
  read (str "generations: 3
angle: 45
scale: 3
axiom:" ++ [9%N] ++ str "A
A -> B") = Throw DomainError /\
  read (str "generations: 3
angle: 45
scale: 3
axiom: A" ++ [13; 10]%N ++ str "A -> B") = Throw DomainError /\
  read (str "generations: 3 angle: 45 scale: 3
axiom: A
A -> B") = Throw DomainError.
Proof. vm_compute. repeat split. Qed.
Print Assumptions C60_blanks_refuted.

(** The number of generations may be negative. *)
Example C60_negative_case : match read (str "generations: -3
angle: 45
scale: 3
axiom: A
A -> B") with Ok s => generationsOf s = (-3)%Z | _ => False end.
Proof. vm_compute. reflexivity. Qed.
