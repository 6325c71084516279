(** What the text of a stylesheet means, independent of the parser. *)
From Coq Require Import String.
From Verif Require Import Base Bytes StyleModel JsonModel.
Local Open Scope list_scope.

(** ** Blanks and comments *)
Definition blank (c : N) : Prop := (c = 32 \/ 9 <= c <= 13)%N.
(** [close] occurs in [body ++ close] at the end only. *)
Definition endsFirst (close body : bytes) : Prop := forall a b, body ++ close = a ++ close ++ b -> b = [].
Inductive gap : bytes -> Prop :=
| gap_nil : gap []
| gap_blank c g : blank c -> gap g -> gap (c :: g)
| gap_star body g : endsFirst (str "*/") body -> gap g -> gap (str "/*" ++ body ++ str "*/" ++ g)
| gap_html body g : endsFirst (str "-->") body -> gap g -> gap (str "<!--" ++ body ++ str "-->" ++ g).
(** Begins with a blank or like a comment. *)
Definition opens (w : bytes) : Prop :=
  (exists c r, w = c :: r /\ blank c) \/ (exists r, w = str "/*" ++ r) \/ (exists r, w = str "<!--" ++ r).

(** ** Lists *)
Section Lists.
  Context {A : Type} (T : A -> bytes -> Prop).
  (** Separated by commas. *)
  Inductive sepText : list A -> bytes -> Prop :=
  | sep_one a t : T a t -> sepText [a] t
  | sep_more a t g1 g2 l u : T a t -> gap g1 -> gap g2 -> sepText l u ->
      sepText (a :: l) (t ++ g1 ++ str "," ++ g2 ++ u).
  (** One behind the other. *)
  Inductive manyText : list A -> bytes -> Prop :=
  | many_nil : manyText [] []
  | many_cons g a t l u : gap g -> T a t -> manyText l u -> manyText (a :: l) (g ++ t ++ u).
End Lists.

(** ** Numbers *)
Inductive decimal : bytes -> Z -> Prop :=
| dec_one d : (d <= 9)%N -> decimal [(48 + d)%N] (Z.of_N d)
| dec_more ds v d : decimal ds v -> (d <= 9)%N -> decimal (ds ++ [(48 + d)%N]) (10 * v + Z.of_N d)%Z.

(** ** Selectors, rules and sheets, over the texts of conditions, levels and declarations *)
Definition nameText (n t : bytes) : Prop := n = t /\ In n [sNode; sWay; sArea; sRelation].
Definition same (w n t : bytes) : Prop := n = w /\ t = w.

Section Sheets.
  Variable condT : condition -> bytes -> Prop.
  Variable zoomT : zoom -> bytes -> Prop.
  Variable declT : declaration -> bytes -> Prop.
  Variable urlT : bytes -> Prop.
  (** What may be left at the end of an imported file. *)
  Variable leftT : bytes -> Prop.
  (** The files, and what the other parsers make of them. *)
  Variable file : bytes -> option bytes.
  Variable atlasOf : bytes -> outcome atlas.
  Variable lsystemOf : bytes -> outcome N.
  Variable directory : bytes.

  Inductive selText : selector -> bytes -> Prop :=
  | sel_named ns nt g z zt cs ct : sepText nameText ns nt -> gap g -> zoomT z zt -> cs <> [] -> manyText condT cs ct ->
      selText (mkSelector ns z cs) (nt ++ g ++ zt ++ ct)
  | sel_canvas ns t nt g z zt : manyText (same sCanvas) ns nt -> gap g -> zoomT z zt -> t = sCanvas ++ nt ++ g ++ zt ->
      selText (mkSelector (sCanvas :: ns) z []) t
  | sel_element ns t nt g z zt g' c ct : manyText (same sElement) ns nt -> gap g -> zoomT z zt -> gap g' -> condT c ct ->
      t = sElement ++ nt ++ g ++ zt ++ g' ++ ct -> selText (mkSelector (sElement :: ns) z [c]) t.

  Inductive ruleText : rule -> bytes -> Prop :=
  | rule_text ss st g1 ds dt g2 : sepText selText ss st -> gap g1 -> ds <> [] -> manyText declT ds dt -> gap g2 ->
      ruleText (mkRule ss ds) (st ++ g1 ++ str "{" ++ dt ++ g2 ++ str "}").

  Definition quoted (what url : bytes) (g1 : bytes) : bytes :=
    what ++ str " url(" ++ [34%N] ++ g1 ++ url ++ [34%N] ++ str ");".

  (** The name of a file without directories and extension. *)
  Definition stemOf (url name : bytes) : Prop :=
    exists dir ext, url = dir ++ name ++ ext /\
      (dir = [] \/ exists d, dir = d ++ [47%N] \/ dir = d ++ [92%N]) /\
      ~ In 47%N (name ++ ext) /\ ~ In 92%N (name ++ ext) /\
      ((ext = [] /\ ~ In 46%N name) \/ exists e, ext = 46%N :: e /\ ~ In 46%N e).

  (** A text, the rules it contributes, the textures and the named L-systems. *)
  Inductive written : bytes -> list rule -> list atlas -> list (bytes * N) -> Prop :=
  | w_end : written [] [] [] []
  | w_rule g r t u rs ts ls : gap g -> ruleText r t -> written u rs ts ls -> written (g ++ t ++ u) (r :: rs) ts ls
  | w_import g g1 url t left rs1 ts1 ls1 u rs ts ls :
      gap g -> gap g1 -> urlT url ->
      match file (directory ++ url) with Some c => c | None => [] end = t ++ left -> leftT left ->
      written t rs1 ts1 ls1 -> written u rs ts ls ->
      written (g ++ quoted (str "@import") url g1 ++ u) (rs1 ++ rs) (ts1 ++ ts) (ls1 ++ ls)
  | w_texture g g1 url c a u rs ts ls :
      gap g -> gap g1 -> urlT url -> file (directory ++ url) = Some c -> atlasOf c = Ok a ->
      written u rs ts ls ->
      written (g ++ quoted (str "@texture") url g1 ++ u) rs (a :: ts) ls
  | w_lsystem g g1 url c name l u rs ts ls :
      gap g -> gap g1 -> urlT url -> file (directory ++ url) = Some c -> lsystemOf c = Ok l -> stemOf url name ->
      written u rs ts ls ->
      written (g ++ quoted (str "@lsystem") url g1 ++ u) rs ts ((name, l) :: ls).
End Sheets.

(** ** The intended texts *)
Definition cleanWord (bad : list N) (w : bytes) : Prop :=
  w <> [] /\ Forall (fun c => (c < 128)%N /\ ~ In c bad) w /\ ~ opens w.
(** Neither ], =, <, > nor ! inside. *)
Definition keyBad : list N := [93; 61; 60; 62; 33]%N.
Definition operator (o : bytes) : Prop := In o [sEq; sNe; sLt; sGt].
Inductive cleanCond : condition -> bytes -> Prop :=
| cc_has g k : gap g -> cleanWord keyBad k -> cleanCond (mkCondition k [] []) (str "[" ++ g ++ k ++ str "]")
| cc_op g k o g' v : gap g -> cleanWord keyBad k -> operator o -> gap g' -> cleanWord keyBad v ->
    cleanCond (mkCondition k o v) (str "[" ++ g ++ k ++ o ++ g' ++ v ++ str "]").
Inductive cleanZoom : zoom -> bytes -> Prop :=
| cz_one g ds a : gap g -> decimal ds (Z.of_N a) -> (a <= 255)%N -> cleanZoom (mkZoom a a) (str "|z" ++ g ++ ds)
| cz_two g ds a g1 g2 es b : gap g -> decimal ds (Z.of_N a) -> (a <= 255)%N -> gap g1 -> gap g2 ->
    decimal es (Z.of_N b) -> (b <= 255)%N ->
    cleanZoom (mkZoom a b) (str "|z" ++ g ++ ds ++ g1 ++ str "-" ++ g2 ++ es).
(** Neither : nor } in the key; no ; in the value. *)
Definition cleanDecl (d : declaration) (t : bytes) : Prop :=
  exists g, gap g /\ cleanWord [58; 125]%N (dkey d) /\ cleanWord [59]%N (dvalue d) /\
    t = dkey d ++ str ":" ++ g ++ dvalue d ++ str ";".
Definition cleanUrl (u : bytes) : Prop := cleanWord [34]%N u.
Definition cleanWritten := written cleanCond cleanZoom cleanDecl cleanUrl gap.

(** ** All accepted texts *)
Definition laxWord (bad : list N) (w : bytes) : Prop := w <> [] /\ Forall (fun c => (c < 128)%N /\ ~ In c bad) w.
Definition keyBad' : list N := [93; 61; 60; 62]%N.
Definition laxCond (c : condition) (t : bytes) : Prop :=
  exists g g1 g2 g3, gap g /\ gap g1 /\ gap g2 /\ gap g3 /\ laxWord keyBad' (ckey c) /\
    (coperation c = [] \/ operator (coperation c)) /\ (cvalue c = [] \/ laxWord keyBad' (cvalue c)) /\
    t = str "[" ++ g ++ ckey c ++ g1 ++ coperation c ++ g2 ++ cvalue c ++ g3 ++ str "]".
(** A number with a sign, and the level it becomes. *)
Definition laxLevel (l : N) (t : bytes) : Prop :=
  exists ds v w, decimal ds v /\ (t = ds /\ w = v \/ t = 43%N :: ds /\ w = v \/ t = 45%N :: ds /\ w = - v)%Z /\
    (- 2 ^ 31 <= w < 2 ^ 31)%Z /\ l = Z.to_N (w mod 256).
Inductive laxZoom : zoom -> bytes -> Prop :=
| lz_one g a t g1 dash : gap g -> laxLevel a t -> gap g1 -> (dash = [] \/ dash = g1 ++ str "-") ->
    laxZoom (mkZoom a a) (str "|z" ++ g ++ t ++ dash)
| lz_two g a t g1 dash g2 b u : gap g -> laxLevel a t -> gap g1 -> (dash = [] \/ dash = g1 ++ str "-") -> gap g2 ->
    laxLevel b u -> laxZoom (mkZoom a b) (str "|z" ++ g ++ t ++ dash ++ g2 ++ u).
Definition laxDecl (d : declaration) (t : bytes) : Prop :=
  exists g, gap g /\ laxWord [58; 125]%N (dkey d) /\ laxWord [59]%N (dvalue d) /\
    t = dkey d ++ str ":" ++ g ++ dvalue d ++ str ";".
Definition laxUrl (u : bytes) : Prop := laxWord [34]%N u.
Definition laxWritten := written laxCond laxZoom laxDecl laxUrl (fun _ => True).

(** ** What ends a stylesheet without notice *)
Definition keywords : list bytes :=
  [sNode; sWay; sArea; sRelation; sCanvas; sElement; str "@import url(" ++ [34%N]; str "@texture url(" ++ [34%N];
   str "@lsystem url(" ++ [34%N]].
(** Text which begins with none of the keywords. *)
Definition noKeyword (s : bytes) : Prop := ~ opens s /\ forall k r, In k keywords -> s <> k ++ r.
(** A selector which names a kind of element and goes on with neither a comma nor a level. *)
Definition misspelt (s : bytes) : Prop :=
  exists n r, nameText n n /\ s = n ++ r /\ ~ opens r /\ (forall q, r <> str "," ++ q) /\ (forall q, r <> str "|z" ++ q).
(** A selector without a condition. *)
Definition unconditioned (s : bytes) : Prop :=
  exists ns nt g z zt c r, sepText nameText ns nt /\ gap g /\ cleanZoom z zt /\ s = nt ++ g ++ zt ++ c :: r /\
    ~ opens (c :: r) /\ ~ (48 <= c <= 57)%N /\ ~ In c [43; 45; 91]%N.
Definition unnoticed (s : bytes) : Prop := noKeyword s \/ misspelt s \/ unconditioned s.

(** ** What is reported: a rule which begins well and goes wrong *)
Definition header (st : bytes) : Prop := exists ss, sepText (selText cleanCond cleanZoom) ss st.
Inductive broken : bytes -> Prop :=
| br_header st g x : header st -> gap g -> ~ opens x ->
    match x with [] => True | c :: _ => ~ (48 <= c <= 57)%N /\ ~ In c [43; 45; 91; 44; 123]%N end ->
    broken (st ++ g ++ x)  (* neither a brace nor a comma behind the selectors *)
| br_empty st g g1 x : header st -> gap g -> gap g1 ->
    broken (st ++ g ++ str "{" ++ g1 ++ str "}" ++ x)  (* no declarations *)
| br_open st g ds dt g1 : header st -> gap g -> manyText cleanDecl ds dt -> gap g1 ->
    broken (st ++ g ++ str "{" ++ dt ++ g1)  (* no closing brace *)
| br_value st g ds dt g1 k g2 v : header st -> gap g -> manyText cleanDecl ds dt -> gap g1 -> cleanWord [58; 125]%N k -> gap g2 ->
    cleanWord [59]%N v -> broken (st ++ g ++ str "{" ++ dt ++ g1 ++ k ++ str ":" ++ g2 ++ v)  (* no semicolon *)
| br_level w g x : In w [sCanvas; sElement] -> gap g -> ~ opens x -> (forall q, x <> w ++ q) -> (forall q, x <> str "|z" ++ q) ->
    broken (w ++ g ++ x)  (* no level *)
| br_cond ns nt g z zt g1 g2 x : sepText nameText ns nt -> gap g -> cleanZoom z zt -> gap g1 -> gap g2 ->
    broken (nt ++ g ++ zt ++ g1 ++ str "[" ++ g2 ++ str "]" ++ x).  (* an empty condition *)
