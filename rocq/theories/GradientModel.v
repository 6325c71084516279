(** Models of isGradient, parseGradient and the table of colors of core/src/utils/GradientUtils.cpp with the regular
    expression of line 242, and of addGradient and getGradient of core/src/mapcss/StyleProvider.cpp.  A regular expression
    is the function from a text to what may be left behind a match, in the order in which an ECMAScript matcher tries:
    the first is the match std::regex finds.  Classes of characters are those of the locale C.  Doubles are exact
    rationals. *)
From Coq Require Import QArith String.
From Verif Require Import Base Bytes Peg JsonModel StyleModel ColorModel.
Local Open Scope nat_scope.

(** * Regular expressions, as far as GradientUtils.cpp:242 uses them *)

(** A part of the expression (GradientUtils.cpp:242): the texts left behind its matches at the beginning of a text. *)
Definition matcher : Type := bytes -> list bytes.
(** A class of characters, e.g. [0-9] (GradientUtils.cpp:242). *)
Definition mchar (f : N -> bool) : matcher := fun s =>
  match s with c :: s' => if f c then [s'] else [] | [] => [] end.
(** One part behind another (GradientUtils.cpp:242). *)
Definition mseq (a b : matcher) : matcher := fun s => flat_map b (a s).
(** a|b (GradientUtils.cpp:242). *)
Definition malt (a b : matcher) : matcher := fun s => a s ++ b s.
(** a? (GradientUtils.cpp:242). *)
Definition mopt (a : matcher) : matcher := fun s => a s ++ [s].
(** A text, e.g. rgb (GradientUtils.cpp:242). *)
Fixpoint mlit (l : bytes) : matcher := fun s =>
  match l with [] => [s] | c :: l' => mseq (mchar (N.eqb c)) (mlit l') s end.
(** a{n} (GradientUtils.cpp:242). *)
Fixpoint mtimes (n : nat) (a : matcher) : matcher := fun s =>
  match n with O => [s] | S n' => mseq a (mtimes n' a) s end.
(** a{0,n} (GradientUtils.cpp:242): more before less. *)
Fixpoint mupto (n : nat) (a : matcher) : matcher := fun s =>
  match n with O => [s] | S n' => mseq a (mupto n' a) s ++ [s] end.
(** a{n,m} (GradientUtils.cpp:242). *)
Definition mrange (n m : nat) (a : matcher) : matcher := mseq (mtimes n a) (mupto (m - n) a).
(** a* or, if not [greedy], a*? (GradientUtils.cpp:242).  The fuel is enough if a match of [a] is not empty
    (GradientProofs.many_fuel). *)
Fixpoint many (greedy : bool) (a : matcher) (fuel : nat) : matcher := fun s =>
  match fuel with
  | O => []
  | S f => let more := mseq a (many greedy a f) s in if greedy then more ++ [s] else s :: more
  end.
(** a* and a*? (GradientUtils.cpp:242). *)
Definition mstar (greedy : bool) (a : matcher) : matcher := fun s => many greedy a (S (length s)) s.
(** a+ and a+? (GradientUtils.cpp:242). *)
Definition mplus (greedy : bool) (a : matcher) : matcher := mseq a (mstar greedy a).

(** [0-9] of GradientUtils.cpp:242. *)
Definition isDigit (c : N) : bool := (N.leb 48 c && N.leb c 57)%bool.
(** [a-zA-Z] of GradientUtils.cpp:242. *)
Definition isLetter (c : N) : bool := ((N.leb 97 c && N.leb c 122) || (N.leb 65 c && N.leb c 90))%bool.
(** [0-9a-fA-F] of GradientUtils.cpp:242. *)
Definition isHex (c : N) : bool := (isDigit c || (N.leb 97 c && N.leb c 102) || (N.leb 65 c && N.leb c 70))%bool.
(** [%|px] of GradientUtils.cpp:242: four characters. *)
Definition isUnit (c : N) : bool := (N.eqb c 37 || N.eqb c 124 || N.eqb c 112 || N.eqb c 120)%bool.
(** [ 0-9.%,] of GradientUtils.cpp:242. *)
Definition isArg (c : N) : bool := (N.eqb c 32 || isDigit c || N.eqb c 46 || N.eqb c 37 || N.eqb c 44)%bool.

(** rgb ?\([ 0-9.%,]+?\) of GradientUtils.cpp:242. *)
Definition reRgb : matcher :=
  mseq (mlit (str "rgb")) (mseq (mopt (mlit [32%N])) (mseq (mlit [40%N]) (mseq (mplus false (mchar isArg)) (mlit [41%N])))).
(** #[0-9a-fA-F]{3,6} of GradientUtils.cpp:242. *)
Definition reHex : matcher := mseq (mlit [35%N]) (mrange 3 6 (mchar isHex)).
(** #[0-9a-fA-F]{3,6}\s[0-9]{1,3}[%|px] of GradientUtils.cpp:242. *)
Definition reHexTime : matcher :=
  mseq reHex (mseq (mchar isSpace) (mseq (mrange 1 3 (mchar isDigit)) (mchar isUnit))).
(** ([a-zA-Z]+){1}(\s[0-9]{1,3}\s*[%|px]?)? of GradientUtils.cpp:242. *)
Definition reName : matcher :=
  mseq (mplus true (mchar isLetter))
       (mopt (mseq (mchar isSpace) (mseq (mrange 1 3 (mchar isDigit)) (mseq (mstar true (mchar isSpace)) (mopt (mchar isUnit)))))).
(** GradientUtils.cpp:240-242, gradientRegEx. *)
Definition gradientRegEx : matcher := malt reRgb (malt reHexTime (malt reHex reName)).

(** The first match in a text and what is behind it, as std::sregex_iterator (GradientUtils.cpp:246-249) looks for it. *)
Fixpoint search (s : bytes) : option (bytes * bytes) :=
  match gradientRegEx s with
  | r :: _ => Some (firstn (length s - length r) s, r)
  | [] => match s with [] => None | _ :: s' => search s' end
  end.
(** The matches from begin to end (GradientUtils.cpp:255); [None] is exhausted fuel. *)
Fixpoint allMatches (fuel : nat) (s : bytes) : option (list bytes) :=
  match fuel with
  | O => None
  | S f => match search s with
           | None => Some []
           | Some (m, r) => option_map (cons m) (allMatches f r)
           end
  end.

(** std::getline with a blank (GradientUtils.cpp:260) until it fails. *)
Fixpoint pieces (s : bytes) : list bytes :=
  match s with
  | [] => []
  | c :: s' => if N.eqb c 32 then [] :: pieces s'
               else match pieces s' with [] => [[c]] | p :: ps => (c :: p) :: ps end
  end.

(** A number in digits (CoreUtils.hpp:46). *)
Definition decimalValue (s : bytes) : Z := fold_left (fun n c => n * 10 + (Z.of_N c - 48))%Z s 0%Z.
(** boost::lexical_cast<double> (CoreUtils.hpp:45-47) of a text of digits, dots and other characters which no number has
    (GradientUtils.cpp:242 lets no sign and no letter through). *)
Definition castDouble (s : bytes) : option Q :=
  let '(a, r) := spanOf isDigit s in
  match r with
  | [] => match a with [] => None | _ => Some (inject_Z (decimalValue a)) end
  | c :: b =>
      if (N.eqb c 46 && forallb isDigit b && negb (beqb (a ++ b) []))%bool
      then Some (inject_Z (decimalValue a) + inject_Z (decimalValue b) / inject_Z (10 ^ Z.of_nat (length b)))%Q
      else None
  end.

(** GradientUtils.cpp:260-268 from the second part on; boost::bad_lexical_cast is InvalidArgument here. *)
Fixpoint timesOf (ps : list bytes) (t : Q) : outcome Q :=
  match ps with
  | [] => Ok t
  | p :: ps' => match castDouble (removelast p) with
                | Some v => timesOf ps' (v / 100)%Q
                | None => Throw InvalidArgument
                end
  end.

(** A line of the table (GradientUtils.cpp:12-186). *)
Definition named (name : string) (r g b : Z) : bytes * color := (str name, colorOf r g b 255).
(** GradientUtils.cpp:10-187, colorMap. *)
Definition colorMap : list (bytes * color) :=
  [named "activeborder" 180 180 180; named "activecaption" 153 180 209; named "activecaptiontext" 0 0 0;
   named "appworkspace" 171 171 171; named "control" 240 240 240; named "controldark" 160 160 160;
   named "controldarkdark" 105 105 105; named "controllight" 227 227 227; named "controllightlight" 255 255 255;
   named "controltext" 0 0 0; named "desktop" 0 0 0; named "graytext" 109 109 109;
   named "highlight" 51 153 255; named "highlighttext" 255 255 255; named "hottrack" 0 102 204;
   named "inactiveborder" 244 247 252; named "inactivecaption" 191 205 219; named "inactivecaptiontext" 0 0 0;
   named "info" 255 255 225; named "infotext" 0 0 0; named "menu" 240 240 240;
   named "menutext" 0 0 0; named "scrollbar" 200 200 200; named "window" 255 255 255;
   named "windowframe" 100 100 100; named "windowtext" 0 0 0; named "transparent" 255 255 255;
   named "aliceblue" 240 248 255; named "antiquewhite" 250 235 215; named "aqua" 0 255 255;
   named "aquamarine" 127 255 212; named "azure" 240 255 255; named "beige" 245 245 220;
   named "bisque" 255 228 196; named "black" 0 0 0; named "blanchedalmond" 255 235 205;
   named "blue" 0 0 255; named "blueviolet" 138 43 226; named "brown" 165 42 42;
   named "burlywood" 222 184 135; named "cadetblue" 95 158 160; named "chartreuse" 127 255 0;
   named "chocolate" 210 105 30; named "coral" 255 127 80; named "cornflowerblue" 100 149 237;
   named "cornsilk" 255 248 220; named "crimson" 220 20 60; named "cyan" 0 255 255;
   named "darkblue" 0 0 139; named "darkcyan" 0 139 139; named "darkgoldenrod" 184 134 11;
   named "darkgray" 169 169 169; named "darkgreen" 0 100 0; named "darkkhaki" 189 183 107;
   named "darkmagenta" 139 0 139; named "darkolivegreen" 85 107 47; named "darkorange" 255 140 0;
   named "darkorchid" 153 50 204; named "darkred" 139 0 0; named "darksalmon" 233 150 122;
   named "darkseagreen" 143 188 139; named "darkslateblue" 72 61 139; named "darkslategray" 47 79 79;
   named "darkturquoise" 0 206 209; named "darkviolet" 148 0 211; named "deeppink" 255 20 147;
   named "deepskyblue" 0 191 255; named "dimgray" 105 105 105; named "dodgerblue" 30 144 255;
   named "firebrick" 178 34 34; named "floralwhite" 255 250 240; named "forestgreen" 34 139 34;
   named "fuchsia" 255 0 255; named "gainsboro" 220 220 220; named "ghostwhite" 248 248 255;
   named "gold" 255 215 0; named "goldenrod" 218 165 32; named "gray" 128 128 128;
   named "green" 0 128 0; named "greenyellow" 173 255 47; named "honeydew" 240 255 240;
   named "hotpink" 255 105 180; named "indianred" 205 92 92; named "indigo" 75 0 130;
   named "ivory" 255 255 240; named "khaki" 240 230 140; named "lavender" 230 230 250;
   named "lavenderblush" 255 240 245; named "lawngreen" 124 252 0; named "lemonchiffon" 255 250 205;
   named "lightblue" 173 216 230; named "lightcoral" 240 128 128; named "lightcyan" 224 255 255;
   named "lightgoldenrodyellow" 250 250 210; named "lightgray" 211 211 211; named "lightgreen" 144 238 144;
   named "lightpink" 255 182 193; named "lightsalmon" 255 160 122; named "lightseagreen" 32 178 170;
   named "lightskyblue" 135 206 250; named "lightslategray" 119 136 153; named "lightsteelblue" 176 196 222;
   named "lightyellow" 255 255 224; named "lime" 0 255 0; named "limegreen" 50 205 50;
   named "linen" 250 240 230; named "magenta" 255 0 255; named "maroon" 128 0 0;
   named "mediumaquamarine" 102 205 170; named "mediumblue" 0 0 205; named "mediumorchid" 186 85 211;
   named "mediumpurple" 147 112 219; named "mediumseagreen" 60 179 113; named "mediumslateblue" 123 104 238;
   named "mediumspringgreen" 0 250 154; named "mediumturquoise" 72 209 204; named "mediumvioletred" 199 21 133;
   named "midnightblue" 25 25 112; named "mintcream" 245 255 250; named "mistyrose" 255 228 225;
   named "moccasin" 255 228 181; named "navajowhite" 255 222 173; named "navy" 0 0 128;
   named "oldlace" 253 245 230; named "olive" 128 128 0; named "olivedrab" 107 142 35;
   named "orange" 255 165 0; named "orangered" 255 69 0; named "orchid" 218 112 214;
   named "palegoldenrod" 238 232 170; named "palegreen" 152 251 152; named "paleturquoise" 175 238 238;
   named "palevioletred" 219 112 147; named "papayawhip" 255 239 213; named "peachpuff" 255 218 185;
   named "peru" 205 133 63; named "pink" 255 192 203; named "plum" 221 160 221;
   named "powderblue" 176 224 230; named "purple" 128 0 128; named "red" 255 0 0;
   named "rosybrown" 188 143 143; named "royalblue" 65 105 225; named "saddlebrown" 139 69 19;
   named "salmon" 250 128 114; named "sandybrown" 244 164 96; named "seagreen" 46 139 87;
   named "seashell" 255 245 238; named "sienna" 160 82 45; named "silver" 192 192 192;
   named "skyblue" 135 206 235; named "slateblue" 106 90 205; named "slategray" 112 128 144;
   named "snow" 255 250 250; named "springgreen" 0 255 127; named "steelblue" 70 130 180;
   named "tan" 210 180 140; named "teal" 0 128 128; named "thistle" 216 191 216;
   named "tomato" 255 99 71; named "turquoise" 64 224 208; named "violet" 238 130 238;
   named "wheat" 245 222 179; named "white" 255 255 255; named "whitesmoke" 245 245 245;
   named "yellow" 255 255 0; named "yellowgreen" 154 205 50; named "buttonface" 240 240 240;
   named "buttonhighlight" 255 255 255; named "buttonshadow" 160 160 160; named "gradientactivecaption" 185 209 234;
   named "gradientinactivecaption" 215 228 242; named "menubar" 240 240 240; named "menuhighlight" 51 153 255;
   named "grey" 190 190 190].

(** GradientUtils.cpp:256-268: the time and the color of a match; [first] tells whether it is the first one. *)
Definition stopOf (first : bool) (m : bytes) : outcome (Q * color) :=
  let t0 := (if first then 0 else 1)%Q in
  match pieces m with
  | [] => Ok (t0, noColor)
  | p :: ps => bind (parseColor colorMap p) (fun c => bind (timesOf ps t0) (fun t => Ok (t, c)))
  end.
(** GradientUtils.cpp:255-270, the loop over the matches. *)
Fixpoint stopsOf (first : bool) (ms : list bytes) : outcome gradient :=
  match ms with
  | [] => Ok []
  | m :: ms' => bind (stopOf first m) (fun s => bind (stopsOf false ms') (fun l => Ok (s :: l)))
  end.

(** GradientUtils.cpp:245. *)
Definition gradientWord : bytes := str "gradient".
(** GradientUtils.cpp:247: where matching begins. *)
Definition afterWord (s : bytes) : bytes :=
  if beqb (firstn (length gradientWord) s) gradientWord then skipn (length gradientWord) s else s.
(** GradientUtils.cpp:274, the color red. *)
Definition redColor : color := fromName colorMap (str "red").
(** GradientUtils.cpp:244-278, parseGradient.  Fuel is never exhausted (GradientProofs.matches_total). *)
Definition parseGradient (s : bytes) : outcome gradient :=
  match allMatches (S (length (afterWord s))) (afterWord s) with
  | None => UB
  | Some ms => bind (stopsOf true ms) (fun d =>
      match d, s with [], _ :: _ => Ok [(0%Q, redColor)] | _, _ => Ok d end)
  end.

(** GradientUtils.cpp:280-285, isGradient. *)
Definition isGradient (s : bytes) : bool :=
  (beqb (firstn 9 s) (str "gradient(") || match s with c :: _ => N.eqb c 35 | [] => false end
   || match alookup beqb s colorMap with Some _ => true | None => false end)%bool.

(** What StyleProvider.cpp:363-364 does with the value of a declaration besides keeping the gradient. *)
Definition checkDeclaration (v : bytes) : outcome unit :=
  if isGradient v then omap (fun _ => tt) (parseGradient v) else Ok tt.
(** The map gradients of StyleProvider.cpp:388. *)
Definition gradients : Type := list (bytes * gradient).
(** StyleProvider.cpp:377-383, addGradient. *)
Definition addGradient (key : bytes) (m : gradients) : outcome gradients :=
  match alookup beqb key m with
  | Some _ => Ok m
  | None => bind (parseGradient key) (fun d => match d with [] => Ok m | _ => Ok (aset beqb key d m) end)
  end.
(** StyleProvider.cpp:287-298, getGradient. *)
Definition getGradient (key : bytes) (m : gradients) : outcome (gradient * gradients) :=
  match alookup beqb key m with
  | Some d => Ok (d, m)
  | None => bind (parseGradient key) (fun d =>
      match d with [] => Throw MapcssError | _ => Ok (d, aset beqb key d m) end)
  end.
