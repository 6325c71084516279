(** The texts of texture atlases which are understood, and what they mean, independent of the parser. *)
From Coq Require Import String.
From Verif Require Import Base Bytes JsonModel StyleModel XmlSpec LsysParseSpec AtlasModel.
Local Open Scope list_scope.

Definition startsDigit (s : bytes) : Prop := match s with [] => False | c :: _ => (48 <= c <= 57)%N end.
(** A comma, blanks and a number. *)
Definition firstField (z : Z) (t : bytes) : Prop := exists b w, blanks b /\ integer z w /\ t = str "," ++ b ++ w.
(** The same behind blanks. *)
Definition field (z : Z) (t : bytes) : Prop := exists b t', blanks b /\ firstField z t' /\ t = b ++ t'.
(** A name: anything of ASCII up to the comma which does not begin with a blank. *)
Definition nameText (n : bytes) : Prop :=
  Forall (fun c => c < 128 /\ c <> 44)%N n /\ match n with [] => False | c :: _ => ~ blank c end.
Definition regionText (r : wregion) (t : bytes) : Prop :=
  exists t1 t2 t3 t4, nameText (wname r) /\ firstField (wleft r) t1 /\ field (wtop r) t2 /\ field (wwidth r) t3 /\ field (wheight r) t4 /\
    t = wname r ++ t1 ++ t2 ++ t3 ++ t4.
(** Regions one behind the other; a number is not followed by a digit. *)
Inductive regionsText : list wregion -> bytes -> Prop :=
| regions_nil : regionsText [] []
| regions_cons b r t rs u : blanks b -> regionText r t -> regionsText rs u -> ~ startsDigit u -> regionsText (r :: rs) (b ++ t ++ u).
Definition atlasText (a : watlas) (t : bytes) : Prop :=
  exists b i t2 t3 u, blanks b /\ integer (wid a) i /\ field (wwide a) t2 /\ field (whigh a) t3 /\ wregions a <> [] /\
    regionsText (wregions a) u /\ ~ startsDigit u /\ t = b ++ i ++ t2 ++ t3 ++ u.
(** What may follow: nothing which begins with another region. *)
Definition restText (s : bytes) : Prop :=
  ~ startsDigit s /\ ~ exists b r t q, blanks b /\ regionText r t /\ ~ startsDigit q /\ s = b ++ t ++ q.

(** ** What it means *)
(** Numbers which fit are converted as they are. *)
Definition goodConvert (convert : Z -> outcome N) : Prop := forall z, (0 <= z < 65536)%Z -> convert z = Ok (Z.to_N z).
Definition fits (z : Z) : Prop := (0 <= z < 65536)%Z.
Definition regionFits (r : wregion) : Prop := fits (wleft r) /\ fits (wtop r) /\ fits (wwidth r) /\ fits (wheight r).
(** The regions of a name in their order. *)
Definition named (n : bytes) (rs : list wregion) : list wregion := List.filter (fun r => if list_eq_dec N.eq_dec (wname r) n then true else false) rs.
(** A region of an atlas of this size. *)
Definition exactRegion (a : watlas) (r : wregion) : region :=
  (Z.to_N (wwide a mod 65536), Z.to_N (whigh a mod 65536), Z.to_N (wleft r), Z.to_N (wtop r), Z.to_N (wwidth r), Z.to_N (wheight r)).
(** A region of an atlas of this size, with the numbers converted in some way. *)
Definition converted (convert : Z -> outcome N) (a : watlas) (r : wregion) (g : region) : Prop :=
  exists x y w h, convert (wleft r) = Ok x /\ convert (wtop r) = Ok y /\ convert (wwidth r) = Ok w /\ convert (wheight r) = Ok h /\
    g = (Z.to_N (wwide a mod 65536), Z.to_N (whigh a mod 65536), x, y, w, h).
