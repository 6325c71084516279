(** C61: a texture atlas has the groups and regions of its text. *)
From Coq Require Import String.
From Verif Require Import Base Bytes BytesProofs JsonModel Peg PegProofs StyleModel LsysParseModel XmlModel XmlSpec XmlProofs LsysParseSpec LsysParseProofs AtlasModel AtlasSpec AtlasProofs.
Local Open Scope list_scope.
Local Arguments str : simpl never.

(** A conversion which takes the low bits of whatever it gets. *)
Definition lowBits (z : Z) : outcome N := Ok (cast16 z).
Lemma lowBits_good : goodConvert lowBits.
Proof. intros z H. unfold lowBits, cast16. now rewrite Z.mod_small. Qed.

(** An atlas of numbers which fit is read as it is written, whatever comes behind which is not another region;
    the conversion of the default rectangle must give something. *)
Theorem C61_read_partial : forall convert a t s x y, goodConvert convert -> convert doubleMax = Ok x -> convert (- doubleMax)%Z = Ok y ->
  atlasText a t -> restText s -> Forall regionFits (wregions a) ->
  exists at', parseAtlas convert (t ++ s) = Ok at' /\ aindex at' = Z.to_N (wid a mod 65536) /\
    forall n, atlasGet at' n = match named n (wregions a) with [] => emptyGroup | rs => map (exactRegion a) rs end.
Proof.
  intros convert a t s x y G X Y T R F. unfold parseAtlas. rewrite (atlas_ok a t s T R). destruct (addRegions_ok convert a (wregions a) [] G F) as (m & M). rewrite M. cbn [bind].
  unfold emptyRegionOf. rewrite X, Y. cbn [bind]. eexists. split; [reflexivity|]. split; [reflexivity|]. intros n. unfold atlasGet. cbn [agroups].
  destruct (addRegions_inv convert a _ _ _ M n) as (gs & F2 & ->). cbn [alookup].
  assert (E : gs = map (exactRegion a) (named n (wregions a))).
  { assert (Fn : Forall regionFits (named n (wregions a))) by (apply Forall_forall; intros r I; apply filter_In in I as [I _]; rewrite Forall_forall in F; auto).
    clear - F2 Fn G. induction F2 as [|r g rs gs C _ IH]; [reflexivity|]. inversion Fn; subst. cbn. f_equal; [now apply (converted_exact convert)|auto]. }
  subst gs. destruct (named n (wregions a)); reflexivity.
Qed.
Print Assumptions C61_read_partial.
(** An atlas with a group of two regions. *)
Definition anAtlas : bytes := str "1, 512, 256
brick, 0, 0, 128, 64
brick, 128, 0, 128, 64
flat roof, 0, 64, 32, 32
".
Example C61_read_case : match parseAtlas lowBits anAtlas with
  | Ok at' => aindex at' = 1%N /\ atlasGet at' (str "brick") = [(512, 256, 0, 0, 128, 64); (512, 256, 128, 0, 128, 64)]%N /\
      atlasGet at' (str "flat roof") = [(512, 256, 0, 64, 32, 32)]%N /\ atlasGet at' (str "glass") = emptyGroup
  | _ => False end.
Proof. vm_compute. repeat split. Qed.

(** What is read is written in the text, with every number converted. *)
Theorem C61_explained : forall convert s at', parseAtlas convert s = Ok at' ->
  exists a t r, atlasText a t /\ restText r /\ s = t ++ r /\ aindex at' = Z.to_N (wid a mod 65536) /\
    forall n, exists gs, Forall2 (converted convert a) (named n (wregions a)) gs /\ atlasGet at' n = match gs with [] => emptyGroup | _ => gs end.
Proof.
  intros convert s at' H. unfold parseAtlas in H. destruct (patlas s) as [| |a r] eqn:E; try discriminate. destruct (atlas_inv s a r E) as (t & T & R & ->).
  destruct (addRegions convert a (wregions a) []) as [m| |] eqn:M; cbn [bind] in H; try discriminate. destruct (emptyRegionOf convert); cbn [bind] in H; try discriminate. injection H as <-.
  exists a, t, r. split; [exact T|]. split; [exact R|]. split; [reflexivity|]. split; [reflexivity|]. intros n. destruct (addRegions_inv convert a _ _ _ M n) as (gs & F & E'). exists gs. split; [exact F|].
  unfold atlasGet. cbn [agroups]. rewrite E'. cbn [alookup]. destruct gs; reflexivity.
Qed.
Print Assumptions C61_explained.
Example C61_explained_case : exists at', parseAtlas lowBits anAtlas = Ok at'.
Proof. eexists. vm_compute. reflexivity. Qed.

(** A text which is no atlas is reported, and nothing else is. *)
Theorem C61_told : forall convert s, (forall z e, convert z <> Throw e) ->
  (parseAtlas convert s = Throw MapcssError <-> ~ exists a t r, atlasText a t /\ restText r /\ s = t ++ r).
Proof.
  intros convert s C. unfold parseAtlas. split.
  - intros H (a & t & r & T & R & ->). rewrite (atlas_ok a t r T R) in H. revert H. unfold emptyRegionOf.
    assert (X : forall m e, addRegions convert a (wregions a) m <> Throw e).
    { clear T. induction (wregions a) as [|q rs IH]; intros m e; cbn [addRegions]; [discriminate|]. unfold addRegion, intSum. destruct (_ && _)%bool; [|discriminate]. cbn [bind]. destruct (_ && _)%bool; [|discriminate]. cbn [bind].
      unfold regionOf. repeat (match goal with |- context[bind (convert ?z) _] => pose proof (C z) as Cz; destruct (convert z) as [?|e'|]; [clear Cz; cbn [bind]|now specialize (Cz e')|discriminate] end). apply IH. }
    specialize (X []). destruct (addRegions convert a (wregions a) []) as [m|e|]; [|now specialize (X e)|discriminate]. cbn [bind].
    pose proof (C doubleMax) as C1. pose proof (C (- doubleMax)%Z) as C2. destruct (convert doubleMax) as [p|e|]; [|now specialize (C1 e)|discriminate]. cbn [bind].
    destruct (convert (- doubleMax)%Z) as [q|e|]; [discriminate|now specialize (C2 e)|discriminate].
  - intros H. destruct (patlas s) as [| |a r] eqn:E; [reflexivity|reflexivity|]. exfalso. apply H. destruct (atlas_inv s a r E) as (t & T & R & Es). exists a, t, r. auto.
Qed.
Print Assumptions C61_told.
Example C61_told_case : parseAtlas lowBits (str "1,512,256") = Throw MapcssError /\ (forall z e, lowBits z <> Throw e).
Proof. split; [vm_compute; reflexivity|discriminate]. Qed.

(** Choosing from any group of such an atlas gives a region written for it, or the empty one. *)
Theorem C61_random : forall convert a t s x y n seed, goodConvert convert -> convert doubleMax = Ok x -> convert (- doubleMax)%Z = Ok y ->
  atlasText a t -> restText s -> Forall regionFits (wregions a) ->
  exists at' g, parseAtlas convert (t ++ s) = Ok at' /\ randomRegion (atlasGet at' n) seed = Ok g /\
    ((exists r, In r (wregions a) /\ wname r = n /\ g = exactRegion a r) \/ ((forall r, In r (wregions a) -> wname r <> n) /\ g = (0, 0, 0, 0, 0, 0)%N)).
Proof.
  intros convert a t s x y n seed G X Y T R F. destruct (C61_read_partial convert a t s x y G X Y T R F) as (at' & E & _ & M). exists at'. specialize (M n).
  assert (Nn : forall r, In r (named n (wregions a)) -> In r (wregions a) /\ wname r = n).
  { intros r I. apply filter_In in I as [I H]. split; [exact I|]. destruct (list_eq_dec N.eq_dec (wname r) n); [assumption|discriminate]. }
  destruct (named n (wregions a)) as [|r0 rs] eqn:Er.
  - rewrite M. exists (0, 0, 0, 0, 0, 0)%N. split; [exact E|]. split.
    + unfold randomRegion, emptyGroup. cbn [length]. change (N.of_nat 1) with 1%N. rewrite N.mod_1_r. reflexivity.
    + right. split; [|reflexivity]. intros r I Hn. assert (I' : In r (named n (wregions a))) by (apply filter_In; split; [exact I|]; destruct (list_eq_dec N.eq_dec (wname r) n); [reflexivity|contradiction]).
      rewrite Er in I'. exact I'.
  - rewrite M. set (l := map (exactRegion a) (r0 :: rs)). assert (Il : In (nth (N.to_nat (seed mod N.of_nat (length l))) l (exactRegion a r0)) l).
    { apply nth_In. assert (length l <> 0)%nat by discriminate. assert (seed mod N.of_nat (length l) < N.of_nat (length l))%N by (apply N.mod_lt; lia). lia. }
    exists (nth (N.to_nat (seed mod N.of_nat (length l))) l (exactRegion a r0)). split; [exact E|]. split; [reflexivity|]. left. apply in_map_iff in Il as (r & Eg & I). destruct (Nn r I) as [I1 I2]. exists r. auto.
Qed.
Print Assumptions C61_random.
Example C61_random_case : match parseAtlas lowBits anAtlas with Ok at' => randomRegion (atlasGet at' (str "brick")) 7 = Ok (512, 256, 128, 0, 128, 64)%N | _ => False end.
Proof. vm_compute. reflexivity. Qed.

(** ** What is not as one expects *)
(** By the standard no atlas can be made at all: its empty group is made from the largest double, which does not fit 16 bits. *)
Theorem C61_default_refuted : forall s at', parseAtlas strict16 s <> Ok at'.
Proof.
  intros s at'. unfold parseAtlas. destruct (patlas s) as [| |a r]; [discriminate|discriminate|]. destruct (addRegions strict16 a (wregions a) []); cbn [bind]; [|discriminate|discriminate].
  unfold emptyRegionOf, strict16. change ((0 <=? doubleMax) && (doubleMax <? 65536))%Z with false. discriminate.
Qed.
Print Assumptions C61_default_refuted.
Example C61_default_case : parseAtlas strict16 anAtlas = UB.
Proof. vm_compute. reflexivity. Qed.

(** Without a comma behind the last region the rest is dropped without a word. *)
Theorem C61_rest_refuted : forall convert a t s, atlasText a t -> ~ startsDigit s -> ~ In 44%N s -> parseAtlas convert (t ++ s) = parseAtlas convert t.
Proof.
  intros convert a t s T D N. assert (R : forall q, ~ startsDigit q -> ~ In 44%N q -> restText q).
  { intros q Dq Nq. split; [exact Dq|]. intros (b & r & t' & q' & _ & (t1 & t2 & t3 & t4 & _ & (b1 & w & _ & _ & ->) & _ & _ & _ & ->) & _ & ->). apply Nq. rewrite !in_app_iff. right. left. right. left. left. vm_compute. now left. }
  unfold parseAtlas. rewrite (atlas_ok a t s T (R s D N)). rewrite <- (app_nil_r t) at 1. rewrite (atlas_ok a t [] T (R [] (fun x => x) (fun x => x))). reflexivity.
Qed.
Print Assumptions C61_rest_refuted.
Example C61_rest_case : match parseAtlas lowBits (str "1,512,256
brick,0,0,128,64
glass 0 64 32 32
") with Ok at' => atlasGet at' (str "glass") = emptyGroup | _ => False end.
Proof. vm_compute. reflexivity. Qed.

(** So is everything behind a line with one number missing: its name becomes a part of what follows. *)
Theorem C61_broken_refuted :
  match parseAtlas lowBits (str "1,512,256
brick,0,0,128,64
glass,0,64,32
stone,0,96,32,32
") with Ok at' => atlasGet at' (str "glass") = emptyGroup /\ atlasGet at' (str "stone") = emptyGroup | _ => False end.
Proof. vm_compute. repeat split. Qed.
Print Assumptions C61_broken_refuted.

(** A comment or a title in front of a line, and blanks behind a name, belong to the name. *)
Theorem C61_names_refuted :
  match parseAtlas lowBits (str "1,512,256
# walls
brick,0,0,128,64
glass ,0,64,32,32
") with Ok at' => atlasGet at' (str "brick") = emptyGroup /\ atlasGet at' (str "glass") = emptyGroup /\ atlasGet at' (str "# walls
brick") = [(512, 256, 0, 0, 128, 64)]%N | _ => False end.
Proof. vm_compute. repeat split. Qed.
Print Assumptions C61_names_refuted.

(** Sizes and indices are cut to 16 bits: an atlas of width 65536 is taken for no texture. *)
Theorem C61_wide_refuted : forall convert a t s at' n g, atlasText a t -> restText s -> (wwide a mod 65536 = 0)%Z -> parseAtlas convert (t ++ s) = Ok at' -> In g (atlasGet at' n) ->
  fst (fst (fst (fst (fst g)))) = 0%N.
Proof.
  intros convert a t s at' n g T R W H I. unfold parseAtlas in H. rewrite (atlas_ok a t s T R) in H. destruct (addRegions convert a (wregions a) []) as [m| |] eqn:M; cbn [bind] in H; try discriminate.
  destruct (emptyRegionOf convert); cbn [bind] in H; try discriminate. injection H as <-. destruct (addRegions_inv convert a _ _ _ M n) as (gs & F & E). unfold atlasGet in I. cbn [agroups] in I. rewrite E in I. cbn [alookup] in I.
  destruct gs as [|g0 gs]; [destruct I as [<-|[]]; reflexivity|]. clear E M. revert F I. generalize (g0 :: gs), (named n (wregions a)). intros l rs F I. induction F as [|r q rs l C _ IH]; [destruct I|].
  destruct I as [->|I]; [|auto]. destruct C as (x & y & w & h & _ & _ & _ & _ & ->). cbn. now rewrite W.
Qed.
Print Assumptions C61_wide_refuted.
Example C61_wide_case : match parseAtlas lowBits (str "65537,65536,256
brick,0,0,128,64") with Ok at' => aindex at' = 1%N /\ atlasGet at' (str "brick") = [(0, 256, 0, 0, 128, 64)]%N | _ => False end.
Proof. vm_compute. repeat split. Qed.

(** An atlas with a region which ends beyond the largest int is undefined, however numbers are converted. *)
Theorem C61_overflow_refuted : forall convert a t s r, (forall z e, convert z <> Throw e) -> atlasText a t -> restText s -> In r (wregions a) ->
  (2147483647 < wleft r + wwidth r)%Z -> parseAtlas convert (t ++ s) = UB.
Proof.
  intros convert a t s r C T R I H. unfold parseAtlas. rewrite (atlas_ok a t s T R). assert (X : addRegions convert a (wregions a) [] = UB); [|now rewrite X].
  clear T R. generalize (@nil (bytes * textureGroup)). induction (wregions a) as [|q rs IH]; intros m; [destruct I|]. cbn [addRegions]. unfold addRegion, intSum.
  destruct (Z.leb_spec (wleft q + wwidth q) 2147483647); [|rewrite Bool.andb_false_r; reflexivity].
  destruct ((-2147483648 <=? wleft q + wwidth q)%Z); [|reflexivity]. cbn [andb bind]. destruct ((-2147483648 <=? wtop q + wheight q) && _)%Z%bool; [|reflexivity]. cbn [bind]. unfold regionOf.
  repeat (match goal with |- context[bind (convert ?z) _] => pose proof (C z) as Cz; destruct (convert z) as [?|e'|]; [clear Cz; cbn [bind]|now specialize (Cz e')|reflexivity] end).
  apply IH. destruct I as [->|I]; [lia|exact I].
Qed.
Print Assumptions C61_overflow_refuted.
Example C61_overflow_case : parseAtlas lowBits (str "1,512,256
brick,2147483647,0,1,64") = UB.
Proof. vm_compute. reflexivity. Qed.
