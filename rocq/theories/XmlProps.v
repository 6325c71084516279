(** C59: what the importer of OSM XML tells is what the document says. *)
From Coq Require Import String.
From Verif Require Import Base Bytes BytesProofs JsonModel Peg PegProofs XmlModel XmlSpec XmlProofs.
Local Open Scope list_scope.
Local Arguments str : simpl never.

(** A number parser as required: digits. *)
Definition wholeNumber (s : bytes) : option (N * bytes) :=
  match spanOf isDigitX s with ([], _) => None | (ds, r) => Some (naturalFrom 0 ds, r) end.
Lemma whole_good : goodNumber (fun v w => natural w v) wholeNumber.
Proof.
  unfold goodNumber, wholeNumber. split.
  - intros s v r. pose proof (span_app isDigitX s) as H. destruct (spanOf isDigitX s) as [ds q]. destruct H as (-> & F & _).
    destruct ds as [|c ds]; [discriminate|]. intros [= <- <-]. exists (c :: ds). split; [reflexivity|]. apply from_natural; [discriminate|exact F].
  - intros v w r D. destruct (natural_from _ _ D) as (N & F & E). rewrite span_all; [|exact F|reflexivity]. destruct w as [|c w]; [congruence|]. now rewrite E.
Qed.
(** The importer with these numbers. *)
Definition run (s : bytes) : list (xevent N) * outcome unit := parseXml 0%N wholeNumber s.
(** A document around some elements. *)
Definition doc (s : bytes) : bytes := str "<?xml version=""1.0""?><osm version=""0.6"">" ++ s ++ str "</osm>".
(** An element which is always told. *)
Definition aNode : bytes := str "<node id=""1"" lat=""2"" lon=""3""/>".

(** Every document as it is meant is told, whatever comes behind it. *)
Theorem C59_document_partial : forall T (zero : T) numeral number es t rest, goodNumber numeral number ->
  cleanText zero numeral es t -> parseXml zero number (t ++ rest) = (es, Ok tt).
Proof. intros T zero numeral number es t rest G H. now apply (document_ok zero numeral). Qed.
Print Assumptions C59_document_partial.
(** A document with everything. *)
Definition aDocument : bytes := str "<?xml version=""1.0"" encoding=""UTF-8""?>
<osm version=""0.6"" generator=""hand"">
 <note>free text</note>
 <bounds minlat=""1"" minlon=""2"" maxlat=""3"" maxlon=""4""/>
 <node id=""1"" visible=""true"" lat=""5"" lon=""6"" user=""me""/>
 <node id=""2"" lat=""7"" lon=""8"" uid=""9""><tag k=""name"" v=""A &amp; B""/></node>
 <way id=""3"" version=""1""><nd ref=""1""/><nd ref=""2""/><tag k=""highway"" v=""path""/></way>
 <relation id=""4""><member type=""way"" ref=""3"" role=""outer""/><member type=""node"" ref=""1"" role=""""/><tag k=""type"" v=""multipolygon""/></relation>
</osm>
<!-- more -->".
Example C59_document_case : run aDocument =
  ([XBounds 1 2 3 4; XNode 1 5 6 []; XNode 2 7 8 [(str "name", str "A &amp; B")]; XWay 3 [1; 2] [(str "highway", str "path")];
    XRelation 4 [(str "w", 3, str "outer"); (str "n", 1, [])] [(str "type", str "multipolygon")]], Ok tt)%N.
Proof. vm_compute. reflexivity. Qed.

(** What is told comes from the text: the parts are found in it, in the order in which they are told. *)
Theorem C59_explained : forall T (zero : T) numeral number es s, goodNumber numeral number -> parseXml zero number s = (es, Ok tt) ->
  exists t a rest, laxText zero numeral es t /\ agap a /\ s = t ++ a ++ str "</osm>" ++ rest.
Proof. intros T zero numeral number es s G H. destruct (parse_inv zero numeral number G s es _ H) as [[E _]|(_ & _ & R)]; [discriminate|exact R]. Qed.
Print Assumptions C59_explained.
Example C59_explained_case : exists es, parseXml 0%N wholeNumber (doc aNode) = (es, Ok tt) /\ List.length es = 1%nat.
Proof. eexists. split; [vm_compute; reflexivity|reflexivity]. Qed.

(** Also when the text is rejected, what has been told until then comes from the text; nothing but an exception happens. *)
Theorem C59_told : forall T (zero : T) numeral number es o s, goodNumber numeral number -> parseXml zero number s = (es, o) ->
  (o = Ok tt \/ o = Throw DomainError) /\ (es = [] \/ exists t rest, laxText zero numeral es t /\ s = t ++ rest).
Proof.
  intros T zero numeral number es o s G H. destruct (parse_inv zero numeral number G s es o H) as [[-> R]|(-> & _ & t & a & rest & L & _ & E)]; [auto|].
  split; [auto|]. right. exists t, (a ++ str "</osm>" ++ rest). auto.
Qed.
Print Assumptions C59_told.
Example C59_told_case : run (doc (aNode ++ str "<broken/>")) = ([XNode 1 2 3 []], Throw DomainError)%N.
Proof. vm_compute. reflexivity. Qed.

(** Exactly these maps can be imported: one bounds at most, then nodes, then ways with nodes, then relations with members. *)
Theorem C59_range : forall T (zero : T) numeral number es, goodNumber numeral number ->
  (exists s, parseXml zero number s = (es, Ok tt)) <-> tellable zero numeral es.
Proof.
  intros T zero numeral number es G. split.
  - intros (s & H). destruct (parse_inv zero numeral number G s es _ H) as [[E _]|(_ & L & t & a & rest & (h & a0 & junk & a' & body & _ & _ & _ & _ & P & _) & _)]; [discriminate|].
    exact (leads_tellable zero numeral es body P L).
  - intros H. destruct (document_exists zero numeral es H) as (t & Ht). exists (t ++ []). now apply (document_ok zero numeral).
Qed.
Print Assumptions C59_range.
Example C59_range_case : tellable 0%N (fun v w => natural w v) [XNode 1 2 3 [(str "a", str "b")]; XWay 2 [1; 1] []]%N.
Proof.
  exists [], [XNode 1 2 3 [(str "a", str "b")]]%N, [XWay 2 [1; 1] []]%N, []. split; [reflexivity|]. split; [cbn; lia|]. split; [constructor|].
  split. { constructor; [|constructor]. do 4 eexists. split; [reflexivity|]. split; [lia|]. split; [apply natural_exists|]. split; [apply natural_exists|].
    constructor; [|constructor]. split; vm_compute; intuition discriminate. }
  split. { constructor; [|constructor]. do 3 eexists. split; [reflexivity|]. split; [lia|]. split; [discriminate|]. split; [repeat constructor; lia|constructor]. }
  split; [constructor|discriminate].
Qed.

(** A document without nodes and bounds is rejected, whatever else it has. *)
Theorem C59_nodeless_refuted : forall T (zero : T) numeral number s, goodNumber numeral number -> noFirst s ->
  snd (parseXml zero number s) = Throw DomainError.
Proof.
  intros T zero numeral number s G N. destruct (parseXml zero number s) as [es o] eqn:H. cbn [snd].
  destruct (parse_inv zero numeral number G s es o H) as [[-> _]|(_ & L & t & a & rest & (h & a0 & junk & a' & body & _ & _ & _ & _ & P & ->) & _ & E)]; [reflexivity|]. exfalso.
  destruct P as (eb & tb & en & tn & ew & tw & er & tr & Hb & Hn & Hw & Hr & -> & ->). rewrite <- !app_assoc in E. destruct Hb as [[-> ->]|(e & -> & Hb)].
  - cbn [app] in *. destruct Hn as [|g e t l u Hg Ht _].
    + cbn [app] in L. destruct Hw as [|g e t l u Hg Ht _]; [destruct Hr as [|g e t l u Hg Ht _]|]; [exact L|destruct Ht as (? & ? & ? & -> & _); exact L|destruct Ht as (? & ? & ? & -> & _); exact L].
    + apply (node_some numeral) in Ht as (r & ->). destruct (N (h ++ a0 ++ junk ++ a' ++ g) (r ++ u ++ tw ++ tr ++ a ++ str "</osm>" ++ rest)) as [N1 _].
      apply N1. rewrite E. now rewrite <- !app_assoc.
  - apply (bounds_some zero numeral) in Hb as (r & ->). destruct (N (h ++ a0 ++ junk ++ a') (r ++ tn ++ tw ++ tr ++ a ++ str "</osm>" ++ rest)) as [_ N2].
    apply N2. rewrite E. now rewrite <- !app_assoc.
Qed.
Print Assumptions C59_nodeless_refuted.
Example C59_nodeless_case : run (doc (str "<relation id=""4""><member type=""way"" ref=""3"" role=""outer""/></relation>")) = ([], Throw DomainError).
Proof. vm_compute. reflexivity. Qed.

(** Ways and relations which stand before the first node are lost without notice; behind it, a node which follows a way
    makes the document fail. *)
Theorem C59_order_refuted : let way := str "<way id=""9""><nd ref=""1""/></way>" in
  run (doc (aNode ++ way)) = ([XNode 1 2 3 []; XWay 9 [1] []], Ok tt)%N /\
  run (doc (way ++ aNode)) = ([XNode 1 2 3 []], Ok tt)%N /\
  run (doc (aNode ++ way ++ aNode)) = ([XNode 1 2 3 []; XWay 9 [1] []], Throw DomainError)%N /\
  run (doc (aNode ++ str "<way id=""9""><tag k=""a"" v=""b""/><nd ref=""1""/></way>")) = ([XNode 1 2 3 []], Throw DomainError)%N.
Proof. vm_compute. repeat split. Qed.
Print Assumptions C59_order_refuted.

(** Ways without nodes and relations without members, as they come in change files, make the document fail. *)
Theorem C59_empty_refuted :
  run (doc (aNode ++ str "<way id=""9""><tag k=""a"" v=""b""/></way>")) = ([XNode 1 2 3 []], Throw DomainError)%N /\
  run (doc (aNode ++ str "<way id=""9""/>")) = ([XNode 1 2 3 []], Throw DomainError)%N /\
  run (doc (aNode ++ str "<relation id=""9""><tag k=""a"" v=""b""/></relation>")) = ([XNode 1 2 3 []], Throw DomainError)%N.
Proof. vm_compute. repeat split. Qed.
Print Assumptions C59_empty_refuted.

(** Attributes: an empty value, a name with a colon or an underscore, another order of the known ones, apostrophes and
    the negative identifiers of editors make the document fail. *)
Theorem C59_attributes_refuted :
  run (doc (str "<node id=""1"" lat=""2"" lon=""3"" user=""a""/>")) = ([XNode 1 2 3 []], Ok tt)%N /\
  run (doc (str "<node id=""1"" lat=""2"" lon=""3"" user=""""/>")) = ([], Throw DomainError) /\
  run (doc (str "<node id=""1"" lat=""2"" lon=""3"" x_y=""a""/>")) = ([], Throw DomainError) /\
  run (doc (str "<node id=""1"" lon=""3"" lat=""2""/>")) = ([], Throw DomainError) /\
  run (doc (str "<node lat=""2"" lon=""3"" id=""1""/>")) = ([], Throw DomainError) /\
  run (doc (str "<node id='1' lat='2' lon='3'/>")) = ([], Throw DomainError) /\
  run (doc (str "<node id=""-1"" lat=""2"" lon=""3""/>")) = ([], Throw DomainError) /\
  run (doc (str "<bounds minlat=""1"" minlon=""2"" maxlat=""3"" maxlon=""4"" origin=""x""/>" ++ aNode)) = ([], Throw DomainError).
Proof. vm_compute. repeat split. Qed.
Print Assumptions C59_attributes_refuted.

(** The numbers of bounds which are left out count as zero. *)
Theorem C59_bounds_refuted : run (doc (str "<bounds maxlat=""3"" minlat=""1""/>")) = ([XBounds 1 0 3 0], Ok tt)%N.
Proof. vm_compute. reflexivity. Qed.
Print Assumptions C59_bounds_refuted.

(** Entities are not decoded: the value for A & B comes out as it is written. *)
Theorem C59_entities_refuted : forall T (zero : T) numeral number es, goodNumber numeral number ->
  (exists s, parseXml zero number s = (es, Ok tt)) -> forall id lat lon ts k v, In (XNode id lat lon ts) es -> In (k, v) ts -> ~ In 34%N v.
Proof.
  intros T zero numeral number es G H id lat lon ts k v I It. apply (C59_range T zero numeral number es G) in H as (eb & en & ew & er & -> & _ & Fb & Fn & Fw & Fr & _).
  apply in_app_iff in I as [I|I]; [|apply in_app_iff in I as [I|I]; [|apply in_app_iff in I as [I|I]]].
  - rewrite Forall_forall in Fb. apply Fb in I as (? & ? & ? & ? & E & _). discriminate.
  - rewrite Forall_forall in Fn. apply Fn in I as (? & ? & ? & ? & E & _ & _ & _ & Gt). injection E as _ _ _ <-. unfold goodTags in Gt. rewrite Forall_forall in Gt. now apply Gt in It as [_ U].
  - rewrite Forall_forall in Fw. apply Fw in I as (? & ? & ? & E & _). discriminate.
  - rewrite Forall_forall in Fr. apply Fr in I as (? & ? & ? & E & _). discriminate.
Qed.
Print Assumptions C59_entities_refuted.
Example C59_entities_case : run (doc (str "<node id=""1"" lat=""2"" lon=""3""><tag k=""n"" v=""5&quot; pipe""/></node>"))
  = ([XNode 1 2 3 [(str "n", str "5&quot; pipe")]], Ok tt)%N.
Proof. vm_compute. reflexivity. Qed.

(** Members of an unknown type become relations. *)
Theorem C59_members_refuted :
  run (doc (aNode ++ str "<relation id=""9""><member type=""nod"" ref=""1"" role=""""/></relation>")) = ([XNode 1 2 3 []; XRelation 9 [(str "r", 1, [])] []], Ok tt)%N.
Proof. vm_compute. reflexivity. Qed.
Print Assumptions C59_members_refuted.
