(** Proofs about the choice of a parser (FileModel.v). *)
From Coq Require Import String.
From Verif Require Import Base Bytes StoreModel TileStoreModel JsonModel FileModel FileSpec.
Local Open Scope nat_scope.

Lemma sameFront_spec : forall a b, length a <= length b ->
  exists r, sameFront a b = Ok r /\ (r = true <-> exists t, b = a ++ t).
Proof.
  induction a as [|x a IH]; intros b H.
  - exists true. split; [reflexivity|]. split; [intros _; exists b; reflexivity|reflexivity].
  - destruct b as [|y b]; [cbn in H; lia|]. cbn [sameFront]. destruct (N.eqb_spec x y) as [->|N].
    + destruct (IH b) as (r & E & Hr); [cbn in H; lia|]. exists r. split; [exact E|]. rewrite Hr. split.
      * intros [t ->]. exists t. reflexivity.
      * intros [t Ht]. exists t. cbn in Ht. injection Ht as ->. reflexivity.
    + exists false. split; [reflexivity|]. split; [discriminate|]. intros [t Ht]. cbn in Ht. congruence.
Qed.

Lemma endsWith_spec : forall v e, exists r, endsWith v e = Ok r /\ (r = true <-> endsIn v e).
Proof.
  intros v e. unfold endsWith. destruct (Nat.ltb_spec (length v) (length e)) as [L|L].
  - exists false. split; [reflexivity|]. split; [discriminate|]. intros [p ->]. rewrite app_length in L. lia.
  - destruct (sameFront_spec (rev e) (rev v)) as (r & E & Hr); [rewrite !rev_length; exact L|].
    exists r. split; [exact E|]. rewrite Hr. split.
    + intros [t Ht]. exists (rev t). rewrite <- (rev_involutive v), Ht, rev_app_distr, rev_involutive. reflexivity.
    + intros [p ->]. exists (rev p). apply rev_app_distr.
Qed.

(** Two endings of one text: the last character is the same. *)
Lemma endsIn_last : forall v a b x y, endsIn v (a ++ [x]) -> endsIn v (b ++ [y]) -> x = y.
Proof.
  intros v a b x y [p ->] [q E]. rewrite !app_assoc in E. apply app_inj_tail in E. apply E.
Qed.

Lemma endsIn_tail : forall p s e, length e <= length s -> endsIn (p ++ s) e <-> endsIn s e.
Proof.
  intros p s e L. split.
  - intros [q E]. exists (skipn (length p) q).
    assert (Lq : length p <= length q).
    { apply (f_equal (@length N)) in E. rewrite !app_length in E. lia. }
    apply (f_equal (skipn (length p))) in E. rewrite !skipn_app in E.
    replace (length p - length q) with 0 in E by lia. rewrite skipn_all, Nat.sub_diag in E.
    cbn in E. exact E.
  - intros [q ->]. exists (p ++ q). apply app_assoc.
Qed.

Lemma pbf_xml : forall v, endsIn v (str "pbf") -> endsIn v (str "xml") -> False.
Proof. intros v A B. discriminate (endsIn_last v (str "pb") (str "xm") 102%N 108%N A B). Qed.

Lemma pbf_json : forall v, endsIn v (str "pbf") -> endsIn v (str "json") -> False.
Proof. intros v A B. discriminate (endsIn_last v (str "pb") (str "jso") 102%N 110%N A B). Qed.

Lemma xml_json : forall v, endsIn v (str "xml") -> endsIn v (str "json") -> False.
Proof. intros v A B. discriminate (endsIn_last v (str "xm") (str "jso") 108%N 110%N A B). Qed.

Lemma formatOf_spec : forall path, exists f, formatOf path = Ok f /\
  (f = Pbf <-> endsIn path (str "pbf")) /\ (f = Xml <-> endsIn path (str "xml")) /\
  (f = Json <-> endsIn path (str "json")) /\
  (f = Shape <-> ~ endsIn path (str "pbf") /\ ~ endsIn path (str "xml") /\ ~ endsIn path (str "json")).
Proof.
  intro path. unfold formatOf.
  destruct (endsWith_spec path (str "pbf")) as (p & -> & P).
  destruct (endsWith_spec path (str "xml")) as (x & -> & X).
  destruct (endsWith_spec path (str "json")) as (j & -> & J).
  pose proof (pbf_xml path) as PX. pose proof (pbf_json path) as PJ. pose proof (xml_json path) as XJ.
  cbn [bind]. destruct p, x, j; cbn [bind]; eexists; (split; [reflexivity|]);
    repeat split; intros; try discriminate; try reflexivity; intuition (try discriminate; try congruence).
Qed.

Lemma formatOf_iff : forall path f, formatOf path = Ok f ->
  (f = Pbf <-> endsIn path (str "pbf")) /\ (f = Xml <-> endsIn path (str "xml")) /\
  (f = Json <-> endsIn path (str "json")) /\
  (f = Shape <-> ~ endsIn path (str "pbf") /\ ~ endsIn path (str "xml") /\ ~ endsIn path (str "json")).
Proof. intros path f E. destruct (formatOf_spec path) as (g & G & H). rewrite E in G. injection G as ->. exact H. Qed.

Lemma formatOf_tail : forall p q s, 4 <= length s -> formatOf (p ++ s) = formatOf (q ++ s).
Proof.
  intros p q s L.
  destruct (formatOf_spec (p ++ s)) as (f & -> & A & B & C & D).
  destruct (formatOf_spec (q ++ s)) as (g & -> & A' & B' & C' & D').
  rewrite !endsIn_tail in A, B, C, D, A', B', C', D' by (cbn; lia).
  f_equal. destruct f, g; intuition congruence.
Qed.
