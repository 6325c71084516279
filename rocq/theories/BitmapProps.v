(** Properties C08, C09 and C44: the text index, its file, and adding after loading. *)
From Verif Require Import Base Bytes BytesProofs StreamModel EwahModel EwahSpec EwahWitness BitmapModel BitmapSpec BitmapProofs BitmapWitness.
From Coq Require Import NArith Sorted.
Local Open Scope N_scope.

(** ** C09 *)

(** For documents added in order the search lists, ascending and once each, exactly the documents
    [matches] asks for.  (With not-terms the tile must have at most 1048544 elements, because the
    symmetric difference is wrong beyond, C10_xor_refuted, C09_many_refuted.) *)
Theorem C09_search_partial :
  forall getId ds q,
    injectiveOn getId (usedBy ds q) -> N.of_nat (length ds) <= 2 ^ 32 ->
    ((exists t, wordOf (notTerms q) t) -> N.of_nat (length ds) <= 1048544) ->
    exists m l, addDocs getId 0 ds [] = Done m /\ searchTile getId q m = Done l /\ answers ds q l.
Proof. exact search_correct. Qed.
Print Assumptions C09_search_partial.

(** The terms of a string are its words. *)
Theorem C09_terms : forall s t, In t (tokens [] s) <-> wordOf s t.
Proof. intros s t. apply (tokens_spec s [] t). constructor. Qed.
Print Assumptions C09_terms.

(** Beyond that number the claim is false, whatever the ids: in a tile of 2^20 elements, all with the word street and every 32nd
    with the word lamp, a search for street without lamp tells an element with lamp and leaves out one without. *)
Theorem C09_many_refuted :
  forall getId, getId streetWord <> getId lampWord ->
  exists ds q m l, N.of_nat (length ds) = 1048576 /\ addDocs getId 0 ds [] = Done m /\ searchTile getId q m = Done l /\
    (exists p d, In p l /\ nth_error ds (N.to_nat p) = Some d /\ hasSome d (notTerms q)) /\
    (exists p d, nth_error ds (N.to_nat p) = Some d /\ matches ds q d /\ ~ In p l).
Proof.
  intros getId D. destruct (big_search getId D) as (m & l & E & S & I & O). exists bigTile, noLamp, m, l.
  assert (W1 : forall s t, wordOf s t <-> In t (tokens [] s)) by (intros s t; symmetry; apply C09_terms).
  split; [unfold bigTile; rewrite blocks_length; unfold wN; lia|]. split; [exact E|]. split; [exact S|].
  assert (B : (wN < Datatypes.S wN)%nat) by lia. split.
  - exists (32 * 32767), lampDoc. split; [exact I|]. split.
    + replace (N.to_nat (32 * 32767)) with (32 * wN + 0)%nat by (unfold wN; lia). apply blocks_nth; [exact B|reflexivity].
    + exists lampWord. split; [apply W1; left; reflexivity|]. exists streetWord, lampWord. split; [left; reflexivity|]. right. apply W1. left. reflexivity.
  - exists (32 * 32767 + 1), plainDoc. split; [|split; [|exact O]].
    + replace (N.to_nat (32 * 32767 + 1)) with (32 * wN + 1)%nat by (unfold wN; lia). apply blocks_nth; [exact B|reflexivity].
    + split; [|split].
      * intros t T. apply W1 in T. destruct T as [<-|[]]. exists streetWord, []. split; [left; reflexivity|]. left. apply W1. left. reflexivity.
      * intros (t & T & k & v & K & H). apply W1 in T. destruct T as [<-|[]]. destruct K as [K|[]]. injection K as <- <-.
        destruct H as [H|H]; apply W1 in H; [destruct H as [H|[]]; discriminate H|destruct H].
      * left. split; [exists streetWord; apply W1; left; reflexivity|]. intros d' _ (t & T & _). apply W1 in T. destruct T.
Qed.
Print Assumptions C09_many_refuted.

(** ** C08 *)

(** A non-empty index is read back with every bitmap's contents and size; the value of the
    uninitialised key variable does not matter. *)
Theorem C08_file_roundtrip :
  forall m junk, fileable m -> m <> [] -> junk < 2 ^ 32 ->
    exists m', readMap junk (Some (writeMap m)) = Done m' /\
      map fst m' = map fst m /\
      forall k, option_map (fun c => (buf c, bits c)) (find k m') = option_map (fun c => (buf c, bits c)) (find k m).
Proof.
  intros m junk F H J. exists (reloadMap m). split; [apply readMap_write; auto|]. split; [apply reload_keys|].
  intros k. rewrite find_reload. destruct (find k m); reflexivity.
Qed.
Print Assumptions C08_file_roundtrip.

(** Every query has the same answer before and after. *)
Theorem C08_search_after_load :
  forall getId ds junk, (forall d t, In d ds -> hasTerm d t -> getId t < 2 ^ 32) ->
    N.of_nat (length ds) <= 2 ^ 32 -> junk < 2 ^ 32 -> (exists d t, In d ds /\ hasTerm d t) ->
    exists m m', addDocs getId 0 ds [] = Done m /\ readMap junk (Some (writeMap m)) = Done m' /\
      forall q, searchTile getId q m' = searchTile getId q m.
Proof. exact reload_search. Qed.
Print Assumptions C08_search_after_load.

(** An empty or missing file (a tile's first use) yields not the empty index but one entry under an
    arbitrary id, whose bitmap has no buffer. *)
Theorem C08_empty_file :
  forall junk, junk < 2 ^ 32 ->
    readMap junk (Some (writeMap [])) = Done [(junk, mkEwah [] 0 0)] /\
    readMap junk None = Done [(junk, mkEwah [] 0 0)].
Proof. intros junk H. destruct (readMap_none junk H). auto. Qed.
Print Assumptions C08_empty_file.

(** Reading ends for every file. *)
Theorem C08_read_ends : forall junk file, exists m, readMap junk file = Done m.
Proof. exact readMap_total. Qed.
Print Assumptions C08_read_ends.

(** ** C44 *)

(** Adding to a loaded index of at most 32 elements is right; beyond that it may not be (below), because
    loading does not restore the position of a bitmap's last marker. *)
Theorem C44_add_after_load_partial :
  forall getId ds1 ds2 q junk,
    injectiveOn getId (usedBy (ds1 ++ ds2) q) -> (forall d t, In d ds1 -> hasTerm d t -> getId t < 2 ^ 32) ->
    N.of_nat (length ds1) <= 32 -> junk < 2 ^ 32 -> (exists d t, In d ds1 /\ hasTerm d t) ->
    N.of_nat (length (ds1 ++ ds2)) <= 1048544 ->
    exists m m' m2 l, addDocs getId 0 ds1 [] = Done m /\ readMap junk (Some (writeMap m)) = Done m' /\
      addDocs getId (N.of_nat (length ds1)) ds2 m' = Done m2 /\ searchTile getId q m2 = Done l /\ answers (ds1 ++ ds2) q l.
Proof. exact reload_add. Qed.
Print Assumptions C44_add_after_load_partial.

(** A bitmap whose only marker is the first word is loaded unchanged, whatever its size. *)
Theorem C44_single_marker_partial :
  forall m junk, fileable m -> m <> [] -> junk < 2 ^ 32 -> Forall (fun kv => last (snd kv) = 0%nat) m ->
    readMap junk (Some (writeMap m)) = Done m.
Proof. intros m junk F H J S. rewrite readMap_write by auto. rewrite reload_single by auto. reflexivity. Qed.
Print Assumptions C44_single_marker_partial.

(** ** Concrete cases *)
Definition usedWords (ds : list document) (q : query) : list bytes :=
  flat_map (fun d => flat_map (fun kv => tokens [] (fst kv) ++ tokens [] (snd kv)) d) ds ++
  tokens [] (orTerms q) ++ tokens [] (andTerms q) ++ tokens [] (notTerms q).
Lemma usedWords_spec ds q t : usedBy ds q t -> In t (usedWords ds q).
Proof.
  unfold usedBy, usedWords. rewrite !in_app_iff, <- !C09_terms. intros [(d & Hd & k & v & Hk & W)|[W|[W|W]]]; auto.
  left. apply in_flat_map. exists d. split; [auto|]. apply in_flat_map. exists (k, v). split; [auto|]. cbn [fst snd].
  rewrite in_app_iff, !C09_terms. auto.
Qed.
Definition injCheck (getId : bytes -> N) (l : list bytes) : bool :=
  forallb (fun a => forallb (fun b => implb (getId a =? getId b) (beqb a b)) l) l.
Lemma injCheck_spec getId ds q : injCheck getId (usedWords ds q) = true -> injectiveOn getId (usedBy ds q).
Proof.
  intros H a b Ha Hb E. apply usedWords_spec in Ha, Hb. unfold injCheck in H. rewrite forallb_forall in H.
  specialize (H a Ha). rewrite forallb_forall in H. specialize (H b Hb). rewrite E, N.eqb_refl in H. cbn in H.
  apply beqb_eq. auto.
Qed.

Definition ab : bytes := [97; 98].   (* "ab" *)
Definition cd : bytes := [99; 100].  (* "cd" *)
Definition ef : bytes := [101; 102]. (* "ef" *)
(** ab:cd = "ef", ab = "cd cd", ef = "" and no tags; ids are the words read as numbers. *)
Definition exampleDocs : list document :=
  [[(ab ++ [58] ++ cd, ef)]; [(ab, cd ++ [32] ++ cd)]; [(ef, [])]; []].

Example C09_example :
  let q1 := mkQuery ef ab [] in      (* ab and not ef *)
  let q2 := mkQuery [] [] (cd ++ [95] ++ ef) in (* cd or ef *)
  let q3 := mkQuery [] ab [120] in   (* ab, and an or-term that occurs nowhere *)
  injectiveOn unle (usedBy exampleDocs q1) /\
  match addDocs unle 0 exampleDocs [] with
  | Done m => (searchTile unle q1 m, searchTile unle q2 m, searchTile unle q3 m) = (Done [1], Done [0; 1; 2], Done [0; 1])
  | _ => False
  end.
Proof. split; [apply injCheck_spec|]; vm_compute; reflexivity. Qed.

Definition exampleMap : bitmap := [(25185, mkEwah [131072; 3] 2 0); (25699, mkEwah [131072; 3] 2 0); (26213, mkEwah [131072; 5] 3 0)].
Example C08_example :
  addDocs unle 0 exampleDocs [] = Done exampleMap /\ fileable exampleMap /\ readMap 77 (Some (writeMap exampleMap)) = Done exampleMap.
Proof.
  split; [vm_compute; reflexivity|]. split; [|vm_compute; reflexivity]. split.
  - cbn. repeat (constructor; [cbn; intuition discriminate|]). constructor.
  - unfold exampleMap. repeat (apply Forall_cons; [cbn [fst snd bits buf length];
      split; [reflexivity|split; [reflexivity|split; [reflexivity|repeat (apply Forall_cons; [reflexivity|]); apply Forall_nil]]]|]). apply Forall_nil.
Qed.

(** ab at 0 and 64 of 96 elements; saved, loaded, ab added at 96: the answer is 0, 33, 49. *)
Definition sparse : list document := [[(ab, [])]] ++ repeat [] 63 ++ [[(ab, [])]] ++ repeat [] 31.
Theorem C44_add_after_load_refuted :
  exists getId ds1 ds2 q junk m m' m2 l,
    injectiveOn getId (usedBy (ds1 ++ ds2) q) /\ (forall d t, In d ds1 -> hasTerm d t -> getId t < 2 ^ 32) /\
    addDocs getId 0 ds1 [] = Done m /\ readMap junk (Some (writeMap m)) = Done m' /\
    addDocs getId (N.of_nat (length ds1)) ds2 m' = Done m2 /\ searchTile getId q m2 = Done l /\
    ~ answers (ds1 ++ ds2) q l.
Proof.
  exists unle, sparse, [[(ab, [])]], (mkQuery [] ab []), 7.
  do 3 eexists. exists [0; 33; 49].
  split; [apply injCheck_spec; vm_compute; reflexivity|]. split.
  { intros d t Hd Ht. assert (U : usedBy sparse (mkQuery [] [] []) t) by (left; eauto). apply usedWords_spec in U.
    vm_compute in U. destruct U as [<-|[<-|[]]]; reflexivity. }
  split; [vm_compute; reflexivity|]. split; [vm_compute; reflexivity|]. split; [vm_compute; reflexivity|].
  split; [vm_compute; reflexivity|]. intros [_ H]. destruct (proj1 (H 33)) as (d & E & (M & _ & _)); [cbn; auto|].
  assert (D : d = []) by (vm_compute in E; congruence). subst d.
  destruct (M ab) as (k & v & [] & _). apply C09_terms. vm_compute. auto.
Qed.
Print Assumptions C44_add_after_load_refuted.

(** Two elements saved and loaded, then a third: right. *)
Example C44_example :
  let ds1 := [[(ab, cd)]; [(cd, [])]] in let ds2 := [[(ab, ef)]] in
  injectiveOn unle (usedBy (ds1 ++ ds2) (mkQuery cd ab [])) /\
  (match addDocs unle 0 ds1 [] with
   | Done m => match readMap 5 (Some (writeMap m)) with
               | Done m' => match addDocs unle 2 ds2 m' with
                            | Done m2 => searchTile unle (mkQuery cd ab []) m2 | _ => Bad end
               | _ => Bad end
   | _ => Bad end) = Done [2].
Proof. split; [apply injCheck_spec|]; vm_compute; reflexivity. Qed.
