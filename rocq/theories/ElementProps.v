(** Properties C05, C06 and C43: elements in the data file. *)
From Verif Require Import Base Bytes StreamModel ElementModel ElementSpec ElementProofs.

(** Reading back what was written gives the same element and leaves exactly the bytes that
    follow, if and only if all lists in the element have at most 65535 entries. *)
Theorem C05_element_roundtrip :
  forall (e : element) (rest : bytes),
    wfElement e -> Forall (fun b => b < 256)%N rest ->
    (read (write e ++ rest) (eid e) = Some (Ok (e, mkStream rest false)) <-> fitsElement e).
Proof. exact roundtrip_iff. Qed.
Print Assumptions C05_element_roundtrip.

(** What becomes of a way of any length: only the first [n mod 65536] coordinates are read,
    the other ones are left in the stream. *)
Theorem C05_long_way_is_cut :
  forall i t cs rest,
    wfElement (Way i t cs) -> fits t ->
    let n := N.to_nat (N.of_nat (length cs) mod 65536) in
    read (write (Way i t cs) ++ rest) i
    = Some (Ok (Way i t (firstn n cs), mkStream (flat_map writeCoord (skipn n cs) ++ rest) false)).
Proof. exact read_way_truncated. Qed.
Print Assumptions C05_long_way_is_cut.

Definition exampleElement : element :=
  Relation 7 [mkTag 1 2; mkTag 3 4294967295]
    [Node 18446744073709551615 [] (mkCoord 4632233691727265792 1);
     Relation 0 [mkTag 5 6] [Way 9 [] [mkCoord 3 4; mkCoord 5 6]; Area 10 [mkTag 8 8] [mkCoord 13 32]];
     Relation 1 [] []].

Example C05_example :
  wfElement exampleElement /\ fitsElement exampleElement /\
  read (write exampleElement ++ [1; 2]%N) 7 = Some (Ok (exampleElement, mkStream [1; 2]%N false)).
Proof.
  split; [|split]; [| |vm_compute; reflexivity];
    cbn; unfold wfTag, wfCoord, fits; cbn; repeat (split || constructor); cbn; try lia; intros H; discriminate H.
Qed.

(** A way of 65536 coordinates exists and is read back as a way without coordinates. *)
Example C05_long_way_example :
  exists cs, N.of_nat (length cs) = 65536%N /\ wfElement (Way 1 [] cs) /\
    read (write (Way 1 [] cs) ++ []) 1 = Some (Ok (Way 1 [] [], mkStream (flat_map writeCoord cs ++ []) false)).
Proof.
  exists (repeat (mkCoord 0 0) (N.to_nat 65536)).
  assert (L : N.of_nat (length (repeat (mkCoord 0 0) (N.to_nat 65536))) = 65536%N)
    by (rewrite repeat_length, N2Nat.id; reflexivity).
  assert (W : wfElement (Way 1 [] (repeat (mkCoord 0 0) (N.to_nat 65536)))).
  { split; [reflexivity|]. split; [constructor|]. apply Forall_forall. intros c Hc.
    apply repeat_spec in Hc. subst c. split; reflexivity. }
  split; [exact L|]. split; [exact W|].
  rewrite (C05_long_way_is_cut 1 [] _ [] W) by (unfold fits; cbn; lia).
  rewrite L. reflexivity.
Qed.

(** Records written one after another are read back as that sequence, from whatever offset
    the first one starts at; the bytes after the last one are untouched. *)
Theorem C06_elements_self_delimiting :
  forall (pre : bytes) (es : list element) (rest : bytes),
    Forall wfElement es -> Forall fitsElement es ->
    readSeq (map eid es) (skipn (length pre) (pre ++ flat_map write es ++ rest)) = Some (Ok (es, rest)).
Proof.
  intros pre es rest Hw Hf. rewrite BytesProofs.skipn_app_exact by reflexivity. exact (readSeq_write es rest Hw Hf).
Qed.
Print Assumptions C06_elements_self_delimiting.

(** The type byte: 4 and above is an error unless it is whitespace, which is skipped. *)
Theorem C06_unknown_type :
  forall b bs id, (3 < b)%N ->
    (isSpace b = false -> read (b :: bs) id = Some (Throw DomainError)) /\
    (isSpace b = true -> read (b :: bs) id = read bs id).
Proof. intros b bs id H. split; intros Hs; [exact (read_unknown b bs id H Hs)|exact (read_space b bs id Hs)]. Qed.
Print Assumptions C06_unknown_type.

(** The reader always comes to an end, whatever the bytes are. *)
Theorem C06_reader_terminates : forall bs id, read bs id <> None.
Proof. exact read_total. Qed.
Print Assumptions C06_reader_terminates.

Example C06_example :
  let es := [Way 9 [mkTag 10 13] [mkCoord 3 4]; Node 2 [] (mkCoord 10 10); exampleElement] in
  Forall fitsElement es /\
  readSeq (map eid es) (skipn 3 ([255; 255; 255]%N ++ flat_map write es ++ [77]%N)) = Some (Ok (es, [77]%N)) /\
  read (77 :: write exampleElement)%N 3 = Some (Throw DomainError) /\
  read (10 :: 32 :: write (Node 2 [] (mkCoord 10 10)))%N 2
  = Some (Ok (Node 2 [] (mkCoord 10 10), mkStream [] false)).
Proof.
  split; [|vm_compute; auto].
  unfold fits; repeat constructor; cbn; unfold fits; cbn; intros H; discriminate H.
Qed.

(** A node, way or area record that ends early is never reported: it is read as some
    element, whatever the position of the cut (after the type byte). *)
Theorem C43_cut_record_accepted :
  forall (e : element) (p : nat),
    match e with Relation _ _ _ => False | _ => True end ->
    1 <= p -> exists e' s, read (firstn p (write e)) (eid e) = Some (Ok (e', s)).
Proof. exact read_cut. Qed.
Print Assumptions C43_cut_record_accepted.

(** Examples: a node losing its last byte comes back with another longitude; a node cut
    after the tags comes back at infinity; a relation cut inside its last member likewise;
    a relation cut before a member reads an indeterminate value. *)
Example C43_example :
  let b := write (Node 1 [mkTag 5 6] (mkCoord 1 4632233691727265792)) in
  let r := write (Relation 1 [] [Node 2 [] (mkCoord 1 2); Node 3 [] (mkCoord 1 2)]) in
  length b = 27 /\
  read (firstn 26 b) 1 = Some (Ok (Node 1 [mkTag 5 6] (mkCoord 1 9171862116116725760), mkStream [] true)) /\
  read (firstn 11 b) 1
  = Some (Ok (Node 1 [mkTag 5 6] (mkCoord 9218868437227405312 9218868437227405312), mkStream [] true)) /\
  read (firstn 43 r) 1
  = Some (Ok (Relation 1 [] [Node 2 [] (mkCoord 1 2);
                             Node 3 [] (mkCoord 9218868437227405312 9218868437227405312)], mkStream [] true)) /\
  read (firstn 32 r) 1 = Some UB.
Proof. vm_compute. auto. Qed.
