(** Properties C02, C03, C04 and C42: the string table. *)
From Verif Require Import Base Bytes LruModel StringModel StringSpec StringProofs StringTrace.

(** C02: within a good history every two getId calls for the same string get the same id,
    whatever happens in between (other calls, eviction, reopening), for every 32 bit hash
    function and every cache capacity. *)
Theorem C02_string_id_stable :
  forall (hash : bytes -> N), (forall s, (hash s < 4294967296)%N) ->
  forall cap, 1 <= cap ->
  forall calls, goodHistory calls ->
  exists answers, srun hash cap calls = Some answers /\
    forall i j s, nth_error calls i = Some (GetId s) -> nth_error calls j = Some (GetId s) ->
      exists n, nth_error answers i = Some (SId n) /\ nth_error answers j = Some (SId n).
Proof. exact stable. Qed.
Print Assumptions C02_string_id_stable.

(** C03: different strings get different ids, and a string not requested before gets as id
    the number of different strings requested before it. *)
Theorem C03_string_ids_distinct_dense :
  forall (hash : bytes -> N), (forall s, (hash s < 4294967296)%N) ->
  forall cap, 1 <= cap ->
  forall calls, goodHistory calls ->
  exists answers, srun hash cap calls = Some answers /\
    (forall i j s s', nth_error calls i = Some (GetId s) -> nth_error calls j = Some (GetId s') ->
       s <> s' ->
       exists n m, nth_error answers i = Some (SId n) /\ nth_error answers j = Some (SId m) /\ n <> m) /\
    (forall i s, nth_error calls i = Some (GetId s) -> ~ In s (requested (firstn i calls)) ->
       nth_error answers i = Some (SId (N.of_nat (countDistinct (requested (firstn i calls)))))).
Proof. exact distinct_dense. Qed.
Print Assumptions C03_string_ids_distinct_dense.

(** C04, under the condition that no id is looked up before it is allocated. *)
Theorem C04_string_lookup_partial :
  forall (hash : bytes -> N), (forall s, (hash s < 4294967296)%N) ->
  forall cap, 1 <= cap ->
  forall calls, goodHistory calls -> allocatedOnly [] calls ->
  exists answers, srun hash cap calls = Some answers /\
    forall i j s n, i < j -> nth_error calls i = Some (GetId s) -> nth_error answers i = Some (SId n) ->
      nth_error calls j = Some (GetString n) -> nth_error answers j = Some (SStr s).
Proof. exact inverse. Qed.
Print Assumptions C04_string_lookup_partial.

(** C04 without that condition: a lookup still never returns a wrong non-empty string. *)
Theorem C04_string_lookup_or_empty_partial :
  forall (hash : bytes -> N), (forall s, (hash s < 4294967296)%N) ->
  forall cap, 1 <= cap ->
  forall calls, goodHistory calls ->
  exists answers, srun hash cap calls = Some answers /\
    forall i j s n, i < j -> nth_error calls i = Some (GetId s) -> nth_error answers i = Some (SId n) ->
      nth_error calls j = Some (GetString n) ->
      nth_error answers j = Some (SStr s) \/ nth_error answers j = Some (SStr []).
Proof. exact inverse_or_empty. Qed.
Print Assumptions C04_string_lookup_or_empty_partial.

(** The three theorems apply to the hash function the code uses. *)
Theorem murmur_is_32_bit : forall s, (murmur s < 4294967296)%N.
Proof. exact murmur32. Qed.
Print Assumptions murmur_is_32_bit.

(** C04 in general is false: getString(0), getId("a") = 0, getString(0) = "". *)
Theorem C04_string_lookup_refuted :
  exists calls answers i j s n,
    stringsOk nulFree calls /\ i < j /\
    srun murmur (Z.to_nat 1024) calls = Some answers /\
    nth_error calls i = Some (GetId s) /\ nth_error answers i = Some (SId n) /\
    nth_error calls j = Some (GetString n) /\ nth_error answers j = Some (SStr []) /\ s <> [].
Proof.
  exists [GetString 0; GetId [97%N]; GetString 0], [SStr []; SId 0; SStr []], 1, 2, [97%N], 0%N.
  split; [|split; [lia|]].
  - intros s [H|[H|[H|[]]]]; try discriminate. injection H as <-. intros [C|[]]; discriminate.
  - vm_compute. repeat split; congruence.
Qed.
Print Assumptions C04_string_lookup_refuted.

(** Looking up an id before its allocation also breaks C03 for the empty string: "yopu6OnU"
    and "" have the same hash 0 and end up with the same id. *)
Theorem C03_empty_string_refuted :
  exists calls answers i j s s' n,
    stringsOk nulFree calls /\ s <> s' /\
    srun murmur (Z.to_nat 1024) calls = Some answers /\
    nth_error calls i = Some (GetId s) /\ nth_error calls j = Some (GetId s') /\
    nth_error answers i = Some (SId n) /\ nth_error answers j = Some (SId n).
Proof.
  exists [GetString 0; GetId [121; 111; 112; 117; 54; 79; 110; 85]%N; GetId []],
         [SStr []; SId 0; SId 0], 1, 2, [121; 111; 112; 117; 54; 79; 110; 85]%N, [], 0%N.
  split; [|split; [discriminate|]].
  - intros s [H|[H|[H|[]]]]; try discriminate; injection H as <-.
    + intros C. repeat (destruct C as [C|C]; [discriminate|]). contradiction.
    + intros [].
  - vm_compute. repeat split; congruence.
Qed.
Print Assumptions C03_empty_string_refuted.

(** A string with an embedded NUL gets a new id every time. *)
Theorem C02_embedded_nul_refuted :
  exists s, srun murmur (Z.to_nat 1024) [GetId s; GetId s; GetId s; GetString 0]
            = Some [SId 0; SId 1; SId 2; SStr [97%N]] /\ s = [97; 0; 98]%N.
Proof. exists [97; 0; 98]%N. vm_compute. split; reflexivity. Qed.
Print Assumptions C02_embedded_nul_refuted.

(** Non-vacuity: a history with a hash collision, a reopening, evictions (capacity 1) and
    the empty string. *)
Example string_history_good :
  let calls := [GetId []; GetId [121; 111; 112; 117; 54; 79; 110; 85]%N; GetString 1; GetString 0;
                Reopen; GetId [97%N]; GetId []; GetString 1; GetId [121; 111; 112; 117; 54; 79; 110; 85]%N] in
  goodHistory calls /\ allocatedOnly [] calls /\
  srun murmur 1 calls
  = Some [SId 0; SId 1; SStr [121; 111; 112; 117; 54; 79; 110; 85]%N; SStr []; SUnit; SId 2; SId 0;
          SStr [121; 111; 112; 117; 54; 79; 110; 85]%N; SId 1].
Proof.
  cbv zeta. assert (A : allocatedOnly [] [GetId []; GetId [121; 111; 112; 117; 54; 79; 110; 85]%N; GetString 1; GetString 0;
                Reopen; GetId [97%N]; GetId []; GetString 1; GetId [121; 111; 112; 117; 54; 79; 110; 85]%N]).
  { cbn. repeat split; lia. }
  split; [|split; [exact A|vm_compute; reflexivity]].
  split; [|split; [right; exact A|vm_compute; reflexivity]].
  intros s H. repeat (destruct H as [H|H]; [try discriminate; injection H as <-;
    intros C; repeat (destruct C as [C|C]; [discriminate|]); contradiction|]). contradiction.
Qed.

(** C42: histories with orderly crashes behave as if exactly the strings whose index entry
    survived had been registered. *)
Theorem C42_string_table_crash :
  forall (hash : bytes -> N), (forall s, (hash s < 4294967296)%N) ->
  forall cap, 1 <= cap ->
  forall calls, orderly ([], 0%N) calls ->
  crun hash cap calls = Some (crashRun ([], 0%N) calls).
Proof. exact crash_refines. Qed.
Print Assumptions C42_string_table_crash.

Example C42_example :
  let calls := [Call (GetId [97; 98]%N); Call (GetId [99]%N); Call (GetId [100]%N); Crash 16 6;
                Call (GetId [100]%N); Call (GetString 1); Call (GetId [97; 98]%N); Call (GetString 2)] in
  orderly ([], 0%N) calls /\
  crashRun ([], 0%N) calls = [SId 0; SId 1; SId 2; SUnit; SId 2; SStr [99]%N; SId 0; SStr [100]%N].
Proof.
  split; [|vm_compute; reflexivity].
  assert (F : forall b : N, (b =? 0)%N = false -> nulFree [b]).
  { intros b Hb [C|[]]. subst. discriminate. }
  cbn -[N.lt N.le]. repeat split; try lia; try (apply F; reflexivity).
  - intros [C|[C|[]]]; discriminate.
  - exists 2. cbn. repeat split; lia.
  - intros [C|[C|[]]]; discriminate.
Qed.

(** Without the ordering (a power loss may keep the index entry and lose the string) the
    table never recognises a string again: every call allocates a new id and lookups
    answer the empty string. *)
Theorem C42_unordered_crash_refuted :
  exists s, s <> [] /\ nulFree s /\
    crun murmur (Z.to_nat 1024)
      [Call (GetId s); Crash 8 0; Call (GetId s); Call (GetId s); Call (GetString 2); Call (GetId [98%N]);
       Call (GetId [98%N])]
    = Some [SId 0; SUnit; SId 1; SId 2; SStr []; SId 3; SId 4].
Proof.
  exists [97%N]. split; [discriminate|]. split; [intros [C|[]]; discriminate|]. vm_compute. reflexivity.
Qed.
Print Assumptions C42_unordered_crash_refuted.

(** A torn index entry shifts all later entries: after the next reopening a string has a
    different id and the id a wrong string. *)
Theorem C42_torn_index_refuted :
  exists s1 s2, s1 <> s2 /\
    crun murmur (Z.to_nat 1024)
      [Call (GetId s1); Crash 4 2; Call (GetId s2); Call (GetId s2); Call Reopen; Call (GetId s2)]
    = Some [SId 0; SUnit; SId 0; SId 0; SUnit; SId 1].
Proof. exists [97%N], [98%N]. split; [discriminate|]. vm_compute. reflexivity. Qed.
Print Assumptions C42_torn_index_refuted.
