(** Model of the compressed bitmap EWAHBoolArray<uint32_t> (core/lib/ewah/ewah.h and
    runninglengthword.h), word by word. *)
From Verif Require Import Base Bytes StreamModel.
From Coq Require Import NArith.
Local Open Scope N_scope.

(** Results of loops: [Bad] is undefined behaviour (an index outside the buffer), [NoFuel]
    marks exhausted fuel and is proved unreachable (the loops of ewah.h:1712-1942). *)
Inductive res (A : Type) := Done (a : A) | Bad | NoFuel.
Arguments Done {A}. Arguments Bad {A}. Arguments NoFuel {A}.
(** Sequencing of the loops above and below: the next statement runs when one ends (ewah.h:1712-1942). *)
Definition rbind {A B} (r : res A) (f : A -> res B) : res B :=
  match r with Done a => f a | Bad => Bad | NoFuel => NoFuel end.

(** runninglengthword.h:30, 43, 57 (and 137-152): a marker word holds the running bit (bit
    0), the running length (bits 1-16) and the number of literal words (bits 17-31). *)
Definition runBit (w : N) : bool := N.testbit w 0.
(** runninglengthword.h:42-44. *)
Definition runLen (w : N) : N := N.land (N.shiftr w 1) 65535.
(** runninglengthword.h:56-58. *)
Definition litCount (w : N) : N := N.shiftr w 17.
(** runninglengthword.h:85-90 and 106-111. *)
Definition setRunBit (w : N) (b : bool) : N :=
  if b then N.lor w 1 else N.land w 4294967294.
(** runninglengthword.h:113-123. *)
Definition setRunLen (w l : N) : N :=
  N.land (N.lor w 131070) (N.lor (u32 (N.shiftl l 1)) 4294836225).
(** runninglengthword.h:125-135. *)
Definition setLitCount (w l : N) : N :=
  N.land (N.lor w 4294836224) (N.lor (u32 (N.shiftl l 17)) 131071).
(** runninglengthword.h:139-142: largestliteralcount, largestrunninglengthcount. *)
Definition maxLit : N := 32767.
(** runninglengthword.h:141-142, largestrunninglengthcount. *)
Definition maxRun : N := 65535.

(** ewah.h:654-656: the fields buffer, sizeinbits, lastRLW. *)
Record ewah := mkEwah { buf : list N; bits : N; last : nat }.

(** ewah.h:37 and 349-354. *)
Definition empty : ewah := mkEwah [0] 0 0%nat.

(** buffer[i] and assignment to it (ewah.h:1137, 1427, 1624 and elsewhere). *)
Fixpoint upd (i : nat) (f : N -> N) (l : list N) : list N :=
  match l, i with
  | [], _ => []
  | x :: l', O => f x :: l'
  | x :: l', S i' => x :: upd i' f l'
  end.
(** buffer[lastRLW] (ewah.h:1137). *)
Definition lastMarker (c : ewah) : N := nth (last c) (buf c) 0.
(** Assignment through buffer[lastRLW] (ewah.h:1137, 1427). *)
Definition updLast (f : N -> N) (c : ewah) : ewah := mkEwah (upd (last c) f (buf c)) (bits c) (last c).
(** buffer.push_back(w) (ewah.h:1137-1142). *)
Definition push (w : N) (c : ewah) : ewah := mkEwah (buf c ++ [w]) (bits c) (last c).
(** buffer.push_back(w); lastRLW = buffer.size() - 1 (ewah.h:1141-1142, 1484-1485, 1642-1643). *)
Definition pushMarker (w : N) (c : ewah) : ewah := mkEwah (buf c ++ [w]) (bits c) (length (buf c)).
(** Assignment to sizeinbits (ewah.h:913, 1080, 1756). *)
Definition setBits (n : N) (c : ewah) : ewah := mkEwah (buf c) n (last c).

(** ewah.h:1134-1151. *)
Definition addLiteralWord (w : N) (c : ewah) : ewah :=
  let n := litCount (lastMarker c) in
  if maxLit <=? n then push w (pushMarker (setLitCount 0 1) c)
  else push w (updLast (fun m => setLitCount m (n + 1)) c).

(** A fresh marker for a run, ewah.h:1503-1508 and 1512-1517. *)
Definition runMarker (v : bool) (n : N) : N :=
  setRunLen (if v then setRunBit 0 v else 0) n.

(** ewah.h:1472-1518, fastaddStreamOfEmptyWords.  The loop of lines 1502-1511 runs
    [number / 65535] times and leaves the remainder. *)
Definition fastAddEmpty (v : bool) (number : N) (c : ewah) : ewah :=
  if number =? 0 then c else
  let m := lastMarker c in
  let c :=
    if (negb (Bool.eqb (runBit m) v) && (runLen m + litCount m =? 0))%bool then
      updLast (fun m => setRunBit m v) c
    else if (negb (litCount m =? 0) || negb (Bool.eqb (runBit m) v))%bool then
      pushMarker (if v then setRunBit 0 v else 0) c
    else c in
  let runlen := runLen (lastMarker c) in
  let can := if number <? maxRun - runlen then number else maxRun - runlen in
  let c := updLast (fun m => setRunLen m (runlen + can)) c in
  let number := number - can in
  let c := Nat.iter (N.to_nat (number / maxRun)) (pushMarker (runMarker v maxRun)) c in
  if number mod maxRun =? 0 then c else pushMarker (runMarker v (number mod maxRun)) c.

(** ewah.h:1623-1648, addEmptyWord. *)
Definition addEmptyWord (v : bool) (c : ewah) : ewah :=
  let m := lastMarker c in
  let c := if ((litCount m =? 0) && (runLen m =? 0))%bool then updLast (fun m => setRunBit m v) c else c in
  let m := lastMarker c in
  if ((litCount m =? 0) && Bool.eqb (runBit m) v && (runLen m <? maxRun))%bool then
    updLast (fun w => setRunLen w (runLen m + 1)) c
  else pushMarker (setRunLen (setRunBit 0 v) 1) c.

(** static_cast<uword>(~0), ewah.h:930 and 1083. *)
Definition ones : N := 4294967295.

(** ewah.h:907-941, set.  [Bad] when lastRLW is outside the buffer. *)
Definition set (i : N) (c : ewah) : res (bool * ewah) :=
  if i <? bits c then Done (false, c)
  else if negb (Nat.ltb (last c) (length (buf c))) then Bad
  else
    let dist := (i + 32) / 32 - (bits c + 31) / 32 in
    let c := setBits (i + 1) c in
    let w := N.shiftl 1 (i mod 32) in
    if 0 <? dist then
      let c := if 1 <? dist then fastAddEmpty false (dist - 1) c else c in
      Done (true, addLiteralWord w c)
    else
      let m := lastMarker c in
      if litCount m =? 0 then
        Done (true, addLiteralWord w (updLast (fun m => setRunLen m (u32 (runLen m + 4294967295))) c))
      else
        let lw := N.lor (List.last (buf c) 0) w in
        let c := mkEwah (removelast (buf c) ++ [lw]) (bits c) (last c) in
        if lw =? ones then
          let c := mkEwah (removelast (buf c)) (bits c) (last c) in
          Done (true, addEmptyWord true (updLast (fun m => setLitCount m (litCount m - 1)) c))
        else Done (true, c).

(** ewah.h:1077-1088, addWord with the default of 32 meaningful bits. *)
Definition addWord (w : N) (c : ewah) : ewah :=
  let c := setBits (bits c + 32) c in
  if w =? 0 then addEmptyWord false c
  else if w =? ones then addEmptyWord true c
  else addLiteralWord w c.

(** ewah.h:1553-1586, fastaddStreamOfDirtyWords. *)
Fixpoint addDirty (fuel : nat) (v : list N) (c : ewah) : res ewah :=
  match v with
  | [] => Done c
  | _ =>
      match fuel with
      | O => NoFuel
      | S f =>
          let n := litCount (lastMarker c) in
          let number := N.of_nat (length v) in
          if n + number <=? maxLit then
            let c := updLast (fun m => setLitCount m (n + number)) c in
            Done (mkEwah (buf c ++ v) (bits c) (last c))
          else
            let can := N.to_nat (maxLit - n) in
            let c := updLast (fun m => setLitCount m maxLit) c in
            let c := mkEwah (buf c ++ firstn can v) (bits c) (last c) in
            addDirty f (skipn can v) (pushMarker 0 c)
      end
  end.
(** ewah.h:1588-1620, addStreamOfNegatedDirtyWords.  The long way of line 1619 goes on with
    addStreamOfDirtyWords, which does not negate. *)
Definition addNegatedDirty (fuel : nat) (v : list N) (c : ewah) : res ewah :=
  match v with
  | [] => Done c
  | _ =>
      let n := litCount (lastMarker c) in
      let number := N.of_nat (length v) in
      if n + number <=? maxLit then
        let c := updLast (fun m => setLitCount m (n + number)) c in
        Done (mkEwah (buf c ++ map (N.lxor ones) v) (bits c) (last c))
      else
        let can := N.to_nat (maxLit - n) in
        let c := updLast (fun m => setLitCount m maxLit) c in
        let c := mkEwah (buf c ++ map (N.lxor ones) (firstn can v)) (bits c) (last c) in
        addDirty fuel (skipn can v) (pushMarker 0 c)
  end.

(** BufferedRunningLengthWord (runninglengthword.h:206-546) together with the raw iterator it
    belongs to (ewah.h:1194-1226): the current run, the literal words of the current marker
    not yet consumed, and the buffer after them.  A marker announcing more literal words than
    the buffer holds is [Bad] as soon as it is loaded. *)
Record iter := mkIter { rb : bool; rl : N; lits : list N; rest : list N }.

(** ewah.h:1203-1207 and runninglengthword.h:468-474. *)
Definition load (m : N) (r : list N) : res iter :=
  let n := N.to_nat (litCount m) in
  if Nat.leb n (length r) then Done (mkIter (runBit m) (runLen m) (firstn n r) (skipn n r)) else Bad.

(** ewah.h:1196-1197 and the first next(), e.g. ewah.h:1724-1725. *)
Definition start (c : ewah) : res iter :=
  match buf c with [] => Bad | m :: r => load m r end.

(** runninglengthword.h:458-466: next(); [false] when there is none. *)
Definition next (it : iter) : res (bool * iter) :=
  match rest it with
  | [] => Done (false, mkIter (rb it) 0 [] [])
  | m :: r => rbind (load m r) (fun it => Done (true, it))
  end.

(** runninglengthword.h:499 and 504-506: NumberOfLiteralWords and size(). *)
Definition nlw (it : iter) : N := N.of_nat (length (lits it)).
(** runninglengthword.h:504-506, size(). *)
Definition size (it : iter) : N := rl it + nlw it.

(** runninglengthword.h:452-456, discardRunningWordsWithReload. *)
Definition discardRun (it : iter) : res iter :=
  let it := mkIter (rb it) 0 (lits it) (rest it) in
  match lits it with
  | [] => rbind (next it) (fun '(_, it) => Done it)
  | _ => Done it
  end.

(** runninglengthword.h:515-520, discardLiteralWordsWithReload; the assert of line 516 is
    assumed compiled in or not to fire: the caller passes the minimum of both counts. *)
Definition discardLits (n : nat) (it : iter) : res iter :=
  let it := mkIter (rb it) (rl it) (skipn n (lits it)) (rest it) in
  match lits it with
  | [] => rbind (next it) (fun '(_, it) => Done it)
  | _ => Done it
  end.

(** runninglengthword.h:522-539, discardFirstWordsWithReload. *)
Fixpoint discardFirst (fuel : nat) (x : N) (it : iter) : res iter :=
  if x =? 0 then Done it else
  match fuel with
  | O => NoFuel
  | S f =>
      if x <? rl it then Done (mkIter (rb it) (rl it - x) (lits it) (rest it))
      else
        let x := x - rl it in
        let d := if nlw it <? x then nlw it else x in
        let it := mkIter (rb it) 0 (skipn (N.to_nat d) (lits it)) (rest it) in
        let x := x - d in
        if ((0 <? x) || (size it =? 0))%bool then
          rbind (next it) (fun '(more, it) => if more : bool then discardFirst f x it else Done it)
        else discardFirst f x it
  end.

(** runninglengthword.h:347-371, discharge(container, max): container, prey, words written. *)
Fixpoint discharge (fuel : nat) (c : ewah) (it : iter) (index max : N) : res (ewah * iter * N) :=
  match fuel with
  | O => NoFuel
  | S f =>
      if max <? index + rl it then
        let off := max - index in
        Done (fastAddEmpty (rb it) off c, mkIter (rb it) (rl it - off) (lits it) (rest it), max)
      else
        let c := fastAddEmpty (rb it) (rl it) c in
        let index := index + rl it in
        if max <? nlw it + index then
          let off := N.to_nat (max - index) in
          rbind (addDirty (S fuel) (firstn off (lits it)) c) (fun c =>
          Done (c, mkIter (rb it) 0 (skipn off (lits it)) (rest it), max))
        else
          rbind (addDirty (S fuel) (lits it) c) (fun c =>
          let index := index + nlw it in
          rbind (next it) (fun '(more, it) =>
          if more : bool then discharge f c it index max else Done (c, it, index)))
  end.

(** runninglengthword.h:396-415, dischargeNegated(container, max). *)
Fixpoint dischargeNegated (fuel : nat) (c : ewah) (it : iter) (index max : N) : res (ewah * iter * N) :=
  if ((index <? max) && (0 <? size it))%bool then
    match fuel with
    | O => NoFuel
    | S f =>
        let pl := if max <? index + rl it then max - index else rl it in
        let c := fastAddEmpty (negb (rb it)) pl c in
        let index := index + pl in
        let pd := if max <? nlw it + index then max - index else nlw it in
        rbind (addNegatedDirty (S fuel) (firstn (N.to_nat pd) (lits it)) c) (fun c =>
        rbind (discardFirst (S fuel) (pl + pd) it) (fun it =>
        dischargeNegated f c it (index + pd) max))
    end
  else Done (c, it, index).

(** runninglengthword.h:226-236, discharge(container): everything that is left. *)
Fixpoint dischargeAll (fuel : nat) (c : ewah) (it : iter) : res ewah :=
  if size it =? 0 then Done c else
  match fuel with
  | O => NoFuel
  | S f =>
      rbind (addDirty (S fuel) (lits it) (fastAddEmpty (rb it) (rl it) c)) (fun c =>
      rbind (next it) (fun '(more, it) => if more : bool then dischargeAll f c it else Done c))
  end.

(** What an operation does with a run of [len] words of [bit] of the predator against the
    prey: the new container and prey (ewah.h:1732-1740, 1826-1836, 1918-1928). *)
Definition runStep := nat -> ewah -> iter -> bool -> N -> res (ewah * iter).

(** ewah.h:1732-1740 (or). *)
Definition stepOr : runStep := fun fuel c prey bit len =>
  if bit then
    rbind (discardFirst fuel len prey) (fun prey => Done (fastAddEmpty true len c, prey))
  else
    rbind (discharge fuel c prey 0 len) (fun '(c, prey, index) =>
    Done (fastAddEmpty false (len - index) c, prey)).
(** ewah.h:1825-1831 (xor). *)
Definition stepXor : runStep := fun fuel c prey bit len =>
  rbind (if bit then dischargeNegated fuel c prey 0 len else discharge fuel c prey 0 len)
    (fun '(c, prey, index) => Done (fastAddEmpty bit (len - index) c, prey)).
(** ewah.h:1919-1927 (and). *)
Definition stepAnd : runStep := fun fuel c prey bit len =>
  if bit then
    rbind (discharge fuel c prey 0 len) (fun '(c, prey, index) =>
    Done (fastAddEmpty false (len - index) c, prey))
  else
    rbind (discardFirst fuel len prey) (fun prey => Done (fastAddEmpty false len c, prey)).

(** The inner loop common to the operations: ewah.h:1728-1742, 1821-1833, 1915-1929. *)
Fixpoint runLoop (step : runStep) (f0 fuel : nat) (c : ewah) (i j : iter) : res (ewah * iter * iter) :=
  if ((0 <? rl i) || (0 <? rl j))%bool then
    match fuel with
    | O => NoFuel
    | S f =>
        if rl i <? rl j then
          rbind (step f0 c i (rb j) (rl j)) (fun '(c, i) =>
          rbind (discardRun j) (fun j => runLoop step f0 f c i j))
        else
          rbind (step f0 c j (rb i) (rl i)) (fun '(c, j) =>
          rbind (discardRun i) (fun i => runLoop step f0 f c i j))
    end
  else Done (c, i, j).

(** The outer loop: ewah.h:1727-1753, 1820-1842, 1914-1939. *)
Fixpoint opLoop (step : runStep) (op : N -> N -> N) (f0 fuel : nat) (c : ewah) (i j : iter) : res (ewah * iter * iter) :=
  if ((0 <? size i) && (0 <? size j))%bool then
    match fuel with
    | O => NoFuel
    | S f =>
        rbind (runLoop step f0 f0 c i j) (fun '(c, i, j) =>
        let n := Nat.min (length (lits i)) (length (lits j)) in
        match n with
        | O => opLoop step op f0 f c i j
        | _ =>
            let c := fold_left (fun c '(x, y) => addWord (op x y) c)
                       (combine (firstn n (lits i)) (firstn n (lits j))) c in
            rbind (discardLits n i) (fun i => rbind (discardLits n j) (fun j =>
            opLoop step op f0 f c i j))
        end)
    end
  else Done (c, i, j).

(** Enough for every loop above (ewah.h:1712-1942). *)
Definition fuelFor (a b : ewah) : nat := S (S (length (buf a) + length (buf b))).

(** ewah.h:1712-1758 for [or], 1806-1846 for [xor]; [this] is the receiver, [a] the argument. *)
Definition logicalWith (step : runStep) (op : N -> N -> N) (this a : ewah) : res ewah :=
  let f := fuelFor this a in
  rbind (start a) (fun i => rbind (start this) (fun j =>
  rbind (opLoop step op f f empty i j) (fun '(c, i, j) =>
  rbind (dischargeAll f c (if 0 <? size i then i else j)) (fun c =>
  Done (setBits (if bits a <? bits this then bits this else bits a) c))))).
(** ewah.h:1712-1758. *)
Definition logicalor (this a : ewah) : res ewah := logicalWith stepOr N.lor this a.
(** ewah.h:1806-1846. *)
Definition logicalxor (this a : ewah) : res ewah := logicalWith stepXor N.lxor this a.
(** ewah.h:1898-1942. *)
Definition logicaland (this a : ewah) : res ewah :=
  let f := fuelFor this a in
  rbind (start a) (fun i => rbind (start this) (fun j =>
  rbind (opLoop stepAnd N.land f f empty i j) (fun '(c, i, j) =>
  Done (setBits (if bits a <? bits this then bits this else bits a) c)))).

(** ewah.h:741-884, EWAHBoolArraySetBitForwardIterator; [wordLength] is kept as a natural
    number (32 bits in the code: buffers of 2^32 words or more are not modelled).  The current
    value is [answer]. *)
Record bititer := mkBI {
  word : N; position : N; runningLength : N; literalPosition : N;
  wordPosition : nat; wordLength : nat; answer : N }.

(** ewah.h:828-835, literalHasNext. *)
Fixpoint literalHasNext (fuel : nat) (b : list N) (it : bititer) : res (bool * bititer) :=
  if ((word it =? 0) && Nat.ltb (wordPosition it) (wordLength it))%bool then
    match fuel with
    | O => NoFuel
    | S f =>
        match nth_error b (wordPosition it) with
        | None => Bad
        | Some w =>
            literalHasNext f b (mkBI w (position it + 32) (runningLength it) (position it)
                                  (S (wordPosition it)) (wordLength it) (answer it))
        end
    end
  else Done (negb (word it =? 0), it).

(** ewah.h:837-848, setRunningLengthWord. *)
Definition setRunningLengthWord (b : list N) (it : bititer) : res bititer :=
  match nth_error b (wordPosition it) with
  | None => Bad
  | Some m =>
      let rlen := 32 * runLen m + position it in
      Done (mkBI (word it) (if runBit m then position it else rlen) rlen (literalPosition it)
              (S (wordPosition it)) (S (wordPosition it) + N.to_nat (litCount m)) (answer it))
  end.

(** ewah.h:850-858, moveToNext (with runningHasNext of line 826). *)
Fixpoint moveToNext (fuel : nat) (b : list N) (it : bititer) : res (bool * bititer) :=
  if position it <? runningLength it then Done (true, it) else
  rbind (literalHasNext (S (length b)) b it) (fun '(h, it) =>
  if h : bool then Done (true, it)
  else if Nat.leb (length b) (wordPosition it) then Done (false, it)
  else match fuel with
       | O => NoFuel
       | S f => rbind (setRunningLengthWord b it) (fun it => moveToNext f b it)
       end).

(** __builtin_popcount on 32 bits, ewahutil.h:166-168. *)
Definition popcount (w : N) : N :=
  fold_left (fun n k => if N.testbit w (N.of_nat k) then n + 1 else n) (seq 0 32) 0.

(** ewah.h:860-871, next: the flag is hasNext. *)
Definition bitNext (b : list N) (it : bititer) : res (bool * bititer) :=
  if position it <? runningLength it then
    let it := mkBI (word it) (position it + 1) (runningLength it) (literalPosition it)
                (wordPosition it) (wordLength it) (position it) in
    if position it <? runningLength it then Done (true, it)
    else moveToNext (S (length b)) b it
  else
    let t := N.land (word it) (u32 (N.lxor (word it) ones + 1)) in
    let it := mkBI (N.lxor (word it) t) (position it) (runningLength it) (literalPosition it)
                (wordPosition it) (wordLength it) (literalPosition it + popcount (t - 1)) in
    moveToNext (S (length b)) b it.

(** for (i = begin(); i != end(); ++i) visit *i: ewah.h:778-784, 810-817 and
    core/src/index/BitmapIndex.cpp:71-73. *)
Fixpoint collect (fuel : nat) (b : list N) (hasNext : bool) (it : bititer) : res (list N) :=
  match fuel with
  | O => NoFuel
  | S f =>
      if hasNext then
        rbind (bitNext b it) (fun '(h, it') =>
        rbind (collect f b h it') (fun l => Done (answer it' :: l)))
      else Done []
  end.

(** An upper bound of the number of values: bits in literal words and in runs of ones (ewah.h:803-817). *)
Definition collectFuel (b : list N) : nat :=
  S (N.to_nat (32 * N.of_nat (length b) + 32 * fold_right (fun m n => (if runBit m then runLen m else 0) + n) 0 b)).

(** begin() and the walk to end(): ewah.h:803-817. *)
Definition enumerate (c : ewah) : res (list N) :=
  match buf c with
  | [] => Done []
  | b =>
      rbind (setRunningLengthWord b (mkBI 0 0 0 0 0%nat 0%nat 0)) (fun it =>
      rbind (moveToNext (S (length b)) b it) (fun '(h, it) =>
      collect (collectFuel b) b h it))
  end.

(** ewah.h:1105-1118, write. *)
Definition writeEwah (c : ewah) : bytes :=
  le 8 (bits c) ++ le 8 (N.of_nat (length (buf c))) ++ flat_map (le 4) (buf c).

(** Splitting bytes into words, in.read of ewah.h:1129-1131; bytes missing at the end keep
    what was there: the old words that resize() (ewah.h:1128) kept, then zeros. *)
Fixpoint readWords (n : nat) (old : list N) (s : istream) : list N * istream :=
  match n with
  | O => ([], s)
  | S n' => let '(b, s) := readInto 4 (le 4 (hd 0 old)) s in
            let '(l, s) := readWords n' (tl old) s in (unle b :: l, s)
  end.

(** ewah.h:1120-1132, read into an existing object: lastRLW is not touched. *)
Definition readEwah (old : ewah) (s : istream) : ewah * istream :=
  let '(b, s) := readInto 8 (le 8 (bits old)) s in
  let '(n, s) := readInto 8 (le 8 0) s in
  let '(ws, s) := readWords (N.to_nat (unle n)) (buf old) s in
  (mkEwah ws (unle b) (last old), s).
