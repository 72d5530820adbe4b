(** Model of the DEFLATE/zlib/gzip codec, whole-buffer part.  Source: /repo/core/include/gnuradio-4.0/Compression.hpp (CP).
    Bytes and bit words are [N]; widths, symbols and array indices are [nat].  Every array access of the decoder is checked:
    an access outside the array gives [Fault], a loop that does not stop gives [Hang]; neither is an outcome of the code, both
    are proved unreachable.  The encoder's emit functions are templates over the writer; they are modelled as the list of
    writer calls they make ([op]), which [BitWriter] and [BitCounter] both interpret. *)
From Coq Require Import List NArith ZArith Bool Arith.
From Verif Require Import Base.
From Verif Require CrcModel.
Import ListNotations.
Local Open Scope N_scope.

(** CP:90. *)
Inductive Format := rawDeflate | zlib | gzip.
(** CP:92. *)
Inductive Level := fast | balanced | best.
(** CP:94. *)
Inductive Error := truncatedInput | outputTooSmall | invalidHeader | unsupportedCompressionMethod | reservedFlags
  | presetDictionaryRequired | invalidBlockType | invalidStoredBlockLength | invalidHuffmanTree | invalidCode | invalidLength
  | invalidDistance | invalidBackReference | checksumMismatch | sizeMismatch | trailingData | integerOverflow
  | allocationFailed | sizeLimitExceeded.
(** std::expected<A, Error>, plus the two outcomes the code must not have. *)
Inductive res (A : Type) := Ok (a : A) | Err (e : Error) | Fault | Hang.
Arguments Ok {A} _. Arguments Err {A} _. Arguments Fault {A}. Arguments Hang {A}.
Definition bind {A B} (m : res A) (f : A -> res B) : res B :=
  match m with Ok a => f a | Err e => Err e | Fault => Fault | Hang => Hang end.
Notation "'let*' x := m 'in' k" := (bind m (fun x => k)) (at level 200, x pattern, m at level 100, k at level 200).
(** Checked array read and write. *)
Definition aget {A} (l : list A) (i : nat) : res A := match nth_error l i with Some x => Ok x | None => Fault end.
Definition aset {A} (l : list A) (i : nat) (v : A) : res (list A) := if (i <? length l)%nat then Ok (upd l i v) else Fault.
(** Unsigned wrap at [w] bits. *)
Definition tr (w x : N) : N := x mod 2 ^ w.
Definition bytesN (l : list N) : N := N.of_nat (length l).

(** * Checksums *)
(** CP:117-120: the inner loop over one run. *)
Definition adlerRun (a b : N) (run : list N) : N * N :=
  fold_left (fun s x => let a' := tr 32 (fst s + x) in (a', tr 32 (snd s + a'))) run (a, b).
Definition kMaxRun : N := 5552.
Definition kModAdler : N := 65521.
(** CP:114-128; the outer loop, [fuel] at least the number of runs. *)
Fixpoint updateAdler (fuel : nat) (a b : N) (input : list N) : N * N :=
  match fuel with
  | O => (a, b)
  | S k =>
      match input with
      | [] => (a, b)
      | _ => let run := firstn (N.to_nat kMaxRun) input in
             let s := adlerRun a b run in
             updateAdler k (fst s mod kModAdler) (snd s mod kModAdler) (skipn (length run) input)
      end
  end.
(** CP:131-134. *)
Definition adler32 (input : list N) : N :=
  let s := updateAdler (length input) 1 0 input in N.lor (tr 32 (N.shiftl (snd s) 16)) (fst s).
(** CP:796-802; [W] is the vector width of the CRC engine (CrcModel). *)
Definition computeCrc32 (W : nat) (input : list N) : N := CrcModel.compute CrcModel.IEEE W input.

(** * Tables *)
(** CP:138-142. *)
Definition kLengthBase : list N := [3; 4; 5; 6; 7; 8; 9; 10; 11; 13; 15; 17; 19; 23; 27; 31; 35; 43; 51; 59; 67; 83; 99; 115; 131; 163; 195; 227; 258].
Definition kLengthExtra : list nat := [0; 0; 0; 0; 0; 0; 0; 0; 1; 1; 1; 1; 2; 2; 2; 2; 3; 3; 3; 3; 4; 4; 4; 4; 5; 5; 5; 5; 0]%nat.
Definition kDistanceBase : list N := [1; 2; 3; 4; 5; 7; 9; 13; 17; 25; 33; 49; 65; 97; 129; 193; 257; 385; 513; 769; 1025; 1537; 2049; 3073; 4097; 6145; 8193; 12289; 16385; 24577].
Definition kDistanceExtra : list nat := [0; 0; 0; 0; 1; 1; 2; 2; 3; 3; 4; 4; 5; 5; 6; 6; 7; 7; 8; 8; 9; 9; 10; 10; 11; 11; 12; 12; 13; 13]%nat.
Definition kCodeLengthOrder : list nat := [16; 17; 18; 0; 8; 7; 9; 6; 10; 5; 11; 4; 12; 3; 13; 2; 14; 1; 15]%nat.
(** CP:144-146. *)
Definition kMaxStoredBlock : N := 65535.
Definition kMaxMatchLength : N := 258.
Definition kWindowSize : N := 32768.
(** CP:148. *)
Definition storedBlockCount (size : N) : N := if size =? 0 then 1 else (size + kMaxStoredBlock - 1) / kMaxStoredBlock.
(** CP:150-157. *)
Fixpoint reverseBits (value : N) (count : nat) (result : N) : N :=
  match count with
  | O => result
  | S k => reverseBits (N.shiftr value 1) k (tr 16 (N.lor (N.shiftl result 1) (N.land value 1)))
  end.
(** CP:166, 171: std::ranges::upper_bound on a sorted table, as a linear scan. *)
Fixpoint upperBound (table : list N) (v : N) : nat :=
  match table with [] => O | x :: r => if v <? x then O else S (upperBound r v) end.
(** CP:159-163. *)
Record EncodedSymbol := { esym : nat; eextra : N; ebits : nat }.
(** CP:165-168. *)
Definition encodeLength (length : N) : EncodedSymbol :=
  let index := (upperBound kLengthBase (tr 16 length) - 1)%nat in
  {| esym := 257 + index; eextra := length - nth index kLengthBase 0; ebits := nth index kLengthExtra 0%nat |}.
(** CP:170-173. *)
Definition encodeDistance (distance : N) : EncodedSymbol :=
  let index := (upperBound kDistanceBase (tr 16 distance) - 1)%nat in
  {| esym := index; eextra := distance - nth index kDistanceBase 0; ebits := nth index kDistanceExtra 0%nat |}.

(** * Writers *)
(** One call on a writer: writeBits (CP:215), alignByte (CP:225), writeBytes (CP:233). *)
Inductive op := WBits (value : N) (width : nat) | WAlign | WBytes (values : list N).
(** CP:177-236: BitWriter over a growing sink.  Simplification: ByteSink (a fixed buffer that keeps counting past its end) is
    the same list; its overflow test is made once at the end (CP:2014), as in the code. *)
Record BitWriter := { wout : list N; wbits : N; wcount : nat }.
(** CP:218-222. *)
Fixpoint drainBits (fuel : nat) (w : BitWriter) : BitWriter :=
  match fuel with
  | O => w
  | S k => if (8 <=? wcount w)%nat
           then drainBits k {| wout := wout w ++ [N.land (wbits w) 0xff]; wbits := N.shiftr (wbits w) 8; wcount := wcount w - 8 |}
           else w
  end.
(** CP:215-233. *)
Definition execOp (w : BitWriter) (o : op) : BitWriter :=
  match o with
  | WBits v n => let c := (wcount w + n)%nat in
      drainBits c {| wout := wout w; wbits := N.lor (wbits w) (tr 64 (N.shiftl v (N.of_nat (wcount w)))); wcount := c |}
  | WAlign => if (wcount w =? 0)%nat then w
              else {| wout := wout w ++ [N.land (wbits w) 0xff]; wbits := 0; wcount := 0 |}
  | WBytes l => {| wout := wout w ++ l; wbits := wbits w; wcount := wcount w |}
  end.
Definition exec (w : BitWriter) (ops : list op) : BitWriter := fold_left execOp ops w.
(** CP:239-246: BitCounter. *)
Definition countOp (bits : N) (o : op) : N :=
  match o with
  | WBits _ n => bits + N.of_nat n
  | WAlign => (bits + 7) / 8 * 8
  | WBytes l => bits + 8 * bytesN l
  end.
Definition countedSize (ops : list op) : N := fold_left countOp ops 0 / 8.
(** CP:248-263. *)
Definition putLittle16 (v : N) : list op := [WBits v 16].
Definition putLittle32 (v : N) : list op := [WBits v 32].
Definition putBig32 (v : N) : list op :=
  map (fun sh => WBits (N.land (N.shiftr v sh) 0xff) 8) [24; 16; 8; 0].

(** * Matching *)
(** CP:285-290. *)
Record Token := { tvalue : N; tdistance : N }.
Definition isLiteral (t : Token) : bool := tdistance t =? 0.
(** CP:292-309. *)
Record Match := { mlength : N; mdistance : N }.
Definition maxCandidates (l : Level) : nat := match l with fast => 4 | balanced => 16 | best => 128 end%nat.
Definition lazyMatching (l : Level) : bool := match l with best => true | _ => false end.
(** CP:311. *)
Definition historyBound (size : N) : N := N.max 1 (N.min size kWindowSize).
(** CP:334-341: the chains; the arrays are total maps, zero where never written (simplification: the index bounds are the
    subject of separate lemmas). *)
Record Chains := { head : N -> N; previous : N -> N }.
Definition updN (f : N -> N) (i v : N) : N -> N := fun j => if j =? i then v else f j.
Definition dataAt (data : list N) (i : N) : N := nth (N.to_nat i) data 0.
(** CP:343-349. *)
Definition hash (data : list N) (pos : N) : N :=
  let value := N.lor (N.lor (N.shiftl (dataAt data pos) 16) (N.shiftl (dataAt data (pos + 1)) 8)) (dataAt data (pos + 2)) in
  N.shiftr (tr 32 (value * 2654435761)) 16.
(** CP:351-359. *)
Definition insert (data : list N) (base chainSize : N) (c : Chains) (pos : N) : Chains :=
  if bytesN data <=? pos + 2 then c
  else let key := hash data pos in
       let absolute := base + pos in
       {| previous := updN (previous c) (absolute mod chainSize) (head c key); head := updN (head c) key (absolute + 1) |}.
(** CP:376-379; [k] is limit - length. *)
Fixpoint matchLength (k : nat) (data : list N) (offset pos len : N) : N :=
  match k with
  | O => len
  | S k' => if dataAt data (offset + len) =? dataAt data (pos + len) then matchLength k' data offset pos (len + 1) else len
  end.
(** CP:372-387: the candidate loop; [k] is maxCandidates - checked. *)
Fixpoint findLoop (k : nat) (data : list N) (base chainSize : N) (c : Chains) (pos limit oldest candidate : N) (b : Match) : Match :=
  match k with
  | O => b
  | S k' =>
      let absolute := base + pos in
      if (oldest <? candidate) && (candidate <=? absolute) then
        let cand := candidate - 1 in
        let length := matchLength (N.to_nat limit) data (cand - base) pos 0 in
        if (3 <=? length) && (mlength b <? length) then
          let b' := {| mlength := length; mdistance := absolute - cand |} in
          if length =? kMaxMatchLength then b'
          else findLoop k' data base chainSize c pos limit oldest (previous c (cand mod chainSize)) b'
        else findLoop k' data base chainSize c pos limit oldest (previous c (cand mod chainSize)) b
      else b
  end.
(** CP:361-389. *)
Definition find (level : Level) (data : list N) (base chainSize : N) (c : Chains) (pos : N) : Match :=
  let none := {| mlength := 0; mdistance := 0 |} in
  if bytesN data <=? pos + 2 then none
  else
    let limit := N.min kMaxMatchLength (bytesN data - pos) in
    let absolute := base + pos in
    let oldest := N.max base (if kWindowSize <? absolute then absolute - kWindowSize else 0) in
    findLoop (maxCandidates level) data base chainSize c pos limit oldest (head c (hash data pos)) none.
(** Insert positions pos, pos+1, ..., [n] of them (the loops CP:408-411 and CP:426-428). *)
Fixpoint insertRun (n : nat) (data : list N) (base chainSize : N) (c : Chains) (pos : N) : Chains :=
  match n with O => c | S k => insertRun k data base chainSize (insert data base chainSize c pos) (pos + 1) end.
Definition literal (data : list N) (pos : N) : Token := {| tvalue := dataAt data pos; tdistance := 0 |}.
(** CP:412-435: the token loop. *)
Fixpoint tokenLoop (fuel : nat) (level : Level) (data : list N) (base chainSize : N) (c : Chains) (pos : N) : list Token * Chains :=
  match fuel with
  | O => ([], c)
  | S k =>
      if bytesN data <=? pos then ([], c)
      else
        let m := find level data base chainSize c pos in
        let lit c' := let r := tokenLoop k level data base chainSize c' (pos + 1) in (literal data pos :: fst r, snd r) in
        let copy c' first :=
          let c2 := insertRun (N.to_nat (mlength m) - first) data base chainSize c' (pos + N.of_nat first) in
          let r := tokenLoop k level data base chainSize c2 (pos + mlength m) in
          ({| tvalue := tr 16 (mlength m); tdistance := tr 16 (mdistance m) |} :: fst r, snd r) in
        if lazyMatching level && (3 <=? mlength m) then
          let c1 := insert data base chainSize c pos in
          if mlength m <? mlength (find level data base chainSize c1 (pos + 1)) then lit c1 else copy c1 1%nat
        else if 3 <=? mlength m then copy c 0%nat
        else lit (insert data base chainSize c pos)
  end.
(** CP:393-437.  Returns the tokens and the chains left for the next block. *)
Definition tokenize (level : Level) (data : list N) (base indexedFrom tokenFrom chainSize : N) (c : Chains) : list Token * Chains :=
  let c1 := insertRun (N.to_nat (tokenFrom - indexedFrom)) data base chainSize c indexedFrom in
  tokenLoop (length data) level data base chainSize c1 tokenFrom.
Definition emptyChains : Chains := {| head := fun _ => 0; previous := fun _ => 0 |}.

(** * Code construction *)
(** CP:265-281. *)
Definition fixedLiteralCode (symbol : nat) : N * nat :=
  let s := N.of_nat symbol in
  if (symbol <=? 143)%nat then (reverseBits (0x30 + s) 8 0, 8%nat)
  else if (symbol <=? 255)%nat then (reverseBits (0x190 + s - 144) 9 0, 9%nat)
  else if (symbol <=? 279)%nat then (reverseBits (s - 256) 7 0, 7%nat)
  else (reverseBits (0xc0 + s - 280) 8 0, 8%nat).
(** CP:283. *)
Definition fixedDistanceCode (symbol : nat) : N * nat := (reverseBits (N.of_nat symbol) 5 0, 5%nat).

Definition updn {A} (f : nat -> A) (i : nat) (v : A) : nat -> A := fun j => if (j =? i)%nat then v else f j.
(** CP:450-454: ++counts[length] for the non-zero lengths (u16; at most 286 increments). *)
Definition lengthCount (lengths : list nat) (w : nat) : N := N.of_nat (List.length (filter (fun l => (l =? w)%nat && negb (l =? 0)%nat) lengths)).
(** CP:455-459: next[width]; u16 arithmetic. *)
Fixpoint firstCode (lengths : list nat) (w : nat) : N :=
  match w with O => 0 | S k => tr 16 (N.shiftl (firstCode lengths k + lengthCount lengths k) 1) end.
(** CP:460-465: the symbol loop. *)
Fixpoint assignCodes (lengths : list nat) (next : nat -> N) : list N :=
  match lengths with
  | [] => []
  | w :: r => if (w =? 0)%nat then 0 :: assignCodes r next
              else reverseBits (next w) w 0 :: assignCodes r (updn next w (tr 16 (next w + 1)))
  end.
(** CP:440-443, 446-467. *)
Record CanonicalCodes := { clengths : list nat; cbits : list N }.
Definition makeCanonicalCodes (lengths : list nat) : CanonicalCodes :=
  {| clengths := lengths; cbits := assignCodes lengths (firstCode lengths) |}.

(** CP:472-478: at least two symbols take part. *)
Fixpoint atLeastTwo (active : nat) (freqs : list N) : list N :=
  match freqs with
  | [] => []
  | f :: r => if (active <? 2)%nat && (f =? 0) then 1 :: atLeastTwo (S active) r else f :: atLeastTwo active r
  end.
Definition activeCount (freqs : list N) : nat := length (filter (fun f => negb (f =? 0)) freqs).
(** CP:486: the heap order; nodes are pairs (frequency, index), the index breaks ties. *)
Definition nodeLe (a b : N * nat) : bool := (fst a <? fst b) || ((fst a =? fst b) && (snd a <=? snd b)%nat).
(** CP:494-497: pop.  Simplification: the binary heap is a list and pop takes its least element; the order is total, so
    push_heap/pop_heap return the same element. *)
Fixpoint popMin (x : N * nat) (heap : list (N * nat)) : (N * nat) * list (N * nat) :=
  match heap with
  | [] => (x, [])
  | y :: r => if nodeLe x y then let p := popMin x r in (fst p, y :: snd p) else let p := popMin y r in (fst p, x :: snd p)
  end.
(** CP:504-512: the merge loop; [parent] is kNone where unset.  nodeFrequency is u64. *)
Fixpoint mergeLoop (fuel : nat) (heap : list (N * nat)) (nodeCount : nat) (parent : nat -> option nat) : nat * (nat -> option nat) :=
  match fuel with
  | O => (nodeCount, parent)
  | S k =>
      match heap with
      | x :: y :: r =>
          let p1 := popMin x (y :: r) in
          match snd p1 with
          | [] => (nodeCount, parent)
          | z :: r2 =>
              let p2 := popMin z r2 in
              let f := fst p1 in let s := fst p2 in
              mergeLoop k ((tr 64 (fst f + fst s), nodeCount) :: snd p2) (S nodeCount)
                        (updn (updn parent (snd f) (Some nodeCount)) (snd s) (Some nodeCount))
          end
      | _ => (nodeCount, parent)
      end
  end.
(** CP:499-503: push every symbol that occurs. *)
Definition leaves (freqs : list N) : list (N * nat) := filter (fun p => negb (fst p =? 0)) (combine freqs (seq 0 (length freqs))).
(** CP:515-519: for (node = nodeCount; node-- > 0;). *)
Fixpoint depthLoop (node : nat) (parent : nat -> option nat) (depths : nat -> nat) : nat -> nat :=
  match node with
  | O => depths
  | S n => depthLoop n parent (match parent n with Some p => updn depths n (S (depths p)) | None => depths end)
  end.
(** CP:520-524: ++lengthCounts[min(depth, MaxBits)]. *)
Definition depthCounts (maxBits : nat) (freqs : list N) (depths : nat -> nat) (w : nat) : N :=
  N.of_nat (length (filter (fun p => (Nat.min (depths (snd p)) maxBits =? w)%nat) (leaves freqs))).
(** CP:526-529. *)
Definition codeSpace (maxBits : nat) (counts : nat -> N) : N :=
  fold_right (fun w acc => acc + N.shiftl (counts w) (N.of_nat (maxBits - w))) 0 (seq 1 maxBits).
(** CP:532-535. *)
Fixpoint widest (counts : nat -> N) (w : nat) : nat :=
  match w with O => O | S k => if counts w =? 0 then widest counts k else w end.
(** CP:531-540: the length limiting loop; [fuel] is usedCodeSpace - availableCodeSpace. *)
Fixpoint limitLoop (fuel : nat) (maxBits : nat) (counts : nat -> N) (used : N) : nat -> N :=
  match fuel with
  | O => counts
  | S k =>
      if 2 ^ N.of_nat maxBits <? used then
        let w := widest counts (maxBits - 1) in
        let c1 := updn counts w (counts w - 1) in
        let c2 := updn c1 (S w) (c1 (S w) + 2) in
        let c3 := updn c2 maxBits (c2 maxBits - 1) in
        limitLoop k maxBits c3 (used - 1)
      else counts
  end.
(** CP:542-549: std::ranges::sort with a total order, as an insertion sort. *)
Fixpoint insertSorted (x : N * nat) (l : list (N * nat)) : list (N * nat) :=
  match l with [] => [x] | y :: r => if nodeLe x y then x :: l else y :: insertSorted x r end.
Definition sortNodes (l : list (N * nat)) : list (N * nat) := fold_right insertSorted [] l.
(** CP:553-557: the widths from MaxBits down to 1, each lengthCounts[width] times. *)
Fixpoint widthsDown (counts : nat -> N) (w : nat) : list nat :=
  match w with O => [] | S k => repeat w (N.to_nat (counts w)) ++ widthsDown counts k end.
(** CP:551-559: lengths[ordered[i++]] = width. *)
Definition assignLengths (n : nat) (ordered : list nat) (widths : list nat) : list nat :=
  fold_left (fun ls p => upd ls (fst p) (snd p)) (combine ordered widths) (repeat 0%nat n).
(** CP:469-561. *)
Definition makeCodeLengths (maxBits : nat) (freqs0 : list N) : list nat :=
  let n := length freqs0 in
  let freqs := atLeastTwo (activeCount freqs0) freqs0 in
  let ls := leaves freqs in
  let m := mergeLoop (length ls) ls n (fun _ => None) in
  let depths := depthLoop (fst m) (snd m) (fun _ => 0%nat) in
  let counts := depthCounts maxBits freqs depths in
  let used := codeSpace maxBits counts in
  let limited := limitLoop (N.to_nat (used - 2 ^ N.of_nat maxBits)) maxBits counts used in
  assignLengths n (map snd (sortNodes ls)) (widthsDown limited maxBits).

(** CP:562-566. *)
Record CodeLengthToken := { ksym : nat; kextra : N; kbits : nat }.
Definition plain (l : nat) : CodeLengthToken := {| ksym := l; kextra := 0; kbits := 0 |}.
(** CP:583-585. *)
Fixpoint runLength (v : nat) (l : list nat) : nat := match l with x :: r => if (x =? v)%nat then S (runLength v r) else O | [] => O end.
(** CP:589-593: runs of zeros of 11 and more. *)
Fixpoint zeroRuns (fuel : nat) (run : nat) : list CodeLengthToken * nat :=
  match fuel with
  | O => ([], run)
  | S k => if (11 <=? run)%nat
           then let count := Nat.min run 138 in
                let r := zeroRuns k (run - count) in
                ({| ksym := 18; kextra := N.of_nat (count - 11); kbits := 7 |} :: fst r, snd r)
           else ([], run)
  end.
(** CP:601-605: repeats of the previous length. *)
Fixpoint copyRuns (fuel : nat) (run : nat) : list CodeLengthToken * nat :=
  match fuel with
  | O => ([], run)
  | S k => if (3 <=? run)%nat
           then let count := Nat.min run 6 in
                let r := copyRuns k (run - count) in
                ({| ksym := 16; kextra := N.of_nat (count - 3); kbits := 2 |} :: fst r, snd r)
           else ([], run)
  end.
(** CP:588-609: the tokens of one run of equal lengths. *)
Definition runTokens (length run : nat) : list CodeLengthToken :=
  if (length =? 0)%nat then
    let r := zeroRuns run run in
    if (3 <=? snd r)%nat then fst r ++ [{| ksym := 17; kextra := N.of_nat (snd r - 3); kbits := 3 |}]
    else fst r ++ repeat (plain 0) (snd r)
  else
    let r := copyRuns run (run - 1) in
    plain length :: fst r ++ repeat (plain length) (snd r).
(** CP:578-612. *)
Fixpoint encodeCodeLengths (fuel : nat) (lengths : list nat) : list CodeLengthToken :=
  match fuel with
  | O => []
  | S k => match lengths with
           | [] => []
           | x :: r => let run := S (runLength x r) in runTokens x run ++ encodeCodeLengths k (skipn run lengths)
           end
  end.

(** CP:614-622. *)
Record DynamicCoding := {
  dlit : CanonicalCodes; ddist : CanonicalCodes; dcl : CanonicalCodes; dtokens : list CodeLengthToken;
  dlitCount : nat; ddistCount : nat; dclCount : nat }.
(** ++frequencies[symbol], u32. *)
Definition bump (freqs : list N) (s : nat) : list N := upd freqs s (tr 32 (nth s freqs 0 + 1)).
(** CP:627-636. *)
Definition tokenFrequencies (tokens : list Token) : list N * list N :=
  let fd := fold_left (fun (fd : list N * list N) t =>
      if isLiteral t then (bump (fst fd) (N.to_nat (tvalue t)), snd fd)
      else (bump (fst fd) (esym (encodeLength (tvalue t))), bump (snd fd) (esym (encodeDistance (tdistance t)))))
    tokens (repeat 0 286, repeat 0 30) in
  (bump (fst fd) 256, snd fd).
(** CP:641-648, 663-666: drop trailing zeros down to [least]; [at_ i] is the length of entry i. *)
Fixpoint trimCount (k : nat) (least : nat) (at_ : nat -> nat) : nat :=
  match k with
  | O => O
  | S j => if (least <? k)%nat && (at_ j =? 0)%nat then trimCount j least at_ else k
  end.
(** CP:624-669. *)
Definition makeDynamicCoding (tokens : list Token) : DynamicCoding :=
  let fd := tokenFrequencies tokens in
  let lit := makeCodeLengths 15 (fst fd) in
  let dist := makeCodeLengths 15 (snd fd) in
  let nl := trimCount 286 257 (fun i => nth i lit 0%nat) in
  let nd := trimCount 30 1 (fun i => nth i dist 0%nat) in
  let combined := firstn nl lit ++ firstn nd dist in
  let enc := encodeCodeLengths (length combined) combined in
  let clf := fold_left (fun f t => bump f (ksym t)) enc (repeat 0 19) in
  let cl := makeCodeLengths 7 clf in
  let nc := trimCount 19 4 (fun i => nth (nth i kCodeLengthOrder 0%nat) cl 0%nat) in
  {| dlit := makeCanonicalCodes lit; ddist := makeCanonicalCodes dist; dcl := makeCanonicalCodes cl; dtokens := enc;
     dlitCount := nl; ddistCount := nd; dclCount := nc |}.

(** * Emitting *)
(** CP:671-674. *)
Definition writeCode (c : CanonicalCodes) (s : nat) : op := WBits (nth s (cbits c) 0) (nth s (clengths c) 0%nat).
(** CP:676-695. *)
Definition emitTokenFixed (t : Token) : list op :=
  if isLiteral t then [WBits (fst (fixedLiteralCode (N.to_nat (tvalue t)))) (snd (fixedLiteralCode (N.to_nat (tvalue t))))]
  else let l := encodeLength (tvalue t) in
       let d := encodeDistance (tdistance t) in
       [WBits (fst (fixedLiteralCode (esym l))) (snd (fixedLiteralCode (esym l))); WBits (eextra l) (ebits l);
        WBits (fst (fixedDistanceCode (esym d))) (snd (fixedDistanceCode (esym d))); WBits (eextra d) (ebits d)].
Definition emitTokensFixed (tokens : list Token) : list op :=
  flat_map emitTokenFixed tokens ++ [WBits (fst (fixedLiteralCode 256)) (snd (fixedLiteralCode 256))].
(** CP:697-712. *)
Definition emitTokenDynamic (c : DynamicCoding) (t : Token) : list op :=
  if isLiteral t then [writeCode (dlit c) (N.to_nat (tvalue t))]
  else let l := encodeLength (tvalue t) in
       let d := encodeDistance (tdistance t) in
       [writeCode (dlit c) (esym l); WBits (eextra l) (ebits l); writeCode (ddist c) (esym d); WBits (eextra d) (ebits d)].
Definition emitTokensDynamic (tokens : list Token) (c : DynamicCoding) : list op :=
  flat_map (emitTokenDynamic c) tokens ++ [writeCode (dlit c) 256].
Definition b2n (b : bool) : N := if b then 1 else 0.
(** CP:714-728; the do-while loop, [fuel] at least the number of stored blocks. *)
Fixpoint emitStored (fuel : nat) (data : list N) (final : bool) : list op :=
  match fuel with
  | O => []
  | S k =>
      let size := N.min (bytesN data) kMaxStoredBlock in
      let finalChunk := size =? bytesN data in
      [WBits (b2n (final && finalChunk)) 1; WBits 0 2; WAlign] ++ putLittle16 (tr 16 size) ++ putLittle16 (0xffff - tr 16 size)
      ++ [WBytes (firstn (N.to_nat size) data)]
      ++ (if finalChunk then [] else emitStored k (skipn (N.to_nat size) data) final)
  end.
Definition emitStoredDeflate (data : list N) (final : bool) : list op := emitStored (S (length data)) data final.
(** CP:730-738. *)
Definition emitFixedDeflate (tokens : list Token) (final : bool) : list op :=
  [WBits (b2n final) 1; WBits 1 2] ++ emitTokensFixed tokens ++ (if final then [WAlign] else []).
(** CP:740-758. *)
Definition emitDynamicDeflate (tokens : list Token) (c : DynamicCoding) (final : bool) : list op :=
  [WBits (b2n final) 1; WBits 2 2; WBits (N.of_nat (dlitCount c - 257)) 5; WBits (N.of_nat (ddistCount c - 1)) 5;
   WBits (N.of_nat (dclCount c - 4)) 4]
  ++ map (fun i => WBits (N.of_nat (nth (nth i kCodeLengthOrder 0%nat) (clengths (dcl c)) 0%nat)) 3) (seq 0 (dclCount c))
  ++ flat_map (fun t => [writeCode (dcl c) (ksym t); WBits (kextra t) (kbits t)]) (dtokens c)
  ++ emitTokensDynamic tokens c ++ (if final then [WAlign] else []).
(** CP:760. *)
Inductive Encoding := stored | fixed | dynamic.
(** CP:762-774. *)
Definition selectEncoding (dataSize : N) (tokens : list Token) (c : DynamicCoding) (final : bool) : Encoding :=
  let fixedSize := countedSize (emitFixedDeflate tokens final) in
  let dynamicSize := countedSize (emitDynamicDeflate tokens c final) in
  let storedSize := dataSize + 5 * storedBlockCount dataSize in
  if storedSize <? N.min fixedSize dynamicSize then stored
  else if dynamicSize <? fixedSize then dynamic else fixed.
(** CP:776-784. *)
Definition emitDeflate (data : list N) (tokens : list Token) (c : DynamicCoding) (e : Encoding) (final : bool) : list op :=
  match e with
  | stored => emitStoredDeflate data final
  | fixed => emitFixedDeflate tokens final
  | dynamic => emitDynamicDeflate tokens c final
  end.
(** CP:786-794. *)
Definition compressBound (size : N) (f : Format) : N :=
  let d := size + 5 * storedBlockCount size in match f with rawDeflate => d | zlib => d + 6 | gzip => d + 18 end.
(** CP:807-810 and CP:2605-2608. *)
Definition zlibHeader (level : Level) : N :=
  let flevel := match level with fast => 0 | best => 3 | balanced => 2 end in
  let h := tr 16 (N.lor (N.shiftl 0x78 8) (N.shiftl flevel 6)) in
  tr 16 (h + (31 - h mod 31) mod 31).
(** CP:818-819 and CP:2613-2614. *)
Definition gzipHeader (level : Level) : list N :=
  [0x1f; 0x8b; 0x08; 0; 0; 0; 0; 0; match level with fast => 4 | best => 2 | balanced => 0 end; 0xff].
(** CP:804-828. *)
Definition emitWrapped (W : nat) (data : list N) (tokens : list Token) (c : DynamicCoding) (e : Encoding) (f : Format) (level : Level) : list op :=
  match f with
  | zlib => let h := zlibHeader level in
            [WBits (N.shiftr h 8) 8; WBits (N.land h 0xff) 8] ++ emitDeflate data tokens c e true ++ putBig32 (adler32 data)
  | gzip => map (fun b => WBits b 8) (gzipHeader level) ++ emitDeflate data tokens c e true
            ++ putLittle32 (computeCrc32 W data) ++ putLittle32 (tr 32 (bytesN data))
  | rawDeflate => emitDeflate data tokens c e true
  end.
(** CP:830-835. *)
Definition compressOps (W : nat) (data : list N) (f : Format) (level : Level) : list op :=
  let tokens := fst (tokenize level data 0 0 0 (historyBound (bytesN data)) emptyChains) in
  let c := makeDynamicCoding tokens in
  emitWrapped W data tokens c (selectEncoding (bytesN data) tokens c true) f level.
(** CP:2001-2027: compress into a vector of compressBound() bytes, cut to size.  Not modelled: allocation failure. *)
Definition compress (W : nat) (data : list N) (f : Format) (level : Level) : res (list N) :=
  let out := wout (exec {| wout := []; wbits := 0; wcount := 0 |} (compressOps W data f level)) in
  if compressBound (bytesN data) f <? bytesN out then Err outputTooSmall else Ok out.

(** * Reading bits *)
(** CP:846-850. *)
Record BitReader := { rinput : list N; rpos : nat; rbits : N; rcount : nat }.
(** CP:852-861; [fuel] bounds the loop, the width is enough. *)
Fixpoint fill (fuel width : nat) (r : BitReader) : option BitReader :=
  if (width <=? rcount r)%nat then Some r
  else match fuel with
       | O => None
       | S k => match nth_error (rinput r) (rpos r) with
                | None => None
                | Some b => fill k width {| rinput := rinput r; rpos := S (rpos r);
                                            rbits := N.lor (rbits r) (N.shiftl b (N.of_nat (rcount r))); rcount := rcount r + 8 |}
                end
       end.
(** CP:871-883. *)
Definition readBits (width : nat) (r : BitReader) : res (N * BitReader) :=
  if (32 <? width)%nat then Err invalidLength
  else match fill width width r with
       | None => Err truncatedInput
       | Some r' => Ok (N.land (rbits r') (N.ones (N.of_nat width)),
                        {| rinput := rinput r'; rpos := rpos r'; rbits := N.shiftr (rbits r') (N.of_nat width); rcount := rcount r' - width |})
       end.
(** CP:863-869: fill(1) and takeBit(). *)
Definition nextBit (r : BitReader) : option (N * BitReader) :=
  match fill 1 1 r with
  | None => None
  | Some r' => Some (N.land (rbits r') 1,
                     {| rinput := rinput r'; rpos := rpos r'; rbits := N.shiftr (rbits r') 1; rcount := rcount r' - 1 |})
  end.
(** CP:885-889. *)
Definition alignReader (r : BitReader) : BitReader :=
  let d := (rcount r mod 8)%nat in
  {| rinput := rinput r; rpos := rpos r; rbits := N.shiftr (rbits r) (N.of_nat d); rcount := rcount r - d |}.
(** Bits not yet consumed; only used as fuel. *)
Definition available (r : BitReader) : nat := (rcount r + 8 * (length (rinput r) - rpos r))%nat.

(** * Huffman decoding *)
(** CP:892-897; counts has MaxBits + 1 entries, symbols N entries. *)
Record HuffmanDecoder := { hcounts : list nat; hsymbols : list nat; hmax : nat }.
(** CP:899-902. *)
Record DecoderPolicy := { allowEmpty : bool; allowIncomplete : bool }.
(** CP:909-919: the first loop over the symbols. *)
Fixpoint countLengths (maxBits : nat) (lengths : list nat) (counts : list nat) (maxWidth used : nat) : res (list nat * nat * nat) :=
  match lengths with
  | [] => Ok (counts, maxWidth, used)
  | l :: r =>
      if (maxBits <? l)%nat then Err invalidHuffmanTree
      else if (l =? 0)%nat then countLengths maxBits r counts maxWidth used
      else let* c := aget counts l in
           let* counts' := aset counts l (S c) in
           countLengths maxBits r counts' (Nat.max maxWidth l) (S used)
  end.
(** CP:924-930; [ws] are the widths 1..MaxBits. *)
Fixpoint remainingSpace (ws : list nat) (counts : list nat) (remaining : Z) : res Z :=
  match ws with
  | [] => Ok remaining
  | w :: r => let* c := aget counts w in
              let rem := (2 * remaining - Z.of_nat c)%Z in
              if (rem <? 0)%Z then Err invalidHuffmanTree else remainingSpace r counts rem
  end.
(** CP:935-940: nextIndex[width], the number of symbols with a shorter code. *)
Fixpoint startIndex (counts : list nat) (running : nat) : list nat :=
  match counts with [] => [] | c :: r => running :: startIndex r (running + c) end.
(** CP:941-945. *)
Fixpoint placeSymbols (lengths : list nat) (symbol : nat) (next : list nat) (symbols : list nat) : res (list nat) :=
  match lengths with
  | [] => Ok symbols
  | w :: r =>
      if (w =? 0)%nat then placeSymbols r (S symbol) next symbols
      else let* i := aget next w in
           let* symbols' := aset symbols i symbol in
           let* next' := aset next w (S i) in
           placeSymbols r (S symbol) next' symbols'
  end.
(** CP:904-947; [n] is the array size N, [lengths] the array, [symbolCount] how many of its entries count. *)
Definition makeDecoder (n maxBits : nat) (lengths : list nat) (symbolCount : nat) (policy : DecoderPolicy) : res HuffmanDecoder :=
  if (length lengths <? symbolCount)%nat then Fault else
  let ls := firstn symbolCount lengths in
  let* (counts, maxWidth, used) := countLengths maxBits ls (repeat 0%nat (S maxBits)) 0 0 in
  if (used =? 0)%nat then
    (if allowEmpty policy then Ok {| hcounts := counts; hsymbols := repeat 0%nat n; hmax := maxWidth |} else Err invalidHuffmanTree)
  else
    let* remaining := remainingSpace (seq 1 maxBits) counts 1%Z in
    if (0 <? remaining)%Z && (negb (allowIncomplete policy) || negb (maxWidth =? 1)%nat) then Err invalidHuffmanTree
    else
      let* symbols := placeSymbols ls 0 (startIndex counts 0) (repeat 0%nat n) in
      Ok {| hcounts := counts; hsymbols := symbols; hmax := maxWidth |}.
(** CP:949-967; [k] counts the widths left.  The 32-bit code and first stay below 2^16. *)
Fixpoint decodeSymbolLoop (k width : nat) (code first : N) (index : nat) (d : HuffmanDecoder) (r : BitReader) : res (nat * BitReader) :=
  match k with
  | O => Err invalidCode
  | S k' =>
      match nextBit r with
      | None => Err truncatedInput
      | Some (bit, r') =>
          let code' := N.lor (N.shiftl code 1) bit in
          let* count := aget (hcounts d) width in
          if (first <=? code') && (code' - first <? N.of_nat count) then
            let* s := aget (hsymbols d) (index + N.to_nat (code' - first)) in Ok (s, r')
          else decodeSymbolLoop k' (S width) code' (N.shiftl (first + N.of_nat count) 1) (index + count) d r'
      end
  end.
Definition decodeSymbol (d : HuffmanDecoder) (r : BitReader) : res (nat * BitReader) := decodeSymbolLoop (hmax d) 1 0 0 0 d r.
(** CP:969-985. *)
Definition fixedLiteralLengths : list nat := (repeat 8 144 ++ repeat 9 112 ++ repeat 7 24 ++ repeat 8 8)%nat.
Definition fixedDistanceLengths : list nat := (repeat 5 32)%nat.
Definition defaultPolicy : DecoderPolicy := {| allowEmpty := false; allowIncomplete := true |}.
Definition kFixedLiteralDecoder : res HuffmanDecoder := makeDecoder 288 15 fixedLiteralLengths 288 defaultPolicy.
Definition kFixedDistanceDecoder : res HuffmanDecoder := makeDecoder 32 15 fixedDistanceLengths 32 defaultPolicy.

(** * Output *)
(** CP:987-1014 (CountingOutput) and CP:1016-1056 (SpanOutput). *)
Inductive Output :=
| Counting (count historyBegin limit : N)
| Span (buffer : list N) (pos historyBegin : nat).
Definition SIZE_MAX : N := 2 ^ 64 - 1.
(** CP:992, 1025. *)
Definition osize (o : Output) : N := match o with Counting c _ _ => c | Span _ p _ => N.of_nat p end.
(** CP:993, 1026. *)
Definition resetHistory (o : Output) : Output := match o with Counting c _ l => Counting c c l | Span b p _ => Span b p p end.
(** CP:1004-1013. *)
Definition grow (count hb limit n : N) : res Output :=
  if SIZE_MAX - count <? n then Err integerOverflow
  else if limit <? count + n then Err sizeLimitExceeded else Ok (Counting (count + n) hb limit).
(** CP:995 and CP:1028-1034. *)
Definition append (o : Output) (v : N) : res Output :=
  match o with
  | Counting c hb l => grow c hb l 1
  | Span b p hb => if (p =? length b)%nat then Err outputTooSmall else let* b' := aset b p v in Ok (Span b' (S p) hb)
  end.
(** CP:1043-1047; source = target - distance. *)
Fixpoint copyBytes (n : nat) (distance : nat) (buffer : list N) (pos : nat) : res (list N) :=
  match n with
  | O => Ok buffer
  | S k => if (pos <? distance)%nat then Fault
           else let* v := aget buffer (pos - distance) in
                let* b' := aset buffer pos v in copyBytes k distance b' (S pos)
  end.
(** CP:997-1002 and CP:1036-1050. *)
Definition ocopy (o : Output) (distance length : N) : res Output :=
  match o with
  | Counting c hb l => if (distance =? 0) || (c - hb <? distance) then Err invalidBackReference else grow c hb l length
  | Span b p hb =>
      if (distance =? 0) || (N.of_nat (p - hb) <? distance) then Err invalidBackReference
      else if N.of_nat (List.length b - p) <? length then Err outputTooSmall
      else let* b' := copyBytes (N.to_nat length) (N.to_nat distance) b p in Ok (Span b' (p + N.to_nat length) hb)
  end.
(** CP:1052-1055; only SpanOutput has range(). *)
Definition orange (o : Output) (begin : N) : option (list N) :=
  match o with Counting _ _ _ => None | Span b p _ => Some (firstn (p - N.to_nat begin) (skipn (N.to_nat begin) b)) end.

(** * Inflating *)
(** CP:1079-1086 and CP:1095-1102: base plus extra bits, if any. *)
Definition readExtra (base : N) (extra : nat) (r : BitReader) : res (N * BitReader) :=
  if (extra =? 0)%nat then Ok (base, r) else let* (v, r') := readBits extra r in Ok (base + v, r').
(** CP:1058-1107; the while (true) loop. *)
Fixpoint decodeCompressedBlock (fuel : nat) (lit dist : HuffmanDecoder) (r : BitReader) (o : Output) : res (BitReader * Output) :=
  match fuel with
  | O => Hang
  | S k =>
      let* (s, r1) := decodeSymbol lit r in
      if (s <? 256)%nat then let* o' := append o (N.of_nat s) in decodeCompressedBlock k lit dist r1 o'
      else if (s =? 256)%nat then Ok (r1, o)
      else if (285 <? s)%nat then Err invalidLength
      else
        let* lb := aget kLengthBase (s - 257) in
        let* le := aget kLengthExtra (s - 257) in
        let* (len, r2) := readExtra lb le r1 in
        let* (ds, r3) := decodeSymbol dist r2 in
        if (length kDistanceBase <=? ds)%nat then Err invalidDistance
        else
          let* db := aget kDistanceBase ds in
          let* de := aget kDistanceExtra ds in
          let* (d, r4) := readExtra db de r3 in
          let* o' := ocopy o d len in
          decodeCompressedBlock k lit dist r4 o'
  end.
(** CP:1124-1131; [is_] are the loop indices left. *)
Fixpoint readCodeLengths (is_ : list nat) (cl : list nat) (r : BitReader) : res (list nat * BitReader) :=
  match is_ with
  | [] => Ok (cl, r)
  | i :: rest => let* (v, r') := readBits 3 r in
                 let* slot := aget kCodeLengthOrder i in
                 let* cl' := aset cl slot (N.to_nat v) in
                 readCodeLengths rest cl' r'
  end.
(** CP:1177-1179. *)
Fixpoint fillLengths (n : nat) (lengths : list nat) (index : nat) (v : nat) : res (list nat) :=
  match n with O => Ok lengths | S k => let* l' := aset lengths index v in fillLengths k l' (S index) v end.
(** CP:1137-1180. *)
Fixpoint readLengths (fuel : nat) (d : HuffmanDecoder) (total : nat) (lengths : list nat) (index : nat) (r : BitReader) : res (list nat * BitReader) :=
  match fuel with
  | O => Hang
  | S k =>
      if (total <=? index)%nat then Ok (lengths, r)
      else
        let* (s, r1) := decodeSymbol d r in
        if (s <=? 15)%nat then let* l' := aset lengths index s in readLengths k d total l' (S index) r1
        else
          let* (value, base, bits) :=
            (if (s =? 16)%nat then
               (if (index =? 0)%nat then Err invalidHuffmanTree else let* v := aget lengths (index - 1) in Ok (v, 3%nat, 2%nat))
             else if (s =? 17)%nat then Ok (0%nat, 3%nat, 3%nat)
             else if (s =? 18)%nat then Ok (0%nat, 11%nat, 7%nat)
             else Err invalidCode) in
          let* (extra, r2) := readBits bits r1 in
          let repeat := (base + N.to_nat extra)%nat in
          if (total - index <? repeat)%nat then Err invalidHuffmanTree
          else let* l' := fillLengths repeat lengths index value in readLengths k d total l' (index + repeat) r2
  end.
(** std::ranges::copy_n into an array of [n] zeros (CP:1182-1185). *)
Definition copyInto (n : nat) (l : list nat) : list nat := l ++ repeat 0%nat (n - length l).
Definition codeLengthPolicy : DecoderPolicy := {| allowEmpty := false; allowIncomplete := false |}.
Definition distancePolicy : DecoderPolicy := {| allowEmpty := true; allowIncomplete := true |}.
(** CP:1182-1196: the decoders of a dynamic block out of its code lengths. *)
Definition dynamicDecoders (lengths : list nat) (nl nd : nat) : res (HuffmanDecoder * HuffmanDecoder) :=
  if (length lengths <? nl + nd)%nat then Fault else
  let lit := copyInto 288 (firstn nl lengths) in
  let dist := copyInto 32 (firstn nd (skipn nl lengths)) in
  let* l256 := aget lit 256 in
  if (l256 =? 0)%nat then Err invalidHuffmanTree
  else let* ld := makeDecoder 288 15 lit nl defaultPolicy in
       let* dd := makeDecoder 32 15 dist nd distancePolicy in
       Ok (ld, dd).
(** CP:1109-1198.  The three header fields are read before the code looks at the results; a failed read of any of them is
    truncatedInput, as here. *)
Definition decodeDynamicBlock (r : BitReader) (o : Output) : res (BitReader * Output) :=
  let* (lb, r1) := readBits 5 r in
  let* (db, r2) := readBits 5 r1 in
  let* (cb, r3) := readBits 4 r2 in
  let nl := (N.to_nat lb + 257)%nat in
  let nd := (N.to_nat db + 1)%nat in
  let nc := (N.to_nat cb + 4)%nat in
  if (286 <? nl)%nat || (30 <? nd)%nat then Err invalidHuffmanTree
  else
    let* (cl, r4) := readCodeLengths (seq 0 nc) (repeat 0%nat 19) r3 in
    let* cld := makeDecoder 19 7 cl 19 codeLengthPolicy in
    let* (lengths, r5) := readLengths (S (available r4)) cld (nl + nd) (repeat 0%nat 320) 0 r4 in
    let* (ld, dd) := dynamicDecoders lengths nl nd in
    decodeCompressedBlock (S (available r5)) ld dd r5 o.
(** CP:1227-1235. *)
Fixpoint readStored (n : nat) (r : BitReader) (o : Output) : res (BitReader * Output) :=
  match n with
  | O => Ok (r, o)
  | S k => let* (v, r') := readBits 8 r in let* o' := append o v in readStored k r' o'
  end.
(** CP:1216-1236. *)
Definition decodeStoredBlock (r0 : BitReader) (o : Output) : res (BitReader * Output) :=
  let r := alignReader r0 in
  let* (len, r1) := readBits 16 r in
  let* (com, r2) := readBits 16 r1 in
  if negb (0xffff - tr 16 len =? tr 16 com) then Err invalidStoredBlockLength
  else readStored (N.to_nat (tr 16 len)) r2 o.
(** CP:1207-1250: the block loop. *)
Fixpoint decodeBlocks (fuel : nat) (r : BitReader) (o : Output) : res (BitReader * Output) :=
  match fuel with
  | O => Hang
  | S k =>
      let* (f, r1) := readBits 1 r in
      let* (block, r2) := readBits 2 r1 in
      let* (r3, o') :=
        (if block =? 0 then decodeStoredBlock r2 o
         else if block =? 1 then
           let* ld := kFixedLiteralDecoder in let* dd := kFixedDistanceDecoder in
           decodeCompressedBlock (S (available r2)) ld dd r2 o
         else if block =? 2 then decodeDynamicBlock r2 o
         else Err invalidBlockType) in
      if f =? 0 then decodeBlocks k r3 o' else Ok (r3, o')
  end.
(** CP:1203-1253. *)
Definition decodeDeflate (input : list N) (o : Output) : res (nat * Output) :=
  let r := {| rinput := input; rpos := 0; rbits := 0; rcount := 0 |} in
  let* (r', o') := decodeBlocks (S (available r)) r (resetHistory o) in
  Ok (rpos (alignReader r'), o').

(** * Containers *)
(** CP:1255-1257. *)
Definition readLittle16 (input : list N) (pos : nat) : res N :=
  let* a := aget input pos in let* b := aget input (pos + 1) in Ok (N.lor a (N.shiftl b 8)).
Definition readLittle32 (input : list N) (pos : nat) : res N :=
  let* a := aget input pos in let* b := aget input (pos + 1) in let* c := aget input (pos + 2) in let* d := aget input (pos + 3) in
  Ok (N.lor (N.lor (N.lor a (N.shiftl b 8)) (N.shiftl c 16)) (N.shiftl d 24)).
Definition readBig32 (input : list N) (pos : nat) : res N :=
  let* a := aget input pos in let* b := aget input (pos + 1) in let* c := aget input (pos + 2) in let* d := aget input (pos + 3) in
  Ok (N.lor (N.lor (N.lor (N.shiftl a 24) (N.shiftl b 16)) (N.shiftl c 8)) d).
(** CP:1259-1269; the result is the output size, the output is returned with it. *)
Definition decodeRaw (input : list N) (o : Output) : res (N * Output) :=
  let* (consumed, o') := decodeDeflate input o in
  if negb (consumed =? length input)%nat then Err trailingData else Ok (osize o', o').
(** CP:1271-1306. *)
Definition decodeZlib (input : list N) (o : Output) : res (N * Output) :=
  if (length input <? 2)%nat then Err truncatedInput
  else
    let* cmf := aget input 0 in
    let* flg := aget input 1 in
    if negb (N.land cmf 0x0f =? 8) || (7 <? N.shiftr cmf 4) || negb ((N.shiftl cmf 8 + flg) mod 31 =? 0) then Err invalidHeader
    else if negb (N.land flg 0x20 =? 0) then (if (length input <? 6)%nat then Err truncatedInput else Err presetDictionaryRequired)
    else
      let outputBegin := osize o in
      let* (consumed, o') := decodeDeflate (skipn 2 input) o in
      let trailer := (2 + consumed)%nat in
      if (length input <? trailer + 4)%nat then Err truncatedInput
      else if negb (length input =? trailer + 4)%nat then Err trailingData
      else match orange o' outputBegin with
           | None => Ok (osize o', o')
           | Some bytes => let* sum := readBig32 input trailer in
                           if negb (adler32 bytes =? sum) then Err checksumMismatch else Ok (osize o', o')
           end.
(** CP:1345-1354: position after the terminating zero byte. *)
Fixpoint afterZero (l : list N) (pos : nat) : option nat :=
  match l with [] => None | x :: r => if x =? 0 then Some (S pos) else afterZero r (S pos) end.
Definition skipString (input : list N) (flagSet : bool) (pos : nat) : res nat :=
  if flagSet then match afterZero (skipn pos input) pos with None => Err truncatedInput | Some p => Ok p end else Ok pos.
(** CP:1315-1364: the header of one gzip member starting at [start]; gives the position of its data. *)
Definition gzipMemberHeader (W : nat) (input : list N) (start : nat) : res nat :=
  let size := length input in
  if (size - start <? 2)%nat then
    let* b := aget input start in
    (if (start =? 0)%nat || (b =? 0x1f) then Err truncatedInput else Err trailingData)
  else
    let* b0 := aget input start in
    let* b1 := aget input (start + 1) in
    if negb (b0 =? 0x1f) || negb (b1 =? 0x8b) then (if (start =? 0)%nat then Err invalidHeader else Err trailingData)
    else if (size - start <? 10)%nat then Err truncatedInput
    else
      let* b2 := aget input (start + 2) in
      if negb (b2 =? 0x08) then Err unsupportedCompressionMethod
      else
        let* flags := aget input (start + 3) in
        if negb (N.land flags 0xe0 =? 0) then Err reservedFlags
        else
          let pos1 := (start + 10)%nat in
          let* pos2 :=
            (if negb (N.land flags 0x04 =? 0) then
               (if (size - pos1 <? 2)%nat then Err truncatedInput
                else let* n := readLittle16 input pos1 in
                     let p := (pos1 + 2)%nat in
                     if (size - p <? N.to_nat n)%nat then Err truncatedInput else Ok (p + N.to_nat n)%nat)
             else Ok pos1) in
          let* pos3 := skipString input (negb (N.land flags 0x08 =? 0)) pos2 in
          let* pos4 := skipString input (negb (N.land flags 0x10 =? 0)) pos3 in
          if negb (N.land flags 0x02 =? 0) then
            (if (size - pos4 <? 2)%nat then Err truncatedInput
             else let* expected := readLittle16 input pos4 in
                  let actual := N.land (computeCrc32 W (firstn (pos4 - start) (skipn start input))) 0xffff in
                  if negb (expected =? actual) then Err checksumMismatch else Ok (pos4 + 2)%nat)
          else Ok pos4.
(** CP:1308-1387: the member loop. *)
Fixpoint gzipMembers (fuel : nat) (W : nat) (input : list N) (pos : nat) (o : Output) : res (N * Output) :=
  match fuel with
  | O => Hang
  | S k =>
      if (length input <=? pos)%nat then Ok (osize o, o)
      else
        let* p := gzipMemberHeader W input pos in
        let outputBegin := osize o in
        let* (consumed, o') := decodeDeflate (skipn p input) o in
        let q := (p + consumed)%nat in
        if (length input - q <? 8)%nat then Err truncatedInput
        else
          let* _u := match orange o' outputBegin with
                    | None => Ok tt
                    | Some bytes => let* sum := readLittle32 input q in
                                    if negb (computeCrc32 W bytes =? sum) then Err checksumMismatch else Ok tt
                    end in
          let* isize := readLittle32 input (q + 4) in
          if negb (tr 32 (osize o' - outputBegin) =? isize) then Err sizeMismatch
          else gzipMembers k W input (q + 8) o'
  end.
Definition decodeGzip (W : nat) (input : list N) (o : Output) : res (N * Output) :=
  match input with [] => Err truncatedInput | _ => gzipMembers (S (length input)) W input 0 o end.
(** CP:1389-1397. *)
Definition decompressInto (W : nat) (input : list N) (o : Output) (f : Format) : res (N * Output) :=
  match f with rawDeflate => decodeRaw input o | zlib => decodeZlib input o | gzip => decodeGzip W input o end.
(** CP:1949-1952: decode into a caller's span; [output] is the span before the call, the result carries it after. *)
Definition decompressSpan (W : nat) (input output : list N) (f : Format) : res (N * list N) :=
  let* (n, o) := decompressInto W input (Span output 0 0) f in
  match o with Span b _ _ => Ok (n, b) | Counting _ _ _ => Fault end.
(** CP:1954-1960. *)
Definition decompressedSize (W : nat) (input : list N) (f : Format) (maxOutputSize : N) : res N :=
  let* (n, _) := decompressInto W input (Counting 0 0 maxOutputSize) f in Ok n.
(** CP:1964-1991: count, allocate, decode.  Not modelled: allocation failure. *)
Definition decompress (W : nat) (input : list N) (f : Format) (maxOutputSize : N) : res (list N) :=
  let* n := decompressedSize W input f maxOutputSize in
  let* (written, b) := decompressSpan W input (repeat 0 (N.to_nat n)) f in
  if negb (written =? bytesN b) then Err sizeMismatch else Ok b.
