(** * The streaming compressor (CP = core/include/gnuradio-4.0/Compression.hpp). *)
From Coq Require Import List NArith Arith Bool.
From Verif Require Import Base CompModel StreamModel.
From Verif Require CrcModel.
Import ListNotations.
Local Open Scope N_scope.

(** CP:2566-2576: _window, _historyBytes, _basePosition, _indexedEnd, _head and _previous, _bits, _bitCount.
    Simplification: positions are unbounded numbers (in the code they are 64 bits wide). *)
Record Enc := { ewin : list N; ehist : nat; ebase : N; eidx : N; echains : Chains; ebits : N; ecount : nat }.
(** CP:2580-2583: _crcState, _adlerA and _adlerB, _inputSize. *)
Record Sums := { kcrc : N; kadler : N * N; ksize : N }.
(** CP:2563-2583: the object; [cpend] and [cppos] are _pendingOutput and _pendingOutputPos.  _tokens is scratch memory. *)
Record Cmp := { cfmt : Format; clvl : Level; cblock : nat; cenc : Enc; csums : Sums; cpend : list N; cppos : nat;
                cstarted : bool; cfinal : bool; cfinished : bool }.
Definition encInit : Enc := {| ewin := []; ehist := 0; ebase := 0; eidx := 0; echains := emptyChains; ebits := 0; ecount := 0 |}.
Definition sumsInit : Sums := {| kcrc := 0xffffffff; kadler := (1, 0); ksize := 0 |}.
(** CP:2468-2493: the constructor and reset. *)
Definition cmpReset (f : Format) (level : Level) (blockBytes : N) : Cmp :=
  {| cfmt := f; clvl := level; cblock := N.to_nat (N.min (N.max blockBytes 1) kMaxStoredBlock); cenc := encInit; csums := sumsInit;
     cpend := []; cppos := 0; cstarted := false; cfinal := false; cfinished := false |}.
Definition setEnc (c : Cmp) (e : Enc) : Cmp :=
  {| cfmt := cfmt c; clvl := clvl c; cblock := cblock c; cenc := e; csums := csums c; cpend := cpend c; cppos := cppos c;
     cstarted := cstarted c; cfinal := cfinal c; cfinished := cfinished c |}.
Definition setSums (c : Cmp) (s : Sums) : Cmp :=
  {| cfmt := cfmt c; clvl := clvl c; cblock := cblock c; cenc := cenc c; csums := s; cpend := cpend c; cppos := cppos c;
     cstarted := cstarted c; cfinal := cfinal c; cfinished := cfinished c |}.
Definition setPend (c : Cmp) (l : list N) (p : nat) : Cmp :=
  {| cfmt := cfmt c; clvl := clvl c; cblock := cblock c; cenc := cenc c; csums := csums c; cpend := l; cppos := p;
     cstarted := cstarted c; cfinal := cfinal c; cfinished := cfinished c |}.
Definition setFlags3 (c : Cmp) (started final finished : bool) : Cmp :=
  {| cfmt := cfmt c; clvl := clvl c; cblock := cblock c; cenc := cenc c; csums := csums c; cpend := cpend c; cppos := cppos c;
     cstarted := started; cfinal := final; cfinished := finished |}.
(** CP:2585. *)
Definition pendingBytes (e : Enc) : nat := (length (ewin e) - ehist e)%nat.
(** CP:2603-2619. *)
Definition headerBytes (f : Format) (level : Level) : list N :=
  match f with
  | zlib => let h := zlibHeader level in [N.land (N.shiftr h 8) 0xff; N.land h 0xff]
  | gzip => map (fun b => N.land b 0xff) (gzipHeader level)
  | rawDeflate => []
  end.
(** CP:2621-2625. *)
Definition noteInput (s : Sums) (input : list N) : Sums :=
  {| kcrc := CrcModel.updateScalar CrcModel.IEEE (kcrc s) input; kadler := updateAdler (length input) (fst (kadler s)) (snd (kadler s)) input;
     ksize := tr 32 (ksize s + tr 32 (bytesN input)) |}.
(** CP:2587-2601: appendByte, appendLittle32, appendBig32. *)
Definition little32 (v : N) : list N := map (fun k => N.land (N.shiftr v k) 0xff) [0; 8; 16; 24].
Definition big32 (v : N) : list N := map (fun k => N.land (N.shiftr v k) 0xff) [24; 16; 8; 0].
(** CP:2660-2667. *)
Definition trailerBytes (f : Format) (s : Sums) : list N :=
  match f with
  | zlib => big32 (N.lor (tr 32 (N.shiftl (snd (kadler s)) 16)) (fst (kadler s)))
  | gzip => little32 (N.lxor (kcrc s) 0xffffffff) ++ little32 (ksize s)
  | rawDeflate => []
  end.
(** CP:2650-2658. *)
Definition slideWindow (e : Enc) : Enc :=
  let size := length (ewin e) in
  if (N.to_nat kWindowSize <? size)%nat then
    let drop := (size - N.to_nat kWindowSize)%nat in
    {| ewin := skipn drop (ewin e); ehist := N.to_nat kWindowSize; ebase := ebase e + N.of_nat drop; eidx := eidx e; echains := echains e; ebits := ebits e; ecount := ecount e |}
  else {| ewin := ewin e; ehist := size; ebase := ebase e; eidx := eidx e; echains := echains e; ebits := ebits e; ecount := ecount e |}.
(** CP:2627-2647.  [Fault]: the assertion on the size of _previous (CP:2629), an _indexedEnd before _basePosition or history longer than the window
    (the subtractions of CP:2628, CP:2631 would wrap). *)
Definition queueBlock (level : Level) (block : nat) (e : Enc) (final : bool) (pend : list N) : res (Enc * list N) :=
  let chain := kWindowSize + N.of_nat block in
  if (chain <? bytesN (ewin e)) || (eidx e <? ebase e) || (length (ewin e) <? ehist e)%nat then Fault
  else
    let pending := skipn (ehist e) (ewin e) in
    let r := tokenize level (ewin e) (ebase e) (eidx e - ebase e) (N.of_nat (ehist e)) chain (echains e) in
    let coding := makeDynamicCoding (fst r) in
    let encoding := selectEncoding (bytesN pending) (fst r) coding final in
    let w := exec {| wout := pend; wbits := ebits e; wcount := ecount e |} (emitDeflate pending (fst r) coding encoding final) in
    let idx := ebase e + (if (2 <=? length (ewin e))%nat then bytesN (ewin e) - 2 else 0) in
    Ok (slideWindow {| ewin := ewin e; ehist := ehist e; ebase := ebase e; eidx := idx; echains := snd r; ebits := wbits w; ecount := wcount w |}, wout w).
(** CP:2669-2678: what goes out, and the object afterwards. *)
Definition drain (c : Cmp) (room : nat) : list N * Cmp :=
  let count := Nat.min room (length (cpend c) - cppos c) in
  let out := firstn count (skipn (cppos c) (cpend c)) in
  if (cppos c + count =? length (cpend c))%nat then (out, setPend c [] 0) else (out, setPend c (cpend c) (cppos c + count)).
(** CP:2515-2550: the loop; [used] and [out] are result.consumed and the bytes written so far. *)
Fixpoint cloop (fuel : nat) (c : Cmp) (input : list N) (room : nat) (finish : bool) (used : nat) (out : list N) : res (Cmp * nat * list N) :=
  match fuel with
  | O => Hang
  | S k =>
      let (d, c1) := drain c (room - length out) in
      let out1 := out ++ d in
      if (length out1 =? room)%nat then Ok (c1, used, out1)
      else if cfinal c1 then Ok (if (length (cpend c1) =? 0)%nat then setFlags3 c1 (cstarted c1) true true else c1, used, out1)
      else if (pendingBytes (cenc c1) =? cblock c1)%nat then
        let finalBlock := finish && (used =? length input)%nat in
        let* (e, p) := queueBlock (clvl c1) (cblock c1) (cenc c1) finalBlock (cpend c1) in
        let c2 := setEnc c1 e in
        cloop k (if finalBlock then setFlags3 (setPend c2 (p ++ trailerBytes (cfmt c1) (csums c1)) (cppos c1)) (cstarted c1) true (cfinished c1)
                 else setPend c2 p (cppos c1)) input room finish used out1
      else if (used <? length input)%nat then
        let count := Nat.min (length input - used) (cblock c1 - pendingBytes (cenc c1)) in
        let chunk := firstn count (skipn used input) in
        let e := cenc c1 in
        cloop k (setSums (setEnc c1 {| ewin := ewin e ++ chunk; ehist := ehist e; ebase := ebase e; eidx := eidx e; echains := echains e; ebits := ebits e; ecount := ecount e |})
                         (noteInput (csums c1) chunk)) input room finish (used + count) out1
      else if finish then
        let* (e, p) := queueBlock (clvl c1) (cblock c1) (cenc c1) true (cpend c1) in
        cloop k (setFlags3 (setPend (setEnc c1 e) (p ++ trailerBytes (cfmt c1) (csums c1)) (cppos c1)) (cstarted c1) true (cfinished c1)) input room finish used out1
      else Ok (c1, used, out1)
  end.
(** CP:2497-2560.  Not modelled: allocation failure. *)
Definition cmpFuel (c : Cmp) (input : list N) : nat := (2 * length input + pendingBytes (cenc c) + 3)%nat.
Definition compressStep (c0 : Cmp) (input : list N) (room : nat) (finish : bool) : Cmp * res StreamResult :=
  if cfinished c0 then (c0, match input with [] => Ok {| consumed := 0; produced := []; status := done |} | _ => Err trailingData end)
  else
    let c := if cstarted c0 then c0 else setFlags3 (setPend c0 (cpend c0 ++ headerBytes (cfmt c0) (clvl c0)) (cppos c0)) true (cfinal c0) (cfinished c0) in
    match cloop (cmpFuel c input) c input room finish 0 [] with
    | Ok (c1, used, out) =>
        (c1, Ok {| consumed := used; produced := out;
                   status := if cfinished c1 then done else if (cppos c1 <? length (cpend c1))%nat then needOutput else needInput |})
    | Err e => (c, Err e)
    | Fault => (c, Fault)
    | Hang => (c, Hang)
    end.
