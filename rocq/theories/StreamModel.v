(** Model of the streaming codec.  Source: /repo/core/include/gnuradio-4.0/Compression.hpp (CP).
    The reader, the Huffman tables and the checksums are those of CompModel.  A call works through a loop of steps; a step
    returns the state it leaves in every case, also when it fails, because a caller may call again.  Fields that the code resets
    before it reads them again are carried by the mode or state in which they are live. *)
From Coq Require Import List NArith ZArith Bool Arith.
From Verif Require Import Base CompModel.
From Verif Require CrcModel.
Import ListNotations.
Local Open Scope N_scope.

(** CP:1398, with the error of std::expected; [Bad] marks a checked access outside an array, proved unreachable. *)
Inductive Prog := Advanced | NeedInput | NeedOutput | Finished | Failed (e : Error) | Bad.
(** std::expected<std::optional<A>, Error> of the reader. *)
Inductive sres (A : Type) := SOk (a : A) | SNeed | SErr (e : Error) | SBad.
Arguments SOk {A} _. Arguments SNeed {A}. Arguments SErr {A} _. Arguments SBad {A}.
Definition stop {A} (x : sres A) : Prog := match x with SOk _ => Advanced | SNeed => NeedInput | SErr e => Failed e | SBad => Bad end.

(** * StreamBitReader (CP:1400-1466) *)
(** CP:1406-1409. *)
Definition setInput (r : BitReader) (input : list N) : BitReader := {| rinput := input; rpos := 0; rbits := rbits r; rcount := rcount r |}.
(** CP:1411. *)
Definition clearInput (r : BitReader) : BitReader := {| rinput := []; rpos := rpos r; rbits := rbits r; rcount := rcount r |}.
(** CP:1439-1456: the reader of CompModel; when the input ends the saved position is restored. *)
Definition sread (width : nat) (finish : bool) (r : BitReader) : BitReader * sres N :=
  match readBits width r with
  | Ok (v, r') => (r', SOk v)
  | Err truncatedInput => (r, if finish then SErr truncatedInput else SNeed)
  | Err e => (r, SErr e)
  | _ => (r, SBad)
  end.
(** CP:1474-1499. *)
Definition ssymbol (d : HuffmanDecoder) (finish : bool) (r : BitReader) : BitReader * sres nat :=
  match decodeSymbol d r with
  | Ok (s, r') => (r', SOk s)
  | Err truncatedInput => (r, if finish then SErr truncatedInput else SNeed)
  | Err e => (r, SErr e)
  | _ => (r, SBad)
  end.

(** * StreamOutput (CP:1501-1610) *)
(** CP:1504-1515.  [sout] is target[0 .. produced), [scap] the size of target. *)
Record SOut := {
  shist : N -> N; shpos : N; shsize : N; sout : list N; scap : nat; schk : nat; stotal : N; slimit : N;
  scrc : N; sadler : N * N; smember : N }.
(** CP:1517-1529. *)
Definition soutReset (hist : N -> N) (limit : N) : SOut :=
  {| shist := hist; shpos := 0; shsize := 0; sout := []; scap := 0; schk := 0; stotal := 0; slimit := limit;
     scrc := 0xffffffff; sadler := (1, 0); smember := 0 |}.
(** CP:1531-1535. *)
Definition setTarget (o : SOut) (size : nat) : SOut :=
  {| shist := shist o; shpos := shpos o; shsize := shsize o; sout := []; scap := size; schk := 0; stotal := stotal o;
     slimit := slimit o; scrc := scrc o; sadler := sadler o; smember := smember o |}.
(** CP:1538-1547. *)
Definition flushChecksums (o : SOut) : SOut :=
  if (schk o =? length (sout o))%nat then o
  else let fresh := skipn (schk o) (sout o) in
       {| shist := shist o; shpos := shpos o; shsize := shsize o; sout := sout o; scap := scap o; schk := length (sout o);
          stotal := stotal o; slimit := slimit o; scrc := CrcModel.updateScalar CrcModel.IEEE (scrc o) fresh;
          sadler := updateAdler (length fresh) (fst (sadler o)) (snd (sadler o)) fresh; smember := tr 32 (smember o + tr 32 (bytesN fresh)) |}.
(** CP:1549-1552; the bytes stay readable for the result, the size of the target is gone. *)
Definition clearTarget (o0 : SOut) : SOut :=
  let o := flushChecksums o0 in
  {| shist := shist o; shpos := shpos o; shsize := shsize o; sout := sout o; scap := 0; schk := schk o; stotal := stotal o;
     slimit := slimit o; scrc := scrc o; sadler := sadler o; smember := smember o |}.
(** CP:1554-1557. *)
Definition sResetHistory (o : SOut) : SOut :=
  {| shist := shist o; shpos := 0; shsize := 0; sout := sout o; scap := scap o; schk := schk o; stotal := stotal o;
     slimit := slimit o; scrc := scrc o; sadler := sadler o; smember := smember o |}.
(** CP:1559-1564. *)
Definition resetGzipMember (o0 : SOut) : SOut :=
  let o := sResetHistory (flushChecksums o0) in
  {| shist := shist o; shpos := shpos o; shsize := shsize o; sout := sout o; scap := scap o; schk := schk o; stotal := stotal o;
     slimit := slimit o; scrc := 0xffffffff; sadler := sadler o; smember := 0 |}.
(** CP:1566. *)
Definition sfull (o : SOut) : bool := (length (sout o) =? scap o)%nat.
(** CP:1568-1581; the flush these make first is made by the caller. *)
Definition scrc32 (o : SOut) : N := N.lxor (scrc o) 0xffffffff.
Definition sadler32 (o : SOut) : N := N.lor (tr 32 (N.shiftl (snd (sadler o)) 16)) (fst (sadler o)).
(** CP:1583-1596: [None] is the result false (no room in the target). *)
Definition sappend (o : SOut) (b : N) : res (option SOut) :=
  if sfull o then Ok None
  else if stotal o =? slimit o then Err sizeLimitExceeded
  else Ok (Some {| shist := updN (shist o) (shpos o) b; shpos := N.land (shpos o + 1) (kWindowSize - 1);
                   shsize := N.min (shsize o + 1) kWindowSize; sout := sout o ++ [b]; scap := scap o; schk := schk o;
                   stotal := stotal o + 1; slimit := slimit o; scrc := scrc o; sadler := sadler o; smember := smember o |}).

(** * StreamInflate (CP:1612-1945) *)
(** CP:1613, with the fields of CP:1617-1627 where they are live: storedRemaining; literalCount, distanceCount,
    codeLengthCount, dynamicCodeLengthIndex, codeLengthLengths; codeLengthDecoder, dynamicIndex, dynamicLengths; the decoders. *)
Inductive Mode :=
| MHeader | MStoredLength | MStoredData (remaining : N) | MDynamicHeader
| MCodeLengths (nl nd nc index : nat) (cl : list nat)
| MLengths (nl nd : nat) (d : HuffmanDecoder) (index : nat) (lengths : list nat)
| MCompressed (lit dist : HuffmanDecoder) | MDone.
(** CP:1615-1616, 1628-1629. *)
Record Inflate := { imode : Mode; ifinal : bool; idist : N; ilen : N }.
Definition setMode (i : Inflate) (m : Mode) : Inflate := {| imode := m; ifinal := ifinal i; idist := idist i; ilen := ilen i |}.
Definition setPending (i : Inflate) (d l : N) : Inflate := {| imode := imode i; ifinal := ifinal i; idist := d; ilen := l |}.
(** CP:1631-1647. *)
Definition inflateReset : Inflate := {| imode := MHeader; ifinal := false; idist := 0; ilen := 0 |}.
Definition IState : Type := Inflate * BitReader * SOut * Prog.
(** CP:1885-1895, 1912-1920: extra bits, none when the width is 0. *)
Definition sextra (base : N) (extra : nat) (finish : bool) (r : BitReader) : BitReader * sres N :=
  if (extra =? 0)%nat then (r, SOk base)
  else match sread extra finish r with (r', SOk v) => (r', SOk (base + v)) | x => x end.
(** CP:1849-1944.  Each return of the code is one branch; [reader = before] is the use of [r]. *)
Definition stepCompressed (lit dist : HuffmanDecoder) (i : Inflate) (finish : bool) (r : BitReader) (o : SOut) : IState :=
  match ssymbol lit finish r with
  | (r1, SOk s) =>
      if (s <? 256)%nat then
        if sfull o then (i, r, o, NeedOutput)
        else match sappend o (N.of_nat s) with
             | Ok (Some o') => (i, r1, o', Advanced) | Ok None => (i, r1, o, Advanced)
             | Err e => (i, r1, o, Failed e) | _ => (i, r1, o, Bad) end
      else if (s =? 256)%nat then
        if ifinal i then (setMode i MDone, alignReader r1, o, Finished) else (setMode i MHeader, r1, o, Advanced)
      else if (285 <? s)%nat then (i, r1, o, Failed invalidLength)
      else if sfull o then (i, r, o, NeedOutput)
      else match aget kLengthBase (s - 257), aget kLengthExtra (s - 257) with
      | Ok lb, Ok le =>
          match sextra lb le finish r1 with
          | (r2, SOk len) =>
              match ssymbol dist finish r2 with
              | (r3, SOk ds) =>
                  if (length kDistanceBase <=? ds)%nat then (i, r3, o, Failed invalidDistance)
                  else match aget kDistanceBase ds, aget kDistanceExtra ds with
                  | Ok db, Ok de =>
                      match sextra db de finish r3 with
                      | (r4, SOk d) => (setPending i d len, r4, o, Advanced)
                      | (_, SNeed) => (i, r, o, NeedInput)
                      | (r4, x) => (i, r4, o, stop x)
                      end
                  | _, _ => (i, r3, o, Bad)
                  end
              | (_, SNeed) => (i, r, o, NeedInput)
              | (r3, x) => (i, r3, o, stop x)
              end
          | (_, SNeed) => (i, r, o, NeedInput)
          | (r2, x) => (i, r2, o, stop x)
          end
      | _, _ => (i, r1, o, Bad)
      end
  | (r1, x) => (i, r1, o, stop x)
  end.
(** CP:1777-1831: one iteration of the loop, or, when all lengths are read, CP:1833-1847. *)
Definition stepLengths (nl nd : nat) (d : HuffmanDecoder) (index : nat) (lengths : list nat) (i : Inflate) (finish : bool) (r : BitReader) (o : SOut) : IState :=
  if (nl + nd <=? index)%nat then
    match dynamicDecoders lengths nl nd with
    | Ok (ld, dd) => (setMode i (MCompressed ld dd), r, o, Advanced)
    | Err e => (i, r, o, Failed e)
    | _ => (i, r, o, Bad)
    end
  else
    match ssymbol d finish r with
    | (r1, SOk s) =>
        if (s <=? 15)%nat then
          match aset lengths index s with Ok l' => (setMode i (MLengths nl nd d (S index) l'), r1, o, Advanced) | _ => (i, r1, o, Bad) end
        else
          match (if (s =? 16)%nat then
                   (if (index =? 0)%nat then Err invalidHuffmanTree else let* v := aget lengths (index - 1) in Ok (v, 3%nat, 2%nat))
                 else if (s =? 17)%nat then Ok (0%nat, 3%nat, 3%nat)
                 else if (s =? 18)%nat then Ok (0%nat, 11%nat, 7%nat)
                 else Err invalidCode) with
          | Ok (value, base, bits) =>
              match sread bits finish r1 with
              | (r2, SOk extra) =>
                  let repeat := (base + N.to_nat extra)%nat in
                  if (nl + nd - index <? repeat)%nat then (i, r2, o, Failed invalidHuffmanTree)
                  else match fillLengths repeat lengths index value with
                       | Ok l' => (setMode i (MLengths nl nd d (index + repeat) l'), r2, o, Advanced) | _ => (i, r2, o, Bad) end
              | (_, SNeed) => (i, r, o, NeedInput)
              | (r2, x) => (i, r2, o, stop x)
              end
          | Err e => (i, r1, o, Failed e)
          | _ => (i, r1, o, Bad)
          end
    | (r1, x) => (i, r1, o, stop x)
    end.
(** CP:1757-1775: one iteration of the loop, or the decoder when all are read. *)
Definition stepCodeLengths (nl nd nc index : nat) (cl : list nat) (i : Inflate) (finish : bool) (r : BitReader) (o : SOut) : IState :=
  if (index <? nc)%nat then
    match sread 3 finish r with
    | (r1, SOk v) =>
        match (let* slot := aget kCodeLengthOrder index in aset cl slot (N.to_nat v)) with
        | Ok cl' => (setMode i (MCodeLengths nl nd nc (S index) cl'), r1, o, Advanced) | _ => (i, r1, o, Bad) end
    | (r1, x) => (i, r1, o, stop x)
    end
  else match makeDecoder 19 7 cl 19 codeLengthPolicy with
       | Ok d => (setMode i (MLengths nl nd d 0 (repeat 0%nat 320)), r, o, Advanced)
       | Err e => (i, r, o, Failed e)
       | _ => (i, r, o, Bad)
       end.
(** CP:1735-1755. *)
Definition stepDynamicHeader (i : Inflate) (finish : bool) (r : BitReader) (o : SOut) : IState :=
  match sread 14 finish r with
  | (r1, SOk v) =>
      let nl := (N.to_nat (N.land v 0x1f) + 257)%nat in
      let nd := (N.to_nat (N.land (N.shiftr v 5) 0x1f) + 1)%nat in
      let nc := (N.to_nat (N.land (N.shiftr v 10) 0x0f) + 4)%nat in
      if (286 <? nl)%nat || (30 <? nd)%nat then (i, r1, o, Failed invalidHuffmanTree)
      else (setMode i (MCodeLengths nl nd nc 0 (repeat 0%nat 19)), r1, o, Advanced)
  | (r1, x) => (i, r1, o, stop x)
  end.
(** CP:1661-1689. *)
Definition stepHeader (i : Inflate) (finish : bool) (r : BitReader) (o : SOut) : IState :=
  match sread 3 finish r with
  | (r1, SOk v) =>
      let i' m := {| imode := m; ifinal := negb (N.land v 1 =? 0); idist := idist i; ilen := ilen i |} in
      let kind := N.shiftr v 1 in
      if kind =? 0 then (i' MStoredLength, alignReader r1, o, Advanced)
      else if kind =? 1 then
        match kFixedLiteralDecoder, kFixedDistanceDecoder with
        | Ok ld, Ok dd => (i' (MCompressed ld dd), r1, o, Advanced) | _, _ => (i, r1, o, Bad) end
      else if kind =? 2 then (i' MDynamicHeader, r1, o, Advanced)
      else (i' MHeader, r1, o, Failed invalidBlockType)
  | (r1, x) => (i, r1, o, stop x)
  end.
(** CP:1690-1704. *)
Definition stepStoredLength (i : Inflate) (finish : bool) (r : BitReader) (o : SOut) : IState :=
  match sread 32 finish r with
  | (r1, SOk v) =>
      if negb (0xffff - tr 16 v =? tr 16 (N.shiftr v 16)) then (i, r1, o, Failed invalidStoredBlockLength)
      else (setMode i (MStoredData (tr 16 v)), r1, o, Advanced)
  | (r1, x) => (i, r1, o, stop x)
  end.
(** CP:1705-1725. *)
Definition stepStoredData (remaining : N) (i : Inflate) (finish : bool) (r : BitReader) (o : SOut) : IState :=
  if remaining =? 0 then
    if ifinal i then (setMode i MDone, r, o, Finished) else (setMode i MHeader, r, o, Advanced)
  else if sfull o then (i, r, o, NeedOutput)
  else match sread 8 finish r with
       | (r1, SOk v) =>
           match sappend o v with
           | Ok (Some o') => (setMode i (MStoredData (remaining - 1)), r1, o', Advanced)
           | Ok None => (setMode i (MStoredData (remaining - 1)), r1, o, Advanced)
           | Err e => (i, r1, o, Failed e) | _ => (i, r1, o, Bad) end
       | (r1, x) => (i, r1, o, stop x)
       end.
(** CP:1598-1609, one iteration of its loop.  Simplification: the test of the distance, made once at entry, is repeated for
    every byte; the history only grows, so it gives the same answer. *)
Definition stepCopy (i : Inflate) (r : BitReader) (o : SOut) : IState :=
  if (idist i =? 0) || (shsize o <? idist i) then (i, r, o, Failed invalidBackReference)
  else if sfull o then (i, r, o, NeedOutput)
  else match sappend o (shist o (N.land (shpos o + kWindowSize - idist i) (kWindowSize - 1))) with
       | Ok (Some o') => (setPending i (idist i) (ilen i - 1), r, o', Advanced)
       | Ok None => (setPending i (idist i) (ilen i - 1), r, o, Advanced)
       | Err e => (i, r, o, Failed e) | _ => (i, r, o, Bad) end.
(** CP:1649-1731: one pass of the while (true) loop. *)
Definition istep (finish : bool) (i : Inflate) (r : BitReader) (o : SOut) : IState :=
  if negb (ilen i =? 0) then stepCopy i r o
  else match imode i with
       | MDone => (i, r, o, Finished)
       | MHeader => stepHeader i finish r o
       | MStoredLength => stepStoredLength i finish r o
       | MStoredData n => stepStoredData n i finish r o
       | MDynamicHeader => stepDynamicHeader i finish r o
       | MCodeLengths nl nd nc index cl => stepCodeLengths nl nd nc index cl i finish r o
       | MLengths nl nd d index lengths => stepLengths nl nd d index lengths i finish r o
       | MCompressed lit dist => stepCompressed lit dist i finish r o
       end.

(** * StreamDecompressor (CP:2035-2461) *)
(** CP:2196; the arrays _zlibHeader, _gzipHeader and _trailer with their positions are the bytes read so far,
    _gzipExtraRemaining is an argument of its state. *)
Inductive DState :=
| SRaw | SZlibHeader (h : list N) | SZlibDictionary (t : list N) | SZlibDeflate | SZlibTrailer (t : list N)
| SGzipHeader (h : list N) | SGzipExtraLength (t : list N) | SGzipExtra (remaining : N) | SGzipName | SGzipComment
| SGzipHeaderCrc (t : list N) | SGzipDeflate | SGzipTrailer (t : list N) | SGzipBetween | SDone.
(** CP:2198-2212. *)
Record Dec := { dst : DState; drd : BitReader; dout : SOut; dinf : Inflate; dflags : N; dhcrc : N; dmembers : N }.
Definition setSt (d : Dec) (s : DState) : Dec :=
  {| dst := s; drd := drd d; dout := dout d; dinf := dinf d; dflags := dflags d; dhcrc := dhcrc d; dmembers := dmembers d |}.
Definition setRd (d : Dec) (r : BitReader) : Dec :=
  {| dst := dst d; drd := r; dout := dout d; dinf := dinf d; dflags := dflags d; dhcrc := dhcrc d; dmembers := dmembers d |}.
Definition setOut (d : Dec) (o : SOut) : Dec :=
  {| dst := dst d; drd := drd d; dout := o; dinf := dinf d; dflags := dflags d; dhcrc := dhcrc d; dmembers := dmembers d |}.
Definition setInf (d : Dec) (i : Inflate) : Dec :=
  {| dst := dst d; drd := drd d; dout := dout d; dinf := i; dflags := dflags d; dhcrc := dhcrc d; dmembers := dmembers d |}.
Definition setFlags (d : Dec) (f : N) : Dec :=
  {| dst := dst d; drd := drd d; dout := dout d; dinf := dinf d; dflags := f; dhcrc := dhcrc d; dmembers := dmembers d |}.
Definition setHcrc (d : Dec) (c : N) : Dec :=
  {| dst := dst d; drd := drd d; dout := dout d; dinf := dinf d; dflags := dflags d; dhcrc := c; dmembers := dmembers d |}.
Definition setMembers (d : Dec) (n : N) : Dec :=
  {| dst := dst d; drd := drd d; dout := dout d; dinf := dinf d; dflags := dflags d; dhcrc := dhcrc d; dmembers := n |}.
(** CP:2039-2056: reset, and the constructor.  [hist] is what the history array holds (zeros after construction, the bytes of
    the previous stream after a reset). *)
Definition decReset (f : Format) (limit : N) (hist : N -> N) : Dec :=
  {| dst := match f with rawDeflate => SRaw | zlib => SZlibHeader [] | gzip => SGzipHeader [] end;
     drd := {| rinput := []; rpos := 0; rbits := 0; rcount := 0 |}; dout := soutReset hist limit; dinf := inflateReset;
     dflags := 0; dhcrc := 0xffffffff; dmembers := 0 |}.
(** CP:2214-2223: read one byte and go on with [k]. *)
Definition withByte (finish : bool) (d : Dec) (k : N -> Dec -> Dec * Prog) : Dec * Prog :=
  match sread 8 finish (drd d) with
  | (r, SOk b) => k b (setRd d r)
  | (r, x) => (setRd d r, stop x)
  end.
(** CP:2225-2235. *)
Definition withHeaderByte (finish : bool) (d : Dec) (k : N -> Dec -> Dec * Prog) : Dec * Prog :=
  withByte finish d (fun b d' => k b (setHcrc d' (CrcModel.updateScalar CrcModel.IEEE (dhcrc d') [b]))).
(** CP:2061-2190: run the inflater; [next] when it is finished. *)
Definition inflateThen (finish : bool) (d : Dec) (next : DState) : Dec * Prog :=
  match istep finish (dinf d) (drd d) (dout d) with
  | (i, r, o, p) => let d' := setInf (setRd (setOut d o) r) i in
                    match p with Finished => (setSt d' next, Advanced) | _ => (d', p) end
  end.
(** CP:2319-2323. *)
Definition beginGzipDeflate (d : Dec) : Dec := setSt (setInf (setOut d (resetGzipMember (dout d))) inflateReset) SGzipDeflate.
(** CP:2326; the enumerators as numbers. *)
Inductive OptionalField := fextra | fname | fcomment | fheaderCrc.
Definition fieldNo (f : OptionalField) : nat := match f with fextra => 0 | fname => 1 | fcomment => 2 | fheaderCrc => 3 end%nat.
(** CP:2328-2348. *)
Definition nextGzipOptional (d : Dec) (from : OptionalField) : Dec :=
  let pending field flag := (fieldNo from <=? fieldNo field)%nat && negb (N.land (dflags d) flag =? 0) in
  if pending fextra 0x04 then setSt d (SGzipExtraLength [])
  else if pending fname 0x08 then setSt d SGzipName
  else if pending fcomment 0x10 then setSt d SGzipComment
  else if pending fheaderCrc 0x02 then setSt d (SGzipHeaderCrc [])
  else beginGzipDeflate d.
(** CP:2308-2317. *)
Definition beginGzipHeader (d : Dec) : Dec := setHcrc (setFlags (setSt d (SGzipHeader [])) 0) 0xffffffff.
(** CP:2237-2262: one byte of the loop, or the checks. *)
Definition stepZlibHeader (finish : bool) (h : list N) (d : Dec) : Dec * Prog :=
  if (length h <? 2)%nat then withByte finish d (fun b d' => (setSt d' (SZlibHeader (h ++ [b])), Advanced))
  else let cmf := nth 0 h 0 in let flg := nth 1 h 0 in
       if negb (N.land cmf 0x0f =? 8) || (7 <? N.shiftr cmf 4) || negb ((N.shiftl cmf 8 + flg) mod 31 =? 0) then (d, Failed invalidHeader)
       else if negb (N.land flg 0x20 =? 0) then (setSt d (SZlibDictionary []), Advanced)
       else (setSt (setInf (setOut d (sResetHistory (dout d))) inflateReset) SZlibDeflate, Advanced).
(** CP:2264-2276 and CP:2096-2102. *)
Definition stepZlibDictionary (finish : bool) (t : list N) (d : Dec) : Dec * Prog :=
  if (length t <? 4)%nat then withByte finish d (fun b d' => (setSt d' (SZlibDictionary (t ++ [b])), Advanced))
  else (d, Failed presetDictionaryRequired).
(** CP:2278-2294. *)
Definition stepZlibTrailer (finish : bool) (t : list N) (d : Dec) : Dec * Prog :=
  if (length t <? 4)%nat then withByte finish d (fun b d' => (setSt d' (SZlibTrailer (t ++ [b])), Advanced))
  else let d' := setOut d (flushChecksums (dout d)) in
       match readBig32 t 0 with
       | Ok v => if negb (sadler32 (dout d') =? v) then (d', Failed checksumMismatch) else (setSt d' SDone, Advanced)
       | _ => (d', Bad) end.
(** CP:2350-2376. *)
Definition stepGzipHeader (finish : bool) (h : list N) (d : Dec) : Dec * Prog :=
  if (length h <? 10)%nat then
    withHeaderByte finish d (fun b d' =>
      if (length h =? 0)%nat && negb (b =? 0x1f) || (length h =? 1)%nat && negb (b =? 0x8b)
      then (d', Failed (if dmembers d' =? 0 then invalidHeader else trailingData))
      else (setSt d' (SGzipHeader (h ++ [b])), Advanced))
  else if negb (nth 2 h 0 =? 0x08) then (d, Failed unsupportedCompressionMethod)
  else let d' := setFlags d (nth 3 h 0) in
       if negb (N.land (dflags d') 0xe0 =? 0) then (d', Failed reservedFlags) else (nextGzipOptional d' fextra, Advanced).
(** CP:2378-2393. *)
Definition stepGzipExtraLength (finish : bool) (t : list N) (d : Dec) : Dec * Prog :=
  if (length t <? 2)%nat then withHeaderByte finish d (fun b d' => (setSt d' (SGzipExtraLength (t ++ [b])), Advanced))
  else match readLittle16 t 0 with Ok v => (setSt d (SGzipExtra v), Advanced) | _ => (d, Bad) end.
(** CP:2395-2408. *)
Definition stepGzipExtra (finish : bool) (remaining : N) (d : Dec) : Dec * Prog :=
  if negb (remaining =? 0) then withHeaderByte finish d (fun b d' => (setSt d' (SGzipExtra (remaining - 1)), Advanced))
  else (nextGzipOptional d fname, Advanced).
(** CP:2410-2424. *)
Definition stepGzipString (finish : bool) (next : OptionalField) (d : Dec) : Dec * Prog :=
  withHeaderByte finish d (fun b d' => if b =? 0 then (nextGzipOptional d' next, Advanced) else (d', Advanced)).
(** CP:2426-2444. *)
Definition stepGzipHeaderCrc (finish : bool) (t : list N) (d : Dec) : Dec * Prog :=
  if (length t <? 2)%nat then withByte finish d (fun b d' => (setSt d' (SGzipHeaderCrc (t ++ [b])), Advanced))
  else match readLittle16 t 0 with
       | Ok expected => if negb (expected =? N.land (N.lxor (dhcrc d) 0xffffffff) 0xffff) then (d, Failed checksumMismatch)
                        else (beginGzipDeflate d, Advanced)
       | _ => (d, Bad) end.
(** CP:2446-2468. *)
Definition stepGzipTrailer (finish : bool) (t : list N) (d : Dec) : Dec * Prog :=
  if (length t <? 8)%nat then withByte finish d (fun b d' => (setSt d' (SGzipTrailer (t ++ [b])), Advanced))
  else let d' := setOut d (flushChecksums (dout d)) in
       match readLittle32 t 0, readLittle32 t 4 with
       | Ok sum, Ok size =>
           if negb (scrc32 (dout d') =? sum) then (d', Failed checksumMismatch)
           else if negb (smember (dout d') =? size) then (d', Failed sizeMismatch)
           else (setSt (setMembers d' (dmembers d' + 1)) SGzipBetween, Advanced)
       | _, _ => (d', Bad) end.
(** CP:2079-2190: one pass of the while (true) loop, cut at every byte read. *)
Definition dstep (finish : bool) (d : Dec) : Dec * Prog :=
  match dst d with
  | SDone => if (rpos (drd d) =? length (rinput (drd d)))%nat then (d, Finished) else (d, Failed trailingData)
  | SRaw => inflateThen finish d SDone
  | SZlibHeader h => stepZlibHeader finish h d
  | SZlibDictionary t => stepZlibDictionary finish t d
  | SZlibDeflate => inflateThen finish d (SZlibTrailer [])
  | SZlibTrailer t => stepZlibTrailer finish t d
  | SGzipHeader h => stepGzipHeader finish h d
  | SGzipExtraLength t => stepGzipExtraLength finish t d
  | SGzipExtra n => stepGzipExtra finish n d
  | SGzipName => stepGzipString finish fcomment d
  | SGzipComment => stepGzipString finish fheaderCrc d
  | SGzipHeaderCrc t => stepGzipHeaderCrc finish t d
  | SGzipDeflate => inflateThen finish d (SGzipTrailer [])
  | SGzipTrailer t => stepGzipTrailer finish t d
  | SGzipBetween =>
      if (rpos (drd d) =? length (rinput (drd d)))%nat
      then if finish then (setSt d SDone, Advanced) else (d, NeedInput)
      else (beginGzipHeader d, Advanced)
  end.
Fixpoint dloop (fuel : nat) (finish : bool) (d : Dec) : Dec * Prog :=
  match fuel with
  | O => (d, Bad)
  | S k => match dstep finish d with (d', Advanced) => dloop k finish d' | x => x end
  end.
(** CP:96-108 (StreamStatus, StreamResult). *)
Inductive Status := needInput | needOutput | done.
Record StreamResult := { consumed : nat; produced : list N; status : Status }.
(** CP:2060-2191.  The outcome and the decompressor afterwards; [size] is the size of the output span, the fuel covers every
    step: 64 for each bit and byte of room, and a constant. *)
Definition decFuel (d : Dec) : nat := (64 * (available (drd d) + scap (dout d)) + 64)%nat.
Definition process (d0 : Dec) (input : list N) (size : nat) (finish : bool) : Dec * res StreamResult :=
  let d := setOut (setRd d0 (setInput (drd d0) input)) (setTarget (dout d0) size) in
  let (d1, p) := dloop (decFuel d) finish d in
  let d2 := setOut (setRd d1 (clearInput (drd d1))) (clearTarget (dout d1)) in
  (d2, match p with
       | Failed e => Err e
       | Bad => Fault
       | Advanced => Hang
       | _ => Ok {| consumed := rpos (drd d1); produced := sout (dout d1);
                    status := match dst d1 with SDone => done | _ => match p with NeedOutput => needOutput | _ => needInput end end |}
       end).
(** CP:2058. *)
Definition finished (d : Dec) : bool := match dst d with SDone => true | _ => false end.
