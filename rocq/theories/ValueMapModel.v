(** Model of the property map (packed byte blob with entry table, byte pool and free list).
    Source: /repo/core/include/gnuradio-4.0/ValueMap.hpp (VM), Value.hpp (VA), WireFormat.hpp (WF).  Release build: the debug
    markers and fill patterns (VM:2728-2734, 2803-2808, 2879-2887, 2950-2952) are not modelled.
    The entry array is a list of decoded entries; the payload bytes are a function from blob offsets to bytes, and the free list
    lives in those bytes as in the code.  Every write and every free-list read is checked against the size of the blob. *)
From Coq Require Import String Ascii.
From Coq Require Import List NArith Bool.
From Verif Require Import Base WireModel ChunkModel.
Import ListNotations.
Local Open Scope N_scope.

(** Outcome of an operation.  [Bad]: an access outside the blob or the entry array, a use of freed memory, or a loop that does
    not end.  [Limit]: a 32-bit size computation that the code does not guard would wrap (a blob of 4 GiB or more, VM:2781-2783,
    2706-2708, or a single key or value of that size, VM:2901, 3010); the code's behaviour beyond that point is not modelled. *)
Inductive res (A : Type) := Ok (a : A) | Limit | Bad.
Arguments Ok {A} a.
Arguments Limit {A}.
Arguments Bad {A}.
Definition bind {A B} (x : res A) (f : A -> res B) : res B := match x with Ok a => f a | Limit => Limit | Bad => Bad end.
Local Notation "x <- e ;; f" := (bind e (fun x => f)) (at level 61, e at next level, right associativity).

Definition W32 : N := 2 ^ 32.
Definition add32 (a b : N) : N := (a + b) mod W32.
Definition sub32 (a b : N) : N := (a + W32 - b) mod W32.
Definition zeros (n : N) : list N := repeat 0 (N.to_nat n).

(** VA:58-61 alignToRecord. *)
Definition alignToRecord (n : N) : N := let r := N.ldiff (add32 n 15) 15 in if r <? 16 then 16 else r.

(** ** Keys *)
Definition key := list N.
Definition bytesOf (s : string) : list N := map N_of_ascii (list_ascii_of_string s).
(** VM:116-139 kCanonical: the identifier is the position, counted from 1. *)
Definition kCanonical : list key := map bytesOf
  [ "gr:sample_rate"; "gr:signal_name"; "gr:num_channels"; "gr:signal_quantity"; "gr:signal_unit"; "gr:signal_min"; "gr:signal_max";
    "gr:n_dropped_samples"; "gr:frequency"; "gr:rx_overflow"; "gr:trigger_name"; "gr:trigger_time"; "gr:trigger_offset";
    "gr:trigger_meta_info"; "gr:local_time"; "gr:context"; "gr:ctx_time"; "gr:reset_default"; "gr:store_default";
    "gr:end_of_stream"; "gr:user_data"; "gr:trigger_time_error" ]%string.
(** VM:108-111. *)
Definition kInlineKeyId : N := 0x8000.
Definition kSpilledKeyId : N := 0x8001.
Definition kMaxInlineKeyLength : N := 34.
(** keyEquals. *)
Definition keyEq (a b : key) : bool := if list_eq_dec N.eq_dec a b then true else false.
(** VM:149-159 lookupId; 0 is kIdUnknown. *)
Fixpoint idFrom (i : N) (l : list key) (k : key) : N :=
  match l with [] => 0 | n :: r => if keyEq n k then i else idFrom (i + 1) r k end.
Definition lookupId (k : key) : N :=
  match k with
  | 103 :: 114 :: 58 :: _ => idFrom 1 kCanonical k
  | _ => 0
  end.

(** VM:289-330: an entry of the table. *)
Record entry := { ePOff : N; ePLen : N; eKeyId : N; eVT : N; eFlags : N; eInline : list N }.
(** VM:3130: an entry of zero bytes. *)
Definition zeroEntry : entry := {| ePOff := 0; ePLen := 0; eKeyId := 0; eVT := 0; eFlags := 0; eInline := zeros 36 |}.
Definition setKey (e : entry) (id : N) (img : list N) : entry :=
  {| ePOff := ePOff e; ePLen := ePLen e; eKeyId := id; eVT := eVT e; eFlags := eFlags e; eInline := img |}.
Definition setVal (e : entry) (vt fl off pl : N) : entry :=
  {| ePOff := off; ePLen := pl; eKeyId := eKeyId e; eVT := vt; eFlags := fl; eInline := eInline e |}.
(** VM:518-523 setInlineKey (36 bytes). *)
Definition inlineImg (k : key) : list N := len k mod 256 :: k ++ zeros (35 - len k).
(** VM:525-528 readInlineKey. *)
Definition readInline (e : entry) : key := match eInline e with n :: r => firstn (N.to_nat n) r | [] => [] end.
(** VM:533-538 setSpilledKey. *)
Definition spillImg (off l : N) : list N := enc 4 off ++ enc 4 l ++ zeros 28.
(** VM:540-546 readSpilledKeyOffsetLength. *)
Definition spillOff (e : entry) : N := dec (firstn 4 (eInline e)).
Definition spillLen (e : entry) : N := dec (firstn 4 (skipn 4 (eInline e))).
(** VM:548-551 readSpilledKey. *)
Definition readSpilled (mm : memory) (e : entry) : key := rd mm (spillOff e) (N.to_nat (spillLen e)).
(** VM:1268-1284 _readKey. *)
Definition readKey (mm : memory) (e : entry) : key :=
  if eKeyId e =? kInlineKeyId then readInline e
  else if eKeyId e =? kSpilledKeyId then readSpilled mm e
  else if negb (eKeyId e =? 0) && (eKeyId e <=? len kCanonical) then nth (N.to_nat (eKeyId e - 1)) kCanonical [] else [].

(** Entry flags (VM:317-330). *)
Definition fOffset : N := 2.
Definition fNested : N := 8.
Definition fTensor : N := 16.
Definition hasOffset (fl : N) : bool := N.testbit fl 1.
(** (flags & (kEntryFlagTensor | kEntryFlagNestedMap)) == 0 *)
Definition plain (fl : N) : bool := negb (N.testbit fl 3) && negb (N.testbit fl 4).
(** ValueType and ContainerType (VA:31-42). *)
Definition tComplex64 : N := 13.
Definition tString : N := 14.
Definition tValue : N := 15.
Definition cScalar : N := 0.
Definition cComplex : N := 1.
Definition cString : N := 2.
Definition cTensor : N := 3.
Definition cMap : N := 4.

(** ** The map
    [fixed]: makeAt, the map may not reallocate (VM:2650-2653).  [blobId] counts reallocations: it stands for the address of the
    blob.  [junk] is what fresh memory contains. *)
Record vmap := {
  fixed : bool; blobId : N; cap : N; ecap : N; entries : list entry; poff : N; pused : N; pcap : N; fhead : N; over : bool;
  mem : memory; junk : memory }.
Definition setMem (m : vmap) (x : memory) : vmap :=
  {| fixed := fixed m; blobId := blobId m; cap := cap m; ecap := ecap m; entries := entries m; poff := poff m; pused := pused m;
     pcap := pcap m; fhead := fhead m; over := over m; mem := x; junk := junk m |}.
Definition setFhead (m : vmap) (x : N) : vmap :=
  {| fixed := fixed m; blobId := blobId m; cap := cap m; ecap := ecap m; entries := entries m; poff := poff m; pused := pused m;
     pcap := pcap m; fhead := x; over := over m; mem := mem m; junk := junk m |}.
Definition setUsed (m : vmap) (x : N) : vmap :=
  {| fixed := fixed m; blobId := blobId m; cap := cap m; ecap := ecap m; entries := entries m; poff := poff m; pused := x;
     pcap := pcap m; fhead := fhead m; over := over m; mem := mem m; junk := junk m |}.
Definition setEntries (m : vmap) (x : list entry) : vmap :=
  {| fixed := fixed m; blobId := blobId m; cap := cap m; ecap := ecap m; entries := x; poff := poff m; pused := pused m;
     pcap := pcap m; fhead := fhead m; over := over m; mem := mem m; junk := junk m |}.
(** VM:2658-2662 _markOverflow. *)
Definition markOverflow (m : vmap) : vmap :=
  {| fixed := fixed m; blobId := blobId m; cap := cap m; ecap := ecap m; entries := entries m; poff := poff m; pused := pused m;
     pcap := pcap m; fhead := fhead m; over := true; mem := mem m; junk := junk m |}.

(** memcpy into the blob. *)
Definition put (m : vmap) (off : N) (l : list N) : res vmap :=
  if off + len l <=? cap m then Ok (setMem m (wr (mem m) off l)) else Bad.
(** Access to slot [i] of the entry array, which ends at [poff]. *)
Definition slot (m : vmap) (i : N) : res unit := if 32 + 48 * (i + 1) <=? poff m then Ok tt else Bad.
(** VM:2870-2879 _writeEntrySentinel: only the bounds matter, the slot is not live. *)
Definition sentinel (m : vmap) : res unit := if len (entries m) <? ecap m then slot m (len (entries m)) else Ok tt.

(** VM:2705-2736 _allocateBlob. *)
Definition allocateBlob (nEntries payload : N) (jk : memory) : res vmap :=
  if W32 <=? 32 + 48 * nEntries + payload then Limit
  else
    let m := {| fixed := false; blobId := 0; cap := 32 + 48 * nEntries + payload; ecap := nEntries mod 2 ^ 16; entries := [];
                poff := 32 + 48 * nEntries; pused := 0; pcap := payload; fhead := 0; over := false; mem := jk; junk := jk |} in
    _ <- sentinel m ;; Ok m.

(** VM:1184-1223 formatAt, VM:1880-1890 makeAt: a map in caller storage of [size] bytes, suitably aligned. *)
Definition makeAt (size nEntries payload : N) (jk : memory) : option vmap :=
  if (nEntries =? 0) || (2 ^ 16 - 1 <? nEntries) then None
  else let required := 32 + 48 * nEntries + payload in
       if (W32 - 1 <? required) || (size <? required) then None
       else Some {| fixed := true; blobId := 0; cap := required; ecap := nEntries; entries := []; poff := 32 + 48 * nEntries;
                    pused := 0; pcap := payload; fhead := 0; over := false; mem := jk; junk := jk |}.

(** VM:2861-2868 _freeListPush. *)
Definition freeListPush (m : vmap) (off l : N) : res vmap :=
  if l <? 8 then Ok m
  else m1 <- put m off (enc 4 l ++ enc 4 (fhead m)) ;; Ok (setFhead m1 off).

(** VM:2963-3004 _freeListPopFit. *)
Fixpoint popLoop (fuel : nat) (m : vmap) (bytes prev cur : N) : res (vmap * option N) :=
  if cur =? 0 then Ok (m, None)
  else match fuel with
       | O => Ok (m, None)
       | S f =>
           if cap m <? cur + 8 then Bad
           else
             let l := dec (rd (mem m) cur 4) in
             let nx := dec (rd (mem m) (cur + 4) 4) in
             if bytes <=? l then
               m1 <- (if prev =? 0 then Ok (setFhead m nx) else put m (prev + 4) (enc 4 nx)) ;;
               m2 <- (if 8 <=? l - bytes then freeListPush m1 (cur + bytes) (l - bytes) else Ok m1) ;;
               Ok (m2, Some cur)
             else popLoop f m bytes cur nx
       end.
Definition freeListPopFit (m : vmap) (bytes : N) : res (vmap * option N) :=
  if (fhead m =? 0) || (bytes =? 0) then Ok (m, None)
  else popLoop (N.to_nat (cap m / 8 + 1)) m bytes 0 (fhead m).

(** VM:2810-2824: the offsets of a copied entry. *)
Definition rebaseE (old new : N) (e : entry) : entry :=
  let e1 := if hasOffset (eFlags e) then setVal e (eVT e) (eFlags e) (new + (ePOff e - old)) (ePLen e) else e in
  if eKeyId e =? kSpilledKeyId then setKey e1 (eKeyId e) (spillImg (new + (spillOff e - old)) (spillLen e)) else e1.
(** VM:2832. *)
Definition rebase (old new off : N) : N := if off =? 0 then 0 else new + (off - old).
(** VM:2834-2841: rewriting the links of the copied free list; the code has no bound on this loop, the fuel exceeds the number
    of chunks that fit. *)
Fixpoint rebaseLoop (fuel : nat) (total old new : N) (mm : memory) (cur : N) : res memory :=
  if cur =? 0 then Ok mm
  else match fuel with
       | O => Bad
       | S f =>
           if total <? cur + 8 then Bad
           else let nx := rebase old new (dec (rd mm (cur + 4) 4)) in
                rebaseLoop f total old new (wr mm (cur + 4) (enc 4 nx)) nx
       end.
(** VM:2764-2859 _grow. *)
Definition grow (m : vmap) (requested newPayload : N) (shrink : bool) : res vmap :=
  if fixed m then Ok (markOverflow m)
  else
    let te := N.max requested (len (entries m)) in
    let te := if shrink then te else N.max te (N.max (ecap m + ecap m / 2) 8) in
    let tp := N.max newPayload (pused m) in
    let tp := if shrink then tp else N.max tp (pcap m + pcap m / 2) in
    let pstart := 32 + 48 * te in
    let total := pstart + tp in
    if W32 <=? total then Limit
    else if cap m <? poff m + pused m then Bad
    else
      let copied : memory := fun x => if (pstart <=? x) && (x <? pstart + pused m) then mem m (poff m + (x - pstart)) else junk m x in
      mm <- rebaseLoop (N.to_nat (cap m / 8 + 1)) total (poff m) pstart copied (rebase (poff m) pstart (fhead m)) ;;
      let m' := {| fixed := false; blobId := blobId m + 1; cap := total; ecap := te mod 2 ^ 16;
                   entries := map (rebaseE (poff m) pstart) (entries m); poff := pstart; pused := pused m; pcap := tp;
                   fhead := rebase (poff m) pstart (fhead m); over := over m; mem := mm; junk := junk m |} in
      _ <- sentinel m' ;; Ok m'.

(** VM:2914-2944: space for a record of [recSize] bytes; [None] is kInvalidOffset. *)
Definition roundUp16 (n : N) : N := if alignToRecord n =? n then n else N.ldiff (add32 n 15) 15.
Definition reserveRecord (m : vmap) (recSize : N) : res (vmap * option N) :=
  r <- freeListPopFit m recSize ;;
  match r with
  | (m1, Some off) => Ok (m1, Some off)
  | (m1, None) =>
      let cur := pused m1 in
      let al := roundUp16 cur in
      if W32 - 1 - al <? recSize then Ok (markOverflow m1, None)
      else
        let go m2 := m3 <- (if 0 <? al - cur then put m2 (poff m2 + cur) (zeros (al - cur)) else Ok m2) ;;
                     Ok (setUsed m3 (al + recSize), Some (poff m3 + al)) in
        if pcap m1 <? al + recSize then
          if fixed m1 then Ok (markOverflow m1, None)
          else m2 <- grow m1 (len (entries m1)) (al + recSize) false ;; go m2
        else go m1
  end.
(** WF:72-78 writeHeaderSized. *)
Definition recHeader (size vt ct fl : N) : list N := enc 4 size ++ [vt; ct; fl; 8].
(** VM:2900-2961 _appendValueRecord.  A content that aliases the blob is copied first, so its bytes are what they were. *)
Definition appendValueRecord (m : vmap) (vt ct fl : N) (content : list N) : res (vmap * option N) :=
  if W32 <=? len content + 32 then Limit
  else
    let recSize := alignToRecord (8 + len content) in
    r <- reserveRecord m recSize ;;
    match r with
    | (m1, None) => Ok (m1, None)
    | (m1, Some off) =>
        m2 <- put m1 off (recHeader recSize vt ct fl ++ content ++ zeros (recSize - 8 - len content)) ;; Ok (m2, Some off)
    end.
(** VM:3006-3053 _appendPayload, _appendPayloadSafe. *)
Definition appendPayload (m : vmap) (src : list N) (extra : N) : res (vmap * option N) :=
  if W32 <=? len src + extra then Limit
  else
    let requested := len src + extra in
    r <- freeListPopFit m requested ;;
    match r with
    | (m1, Some off) => m2 <- put m1 off (src ++ zeros extra) ;; Ok (m2, Some off)
    | (m1, None) =>
        let cur := pused m1 in
        if W32 - 1 - cur <? requested then Ok (markOverflow m1, None)
        else
          let go m2 := let off := poff m2 + pused m2 in
                       m3 <- put m2 off (src ++ zeros extra) ;; Ok (setUsed m3 (pused m3 + requested), Some off) in
          if pcap m1 <? cur + requested then
            if fixed m1 then Ok (markOverflow m1, None)
            else m2 <- grow m1 (len (entries m1)) (cur + requested) false ;; go m2
          else go m1
    end.
(** VM:3055-3068 _ensureEntrySlot. *)
Definition ensureEntrySlot (m : vmap) : res (vmap * bool) :=
  if ecap m <=? len (entries m) + 1 then
    if fixed m then Ok (markOverflow m, false)
    else m1 <- grow m (len (entries m) + 2) (pused m) false ;; Ok (m1, true)
  else Ok (m, true).

(** ** Values handed to the map (VM:3160-3330).
    [VInline vt ct b]: a scalar of at most 8 bytes, padded with zeros.  [VWide]: complex<double>.  [VMap]: the bytes of another
    map.  [VTensor]: the encoded tensor.  [VRecord]: a Value, by its record.  [VMono]: the empty Value.  Encoding of tensors and
    Values into bytes is not modelled. *)
Inductive value :=
| VInline (vt ct : N) (b : list N)
| VWide (b : list N)
| VMap (blob : list N)
| VString (s : list N)
| VTensor (vt : N) (blob : list N)
| VRecord (vt ct fl : N) (content : list N)
| VMono.

(** The part common to all types: append a record, point the entry to it, free the old record (VM:3176-3202, 3324-3334). *)
Definition storeAt (m : vmap) (i : nat) (vt ct fl eflags plen : N) (content : list N) : res (vmap * bool) :=
  match nth_error (entries m) i with
  | None => Bad
  | Some e0 =>
      r <- appendValueRecord m vt ct fl content ;;
      match r with
      | (m1, None) => Ok (m1, false)
      | (m1, Some off) =>
          match nth_error (entries m1) i with
          | None => Bad
          | Some e1 =>
              let m2 := setEntries m1 (upd (entries m1) i (setVal e1 vt eflags off plen)) in
              if hasOffset (eFlags e0) && (0 <? ePLen e0) then
                let old := if blobId m2 =? blobId m then ePOff e0 else poff m2 + (ePOff e0 - poff m) in
                m3 <- freeListPush m2 old (alignToRecord (ePLen e0)) ;; Ok (m3, true)
              else Ok (m2, true)
          end
      end
  end.
(** VM:3161-3336 _assignValueAt.  [alias]: the source lies in this map's blob. *)
Definition assignValueAt (m : vmap) (i : nat) (v : value) (alias : bool) : res (vmap * bool) :=
  match nth_error (entries m) i with
  | None => Bad
  | Some e =>
      match v with
      | VMono => Ok (m, true)
      | VRecord vt ct fl content =>
          storeAt m i vt ct fl (fOffset + (if (vt =? tValue) && (ct =? cMap) then fNested else 0) + (if ct =? cTensor then fTensor else 0))
            (8 + len content) content
      | VInline vt ct b =>
          if hasOffset (eFlags e) && negb (ePOff e =? 0) && plain (eFlags e) && (eVT e =? vt) && (alignToRecord (ePLen e) =? 16)
          then m1 <- put m (ePOff e + 8) b ;; Ok (setEntries m1 (upd (entries m1) i (setVal e (eVT e) (eFlags e) (ePOff e) 16)), true)
          else storeAt m i vt ct 0 fOffset 16 b
      | VWide b => storeAt m i tComplex64 cComplex 0 fOffset (8 + len b) b
      | VMap blob => storeAt m i tValue cMap 0 (fOffset + fNested) (8 + len blob) blob
      | VString s =>
          let recSize := alignToRecord (ePLen e) in
          if hasOffset (eFlags e) && negb (ePOff e =? 0) && plain (eFlags e) && (eVT e =? tString) && negb alias && (8 + len s + 1 <=? recSize)
          then m1 <- put m (ePOff e) (recHeader recSize tString cString 0 ++ s ++ zeros (recSize - 8 - len s)) ;;
               Ok (setEntries m1 (upd (entries m1) i (setVal e tString fOffset (ePOff e) recSize)), true)
          else storeAt m i tString cString 0 fOffset (8 + len s + 1) (s ++ [0])
      | VTensor vt blob => storeAt m i vt cTensor fTensor (fOffset + fTensor) (8 + len blob) blob
      end
  end.
(** VM:1226-1244 find. *)
Definition matches (mm : memory) (k : key) (e : entry) : bool :=
  (negb (lookupId k =? 0) && (eKeyId e =? lookupId k)) || ((eKeyId e =? kInlineKeyId) && keyEq (readInline e) k)
  || ((eKeyId e =? kSpilledKeyId) && keyEq (readSpilled mm e) k).
Fixpoint findFrom (i : nat) (mm : memory) (k : key) (l : list entry) : option nat :=
  match l with [] => None | e :: r => if matches mm k e then Some i else findFrom (S i) mm k r end.
Definition find (m : vmap) (k : key) : option nat := findFrom 0 (mem m) k (entries m).

(** VM:3124-3158 _insertNew.  [Bad] when the value lies in this map's blob and the blob is reallocated before it is read.  The
    entry counter has 16 bits: after the 65536th entry it is 0 and no entry is live (the bytes written to the pool by the
    assignment that follows are then unreachable and not modelled). *)
Definition insertNew (m : vmap) (k : key) (v : value) (alias : bool) : res (vmap * bool) :=
  r <- ensureEntrySlot m ;;
  let (m1, ok) := r : vmap * bool in
  if negb ok then Ok (m1, false)
  else
    let i := len (entries m1) in
    _ <- slot m1 i ;;
    r2 <- (if negb (lookupId k =? 0) then Ok (m1, Some (setKey zeroEntry (lookupId k) (eInline zeroEntry)))
           else if len k <=? kMaxInlineKeyLength then Ok (m1, Some (setKey zeroEntry kInlineKeyId (inlineImg k)))
           else r3 <- appendPayload m1 k 1 ;;
                match r3 with
                | (m2, None) => Ok (m2, None)
                | (m2, Some off) => _ <- slot m2 i ;; Ok (m2, Some (setKey zeroEntry kSpilledKeyId (spillImg off (len k))))
                end) ;;
    match (r2 : vmap * option entry) with
    | (m2, None) => Ok (m2, false)
    | (m2, Some e) =>
        if alias && negb (blobId m2 =? blobId m) then Bad
        else if i + 1 =? 2 ^ 16 then Ok (setEntries m2 [], true)
        else
          r4 <- assignValueAt (setEntries m2 (entries m2 ++ [e])) (length (entries m2)) v alias ;;
          let (m3, ok3) := r4 : vmap * bool in
          if ok3 then _ <- sentinel m3 ;; Ok (m3, true)
          else Ok (setEntries m3 (removelast (entries m3)), false)
    end.

(** What the caller learns: whether a key was inserted, already there (and assigned or kept), or the operation was refused. *)
Inductive outcome := Inserted | Existing | Refused.
(** VM:2043-2054 emplace. *)
Definition emplace (m : vmap) (k : key) (v : value) (alias : bool) : res (vmap * outcome) :=
  match find m k with
  | Some _ => Ok (m, Existing)
  | None => r <- insertNew m k v alias ;; let (m1, ok) := r : vmap * bool in Ok (m1, if ok then Inserted else Refused)
  end.
(** VM:2057-2071 insert_or_assign. *)
Definition insertOrAssign (m : vmap) (k : key) (v : value) (alias : bool) : res (vmap * outcome) :=
  match find m k with
  | Some i => r <- assignValueAt m i v alias ;; let (m1, ok) := r : vmap * bool in Ok (m1, if ok then Existing else Refused)
  | None => r <- insertNew m k v alias ;; let (m1, ok) := r : vmap * bool in Ok (m1, if ok then Inserted else Refused)
  end.
(** VM:1376-1394 _reclaimEntryPayload. *)
Definition reclaimEntry (m : vmap) (e : entry) : res vmap :=
  m1 <- (if hasOffset (eFlags e) && (0 <? ePLen e) then freeListPush m (ePOff e) (alignToRecord (ePLen e)) else Ok m) ;;
  if eKeyId e =? kSpilledKeyId then freeListPush m1 (spillOff e) (spillLen e + 1) else Ok m1.
Definition removeAt {A} (i : nat) (l : list A) : list A := firstn i l ++ skipn (S i) l.
(** VM:1724-1740, 1768-1775 erase. *)
Definition eraseAt (m : vmap) (i : nat) : res vmap :=
  match nth_error (entries m) i with
  | None => Bad
  | Some e => m1 <- reclaimEntry m e ;; let m2 := setEntries m1 (removeAt i (entries m1)) in _ <- sentinel m2 ;; Ok m2
  end.
Definition erase (m : vmap) (k : key) : res (vmap * bool) :=
  match find m k with
  | None => Ok (m, false)
  | Some i => m1 <- eraseAt m i ;; Ok (m1, true)
  end.
(** VM:2131-2151 clear. *)
Definition clear (m : vmap) : res vmap :=
  let m1 := setFhead (setUsed (setEntries m []) 0) 0 in _ <- sentinel m1 ;; Ok m1.
(** VM:2153-2165 reserve. *)
Definition reserve (m : vmap) (n payload : N) : res vmap :=
  let needed := N.max (n + 1) (len (entries m) + 1) in
  if (ecap m <? needed) || (pcap m <? payload) then grow m needed payload false else Ok m.
(** VM:2167-2175 shrink_to_fit. *)
Definition shrinkToFit (m : vmap) : res vmap := grow m (len (entries m)) (pused m) true.
(** VM:2746-2759 _copyBlobFrom, by the copy constructor: a fresh blob with the same bytes. *)
Definition copyOf (m : vmap) (jk : memory) : vmap :=
  {| fixed := false; blobId := 0; cap := cap m; ecap := ecap m; entries := entries m; poff := poff m; pused := pused m;
     pcap := pcap m; fhead := fhead m; over := over m; mem := mem m; junk := jk |}.
(** VM:1970-1983 copy assignment between maps of the same resource. *)
Definition assignMap (d s : vmap) : vmap :=
  if cap s <=? cap d then
    {| fixed := fixed d; blobId := blobId d; cap := cap d; ecap := ecap s; entries := entries s; poff := poff s; pused := pused s;
       pcap := pcap s; fhead := fhead s; over := over s; mem := (fun x => if x <? cap s then mem s x else mem d x); junk := junk d |}
  else copyOf s (junk d).

(** ** Reading *)
(** A string ends at its first zero byte (VM:3104-3122). *)
Fixpoint trim (l : list N) : list N := match l with [] => [] | b :: r => if b =? 0 then [] else b :: trim r end.
(** What a reader sees of an entry: nothing, or value type, container type, record flags and content. *)
Inductive item := Empty | Item (vt ct fl : N) (data : list N).
(** VM:3338-3345 operator* of the iterator, with the record read through ValueView. *)
Definition itemOf (mm : memory) (e : entry) : item :=
  if hasOffset (eFlags e) && negb (ePOff e =? 0) then
    let o := ePOff e in
    let sz := dec (rd mm o 4) in
    let d := rd mm (o + 8) (N.to_nat (sz - 8)) in
    let vt := mm (o + 4) in let ct := mm (o + 5) in
    Item vt ct (mm (o + 6)) (if (vt =? tString) && (ct =? cString) then trim d else d)
  else Empty.
(** Iteration over the map (VM:960-1010). *)
Definition iterate (m : vmap) : list (key * item) := map (fun e => (readKey (mem m) e, itemOf (mem m) e)) (entries m).
(** Lookup: find, then read the entry. *)
Definition lookup (m : vmap) (k : key) : option item :=
  match find m k with
  | None => None
  | Some i => match nth_error (entries m) i with None => None | Some e => Some (itemOf (mem m) e) end
  end.

(** ** merge (VM:2292-2385); [other] is a different map.
    The bits that mark moved entries are the returned list of kept entries. *)
Fixpoint mergeLoop (m : vmap) (src : memory) (todo kept : list entry) : res (vmap * list entry) :=
  match todo with
  | [] => Ok (m, kept)
  | e :: r =>
      let k := readKey src e in
      match find m k with
      | Some _ => mergeLoop m src r (kept ++ [e])
      | None =>
          r1 <- ensureEntrySlot m ;;
          let (m1, ok) := r1 : vmap * bool in
          if negb ok then Ok (m1, kept ++ e :: r)
          else
            let i := length (entries m1) in
            _ <- slot m1 (len (entries m1)) ;;
            let m2 := setEntries m1 (entries m1 ++ [e]) in
            let undo mm := Ok (setEntries mm (removelast (entries mm)), kept ++ e :: r) in
            r2 <- (if eKeyId e =? kSpilledKeyId then
                     rk <- appendPayload m2 k 0 ;;
                     match rk with
                     | (m3, None) => Ok (m3, false)
                     | (m3, Some off) => match nth_error (entries m3) i with
                                         | Some e3 => Ok (setEntries m3 (upd (entries m3) i (setKey e3 kSpilledKeyId (spillImg off (len k)))), true)
                                         | None => Bad
                                         end
                     end
                   else Ok (m2, true)) ;;
            let (m3, ok3) := r2 : vmap * bool in
            if negb ok3 then undo m3
            else
              r4 <- (if hasOffset (eFlags e) then
                       rv <- appendPayload m3 (rd src (ePOff e) (N.to_nat (ePLen e))) 0 ;;
                       match rv with
                       | (m4, None) => Ok (m4, false)
                       | (m4, Some off) => match nth_error (entries m4) i with
                                           | Some e4 => Ok (setEntries m4 (upd (entries m4) i (setVal e4 (eVT e4) (eFlags e4) off (ePLen e4))), true)
                                           | None => Bad
                                           end
                       end
                     else Ok (m3, true)) ;;
              let (m4, ok4) := r4 : vmap * bool in
              if negb ok4 then undo m4 else mergeLoop m4 src r kept
      end
  end.
Definition sumN (l : list N) : N := fold_right N.add 0 l.
Definition merge (m other : vmap) : res (vmap * vmap) :=
  if len (entries other) =? 0 then Ok (m, other)
  else
    let need := sumN (map (fun e => (if hasOffset (eFlags e) then ePLen e else 0) + (if eKeyId e =? kSpilledKeyId then spillLen e else 0)) (entries other)) in
    m1 <- reserve m (len (entries m) + len (entries other)) (pused m + need) ;;
    r <- mergeLoop m1 (mem other) (entries other) [] ;;
    let (m2, kept) := r : vmap * list entry in
    _ <- sentinel m2 ;; Ok (m2, setEntries other kept).

(** ** updateMaps (Tag.hpp:105-109)
    An entry handed on by iteration is a Value: its record, or the empty Value (VM:3338-3345). *)
Definition rawValue (mm : memory) (e : entry) : value :=
  if hasOffset (eFlags e) && negb (ePOff e =? 0) then
    let o := ePOff e in VRecord (mm (o + 4)) (mm (o + 5)) (mm (o + 6)) (rd mm (o + 8) (N.to_nat (dec (rd mm o 4) - 8)))
  else VMono.
(** The loop, with the answers of insert_or_assign that the code ignores.  Source and destination are different maps. *)
Fixpoint updateLoop (src : memory) (es : list entry) (dest : vmap) : res (vmap * list outcome) :=
  match es with
  | [] => Ok (dest, [])
  | e :: r => x <- insertOrAssign dest (readKey src e) (rawValue src e) false ;; y <- updateLoop src r (fst x) ;; Ok (fst y, snd x :: snd y)
  end.
Definition updateMaps (src dest : vmap) : res (vmap * list outcome) := updateLoop (mem src) (entries src) dest.
