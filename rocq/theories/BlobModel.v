(** Model of the byte image of a property map: writing it out, validating received bytes, reading them back, decoding values.
    Source: /repo/core/include/gnuradio-4.0/ValueMap.hpp (VM), Value.hpp (VA), WireFormat.hpp (WF).
    Bytes are a memory (function from addresses to bytes) and a span of it, given by address and size.  Release build. *)
From Coq Require Import List NArith Bool.
From Verif Require Import Base WireModel ChunkModel ValueMapModel.
Import ListNotations.
Local Open Scope N_scope.

(** Answer of the validator.  [VOk c]: accepted; [c] counts the entries, tensor elements and free chunks that were examined.
    [VErr]: rejected (the error codes of VM:398-405 are not distinguished).  [VBad]: a read outside the span, or no end. *)
Inductive vres (A : Type) := VOk (a : A) | VErr | VBad.
Arguments VOk {A} a.
Arguments VErr {A}.
Arguments VBad {A}.
Definition vbind {A B} (x : vres A) (f : A -> vres B) : vres B := match x with VOk a => f a | VErr => VErr | VBad => VBad end.
Local Notation "x <- e ;; f" := (vbind e (fun x => f)) (at level 61, e at next level, right associativity).
(** if (!c) return std::unexpected{...} *)
Definition check {A} (c : bool) (k : vres A) : vres A := if c then k else VErr.
(** A field of [k] bytes at [off] in the span of [n] bytes at address [a]. *)
Definition get (mm : memory) (a n off : N) (k : nat) : vres N := if off + N.of_nat k <=? n then VOk (dec (rd mm (a + off) k)) else VBad.
(** A part of [k] bytes at [off] of the span, handed on as a span. *)
Definition part {A} (n off k : N) (r : vres A) : vres A := if off + k <=? n then r else VBad.

(** VM:571. *)
Definition kMaxDecodeDepth : N := 32.
(** VA:92-95. *)
Definition kMaxTensorRank : N := 8.
Definition kMaxTensorElements : N := 2 ^ 24.
(** VA:63-66. *)
Definition extentsBytes (rank : N) : N := (4 * rank + 7) / 8 * 8.
(** VA:68. *)
Definition padElement (n : N) : N := N.ldiff (add32 n 7) 7.
(** sizeof of the C++ type of a value type for the fixed-size ones, else 0 (VM:419-437). *)
Definition elemSize (vt : N) : N := nth (N.to_nat vt) [0; 1; 1; 2; 4; 8; 1; 2; 4; 8; 4; 8; 8; 16] 0.

(** ** Validation *)
(** VM:2431-2462: the elements of a tensor of variable-size elements; [sub] validates a nested tensor ([true]) or map. *)
Fixpoint elemsLoop (sub : bool -> N -> N -> vres N) (mm : memory) (a n : N) (count : nat) (off : N) : vres N :=
  match count with
  | O => VOk 0
  | S c =>
      check (16 <=? n - off)
        (pl <- get mm a n (off + 8) 4 ;; vt <- get mm a n (off + 12) 1 ;; fl <- get mm a n (off + 13) 1 ;;
         let off := off + 16 in
         check (pl <=? n - off)
           (x <- part n off pl (if N.testbit fl 4 then sub true (a + off) pl
                                else if (vt =? 15) && N.testbit fl 3 then sub false (a + off) pl else VOk 0) ;;
            y <- elemsLoop sub mm a n c (off + N.min (padElement pl) ((n - off) mod 2 ^ 32)) ;;
            VOk (1 + x + y)))
  end.
(** VM:2390-2468 _validateTensorSubBlob. *)
Definition validateTensor (sub : bool -> N -> N -> vres N) (mm : memory) (depth a n : N) : vres N :=
  check (depth <? kMaxDecodeDepth)
  (check (8 <=? n)
  (vt <- get mm a n 0 1 ;; rank <- get mm a n 1 1 ;; ef <- get mm a n 2 1 ;;
   check (rank <=? kMaxTensorRank)
   (cnt <- get mm a n 4 4 ;;
    check (cnt <=? kMaxTensorElements)
    (check (8 + extentsBytes rank <=? n)
     (let o := 8 + extentsBytes rank in
      check (Bool.eqb (N.testbit ef 0) ((vt =? 14) || (vt =? 15)))
        (part n o (n - o) (if N.testbit ef 0 then elemsLoop sub mm (a + o) (n - o) (N.to_nat cnt) 0
         else check (negb (elemSize vt =? 0)) (check (cnt <=? (n - o) / elemSize vt) (VOk 1))))))))).

(** VM:2492-2547: one entry; [ts] and [po] are totalSize and payloadOffset of the header. *)
Definition validateEntry (sub : bool -> N -> N -> vres N) (mm : memory) (depth a n ts po i : N) : vres N :=
  let e := 32 + 48 * i in
  fl <- get mm a n (e + 11) 1 ;; off <- get mm a n e 4 ;; pl <- get mm a n (e + 4) 4 ;; key <- get mm a n (e + 8) 2 ;; vt <- get mm a n (e + 10) 1 ;;
  x <- (if N.testbit fl 1 then
          check ((po <=? off) && (off <=? ts) && (pl <=? ts - off))
          (check (8 <=? pl)
           (rs <- get mm a n off 4 ;;
            check (rs =? alignToRecord pl)
            (rp <- get mm a n (off + 7) 1 ;;
             check ((rp =? 8) && (vt <=? 15))
              (if N.testbit fl 3 || N.testbit fl 4 then
                 check (depth + 1 <? kMaxDecodeDepth)
                 (check (8 + (if N.testbit fl 3 then 32 else 8) <=? pl) (part n (off + 8) (pl - 8) (sub (negb (N.testbit fl 3)) (a + off + 8) (pl - 8))))
               else VOk 0))))
        else VOk 0) ;;
  y <- (if key =? kInlineKeyId then l <- get mm a n (e + 12) 1 ;; check (l <=? kMaxInlineKeyLength) (VOk 0)
        else if key =? kSpilledKeyId then
          ko <- get mm a n (e + 12) 4 ;; kl <- get mm a n (e + 16) 4 ;;
          check ((po <=? ko) && (ko <=? ts) && (kl <=? ts - ko)) (VOk 0)
        else VOk 0) ;;
  VOk (1 + x + y).
(** VM:2491: the loop over the entries. *)
Fixpoint entriesLoop (one : N -> vres N) (count : nat) (i : N) : vres N :=
  match count with O => VOk 0 | S c => x <- one i ;; y <- entriesLoop one c (i + 1) ;; VOk (x + y) end.
(** VM:2549-2566: the walk along the free list; the fuel is walkCap. *)
Fixpoint freeWalk (fuel : nat) (mm : memory) (a n ts po cur : N) : vres N :=
  if cur =? 0 then VOk 0
  else match fuel with
       | O => VErr
       | S f =>
           check ((po <=? cur) && (cur <=? ts - 8))
           (l <- get mm a n cur 4 ;; nx <- get mm a n (cur + 4) 4 ;;
            check ((8 <=? l) && (l <=? ts - cur)) (x <- freeWalk f mm a n ts po nx ;; VOk (1 + x)))
       end.
(** VM:2470-2568 _validateBlob. *)
Definition validateMap (sub : bool -> N -> N -> vres N) (mm : memory) (depth a n : N) : vres N :=
  check (32 <=? n)
  (check (a mod 16 =? 0)
   (mg <- get mm a n 0 4 ;; ver <- get mm a n 4 1 ;;
    check ((mg =? dec [71; 82; 52; 77]) && (ver =? 1))
    (ts <- get mm a n 12 4 ;; po <- get mm a n 16 4 ;; cnt <- get mm a n 6 2 ;; fh <- get mm a n 28 4 ;;
     check ((ts <=? n) && (po <=? ts))
     (check (32 + 48 * cnt <=? po)
      (x <- entriesLoop (validateEntry sub mm depth a n ts po) (N.to_nat cnt) 0 ;;
       y <- freeWalk (N.to_nat (ts / 8 + 1)) mm a n ts po fh ;;
       VOk (1 + x + y)))))).
(** The recursion of the two functions; both refuse at depth 32, the fuel only has to exceed that. *)
Fixpoint validate (fuel : nat) (mm : memory) (tensor : bool) (depth a n : N) : vres N :=
  match fuel with
  | O => VBad
  | S f => let sub := fun t a' n' => validate f mm t (depth + 1) a' n' in
           if tensor then validateTensor sub mm depth a n else validateMap sub mm depth a n
  end.
Definition validateBlob (mm : memory) (a n : N) : vres N := validate 34 mm false 0 a n.

(** ** Writing and reading back *)
(** VM:289-330 PackedEntry: the bytes of an entry. *)
Definition entryBytes (e : entry) : list N :=
  enc 4 (ePOff e) ++ enc 4 (ePLen e) ++ enc 2 (eKeyId e) ++ [eVT e; eFlags e] ++ firstn 36 (eInline e ++ zeros 36).
(** VM:301-314 Header: the bytes of the header.  The frozen bit is not modelled. *)
Definition headerBytes (m : vmap) : list N :=
  [71; 82; 52; 77; 1; (if over m then 1 else 0)] ++ enc 2 (len (entries m)) ++ enc 2 (ecap m) ++ [0; 0] ++ enc 4 (poff m + pcap m) ++
  enc 4 (poff m) ++ enc 4 (pused m) ++ enc 4 (pcap m) ++ enc 4 (fhead m).
(** VM:1157-1162 blob(): size and bytes, seen at address [a].  totalSize is always payloadOffset + payloadCapacity (VM:2716,
    2792, 1213).  Entry slots that are not live are not written by the code; they are junk here. *)
Definition blobSize (m : vmap) : N := poff m + pcap m.
Definition blobImage (m : vmap) (a : N) : memory := fun x => wr (mem m) 0 (headerBytes m ++ flat_map entryBytes (entries m)) (x - a).
(** The fields of an entry at address [a]. *)
Definition parseEntry (mm : memory) (a : N) : entry :=
  {| ePOff := dec (rd mm a 4); ePLen := dec (rd mm (a + 4) 4); eKeyId := dec (rd mm (a + 8) 2); eVT := mm (a + 10); eFlags := mm (a + 11);
     eInline := rd mm (a + 12) 36 |}.
Fixpoint parseEntries (mm : memory) (a : N) (count : nat) : list entry :=
  match count with O => [] | S c => parseEntry mm a :: parseEntries mm (a + 48) c end.
(** VM:2576-2585: the map over the copied bytes.  [jk]: what later allocations contain. *)
Definition parse (mm : memory) (a : N) (jk : memory) : vmap :=
  {| fixed := false; blobId := 0; cap := dec (rd mm (a + 12) 4); ecap := dec (rd mm (a + 8) 2);
     entries := parseEntries mm (a + 32) (N.to_nat (dec (rd mm (a + 6) 2))); poff := dec (rd mm (a + 16) 4); pused := dec (rd mm (a + 20) 4);
     pcap := dec (rd mm (a + 24) 4); fhead := dec (rd mm (a + 28) 4); over := N.testbit (mm (a + 5)) 0; mem := (fun x => mm (a + x)); junk := jk |}.
(** VM:2570-2586 from_blob. *)
Definition fromBlob (mm : memory) (a n : N) (jk : memory) : option vmap :=
  match validateBlob mm a n with VOk _ => Some (parse mm a jk) | _ => None end.

(** ** Decoding values
    What decoding touches.  [Read]: a range of the blob.  [Scalar]: the range of a scalar, copied without looking at the length
    of the record (VM:640-643).  [Fill cap n]: n bytes written to fresh storage for cap bytes (VM:722-725).
    [Stuck]: the recursion does not end within the fuel. *)
Inductive access := Read (off n : N) | Scalar (off n : N) | Fill (cap n : N) | Stuck.
Definition prodN (l : list N) : N := fold_right N.mul 1 l.
Definition u (mm : memory) (a : N) (k : nat) : N := dec (rd mm a k).
(** VM:684-688: the extents. *)
Fixpoint extents (mm : memory) (a : N) (rank : nat) : list N := match rank with O => [] | S r => u mm a 4 :: extents mm (a + 4) r end.
(** VM:700-714: the elements of a Tensor<Value>.  [el] decodes one element. *)
Fixpoint decodeElems (el : N -> list access) (mm : memory) (a n : N) (count : nat) (off : N) : list access :=
  match count with
  | O => []
  | S c =>
      if n <? off + 16 then []
      else Read (a + off) 16 ::
        (if n - (off + 16) <? u mm (a + off + 8) 4 then []
         else el (a + off) ++ decodeElems el mm a n c (off + 16 + N.min (padElement (u mm (a + off + 8) 4)) (n - (off + 16))))
  end.
(** VM:658-735 decodeTensorBlob. *)
Definition decodeTensor (el : N -> list access) (mm : memory) (a n : N) : list access :=
  if n <? 8 then []
  else
    let vt := mm a in let rank := mm (a + 1) in let var := N.testbit (mm (a + 2)) 0 in let cnt := u mm (a + 4) 4 in
    Read a 8 ::
    (if (kMaxTensorRank <? rank) || (kMaxTensorElements <? cnt) || (n <? 8 + extentsBytes rank) then []
     else
       let o := 8 + extentsBytes rank in
       Read (a + 8) (4 * rank) ::
       (if vt =? 15 then if var then decodeElems el mm (a + o) (n - o) (N.to_nat cnt) 0 else []
        else if elemSize vt =? 0 then []
        else if var then []
        else if negb (cnt =? 0) && ((n - o) / elemSize vt <? cnt) then []
        else [Read (a + o) (elemSize vt * cnt); Fill (elemSize vt * prodN (extents mm (a + 8) (N.to_nat rank))) (elemSize vt * cnt)])).
(** VM:3436-3450 buildNestedMapValue: keys and values of a nested map at [a]; inserting them into the new map is not modelled. *)
Fixpoint decodeEntries (one : N -> N -> list access) (mm : memory) (a : N) (count : nat) (i : N) : list access :=
  match count with
  | O => []
  | S c =>
      let e := a + 32 + 48 * i in
      let key := u mm (e + 8) 2 in
      (if key =? kInlineKeyId then [Read (e + 13) (mm (e + 12))]
       else if key =? kSpilledKeyId then [Read (a + u mm (e + 12) 4) (u mm (e + 16) 4)] else []) ++
      one a e ++ decodeEntries one mm a c (i + 1)
  end.
(** VM:613-628, 747-759: a nested map in [n] bytes at [a]. *)
Definition decodeMap (one : N -> N -> list access) (mm : memory) (a n : N) : list access :=
  if n <? 32 then []
  else Read a 32 ::
    (if n <? 32 + 48 * u mm (a + 6) 2 then []
     else Read (a + 32) (48 * u mm (a + 6) 2) :: decodeEntries one mm a (N.to_nat (u mm (a + 6) 2)) 0).
(** VM:592-653 decodeEntry ([elem] = None) and VM:739-780 decodeTensorElement ([elem] = Some, [e] the element header).
    [a] is the start of the blob, [e] the address of the entry. *)
Fixpoint decode (fuel : nat) (mm : memory) (isElem : bool) (depth a e : N) : list access :=
  match fuel with
  | O => [Stuck]
  | S f =>
      let fl := if isElem then mm (e + 13) else mm (e + 11) in
      let vt := if isElem then mm (e + 12) else mm (e + 10) in
      let off := u mm e 4 in
      let pl := u mm (e + 4) 4 in
      let base := if isElem then e + 16 else a + off + 8 in
      let n := if isElem then u mm (e + 8) 4 else if 8 <? pl then pl - 8 else 0 in
      if negb isElem && (negb (N.testbit fl 1) || (off =? 0)) then []
      else if N.testbit fl 4 then
        if kMaxDecodeDepth <=? depth then [] else decodeTensor (decode f mm true (depth + 1) a) mm base n
      else if N.testbit fl 3 && (negb isElem || (vt =? 15)) then
        if kMaxDecodeDepth <=? depth then [] else decodeMap (decode f mm false (depth + 1)) mm base n
      else if vt =? 14 then [Read base n]
      else if vt =? 13 then if n <? 16 then [] else [Read base 16]
      else if isElem || (elemSize vt =? 0) then []
      else [Scalar base (elemSize vt)]
  end.
(** VM:1811-1850, 3070: decoding every entry of an accepted blob, as iteration over keys and values does. *)
Definition decodeAll (mm : memory) (a : N) : list access := decodeEntries (decode 34 mm false 0) mm a (N.to_nat (u mm (a + 6) 2)) 0.
