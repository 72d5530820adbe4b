(** What a DEFLATE stream means (RFC 1951), stated on bit lists and independent of the codec's tables, readers and writers. *)
From Coq Require Import List NArith Arith Bool.
From Verif Require Import CrcSpec.
Import ListNotations.
Local Open Scope N_scope.

(** RFC 1951 3.1.1: bits of a byte from the least significant one; data elements least significant bit first, Huffman codes
    most significant bit first. *)
Definition lsb (w : nat) (x : N) : list bool := map (fun i => N.testbit x (N.of_nat i)) (seq 0 w).
Definition msb (w : nat) (x : N) : list bool := rev (lsb w x).
Definition bitsOf (bytes : list N) : list bool := flat_map (lsb 8) bytes.
Definition octets (l : list N) : Prop := Forall (fun b => b < 256) l.

(** RFC 1951 3.2.2: the canonical code of symbol [s] among code lengths [lens] (0: no code).  Codes are ordered by length and
    then by symbol; each code is the sum of the space taken by those before it. *)
Definition precedes (lens : list nat) (s s' : nat) : bool :=
  let l := nth s lens 0%nat in let l' := nth s' lens 0%nat in
  negb (l' =? 0)%nat && ((l' <? l)%nat || ((l' =? l)%nat && (s' <? s)%nat)).
Definition codeValue (lens : list nat) (s : nat) : N :=
  fold_right (fun s' acc => (if precedes lens s s' then 2 ^ N.of_nat (nth s lens 0%nat - nth s' lens 0%nat) else 0) + acc) 0
             (seq 0 (length lens)).
Definition hasCode (lens : list nat) (s : nat) : Prop := nth s lens 0%nat <> 0%nat.
Definition codeword (lens : list nat) (s : nat) : list bool := msb (nth s lens 0%nat) (codeValue lens s).

(** Space used by a code out of 2^M. *)
Definition kraft (M : nat) (lens : list nat) : N :=
  fold_right (fun l acc => (if (l =? 0)%nat then 0 else 2 ^ N.of_nat (M - l)) + acc) 0 lens.
Definition complete (M : nat) (lens : list nat) : Prop := Forall (fun l => (l <= M)%nat) lens /\ kraft M lens = 2 ^ N.of_nat M.
(** A single code of one bit is the one incomplete code the format allows. *)
Definition single (lens : list nat) : Prop := exists s, nth s lens 0%nat = 1%nat /\ (forall s', s' <> s -> nth s' lens 0%nat = 0%nat).
Definition unused (lens : list nat) : Prop := forall s, nth s lens 0%nat = 0%nat.

(** RFC 1951 3.2.5, in closed form: base and number of extra bits of length code [257 + i] and distance code [i]. *)
Definition lengthExtra (i : nat) : nat := if (i <? 8)%nat || (i =? 28)%nat then 0%nat else (i / 4 - 1)%nat.
Definition lengthBase (i : nat) : N :=
  if (i <? 8)%nat then N.of_nat i + 3
  else if (i =? 28)%nat then 258
  else 3 + N.shiftl (4 + N.of_nat (i mod 4)) (N.of_nat (lengthExtra i)).
Definition distExtra (i : nat) : nat := if (i <? 4)%nat then 0%nat else (i / 2 - 1)%nat.
Definition distBase (i : nat) : N :=
  if (i <? 4)%nat then N.of_nat i + 1 else 1 + N.shiftl (2 + N.of_nat (i mod 2)) (N.of_nat (distExtra i)).

(** LZ77: a literal appends a byte; a reference appends [len] bytes, each equal to the one [dist] places before it. *)
Inductive token := Lit (b : N) | Ref (len dist : N).
Fixpoint lzCopy (n : nat) (dist : nat) (out : list N) : list N :=
  match n with O => out | S k => lzCopy k dist (out ++ [nth (length out - dist) out 0]) end.
Inductive expand : list N -> list token -> list N -> Prop :=
| ex_nil out : expand out [] out
| ex_lit out b ts res : expand (out ++ [b]) ts res -> expand out (Lit b :: ts) res
| ex_ref out len dist ts res : 1 <= dist -> dist <= N.of_nat (length out) ->
    expand (lzCopy (N.to_nat len) (N.to_nat dist) out) ts res -> expand out (Ref len dist :: ts) res.

(** RFC 1951 3.2.3: the bits of a token under a literal/length code and a distance code, and of a token sequence with its end
    of block code. *)
Inductive tokenBits (lit dist : list nat) : token -> list bool -> Prop :=
| tb_lit b : b < 256 -> hasCode lit (N.to_nat b) -> tokenBits lit dist (Lit b) (codeword lit (N.to_nat b))
| tb_ref i e j f : (i < 29)%nat -> hasCode lit (257 + i) -> e < 2 ^ N.of_nat (lengthExtra i) ->
    (j < 30)%nat -> hasCode dist j -> f < 2 ^ N.of_nat (distExtra j) ->
    tokenBits lit dist (Ref (lengthBase i + e) (distBase j + f))
      (codeword lit (257 + i) ++ lsb (lengthExtra i) e ++ codeword dist j ++ lsb (distExtra j) f).
Inductive bodyBits (lit dist : list nat) : list token -> list bool -> Prop :=
| bb_end : hasCode lit 256 -> bodyBits lit dist [] (codeword lit 256)
| bb_tok t ts b bs : tokenBits lit dist t b -> bodyBits lit dist ts bs -> bodyBits lit dist (t :: ts) (b ++ bs).

(** RFC 1951 3.2.7: code lengths written with a code over 0..18; [lengthsBits cl total sofar all bits]. *)
Inductive lengthsBits (cl : list nat) (total : nat) : list nat -> list nat -> list bool -> Prop :=
| lb_end all : length all = total -> lengthsBits cl total all all []
| lb_len sofar l all bs : (length sofar < total)%nat -> (l <= 15)%nat -> hasCode cl l ->
    lengthsBits cl total (sofar ++ [l]) all bs -> lengthsBits cl total sofar all (codeword cl l ++ bs)
| lb_prev sofar l e all bs : hasCode cl 16 -> e < 4 -> (length sofar + 1 + (3 + N.to_nat e) <= total)%nat ->
    lengthsBits cl total ((sofar ++ [l]) ++ repeat l (3 + N.to_nat e)) all bs ->
    lengthsBits cl total (sofar ++ [l]) all (codeword cl 16 ++ lsb 2 e ++ bs)
| lb_zero3 sofar e all bs : hasCode cl 17 -> e < 8 -> (length sofar + (3 + N.to_nat e) <= total)%nat ->
    lengthsBits cl total (sofar ++ repeat 0%nat (3 + N.to_nat e)) all bs ->
    lengthsBits cl total sofar all (codeword cl 17 ++ lsb 3 e ++ bs)
| lb_zero11 sofar e all bs : hasCode cl 18 -> e < 128 -> (length sofar + (11 + N.to_nat e) <= total)%nat ->
    lengthsBits cl total (sofar ++ repeat 0%nat (11 + N.to_nat e)) all bs ->
    lengthsBits cl total sofar all (codeword cl 18 ++ lsb 7 e ++ bs).

(** RFC 1951 3.2.7: the order in which the lengths of the code length code are sent. *)
Definition sendOrder : list nat := [16; 17; 18; 0; 8; 7; 9; 6; 10; 5; 11; 4; 12; 3; 13; 2; 14; 1; 15]%nat.
Definition codeLengthBits (cl : list nat) (nc : nat) : list bool :=
  flat_map (fun i => lsb 3 (N.of_nat (nth i cl 0%nat))) (firstn nc sendOrder).

(** RFC 1951 3.2.6. *)
Definition fixedLit (s : nat) : nat := if (s <? 144)%nat then 8%nat else if (s <? 256)%nat then 9%nat else if (s <? 280)%nat then 7%nat else 8%nat.
Definition fixedLitLens : list nat := map fixedLit (seq 0 288).
Definition fixedDistLens : list nat := map (fun _ => 5%nat) (seq 0 32).

(** RFC 1951 3.2.3-3.2.7: [block off out bits out']: at bit offset [off] from the start of the stream, with [out] decoded so
    far, the bits after the three header bits take the output to [out']. *)
Inductive block : nat -> list N -> list bool -> N -> list N -> Prop :=
| bl_stored off out pad data : (length pad < 8)%nat -> ((off + length pad) mod 8 = 0)%nat -> octets data ->
    N.of_nat (length data) < 65536 ->
    block off out (pad ++ lsb 16 (N.of_nat (length data)) ++ lsb 16 (65535 - N.of_nat (length data)) ++ bitsOf data) 0 (out ++ data)
| bl_fixed off out ts bs out' : bodyBits fixedLitLens fixedDistLens ts bs -> expand out ts out' -> block off out bs 1 out'
| bl_dynamic off out nl nd nc cl lens ts hs bs out' :
    (257 <= nl <= 286)%nat -> (1 <= nd <= 30)%nat -> (4 <= nc <= 19)%nat ->
    length cl = 19%nat -> (forall i, (nc <= i < 19)%nat -> nth (nth i sendOrder 0%nat) cl 0%nat = 0%nat) -> complete 7 cl ->
    lengthsBits cl (nl + nd) [] lens hs ->
    hasCode (firstn nl lens) 256 -> (complete 15 (firstn nl lens) \/ single (firstn nl lens)) ->
    (complete 15 (skipn nl lens) \/ single (skipn nl lens) \/ unused (skipn nl lens)) ->
    bodyBits (firstn nl lens) (skipn nl lens) ts bs -> expand out ts out' ->
    block off out (lsb 5 (N.of_nat (nl - 257)) ++ lsb 5 (N.of_nat (nd - 1)) ++ lsb 4 (N.of_nat (nc - 4))
                   ++ codeLengthBits cl nc ++ hs ++ bs) 2 out'.
Inductive blocks : nat -> list N -> list bool -> list N -> Prop :=
| bs_last off out kind bs out' : block (off + 3) out bs kind out' -> blocks off out (lsb 1 1 ++ lsb 2 kind ++ bs) out'
| bs_more off out kind bs out1 rest out' : block (off + 3) out bs kind out1 ->
    blocks (off + 3 + length bs) out1 rest out' -> blocks off out (lsb 1 0 ++ lsb 2 kind ++ bs ++ rest) out'.
(** [bytes] is exactly one DEFLATE stream (padded to a byte) for [out]. *)
Definition Deflate (bytes out : list N) : Prop :=
  exists bs pad, bitsOf bytes = bs ++ pad /\ (length pad < 8)%nat /\ blocks 0 [] bs out.

(** RFC 1950 9 / 8.2: Adler-32. *)
Definition adlerSums (l : list N) : N * N := fold_left (fun s x => ((fst s + x) mod 65521, (snd s + (fst s + x)) mod 65521)) l (1, 0).
Definition adlerSpec (l : list N) : N := let s := adlerSums l in snd s * 65536 + fst s.

(** Numbers in [n] bytes, least significant first. *)
Fixpoint le (n : nat) (v : N) : list N := match n with O => [] | S k => v mod 256 :: le k (v / 256) end.
(** RFC 1952 8: [c] is the CRC-32 of [l] (the long division of CrcSpec with the ITU-T V.42 polynomial). *)
Definition crc32Of (l : list N) (c : N) : Prop :=
  c < 2 ^ 32 /\ bitsLSB 32 c = xorFront (bitsMSB 32 0xFFFFFFFF) (spec_bits 32 0x04C11DB7 0xFFFFFFFF true l).

(** RFC 1950 2.2: two header bytes, the DEFLATE data, the check value with its most significant byte first.  [ok out c] is what
    is asked of the check value. *)
Definition Zlib (ok : list N -> N -> Prop) (bytes out : list N) : Prop :=
  exists cmf flg body c, bytes = [cmf; flg] ++ body ++ rev (le 4 c) /\ c < 2 ^ 32 /\ cmf mod 16 = 8 /\ cmf / 16 <= 7 /\
    (cmf * 256 + flg) mod 31 = 0 /\ N.testbit flg 5 = false /\ Deflate body out /\ ok out c.

(** RFC 1952 2.3: optional header fields. *)
Definition opt (present : bool) (P : list N -> Prop) (l : list N) : Prop := if present then P l else l = [].
Definition extraField (l : list N) : Prop := exists d, N.of_nat (length d) < 65536 /\ l = le 2 (N.of_nat (length d)) ++ d.
Definition zeroEnded (l : list N) : Prop := exists s, ~ In 0 s /\ l = s ++ [0].
Definition gzipHead (hdr : list N) : Prop :=
  exists flg six ex name comment hc, hdr = ([31; 139; 8; flg] ++ six ++ ex ++ name ++ comment) ++ hc /\ length six = 6%nat /\
    N.testbit flg 5 = false /\ N.testbit flg 6 = false /\ N.testbit flg 7 = false /\
    opt (N.testbit flg 2) extraField ex /\ opt (N.testbit flg 3) zeroEnded name /\ opt (N.testbit flg 4) zeroEnded comment /\
    opt (N.testbit flg 1) (fun l => exists c, crc32Of ([31; 139; 8; flg] ++ six ++ ex ++ name ++ comment) c /\ l = le 2 (c mod 65536)) hc.
(** RFC 1952 2.2-2.3: members one after the other; each ends with the check value and the size modulo 2^32. *)
Definition Member (ok : list N -> N -> Prop) (bytes out : list N) : Prop :=
  exists hdr body c, bytes = hdr ++ body ++ le 4 c ++ le 4 (N.of_nat (length out) mod 2 ^ 32) /\ c < 2 ^ 32 /\
    gzipHead hdr /\ Deflate body out /\ ok out c.
Inductive Gzip (ok : list N -> N -> Prop) : list N -> list N -> Prop :=
| gz_one b out : Member ok b out -> Gzip ok b out
| gz_more b out b' out' : Member ok b out -> Gzip ok b' out' -> Gzip ok (b ++ b') (out ++ out').
(** The check values right, and any check values at all. *)
Definition adlerRight (out : list N) (c : N) : Prop := c = adlerSpec out.
Definition anything (out : list N) (c : N) : Prop := True.
