(** Model of the CRC engine.  Source: /repo/core/include/gnuradio-4.0/CRC.hpp (CRC).
    Registers are [N]; every static_cast to the register type is [trunc w].  Bytes are [N] below 256.  The constant tables
    are functions of their index (simplification: the code tabulates these functions at compile time). *)
From Coq Require Import List NArith Bool.
Import ListNotations.
Local Open Scope N_scope.

(** CRC:26-57, struct Traits. *)
Record traits := { width : N; poly : N; init : N; xorOut : N; reflected : bool }.
(** CRC:29-37. *)
Definition IEEE := {| width := 32; poly := 0xEDB88320; init := 0xFFFFFFFF; xorOut := 0xFFFFFFFF; reflected := true |}.
(** CRC:39-47. *)
Definition CASTAGNOLI := {| width := 32; poly := 0x82F63B78; init := 0xFFFFFFFF; xorOut := 0xFFFFFFFF; reflected := true |}.
(** CRC:49-57. *)
Definition MODBUS := {| width := 16; poly := 0xA001; init := 0xFFFF; xorOut := 0; reflected := true |}.

(** static_cast<T>. *)
Definition trunc (w x : N) : N := N.land x (N.ones w).
Definition byteOf (x : N) (sh : N) : N := N.land (N.shiftr x sh) 0xFF.

(** [n]-fold application (the for loops). *)
Fixpoint iter (n : nat) (f : N -> N) (x : N) : N := match n with O => x | S k => iter k f (f x) end.

Section Engine.
Variable t : traits.

(** CRC:78-80 (reflected) and CRC:94-96 (not reflected): one shift. *)
Definition shiftR (c : N) : N := trunc (width t) (N.lxor (N.shiftr c 1) (if N.testbit c 0 then poly t else 0)).
Definition shiftL (c : N) : N :=
  if N.testbit c (width t - 1) then trunc (width t) (N.lxor (N.shiftl c 1) (poly t)) else trunc (width t) (N.shiftl c 1).

(** CRC:76-83 and CRC:92-99: t[0][b]. *)
Definition table0 (b : N) : N :=
  if reflected t then iter 8 shiftR (trunc (width t) b)
  else iter 8 shiftL (trunc (width t) (N.shiftl (trunc (width t) b) (width t - 8))).
(** CRC:84-90 and CRC:100-106: t[i][b]. *)
Definition table (i : nat) (b : N) : N :=
  iter i (fun c => if reflected t then trunc (width t) (N.lxor (N.shiftr c 8) (table0 (N.land c 0xFF)))
                   else trunc (width t) (N.lxor (trunc (width t) (N.shiftl c 8)) (table0 (byteOf c (width t - 8))))) (table0 b).

(** CRC:111-120. *)
Definition step (crc byte : N) : N :=
  if reflected t then trunc (width t) (N.lxor (N.shiftr crc 8) (table 0 (N.land (N.lxor crc byte) 0xFF)))
  else trunc (width t) (N.lxor (trunc (width t) (N.shiftl crc 8)) (table 0 (N.land (N.lxor (N.shiftr crc (width t - 8)) byte) 0xFF))).

(** CRC:122-160 (the three register sizes). *)
Definition advance8 (crc0 block : N) : N :=
  if width t =? 16 then
    let crc := trunc 16 (N.lxor crc0 (trunc 16 block)) in
    trunc 16 (N.lxor (N.lxor (N.lxor (N.lxor (N.lxor (N.lxor (N.lxor
      (table 7 (byteOf crc 0)) (table 6 (byteOf crc 8))) (table 5 (byteOf block 16))) (table 4 (byteOf block 24)))
      (table 3 (byteOf block 32))) (table 2 (byteOf block 40))) (table 1 (byteOf block 48))) (table 0 (byteOf block 56)))
  else if width t =? 32 then
    let crc := N.lxor crc0 (trunc 32 block) in
    let hi := trunc 32 (N.shiftr block 32) in
    N.lxor (N.lxor (N.lxor (N.lxor (N.lxor (N.lxor (N.lxor
      (table 0 (byteOf hi 24)) (table 1 (byteOf hi 16))) (table 2 (byteOf hi 8))) (table 3 (byteOf hi 0)))
      (table 4 (byteOf crc 24))) (table 5 (byteOf crc 16))) (table 6 (byteOf crc 8))) (table 7 (byteOf crc 0))
  else
    let crc := N.lxor crc0 block in
    N.lxor (N.lxor (N.lxor (N.lxor (N.lxor (N.lxor (N.lxor
      (table 0 (byteOf crc 56)) (table 1 (byteOf crc 48))) (table 2 (byteOf crc 40))) (table 3 (byteOf crc 32)))
      (table 4 (byteOf crc 24))) (table 5 (byteOf crc 16))) (table 6 (byteOf crc 8))) (table 7 (byteOf crc 0)).

(** CRC:170-173: eight bytes, least significant first. *)
Definition load8 (b0 b1 b2 b3 b4 b5 b6 b7 : N) : N :=
  N.lor (N.shiftl b7 56) (N.lor (N.shiftl b6 48) (N.lor (N.shiftl b5 40) (N.lor (N.shiftl b4 32)
    (N.lor (N.shiftl b3 24) (N.lor (N.shiftl b2 16) (N.lor (N.shiftl b1 8) b0)))))).

(** CRC:164-183. *)
Fixpoint updateScalar (crc : N) (input : list N) : N :=
  match input with
  | b0 :: b1 :: b2 :: b3 :: b4 :: b5 :: b6 :: b7 :: r =>
      if reflected t then updateScalar (advance8 crc (load8 b0 b1 b2 b3 b4 b5 b6 b7)) r
      else fold_left step input crc
  | _ => fold_left step input crc
  end.

(** CRC:196-208: one SIMD chunk of W bytes, through the staging array. *)
Fixpoint chunk (crc : N) (staging : list N) : N :=
  match staging with
  | b0 :: b1 :: b2 :: b3 :: b4 :: b5 :: b6 :: b7 :: r =>
      if reflected t then chunk (advance8 crc (load8 b0 b1 b2 b3 b4 b5 b6 b7)) r
      else fold_left step staging crc
  | _ => crc
  end.
(** CRC:193-213; [n] counts the remaining iterations of the while loop (length / W). *)
Fixpoint chunks (W n : nat) (crc : N) (input : list N) : N :=
  match n with
  | O => updateScalar crc input
  | S k => chunks W k (chunk crc (firstn W input)) (skipn W input)
  end.
(** CRC:185-216; W is the native vector width. *)
Definition updateSimd (W : nat) (crc : N) (input : list N) : N :=
  if (Nat.leb 8 W) && (Nat.eqb (Nat.modulo W 8) 0) then chunks W (Nat.div (length input) W) crc input else updateScalar crc input.

(** CRC:218-226. *)
Definition compute (W : nat) (input : list N) : N := trunc (width t) (N.lxor (updateSimd W (init t) input) (xorOut t)).
Definition computeScalar (input : list N) : N := trunc (width t) (N.lxor (updateScalar (init t) input) (xorOut t)).

End Engine.
