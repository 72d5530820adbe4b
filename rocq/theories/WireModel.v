(** Model of the framed byte stream and of the record prefix.
    Sources: /repo/core/include/gnuradio-4.0/WireStream.hpp (WS) and WireFormat.hpp (WF).
    Bytes are [N] below 256, integers are stored least significant byte first (WF:17 refuses other hosts).
    [None] at the outer level of a read is an access outside the buffer; the functions below report it explicitly. *)
From Coq Require Import List NArith Bool.
From Verif Require Import CrcModel.
Import ListNotations.
Local Open Scope N_scope.

Definition len {A} (l : list A) : N := N.of_nat (length l).

(** memcpy of an integer of [n] bytes to and from the buffer. *)
Fixpoint enc (n : nat) (x : N) : list N := match n with O => [] | S k => x mod 256 :: enc k (x / 256) end.
Fixpoint dec (l : list N) : N := match l with [] => 0 | b :: r => b + 256 * dec r end.

(** A read of [n] bytes at [pos]; [None] outside the buffer. *)
Definition sub (l : list N) (pos n : N) : option (list N) :=
  if pos + n <=? len l then Some (firstn (N.to_nat n) (skipn (N.to_nat pos) l)) else None.
(** A write of the bytes [v] at [pos]; [None] outside the buffer. *)
Definition put (l : list N) (pos : N) (v : list N) : option (list N) :=
  if pos + len v <=? len l then Some (firstn (N.to_nat pos) l ++ v ++ skipn (N.to_nat (pos + len v)) l) else None.
(** Unsigned subtraction of size_t. *)
Definition usub (a b : N) : N := if b <=? a then a - b else a + 2 ^ 64 - b.

(** WS:23-31. *)
Definition magic : list N := [0x47; 0x52; 0x34; 0x57].
Definition versionV1 : N := 1.
Definition flagCrc : N := 1.
Definition headerBytes : N := 8.
Definition envBytes : N := 16.
Definition crcOffset : N := 12.

(** WS:45-51 writeStreamHeader (8 bytes). *)
Definition headerImage (flags : N) : list N := magic ++ enc 2 versionV1 ++ enc 2 flags.
(** WS:54-68 readStreamHeader: the flags, or nothing. *)
Definition readStreamHeader (b : list N) : option N :=
  if len b <? headerBytes then None
  else if list_eq_dec N.eq_dec (firstn 4 b) magic
       then let version := dec (firstn 2 (skipn 4 b)) in
            let flags := dec (firstn 2 (skipn 6 b)) in
            if version =? versionV1 then Some flags else None
       else None.

(** WS:39-43 FrameEnvelope. *)
Record envelope := { fsize : N; fseq : N; fcrc : N }.
(** WS:72-77 writeFrameEnvelope (16 bytes). *)
Definition envImage (e : envelope) : list N := enc 4 (fsize e) ++ enc 8 (fseq e) ++ enc 4 (fcrc e).
(** WS:79-88 readFrameEnvelope on the rest of the buffer from [pos]. *)
Definition readEnv (b : list N) (pos : N) : option envelope :=
  match sub b pos envBytes with
  | None => None
  | Some s => Some {| fsize := dec (firstn 4 s); fseq := dec (firstn 8 (skipn 4 s)); fcrc := dec (firstn 4 (skipn 12 s)) |}
  end.

Section Stream.
(** The native vector width used by updateSimd. *)
Variable W : nat.

(** WS:93-99 computeFrameCrc. *)
Definition frameCrc (env0 payload : list N) : N :=
  N.lxor (updateSimd CASTAGNOLI W (updateSimd CASTAGNOLI W (init CASTAGNOLI) env0) payload) (xorOut CASTAGNOLI).

(** WS:104-144: the writer; [wout] is the caller's vector. *)
Record writer := { wflags : N; wseq : N; whdr : bool; wout : list N }.
(** WS:106. *)
Definition newWriter (flags : N) (out : list N) : writer := {| wflags := flags; wseq := 0; whdr := false; wout := out |}.
(** WS:109-115. *)
Definition writeHeader (w : writer) : writer :=
  {| wflags := wflags w; wseq := 0; whdr := true; wout := wout w ++ headerImage (wflags w) |}.
(** WS:120-136.  The size is truncated to 32 bits (WS:128). *)
Definition writeFrame (w0 : writer) (payload : list N) : writer :=
  let w := if whdr w0 then w0 else writeHeader w0 in
  let env := {| fsize := len payload mod 2 ^ 32; fseq := wseq w; fcrc := 0 |} in
  let env' := if N.testbit (wflags w) 0
              then {| fsize := fsize env; fseq := fseq env; fcrc := frameCrc (envImage env) payload |} else env in
  {| wflags := wflags w; wseq := (wseq w + 1) mod 2 ^ 64; whdr := true; wout := wout w ++ envImage env' ++ payload |}.

(** WS:146-154. *)
Inductive status := SOk | STruncated | SBadCrc | SBadSequence.
(** The payload is a view: position and length in the buffer. *)
Record frame := { fenv : envelope; fpos : N; flen : N; fstat : status }.

(** WS:219-223: the reader. *)
Record reader := { rbytes : list N; rcur : N; rflags : N; rnext : N }.
(** WS:225-228: a fresh reader. *)
Definition newReader : reader := {| rbytes := []; rcur := 0; rflags := 0; rnext := 0 |}.
(** WS:162-173.  A refused header leaves the old flags and the old expected sequence number in place. *)
Definition begin (r : reader) (b : list N) : reader * option N :=
  match readStreamHeader b with
  | None => ({| rbytes := b; rcur := 0; rflags := rflags r; rnext := rnext r |}, None)
  | Some f => ({| rbytes := b; rcur := headerBytes; rflags := f; rnext := 0 |}, Some f)
  end.

Definition noEnv : envelope := {| fsize := 0; fseq := 0; fcrc := 0 |}.

(** WS:178-220.  Outer [None]: a read outside the buffer.  Inner [None]: end of stream. *)
Definition next (r : reader) : option (reader * option frame) :=
  let n := len (rbytes r) in
  if n <=? rcur r then Some (r, None)
  else
    match readEnv (rbytes r) (rcur r) with
    | None => Some ({| rbytes := rbytes r; rcur := n; rflags := rflags r; rnext := rnext r |},
                    Some {| fenv := noEnv; fpos := 0; flen := 0; fstat := STruncated |})
    | Some e =>
        let envEnd := rcur r + envBytes in
        if usub n envEnd <? fsize e
        then Some ({| rbytes := rbytes r; rcur := n; rflags := rflags r; rnext := rnext r |},
                   Some {| fenv := e; fpos := 0; flen := 0; fstat := STruncated |})
        else
          match sub (rbytes r) envEnd (fsize e) with
          | None => None
          | Some payload =>
              let s1 := if fseq e =? rnext r then SOk else SBadSequence in
              match (if N.testbit (rflags r) 0
                     then match sub (rbytes r) (rcur r) envBytes with
                          | None => None
                          | Some ec => match put ec crcOffset (enc 4 0) with
                                       | None => None
                                       | Some z => Some (if frameCrc z payload =? fcrc e then s1 else SBadCrc)
                                       end
                          end
                     else Some s1) with
              | None => None
              | Some s => Some ({| rbytes := rbytes r; rcur := envEnd + fsize e; rflags := rflags r; rnext := (rnext r + 1) mod 2 ^ 64 |},
                                Some {| fenv := e; fpos := envEnd; flen := fsize e; fstat := s |})
              end
          end
    end.

(** A client that calls next() until the end of the stream (at most [fuel] frames). *)
Fixpoint readAll (fuel : nat) (r : reader) : option (list frame) :=
  match fuel with
  | O => None
  | S k => match next r with
           | None => None
           | Some (_, None) => Some []
           | Some (r', Some f) => match readAll k r' with None => None | Some fs => Some (f :: fs) end
           end
  end.
End Stream.

(** *** Record prefix, WF:54-78 *)
Definition elementSize (h : list N) : option N := match sub h 0 4 with Some s => Some (dec s) | None => None end.
Definition setElementSize (h : list N) (n : N) : option (list N) := put h 0 (enc 4 n).
Definition byteAt (h : list N) (p : N) : option N := match sub h p 1 with Some [b] => Some b | _ => None end.
Definition valueType (h : list N) : option N := byteAt h 4.
Definition containerType (h : list N) : option N := byteAt h 5.
Definition flags (h : list N) : option N := byteAt h 6.
Definition payloadOffset (h : list N) : option N := byteAt h 7.
(** WF:72-78. *)
Definition writeHeaderSized (h : list N) (size vt ct fl po : N) : option (list N) :=
  match setElementSize h size with
  | None => None
  | Some h1 => match put h1 4 [vt] with
    | None => None
    | Some h2 => match put h2 5 [ct] with
      | None => None
      | Some h3 => match put h3 6 [fl] with None => None | Some h4 => put h4 7 [po] end
      end
    end
  end.

(** *** Annotations, WF:84-158 *)
Record annotation := { quantity : list N; unit_ : list N; description : list N }.
(** WF:90-92. *)
Definition annotationByteSize (a : annotation) : N := 1 + len (quantity a) + 1 + len (unit_ a) + 2 + len (description a).
(** WF:97-118.  Outer [None]: a write outside the buffer; inner [None]: refused. *)
Definition writeAnnotation (out : list N) (a : annotation) : option (list N * option N) :=
  if (0xFF <? len (quantity a)) || (0xFF <? len (unit_ a)) || (0xFFFF <? len (description a)) then Some (out, None)
  else if len out <? annotationByteSize a then Some (out, None)
  else
    match put out 0 [len (quantity a)] with None => None | Some o1 =>
    match put o1 1 (quantity a) with None => None | Some o2 =>
    let p := 1 + len (quantity a) in
    match put o2 p [len (unit_ a)] with None => None | Some o3 =>
    match put o3 (p + 1) (unit_ a) with None => None | Some o4 =>
    let q := p + 1 + len (unit_ a) in
    match put o4 q (enc 2 (len (description a))) with None => None | Some o5 =>
    match put o5 (q + 2) (description a) with None => None | Some o6 =>
    Some (o6, Some (q + 2 + len (description a))) end end end end end end.

(** WF:125-158.  Outer [None]: a read outside the buffer; inner [None]: refused. *)
Definition readAnnotation (b : list N) : option (option (annotation * N)) :=
  let n := len b in
  if n <? 1 then Some None else
  match byteAt b 0 with None => None | Some q =>
  if n <? 1 + q then Some None else
  match sub b 1 q with None => None | Some qs =>
  let p := 1 + q in
  if n <? p + 1 then Some None else
  match byteAt b p with None => None | Some u =>
  if n <? p + 1 + u then Some None else
  match sub b (p + 1) u with None => None | Some us =>
  let r := p + 1 + u in
  if n <? r + 2 then Some None else
  match sub b r 2 with None => None | Some ds =>
  let d := dec ds in
  if n <? r + 2 + d then Some None else
  match sub b (r + 2) d with None => None | Some des =>
  Some (Some ({| quantity := qs; unit_ := us; description := des |}, r + 2 + d)) end end end end end end.
