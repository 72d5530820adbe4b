(** What a framed stream is, in terms of bytes only. *)
From Coq Require Import List NArith Bool.
From Verif Require Import CrcModel WireModel.
Import ListNotations.
Local Open Scope N_scope.

(** The bytes [pos, pos+n). *)
Definition view (b : list N) (pos n : N) : list N := firstn (N.to_nat n) (skipn (N.to_nat pos) b).
(** An unsigned little-endian integer. *)
Definition u (b : list N) (pos n : N) : N := dec (view b pos n).
Definition payloadOf (b : list N) (f : frame) : list N := view b (fpos f) (flen f).

(** The checksum a frame at [pos] must carry: CRC32C (C27) of the envelope with a zero checksum field, then the payload. *)
Definition checksum (W : nat) (b : list N) (pos n : N) : N :=
  compute CASTAGNOLI W (view b pos 12 ++ [0; 0; 0; 0] ++ view b (pos + 16) n).

(** The frames of a buffer from [pos] on, expecting sequence number [seq]. *)
Inductive tiles (W : nat) (b : list N) (crc : bool) : N -> N -> list frame -> Prop :=
| tiles_end pos seq : len b <= pos -> tiles W b crc pos seq []
| tiles_cut pos seq f : pos < len b -> (len b < pos + 16 \/ len b < pos + 16 + u b pos 4) ->
    fstat f = STruncated -> flen f = 0 -> tiles W b crc pos seq [f]
| tiles_frame pos seq f fs : flen f = u b pos 4 -> fpos f = pos + 16 -> fpos f + flen f <= len b ->
    fsize (fenv f) = u b pos 4 -> fseq (fenv f) = u b (pos + 4) 8 -> fcrc (fenv f) = u b (pos + 12) 4 ->
    fstat f = (if crc && negb (checksum W b pos (flen f) =? u b (pos + 12) 4) then SBadCrc
               else if u b (pos + 4) 8 =? seq then SOk else SBadSequence) ->
    tiles W b crc (fpos f + flen f) ((seq + 1) mod 2 ^ 64) fs -> tiles W b crc pos seq (f :: fs).

(** An annotation's encoding. *)
Definition annotationBytes (a : annotation) : list N :=
  len (quantity a) :: quantity a ++ len (unit_ a) :: unit_ a ++ [len (description a) mod 256; len (description a) / 256] ++ description a.
Definition annotationFits (a : annotation) : Prop := len (quantity a) < 256 /\ len (unit_ a) < 256 /\ len (description a) < 65536.
