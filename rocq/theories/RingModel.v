(** Model of the single-producer stream buffer: writer, writer spans, readers, reader spans, memory.
    Sources: /repo/core/include/gnuradio-4.0/CircularBuffer.hpp (CB), ClaimStrategy.hpp (CS), Sequence.hpp (SQ).

    Each interface call is one step (sequential histories; interleavings are in SpscModel.v and MpmcModel.v).
    Cursors are unbounded integers, every subtraction of cursors wraps modulo 2^64 as [std::size_t] does.
    [None] is a violated assert, an abort, an access outside the allocation or the use of a dead object.
    Not modelled: zero-capacity buffers (null [_buffer]), moves of Writer/Reader, the blocking [reserve]
    (CB:565-577: the same as [tryReserve] once it succeeds), element reserve hints (CB:554-562). *)
From Coq Require Import List ZArith Bool.
From Verif Require Import Base.
Import ListNotations.
Local Open Scope Z_scope.

(** [std::size_t] subtraction. *)
Definition wsub (a b : Z) : Z := (a - b) mod 2 ^ 64.

Section Ring.
Context {A : Type}.

(** CB:231-236: size, memory kind; [clr]: the element type is Clearable (Buffer.hpp:117-120) and [clear()] leaves the
    given value in the slot (simplified: one fixed empty value).  [None]: not Clearable, never recycled. *)
Record config := { cap : Z; mmap : bool; clr : option A }.

(** CB:471-495: writer fields.  [w_req = None] is [kNotPublished]; [w_sidx], [w_len]: start index and length of
    [_internalSpan]; [w_inst]: [_instanceCount]. *)
Record writer := { w_req : option Z; w_index : Z; w_offset : Z; w_sidx : Z; w_len : Z; w_inst : nat }.

(** CB:771-777: reader fields.  [r_seq]: value of the shared [_readIndex]; [r_first], [r_req]: [None] is the maximal
    value used as "unset"; [r_spans]: index and length of each live ReaderSpan ([_instanceCount] is their number). *)
Record reader := { r_seq : Z; r_cached : Z; r_first : option Z; r_req : option Z; r_consumed : Z; r_spans : list (Z * Z) }.

(** CB:230-243 with CS:46-47: data, publish and reserve cursor, attached readers ([None]: detached), housekeeping
    watermark [_cachedMinReader], and the writer. *)
Record ring := { mem : Z -> A; pub : Z; res : Z; readers : list (option reader); wmark : Z; wr : writer }.

(** CB:290-296.  Both paths are shown equal to the modulo in [RingArith]. *)
Definition pow2b (n : Z) : bool := (0 <? n) && (Z.land n (n - 1) =? 0).
Definition calcIndex (N cursor : Z) : Z := if pow2b N then Z.land cursor (N - 1) else cursor mod N.

(** Physical cell behind [_data[i]]: a double-mapped buffer maps cell i and i+N to the same memory, a linear one has
    2N cells (CB:329-334). *)
Definition phys (c : config) (i : Z) : Z := if mmap c then i mod cap c else i.
Definition inb (c : config) (i : Z) : bool := (0 <=? i) && (i <? 2 * cap c).

Definition memset (m : Z -> A) (i : Z) (v : A) : Z -> A := fun j => if j =? i then v else m j.

(** [std::copy_n] of [n] cells from [src] to [dst], ascending (CB:393-410), on physical cells. *)
Fixpoint copyn (c : config) (m : Z -> A) (src dst : Z) (n : nat) : Z -> A :=
  match n with
  | O => m
  | S k => copyn c (memset m (phys c dst) (m (phys c src))) (src + 1) (dst + 1) k
  end.

(** CS:97-112 (the reader cache only avoids reloading the list); SQ:66-76. *)
Definition minReader (rs : list (option reader)) : Z :=
  match flat_map (fun o => match o with Some r => [r_seq r] | None => [] end) rs with
  | [] => 0
  | x :: l => fold_left Z.min l x
  end.
Definition noReaders (rs : list (option reader)) : bool :=
  forallb (fun o => match o with Some _ => false | None => true end) rs.

(** CS:85. *)
Definition remaining (c : config) (s : ring) : Z := wsub (cap c) (wsub (res s) (minReader (readers s))).

(** CB:247-266: clears the slots of the positions from the watermark to the slowest reader. *)
Fixpoint clearRange (c : config) (m : Z -> A) (e : A) (i : Z) (n : nat) : Z -> A :=
  match n with O => m | S k => clearRange c (memset m (phys c (calcIndex (cap c) i)) e) e (i + 1) k end.
Definition reclaim (c : config) (s : ring) : ring :=
  match clr c with
  | None => s
  | Some e =>
      if noReaders (readers s) then s
      else let fresh := minReader (readers s) in
           if fresh <=? wmark s then s
           else {| mem := clearRange c (mem s) e (wmark s) (Z.to_nat (fresh - wmark s));
                   pub := pub s; res := res s; readers := readers s; wmark := fresh; wr := wr s |}
  end.
(** CB:269-275; [0.25 * size] is computed in double precision in the code, as an integer quotient here (equal for
    capacities below 2^53). *)
Definition needsReclaim (c : config) (s : ring) : bool :=
  match clr c with None => false | Some _ => remaining c s <? cap c / 4 end.
(** CB:598-604. *)
Definition maybeReclaim (c : config) (s : ring) : ring := if needsReclaim c s then reclaim c s else s.

(** Release policies, Buffer.hpp [SpanReleasePolicy]. *)
Inductive policy := Terminate | ProcessAll | ProcessNone.

Inductive op :=
| NewWriter                       (* CB:500 new_writer(), replacing the previous writer object *)
| Reserve (n : Z)                 (* CB:531-548 tryReserve *)
| WriteSpan (i : Z) (v : A)       (* CB:447 operator[] of the writer span *)
| CopySpan                        (* CB:358 copy of the writer span *)
| Publish (k : Z)                 (* CB:454-459 *)
| Release (p : policy)            (* CB:367-430 destruction of one writer span copy *)
| NewReader                       (* CB:789-797 *)
| DropReader (r : nat)            (* CB:821-827 *)
| Get (r : nat) (n : option Z)    (* CB:839-865; [None]: all available *)
| CopyRSpan (r k : nat)           (* CB:649 copy of the k-th live span *)
| ReadRSpan (r k : nat)           (* CB:704 elements seen through the k-th live span *)
| TryConsume (r : nat) (n : Z)    (* CB:713-726 *)
| ReleaseR (r k : nat) (p : policy) (* CB:661-678 *)
| HouseKeep                       (* CB:971-975 *)
| QWriter                         (* CB:579-580 position, available *)
| QReader (r : nat).              (* CB:867-869 position, available, CB:834 nSamplesConsumed *)

Inductive out :=
| OUnit | OLen (n : Z) | OBool (b : bool) | OElems (l : list A) | OId (r : nat) | OW (position available : Z) | OR (position available consumed : Z).

Definition setw (s : ring) (w : writer) : ring :=
  {| mem := mem s; pub := pub s; res := res s; readers := readers s; wmark := wmark s; wr := w |}.
Definition setr (s : ring) (i : nat) (r : option reader) : ring :=
  {| mem := mem s; pub := pub s; res := res s; readers := upd (readers s) i r; wmark := wmark s; wr := wr s |}.
Definition getr (s : ring) (i : nat) : option reader :=
  match nth_error (readers s) i with Some (Some r) => Some r | _ => None end.

(** CB:482-486 default field values. *)
Definition newWriter : writer := {| w_req := Some 0; w_index := 0; w_offset := 0; w_sidx := 0; w_len := 0; w_inst := 0 |}.

(** CB:531-548. CB:614-626 aborts when a previous non-empty span had no publish request. CB:76 asserts n <= size. *)
Definition doReserve (c : config) (s0 : ring) (n : Z) : option (ring * out) :=
  if negb (w_len (wr s0) =? 0) && (match w_req (wr s0) with None => true | Some _ => false end) then None
  else
    let w0 := wr s0 in
    let w1 := {| w_req := None; w_index := w_index w0; w_offset := w_offset w0; w_sidx := w_sidx w0; w_len := w_len w0; w_inst := w_inst w0 |} in
    let incr := {| w_req := None; w_index := w_index w0; w_offset := w_offset w0; w_sidx := w_sidx w0; w_len := w_len w0; w_inst := S (w_inst w0) |} in
    if n =? 0 then Some (setw s0 incr, OLen (w_len w0))
    else
      let s := maybeReclaim c (setw s0 w1) in
      if (n <? 0) || (cap c <? n) then None
      else if remaining c s <? n then Some (setw s incr, OLen (w_len w0))
      else
        let seq := res s + n in
        let index := calcIndex (cap c) (seq + cap c - n) in
        Some ({| mem := mem s; pub := pub s; res := seq; readers := readers s; wmark := wmark s;
                 wr := {| w_req := None; w_index := index; w_offset := seq - n; w_sidx := index; w_len := n; w_inst := S (w_inst w0) |} |},
              OLen n).

(** CB:454-459: the assert compares with the wrapped difference. *)
Definition doPublish (w : writer) (k : Z) : option writer :=
  let already := match w_req w with None => 0 | Some q => q end in
  if (k <? 0) || (wsub (w_len w) already <? k) then None
  else Some {| w_req := Some (already + k); w_index := w_index w; w_offset := w_offset w; w_sidx := w_sidx w; w_len := w_len w; w_inst := w_inst w |}.

(** CB:367-430: destruction of one copy. *)
Definition doRelease (c : config) (s : ring) (p : policy) : option (ring * out) :=
  match w_inst (wr s) with
  | O => None
  | S O =>
      let w0 := wr s in
      let w1 := {| w_req := w_req w0; w_index := w_index w0; w_offset := w_offset w0; w_sidx := w_sidx w0; w_len := w_len w0; w_inst := O |} in
      let wo := match w_req w1, p with
                | Some _, _ => Some w1
                | None, Terminate => None
                | None, ProcessAll => doPublish w1 (w_len w1)
                | None, ProcessNone => doPublish w1 0
                end in
      match wo with
      | None => None
      | Some w =>
          let k := match w_req w with Some q => q | None => 0 end in
          let N := cap c in
          let m :=
            if mmap c then mem s
            else
              let nFirst := Z.min (wsub N (w_index w)) k in
              let nSecond := k - nFirst in
              let m1 := copyn c (mem s) (w_index w) (w_index w + N) (Z.to_nat nFirst) in
              copyn c m1 N 0 (Z.to_nat nSecond) in
          (* CS:87-94 *)
          let seq := w_offset w + k in
          Some ({| mem := m; pub := seq; res := seq; readers := readers s; wmark := wmark s;
                   wr := {| w_req := Some 0; w_index := w_index w; w_offset := w_offset w + k; w_sidx := 0; w_len := 0; w_inst := O |} |}, OUnit)
      end
  | S k =>
      let w0 := wr s in
      Some (setw s {| w_req := w_req w0; w_index := w_index w0; w_offset := w_offset w0; w_sidx := w_sidx w0; w_len := w_len w0; w_inst := k |}, OUnit)
  end.

(** CB:869. *)
Definition ravail (s : ring) (r : reader) : Z := wsub (pub s) (r_cached r).

(** CB:839-865. *)
Definition doGet (c : config) (s : ring) (i : nat) (r : reader) (n : option Z) : option (ring * out) :=
  match r_req r with
  | Some _ => None
  | None =>
      match (match n with None => Some (ravail s r) | Some k => if (k <? 0) || (ravail s r <? k) then None else Some k end) with
      | None => None
      | Some k =>
          let idx := calcIndex (cap c) (r_cached r) in
          let '(len, first, ncons) := match r_first r with None => (k, k, 0) | Some f => (Z.min k f, f, r_consumed r) end in
          Some (setr s i (Some {| r_seq := r_seq r; r_cached := r_cached r; r_first := Some first; r_req := None;
                                  r_consumed := ncons; r_spans := r_spans r ++ [(idx, len)] |}), OLen len)
      end
  end.

(** Elements of a span; [None] when it leaves the allocation. *)
Definition readSpan (c : config) (m : Z -> A) (idx len : Z) : option (list A) :=
  if (len =? 0) || (inb c idx && inb c (idx + len - 1))
  then Some (map (fun i => m (phys c (idx + Z.of_nat i))) (seq 0 (Z.to_nat len))) else None.

(** CB:713-726 (strict check). *)
Definition doTryConsume (s : ring) (i : nat) (r : reader) (n : Z) : option (ring * out) :=
  if n <? 0 then None
  else match r_req r with
  | Some _ => Some (s, OBool false)
  | None =>
      let beyond := match r_first r with None => false | Some f => f <? n end in
      if beyond && (ravail s r <? n) then Some (s, OBool false)
      else Some (setr s i (Some {| r_seq := r_seq r; r_cached := r_cached r; r_first := r_first r; r_req := Some n;
                                   r_consumed := r_consumed r; r_spans := r_spans r |}), OBool true)
  end.

(** CB:730-759. *)
Definition performConsume (s : ring) (r : reader) (strict : bool) (n : Z) : reader :=
  let r1 := {| r_seq := r_seq r; r_cached := r_cached r; r_first := None; r_req := None; r_consumed := r_consumed r; r_spans := r_spans r |} in
  if strict && (n =? 0) then r1
  else if strict && (ravail s r <? n) then r1
  else {| r_seq := r_cached r + n; r_cached := r_cached r + n; r_first := None; r_req := None; r_consumed := n; r_spans := r_spans r |}.

Fixpoint remove_nth {B} (l : list B) (k : nat) : list B :=
  match l, k with [], _ => [] | _ :: t, O => t | x :: t, S j => x :: remove_nth t j end.

(** CB:661-678. *)
Definition doReleaseR (s : ring) (i : nat) (r : reader) (k : nat) (p : policy) : option (ring * out) :=
  match nth_error (r_spans r) k with
  | None => None
  | Some _ =>
      let rest := remove_nth (r_spans r) k in
      let r1 := {| r_seq := r_seq r; r_cached := r_cached r; r_first := r_first r; r_req := r_req r; r_consumed := r_consumed r; r_spans := rest |} in
      match rest with
      | _ :: _ => Some (setr s i (Some r1), OUnit)
      | [] =>
          match r_req r1, p with
          | Some n, _ => Some (setr s i (Some (performConsume s r1 false n)), OUnit)
          | None, Terminate => None
          | None, ProcessAll => Some (setr s i (Some (performConsume s r1 true (match r_first r1 with Some f => f | None => 2 ^ 64 - 1 end))), OUnit)
          | None, ProcessNone => Some (setr s i (Some (performConsume s r1 true 0)), OUnit)
          end
      end
  end.

Definition step (c : config) (s : ring) (o : op) : option (ring * out) :=
  match o with
  | NewWriter => match w_inst (wr s) with O => Some (setw s newWriter, OUnit) | _ => None end
  | Reserve n => doReserve c s n
  | WriteSpan i v =>
      let w := wr s in
      if (0 <=? i) && (i <? w_len w) && (0 <? Z.of_nat (w_inst w)) && inb c (w_sidx w + i)
      then Some ({| mem := memset (mem s) (phys c (w_sidx w + i)) v; pub := pub s; res := res s; readers := readers s;
                    wmark := wmark s; wr := w |}, OUnit)
      else None
  | CopySpan =>
      let w := wr s in
      match w_inst w with
      | O => None
      | S k => Some (setw s {| w_req := w_req w; w_index := w_index w; w_offset := w_offset w; w_sidx := w_sidx w; w_len := w_len w; w_inst := S (S k) |}, OUnit)
      end
  | Publish k =>
      match w_inst (wr s), doPublish (wr s) k with S _, Some w => Some (setw s w, OUnit) | _, _ => None end
  | Release p => doRelease c s p
  | NewReader =>   (* SQ:88-118: the new sequence takes the publish cursor *)
      let r := {| r_seq := pub s; r_cached := pub s; r_first := None; r_req := None; r_consumed := 0; r_spans := [] |} in
      Some ({| mem := mem s; pub := pub s; res := res s; readers := readers s ++ [Some r]; wmark := wmark s; wr := wr s |},
            OId (length (readers s)))
  | DropReader i =>
      match getr s i with
      | Some r => match r_spans r with [] => Some (setr s i None, OUnit) | _ => None end
      | None => None
      end
  | Get i n => match getr s i with Some r => doGet c s i r n | None => None end
  | CopyRSpan i k =>
      match getr s i with
      | Some r => match nth_error (r_spans r) k with
                  | Some sp => Some (setr s i (Some {| r_seq := r_seq r; r_cached := r_cached r; r_first := r_first r; r_req := r_req r;
                                                       r_consumed := r_consumed r; r_spans := r_spans r ++ [sp] |}), OUnit)
                  | None => None end
      | None => None
      end
  | ReadRSpan i k =>
      match getr s i with
      | Some r => match nth_error (r_spans r) k with
                  | Some (idx, len) => match readSpan c (mem s) idx len with Some l => Some (s, OElems l) | None => None end
                  | None => None end
      | None => None
      end
  | TryConsume i n =>
      match getr s i with Some r => match r_spans r with [] => None | _ => doTryConsume s i r n end | None => None end
  | ReleaseR i k p => match getr s i with Some r => doReleaseR s i r k p | None => None end
  | HouseKeep => Some (reclaim c s, OUnit)
  | QWriter => Some (s, OW (pub s) (remaining c s))
  | QReader i => match getr s i with Some r => Some (s, OR (r_cached r) (ravail s r) (r_consumed r)) | None => None end
  end.

(** CB:277-283, CS:46-47: a new buffer with arbitrary element contents and one writer. *)
Definition init (m : Z -> A) : ring :=
  {| mem := m; pub := 0; res := 0; readers := []; wmark := 0; wr := newWriter |}.

(** A history: every step must be defined; collects the outputs. *)
Fixpoint run (c : config) (s : ring) (ops : list op) : option (ring * list out) :=
  match ops with
  | [] => Some (s, [])
  | o :: r => match step c s o with
              | None => None
              | Some (s1, x) => match run c s1 r with None => None | Some (s2, xs) => Some (s2, x :: xs) end
              end
  end.

End Ring.
Arguments config : clear implicits.
Arguments ring : clear implicits.
Arguments op : clear implicits.
Arguments out : clear implicits.
