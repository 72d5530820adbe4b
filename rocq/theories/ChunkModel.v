(** Model of the chunk pool and of the chunk-backed payload store.
    Sources: /repo/core/include/gnuradio-4.0/ChunkPool.hpp (CP) and ChunkBuffer.hpp (CB).
    Memory is a function from addresses to bytes; the intrusive lists live in it, as in the code.  The upstream resource is
    not modelled: its answer to a request is an argument [up] of the operation, and the calls it receives are recorded.
    Mutexes and the guard flag make every operation below atomic, so a history is a sequence of operations. *)
From Coq Require Import List NArith Bool.
From Verif Require Import WireModel.
Import ListNotations.
Local Open Scope N_scope.

(** memcpy to and from memory. *)
Definition memory := N -> N.
Definition wr (m : memory) (a : N) (l : list N) : memory :=
  fun x => if (a <=? x) && (x <? a + len l) then nth (N.to_nat (x - a)) l 0 else m x.
Fixpoint rd (m : memory) (a : N) (n : nat) : list N := match n with O => [] | S k => m a :: rd m (a + 1) k end.

(** Calls that the upstream resource receives (CP: _upstream->allocate, deallocate). *)
Inductive upcall := UpAlloc (a n : N) | UpFree (a n : N).

(** CP:31-39.  The null pointer is 0. *)
Record pool := { chunkBytes : N; maxChunks : N; freeHead : N; freeCount : N; resident : N }.
Definition setFree (p : pool) (h c r : N) : pool :=
  {| chunkBytes := chunkBytes p; maxChunks := maxChunks p; freeHead := h; freeCount := c; resident := r |}.
Definition newPool (cb mx : N) : pool := {| chunkBytes := cb; maxChunks := mx; freeHead := 0; freeCount := 0; resident := 0 |}.
(** Unsigned increment. *)
Definition uinc (x : N) : N := (x + 1) mod 2 ^ 64.

(** CP:41-46 nextOf, setNext. *)
Definition nextOf (m : memory) (c : N) : N := dec (rd m c 8).
Definition setNext (m : memory) (c nx : N) : memory := wr m c (enc 8 nx).

(** CP:66-80 acquire.  The empty span is (0, 0). *)
Definition acquire (p : pool) (m : memory) (up : N) : pool * (N * N) * list upcall :=
  if negb (freeHead p =? 0) then (setFree p (nextOf m (freeHead p)) (usub (freeCount p) 1) (resident p), (freeHead p, chunkBytes p), [])
  else if maxChunks p <=? resident p then (p, (0, 0), [])
  else (setFree p (freeHead p) (freeCount p) (uinc (resident p)), (up, chunkBytes p), [UpAlloc up (chunkBytes p)]).
(** CP:82-90 release. *)
Definition release (p : pool) (m : memory) (c : N * N) : pool * memory :=
  if snd c =? 0 then (p, m)
  else (setFree p (fst c) (uinc (freeCount p)) (resident p), setNext m (fst c) (freeHead p)).
(** CP:94-102 acquireOversized. *)
Definition acquireOversized (p : pool) (bytes up : N) : pool * (N * N) * list upcall :=
  if maxChunks p <=? resident p then (p, (0, 0), [])
  else (setFree p (freeHead p) (freeCount p) (uinc (resident p)), (up, bytes), [UpAlloc up bytes]).
(** CP:104-111 releaseOversized. *)
Definition releaseOversized (p : pool) (c : N * N) : pool * list upcall :=
  if snd c =? 0 then (p, []) else (setFree p (freeHead p) (freeCount p) (usub (resident p) 1), [UpFree (fst c) (snd c)]).
(** CP:114-123 reclaimToUpstream; the count bounds the loop.  [None]: a null pointer would be followed. *)
Fixpoint reclaimLoop (fuel : nat) (keep : N) (p : pool) (m : memory) : option (pool * list upcall) :=
  if keep <? freeCount p then
    match fuel with
    | O => None
    | S f => if freeHead p =? 0 then None
             else match reclaimLoop f keep (setFree p (nextOf m (freeHead p)) (usub (freeCount p) 1) (usub (resident p) 1)) m with
                  | Some (p', l) => Some (p', UpFree (freeHead p) (chunkBytes p) :: l)
                  | None => None
                  end
    end
  else Some (p, []).
Definition reclaim (keep : N) (p : pool) (m : memory) : option (pool * list upcall) := reclaimLoop (N.to_nat (freeCount p)) keep p m.
(** CP:57-63 destructor.  [None]: the list does not end after [freeCount] links. *)
Fixpoint destroyLoop (fuel : nat) (h cb : N) (m : memory) : option (list upcall) :=
  if h =? 0 then Some []
  else match fuel with
       | O => None
       | S f => match destroyLoop f (nextOf m h) cb m with Some l => Some (UpFree h cb :: l) | None => None end
       end.
Definition destroyPool (p : pool) (m : memory) : option (list upcall) := destroyLoop (N.to_nat (freeCount p)) (freeHead p) (chunkBytes p) m.

(** ** The buffer *)
(** CB:52-58, 60-65: the node at the head of a sealed chunk. *)
Definition headerSize : N := 24.
Definition writeHeader (m : memory) (c next threshold size : N) : memory := wr m c (enc 8 next ++ enc 8 threshold ++ enc 8 size).
Definition hNext (m : memory) (c : N) : N := dec (rd m c 8).
Definition hThreshold (m : memory) (c : N) : N := dec (rd m (c + 8) 8).
Definition hSize (m : memory) (c : N) : N := dec (rd m (c + 16) 8).

(** CB:67-78. *)
Record buffer := {
  keepResident : N; bChunkBytes : N;
  head : N * N; headOffset : N; headSize : N; sealedHead : N; sealedTail : N; headLast : N }.
Definition newBuffer (keep cb : N) : buffer :=
  {| keepResident := keep; bChunkBytes := cb; head := (0, 0); headOffset := 0; headSize := 0; sealedHead := 0; sealedTail := 0; headLast := 0 |}.
Definition setHead (b : buffer) (h : N * N) (off sz last : N) : buffer :=
  {| keepResident := keepResident b; bChunkBytes := bChunkBytes b; head := h; headOffset := off; headSize := sz;
     sealedHead := sealedHead b; sealedTail := sealedTail b; headLast := last |}.
Definition setSealed (b : buffer) (h t : N) : buffer :=
  {| keepResident := keepResident b; bChunkBytes := bChunkBytes b; head := head b; headOffset := headOffset b; headSize := headSize b;
     sealedHead := h; sealedTail := t; headLast := headLast b |}.

(** CB:102-108 releaseChunk. *)
Definition releaseChunk (b : buffer) (p : pool) (m : memory) (c : N * N) : pool * memory * list upcall :=
  if bChunkBytes b <? snd c then let (p', l) := releaseOversized p c in (p', m, l) else (release p m c, []).

(** CB:125-135 sealHead. *)
Definition sealHead (b : buffer) (m : memory) (threshold : N) : buffer * memory :=
  let m1 := writeHeader m (fst (head b)) 0 threshold (headSize b) in
  if negb (sealedTail b =? 0)
  then (setSealed b (sealedHead b) (fst (head b)),
        writeHeader m1 (sealedTail b) (fst (head b)) (hThreshold m1 (sealedTail b)) (hSize m1 (sealedTail b)))
  else (setSealed b (fst (head b)) (fst (head b)), m1).

(** CB:139-163 serialiseBlob. *)
Definition serialiseBlob (b : buffer) (p : pool) (m : memory) (blob : list N) (pos up : N) : buffer * pool * memory * (N * N) * list upcall :=
  let need := len blob in
  let standardFit := usub (bChunkBytes b) headerSize in
  let store b p m l :=
    let dst := fst (head b) + headOffset b in
    (setHead b (head b) (headOffset b + need) (headSize b) pos, p, wr m dst blob, (dst, need), l) in
  if (snd (head b) =? 0) || (snd (head b) <? headOffset b + need) then
    let (b1, m1) := if negb (snd (head b) =? 0) then sealHead b m pos else (b, m) in
    let '(p1, c, l) := if standardFit <? need then acquireOversized p (headerSize + need) up else acquire p m1 up in
    let b2 := setHead b1 c headerSize (snd c) (headLast b1) in
    if snd c =? 0 then (b2, p1, m1, (0, 0), l) else store b2 p1 m1 l
  else store b p m [].

(** CB:281-292: the loop of houseKeeping over sealed chunks.  [None]: more chunks than [fuel]. *)
Fixpoint drain (fuel : nat) (minPos : N) (b : buffer) (p : pool) (m : memory) : option (buffer * pool * memory * list upcall) :=
  if sealedHead b =? 0 then Some (b, p, m, [])
  else if minPos <? hThreshold m (sealedHead b) then Some (b, p, m, [])
  else match fuel with
       | O => None
       | S f =>
           let c := sealedHead b in
           let nx := hNext m c in
           let b1 := setSealed b nx (if nx =? 0 then 0 else sealedTail b) in
           let '(p1, m1, l) := releaseChunk b p m (c, hSize m c) in
           match drain f minPos b1 p1 m1 with
           | Some (b2, p2, m2, l2) => Some (b2, p2, m2, l ++ l2)
           | None => None
           end
       end.
(** CB:274-302 houseKeeping; the guard was free.  [fuel] bounds the number of sealed chunks. *)
Definition houseKeeping (fuel : nat) (deep : bool) (minPos : N) (b : buffer) (p : pool) (m : memory) : option (buffer * pool * memory * list upcall) :=
  match drain fuel minPos b p m with
  | None => None
  | Some (b1, p1, m1, l1) =>
      let '(b2, p2, m2, l2) :=
        if (sealedHead b1 =? 0) && negb (snd (head b1) =? 0) && (headLast b1 <? minPos)
        then let '(p2, m2, l2) := releaseChunk b1 p1 m1 (head b1) in (setHead b1 (0, 0) 0 0 (headLast b1), p2, m2, l2)
        else (b1, p1, m1, []) in
      if deep then match reclaim (keepResident b) p2 m2 with Some (p3, l3) => Some (b2, p3, m2, l1 ++ l2 ++ l3) | None => None end
      else Some (b2, p2, m2, l1 ++ l2)
  end.

(** CB:85-95 destructor of the shared state. *)
Fixpoint drainAll (fuel : nat) (b : buffer) (p : pool) (m : memory) : option (pool * memory * list upcall) :=
  if sealedHead b =? 0 then
    if negb (snd (head b) =? 0) then Some (releaseChunk b p m (head b)) else Some (p, m, [])
  else match fuel with
       | O => None
       | S f =>
           let c := sealedHead b in
           let b1 := setSealed b (hNext m c) (sealedTail b) in
           let '(p1, m1, l) := releaseChunk b p m (c, hSize m c) in
           match drainAll f b1 p1 m1 with Some (p2, m2, l2) => Some (p2, m2, l ++ l2) | None => None end
       end.
