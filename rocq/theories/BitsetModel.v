(** Model of the lock-free bit set.
    Source: /repo/core/include/gnuradio-4.0/AtomicBitset.hpp *)
From Coq Require Import List NArith Arith Bool.
From Verif Require Import Base.
Import ListNotations.

(** AtomicBitset.hpp:25, bits per word on a 64-bit platform. *)
Definition bpw : nat := 64.

(** AtomicBitset.hpp:33-34: size and words. *)
Record bitset := { bsize : nat; words : list N }.

(** AtomicBitset.hpp:37-50: ceil(size/64) zero words. *)
Definition bitset_new (size : nat) : bitset := {| bsize := size; words := repeat 0%N ((size + bpw - 1) / bpw) |}.

(** 64-bit complement and left shift by one, AtomicBitset.hpp:56, 123. *)
Definition not64 (x : N) : N := N.lxor x (N.ones 64).
Definition shl1 (k : nat) : N := N.shiftl 1 (N.of_nat k).

(** AtomicBitset.hpp:123: mask of the bits [begin, end) of one word. *)
Definition word_mask (b e : nat) : N :=
  if e =? bpw then not64 (N.pred (shl1 b)) else N.land (N.pred (shl1 e)) (not64 (N.pred (shl1 b))).

(** The atomic word updates the code performs: a compare-and-exchange loop applying a mask
    (AtomicBitset.hpp:58-63, 124-129) or a plain store of a full word (132). *)
Inductive wop := Masked (word : nat) (mask : N) (value : bool) | Full (word : nat) (value : bool).

(** AtomicBitset.hpp:61, 127. *)
Definition new_bits (old mask : N) (value : bool) : N := if value then N.lor old mask else N.land old (not64 mask).

(** AtomicBitset.hpp:52-57: set(bitPosition, value). *)
Definition set_bit_ops (pos : nat) (value : bool) : list wop := [Masked (pos / bpw) (shl1 (pos mod bpw)) value].

(** AtomicBitset.hpp:91-93: full words from [b] to [e] inclusive; the loop runs zero times when b > e. *)
Definition full_words (b e : nat) (value : bool) : list wop := map (fun w => Full w value) (seq b (e + 1 - b)).

(** AtomicBitset.hpp:66-95: set(begin, end, value), as the sequence of word updates it performs. *)
Definition set_range_ops (b e : nat) (value : bool) : list wop :=
  let beginWord := b / bpw in
  let endWord := e / bpw in
  let beginOffset := b mod bpw in
  let endOffset := e mod bpw in
  if b =? e then []
  else if beginWord =? endWord then [Masked beginWord (word_mask beginOffset endOffset) value]
  else
    let '(lead, beginWord) :=
      if negb (beginOffset =? 0) then ([Masked beginWord (word_mask beginOffset bpw) value], beginWord + 1) else ([], beginWord) in
    let trail := if negb (endOffset =? 0) then [Masked endWord (word_mask 0 endOffset) value] else [] in
    let endWord := endWord - 1 in   (* never wraps: endWord > beginWord >= 0 in this branch *)
    lead ++ trail ++ full_words beginWord endWord value.

(** One word update executed without interference; [None] is an access outside the word array. *)
Definition exec_wop (ws : list N) (o : wop) : option (list N) :=
  match o with
  | Masked w m v => match nth_error ws w with Some old => Some (upd ws w (new_bits old m v)) | None => None end
  | Full w v => match nth_error ws w with Some _ => Some (upd ws w (if v then N.ones 64 else 0%N)) | None => None end
  end.

Fixpoint exec_wops (ws : list N) (os : list wop) : option (list N) :=
  match os with
  | [] => Some ws
  | o :: r => match exec_wop ws o with Some ws' => exec_wops ws' r | None => None end
  end.

(** Sequential calls. AtomicBitset.hpp:52-64 and 66-95. *)
Definition set_bit (s : bitset) (pos : nat) (v : bool) : option bitset :=
  match exec_wops (words s) (set_bit_ops pos v) with Some ws => Some {| bsize := bsize s; words := ws |} | None => None end.
Definition set_range (s : bitset) (b e : nat) (v : bool) : option bitset :=
  match exec_wops (words s) (set_range_ops b e v) with Some ws => Some {| bsize := bsize s; words := ws |} | None => None end.

(** AtomicBitset.hpp:105-116. *)
Definition test_words (ws : list N) (pos : nat) : option bool :=
  match nth_error ws (pos / bpw) with
  | Some w => Some (negb (N.eqb (N.land w (shl1 (pos mod bpw))) 0))
  | None => None
  end.
Definition test (s : bitset) (pos : nat) : option bool := test_words (words s) pos.

(** *** Concurrent callers *)

(** Interface calls; AtomicBitset.hpp:52, 66 (97-103 are the same with a fixed value). *)
Inductive call := SetBit (pos : nat) (v : bool) | SetRange (b e : nat) (v : bool).
Definition call_ops (c : call) : list wop :=
  match c with SetBit p v => set_bit_ops p v | SetRange b e v => set_range_ops b e v end.

(** A thread: word updates still to do, and the word value loaded by a compare-and-exchange loop in progress
    (AtomicBitset.hpp:60, 126). *)
Record thread := { todo : list wop; loaded : option N }.

(** Shared words, threads, and the ghost list of completed updates with their thread (oldest first). *)
Record cstate := { cwords : list N; threads : list thread; clog : list (nat * wop) }.

(** One atomic step of thread [i]: the load, the compare_exchange, or the full-word store. *)
Definition cstep (s : cstate) (i : nat) : cstate :=
  match nth_error (threads s) i with
  | None => s
  | Some t =>
    match todo t with
    | [] => s
    | Full w v :: rest =>
        {| cwords := upd (cwords s) w (if v then N.ones 64 else 0%N);
           threads := upd (threads s) i {| todo := rest; loaded := None |};
           clog := clog s ++ [(i, Full w v)] |}
    | Masked w m v :: rest =>
        match loaded t, nth_error (cwords s) w with
        | None, Some cur =>
            {| cwords := cwords s; threads := upd (threads s) i {| todo := todo t; loaded := Some cur |}; clog := clog s |}
        | Some old, Some cur =>
            if N.eqb cur old
            then {| cwords := upd (cwords s) w (new_bits old m v);
                    threads := upd (threads s) i {| todo := rest; loaded := None |};
                    clog := clog s ++ [(i, Masked w m v)] |}
            else (* failed exchange: the loop loads again *)
                 {| cwords := cwords s; threads := upd (threads s) i {| todo := todo t; loaded := None |}; clog := clog s |}
        | _, None => s   (* out of range word: excluded by the contract *)
        end
    end
  end.

(** Threads with their call lists, and all interleavings of their steps. *)
Definition cinit (ws : list N) (calls : list (list call)) : cstate :=
  {| cwords := ws; threads := map (fun cs => {| todo := flat_map call_ops cs; loaded := None |}) calls; clog := [] |}.
Definition crun (s : cstate) (sched : list nat) : cstate := fold_left cstep sched s.
