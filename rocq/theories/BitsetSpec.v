(** Specification vocabulary for the bit-set properties C22, C23. *)
From Coq Require Import List NArith Arith Bool.
From Verif Require Import BitsetModel.
Import ListNotations.

(** Does an interface call address bit [i], and with which value? *)
Definition addresses (c : call) (i : nat) : bool :=
  match c with SetBit p _ => p =? i | SetRange b e _ => (b <=? i) && (i <? e) end.
Definition call_value (c : call) : bool := match c with SetBit _ v => v | SetRange _ _ v => v end.
(** Call contract (the asserts of AtomicBitset.hpp:53, 67). *)
Definition call_ok (size : nat) (c : call) : Prop :=
  match c with SetBit p _ => p < size | SetRange b e _ => b <= e /\ e <= size end.

(** A word array holding [size] bits: enough words, each of 64 bits. *)
Definition wf_words (size : nat) (ws : list N) : Prop :=
  length ws = (size + bpw - 1) / bpw /\ (forall w, In w ws -> (w < 2 ^ 64)%N).

Definition all_done (s : cstate) : Prop := forall i t, nth_error (threads s) i = Some t -> todo t = [].
