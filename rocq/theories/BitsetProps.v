(** Bit-set properties C22, C23. *)
From Coq Require Import List NArith Arith Bool.
From Verif Require Import Base BitsetModel BitsetSpec BitsetProofs.
Import ListNotations.

(** C22: a fresh bit set is well formed and all false. *)
Theorem C22_fresh : forall n,
  wf_words (bsize (bitset_new n)) (words (bitset_new n)) /\ forall i, i < n -> test (bitset_new n) i = Some false.
Proof. exact new_wf. Qed.
Print Assumptions C22_fresh.

(** C22: a range update stays inside the word array, sets exactly the bits of the range and keeps the bit set well
    formed (so it can be iterated). *)
Theorem C22_set_range : forall s b e v, wf_words (bsize s) (words s) -> b <= e -> e <= bsize s ->
  exists s', set_range s b e v = Some s' /\ bsize s' = bsize s /\ wf_words (bsize s') (words s') /\
  forall i, i < bsize s -> test s' i = if (b <=? i) && (i <? e) then Some v else test s i.
Proof. exact set_range_spec. Qed.
Print Assumptions C22_set_range.

Example C22_range_example :
  match set_range (bitset_new 200) 63 193 true with
  | Some s => (test s 62, test s 63, test s 64, test s 191, test s 192, test s 193)
              = (Some false, Some true, Some true, Some true, Some true, Some false)
  | None => False end.
Proof. vm_compute. reflexivity. Qed.

Theorem C22_set_bit : forall s p v, wf_words (bsize s) (words s) -> p < bsize s ->
  exists s', set_bit s p v = Some s' /\ bsize s' = bsize s /\ wf_words (bsize s') (words s') /\
  forall i, i < bsize s -> test s' i = if p =? i then Some v else test s i.
Proof. exact set_bit_spec. Qed.
Print Assumptions C22_set_bit.

Example C22_bit_example :
  match set_bit (bitset_new 130) 129 true with Some s => test s 129 = Some true /\ test s 128 = Some false | None => False end.
Proof. vm_compute. split; reflexivity. Qed.

(** C23: when all concurrent calls have returned, a bit nobody addressed is unchanged and a bit somebody addressed has
    the value of one of the calls addressing it, under every schedule. *)
Theorem C23_concurrent_final_value : forall size ws0 calls sched,
  wf_words size ws0 -> (forall cs c, In cs calls -> In c cs -> call_ok size c) ->
  let s := crun (cinit ws0 calls) sched in
  all_done s ->
  forall i, i < size ->
    ((forall cs c, In cs calls -> In c cs -> addresses c i = false) -> test_words (cwords s) i = test_words ws0 i) /\
    ((exists cs c, In cs calls /\ In c cs /\ addresses c i = true) ->
      exists cs c, In cs calls /\ In c cs /\ addresses c i = true /\ test_words (cwords s) i = Some (call_value c)).
Proof. exact conc_final. Qed.
Print Assumptions C23_concurrent_final_value.

(** C23: concurrent updates that agree on a bit are never lost. *)
Theorem C23_agreeing_updates_kept : forall size ws0 calls sched v i,
  wf_words size ws0 -> (forall cs c, In cs calls -> In c cs -> call_ok size c) ->
  let s := crun (cinit ws0 calls) sched in
  all_done s -> i < size ->
  (exists cs c, In cs calls /\ In c cs /\ addresses c i = true) ->
  (forall cs c, In cs calls -> In c cs -> addresses c i = true -> call_value c = v) ->
  test_words (cwords s) i = Some v.
Proof. exact conc_agree. Qed.
Print Assumptions C23_agreeing_updates_kept.

(** C23: at every moment the contents are those of some sequential order of the completed word updates that respects
    each thread's program order: the last completed update of a bit decides. *)
Theorem C23_linearisable : forall size ws0 calls sched,
  wf_words size ws0 -> (forall cs c, In cs calls -> In c cs -> call_ok size c) ->
  let s := crun (cinit ws0 calls) sched in
  exec_wops ws0 (map snd (clog s)) = Some (cwords s) /\
  forall i t cs, nth_error (threads s) i = Some t -> nth_error calls i = Some cs ->
    flat_map call_ops cs = map snd (filter (fun x => fst x =? i) (clog s)) ++ todo t.
Proof. exact conc_linear. Qed.
Print Assumptions C23_linearisable.

(** Two threads race on one word; thread 1's exchange fails once and is retried. *)
Example C23_example :
  let s := crun (cinit [0%N] [[SetBit 3 true]; [SetBit 5 true; SetRange 0 4 false]]) [0; 1; 0; 1; 1; 1; 1; 1] in
  test_words (cwords s) 5 = Some true /\ test_words (cwords s) 3 = Some false /\
  map todo (threads s) = [[]; []].
Proof. vm_compute. repeat split; reflexivity. Qed.
