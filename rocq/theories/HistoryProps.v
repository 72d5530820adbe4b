(** Properties C18-C21 of the history buffer. *)
From Coq Require Import List ZArith Bool Lia.
From Verif Require Import Base RingModel HistoryModel HistorySpec HistoryProofs.
Import ListNotations.
Local Open Scope Z_scope.

(** C18: every history that does not write through references gives the answers of the bounded list, for a fixed and for
    a dynamic capacity; a call outside its contract fails on both sides. *)
Theorem C18_bounded_deque_dynamic {A} (dflt : A) c h ops :
  0 < c < 2 ^ 64 -> newDyn dflt c = Some h -> Forall fits ops -> forallb (fun o => negb (is_set o)) ops = true ->
  outs (run dflt h ops) = outs (arun (anew c true) ops).
Proof.
  intros Hc Hn F S. destruct (newDyn_R dflt True c ltac:(lia)) as (h1 & E & R1). rewrite E in Hn. inversion Hn; subst.
  apply run_outs; auto. cbn. lia.
Qed.
Print Assumptions C18_bounded_deque_dynamic.

Theorem C18_bounded_deque_fixed {A} (dflt : A) n ops :
  0 < n < 2 ^ 64 -> Forall fits ops -> forallb (fun o => negb (is_set o)) ops = true ->
  outs (run dflt (newFixed dflt n) ops) = outs (arun (anew n false) ops).
Proof. intros Hn F S. apply run_outs; auto; [apply newFixed_R; lia|cbn; lia]. Qed.
Print Assumptions C18_bounded_deque_fixed.

(** Capacity 3 in a ring of 4: pushes at both ends of a full buffer, pops, a resize. *)
Example C18_case : exists h, newDyn 0 3 = Some h /\
  outs (run 0 h [PushBackR [1; 2; 3; 4]; Iterate; PushFront 9; Iterate; PopBack; Get 1; PushBack 7; At 5; Span 1 8; Resize 2; Iterate; Size; PopFront; PopFront; PopFront])
  = Some [ODone; OList [2; 3; 4]; ODone; OList [9; 2; 3]; ODone; OVal 2; ODone; OThrow; OList [2; 7]; ODone; OList [9; 2]; OLen 2 2; ODone; ODone; OThrow].
Proof. eexists. split; [reflexivity|]. vm_compute. reflexivity. Qed.

(** C19: in every state reachable without writes through references, a span has the requested length cut at the end of the
    contents, lies inside the allocation (the call is defined), and shows the indexed elements. *)
Theorem C19_span_shows_contents {A} (dflt : A) (h : hb A) i n : built dflt h -> 0 <= i <= size h -> 0 <= n ->
  exists h' l, get_span h i n = Some (h', l) /\ Z.of_nat (length l) = Z.min n (size h - i) /\
    (forall k, (k < length l)%nat -> nth_error l k = Some (get h (i + Z.of_nat k))) /\ (forall j, 0 <= j < size h -> get h' j = get h j) /\ size h' = size h.
Proof. apply span_is_contents. Qed.
Print Assumptions C19_span_shows_contents.

Theorem C19_iteration_shows_contents {A} (dflt : A) (h : hb A) : built dflt h ->
  exists h' l, iterate h = Some (h', l) /\ Z.of_nat (length l) = size h /\ (forall k, (k < length l)%nat -> nth_error l k = Some (get h (Z.of_nat k))).
Proof. apply iterate_is_contents. Qed.
Print Assumptions C19_iteration_shows_contents.

(** A wrapped buffer with a partly stale mirror. *)
Example C19_case :
  let h := state_after 0 5 [PushBackR [6; 5; 4]; PushFront 7; PushFront 8; PopBack; PopBack] in
  built 0 h /\ size h = 3 /\ dirty h = 2 /\ wp h = 3 /\ outs (get_span h 1 5) = Some [7; 6].
Proof. cbv zeta. split; [apply built_after; [lia|repeat constructor|reflexivity]|]. vm_compute. repeat split. Qed.

(** C21: a range push and the single pushes lead to states that no later history can tell apart. *)
Theorem C21_push_back_range {A} (dflt : A) (h : hb A) l : built dflt h -> exists h1 h2 xs,
  push_back_range dflt h l = Some h1 /\ run dflt h (map PushBack l) = Some (h2, xs) /\
  forall ops, Forall fits ops -> forallb (fun o => negb (is_set o)) ops = true -> outs (run dflt h1 ops) = outs (run dflt h2 ops).
Proof. apply range_push_back. Qed.
Print Assumptions C21_push_back_range.

Theorem C21_push_front_range {A} (dflt : A) (h : hb A) l : built dflt h -> exists h1 h2 xs,
  push_front_range h l = Some h1 /\ run dflt h (map PushFront l) = Some (h2, xs) /\
  forall ops, Forall fits ops -> forallb (fun o => negb (is_set o)) ops = true -> outs (run dflt h1 ops) = outs (run dflt h2 ops).
Proof. apply range_push_front. Qed.
Print Assumptions C21_push_front_range.

(** A range longer than the capacity. *)
Example C21_case :
  let h := state_after 0 3 [PushBack 8; PushFront 7] in built 0 h /\
  option_map (fun h1 => (wp h1, outs (iterate h1))) (push_back_range 0 h [1; 2; 3; 4; 5]) = Some (1, Some [3; 4; 5]) /\
  option_map (fun p => (wp (fst p), outs (iterate (fst p)))) (run 0 h (map PushBack [1; 2; 3; 4; 5])) = Some (0, Some [3; 4; 5]).
Proof. cbv zeta. split; [apply built_after; [lia|repeat constructor|reflexivity]|]. vm_compute. repeat split. Qed.

(** C20 is false: an assignment through operator[] to an element behind the wrap point is not seen by iteration. *)
Theorem C20_iteration_misses_write_refuted :
  outs (run 0 (newFixed 0 4) [PushBackR [1; 2; 3; 4]; PushBack 5; SetAt 3 9; Get 3; Iterate; Span 2 2; Span 3 1])
  = Some [ODone; ODone; ODone; OVal 9; OList [2; 3; 4; 5]; OList [4; 5]; OList [9]].
Proof. vm_compute. reflexivity. Qed.
Print Assumptions C20_iteration_misses_write_refuted.

(** An assignment that iteration has already shown is lost again after a push_front that moves the wrap point. *)
Theorem C20_write_reverts_refuted :
  outs (run 0 (newFixed 0 4) [PushBackR [1; 2]; SetAt 0 9; Iterate; PushFront 7; Iterate; Get 1])
  = Some [ODone; ODone; OList [9; 2]; ODone; OList [7; 1; 2]; OVal 9].
Proof. vm_compute. reflexivity. Qed.
Print Assumptions C20_write_reverts_refuted.

(** What holds: indexed access (operator[], at, front, back) always sees the assignments, in every history without
    contiguous reads and resizes ... *)
Theorem C20_indexed_access_partial {A} (dflt : A) n ops :
  0 < n < 2 ^ 64 -> Forall fits ops -> forallb (fun o => negb (contiguous o)) ops = true ->
  outs (run dflt (newFixed dflt n) ops) = outs (arunW (anew n false) ops).
Proof. intros Hn F S. apply runW_outs; auto; [apply newFixed_R; lia|cbn; lia]. Qed.
Print Assumptions C20_indexed_access_partial.

(** ... and the next iteration shows the assignment if the element lies before the wrap point or its mirror is not yet
    in sync.  Missing: the other positions, where the claim is false. *)
Theorem C20_next_iteration_partial {A} (dflt : A) (h : hb A) i v : built dflt h -> 0 <= i < size h -> (wp h + i < ring h \/ i < dirty h) ->
  exists h1 h2 l l' h', set h i v = Some h' /\ iterate h = Some (h1, l) /\ iterate h' = Some (h2, l') /\ l' = upd l (Z.to_nat i) v.
Proof. apply write_then_iterate. Qed.
Print Assumptions C20_next_iteration_partial.

Example C20_case :
  let h := state_after 0 4 [PushBackR [1; 2; 3; 4]; PushBack 5] in built 0 h /\ size h = 4 /\ (wp h + 2 <? ring h) = true /\ (wp h + 3 <? ring h) = false.
Proof. cbv zeta. split; [apply built_after; [lia|repeat constructor|reflexivity]|]. vm_compute. repeat split. Qed.
Example C20_indexed_case : outs (arunW (anew 4 false) [PushBack 1; SetAt 0 9; PushFront 7; Get 1]) = Some [ODone; ODone; ODone; OVal 9].
Proof. reflexivity. Qed.
