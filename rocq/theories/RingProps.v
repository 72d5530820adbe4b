(** Single-producer stream buffer: C01-C05, C08-C11.
    [history c m ops s a]: the contract-respecting calls [ops] on a new buffer lead the code model to [s] and the list
    specification (RingSpec) to [a], with equal outputs.  [lim] is 2^62. *)
From Coq Require Import List ZArith Bool Lia.
From Verif Require Import Base RingModel RingSpec RingProofs RingFacts.
Import ListNotations.
Local Open Scope Z_scope.

Section Props.
Context {A : Type}.

(** C01: on every contract-respecting history every call of the code is defined (no assert, no access outside the
    allocation) and returns what the list specification returns. *)
Theorem C01_refines_stream : forall (c : config A) m ops a' xs, 0 < cap c <= lim -> arun c ainit ops = Some (a', xs) ->
  exists s', run c (init m) ops = Some (s', xs).
Proof. exact refinement. Qed.

(** C01: what a reader reads at its position p is the stream at p, now and after any continuation. *)
Theorem C01_reads_are_the_stream : forall (c : config A) m ops s a ops2 s2 a2 i k s' l, 0 < cap c <= lim ->
  history c m ops s a -> history c m (ops ++ ops2) s2 a2 -> step c s (ReadRSpan i k) = Some (s', OElems l) ->
  exists p av d, step c s (QReader i) = Some (s, OR p av d) /\ l = slice (a_stream a2) p (len l).
Proof. exact read_stream_later. Qed.

(** C01: the elements a reader consumes, put end to end, are a contiguous piece of the stream. *)
Theorem C01_consumed_is_contiguous : forall (c : config A) ops s a a' xs i q q', Rel c s a -> arun c a ops = Some (a', xs) ->
  agetr a i = Some q -> agetr a' i = Some q' ->
  p_pos q <= p_pos q' /\ consumedBy c i a ops = slice (a_stream a') (p_pos q) (p_pos q' - p_pos q).
Proof. intros c ops. exact (consumed_stream c ops). Qed.

(** C01, C02: every contract-respecting history is covered by the two theorems above. *)
Theorem C01_histories_related : forall (c : config A) m ops, 0 < cap c <= lim -> legal c ops ->
  exists s a, history c m ops s a /\ Rel c s a.
Proof. intros c m ops Hc Hl. destruct (legal_history c m ops Hc Hl) as (s & a & H). exists s, a. split; [exact H|]. eapply history_rel; eassumption. Qed.

(** C02: no writer-side call changes what a reader sees through a span it holds. *)
Theorem C02_held_span_stable : forall (c : config A) m ops s a wops s2 a2 i k s' l, 0 < cap c <= lim ->
  history c m ops s a -> Forall writerOp wops -> history c m (ops ++ wops) s2 a2 ->
  step c s (ReadRSpan i k) = Some (s', OElems l) -> step c s2 (ReadRSpan i k) = Some (s2, OElems l).
Proof. exact held_span_stable. Qed.

(** C02: at every point every element that some reader has not consumed is in place in the ring. *)
Theorem C02_unread_in_place : forall (c : config A) m ops s a, 0 < cap c <= lim -> history c m ops s a ->
  forall q v p, In p (positions a) -> p <= Z.of_nat q -> nth_error (a_stream a) q = Some v -> mem s (phys c (Z.of_nat q mod cap c)) = v.
Proof. intros c m ops s a Hc H q v p H1 H2 H3. exact (proj1 (mirror c m ops s a Hc H q v p H1 H2 H3)). Qed.

(** C03: writer's position and free space. *)
Theorem C03_writer_counts : forall (c : config A) m ops s a, 0 < cap c <= lim -> history c m ops s a -> forall p, slowest (positions a) = Some p ->
  step c s QWriter = Some (s, OW (len (a_stream a)) (cap c - (total a - p))) /\ 0 <= cap c - (total a - p) <= cap c.
Proof. exact writer_counts. Qed.

(** C03: a reservation succeeds exactly when it fits (element types without recycling). *)
Theorem C03_reserve_exact : forall (c : config A) m ops s a n, 0 < cap c <= lim -> history c m ops s a -> clr c = None -> a_inst a = 0%nat -> 1 <= n <= cap c ->
  exists s', step c s (Reserve n) = Some (s', OLen (if n <=? free c a then n else 0)).
Proof. exact reserve_exact. Qed.

(** C03: reader's position and readable count. *)
Theorem C03_reader_counts : forall (c : config A) m ops s a i q, 0 < cap c <= lim -> history c m ops s a -> agetr a i = Some q ->
  step c s (QReader i) = Some (s, OR (p_pos q) (len (a_stream a) - p_pos q) (p_done q)) /\ 0 <= len (a_stream a) - p_pos q <= cap c.
Proof. exact reader_counts. Qed.

(** C04: both images of every unread cell hold the published element, in both memory modes (spans being inside the
    allocation is part of C01_refines_stream: a read outside it is undefined in the model). *)
Theorem C04_both_images : forall (c : config A) m ops s a, 0 < cap c <= lim -> history c m ops s a ->
  forall q v p, In p (positions a) -> p <= Z.of_nat q -> nth_error (a_stream a) q = Some v ->
  mem s (phys c (Z.of_nat q mod cap c)) = v /\ mem s (phys c (Z.of_nat q mod cap c + cap c)) = v.
Proof. exact mirror. Qed.

(** C04: a span starting at any cell with any length up to the capacity lies inside the allocation. *)
Theorem C04_span_in_bounds : forall (c : config A) i n k, 0 < cap c -> 0 <= i < cap c -> 0 <= n <= cap c -> 0 <= k < n -> inb c (i + k) = true.
Proof. intros c i n k H1 H2 H3 H4. unfold inb. apply andb_true_intro. split; [apply Z.leb_le|apply Z.ltb_lt]; lia. Qed.

(** C05: a writer round appends exactly the published prefix and gives the rest back, for every split of the publication,
    every number of span copies and every policy. *)
Theorem C05_partial_publication : forall (c : config A) m ops s a vs ks j p k, 0 < cap c <= lim -> history c m ops s a ->
  clr c = None -> a_inst a = 0%nat -> 1 <= len vs <= cap c -> len vs <= free c a ->
  Forall (fun k => 0 <= k) ks -> sumk ks <= len vs -> amount (len vs) ks p = Some k ->
  exists s' a' xs, run c s (round vs ks j p) = Some (s', xs) /\ history c m (ops ++ round vs ks j p) s' a' /\
    a_stream a' = a_stream a ++ firstn (Z.to_nat k) vs /\ a_readers a' = a_readers a /\
    (positions a <> [] -> free c a' = free c a - k).
Proof. exact round_history. Qed.

(** C08: a request beyond the readable elements is refused and changes nothing. *)
Theorem C08_too_much_refused : forall (c : config A) m ops s a i q n, 0 < cap c <= lim -> history c m ops s a -> agetr a i = Some q -> p_spans q <> [] ->
  len (a_stream a) - p_pos q < n -> step c s (TryConsume i n) = Some (s, OBool false).
Proof. exact consume_too_much. Qed.

(** C08: an accepted request moves the reader by exactly n when the last live span goes and not before; a second request
    in the round is refused. *)
Theorem C08_consume_once : forall (c : config A) m ops s a i q n j p s1, 0 < cap c <= lim -> history c m ops s a -> agetr a i = Some q ->
  length (p_spans q) = S j -> step c s (TryConsume i n) = Some (s1, OBool true) ->
  (exists sj, run c s1 (repeat (ReleaseR i 0 p) j) = Some (sj, repeat OUnit j) /\
     step c sj (QReader i) = Some (sj, OR (p_pos q) (len (a_stream a) - p_pos q) (p_done q)) /\
   exists se, step c sj (ReleaseR i 0 p) = Some (se, OUnit) /\
     step c se (QReader i) = Some (se, OR (p_pos q + n) (len (a_stream a) - p_pos q - n) n)) /\
  step c s1 (TryConsume i n) = Some (s1, OBool false) /\ 0 <= n <= len (a_stream a) - p_pos q.
Proof. exact consume_round. Qed.

(** C08: later gets of a round never exceed the first one. *)
Theorem C08_get_never_widens : forall (c : config A) m ops s a i q f k s1 l, 0 < cap c <= lim -> history c m ops s a -> agetr a i = Some q -> p_first q = Some f ->
  step c s (Get i k) = Some (s1, OLen l) -> l <= f.
Proof. exact get_round. Qed.

(** C08: without a request the policy decides: nothing, or all of the first get. *)
Theorem C08_release_policy : forall (c : config A) m ops s a i q l p f, 0 < cap c <= lim -> history c m ops s a -> agetr a i = Some q -> p_spans q = [l] -> p_req q = None ->
  p_first q = Some f -> p <> Terminate ->
  exists s1 d, step c s (ReleaseR i 0 p) = Some (s1, OUnit) /\
  step c s1 (QReader i) = Some (s1, OR (p_pos q + match p with ProcessAll => f | _ => 0 end) (len (a_stream a) - p_pos q - match p with ProcessAll => f | _ => 0 end) d).
Proof. exact release_policy. Qed.

(** C09 (partial): an empty reservation changes nothing if the writer object has reserved before or nothing was published.
    Missing: writer objects created on a buffer that carries data; see C09_second_writer_refuted. *)
Theorem C09_empty_reservation_partial : forall (c : config A) m ops s a p s' s'' x y, 0 < cap c <= lim -> history c m ops s a -> a_inst a = 0%nat ->
  a_fresh a = false \/ a_stream a = [] -> p <> Terminate ->
  step c s (Reserve 0) = Some (s', x) -> step c s' (Release p) = Some (s'', y) ->
  x = OLen 0 /\ (forall i, mem s'' i = mem s i) /\ pub s'' = pub s /\ res s'' = res s /\ readers s'' = readers s /\
  step c s'' QWriter = Some (s'', OW (pub s) (remaining c s)).
Proof. exact empty_reservation. Qed.

(** C10 (partial): with a reader attached free space never exceeds the capacity.
    Missing: no reader attached; see C10_last_reader_leaves_refuted. *)
Theorem C10_free_bounded_partial : forall (c : config A) m ops s a p, 0 < cap c <= lim -> history c m ops s a -> slowest (positions a) = Some p ->
  exists pos av, step c s QWriter = Some (s, OW pos av) /\ 0 <= av <= cap c.
Proof. intros c m ops s a p Hc Hh Hp. destruct (writer_counts c m ops s a Hc Hh p Hp) as [E B]. eauto. Qed.

(** C11 (partial): housekeeping is invisible when elements are not Clearable or the stream is at most one capacity ahead
    of the last recycled position.  Missing: the other case; see C11_unread_data_wiped_refuted. *)
Theorem C11_housekeeping_invisible_partial : forall (c : config A) m ops s a i k s' l, 0 < cap c <= lim -> history c m ops s a -> (clr c = None \/ total a <= a_wm a + cap c) ->
  step c s (ReadRSpan i k) = Some (s', OElems l) ->
  exists s1, step c s HouseKeep = Some (s1, OUnit) /\ step c s1 (ReadRSpan i k) = Some (s1, OElems l).
Proof. exact housekeeping_invisible. Qed.

End Props.

Print Assumptions C01_refines_stream.
Print Assumptions C01_reads_are_the_stream.
Print Assumptions C01_consumed_is_contiguous.
Print Assumptions C01_histories_related.
Print Assumptions C02_held_span_stable.
Print Assumptions C02_unread_in_place.
Print Assumptions C03_writer_counts.
Print Assumptions C03_reserve_exact.
Print Assumptions C03_reader_counts.
Print Assumptions C04_both_images.
Print Assumptions C04_span_in_bounds.
Print Assumptions C05_partial_publication.
Print Assumptions C08_too_much_refused.
Print Assumptions C08_consume_once.
Print Assumptions C08_get_never_widens.
Print Assumptions C08_release_policy.
Print Assumptions C09_empty_reservation_partial.
Print Assumptions C10_free_bounded_partial.
Print Assumptions C11_housekeeping_invisible_partial.

(** *** Concrete histories *)
Definition lin (n : Z) : config Z := {| cap := n; mmap := false; clr := None |}.
Definition outs (c : config Z) (ops : list (op Z)) : option (list (out Z)) := option_map snd (run c (init (fun _ => -1)) ops).

(** Two readers, a wrapped linear buffer of capacity 5, partial publication, nested copies: the history is legal. *)
Definition demo : list (op Z) :=
  [NewReader; NewReader] ++ round [1; 2; 3; 4] [1; 2] 2 ProcessNone ++
  [Get 0 None; TryConsume 0 2; ReleaseR 0 0 ProcessNone; Get 1 (Some 3); CopyRSpan 1 0; TryConsume 1 3; ReleaseR 1 0 Terminate; ReleaseR 1 0 Terminate] ++
  round [5; 6; 7; 8] [] 0 ProcessAll ++ [Get 0 None; ReadRSpan 0 0; QReader 0; QReader 1; QWriter].

Example demo_legal : legal (lin 5) demo.
Proof. unfold legal. eexists; eexists. vm_compute. reflexivity. Qed.
Example demo_outputs : option_map (fun l => skipn (length l - 5) l) (outs (lin 5) demo)
  = Some [OLen 5; OElems [3; 5; 6; 7; 8]; OR 2 5 0; OR 3 4 3; OW 7 0].
Proof. vm_compute. reflexivity. Qed.

(** Hypotheses of the history theorems at a state with live spans, a reader behind and a wrapped ring. *)
Example demo_state : exists s a, history (lin 5) (fun _ => -1) demo s a /\
  agetr a 0 = Some {| p_pos := 2; p_first := Some 5; p_req := None; p_done := 0; p_spans := [5] |} /\
  slowest (positions a) = Some 2 /\ a_stream a = [1; 2; 3; 5; 6; 7; 8] /\ a_inst a = 0%nat /\ a_fresh a = false /\ free (lin 5) a = 0.
Proof.
  destruct (legal_history (lin 5) (fun _ => -1) demo) as (s & a & H); [vm_compute; intuition discriminate|exact demo_legal|].
  exists s, a. split; [exact H|]. destruct H as (xs & E & _). vm_compute in E. inversion E; subst. vm_compute. auto 10.
Qed.

Example demo_writer_ops : Forall writerOp [Reserve 0; Release ProcessNone; HouseKeep; @QWriter Z] /\ legal (lin 5) (demo ++ [Reserve 0; Release ProcessNone; HouseKeep; QWriter]).
Proof. split; [repeat constructor|unfold legal; eexists; eexists; vm_compute; reflexivity]. Qed.

(** Last output of a history. *)
Definition lastOut (c : config Z) (ops : list (op Z)) : option (out Z) := option_map (fun l => last l OUnit) (outs c ops).

(** C09: a writer object created later rewinds the stream by dropping an empty reservation. *)
Theorem C09_second_writer_refuted : exists ops : list (op Z),
    lastOut (lin 4) (ops ++ [QWriter]) = Some (OW 3 1) /\
    lastOut (lin 4) (ops ++ [NewWriter; Reserve 0; Release ProcessNone; QWriter]) = Some (OW 0 4).
Proof. exists (NewReader :: round [1; 2; 3] [] 0 ProcessAll). vm_compute. split; reflexivity. Qed.
Print Assumptions C09_second_writer_refuted.

(** C10: after the last reader leaves, free space is reported as almost 2^64. *)
Theorem C10_last_reader_leaves_refuted : exists ops : list (op Z), lastOut (lin 4) ops = Some (OW 8 (2 ^ 64 - 4)).
Proof.
  exists (NewReader :: round [1; 2; 3; 4] [] 0 ProcessAll ++ [Get 0 None; ReleaseR 0 0 ProcessAll] ++
          round [1; 2; 3; 4] [] 0 ProcessAll ++ [Get 0 None; ReleaseR 0 0 ProcessAll; DropReader 0; QWriter]).
  vm_compute. reflexivity.
Qed.
Print Assumptions C10_last_reader_leaves_refuted.

(** C11: with a Clearable element type (empty value 0) a reservation under pressure wipes unread elements: the reader sees
    5 zeros instead of 11..15. *)
Definition clearable (n : Z) : config Z := {| cap := n; mmap := true; clr := Some 0 |}.
Definition wipe : list (op Z) :=
  NewReader :: round [1; 2; 3; 4] [] 0 ProcessAll ++ [Get 0 None; ReleaseR 0 0 ProcessAll] ++
  round [5; 6; 7; 8] [] 0 ProcessAll ++ [Get 0 None; ReleaseR 0 0 ProcessAll] ++ round [11; 12; 13; 14; 15; 16; 17] [] 0 ProcessAll.
Theorem C11_unread_data_wiped_refuted :
  lastOut (clearable 8) (wipe ++ [Get 0 (Some 5); ReadRSpan 0 0]) = Some (OElems [11; 12; 13; 14; 15]) /\
  lastOut (clearable 8) (wipe ++ [Reserve 1; Get 0 (Some 5); ReadRSpan 0 0]) = Some (OElems [0; 0; 0; 0; 0]).
Proof. vm_compute. split; reflexivity. Qed.
Print Assumptions C11_unread_data_wiped_refuted.
