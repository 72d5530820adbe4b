(** Single-producer buffer under every interleaving: C12, C16. *)
From Coq Require Import List ZArith Bool Lia.
From Verif Require Import Base RingModel SpModel SpProofs.
Import ListNotations.
Local Open Scope Z_scope.

(** C12: with any number of readers attached from the start (they may detach), every value any reader ever obtained is the
    published element of that position, for every schedule and for ever after. *)
Theorem C12_reads_right : forall (V : Type) N, 0 < N <= spLimit -> forall na (sched sched2 : list (action V)) r p v,
  let s := exec N (init na 0) sched in
  In (r, p, v) (log s) -> 0 <= p < pub s /\ v <> None /\ v = val (exec N s sched2) p.
Proof.
  intros V N HN na sched sched2 r p v s. apply (reads_right N HN na 0 sched sched2 r p v); [apply static_quiet|].
  apply noattach_quiet. revert HN. unfold s. clear. induction sched as [|a l IH] using rev_ind; intros HN.
  - intros r x Hx. pose proof Hx as Hx2. apply nth_init in Hx. destruct Hx as (_ & _ & _ & _ & [[_ ->]|[L _]]); [cbn; auto|].
    assert (r < length (rds (init (V:=V) na 0)))%nat by (apply nth_error_Some; unfold exec in Hx2; cbn [fold_left] in Hx2; congruence).
    cbn [init rds] in H. rewrite app_length, !repeat_length in H. lia.
  - unfold exec. rewrite fold_left_app. cbn [fold_left]. intros r x. apply step_noattach. apply IH, HN.
Qed.
Print Assumptions C12_reads_right.

(** C12: no write of the writer touches a cell of a position a live reader has not consumed, and those cells hold the
    published elements. *)
Theorem C12_no_overwrite : forall (V : Type) N, 0 < N <= spLimit -> forall na (sched : list (action V)) v r x,
  let s := exec N (init na 0) sched in nth_error (rds s) r = Some x -> ph x = RLive ->
  forall p, loc x <= p < pub s -> mem (step N s (WPut v)) (p mod N) = mem s (p mod N) /\ mem s (p mod N) = val s p.
Proof. intros V N HN na sched v r x s. apply (write_safe N HN na 0 sched v r x). apply static_quiet. Qed.
Print Assumptions C12_no_overwrite.

(** C12: no reader is ever offered more than the capacity. *)
Theorem C12_bounded_backlog : forall (V : Type) N, 0 < N <= spLimit -> forall na (sched : list (action V)) r x,
  let s := exec N (init na 0) sched in nth_error (rds s) r = Some x -> ph x = RLive ->
  0 <= cur x <= pub s /\ res s - cur x <= N /\ pub s - loc x <= N.
Proof. intros V N HN na sched r x s. apply (room_bound N HN na 0 sched r x). apply static_quiet. Qed.
Print Assumptions C12_bounded_backlog.

(** Two readers at different speeds, capacity 4, wrap-around, the slow one holds a span while the writer runs. *)
Definition reserveSteps (n : Z) (k : nat) : list (action Z) := WStart n :: repeat WStep k.
Definition spDemo : list (action Z) :=
  reserveSteps 3 5 ++ [WPut 1; RLoad 1; WPut 2; WPut 3; WPublish 3; RLoad 0; RGet 0 3; RRead 0 1; RLoad 1; RGet 1 2; RConsume 0 3] ++
  reserveSteps 1 4 ++ [WPut 4; WPublish 1] ++ reserveSteps 1 4 ++ [RRead 1 0; RConsume 1 2] ++ reserveSteps 2 4 ++
  [WPut 5; RLoad 1; RGet 1 2; RRead 1 1; WPut 6; WPublish 2; RRead 1 0; RLoad 0; RGet 0 3; RRead 0 2].
Example C12_case : let s := exec 4 (init 2 0) spDemo in
  (pub s, res s) = (6, 6) /\ log s = [(0%nat, 5, Some 6); (1%nat, 2, Some 3); (1%nat, 3, Some 4); (1%nat, 0, Some 1); (0%nat, 1, Some 2)].
Proof. vm_compute. auto. Qed.

(** C16 (partial): attaching is safe if nothing is published between the new reader's first load of the publish cursor and
    its generation bump; reservations, writes, reads and other attachments may interleave freely.
    Missing: the claim without the "nothing is published" hypothesis, which is false (next theorem). *)
Theorem C16_quiet_attach_partial : forall (V : Type) N, 0 < N <= spLimit -> forall na nn (sched sched2 : list (action V)) r p v,
  let s := exec N (init na nn) sched in quiet N (init na nn) sched -> quiet N s sched2 ->
  In (r, p, v) (log s) -> 0 <= p < pub s /\ v <> None /\ v = val (exec N s sched2) p.
Proof. intros V N HN na nn sched sched2 r p v. exact (reads_right N HN na nn sched sched2 r p v). Qed.
Print Assumptions C16_quiet_attach_partial.

(** C16 (partial): under the same hypothesis an attached reader is never more than one capacity behind. *)
Theorem C16_quiet_backlog_partial : forall (V : Type) N, 0 < N <= spLimit -> forall na nn (sched : list (action V)) r x,
  let s := exec N (init na nn) sched in quiet N (init na nn) sched -> nth_error (rds s) r = Some x -> ph x = RLive ->
  0 <= cur x <= pub s /\ res s - cur x <= N /\ pub s - loc x <= N.
Proof. intros V N HN na nn sched r x. exact (room_bound N HN na nn sched r x). Qed.
Print Assumptions C16_quiet_backlog_partial.

Definition publishOne (v : Z) : list (action Z) := reserveSteps 1 6 ++ [WPut v; WPublish 1].
(** Reader 1 attaches while the writer holds a reservation. *)
Definition quietDemo : list (action Z) :=
  reserveSteps 2 6 ++ [WPut 1] ++ repeat (RStep 1) 3 ++ [WPut 2] ++ repeat (RStep 1) 4 ++ [WPublish 2; RLoad 1; RGet 1 2; RRead 1 1].
Example C16_quiet_case : quiet 4 (init 1 1) quietDemo /\
  log (exec 4 (init 1 1) quietDemo) = [(1%nat, 1, Some 2)].
Proof.
  split; [|vm_compute; reflexivity].
  cbn [quietDemo reserveSteps repeat app quiet]. repeat match goal with |- _ /\ _ => split end; try exact I.
  vm_compute. intros [|[|r]] x E; try (inversion E; reflexivity). destruct r; discriminate.
Qed.

(** C16 is false in general: the new reader loads the publish cursor (position 1) for its final store and is delayed before
    it bumps the generation.  The writer, still using its cached reader list, publishes two laps while reader 0 reads the
    first.  After the bump the writer sees a cursor more than a capacity behind, [_size - (reserve - min)] wraps to a huge
    number, and the next reservation overwrites position 4, which reader 0 has not consumed: it reads 108 for 104.  The
    new reader is told that 8 elements are available in a buffer of 4. *)
Definition attachRace : list (action Z) :=
  publishOne 100 ++ repeat (RStep 1) 5 ++ publishOne 101 ++ publishOne 102 ++ publishOne 103 ++
  [RLoad 0; RConsume 0 4] ++ publishOne 104 ++ publishOne 105 ++ publishOne 106 ++ publishOne 107 ++
  repeat (RStep 1) 2 ++ reserveSteps 1 6 ++ [WPut 108; WPublish 1] ++ [RLoad 0; RGet 0 1; RRead 0 0; RLoad 1].
Theorem C16_attach_race_refuted : exists sched : list (action Z),
  let s := exec 4 (init 1 1) sched in
  exists p v, In (0%nat, p, v) (log s) /\ v <> val s p /\ val s p = Some 104 /\ exists x, nth_error (rds s) 1 = Some x /\ ph x = RLive /\ seen x - loc x = 8.
Proof.
  exists attachRace. exists 4, (Some 108). vm_compute. split; [auto|]. split; [discriminate|]. split; [reflexivity|].
  eexists. split; [reflexivity|]. auto.
Qed.
Print Assumptions C16_attach_race_refuted.
