(** Multi-producer buffer under every interleaving: C13, C14, C15. *)
From Coq Require Import List ZArith Bool Lia.
From Verif Require Import Base RingModel MpmcModel MpmcProofs.
Import ListNotations.
Local Open Scope Z_scope.

(** C13: two different reservations never overlap. *)
Theorem C13_claims_disjoint : forall (V : Type) N, 0 < N <= limit -> forall nr np (sched : list (action V)) i j b1 n1 b2 n2, (0 < nr)%nat -> i <> j ->
  let s := exec N (init nr np) sched in
  nth_error (claims s) i = Some (b1, n1) -> nth_error (claims s) j = Some (b2, n2) -> b1 + n1 <= b2 \/ b2 + n2 <= b1.
Proof. intros V N HN nr np sched i j b1 n1 b2 n2. exact (claims_disjoint N HN nr np sched i j b1 n1 b2 n2). Qed.
Print Assumptions C13_claims_disjoint.

(** C13: the reservations tile the stream: every reserved position belongs to one of them. *)
Theorem C13_claims_tile : forall (V : Type) N, 0 < N <= limit -> forall nr np (sched : list (action V)) q, (0 < nr)%nat ->
  let s := exec N (init nr np) sched in
  0 <= q < resv s -> exists b n, In (b, n) (claims s) /\ b <= q < b + n.
Proof. intros V N HN nr np sched q. exact (claims_tile N HN nr np sched q). Qed.
Print Assumptions C13_claims_tile.

(** C13: at the step that makes a reservation, none of its slots is the cell of a position some reader has not consumed. *)
Theorem C13_claim_is_free : forall (V : Type) N, 0 < N <= limit -> forall nr np (sched : list (action V)) i, (0 < nr)%nat ->
  let s := exec N (init nr np) sched in
  forall b n, claims (step N s (AStep i)) = (b, n) :: claims s -> forall r, In r (rds s) ->
    b = resv s /\ forall q p, rcur r <= q < resv s -> b <= p < b + n -> q mod N <> p mod N.
Proof. intros V N HN nr np sched i. exact (claim_safe N HN nr np sched i). Qed.
Print Assumptions C13_claim_is_free.

(** C14: every value a reader ever obtained is the value the owner of that position wrote, it is the one that position
    keeps for ever, and the position was published. *)
Theorem C14_reads_are_published : forall (V : Type) N, 0 < N <= limit -> forall nr np (sched sched2 : list (action V)) r q v, (0 < nr)%nat ->
  let s := exec N (init nr np) sched in let s2 := exec N s sched2 in
  In (r, q, v) (log s) -> v <> None /\ v = val s2 q /\ 0 <= q < pubc s /\ marked s q = true.
Proof. intros V N HN nr np sched sched2 r q v. exact (reads_right N HN nr np sched sched2 r q v). Qed.
Print Assumptions C14_reads_are_published.

(** C14: a published position is finished: marked by its producer, written, and no producer still owns it. *)
Theorem C14_published_is_finished : forall (V : Type) N, 0 < N <= limit -> forall nr np (sched : list (action V)) q, (0 < nr)%nat ->
  let s := exec N (init nr np) sched in
  0 <= q < pubc s -> marked s q = true /\ val s q <> None /\ forall i p, nth_error (prods s) i = Some p -> ~ owns p q.
Proof. intros V N HN nr np sched q. exact (published_finished N HN nr np sched q). Qed.
Print Assumptions C14_published_is_finished.

(** C14: the readable prefix only grows. *)
Theorem C14_prefix_grows : forall (V : Type) N, 0 < N <= limit -> forall nr np (sched sched2 : list (action V)), (0 < nr)%nat ->
  let s := exec N (init nr np) sched in pubc s <= pubc (exec N s sched2).
Proof. intros V N HN nr np sched sched2. exact (pub_monotone N HN nr np sched sched2). Qed.
Print Assumptions C14_prefix_grows.

(** C15: when every producer is idle and each of them published all it had reserved, everything reserved is readable. *)
Theorem C15_nothing_hidden : forall (V : Type) N, 0 < N <= limit -> forall nr np (sched : list (action V)), (0 < nr)%nat ->
  let s := exec N (init nr np) sched in
  (forall i p, nth_error (prods s) i = Some p -> p = PIdle) -> holes s = false -> pubc s = resv s.
Proof. intros V N HN nr np sched. exact (quiescent N HN nr np sched). Qed.
Print Assumptions C15_nothing_hidden.

(** C15, why "all of them" is needed: a slot that was reserved and never published blocks the buffer for ever, whatever
    the producers do afterwards. *)
Theorem C15_abandoned_slot_blocks : forall (V : Type) N, 0 < N <= limit -> forall nr np (sched sched2 : list (action V)) q, (0 < nr)%nat ->
  let s := exec N (init nr np) sched in
  (forall i p, nth_error (prods s) i = Some p -> p = PIdle) -> 0 <= q < resv s -> marked s q = false ->
  pubc (exec N s sched2) <= q.
Proof. intros V N HN nr np sched sched2 q. exact (idle_hole_blocks N HN nr np sched sched2 q). Qed.
Print Assumptions C15_abandoned_slot_blocks.

(** Two producers, two readers, capacity 4: producer 1 finishes before producer 0, both are then visible in claim order;
    a second lap reuses cell 0. *)
Definition claimSteps (i : nat) (n : Z) : list (action Z) := AStart i n :: repeat (AStep i) 3.
Definition demo1 : list (action Z) :=
  claimSteps 0 2 ++ claimSteps 1 1 ++ [AWrite 1%nat 30; AWrite 0%nat 10; APublish 1%nat 1] ++ repeat (AStep 1) 3.
Definition demo2 : list (action Z) :=
  demo1 ++ [AWrite 0%nat 20; APublish 0%nat 2] ++ repeat (AStep 0) 8 ++
  [ARLoad 0; ARGet 0 3; ARRead 0 0; ARRead 0 1; ARRead 0 2; ARConsume 0 3; ARLoad 1; ARGet 1 3; ARRead 1 2; ARConsume 1 2].
Definition demo3 : list (action Z) :=
  demo2 ++ AStart 1%nat 3 :: repeat (AStep 1) 7 ++ [AWrite 1%nat 40; AWrite 1%nat 50; AWrite 1%nat 60; APublish 1%nat 3] ++ repeat (AStep 1) 10 ++
  [ARLoad 1; ARGet 1 4; ARRead 1 0; ARRead 1 2; ARRead 1 3].
Example C13_case : let s1 := exec 4 (init 2 2) demo1 in let s2 := exec 4 (init 2 2) demo2 in let s3 := exec 4 (init 2 2) demo3 in
  (pubc s1, resv s1, claims s1) = (0, 3, [(2, 1); (0, 2)]) /\
  log s2 = [(1%nat, 2, Some 30); (0%nat, 2, Some 30); (0%nat, 1, Some 20); (0%nat, 0, Some 10)] /\
  (pubc s3, resv s3, prods s3, holes s3, claims s3) = (6, 6, [PIdle; PIdle], false, [(3, 3); (2, 1); (0, 2)]) /\
  firstn 3 (log s3) = [(1%nat, 5, Some 60); (1%nat, 4, Some 50); (1%nat, 2, Some 30)].
Proof. vm_compute. auto 10. Qed.

(** Publishing one of two reserved slots: the later, complete publication of the other producer stays invisible. *)
Example C15_case : let s := exec 4 (init 1 2) (claimSteps 0 2 ++ [AWrite 0%nat 1; AWrite 0%nat 2; APublish 0%nat 1] ++ repeat (AStep 0) 5 ++
                                              claimSteps 1 1 ++ [AWrite 1%nat 3; APublish 1%nat 1] ++ repeat (AStep 1) 5) in
  (pubc s, resv s, prods s, marked s 1, marked s 2) = (1, 3, [PIdle; PIdle], false, true).
Proof. vm_compute. reflexivity. Qed.
