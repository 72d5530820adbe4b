(** Reader/writer lock properties C34, C35. *)
From Coq Require Import List ZArith Bool.
From Verif Require Import Base RwLockModel RwLockProofs.
Import ListNotations.
Local Open Scope Z_scope.

(** C34: under every schedule of any number of users no read lock coexists with a write lock. *)
Theorem C34_readers_exclude_writers : forall n sched i j,
  nth_error (users (run n sched)) i = Some (Holding READ) ->
  nth_error (users (run n sched)) j = Some (Holding WRITE) -> False.
Proof. exact no_reader_with_writer. Qed.
Print Assumptions C34_readers_exclude_writers.

Example C34_example :   (* two readers inside while a writer spins *)
  let s := run 3 [(0%nat, A_lock READ); (2%nat, A_lock WRITE); (0%nat, A_cas); (1%nat, A_try READ); (1%nat, A_cas); (2%nat, A_cas)] in
  users s = [Holding READ; Holding READ; LockCas WRITE 0] /\ cnt s = 2.
Proof. split; reflexivity. Qed.

(** C34: an undisturbed tryLock succeeds exactly when nobody holds the opposite kind. *)
Theorem C34_trylock_outcome : forall n sched i k,
  nth_error (users (run n sched)) i = Some Idle ->
  (nth_error (users (run n (sched ++ [(i, A_try k); (i, A_cas)]))) i = Some (Holding k) <->
   forall j, nth_error (users (run n sched)) j <> Some (Holding (match k with READ => WRITE | WRITE => READ end))).
Proof. exact try_outcome. Qed.
Print Assumptions C34_trylock_outcome.

Example C34_trylock_example :
  nth_error (users (run 2 [(0%nat, A_lock WRITE); (0%nat, A_cas); (1%nat, A_try READ); (1%nat, A_cas)])) 1 = Some Idle.
Proof. reflexivity. Qed.

(** The lock does not exclude writers from each other (it counts them). *)
Theorem C34_writers_share : exists n sched, nth_error (users (run n sched)) 0 = Some (Holding WRITE) /\
                                            nth_error (users (run n sched)) 1 = Some (Holding WRITE).
Proof. exact two_writers. Qed.
Print Assumptions C34_writers_share.

(** C35: the visible counter is the number of read holders minus the number of write holders, at every point. *)
Theorem C35_counter_is_holders : forall n sched,
  cnt (run n sched) = sumZ (fun p => match p with Holding READ => 1 | _ => 0 end) (users (run n sched))
                      - sumZ (fun p => match p with Holding WRITE => 1 | _ => 0 end) (users (run n sched)).
Proof. exact counter_value. Qed.
Print Assumptions C35_counter_is_holders.

Example C35_counter_example :
  cnt (run 2 [(0%nat, A_lock WRITE); (0%nat, A_cas); (1%nat, A_lock WRITE); (1%nat, A_cas)]) = -2.
Proof. reflexivity. Qed.

(** C35: once nobody holds it the counter is back to zero ... *)
Theorem C35_free_after_release : forall n sched,
  (forall i k, nth_error (users (run n sched)) i <> Some (Holding k)) -> cnt (run n sched) = 0.
Proof. exact free_when_released. Qed.
Print Assumptions C35_free_after_release.

(** ... and either kind can be acquired by any idle user, by tryLock and by lock. *)
Theorem C35_acquirable_after_release : forall n sched,
  (forall i k, nth_error (users (run n sched)) i <> Some (Holding k)) ->
  forall i k, nth_error (users (run n sched)) i = Some Idle ->
  nth_error (users (run n (sched ++ [(i, A_try k); (i, A_cas)]))) i = Some (Holding k) /\
  nth_error (users (run n (sched ++ [(i, A_lock k); (i, A_cas)]))) i = Some (Holding k).
Proof. exact acquirable. Qed.
Print Assumptions C35_acquirable_after_release.

Example C35_release_example :
  users (run 2 [(0%nat, A_lock WRITE); (0%nat, A_cas); (1%nat, A_lock READ); (1%nat, A_cas); (0%nat, A_unlock)])
  = [Idle; LockCas READ 0].
Proof. reflexivity. Qed.

(** C35: a failed tryLock changes neither the counter nor any other user. *)
Theorem C35_failed_trylock_no_effect : forall s i k e,
  nth_error (users s) i = Some (TryCas k e) ->
  nth_error (users (step s (i, A_cas))) i = Some Idle ->
  cnt (step s (i, A_cas)) = cnt s /\ forall j, j <> i -> nth_error (users (step s (i, A_cas))) j = nth_error (users s) j.
Proof. exact failed_try_no_effect. Qed.
Print Assumptions C35_failed_trylock_no_effect.

Example C35_failed_try_example :
  users (step {| cnt := -1; users := [Holding WRITE; TryCas READ 0] |} (1%nat, A_cas)) = [Holding WRITE; Idle].
Proof. reflexivity. Qed.
