(** Concurrent registration of readers: C17. *)
From Coq Require Import List ZArith Bool.
From Verif Require Import Base RegistryModel RegistryProofs.
Import ListNotations.
Local Open Scope Z_scope.

(** C17: after every schedule the list contains, exactly once each, the sequences whose registration took effect and whose
    removal has not. *)
Theorem C17_exact_set : forall n sched, let s := exec (init n) sched in
  NoDup (cont s) /\ forall i, List.In i (cont s) <-> exists p, nth_error (thr s) i = Some p /\ registered p = true.
Proof. exact exact_set. Qed.
Print Assumptions C17_exact_set.

(** C17: a registration that runs undisturbed succeeds in two steps from every reachable state. *)
Theorem C17_registration_succeeds : forall n sched i, let s := exec (init n) sched in nth_error (thr s) i = Some Out ->
  nth_error (thr (exec s [(i, false); (i, false)])) i = Some In /\ List.In i (cont (exec s [(i, false); (i, false)])).
Proof. exact solo_add. Qed.
Print Assumptions C17_registration_succeeds.

(** Three threads race; thread 1 loses its first exchange, thread 2 fails spuriously, thread 0 leaves again. *)
Example C17_case : let s := exec (init 3) [(0, false); (1, false); (0, false); (1, false); (2, false); (1, false); (2, true); (1, false); (0, false); (2, false); (0, false); (2, false)]%nat in
  cont s = [1%nat] /\ thr s = [Removed; In; Out].
Proof. vm_compute. auto. Qed.
