(** Theorems about the thread pool. *)
From Coq Require Import ZArith Bool Arith Lia List Permutation.
From Verif Require Import Base PoolModel PoolSpec PoolProofs PoolInvProofs PoolLiveProofs.
Import ListNotations.
Local Open Scope nat_scope.

(** * C146 the queue *)

(** For every sequence of pushes and pops with priorities below 2^31: what is left is ordered by priority, and the tasks of
    each priority are served (and then left) in the order given; nothing is lost or repeated. *)
Theorem C146_queue_order_partial : forall l s e, (forall i p, In (QPush i p) l -> (0 <= p < 2 ^ 31)%Z) -> serve [] l = (s, e) ->
  descending e /\ forall p, ofPriority p (s ++ e) = ofPriority p (given l).
Proof. intros l s e HP H. exact (serve_spec l [] s e HP I (fun x X => match X with end) H). Qed.
Print Assumptions C146_queue_order_partial.

(** Each task served has the highest priority among those waiting. *)
Theorem C146_highest_first : forall l s q t q', (forall i p, In (QPush i p) l -> (0 <= p < 2 ^ 31)%Z) -> serve [] l = (s, q) -> pop q = Some (t, q') ->
  forall x, In x q' -> (tprio x <= tprio t)%Z.
Proof.
  intros l s q t q' HP H Hpop. destruct (serve_spec l [] s q HP I (fun x X => match X with end) H) as [D _]. destruct q as [|y r]; [discriminate|].
  injection Hpop as <- <-. exact (proj1 D).
Qed.
Print Assumptions C146_highest_first.

(** A priority of 2^31 or more is served after every ordinary one. *)
Theorem C146_large_priority_refuted : forall i j p q, (2 ^ 31 <= p < 2 ^ 32)%Z -> (0 <= q < 2 ^ 31)%Z ->
  fst (serve [] [QPush i q; QPush j p; QPop; QPop]) = [createTask i q; createTask j p].
Proof.
  intros i j p q Hp Hq. assert (E : (tprio (createTask j p) < 0)%Z) by (unfold createTask, toInt32; cbn [tprio]; destruct (Z.ltb_spec p (2 ^ 31)); lia).
  assert (F : (0 <= tprio (createTask i q))%Z) by (rewrite createTask_plain by exact Hq; cbn; lia).
  cbn [serve]. assert (X : push (createTask i q) [] = [createTask i q]) by (unfold push; destruct (tprio (createTask i q) =? 0)%Z; reflexivity). rewrite X.
  assert (Y : push (createTask j p) [createTask i q] = [createTask i q; createTask j p]).
  { unfold push. destruct (Z.eqb_spec (tprio (createTask j p)) 0); [lia|]. cbn [insertBefore]. destruct (Z.ltb_spec (tprio (createTask i q)) (tprio (createTask j p))); [lia|reflexivity]. }
  rewrite Y. reflexivity.
Qed.
Print Assumptions C146_large_priority_refuted.

Example C146_case : serve [] [QPush 1 0; QPush 2 5; QPop; QPush 3 0; QPush 4 5; QPush 5 7; QPop; QPop; QPop] =
  ([mkTask 2 5; mkTask 5 7; mkTask 4 5; mkTask 1 0], [mkTask 3 0]).
Proof. vm_compute. reflexivity. Qed.

(** * C147 tasks run once *)

(** However submitting threads, workers, shutdown and changes of the bounds interleave: a task that was pushed is in
    exactly one place: queued, held by a worker, started or dropped; in particular no task is started twice. *)
Theorem C147_once : forall mn mx k l p, run (newPool mn mx k) l = Some p -> NoDup (psent p) ->
  Permutation (psent p) (pqueue p ++ hands p ++ pstarted p ++ pdropped p) /\ NoDup (pstarted p) /\ (forall t, In t (pstarted p) -> In t (psent p) /\ ~ In t (pqueue p) /\ ~ In t (pdropped p)).
Proof.
  intros mn mx k l p H HN. pose proof (iv_tasks p (run_inv l _ p (inv_new mn mx k) H)) as P. split; [exact P|].
  pose proof (Permutation_NoDup P HN) as N. 
  assert (NA : forall (a b : list Task), NoDup (a ++ b) -> NoDup a /\ NoDup b /\ forall x, In x a -> ~ In x b).
  { induction a as [|x r IH]; intros b Hx; [split; [constructor|split; [exact Hx|intros x []]]|]. cbn [app] in Hx. apply NoDup_cons_iff in Hx as [A B]. destruct (IH b B) as (C & D & E).
    split; [constructor; [intros Z; apply A, in_or_app; left; exact Z|exact C]|]. split; [exact D|]. intros y [<-|Hy]; [intros Z; apply A, in_or_app; right; exact Z|exact (E y Hy)]. }
  destruct (NA _ _ N) as (_ & N2 & Q). destruct (NA _ _ N2) as (_ & N3 & _). destruct (NA _ _ N3) as (N4 & _ & R). split; [exact N4|].
  intros t Ht. split; [apply (Permutation_in t (Permutation_sym P)), in_or_app; right; apply in_or_app; right; apply in_or_app; left; exact Ht|]. split.
  - intros Z. apply (Q t Z), in_or_app. right. apply in_or_app. left. exact Ht.
  - exact (R t Ht).
Qed.
Print Assumptions C147_once.

(** Without shutdown and with a minimum of at least 1, nothing is dropped. *)
Theorem C147_kept_partial : forall mn mx k l p, 1 <= mn -> 1 <= mx -> noShutdown l -> run (newPool mn mx k) l = Some p ->
  pdropped p = [] /\ Permutation (psent p) (pqueue p ++ hands p ++ pstarted p).
Proof.
  intros mn mx k l p A B HN H. pose proof (kp_drop p (kept_run l _ p (kept_new mn mx k A B) HN H)) as D. split; [exact D|].
  pose proof (iv_tasks p (run_inv l _ p (inv_new mn mx k) H)) as P. rewrite D, app_nil_r in P. exact P.
Qed.
Print Assumptions C147_kept_partial.

(** A pool that may go down to no thread: the last worker, leaving because its keep-alive time has passed, drops a task that
    was pushed after its last look at the queue; the submitting thread returns as if all were well. *)
Theorem C147_empty_pool_refuted : exists l p, noShutdown l /\ fixedBounds l /\ run (newPool 0 1 1) l = Some p /\ pdropped p = [mkTask 2 0] /\ pqueue p = [] /\ pstarted p = [mkTask 1 0] /\
  psub p = [SIdle] /\ pwork p = [WGone].
Proof.
  set (t1 := mkTask 1 0). set (t2 := mkTask 2 0).
  exists ([ASubmit 0 t1 0; ASubmit 0 t1 0; ASubmit 0 t1 0; ASubmit 0 t1 0; ASubmit 0 t1 0; ASubmit 0 t1 0; ASubmit 0 t1 0; ASubmit 0 t1 0] ++
          [AWork 0 false; AWork 0 false; AWork 0 false; AWork 0 false; AWork 0 false] ++ [ASubmit 0 t1 0; ASubmit 0 t1 0] ++
          [AWork 0 true; AWork 0 false] ++ [ASubmit 0 t2 0; ASubmit 0 t2 0; ASubmit 0 t2 0] ++ [AWork 0 false; AWork 0 false] ++ [ASubmit 0 t2 0]).
  eexists. split; [intros X; cbn in X; repeat (destruct X as [X|X]; [discriminate|]); exact X|]. split; [intros mn mx X; cbn in X; repeat (destruct X as [X|X]; [discriminate|]); exact X|].
  split; [vm_compute; reflexivity|]. vm_compute. repeat split; reflexivity.
Qed.
Print Assumptions C147_empty_pool_refuted.

(** Shutting down drops what is queued. *)
Theorem C147_shutdown_refuted : exists l p, run (newPool 1 1 1) l = Some p /\ pdropped p = [mkTask 1 0] /\ pstarted p = [] /\ pwork p = [WGone].
Proof.
  set (t := mkTask 1 0). exists ([AWork 0 false; AWork 0 false] ++ [ASubmit 0 t 0; ASubmit 0 t 0] ++ [AShutdown; ANotifyAll] ++ [AWork 0 false; AWork 0 false; AWork 0 false]).
  eexists. split; [vm_compute; reflexivity|]. vm_compute. repeat split; reflexivity.
Qed.
Print Assumptions C147_shutdown_refuted.

Example C147_case : exists p, run (newPool 2 4 2) [ASubmit 0 (mkTask 1 0) 0; ASubmit 1 (mkTask 2 3) 0; ASubmit 0 (mkTask 0 0) 0; AWork 1 false; ASubmit 1 (mkTask 0 0) 0; AWork 0 false; AWork 1 false; AWork 1 false] = Some p /\
  NoDup (psent p) /\ pstarted p = [mkTask 1 0] /\ hands p = [mkTask 2 3].
Proof. eexists. split; [vm_compute; reflexivity|]. vm_compute. repeat split; try reflexivity. repeat constructor; cbn; intuition discriminate. Qed.

(** * C148 how many threads *)

(** In every reachable state [numThreads] is the number of workers that have not decided to leave; with fixed bounds it never
    falls below the minimum before a shutdown, and exceeds the maximum by less than the number of threads submitting. *)
Theorem C148_thread_count_partial : forall mn mx k l p, 1 <= mx -> fixedBounds l -> run (newPool mn mx k) l = Some p ->
  pthreads p = number alive (pwork p) /\ (noShutdown l -> Nat.min mn mx <= pthreads p) /\ pthreads p + 1 <= mx + Nat.max 1 k.
Proof.
  intros mn mx k l p HM HF H. split; [exact (iv_threads p (run_inv l _ p (inv_new mn mx k) H))|].
  destruct (fixed_run l _ p HF H) as (_ & _ & _ & L & U). cbn [newPool pmin pmax pshut pthreads psub] in L, U. rewrite repeat_length, number_repeat in U. cbn [passed] in U.
  split; [intros HN; apply (L HN eq_refl); lia|]. apply U; lia.
Qed.
Print Assumptions C148_thread_count_partial.

(** With one submitting thread the maximum is never exceeded. *)
Theorem C148_single_submitter : forall mn mx l p, 1 <= mx -> fixedBounds l -> run (newPool mn mx 1) l = Some p -> pthreads p <= mx.
Proof. intros mn mx l p HM HF H. destruct (C148_thread_count_partial mn mx 1 l p HM HF H) as (_ & _ & U). cbn in U. lia. Qed.
Print Assumptions C148_single_submitter.

(** Two threads that submit at the same time exceed it. *)
Theorem C148_maximum_refuted : exists l p, fixedBounds l /\ noShutdown l /\ run (newPool 1 2 2) l = Some p /\ pmax p = 2 /\ pthreads p = 3 /\ number alive (pwork p) = 3.
Proof.
  set (t := mkTask 1 0).
  exists ([ASubmit 0 t 0; ASubmit 0 t 0; AWork 0 false; AWork 0 false; AWork 0 false] ++
          [ASubmit 0 t 0; ASubmit 1 t 0; ASubmit 1 t 0; ASubmit 1 t 0] ++
          [ASubmit 0 t 0; ASubmit 1 t 0; ASubmit 0 t 0; ASubmit 1 t 0; ASubmit 0 t 0; ASubmit 1 t 0; ASubmit 0 t 0; ASubmit 1 t 0; ASubmit 0 t 0; ASubmit 1 t 0]).
  eexists. split; [intros mn mx X; cbn in X; repeat (destruct X as [X|X]; [discriminate|]); exact X|]. split; [intros X; cbn in X; repeat (destruct X as [X|X]; [discriminate|]); exact X|].
  split; [vm_compute; reflexivity|]. vm_compute. repeat split; reflexivity.
Qed.
Print Assumptions C148_maximum_refuted.

(** Raising the minimum creates no thread: only submitting does, whatever else happens. *)
Theorem C148_raise_minimum_refuted : forall mn mx p l p', 1 <= mn <= mx -> noSubmit l -> run p (ABounds mn mx :: l) = Some p' -> pthreads p' <= pthreads p.
Proof.
  intros mn mx p l p' HB HN H. apply (create_run (ABounds mn mx :: l) p p'); [|exact H]. intros j t k [X|X]; [discriminate|exact (HN j t k X)].
Qed.
Print Assumptions C148_raise_minimum_refuted.

Example C148_raise_case : exists p, run (newPool 1 2 1) [ABounds 4 8; ANotifyAll; AWork 0 false; AWork 0 true; AWork 0 false] = Some p /\ pmin p = 4 /\ pthreads p = 1.
Proof. eexists. split; [vm_compute; reflexivity|]. split; reflexivity. Qed.

Example C148_case : exists p, run (newPool 2 3 1) [AWork 0 false; AWork 1 false; ASubmit 0 (mkTask 1 0) 0; ASubmit 0 (mkTask 1 0) 0] = Some p /\ pthreads p = 2 /\ length (pqueue p) = 1.
Proof. eexists. split; [vm_compute; reflexivity|]. split; reflexivity. Qed.

(** * C149 a queued task can always be run *)

(** Whatever has happened (without shutdown, minimum at least 1): the pool's own threads can go on so that the first queued
    task is started: no deadlock. *)
Theorem C149_can_run_partial : forall mn mx k l p t q, 1 <= mn -> 1 <= mx -> noShutdown l -> run (newPool mn mx k) l = Some p -> pqueue p = t :: q ->
  exists l' p' mid, ofWorkers l' /\ run p l' = Some p' /\ pstarted p' = pstarted p ++ mid ++ [t].
Proof.
  intros mn mx k l p t q A B HN H HQ. pose proof (kept_run l _ p (kept_new mn mx k A B) HN H) as [K1 K2 K3 K4]. apply (never_stuck (pthreads p) p t q); [exact (run_inv l _ p (inv_new mn mx k) H)|exact K1|exact K2| |exact HQ].
  split; [|lia]. apply (one_run l _ p H (kept_new mn mx k A B) HN). cbn. lia.
Qed.
Print Assumptions C149_can_run_partial.

(** A thread that calls [execute] leaves it only when the queue was seen empty or the pool seen full. *)
Theorem C149_leaves_execute : forall p a p' j x, step p a = Some p' -> nth_error (psub p) j = Some x -> x <> SIdle -> nth_error (psub p') j = Some SIdle ->
  pqueue p = [] \/ pmax p <= pthreads p.
Proof.
  intros p a p' j x H Hx Hn Hi. destruct a as [i c|m t k| | |mn mx]; cbn [step] in H.
  - assert (E : psub p' = psub p).
    { unfold workerStep in H. destruct (nth_error (pwork p) i) as [w|]; [|discriminate]. destruct w as [|t|t|t| | | | | | |n| | |]; try discriminate; try (injection H as <-; reflexivity).
      - destruct (pop (pqueue p)) as [[t q]|]; injection H as <-; reflexivity.
      - destruct (pshut p); injection H as <-; reflexivity.
      - destruct (n <=? pmin p); [injection H as <-; reflexivity|]. destruct ((pthreads p =? n) && negb c); injection H as <-; reflexivity. }
    rewrite E in Hi. congruence.
  - unfold submitStep in H. destruct (nth_error (psub p) m) as [y|] eqn:E; [|discriminate].
    assert (G : forall v, nth_error (upd (psub p) m v) j = Some SIdle -> v = SIdle /\ m = j) by (intros v X; apply nth_upd_inv in X as [[Z X]|[_ X]]; [split; congruence|congruence]).
    destruct y as [|u| | | | |n|].
    + injection H as <-. destruct (G _ Hi) as [X _]; discriminate.
    + injection H as <-. destruct (G _ Hi) as [X _]; discriminate.
    + destruct (notifyOne p k) as [q|] eqn:Q; [|discriminate]. injection H as <-. assert (EQ : psub q = psub p) by (unfold notifyOne in Q; destruct (nth_error (pwork p) k) as [w|]; [destruct w|]; try (destruct (existsb asleep (pwork p)); [discriminate|]); injection Q as <-; reflexivity).
      cbn [setS psub] in Hi. rewrite EQ in Hi. destruct (G _ Hi) as [X _]; discriminate.
    + injection H as <-. destruct (G _ Hi) as [X _]. left. destruct (pqueue p); [reflexivity|discriminate].
    + injection H as <-. destruct (G _ Hi) as [X _]. right. destruct (Nat.ltb_spec (pthreads p) (pmax p)); [discriminate|assumption].
    + injection H as <-. destruct (G _ Hi) as [X _]; discriminate.
    + injection H as <-. destruct (G _ Hi) as [X _]. destruct ((n <=? prunning p) && (n <=? pmax p)); discriminate.
    + injection H as <-. destruct (G _ Hi) as [X _]; discriminate.
  - injection H as <-. cbn [psub] in Hi. congruence.
  - injection H as <-. cbn [notifyAll psub] in Hi. congruence.
  - destruct ((mn =? 0) || (mx <? mn)); [discriminate|]. injection H as <-. cbn [psub] in Hi. congruence.
Qed.
Print Assumptions C149_leaves_execute.

(** A wakeup can be lost: the worker has seen no task, the task is pushed and the notification finds nobody blocked, the
    worker blocks; now nobody moves but for the timeout. *)
Theorem C149_lost_wakeup_refuted : exists l p, noShutdown l /\ fixedBounds l /\ run (newPool 1 1 1) l = Some p /\ pqueue p = [mkTask 1 0] /\ pstarted p = [] /\ allWaiting p.
Proof.
  set (t := mkTask 1 0). exists ([AWork 0 false; AWork 0 true; AWork 0 false] ++ [ASubmit 0 t 0; ASubmit 0 t 0; ASubmit 0 t 0; ASubmit 0 t 0; ASubmit 0 t 0] ++ [AWork 0 false]).
  eexists. split; [intros X; cbn in X; repeat (destruct X as [X|X]; [discriminate|]); exact X|]. split; [intros mn mx X; cbn in X; repeat (destruct X as [X|X]; [discriminate|]); exact X|].
  split; [vm_compute; reflexivity|]. split; [reflexivity|]. split; [reflexivity|]. split.
  - intros [|[|j]] x X; cbn in X; try discriminate. injection X as <-. reflexivity.
  - intros [|[|i]] w X; cbn in X; try discriminate. injection X as <-. left. reflexivity.
Qed.
Print Assumptions C149_lost_wakeup_refuted.

Example C149_case : exists p, run (newPool 2 2 1) [AWork 0 false; AWork 0 true; AWork 0 false; AWork 0 false; AWork 1 false; ASubmit 0 (mkTask 4 2) 0; ASubmit 0 (mkTask 4 2) 0] = Some p /\ pqueue p = [mkTask 4 2] /\ nth_error (pwork p) 0 = Some WAsleep.
Proof. eexists. split; [vm_compute; reflexivity|]. split; reflexivity. Qed.

(** * C150 the counters *)

(** In every reachable state [numTasksRunning] is the number of workers inside a function, and [numTasksQueued] the number of
    queued tasks plus those just taken or about to be pushed, plus those dropped. *)
Theorem C150_counters_partial : forall mn mx k l p, run (newPool mn mx k) l = Some p ->
  prunning p = number inFunction (pwork p) /\
  pqueued p = length (pqueue p) + number (fun w => match w with WTook _ => true | _ => false end) (pwork p) + number (fun x => match x with SPush _ => true | _ => false end) (psub p) + length (pdropped p).
Proof. intros mn mx k l p H. pose proof (run_inv l _ p (inv_new mn mx k) H) as I. split; [exact (iv_running p I)|exact (iv_queued p I)]. Qed.
Print Assumptions C150_counters_partial.

(** At rest, without shutdown and with a minimum of at least 1, the counters are exact. *)
Theorem C150_at_rest : forall mn mx k l p, 1 <= mn -> 1 <= mx -> noShutdown l -> run (newPool mn mx k) l = Some p -> allWaiting p -> prunning p = 0 /\ pqueued p = length (pqueue p).
Proof.
  intros mn mx k l p A B HN H [W1 W2]. destruct (C150_counters_partial mn mx k l p H) as [R Q]. pose proof (kp_drop p (kept_run l _ p (kept_new mn mx k A B) HN H)) as D.
  assert (Z : forall (T : Type) (f : T -> bool) (xs : list T), (forall i x, nth_error xs i = Some x -> f x = false) -> number f xs = 0).
  { intros T f xs Hf. destruct (Nat.eq_0_gt_0_cases (number f xs)) as [E|E]; [exact E|]. destruct (number_pos f xs E) as (i & x & X1 & X2). rewrite (Hf i x X1) in X2. discriminate. }
  rewrite D in Q. cbn [length] in Q. rewrite (Z _ _ (pwork p)) in R by (intros i w X; destruct (W2 i w X) as [ -> | -> ]; reflexivity).
  rewrite (Z _ _ (pwork p)) in Q by (intros i w X; destruct (W2 i w X) as [ -> | -> ]; reflexivity).
  rewrite (Z _ _ (psub p)) in Q by (intros j x X; rewrite (W1 j x X); reflexivity). split; [exact R|lia].
Qed.
Print Assumptions C150_at_rest.

(** Once a task was dropped the counter never returns to zero, and no worker decides to block any more: idle workers keep
    their core busy for ever. *)
Theorem C150_dropped_refuted : forall mn mx k l p l' p', run (newPool mn mx k) l = Some p -> pdropped p <> [] -> run p l' = Some p' ->
  1 <= pqueued p' /\ forall i, nth_error (pwork p') i = Some WDozing -> nth_error (pwork p) i = Some WDozing.
Proof.
  intros mn mx k l p l' p' H HD H'. pose proof (run_inv l _ p (inv_new mn mx k) H) as I. split.
  - pose proof (iv_queued p' (run_inv l' p p' I H')) as Q. pose proof (dropped_run l' p p' H') as L. assert (0 < length (pdropped p)) by (destruct (pdropped p); [congruence|cbn; lia]). lia.
  - intros i Hi. exact (doze_run l' p p' i H' I HD Hi).
Qed.
Print Assumptions C150_dropped_refuted.

(** Such states are reached: the pool of C147 goes on with a new worker. *)
Example C150_dropped_case : exists l p, run (newPool 0 1 1) l = Some p /\ pdropped p = [mkTask 2 0] /\ pqueued p = 1 /\ pqueue p = [] /\ pstarted p = [mkTask 1 0; mkTask 3 0] /\ pwork p = [WGone; WCheck] /\ psub p = [SIdle].
Proof.
  set (t1 := mkTask 1 0). set (t2 := mkTask 2 0). set (t3 := mkTask 3 0).
  exists ([ASubmit 0 t1 0; ASubmit 0 t1 0; ASubmit 0 t1 0; ASubmit 0 t1 0; ASubmit 0 t1 0; ASubmit 0 t1 0; ASubmit 0 t1 0; ASubmit 0 t1 0] ++
          [AWork 0 false; AWork 0 false; AWork 0 false; AWork 0 false; AWork 0 false] ++ [ASubmit 0 t1 0; ASubmit 0 t1 0] ++
          [AWork 0 true; AWork 0 false] ++ [ASubmit 0 t2 0; ASubmit 0 t2 0; ASubmit 0 t2 0] ++ [AWork 0 false; AWork 0 false] ++ [ASubmit 0 t2 0] ++
          [ASubmit 0 t3 0; ASubmit 0 t3 0; ASubmit 0 t3 0; ASubmit 0 t3 0; ASubmit 0 t3 0; ASubmit 0 t3 0; ASubmit 0 t3 0; ASubmit 0 t3 0] ++
          [AWork 1 false; AWork 1 false; AWork 1 false; AWork 1 false; AWork 1 false; AWork 1 false; AWork 1 false; AWork 1 true; AWork 1 false] ++ [ASubmit 0 t3 0; ASubmit 0 t3 0]).
  eexists. split; [vm_compute; reflexivity|]. vm_compute. repeat split; reflexivity.
Qed.

(** * C151 shutdown *)

(** After the flag is set, each worker outside the compare-exchange loop has left after at most eight of its own accesses, in
    any interleaving. *)
Theorem C151_workers_leave_partial : forall p i w l p', pshut p = true -> nth_error (pwork p) i = Some w -> (forall n, w <> WShrink n) -> run p l = Some p' -> 8 <= turnsOf i l ->
  nth_error (pwork p') i = Some WGone.
Proof.
  intros p i w l p' HS Hw Hn H HT. assert (Hs : shrinking w = false) by (destruct w as [|t|t|t| | | | | | |n| | |]; try reflexivity; destruct (Hn n eq_refl)).
  destruct (shut_run l p p' i w H HS Hw Hs) as (w' & A & B & C). assert (left w <= 8) by (destruct w; cbn [left]; lia). assert (Z : left w' = 0) by lia.
  destruct w' as [|t|t|t| | | | | | |n| | |]; cbn [left shrinking] in *; try discriminate. exact A.
Qed.
Print Assumptions C151_workers_leave_partial.

(** The notification of a shutdown can be lost in the same way as any other: the worker blocks after it. *)
Theorem C151_lost_notification_refuted : exists l p, run (newPool 1 1 0) l = Some p /\ pshut p = true /\ allWaiting p /\ nth_error (pwork p) 0 = Some WAsleep.
Proof.
  exists ([AWork 0 false; AWork 0 true; AWork 0 false] ++ [AShutdown; ANotifyAll] ++ [AWork 0 false]).
  eexists. split; [vm_compute; reflexivity|]. split; [reflexivity|]. split; [|reflexivity]. split.
  - intros [|j] x X; discriminate.
  - intros [|[|i]] w X; cbn in X; try discriminate. injection X as <-. left. reflexivity.
Qed.
Print Assumptions C151_lost_notification_refuted.

(** Asking for a shutdown and then destroying the pool joins each thread twice, which is an error. *)
Theorem C151_shutdown_twice_refuted : forall n l, 1 <= n -> joinAll (repeat true n) = Some l -> joinAll l = None.
Proof. intros [|n] l Hn H; [lia|]. rewrite joinAll_ok in H. injection H as <-. reflexivity. Qed.
Print Assumptions C151_shutdown_twice_refuted.

(** Destroying the pool alone joins each thread once. *)
Theorem C151_destructor_joins : forall n, exists l, joinAll (repeat true n) = Some l /\ length l = n /\ ~ In true l.
Proof. intros n. exists (repeat false n). split; [apply joinAll_ok|]. split; [apply repeat_length|]. intros X. apply repeat_spec in X. discriminate. Qed.
Print Assumptions C151_destructor_joins.

Example C151_case : exists p p', run (newPool 2 2 1) [ASubmit 0 (mkTask 1 0) 0; ASubmit 0 (mkTask 1 0) 0; AWork 0 false; AShutdown] = Some p /\ pshut p = true /\ nth_error (pwork p) 0 = Some (WTook (mkTask 1 0)) /\
  run p (repeat (AWork 0 false) 5 ++ repeat (AWork 1 false) 5) = Some p' /\ pwork p' = [WGone; WGone] /\ pstarted p' = [mkTask 1 0].
Proof. eexists. eexists. split; [vm_compute; reflexivity|]. split; [reflexivity|]. split; [reflexivity|]. split; [vm_compute; reflexivity|]. split; reflexivity. Qed.

(** * C152 default sizes *)

Lemma cpu_bounds limit hw : 1 <= cpuMax limit 4 hw /\ cpuMax limit 4 hw <= Nat.max (usable limit 4 / 2) 1.
Proof. unfold cpuMax, clamp. destruct (Nat.ltb_spec (Nat.max 1 hw) 1); [lia|]. destruct (Nat.ltb_spec (Nat.max (usable limit 4 / 2) 1) (Nat.max 1 hw)); lia. Qed.

(** The default pools can be built exactly when the limit is at least 3; both maxima are at least 1; above a limit of 5 they add
    up to the limit less the reserve of 4. *)
Theorem C152_default_split : forall limit hw, (managerOk limit hw = true <-> 3 <= limit) /\ 1 <= cpuMax limit 4 hw /\ 1 <= ioMax limit 4 hw /\
  (5 < limit -> cpuMax limit 4 hw + ioMax limit 4 hw + 4 = limit).
Proof.
  intros limit hw. destruct (cpu_bounds limit hw) as [C1 C2]. set (c := cpuMax limit 4 hw) in *.
  assert (U : usable limit 4 = if 4 <? limit then limit - 4 else 1).
  { unfold usable, clamp. destruct (Nat.ltb_spec 4 limit); [|reflexivity]. replace (4 <? 0) with false by reflexivity. destruct (Nat.ltb_spec limit 4); lia. }
  assert (IO : ioMax limit 4 hw = if c <? usable limit 4 then usable limit 4 - c else 1) by (unfold ioMax; fold c; destruct (Nat.ltb_spec c (usable limit 4)); [lia|reflexivity]).
  assert (D : 2 * (usable limit 4 / 2) <= usable limit 4) by (apply Nat.mul_div_le; lia).
  unfold managerOk. fold c. rewrite IO. rewrite U in *. split; [|split; [exact C1|split]].
  - rewrite negb_true_iff, Nat.leb_gt. destruct (Nat.ltb_spec 4 limit) as [L|L].
    + destruct (Nat.ltb_spec c (limit - 4)); lia.
    + change (1 / 2) with 0 in *. destruct (Nat.ltb_spec c 1); lia.
  - destruct (Nat.ltb_spec 4 limit); [destruct (Nat.ltb_spec c (limit - 4))|destruct (Nat.ltb_spec c 1)]; lia.
  - intros L. destruct (Nat.ltb_spec 4 limit); [|lia]. destruct (Nat.ltb_spec c (limit - 4)); lia.
Qed.
Print Assumptions C152_default_split.

Example C152_case : cpuMax 64 4 8 = 8 /\ ioMax 64 4 8 = 52 /\ cpuMax 12 4 8 = 4 /\ ioMax 12 4 8 = 4 /\ managerOk 2 8 = false /\ managerOk 3 8 = true.
Proof. vm_compute. repeat split; reflexivity. Qed.

(** * C153 affinity *)

(** The enabled cores are divided among the first [max min 1] thread numbers: each enabled core goes to exactly one of
    them, a disabled core to none, and the mask keeps its length. *)
Theorem C153_cores_divided_partial : forall mn mask c, 
  (nth_error mask c = Some true -> exists i, i < Nat.max mn 1 /\ nth_error (distribute mn mask i) c = Some true /\ forall j, nth_error (distribute mn mask j) c = Some true -> j = i) /\
  (nth_error mask c <> Some true -> forall i, nth_error (distribute mn mask i) c <> Some true) /\
  (forall i, length (distribute mn mask i) = length mask).
Proof.
  intros mn mask c. unfold distribute. set (st := Nat.max mn 1). assert (Hs : st <> 0) by (unfold st; lia).
  assert (NONE : forall j, st <= j -> nth_error (distributeFrom st j 0 mask) c <> Some true) by (intros j Hj; exact (distributeFrom_none st mask j 0 Hs Hj c)).
  split; [|split].
  - intros H. set (k := number (fun b : bool => b) (firstn c mask)). pose proof (Nat.mod_upper_bound k st Hs) as B. exists (k mod st). split; [exact B|]. split.
    + apply distributeFrom_spec; [exact Hs|exact B|]. split; [exact H|reflexivity].
    + intros j Hj. destruct (Nat.lt_ge_cases j st) as [L|L]; [|destruct (NONE j L Hj)]. apply distributeFrom_spec in Hj as [_ X]; [|exact Hs|exact L]. symmetry. exact X.
  - intros H i Hi. destruct (Nat.lt_ge_cases i st) as [L|L]; [|exact (NONE i L Hi)]. apply distributeFrom_spec in Hi as [X _]; [exact (H X)|exact Hs|exact L].
  - intros i. apply distributeFrom_len.
Qed.
Print Assumptions C153_cores_divided_partial.

(** The mask of a worker created when the pool has [min - 1] threads or more (so already the last of the initial ones) has
    no core at all. *)
Theorem C153_new_worker_refuted : forall mn mask n c, mn - 1 <= n -> nth_error (distribute mn mask (creationIndex n)) c <> Some true.
Proof. intros mn mask n c H. apply distributeFrom_none; unfold creationIndex; lia. Qed.
Print Assumptions C153_new_worker_refuted.

Example C153_case : map (distribute 2 [true; false; true; true; true]) [0; 1; 2] = [[true; false; false; true; false]; [false; false; true; false; true]; [false; false; false; false; false]].
Proof. vm_compute. reflexivity. Qed.
