(** Model of the thread pool: task queue, workers, submitting threads, growing and shrinking, shutdown.
    Source: /repo/core/include/gnuradio-4.0/thread/thread_pool.hpp (line numbers below refer to it unless another file is named) *)
From Coq Require Import ZArith Bool Arith List.
From Verif Require Import Base.
Import ListNotations.
Local Open Scope nat_scope.

(** * The task queue *)

(** 186-197 [Task]: an identity (for the function) and the priority. *)
Record Task := mkTask { tid : nat; tprio : Z }.

(** 190, 600: the uint32 template argument is stored in an int32. *)
Definition toInt32 (p : Z) : Z := if (p <? 2 ^ 31)%Z then p else (p - 2 ^ 32)%Z.

(** 592-604 [createTask]: the task as it is queued. *)
Definition createTask (i : nat) (p : Z) : Task := mkTask i (toInt32 p).

(** 251 [find_if] and 255 [splice]: before the first task of lower priority. *)
Fixpoint insertBefore (t : Task) (q : list Task) : list Task :=
  match q with
  | [] => [t]
  | x :: r => if (tprio x <? tprio t)%Z then t :: q else x :: insertBefore t r
  end.

(** 240-256 [push]: priority 0 goes to the end without a search. *)
Definition push (t : Task) (q : list Task) : list Task := if (tprio t =? 0)%Z then q ++ [t] else insertBefore t q.

(** 258-266 [pop]: the first task. *)
Definition pop (q : list Task) : option (Task * list Task) := match q with [] => None | t :: r => Some (t, r) end.

(** * The pool *)

(** 614-680 [worker]: where a worker stands.  [WPop] 607 next; [WTook] a task was taken, 609 next; [WBegin] 627 and the call
    of the function next; [WIn] inside the function; [WOut] 635 and 636 next; [WIdle] no task, 642 next; [WLook] the
    predicate of 647 next; [WDozing] the predicate was false, the thread is about to block (its mutex is its own, 618, so
    nothing keeps a notification from coming now); [WAsleep] blocked; [WCheck] 651 next; [WShrink n] [nThreads = n], 662
    next; [WClear1], [WClear2] 656-657 or 667-668 next; [WGone] left. *)
Inductive WPhase :=
| WPop | WTook (t : Task) | WBegin (t : Task) | WIn (t : Task) | WOut | WIdle | WLook | WDozing | WAsleep | WCheck
| WShrink (n : nat) | WClear1 | WClear2 | WGone.

(** 442-465 [execute]: where a submitting thread stands.  [SIdle] not in execute; [SPush] 449 done, 451 next; [SNotify] 452
    or 460 next; [SSize] the first condition of 456 next; [SMax] the second one next; [SCheck] 457 next; [SRunning n]
    [nThreads = n], the second half of 457 next; [SCreate] 458 next. *)
Inductive SPhase := SIdle | SPush (t : Task) | SNotify | SSize | SMax | SCheck | SRunning (n : nat) | SCreate.

(** 338-357: the shared state; [psent] the tasks pushed so far, [pstarted] those whose function was called, [pdropped] those
    destroyed by [clear]; the recycled task objects are left out.  The counters are taken as unbounded. *)
Record Pool := mkPool {
  pshut : bool; pqueued : nat; prunning : nat; pqueue : list Task; pthreads : nat; pmin : nat; pmax : nat;
  pwork : list WPhase; psub : list SPhase; psent : list Task; pstarted : list Task; pdropped : list Task }.

Definition setW (p : Pool) (i : nat) (w : WPhase) : Pool := (** worker [i] moves on *)
  mkPool (pshut p) (pqueued p) (prunning p) (pqueue p) (pthreads p) (pmin p) (pmax p) (upd (pwork p) i w) (psub p) (psent p) (pstarted p) (pdropped p).

Definition setS (p : Pool) (j : nat) (x : SPhase) : Pool := (** submitting thread [j] moves on *)
  mkPool (pshut p) (pqueued p) (prunning p) (pqueue p) (pthreads p) (pmin p) (pmax p) (pwork p) (upd (psub p) j x) (psent p) (pstarted p) (pdropped p).

Definition setQueued (p : Pool) (n : nat) : Pool := (** 449, 609 *)
  mkPool (pshut p) n (prunning p) (pqueue p) (pthreads p) (pmin p) (pmax p) (pwork p) (psub p) (psent p) (pstarted p) (pdropped p).

Definition setRunning (p : Pool) (n : nat) : Pool := (** 627, 636 *)
  mkPool (pshut p) (pqueued p) n (pqueue p) (pthreads p) (pmin p) (pmax p) (pwork p) (psub p) (psent p) (pstarted p) (pdropped p).

Definition setThreads (p : Pool) (n : nat) : Pool := (** 551, 652, 663 *)
  mkPool (pshut p) (pqueued p) (prunning p) (pqueue p) n (pmin p) (pmax p) (pwork p) (psub p) (psent p) (pstarted p) (pdropped p).

Definition setQueue (p : Pool) (q : list Task) : Pool := (** 607 *)
  mkPool (pshut p) (pqueued p) (prunning p) q (pthreads p) (pmin p) (pmax p) (pwork p) (psub p) (psent p) (pstarted p) (pdropped p).

Definition pushed (p : Pool) (t : Task) : Pool := (** 451 *)
  mkPool (pshut p) (pqueued p) (prunning p) (push t (pqueue p)) (pthreads p) (pmin p) (pmax p) (pwork p) (psub p) (psent p ++ [t]) (pstarted p) (pdropped p).

Definition started (p : Pool) (t : Task) : Pool := (** 632 the function is called *)
  mkPool (pshut p) (pqueued p) (prunning p) (pqueue p) (pthreads p) (pmin p) (pmax p) (pwork p) (psub p) (psent p) (pstarted p ++ [t]) (pdropped p).

Definition cleared (p : Pool) : Pool := (** 657, 668, 225-228 [clear]: the counter of queued tasks stays *)
  mkPool (pshut p) (pqueued p) (prunning p) [] (pthreads p) (pmin p) (pmax p) (pwork p) (psub p) (psent p) (pstarted p) (pdropped p ++ pqueue p).

(** 614-680: one access of worker [i].  [c] stands for what the model leaves open: in [WIdle] whether the thread has spun
    enough (642), in [WAsleep] whether it wakes by timeout (otherwise spuriously), in [WCheck] whether the keep-alive time
    has passed (660), in [WShrink] whether the compare-exchange fails without reason (663).  A sleeping thread that wakes
    looks at the predicate again, but by timeout it goes on in any case.  [None]: the thread has left. *)
Definition workerStep (p : Pool) (i : nat) (c : bool) : option Pool :=
  match nth_error (pwork p) i with
  | Some WPop => match pop (pqueue p) with
                 | Some (t, q) => Some (setW (setQueue p q) i (WTook t))
                 | None => Some (setW p i WIdle)
                 end
  | Some (WTook t) => Some (setW (setQueued p (pqueued p - 1)) i (WBegin t))
  | Some (WBegin t) => Some (setW (started (setRunning p (S (prunning p))) t) i (WIn t))
  | Some (WIn _) => Some (setW p i WOut)
  | Some WOut => Some (setW (setRunning p (prunning p - 1)) i WCheck)
  | Some WIdle => Some (setW p i (if c then WLook else WCheck))
  | Some WLook => Some (setW p i (if (0 <? pqueued p) || pshut p then WCheck else WDozing))
  | Some WDozing => Some (setW p i WAsleep)
  | Some WAsleep => Some (setW p i (if c then WCheck else WLook))
  | Some WCheck => if pshut p
                   then Some (setW (setThreads p (pthreads p - 1)) i (if pthreads p =? 1 then WClear1 else WGone))
                   else Some (setW p i (if c then WShrink (pthreads p) else WPop))
  | Some (WShrink n) => if n <=? pmin p then Some (setW p i WPop)
                        else if (pthreads p =? n) && negb c
                        then Some (setW (setThreads p (n - 1)) i (if n =? 1 then WClear1 else WGone))
                        else Some (setW p i (WShrink (pthreads p)))
  | Some WClear1 => Some (setW p i WClear2)
  | Some WClear2 => Some (setW (cleared p) i WGone)
  | Some WGone | None => None
  end.

Definition asleep (w : WPhase) : bool := match w with WAsleep => true | _ => false end. (** blocked in the wait *)

(** 452, 460 [notify_one]: wakes [k] if it is blocked; if nobody is, nothing happens; otherwise [k] is not possible. *)
Definition notifyOne (p : Pool) (k : nat) : option Pool :=
  match nth_error (pwork p) k with
  | Some WAsleep => Some (setW p k WLook)
  | _ => if existsb asleep (pwork p) then None else Some p
  end.

(** 375, 407, 412 [notify_all]. *)
Definition notifyAll (p : Pool) : Pool :=
  mkPool (pshut p) (pqueued p) (prunning p) (pqueue p) (pthreads p) (pmin p) (pmax p)
         (map (fun w => if asleep w then WLook else w) (pwork p)) (psub p) (psent p) (pstarted p) (pdropped p).

(** 543-569 [createWorkerThread]; taken to succeed. *)
Definition createWorker (p : Pool) : Pool :=
  mkPool (pshut p) (pqueued p) (prunning p) (pqueue p) (S (pthreads p)) (pmin p) (pmax p) (pwork p ++ [WPop]) (psub p) (psent p) (pstarted p) (pdropped p).

(** 442-465: one access of submitting thread [j]; [t] the task when it starts, [k] the thread woken by a notification. *)
Definition submitStep (p : Pool) (j : nat) (t : Task) (k : nat) : option Pool :=
  match nth_error (psub p) j with
  | Some SIdle => Some (setS (setQueued p (S (pqueued p))) j (SPush t))
  | Some (SPush x) => Some (setS (pushed p x) j SNotify)
  | Some SNotify => match notifyOne p k with Some p' => Some (setS p' j SSize) | None => None end
  | Some SSize => Some (setS p j (match pqueue p with [] => SIdle | _ => SMax end))
  | Some SMax => Some (setS p j (if pthreads p <? pmax p then SCheck else SIdle))
  | Some SCheck => Some (setS p j (SRunning (pthreads p)))
  | Some (SRunning n) => Some (setS p j (if (n <=? prunning p) && (n <=? pmax p) then SCreate else SNotify))
  | Some SCreate => Some (setS (createWorker p) j SNotify)
  | None => None
  end.

(** What can happen: a worker's step, a submitting thread's step, [requestShutdown] or the destructor (374-375, 411-412),
    [setThreadBounds] (397-408), which refuses zeros and a minimum above the maximum. *)
Inductive Act := AWork (i : nat) (c : bool) | ASubmit (j : nat) (t : Task) (k : nat) | AShutdown | ANotifyAll | ABounds (mn mx : nat).

Definition step (p : Pool) (a : Act) : option Pool := (** one step *)
  match a with
  | AWork i c => workerStep p i c
  | ASubmit j t k => submitStep p j t k
  | AShutdown => Some (mkPool true (pqueued p) (prunning p) (pqueue p) (pthreads p) (pmin p) (pmax p) (pwork p) (psub p) (psent p) (pstarted p) (pdropped p))
  | ANotifyAll => Some (notifyAll p)
  | ABounds mn mx =>
    if (mn =? 0) || (mx <? mn) then None
    else Some (mkPool (pshut p) (pqueued p) (prunning p) (pqueue p) (pthreads p) mn mx (pwork p) (psub p) (psent p) (pstarted p) (pdropped p))
  end.

Fixpoint run (p : Pool) (l : list Act) : option Pool := (** an interleaving *)
  match l with [] => Some p | a :: r => match step p a with Some p' => run p' r | None => None end end.

(** 366-371: a pool with [mn] (at most [mx]) workers, and [k] threads that may submit. *)
Definition newPool (mn mx k : nat) : Pool :=
  let n := Nat.min mn mx in mkPool false 0 0 [] n n mx (repeat WPop n) (repeat SIdle k) [] [] [].

(** * Joining *)

(** 376-378, 413-415: [join] of each thread in turn; [true] stands for a joinable thread.  Joining a thread that is not
    joinable throws; in the destructor that ends the process. *)
Fixpoint joinAll (l : list bool) : option (list bool) :=
  match l with
  | [] => Some []
  | true :: r => match joinAll r with Some r' => Some (false :: r') | None => None end
  | false :: _ => None
  end.

(** * Default sizes *)

Definition clamp (x lo hi : nat) : nat := if x <? lo then lo else if hi <? x then hi else x. (** [std::clamp] *)

(** 791: threads that may be used. *)
Definition usable (limit reserve : nat) : nat := if reserve <? limit then limit - clamp reserve 0 limit else 1.

(** 800-801: the CPU pool (not Emscripten); [hw] is [hardware_concurrency()]. *)
Definition cpuMax (limit reserve hw : nat) : nat := clamp (Nat.max 1 hw) 1 (Nat.max (usable limit reserve / 2) 1).

(** 804: the IO pool. *)
Definition ioMax (limit reserve hw : nat) : nat :=
  let c := cpuMax limit reserve hw in let u := usable limit reserve in if c <? u then Nat.max (u - c) 1 else 1.

(** 874-877 [Manager()]: whether the manager can be built. *)
Definition managerOk (limit hw : nat) : bool := negb (limit <=? cpuMax limit 4 hw + ioMax limit 4 hw).

(** * Affinity *)

(** 524-541 [distributeThreadAffinityAcrossCores]: the cores left for thread [i]; [n] counts the enabled cores so far. *)
Fixpoint distributeFrom (stripe i n : nat) (mask : list bool) : list bool :=
  match mask with
  | [] => []
  | true :: r => (n mod stripe =? i) :: distributeFrom stripe i (S n) r
  | false :: r => false :: distributeFrom stripe i n r
  end.

Definition distribute (mn : nat) (mask : list bool) (i : nat) : list bool := distributeFrom (Nat.max mn 1) i 0 mask. (** 524-541 *)

(** 554: the number a new worker's mask is computed for; [n] threads exist before. *)
Definition creationIndex (n : nat) : nat := S n.
