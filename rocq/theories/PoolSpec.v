(** What the thread pool's properties say, apart from how the pool works. *)
From Coq Require Import ZArith Bool Arith List.
From Verif Require Import Base PoolModel.
Import ListNotations.
Local Open Scope nat_scope.

(** ** The queue *)

(** A task of the caller is queued, or one is taken. *)
Inductive QAct := QPush (i : nat) (p : Z) | QPop.

(** The tasks served, in order, and those left. *)
Fixpoint serve (q : list Task) (l : list QAct) : list Task * list Task :=
  match l with
  | [] => ([], q)
  | QPush i p :: r => serve (push (createTask i p) q) r
  | QPop :: r => match pop q with
                 | Some (t, q') => let (s, e) := serve q' r in (t :: s, e)
                 | None => serve q r
                 end
  end.

(** The tasks given, as the caller means them. *)
Definition given (l : list QAct) : list Task := flat_map (fun a => match a with QPush i p => [mkTask i p] | QPop => [] end) l.

Definition ofPriority (p : Z) (l : list Task) : list Task := filter (fun t => (tprio t =? p)%Z) l.

(** Higher priorities first. *)
Fixpoint descending (l : list Task) : Prop :=
  match l with [] => True | t :: r => (forall x, In x r -> (tprio x <= tprio t)%Z) /\ descending r end.

(** ** The pool *)

(** The task a worker has taken and not yet begun. *)
Definition hand (w : WPhase) : list Task := match w with WTook t | WBegin t => [t] | _ => [] end.
Definition hands (p : Pool) : list Task := flat_map hand (pwork p).

(** Inside a function (or just out of it). *)
Definition inFunction (w : WPhase) : bool := match w with WIn _ | WOut => true | _ => false end.

(** Threads of the pool that have not decided to leave. *)
Definition alive (w : WPhase) : bool := match w with WClear1 | WClear2 | WGone => false | _ => true end.

Definition number {A} (f : A -> bool) (l : list A) : nat := length (filter f l).

(** Nobody changes the bounds; nobody shuts the pool down. *)
Definition fixedBounds (l : list Act) : Prop := forall mn mx, ~ In (ABounds mn mx) l.
Definition noShutdown (l : list Act) : Prop := ~ In AShutdown l.

(** Steps of the pool's own threads. *)
Definition ofWorkers (l : list Act) : Prop := forall a, In a l -> exists i c, a = AWork i c.
Definition noSubmit (l : list Act) : Prop := forall j t k, ~ In (ASubmit j t k) l.

(** How often worker [i] gets to run. *)
Definition turnsOf (i : nat) (l : list Act) : nat := length (filter (fun a => match a with AWork k _ => k =? i | _ => false end) l).

(** Everybody waits: no thread is in [execute] and all live workers are blocked. *)
Definition allWaiting (p : Pool) : Prop :=
  (forall j x, nth_error (psub p) j = Some x -> x = SIdle) /\ (forall i w, nth_error (pwork p) i = Some w -> w = WAsleep \/ w = WGone).
