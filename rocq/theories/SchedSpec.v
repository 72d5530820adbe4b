(** What the scheduler's properties say, apart from how the scheduler works. *)
From Coq Require Import NArith Bool Arith List.
From Verif Require Import Base LifecycleModel SchedModel.
Import ListNotations.
Local Open Scope nat_scope.

(** ** Quiescence *)

(** Thread [j] relies on quiescence. *)
Definition holdsQuiet (s : QState) (j : nat) : Prop := nth_error (qreq s) j = Some RHeld.

(** Worker [i] is inside a guarded section. *)
Definition inside (s : QState) (i : nat) : Prop := nth_error (qwork s) i = Some WIn.

(** The requests do not overlap at any time of the history. *)
Definition noOverlap (s : QState) (l : list QAct) : Prop :=
  forall p q, l = p ++ q -> forall j k a b,
    nth_error (qreq (qrun s p)) j = Some a -> nth_error (qreq (qrun s p)) k = Some b -> a <> RIdle -> b <> RIdle -> j = k.

(** How often worker [i] gets to run. *)
Definition turnsOf (i : nat) (l : list QAct) : nat :=
  length (filter (fun a => match a with QWork k => Nat.eqb k i | QReq _ => false end) l).

(** ** The loop *)

(** [n] turns in a row without messages handled. *)
Definition silent (ds : list Did) : Prop := forall d, In d ds -> handled d = false.

Definition traversals (ds : list Did) : nat := length (filter worked ds).

(** The state each turn goes by: the one read in the last turn that handled messages, or at the start. *)
Fixpoint lastRead (s : lstate) (ts : list Turn) (ds : list Did) : list lstate :=
  match ts, ds with
  | t :: ts', d :: ds' => let s' := if handled d then stateNow t else s in s' :: lastRead s' ts' ds'
  | _, _ => []
  end.

(** A turn of a busy worker: nothing pending, guard granted, blocks there, the traversal reports neither DONE nor ERROR and
    there is no wait. *)
Definition busyTurn (t : Turn) : Prop :=
  pending t = false /\ exchanged t = false /\ stateNow t = RUNNING /\ granted t = true /\ noBlocks t = false /\ result t = SOther /\ waited t = false.

(** ** Who handles a block *)

(** Worker [i] is handling the blocks [l]: their messages, their housekeeping or their work. *)
Definition handling (s : Sched) (i : nat) (l : list nat) : Prop := nth_error (sbusy s) i = Some (Some l).

Definition touched (s : Sched) (b : nat) : Prop := exists i l, handling s i l /\ In b l.

(** The published job list of worker [i]. *)
Definition jobs (s : Sched) (i : nat) : list nat := nth i (sexec s) [].

(** Steps that hand block [b] to the scheduler or its graph. *)
Definition hands (a : Act) (b : nat) : Prop :=
  match a with
  | AEmplace x | AAdd x | AReplace _ x | AGroup _ x => x = b
  | AUngroup _ bs => In b bs
  | AExchange g => In b g
  | _ => False
  end.

Definition everHands (l : list Act) (b : nat) : Prop := exists a, In a l /\ hands a b.

(** Steps after which the job lists are built anew or the workers are. *)
Definition rebuilds (a : Act) : Prop := match a with AInit | AReset | AStart | AExchange _ => True | _ => False end.

(** The callers wait: lists are rebuilt, and blocks taken away from a scheduler that is not active, only when the workers
    have left. *)
Definition timely (s : Sched) (a : Act) : Prop :=
  match a with
  | AInit | AReset | AExchange _ => allGone s = true
  | AGroup _ _ => isActive (sst s) = true \/ allGone s = true
  | _ => True
  end.

(** In addition: blocks are taken away only while every worker is in its loop, and a worker leaves only when it has seen
    what was taken away. *)
Definition tidy (s : Sched) (a : Act) : Prop :=
  timely s a /\
  match a with
  | AGroup _ _ => isActive (sst s) = true /\ forall i p, nth_error (swork s) i = Some p -> exists l, p = Live l
  | ALeave i => nth i (smoved s) [] = []
  | _ => True
  end.

(** The step taken from every state of the history obeys [P]. *)
Fixpoint obeys (P : Sched -> Act -> Prop) (c : Cfg) (s : Sched) (l : list Act) : Prop :=
  match l with
  | [] => True
  | a :: r => P s a /\ match step c s a with Next s' => obeys P c s' r | _ => True end
  end.

(** A zombie may be destroyed. *)
Definition stopped (v : lstate) : bool :=
  match v with IDLE | INITIALISED | STOPPED | ERROR => true | _ => false end.

(** Nothing takes block [b] away from worker [r], which has it waiting, and the lists are not rebuilt; worker [r] has no
    message section meanwhile. *)
Definition keepsWaiting (b r : nat) (s : Sched) (a : Act) : Prop :=
  match a with
  | AInit | AReset | AExchange _ => False
  | ARemove x | AReplace x _ | AUngroup x _ => x <> b
  | AGroup bs _ => isActive (sst s) = true /\ ~ In b bs
  | AMsgs i => i <> r
  | _ => True
  end.

(** No block gets into the graph past the scheduler, the graph is not exchanged, and the scheduler is initialised before
    anything else happens to its state. *)
Definition regular (s : Sched) (a : Act) : Prop :=
  match a with
  | AReplace _ _ | AAdd _ | AExchange _ => False
  | AState _ => sst s <> IDLE
  | _ => True
  end.

(** ** Messages *)

(** The steps of a history that a restarting scheduler's old worker and waiting thread can take: turns that do not end in
    DONE, ERROR or an exchange, and looks at the number of jobs. *)
Definition ordinary (a : RsAct) : Prop :=
  match a with RsTurn t => exchanged t = false /\ result t = SOther | RsLook => True | _ => False end.

Definition sent (l : list UpAct) : list ChildMsg := flat_map (fun a => match a with USend m => [m] | UForward => [] end) l.
