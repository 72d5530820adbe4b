(** Model of the running scheduler: worker threads, their job lists, work quiescence, zombies, adoption, message forwarding.
    Source: /repo/core/include/gnuradio-4.0/Scheduler.hpp (line numbers below refer to it unless another file is named) *)
From Coq Require Import NArith Bool Arith List.
From Verif Require Import Base LifecycleModel TopoModel.
Import ListNotations.
Local Open Scope nat_scope.

(** * Work quiescence *)

(** 340-362 [WorkGuard]: where a worker stands.  [WOut] before the constructor's first load (or after the destructor),
    [WSeen] the first load (347) returned false, [WAdded] after the increment (348), [WIn] the second load (352) returned
    false and the guarded section runs, [WLeaving] the destructor's decrement (357) is next. *)
Inductive WPc := WOut | WSeen | WAdded | WIn | WLeaving.

(** 272-281, 332-338 [WorkQuiescenceGuard]: a thread asking for quiescence.  [RStored] the flag is stored (273) and the
    thread spins (276), [RHeld] the spin has ended, so the guarded code runs until [releaseWorkQuiescence] (281). *)
Inductive RPc := RIdle | RStored | RHeld.

(** 227-228 [_workQuiescenceRequested], [_nWorkersInWork] (a size_t), the workers and the requesting threads. *)
Record QState := mkQ { qflag : bool; qcount : N; qwork : list WPc; qreq : list RPc }.

(** One atomic access of one thread; the two fences (275, 350) are taken as making all accesses sequentially consistent. *)
Inductive QAct := QWork (i : nat) | QReq (j : nat).

Definition two64 : N := 2 ^ 64. (** range of size_t *)

Definition inc64 (c : N) : N := ((c + 1) mod two64)%N. (** 348 [fetch_add(1UZ)], 920 [msgToCount++] *)

Definition dec64 (c : N) : N := ((c + (two64 - 1)) mod two64)%N. (** 357 [fetch_sub(1UZ)] *)

(** 340-362: one access by worker [i].  A worker inside its section leaves it in one step: the section is taken to end. *)
Definition workStep (s : QState) (i : nat) : QState :=
  match nth_error (qwork s) i with
  | Some WOut => if qflag s then s else mkQ (qflag s) (qcount s) (upd (qwork s) i WSeen) (qreq s)
  | Some WSeen => mkQ (qflag s) (inc64 (qcount s)) (upd (qwork s) i WAdded) (qreq s)
  | Some WAdded => mkQ (qflag s) (qcount s) (upd (qwork s) i (if qflag s then WLeaving else WIn)) (qreq s)
  | Some WIn => mkQ (qflag s) (qcount s) (upd (qwork s) i WLeaving) (qreq s)
  | Some WLeaving => mkQ (qflag s) (dec64 (qcount s)) (upd (qwork s) i WOut) (qreq s)
  | None => s
  end.

(** 272-281: one access by requesting thread [j]. *)
Definition reqStep (s : QState) (j : nat) : QState :=
  match nth_error (qreq s) j with
  | Some RIdle => mkQ true (qcount s) (qwork s) (upd (qreq s) j RStored)
  | Some RStored => if (0 <? qcount s)%N then s else mkQ (qflag s) (qcount s) (qwork s) (upd (qreq s) j RHeld)
  | Some RHeld => mkQ false (qcount s) (qwork s) (upd (qreq s) j RIdle)
  | None => s
  end.

Definition qstep (s : QState) (a : QAct) : QState := match a with QWork i => workStep s i | QReq j => reqStep s j end. (** one step *)

Definition qrun (s : QState) (l : list QAct) : QState := fold_left qstep l s. (** an interleaving *)

(** 227-228: initial values, [w] workers and [r] threads that may ask. *)
Definition qinit (w r : nat) : QState := mkQ false 0 (repeat WOut w) (repeat RIdle r).

(** * One pass over a job list *)

(** Block.hpp [work::Status], as the scheduler tells them apart (726-730). *)
Inductive Status := SDone | SError | SOther.

(** 718-736 [traverseBlockListOnce]: the reports of the blocks in list order; the result is the number of blocks whose
    work() was called, the work performed and the status.  The performed work is a size_t and wraps. *)
Fixpoint traverseFrom (n : nat) (performed : N) (unfinished : bool) (reports : list (N * Status)) : nat * N * Status :=
  match reports with
  | [] => (n, performed, if unfinished then SOther else SDone)
  | (w, st) :: r =>
    let performed' := ((performed + w) mod two64)%N in
    match st with
    | SError => (S n, performed', SError)
    | SDone => traverseFrom (S n) performed' unfinished r
    | SOther => traverseFrom (S n) performed' true r
    end
  end.

Definition traverseBlockListOnce (reports : list (N * Status)) : nat * N * Status := traverseFrom 0 0%N false reports. (** 718-736 *)

(** * The loop of a worker *)

(** [std::has_single_bit] for the 32 bit ratio (922): a power of two. *)
Definition hasSingleBit (r : N) : bool := negb (r =? 0)%N && (N.land r (r - 1) =? 0)%N.

(** 922-926: the counter when no messages are handled; [None] is the division by zero of line 925. *)
Definition nextCount (ratio c : N) : option N :=
  if hasSingleBit ratio then Some (N.land (inc64 c) (ratio - 1))
  else if (ratio =? 0)%N then None
  else Some (inc64 c mod ratio)%N.

(** What one turn of the loop (873-974) finds: [pending] 884 messages waiting at the entry ports, [exchanged] 888 the graph
    generation changed, [stateNow] the value a read of [state()] would give in this turn (919), [granted] 931 the work
    guard was granted, [noBlocks] 934 the local list is empty, [result] 936 the status of the traversal, [waited] 967 the
    wait for progress of the blocking policy was taken. *)
Record Turn := mkTurn {
  pending : bool; exchanged : bool; stateNow : lstate; granted : bool; noBlocks : bool; result : Status; waited : bool }.

(** 870-872: the worker's variables. *)
Record Worker := mkWorker { msgToCount : N; activeState : lstate }.

(** Why the loop ended. *)
Inductive Exit := ExExchanged | ExDone | ExError | ExInactive | ExUndefined.

(** What the turn did: [handled] 885 messages handled, [worked] 936 a traversal took place. *)
Record Did := mkDid { handled : bool; worked : bool }.

(** 873-974: one turn; [first] is [runnerID == 0]. *)
Definition turn (ratio : N) (first : bool) (w : Worker) (t : Turn) : Did * (Worker + Exit) :=
  let msgs := (msgToCount w =? 0)%N || (first && pending t) in
  if msgs && first && exchanged t then (mkDid true false, inr ExExchanged)
  else
    match (if msgs then Some (inc64 (msgToCount w)) else nextCount ratio (msgToCount w)) with
    | None => (mkDid false false, inr ExUndefined)
    | Some c =>
      let st := if msgs then stateNow t else activeState w in
      let running := lstate_eqb st RUNNING in
      let works := running && granted t && negb (noBlocks t) in
      match works, result t with
      | true, SDone => (mkDid msgs true, inr ExDone)
      | true, SError => (mkDid msgs true, inr ExError)
      | _, _ =>
        let slept := negb running || (granted t && noBlocks t) in
        let c' := if slept || waited t then 0%N else c in
        (mkDid msgs works, if isActive st then inl (mkWorker c' st) else inr ExInactive)
      end
    end.

(** 873-974: the loop over the turns to come; ends early when the loop is left. *)
Fixpoint loop (ratio : N) (first : bool) (w : Worker) (ts : list Turn) : list Did * (Worker + Exit) :=
  match ts with
  | [] => ([], inl w)
  | t :: r =>
    match turn ratio first w t with
    | (d, inr e) => ([d], inr e)
    | (d, inl w') => let (ds, o) := loop ratio first w' r in (d :: ds, o)
    end
  end.

(** 871-872: the loop starts with counter 0 and the state read once. *)
Definition loopStart (s : lstate) : Worker := mkWorker 0 s.

(** * Stopping and starting again *)

(** 765-836, 623-627: a thread that restarts the scheduler: [RsRunning] before, [RsWaiting] in the [waitDone()] of
    [start()] (813), [RsStarted] after it. *)
Inductive RestartPc := RsRunning | RsWaiting | RsStarted.

(** The scheduler state, the number of running jobs (196), the old worker (None once it has left) and the restarting thread. *)
Record Restart := mkRestart { rsState : lstate; rsJobs : nat; rsOld : option Worker; rsPc : RestartPc }.

(** The steps: one turn of the old worker (which sees the state as it is now), the restarting thread's
    [changeStateTo(REQUESTED_STOP)] (which ends in STOPPED, 1011-1029), [changeStateTo(INITIALISED)], and
    [changeStateTo(RUNNING)], which stores RUNNING before it calls start() (LifeCycle.hpp:238, 250); one look of
    [waitDone] at the number of jobs. *)
Inductive RsAct := RsTurn (t : Turn) | RsStop | RsInit | RsGo | RsLook.

(** One such step.  Simplified: the mutex held by [start()] (778) would make the old worker wait as well. *)
Definition rsStep (ratio : N) (s : Restart) (a : RsAct) : Restart :=
  match a with
  | RsTurn t =>
    match rsOld s with
    | None => s
    | Some w =>
      let t' := mkTurn (pending t) (exchanged t) (rsState s) (granted t) (noBlocks t) (result t) (waited t) in
      match snd (turn ratio true w t') with
      | inl w' => mkRestart (rsState s) (rsJobs s) (Some w') (rsPc s)
      | inr _ => mkRestart (rsState s) (pred (rsJobs s)) None (rsPc s)
      end
    end
  | RsStop => if isActive (rsState s) then mkRestart STOPPED (rsJobs s) (rsOld s) (rsPc s) else s
  | RsInit => if lstate_eqb (rsState s) STOPPED then mkRestart INITIALISED (rsJobs s) (rsOld s) (rsPc s) else s
  | RsGo => if lstate_eqb (rsState s) INITIALISED then mkRestart RUNNING (rsJobs s) (rsOld s) RsWaiting else s
  | RsLook => match rsPc s with
              | RsWaiting => if rsJobs s =? 0 then mkRestart (rsState s) (rsJobs s) (rsOld s) RsStarted else s
              | _ => s
              end
  end.

(** * Who runs which block *)

(** A worker: not yet in [poolWorker], in the loop with its local list (855), or gone. *)
Inductive Phase := NotStarted | Live (l : list nat) | Gone.

(** 191-228: the scheduler state, the flattened graph, [_executionOrder] (198), [_adoptionBlocks] (219), [_movedBlocks]
    (214), [_zombieBlocks] (203), the workers, the list each worker is handling blocks of inside a work guard, the state of
    each block, and the blocks whose message ports are connected to the scheduler's (223-224). *)
Record Sched := mkSched {
  sst : lstate; sgraph : list nat; sexec : list (list nat); sadopt : list (list nat); smoved : list (list nat);
  szomb : list nat; swork : list Phase; sbusy : list (option (list nat)); sbst : nat -> lstate; sconn : list nat }.

(** Fixed per scheduler: the policy, the threads available when the lists are built (740-744), and [std::hash<BlockModel*>] (1083). *)
Record Cfg := mkCfg { cpol : Policy; cthreads : nat; chash : nat -> nat }.

(** What a step may do: succeed, not be possible now, or run outside a container (undefined behaviour). *)
Inductive Out := Next (s : Sched) | No | Undef.

Definition memb (b : nat) (l : list nat) : bool := existsb (Nat.eqb b) l. (** [std::ranges::contains] *)

Definition without (rm l : list nat) : list nat := filter (fun b => negb (memb b rm)) l. (** [std::erase_if(l, contained in rm)] *)

Definition within (rm l : list nat) : list nat := filter (fun b => memb b rm) l. (** 1149-1159: the entries moved over *)

Fixpoint removeOne (b : nat) (l : list nat) : list nat := (** [std::ranges::find] and [erase] (1603, 1635; 1713-1714) *)
  match l with [] => [] | x :: r => if x =? b then r else x :: removeOne b r end.

Fixpoint eraseJob (b : nat) (ls : list (list nat)) : list (list nat) := (** 1642-1648: from the first list that has it *)
  match ls with [] => [] | l :: r => if memb b l then without [b] l :: r else l :: eraseJob b r end.

Fixpoint eraseAdoption (b : nat) (ls : list (list nat)) : option (list (list nat)) := (** 1712-1717 *)
  match ls with
  | [] => None
  | l :: r => if memb b l then Some (removeOne b l :: r)
              else match eraseAdoption b r with Some r' => Some (l :: r') | None => None end
  end.

Definition setSt (f : nat -> lstate) (b : nat) (v : lstate) : nat -> lstate := fun x => if x =? b then v else f x. (** a block's state *)

Definition allGone (s : Sched) : bool := (** [_nRunningJobs] is 0 (625): nobody has started and not yet left *)
  forallb (fun p => match p with Gone => true | _ => false end) (swork s).

Definition allIdle (s : Sched) : bool := forallb (fun o => match o with None => true | Some _ => false end) (sbusy s). (** 276: no worker in a guard *)

Definition jobsOf (c : Cfg) (g : list nat) : list (list nat) := batchBlocks g (nBatches (cpol c) (cthreads c) (length g)). (** 1922-1952 *)

(** 1938-1951, called by [init] (746) and [reset] (756): the lists are built from the graph as it is now. *)
Definition customInit (c : Cfg) (s : Sched) : Sched :=
  let jobs := jobsOf c (sgraph s) in
  mkSched (sst s) (sgraph s) jobs (map (fun _ => []) jobs) (smoved s) (szomb s) (swork s) (sbusy s) (sbst s) (sconn s).

Definition withState (s : Sched) (v : lstate) : Sched := (** LifeCycle.hpp:152 [store_release] *)
  mkSched v (sgraph s) (sexec s) (sadopt s) (smoved s) (szomb s) (swork s) (sbusy s) (sbst s) (sconn s).

Definition withGraph (s : Sched) (g : list nat) : Sched := (** the graph's block list *)
  mkSched (sst s) g (sexec s) (sadopt s) (smoved s) (szomb s) (swork s) (sbusy s) (sbst s) (sconn s).

Definition withConn (s : Sched) (l : list nat) : Sched := (** 504-510, 1066-1071: message ports connected *)
  mkSched (sst s) (sgraph s) (sexec s) (sadopt s) (smoved s) (szomb s) (swork s) (sbusy s) (sbst s) (l ++ sconn s).

(** 757, 795: every block of the graph is sent to a state; simplified: it arrives there. *)
Definition sendAll (g : list nat) (v : lstate) (f : nat -> lstate) : nat -> lstate := fun b => if memb b g then v else f b.

Definition withBlocks (s : Sched) (f : nat -> lstate) : Sched := (** block states changed *)
  mkSched (sst s) (sgraph s) (sexec s) (sadopt s) (smoved s) (szomb s) (swork s) (sbusy s) f (sconn s).

(** 782 [_movedBlocks.resize(n)]: entries kept are kept as they are. *)
Definition resize (n : nat) (l : list (list nat)) : list (list nat) := firstn n l ++ repeat [] (n - length l).

(** 765-836 [start]: after [waitDone] (813) the workers are handed to the pool; an empty execution order is undefined
    (815; 859 and 830 with no list). *)
Definition startSched (s : Sched) : Out :=
  if negb (lstate_eqb (sst s) INITIALISED) || negb (allGone s) then No
  else match sexec s with
       | [] => Undef
       | _ => Next (mkSched RUNNING (sgraph s) (sexec s) (sadopt s) (resize (length (sexec s)) (smoved s)) (szomb s)
                            (repeat NotStarted (length (sexec s))) (repeat None (length (sexec s)))
                            (sendAll (sgraph s) RUNNING (sbst s)) (sconn s))
       end.

(** 855-866: worker [i] copies its list; with an empty list it leaves at once. *)
Definition enter (s : Sched) (i : nat) : Out :=
  match nth_error (swork s) i, nth_error (sexec s) i with
  | Some NotStarted, Some l =>
    let p := match l with [] => Gone | _ => Live l end in
    Next (mkSched (sst s) (sgraph s) (sexec s) (sadopt s) (smoved s) (szomb s) (upd (swork s) i p) (sbusy s) (sbst s) (sconn s))
  | Some NotStarted, None => Undef
  | _, _ => No
  end.

(** 1592-1654 [cleanupZombieBlocks]: the zombies in list order; [l] the local list, [ex] the execution order. *)
Fixpoint cleanZ (zs l : list nat) (ex : list (list nat)) (f : nat -> lstate)
  : list nat * list nat * list (list nat) * (nat -> lstate) :=
  match zs with
  | [] => ([], l, ex, f)
  | z :: r =>
    if memb z l then
      match f z with
      | IDLE | STOPPED | INITIALISED | ERROR => cleanZ r (removeOne z l) (eraseJob z ex) f
      | PAUSED => let '(zs', l', ex', f') := cleanZ r l ex (setSt f z REQUESTED_STOP) in (z :: zs', l', ex', f')
      | _ => let '(zs', l', ex', f') := cleanZ r l ex f in (z :: zs', l', ex', f')
      end
    else let '(zs', l', ex', f') := cleanZ r l ex f in (z :: zs', l', ex', f')
  end.

(** 898-918: the guarded message section of worker [i]: removed blocks (1680-1691), zombies, adoption (1656-1674), then
    every block of the local list is handled. *)
Definition msgSection (s : Sched) (i : nat) : Out :=
  match nth_error (swork s) i, nth_error (sbusy s) i with
  | Some (Live l), Some None =>
    match nth_error (smoved s) i, nth_error (sadopt s) i, nth_error (sexec s) i with
    | Some mv, Some ad, Some _ =>
      let l1 := without mv l in
      let mv1 := without l mv in
      let '(zs, l2, ex, f) := match l1 with [] => (szomb s, l1, sexec s, sbst s) | _ => cleanZ (szomb s) l1 (sexec s) (sbst s) end in
      let l3 := l2 ++ ad in
      Next (mkSched (sst s) (sgraph s) (upd ex i (nth i ex [] ++ ad)) (upd (sadopt s) i []) (upd (smoved s) i mv1) zs
                    (upd (swork s) i (Live l3)) (upd (sbusy s) i (Some l3)) f (sconn s))
    | _, _, _ => Undef
    end
  | _, _ => No
  end.

(** 931-944: the guarded work section of worker [i]; nothing is handled when the list is empty. *)
Definition workSection (s : Sched) (i : nat) : Out :=
  match nth_error (swork s) i, nth_error (sbusy s) i with
  | Some (Live l), Some None =>
    match nth_error (smoved s) i with
    | Some mv =>
      let l1 := without mv l in
      Next (mkSched (sst s) (sgraph s) (sexec s) (sadopt s) (upd (smoved s) i (without l mv)) (szomb s)
                    (upd (swork s) i (Live l1)) (upd (sbusy s) i (match l1 with [] => None | _ => Some l1 end)) (sbst s) (sconn s))
    | None => Undef
    end
  | _, _ => No
  end.

(** 355-359: the guard of worker [i] ends. *)
Definition endSection (s : Sched) (i : nat) : Out :=
  match nth_error (sbusy s) i with
  | Some (Some _) => Next (mkSched (sst s) (sgraph s) (sexec s) (sadopt s) (smoved s) (szomb s) (swork s) (upd (sbusy s) i None) (sbst s) (sconn s))
  | _ => No
  end.

(** 889, 938, 941, 974, 846-849: worker [i] leaves the loop; its local list is destroyed. *)
Definition leave (s : Sched) (i : nat) : Out :=
  match nth_error (swork s) i, nth_error (sbusy s) i with
  | Some (Live _), Some None =>
    Next (mkSched (sst s) (sgraph s) (sexec s) (sadopt s) (smoved s) (szomb s) (upd (swork s) i Gone) (sbusy s) (sbst s) (sconn s))
  | _, _ => No
  end.

(** 1064-1112 [adoptBlock]; sub-schedulers are treated as any other block. *)
Definition adoptBlock (c : Cfg) (b : nat) (s0 : Sched) : Sched :=
  let s := withConn s0 [b] in
  if negb (isActive (sst s)) then s
  else if length (sadopt s) =? 0 then s
  else
    let r := chash c b mod length (sadopt s) in
    mkSched (sst s) (sgraph s) (sexec s) (upd (sadopt s) r (nth r (sadopt s) [] ++ [b])) (smoved s) (szomb s) (swork s) (sbusy s)
            (match sbst s b with IDLE | STOPPED | INITIALISED => setSt (sbst s) b RUNNING | _ => sbst s end) (sconn s).

(** 1133-1141: for every adoption list in turn, a block found in it is no longer to be removed from the running lists, and
    is erased from it. *)
Fixpoint eraseFromAdoption (all todo : list nat) (ls : list (list nat)) : list nat * list (list nat) :=
  match ls with
  | [] => (todo, [])
  | l :: r => let '(todo', r') := eraseFromAdoption all (without l todo) r in (todo', without all l :: r')
  end.

(** 1121-1172 [removeBlocksWhileRunning]. *)
Definition removeRunning (bs : list nat) (s : Sched) : Sched :=
  let '(todo, ad) := eraseFromAdoption bs bs (sadopt s) in
  mkSched (sst s) (sgraph s) (map (without todo) (sexec s)) ad
          (map (fun p => snd p ++ within todo (fst p)) (combine (sexec s) (smoved s)) ++ skipn (length (sexec s)) (smoved s))
          (szomb s) (swork s) (sbusy s) (sbst s) (sconn s).

(** 665-679 [removeBlocks]. *)
Definition removeBlocks (bs : list nat) (s : Sched) : Sched :=
  if isActive (sst s) then removeRunning bs s
  else mkSched (sst s) (sgraph s) [] [] (smoved s) (szomb s) (swork s) (sbusy s) (sbst s) (sconn s).

(** 1702-1722 [makeZombie]; simplified: the request to stop leaves the block in REQUESTED_STOP. *)
Definition makeZombie (b : nat) (s : Sched) : Sched :=
  let f := match sbst s b with PAUSED | RUNNING => setSt (sbst s) b REQUESTED_STOP | _ => sbst s end in
  match eraseAdoption b (sadopt s) with
  | Some ad => mkSched (sst s) (sgraph s) (sexec s) ad (smoved s) (szomb s) (swork s) (sbusy s) f (sconn s)
  | None => mkSched (sst s) (sgraph s) (sexec s) (sadopt s) (smoved s) (szomb s ++ [b]) (swork s) (sbusy s) f (sconn s)
  end.

(** What can happen.  [AInit], [AReset], [AStart]: the transitions that call init (746), reset (756) and start (765).
    [AState v]: any other change of the scheduler's state.  [AEnter] to [ALeave]: the workers.  [AEmplace] (1174-1286),
    [ARemove] (1288-1317), [AReplace] (1867-1913), [AGroup bs g] (1319-1382, into a scheduler), [AUngroup g bs]
    (1441-1485): the message handlers, with the blocks already found.  [AAdd]: a block put into the graph through its own
    interface.  [AExchange g]: exchange (394-455) of a scheduler that is not active (one that is active is stopped first
    and reset and started afterwards).  [ABlock b v]: a block's state changes by itself. *)
Inductive Act :=
| AInit | AReset | AStart | AState (v : lstate)
| AEnter (i : nat) | AMsgs (i : nat) | AWork (i : nat) | AEnd (i : nat) | ALeave (i : nat)
| AEmplace (b : nat) | ARemove (b : nat) | AReplace (old new : nat) | AGroup (bs : list nat) (g : nat) | AUngroup (g : nat) (bs : list nat)
| AAdd (b : nat) | AExchange (g : list nat) | ABlock (b : nat) (v : lstate).

(** Everything the scheduler refers to: a block made anew is none of these. *)
Definition known (s : Sched) (b : nat) : bool :=
  memb b (sgraph s ++ concat (sexec s) ++ concat (sadopt s) ++ concat (smoved s) ++ szomb s
          ++ flat_map (fun p => match p with Live l => l | _ => [] end) (swork s)).

(** A block the scheduler does not hold at present: it may be handed to it. *)
Definition held (s : Sched) (b : nat) : bool := memb b (sgraph s ++ concat (sexec s) ++ concat (sadopt s) ++ szomb s).

Fixpoint distinct (l : list nat) : bool := match l with [] => true | x :: r => negb (memb x r) && distinct r end. (** no repetition *)

(** One step.  A new block is new ([known] excludes it); the blocks of an ungrouped sub-scheduler are not the parent's. *)
Definition step (c : Cfg) (s : Sched) (a : Act) : Out :=
  match a with
  | AInit => if lstate_eqb (sst s) IDLE then Next (customInit c (withConn (withState s INITIALISED) (sgraph s))) else No
  | AReset => if lstate_eqb (sst s) STOPPED || lstate_eqb (sst s) ERROR
              then let s' := withState s INITIALISED in Next (customInit c (withBlocks s' (sendAll (sgraph s) INITIALISED (sbst s)))) else No
  | AStart => startSched s
  | AState v => if isValidTransition (sst s) v && negb (lstate_eqb v INITIALISED) && negb (lstate_eqb (sst s) INITIALISED && lstate_eqb v RUNNING)
                then Next (withState s v) else No
  | AEnter i => enter s i
  | AMsgs i => msgSection s i
  | AWork i => workSection s i
  | AEnd i => endSection s i
  | ALeave i => leave s i
  | AEmplace b => if known s b then No else Next (adoptBlock c b (withGraph s (sgraph s ++ [b])))
  | ARemove b => if memb b (sgraph s) then Next (makeZombie b (withGraph s (without [b] (sgraph s)))) else No
  | AReplace o n => if memb o (sgraph s) && negb (known s n)
                    then Next (makeZombie o (withGraph s (without [o] (sgraph s ++ [n])))) else No
  | AGroup bs g => if negb (allIdle s) || known s g || negb (forallb (fun b => memb b (sgraph s)) bs) then No
                   else Next (adoptBlock c g (removeBlocks bs (withGraph s (without bs (sgraph s) ++ [g]))))
  | AUngroup g bs => if negb (allIdle s) || negb (memb g (sgraph s)) || negb (distinct bs) || existsb (held s) bs then No
                     else Next (fold_left (fun t b => adoptBlock c b t) bs (makeZombie g (withGraph s (without [g] (sgraph s) ++ bs))))
  | AAdd b => if known s b then No else Next (withGraph s (sgraph s ++ [b]))
  | AExchange g => if isActive (sst s) || negb (distinct g) || existsb (known s) g then No
                   else let s' := if lstate_eqb (sst s) STOPPED || lstate_eqb (sst s) ERROR
                                  then customInit c (withBlocks s (sendAll (sgraph s) INITIALISED (sbst s))) else s in
                        Next (withGraph s' g)
  | ABlock b v => Next (withBlocks s (setSt (sbst s) b v))
  end.

(** A sequence of steps. *)
Fixpoint run (c : Cfg) (s : Sched) (l : list Act) : Out :=
  match l with
  | [] => Next s
  | a :: r => match step c s a with Next s' => run c s' r | o => o end
  end.

(** 364-378: a scheduler around a graph; nothing else yet. *)
Definition initial (g : list nat) : Sched := mkSched IDLE g [] [] [] [] [] [] (fun _ => INITIALISED) [].

(** * Messages *)

(** 552-578: a message of a child: its identity and whether it carries an error. *)
Record ChildMsg := mkMsg { mid : nat; isError : bool }.

(** The children's ring (222, capacity [cap]) and what was put out at the scheduler's own port. *)
Record Up := mkUp { upRing : list ChildMsg; upOut : list ChildMsg }.

(** Message.hpp:94-117 [sendMessage]: the child's blocking reserve; without room the child spins and nothing changes. *)
Definition childSend (cap : nat) (u : Up) (m : ChildMsg) : Up * bool :=
  if length (upRing u) <? cap then (mkUp (upRing u ++ [m]) (upOut u), true) else (u, false).

(** 552-578: the end of [processScheduledMessages]; the flag is [true] when the error of a child is thrown (562).  The span
    of line 552 has the policy ProcessNone, so what is not consumed explicitly (576) stays. *)
Definition forwardUp (listeners : bool) (u : Up) : Up * bool :=
  match upRing u with
  | [] => (u, false)
  | _ => if listeners then (mkUp [] (upOut u ++ upRing u), false) else (u, existsb isError (upRing u))
  end.

Inductive UpAct := USend (m : ChildMsg) | UForward. (** a child (re)tries to send; the scheduler forwards *)

(** A history: the rings, the messages accepted, and for each forwarding whether it threw. *)
Fixpoint upRun (cap : nat) (listeners : bool) (u : Up) (l : list UpAct) : Up * list ChildMsg * list bool :=
  match l with
  | [] => (u, [], [])
  | USend m :: r =>
    let (u', ok) := childSend cap u m in
    let '(v, acc, thr) := upRun cap listeners u' r in (v, if ok then m :: acc else acc, thr)
  | UForward :: r => let (u', t) := forwardUp listeners u in let '(v, acc, thr) := upRun cap listeners u' r in (v, acc, t :: thr)
  end.

(** 520-535, 221: the ring to the children: [dnNext] messages written, and how far each child has read. *)
Record Down := mkDown { dnNext : nat; dnRead : list nat }.

(** 527 [reserve(1)]: room only when every reader is less than the capacity behind; otherwise the thread spins. *)
Definition forwardDown (cap : nat) (d : Down) : Down :=
  if forallb (fun r => dnNext d - r <? cap) (dnRead d) then mkDown (S (dnNext d)) (dnRead d) else d.

Definition readAll (d : Down) (i : nat) : Down := mkDown (dnNext d) (upd (dnRead d) i (dnNext d)). (** Block.hpp:1435-1457 *)

Inductive DnAct := DForward | DRead (i : nat). (** worker 0 (re)tries to forward a message; child [i] handles its messages *)

Definition dnStep (cap : nat) (d : Down) (a : DnAct) : Down := match a with DForward => forwardDown cap d | DRead i => readAll d i end. (** one step *)

Definition dnRun (cap : nat) (d : Down) (l : list DnAct) : Down := fold_left (dnStep cap) l d. (** a history *)
