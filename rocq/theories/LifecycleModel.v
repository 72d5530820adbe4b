(** Model of the block / scheduler life-cycle state machine.
    Source: /repo/core/include/gnuradio-4.0/LifeCycle.hpp *)
From Coq Require Import List Bool.
Import ListNotations.

(** LifeCycle.hpp:74, [enum class State]. *)
Inductive lstate :=
| IDLE | INITIALISED | RUNNING | REQUESTED_PAUSE | PAUSED | REQUESTED_STOP | STOPPED | ERROR.

(** Equality test of the enum, used by LifeCycle.hpp:98-118 and 224. *)
Definition lstate_eqb (a b : lstate) : bool :=
  match a, b with
  | IDLE, IDLE | INITIALISED, INITIALISED | RUNNING, RUNNING | REQUESTED_PAUSE, REQUESTED_PAUSE
  | PAUSED, PAUSED | REQUESTED_STOP, REQUESTED_STOP | STOPPED, STOPPED | ERROR, ERROR => true
  | _, _ => false
  end.

(** LifeCycle.hpp:98. *)
Definition isActive (s : lstate) : bool :=
  lstate_eqb s RUNNING || lstate_eqb s REQUESTED_PAUSE || lstate_eqb s PAUSED.

(** LifeCycle.hpp:100. *)
Definition isShuttingDown (s : lstate) : bool := lstate_eqb s REQUESTED_STOP || lstate_eqb s STOPPED.

(** LifeCycle.hpp:102-118. *)
Definition isValidTransition (from to : lstate) : bool :=
  if lstate_eqb to ERROR || lstate_eqb from to then true
  else match from with
       | IDLE => lstate_eqb to INITIALISED || lstate_eqb to REQUESTED_STOP || lstate_eqb to STOPPED
       | INITIALISED => lstate_eqb to RUNNING || lstate_eqb to REQUESTED_STOP || lstate_eqb to STOPPED
       | RUNNING => lstate_eqb to REQUESTED_PAUSE || lstate_eqb to REQUESTED_STOP
       | REQUESTED_PAUSE => lstate_eqb to PAUSED
       | PAUSED => lstate_eqb to RUNNING || lstate_eqb to REQUESTED_STOP
       | REQUESTED_STOP => lstate_eqb to STOPPED
       | STOPPED => lstate_eqb to INITIALISED
       | ERROR => lstate_eqb to INITIALISED
       end.

(** The optional life-cycle methods of the derived class, LifeCycle.hpp:126-132. *)
Inductive hook := H_init | H_start | H_stop | H_pause | H_resume | H_reset.

(** Which hooks the derived class implements: the [requires] tests at LifeCycle.hpp:241-266. *)
Definition hooks_present := hook -> bool.

(** Selection of the hook, in the textual order of LifeCycle.hpp:241-271. A hook that is not implemented is
    skipped and the following tests are still tried, as the code does. *)
Definition select_hook (p : hooks_present) (old new : lstate) : option hook :=
  if p H_init && (lstate_eqb old IDLE && lstate_eqb new INITIALISED) then Some H_init
  else if p H_start && (lstate_eqb old INITIALISED && lstate_eqb new RUNNING) then Some H_start
  else if p H_stop && lstate_eqb new REQUESTED_STOP then Some H_stop
  else if p H_pause && lstate_eqb new REQUESTED_PAUSE then Some H_pause
  else if p H_resume && ((lstate_eqb old REQUESTED_PAUSE || lstate_eqb old PAUSED) && lstate_eqb new RUNNING) then Some H_resume
  else if p H_reset && (negb (lstate_eqb old IDLE) && lstate_eqb new INITIALISED) then Some H_reset
  else None.

(** Return value of [changeStateTo]: [std::expected<void, Error>]; the two ways to obtain an error are kept
    apart (LifeCycle.hpp:228-233 and 175-184). *)
Inductive lresult := Ok | RejectedTransition | HookThrew.

(** Machine: current state, every value passed to [setAndNotifyState] so far (oldest first), every hook
    invoked so far (oldest first).  The two logs are ghost observations of LifeCycle.hpp:147-157 and 170-189. *)
Record machine := { m_state : lstate; m_trace : list lstate; m_hooks : list hook }.

(** LifeCycle.hpp:145 and 192-196. *)
Definition machine_init : machine := {| m_state := IDLE; m_trace := [IDLE]; m_hooks := [] |}.

(** LifeCycle.hpp:147-157.  Simplified: a user-defined [stateChanged] does not throw and does not itself
    change the state. *)
Definition setAndNotifyState (m : machine) (s : lstate) : machine :=
  {| m_state := s; m_trace := m_trace m ++ [s]; m_hooks := m_hooks m |}.

(** LifeCycle.hpp:170-189.  [throws] says whether the user hook throws (any exception type). *)
Definition invokeLifecycleMethod (m : machine) (h : hook) (throws : bool) : machine * lresult :=
  let m1 := {| m_state := m_state m; m_trace := m_trace m; m_hooks := m_hooks m ++ [h] |} in
  if throws then (setAndNotifyState m1 ERROR, HookThrew) else (m1, Ok).

(** LifeCycle.hpp:217-274, as one uninterrupted call. *)
Definition changeStateTo (p : hooks_present) (m : machine) (new : lstate) (throws : bool) : machine * lresult :=
  let old := m_state m in
  if lstate_eqb old new || (lstate_eqb old STOPPED && lstate_eqb new REQUESTED_STOP)
     || (lstate_eqb old PAUSED && lstate_eqb new REQUESTED_PAUSE)
  then (m, Ok)
  else if negb (isValidTransition old new) then (m, RejectedTransition)
  else
    let m1 := setAndNotifyState m new in
    match select_hook p old new with
    | Some h => invokeLifecycleMethod m1 h throws
    | None => (m1, Ok)
    end.

(** A history of requests: the requested state and whether the hook run by it throws. *)
Definition request := (lstate * bool)%type.

(** Repeated calls of LifeCycle.hpp:217-274. *)
Definition run_requests (p : hooks_present) (m : machine) (rs : list request) : machine :=
  fold_left (fun m r => fst (changeStateTo p m (fst r) (snd r))) rs m.

(** *** Concurrent callers
    LifeCycle.hpp:219-235 loads the state, checks the table and stores the new state as separate atomic
    accesses.  Each thread performs one request; its program counter is below.  Hooks are left out: they do
    not change the state unless they throw. *)
Inductive cpc :=
| PC_load (req : lstate)                   (* before LifeCycle.hpp:220 *)
| PC_store (old req : lstate)              (* after the check of LifeCycle.hpp:228, before the store at 152 *)
| PC_done.

(** Shared state, trace of stored states, one program counter per thread. *)
Record cmachine := { c_state : lstate; c_trace : list lstate; c_pcs : list cpc }.

(** Replace the program counter of thread [i] (bookkeeping of the interleaving, no code counterpart). *)
Fixpoint set_pc (l : list cpc) (i : nat) (v : cpc) : list cpc :=
  match l, i with
  | [], _ => []
  | _ :: r, O => v :: r
  | x :: r, S j => x :: set_pc r j v
  end.

(** One atomic step of thread [i]: LifeCycle.hpp:220-233 (load, then the purely local checks) or 152 (store). *)
Definition cstep (c : cmachine) (i : nat) : cmachine :=
  match nth_error (c_pcs c) i with
  | Some (PC_load req) =>
      let old := c_state c in
      let noop := lstate_eqb old req || (lstate_eqb old STOPPED && lstate_eqb req REQUESTED_STOP)
                  || (lstate_eqb old PAUSED && lstate_eqb req REQUESTED_PAUSE) in
      let pc := if noop then PC_done else if isValidTransition old req then PC_store old req else PC_done in
      {| c_state := c_state c; c_trace := c_trace c; c_pcs := set_pc (c_pcs c) i pc |}
  | Some (PC_store _ req) =>
      {| c_state := req; c_trace := c_trace c ++ [req]; c_pcs := set_pc (c_pcs c) i PC_done |}
  | _ => c
  end.

(** A schedule is the list of thread indices in execution order. *)
Definition crun (c : cmachine) (sched : list nat) : cmachine := fold_left cstep sched c.
