(** Life-cycle properties C24, C25, C26. *)
From Coq Require Import List Bool.
From Verif Require Import LifecycleModel LifecycleSpec LifecycleProofs.
Import ListNotations.

(** C24: the sequence of states a block goes through uses only documented edges (plus a stop request before the
    start), whatever is requested and whichever hooks throw. *)
Theorem C24_trace_follows_documented_edges : forall p rs,
  chain edge (m_trace (run_requests p machine_init rs)) /\
  last_state (m_trace (run_requests p machine_init rs)) = m_state (run_requests p machine_init rs).
Proof. exact trace_follows_edges. Qed.
Print Assumptions C24_trace_follows_documented_edges.

Example C24_trace_example :
  m_trace (run_requests all_hooks machine_init [(INITIALISED, false); (PAUSED, false); (RUNNING, false); (REQUESTED_PAUSE, true)])
  = [IDLE; INITIALISED; RUNNING; REQUESTED_PAUSE; ERROR].
Proof. reflexivity. Qed.

(** C24: a rejected request changes nothing (state, trace, hooks) and is not a documented edge, with one exception
    stated below. *)
Theorem C24_rejected_request_has_no_effect : forall p m new t m',
  changeStateTo p m new t = (m', RejectedTransition) ->
  m' = m /\ (~ edge (m_state m) new \/ refused_doc_edge (m_state m) new).
Proof. exact rejected_no_effect. Qed.
Print Assumptions C24_rejected_request_has_no_effect.

Example C24_rejected_example :
  changeStateTo all_hooks {| m_state := RUNNING; m_trace := [RUNNING]; m_hooks := [] |} INITIALISED false
  = ({| m_state := RUNNING; m_trace := [RUNNING]; m_hooks := [] |}, RejectedTransition).
Proof. reflexivity. Qed.

(** C24: an accepted request either was idempotent and did nothing, or moved along an edge to the requested state;
    if it reports a hook failure the transition was an edge with a documented, implemented hook and the state is
    ERROR. *)
Theorem C24_accepted_request_effect : forall p m new t m' r,
  changeStateTo p m new t = (m', r) ->
  (r = Ok -> (idempotent (m_state m) new /\ m' = m) \/
             (edge (m_state m) new /\ m_state m <> new /\ m_state m' = new /\ m_trace m' = m_trace m ++ [new])) /\
  (r = HookThrew -> t = true /\ edge (m_state m) new /\ m_state m' = ERROR /\ m_trace m' = m_trace m ++ [new; ERROR] /\
                    exists h, doc_hook (m_state m) new h /\ p h = true).
Proof. exact accepted_effect. Qed.
Print Assumptions C24_accepted_request_effect.

Example C24_accepted_example :
  changeStateTo all_hooks {| m_state := PAUSED; m_trace := [PAUSED]; m_hooks := [] |} RUNNING false
  = ({| m_state := RUNNING; m_trace := [PAUSED; RUNNING]; m_hooks := [H_resume] |}, Ok).
Proof. reflexivity. Qed.

(** C24: a stopped or failed block stays stopped or failed until INITIALISED is requested. *)
Theorem C24_stopped_until_reinitialised : forall p m rs,
  m_state m = STOPPED \/ m_state m = ERROR ->
  (forall r, In r rs -> fst r <> INITIALISED) ->
  m_state (run_requests p m rs) = STOPPED \/ m_state (run_requests p m rs) = ERROR.
Proof. exact stopped_stays. Qed.
Print Assumptions C24_stopped_until_reinitialised.

Example C24_stopped_example :
  m_state (run_requests all_hooks {| m_state := STOPPED; m_trace := [STOPPED]; m_hooks := [] |}
             [(RUNNING, false); (REQUESTED_STOP, false); (ERROR, false); (PAUSED, false)]) = ERROR.
Proof. reflexivity. Qed.

(** The diagram of LifeCycle.hpp:38-73 draws an edge REQUESTED_PAUSE -> REQUESTED_STOP; the code rejects it, so a
    block waiting for its pause cannot be stopped. *)
Theorem C24_stop_during_pause_request_refuted : exists a b,
  doc_edge a b /\ forall p t m, m_state m = a -> changeStateTo p m b t = (m, RejectedTransition).
Proof.
  exists REQUESTED_PAUSE, REQUESTED_STOP. split; [constructor|].
  intros p t m H. unfold changeStateTo. rewrite H. reflexivity.
Qed.
Print Assumptions C24_stop_during_pause_request_refuted.

(** C25: an accepted transition with an implemented hook runs exactly that hook, once; an exception ends in ERROR. *)
Theorem C25_hook_runs_exactly_once : forall p m new t m' r,
  changeStateTo p m new t = (m', r) -> edge (m_state m) new -> m_state m <> new ->
  ~ refused_doc_edge (m_state m) new ->
  forall h, doc_hook (m_state m) new h -> p h = true ->
  m_hooks m' = m_hooks m ++ [h] /\
  (if t then r = HookThrew /\ m_state m' = ERROR else r = Ok /\ m_state m' = new).
Proof. exact hook_exact. Qed.
Print Assumptions C25_hook_runs_exactly_once.

Example C25_hook_example :
  changeStateTo all_hooks {| m_state := INITIALISED; m_trace := []; m_hooks := [H_init] |} RUNNING true
  = ({| m_state := ERROR; m_trace := [RUNNING; ERROR]; m_hooks := [H_init; H_start] |}, HookThrew)
  /\ edge INITIALISED RUNNING /\ doc_hook INITIALISED RUNNING H_start.
Proof. repeat split; try constructor; constructor. Qed.

(** C25: no request runs anything but the documented hook of the transition it performs. *)
Theorem C25_no_other_hook_runs : forall p m new t,
  m_hooks (fst (changeStateTo p m new t)) = m_hooks m \/
  exists h, edge (m_state m) new /\ m_state m <> new /\ doc_hook (m_state m) new h /\ p h = true /\
            m_hooks (fst (changeStateTo p m new t)) = m_hooks m ++ [h].
Proof. exact hooks_grow. Qed.
Print Assumptions C25_no_other_hook_runs.

Example C25_no_hook_example :
  m_hooks (fst (changeStateTo all_hooks {| m_state := REQUESTED_STOP; m_trace := []; m_hooks := [H_stop] |} STOPPED false)) = [H_stop].
Proof. reflexivity. Qed.

(** C25: over any history, start is never called twice without an init or reset in between, pause and resume are
    only called on a started block, and a block that is active has been started since its last init/reset/stop. *)
Theorem C25_hook_history_discipline : forall rs,
  let m := run_requests all_hooks machine_init rs in
  exists ph, phase_of Ph_fresh (m_hooks m) = Some ph /\ (isActive (m_state m) = true -> ph = Ph_active).
Proof. exact hook_log_discipline. Qed.
Print Assumptions C25_hook_history_discipline.

Example C25_history_example :
  m_hooks (run_requests all_hooks machine_init
    [(INITIALISED, false); (RUNNING, false); (REQUESTED_PAUSE, false); (PAUSED, false); (RUNNING, false);
     (REQUESTED_STOP, false); (RUNNING, false); (STOPPED, false); (INITIALISED, false); (RUNNING, false)])
  = [H_init; H_start; H_pause; H_resume; H_stop; H_reset; H_start].
Proof. reflexivity. Qed.

(** C26, proved part: when the requests of any number of threads are served one at a time, in any order, the
    observed states follow the edges.  Missing: requests whose load and store interleave, for which the claim is
    false (next theorem). *)
Theorem C26_serialised_requests_partial : forall s reqs order,
  chain edge (c_trace (crun (cinit s reqs) (serial order))).
Proof. exact serialised_callers. Qed.
Print Assumptions C26_serialised_requests_partial.

Example C26_serialised_example :
  c_trace (crun (cinit RUNNING [STOPPED; REQUESTED_STOP; STOPPED]) (serial [0; 1; 2])) = [RUNNING; REQUESTED_STOP; STOPPED].
Proof. reflexivity. Qed.

(** C26 as stated is false: the state is loaded, checked and stored in separate steps, so a pause request racing
    with a stop makes a STOPPED block active again. *)
Theorem C26_concurrent_requests_refuted :
  exists s reqs sched a b l1 l2,
    c_trace (crun (cinit s reqs) sched) = l1 ++ a :: b :: l2 /\ ~ edge a b /\
    s = RUNNING /\ a = STOPPED /\ isActive b = true.
Proof. exact interleaving_witness. Qed.
Print Assumptions C26_concurrent_requests_refuted.
