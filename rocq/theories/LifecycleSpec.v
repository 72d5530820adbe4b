(** Specification vocabulary for the life-cycle properties C24-C26, independent of the code's tables. *)
From Coq Require Import List Bool.
From Verif Require Import LifecycleModel.
Import ListNotations.

(** *** Independent specification, read off the documentation of LifeCycle.hpp:22-73 and 126-134. *)

(** Edges drawn in the state diagram (LifeCycle.hpp:38-73); ERROR is reachable from anywhere. *)
Inductive doc_edge : lstate -> lstate -> Prop :=
| de_init : doc_edge IDLE INITIALISED
| de_idle_stopped : doc_edge IDLE STOPPED
| de_init_stopped : doc_edge INITIALISED STOPPED
| de_start : doc_edge INITIALISED RUNNING
| de_pause : doc_edge RUNNING REQUESTED_PAUSE
| de_paused : doc_edge REQUESTED_PAUSE PAUSED
| de_resume : doc_edge PAUSED RUNNING
| de_stop_running : doc_edge RUNNING REQUESTED_STOP
| de_stop_reqpause : doc_edge REQUESTED_PAUSE REQUESTED_STOP
| de_stop_paused : doc_edge PAUSED REQUESTED_STOP
| de_stopped : doc_edge REQUESTED_STOP STOPPED
| de_reset_stopped : doc_edge STOPPED INITIALISED
| de_reset_error : doc_edge ERROR INITIALISED
| de_error s : doc_edge s ERROR.

(** Two further edges the code accepts and the diagram does not draw: a stop request before the start. *)
Inductive extra_edge : lstate -> lstate -> Prop :=
| ee_idle : extra_edge IDLE REQUESTED_STOP
| ee_init : extra_edge INITIALISED REQUESTED_STOP.

Definition edge (a b : lstate) : Prop := doc_edge a b \/ extra_edge a b.

Fixpoint chain (R : lstate -> lstate -> Prop) (l : list lstate) : Prop :=
  match l with
  | [] => True
  | x :: r => match r with [] => True | y :: _ => R x y end /\ chain R r
  end.

(** Documented hook for a transition (LifeCycle.hpp:126-132). *)
Inductive doc_hook : lstate -> lstate -> hook -> Prop :=
| dh_init : doc_hook IDLE INITIALISED H_init
| dh_start : doc_hook INITIALISED RUNNING H_start
| dh_stop s : doc_hook s REQUESTED_STOP H_stop
| dh_pause : doc_hook RUNNING REQUESTED_PAUSE H_pause
| dh_resume : doc_hook PAUSED RUNNING H_resume
| dh_reset s : s <> IDLE -> doc_hook s INITIALISED H_reset.

Definition last_state (l : list lstate) : lstate := last l IDLE.

(** The single documented edge the code refuses. *)
Definition refused_doc_edge (a b : lstate) : Prop := a = REQUESTED_PAUSE /\ b = REQUESTED_STOP.

(** Requests accepted without effect: same state, or a stop / pause of something already stopped / paused. *)
Definition idempotent (a b : lstate) : Prop :=
  a = b \/ (a = STOPPED /\ b = REQUESTED_STOP) \/ (a = PAUSED /\ b = REQUESTED_PAUSE).

(** *** Hook discipline over whole histories: every start is preceded by an init or reset of its own, and the
    block is only active after a start that no stop, init or reset followed. *)
Inductive phase := Ph_fresh | Ph_ready | Ph_active | Ph_over.

(** Phase reached after a hook log: fresh (nothing yet), ready (init/reset seen), active (start seen since), over
    (stop seen since).  [None]: a start without a preceding init/reset. *)
Fixpoint phase_of (ph : phase) (l : list hook) : option phase :=
  match l with
  | [] => Some ph
  | h :: r =>
      match h, ph with
      | H_init, _ | H_reset, _ => phase_of Ph_ready r
      | H_start, Ph_ready => phase_of Ph_active r
      | H_start, _ => None
      | H_stop, _ => phase_of Ph_over r
      | H_pause, Ph_active | H_resume, Ph_active => phase_of ph r
      | H_pause, _ | H_resume, _ => None
      end
  end.

Definition all_hooks : hooks_present := fun _ => true.

(** *** Serialised callers: the interleaved machine restricted to uninterrupted load/store pairs keeps to the
    table; with interleaving it does not. *)
Definition cinit (s : lstate) (reqs : list lstate) : cmachine :=
  {| c_state := s; c_trace := [s]; c_pcs := map PC_load reqs |}.

(** Schedule in which every thread of [order] does its load and its store without interruption. *)
Definition serial (order : list nat) : list nat := flat_map (fun i => [i; i]) order.
