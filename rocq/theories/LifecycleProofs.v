From Coq Require Import List Bool Lia.
From Verif Require Import LifecycleModel LifecycleSpec.
Import ListNotations.

Lemma lstate_eqb_eq a b : lstate_eqb a b = true <-> a = b.
Proof. destruct a, b; simpl; split; congruence. Qed.

Lemma lstate_eqb_refl a : lstate_eqb a a = true.
Proof. destruct a; reflexivity. Qed.

Lemma chain_app R l x y : chain R (l ++ [x]) -> R x y -> chain R ((l ++ [x]) ++ [y]).
Proof.
  induction l as [|a l IH]; intros Hc Hr.
  - simpl. repeat split; assumption.
  - cbn [app chain] in *. destruct Hc as [Ha Hc]. split.
    + destruct l; simpl in *; assumption.
    + apply IH; assumption.
Qed.

Definition tr_ok (m : machine) : Prop :=
  exists l, m_trace m = l ++ [m_state m] /\ chain edge (m_trace m).

Lemma valid_edge a b : isValidTransition a b = true -> a <> b -> edge a b.
Proof.
  destruct a, b; simpl; intros H Hne; try discriminate; try congruence;
    try (left; constructor); right; constructor.
Qed.

Lemma set_ok m s : tr_ok m -> edge (m_state m) s -> tr_ok (setAndNotifyState m s).
Proof.
  intros [l [Hl Hc]] He. unfold tr_ok, setAndNotifyState; cbn.
  exists (m_trace m). split; [reflexivity|].
  rewrite Hl in *. apply chain_app; assumption.
Qed.

Lemma neqb_neq a b : lstate_eqb a b = false -> a <> b.
Proof. intros H E; subst; rewrite lstate_eqb_refl in H; discriminate. Qed.

Lemma change_ok p m new t : tr_ok m -> tr_ok (fst (changeStateTo p m new t)).
Proof.
  intros H. unfold changeStateTo.
  destruct (lstate_eqb (m_state m) new) eqn:E1; cbn [orb]; [exact H|].
  destruct (lstate_eqb (m_state m) STOPPED && lstate_eqb new REQUESTED_STOP); cbn [orb]; [exact H|].
  destruct (lstate_eqb (m_state m) PAUSED && lstate_eqb new REQUESTED_PAUSE); [exact H|].
  destruct (isValidTransition (m_state m) new) eqn:E2; cbn [negb]; [|exact H].
  assert (H1 : tr_ok (setAndNotifyState m new))
    by (apply set_ok; [exact H | apply valid_edge; [exact E2 | apply neqb_neq; exact E1]]).
  destruct (select_hook p (m_state m) new) as [h|]; [|exact H1].
  unfold invokeLifecycleMethod. destruct t; cbn [fst]; [|destruct H1 as [l [A B]]; exists l; split; assumption].
  apply (set_ok _ ERROR); [destruct H1 as [l [A B]]; exists l; split; assumption | left; constructor].
Qed.

Lemma run_ok p rs m : tr_ok m -> tr_ok (run_requests p m rs).
Proof.
  revert m; induction rs as [|r rs IH]; intros m H; [exact H|].
  apply IH. apply change_ok; exact H.
Qed.

Lemma trace_follows_edges p rs : chain edge (m_trace (run_requests p machine_init rs))
                                 /\ last_state (m_trace (run_requests p machine_init rs)) = m_state (run_requests p machine_init rs).
Proof.
  assert (H : tr_ok (run_requests p machine_init rs)).
  { apply run_ok. exists []. split; [reflexivity | simpl; auto]. }
  destruct H as [l [Hl Hc]]. split; [exact Hc|].
  rewrite Hl. unfold last_state. apply last_last.
Qed.


Lemma edge_valid a b : edge a b -> refused_doc_edge a b \/ isValidTransition a b = true.
Proof.
  intros [H|H]; inversion H; subst; try (right; reflexivity).
  left; split; reflexivity.
Qed.

Lemma rejected_no_effect p m new t m' :
  changeStateTo p m new t = (m', RejectedTransition) ->
  m' = m /\ (~ edge (m_state m) new \/ refused_doc_edge (m_state m) new).
Proof.
  unfold changeStateTo.
  destruct (lstate_eqb (m_state m) new) eqn:E1; cbn [orb]; [discriminate|].
  destruct (lstate_eqb (m_state m) STOPPED && lstate_eqb new REQUESTED_STOP) eqn:E2; cbn [orb]; [discriminate|].
  destruct (lstate_eqb (m_state m) PAUSED && lstate_eqb new REQUESTED_PAUSE) eqn:E3; [discriminate|].
  destruct (isValidTransition (m_state m) new) eqn:E4; cbn [negb].
  - destruct (select_hook p (m_state m) new); [unfold invokeLifecycleMethod; destruct t|]; discriminate.
  - intros H; inversion H; subst; split; [reflexivity|].
    destruct (m_state m') eqn:Em, new; try (left; intros He; apply edge_valid in He;
      destruct He as [[A B]|He]; [discriminate|rewrite He in E4; discriminate]);
      right; split; reflexivity.
Qed.

Lemma accepted_cases p m new t m' r :
  changeStateTo p m new t = (m', r) -> r <> RejectedTransition ->
  (idempotent (m_state m) new /\ m' = m /\ r = Ok) \/
  (edge (m_state m) new /\ m_state m <> new /\
   match select_hook p (m_state m) new with
   | None => r = Ok /\ m_state m' = new /\ m_hooks m' = m_hooks m
   | Some h => m_hooks m' = m_hooks m ++ [h] /\
               ((t = false /\ r = Ok /\ m_state m' = new) \/ (t = true /\ r = HookThrew /\ m_state m' = ERROR))
   end).
Proof.
  unfold changeStateTo.
  destruct (lstate_eqb (m_state m) new) eqn:E1; cbn [orb].
  { intros H Hr; inversion H; subst; left; repeat split; left; apply lstate_eqb_eq; exact E1. }
  destruct (lstate_eqb (m_state m) STOPPED && lstate_eqb new REQUESTED_STOP) eqn:E2; cbn [orb].
  { intros H Hr; inversion H; subst; left; repeat split. right; left.
    apply andb_prop in E2; destruct E2 as [A B]; apply lstate_eqb_eq in A; apply lstate_eqb_eq in B; auto. }
  destruct (lstate_eqb (m_state m) PAUSED && lstate_eqb new REQUESTED_PAUSE) eqn:E3.
  { intros H Hr; inversion H; subst; left; repeat split. right; right.
    apply andb_prop in E3; destruct E3 as [A B]; apply lstate_eqb_eq in A; apply lstate_eqb_eq in B; auto. }
  destruct (isValidTransition (m_state m) new) eqn:E4; cbn [negb].
  - intros H Hr. right. split; [apply valid_edge; [exact E4|apply neqb_neq; exact E1]|].
    split; [apply neqb_neq; exact E1|].
    destruct (select_hook p (m_state m) new) as [h|].
    + unfold invokeLifecycleMethod in H. destruct t; inversion H; subst; cbn; auto 6.
    + inversion H; subst; cbn; auto.
  - intros H Hr; inversion H; subst; congruence.
Qed.

Lemma select_hook_doc p a b h : edge a b -> select_hook p a b = Some h -> doc_hook a b h /\ p h = true.
Proof.
  intros He. assert (Hn : a = b \/ a <> b) by (destruct a, b; auto; right; discriminate).
  unfold select_hook.
  destruct He as [He|He]; inversion He; subst; try destruct a;
    cbn [lstate_eqb andb negb orb]; rewrite ?andb_false_r, ?andb_true_r;
    repeat match goal with |- context [if p ?x then _ else _] => destruct (p x) eqn:? end;
    intros H; inversion H; subst; try discriminate; split; try assumption; try constructor; discriminate.
Qed.

Lemma doc_hook_select p a b h : edge a b -> a <> b -> doc_hook a b h -> p h = true -> select_hook p a b = Some h.
Proof.
  intros He Hne Hd Hp. unfold select_hook.
  inversion Hd; subst; cbn [lstate_eqb andb negb orb]; rewrite ?andb_false_r, ?andb_true_r, ?Hp; try reflexivity.
  destruct a; try congruence; cbn [lstate_eqb andb negb orb]; rewrite ?andb_false_r, ?andb_true_r, ?Hp; reflexivity.
Qed.

Lemma hook_exact p m new t m' r :
  changeStateTo p m new t = (m', r) -> edge (m_state m) new -> m_state m <> new ->
  ~ refused_doc_edge (m_state m) new ->
  forall h, doc_hook (m_state m) new h -> p h = true ->
  m_hooks m' = m_hooks m ++ [h] /\
  (if t then r = HookThrew /\ m_state m' = ERROR else r = Ok /\ m_state m' = new).
Proof.
  intros H He Hne Hr h Hd Hp.
  assert (Hv : isValidTransition (m_state m) new = true) by (destruct (edge_valid _ _ He); [contradiction|assumption]).
  pose proof (doc_hook_select p _ _ _ He Hne Hd Hp) as Hs.
  unfold changeStateTo in H.
  assert (E1 : lstate_eqb (m_state m) new = false)
    by (destruct (lstate_eqb (m_state m) new) eqn:E; [apply lstate_eqb_eq in E; contradiction|reflexivity]).
  rewrite E1, Hv, Hs in H. cbn [orb negb] in H.
  assert (E2 : lstate_eqb (m_state m) STOPPED && lstate_eqb new REQUESTED_STOP = false)
    by (destruct (m_state m), new; try reflexivity; discriminate).
  assert (E3 : lstate_eqb (m_state m) PAUSED && lstate_eqb new REQUESTED_PAUSE = false)
    by (destruct (m_state m), new; try reflexivity; discriminate).
  rewrite E2, E3 in H; cbn [orb] in H.
  unfold invokeLifecycleMethod in H. destruct t; inversion H; subst; cbn; auto.
Qed.

(** No hook at all when the request is rejected or idempotent. *)
Lemma hooks_grow p m new t :
  m_hooks (fst (changeStateTo p m new t)) = m_hooks m \/
  exists h, edge (m_state m) new /\ m_state m <> new /\ doc_hook (m_state m) new h /\ p h = true /\
            m_hooks (fst (changeStateTo p m new t)) = m_hooks m ++ [h].
Proof.
  destruct (changeStateTo p m new t) as [m' r] eqn:E. cbn [fst].
  destruct r.
  - destruct (accepted_cases p m new t m' Ok E) as [(A & B & C)|(A & B & C)]; [discriminate|subst; auto|].
    destruct (select_hook p (m_state m) new) as [h|] eqn:Es; [|left; tauto].
    right; exists h. destruct (select_hook_doc _ _ _ _ A Es) as [D F]. tauto.
  - left. destruct (rejected_no_effect _ _ _ _ _ E) as [-> _]; reflexivity.
  - destruct (accepted_cases p m new t m' HookThrew E) as [(A & B & C)|(A & B & C)]; [discriminate|subst; auto|].
    destruct (select_hook p (m_state m) new) as [h|] eqn:Es; [|left; tauto].
    right; exists h. destruct (select_hook_doc _ _ _ _ A Es) as [D F]. tauto.
Qed.

Lemma phase_of_app ph l1 l2 :
  phase_of ph (l1 ++ l2) = match phase_of ph l1 with Some p => phase_of p l2 | None => None end.
Proof.
  revert ph; induction l1 as [|h l IH]; intros ph; [reflexivity|].
  cbn [app phase_of]. destruct h, ph; auto.
Qed.

(** Relation between state and phase when every hook is implemented. *)
Definition phase_inv (m : machine) : Prop :=
  exists ph, phase_of Ph_fresh (m_hooks m) = Some ph /\
  match m_state m with
  | IDLE => True
  | INITIALISED => ph = Ph_ready
  | RUNNING | REQUESTED_PAUSE | PAUSED => ph = Ph_active
  | REQUESTED_STOP => ph = Ph_over
  | STOPPED | ERROR => True
  end.

Lemma phase_step m new t : phase_inv m -> phase_inv (fst (changeStateTo all_hooks m new t)).
Proof.
  intros [ph [Hp Hs]]. unfold phase_inv, changeStateTo.
  destruct (m_state m) eqn:Em, new; cbn [lstate_eqb orb andb negb isValidTransition select_hook all_hooks fst];
    try (exists ph; rewrite Em; split; [exact Hp | exact Hs]);
    unfold invokeLifecycleMethod; destruct t; cbn [fst setAndNotifyState m_hooks m_state];
    rewrite ?phase_of_app, ?Hp; cbn [phase_of];
    try (eexists; split; [reflexivity|]; auto; fail);
    try (subst ph; eexists; split; [reflexivity|]; auto; fail);
    try (exists ph; split; [exact Hp|]; auto; fail);
    try (destruct ph; eexists; split; [reflexivity|]; auto; fail).
Qed.

Lemma phase_run rs : phase_inv (run_requests all_hooks machine_init rs).
Proof.
  assert (G : forall rs m, phase_inv m -> phase_inv (run_requests all_hooks m rs)).
  { clear rs; induction rs as [|r rs IH]; intros m H; [exact H|]. apply IH, phase_step, H. }
  apply G. exists Ph_fresh; split; [reflexivity|exact I].
Qed.

Lemma hook_log_discipline rs :
  let m := run_requests all_hooks machine_init rs in
  exists ph, phase_of Ph_fresh (m_hooks m) = Some ph /\ (isActive (m_state m) = true -> ph = Ph_active).
Proof.
  cbn zeta. destruct (phase_run rs) as [ph [Hp Hs]]. exists ph; split; [exact Hp|].
  destruct (m_state _); simpl; try discriminate; auto.
Qed.

(** Leaving STOPPED or ERROR. *)
Lemma stopped_stays p m rs :
  m_state m = STOPPED \/ m_state m = ERROR ->
  (forall r, In r rs -> fst r <> INITIALISED) ->
  m_state (run_requests p m rs) = STOPPED \/ m_state (run_requests p m rs) = ERROR.
Proof.
  revert m; induction rs as [|[n t] rs IH]; intros m H Hin; [exact H|].
  apply IH.
  - assert (Hn : n <> INITIALISED) by (apply (Hin (n, t)); left; reflexivity).
    cbn [fst snd]. unfold changeStateTo.
    destruct H as [H|H]; rewrite H; destruct n; try congruence;
      unfold select_hook; cbn [lstate_eqb orb andb negb isValidTransition];
      rewrite ?andb_false_r; cbn [fst setAndNotifyState m_state]; rewrite ?H; auto.
  - intros r Hr; apply Hin; right; exact Hr.
Qed.

Lemma interleaving_witness :
  exists s reqs sched a b l1 l2,
    c_trace (crun (cinit s reqs) sched) = l1 ++ a :: b :: l2 /\ ~ edge a b /\
    s = RUNNING /\ a = STOPPED /\ isActive b = true.
Proof.
  exists RUNNING, [REQUESTED_PAUSE; REQUESTED_STOP; STOPPED], [0; 1; 1; 2; 2; 0], STOPPED, REQUESTED_PAUSE,
    [RUNNING; REQUESTED_STOP], [].
  split; [vm_compute; reflexivity|]. split; [|repeat split].
  intros [H|H]; inversion H.
Qed.

(** One request at a time: the thread's load and store are adjacent in the schedule. *)
Definition ctr_ok (c : cmachine) : Prop := exists l, c_trace c = l ++ [c_state c] /\ chain edge (c_trace c).

Definition no_pending (c : cmachine) : Prop := forall i o r, nth_error (c_pcs c) i <> Some (PC_store o r).

Lemma nth_set_pc_same l i v : i < length l -> nth_error (set_pc l i v) i = Some v.
Proof.
  revert i; induction l as [|x l IH]; intros i H; simpl in H; [lia|].
  destruct i; simpl; [reflexivity|apply IH; lia].
Qed.

Lemma nth_set_pc_other l i j v : i <> j -> nth_error (set_pc l i v) j = nth_error l j.
Proof.
  revert i j; induction l as [|x l IH]; intros i j H; [destruct i; reflexivity|].
  destruct i, j; simpl; try reflexivity; try congruence. apply IH; congruence.
Qed.

Lemma set_pc_no_pending l i : (forall j o r, j <> i -> nth_error l j <> Some (PC_store o r)) ->
  forall j o r, nth_error (set_pc l i PC_done) j <> Some (PC_store o r).
Proof.
  intros H j o r. destruct (PeanoNat.Nat.eq_dec i j) as [->|Hij].
  - destruct (PeanoNat.Nat.lt_ge_cases j (length l)) as [Hl|Hl].
    + rewrite nth_set_pc_same by exact Hl. discriminate.
    + assert (E : nth_error (set_pc l j PC_done) j = None).
      { apply nth_error_None. clear -Hl. revert j Hl; induction l as [|x l IH]; intros j Hl; [destruct j; simpl; lia|].
        destruct j; simpl in *; [lia|]. specialize (IH j); lia. }
      rewrite E; discriminate.
  - rewrite nth_set_pc_other by exact Hij. apply H; congruence.
Qed.

Lemma serial_pair c i : ctr_ok c -> no_pending c -> ctr_ok (cstep (cstep c i) i) /\ no_pending (cstep (cstep c i) i).
Proof.
  intros Hok Hnp.
  destruct (nth_error (c_pcs c) i) as [pc|] eqn:E.
  2:{ assert (Es : cstep c i = c) by (unfold cstep; rewrite E; reflexivity). rewrite !Es; auto. }
  assert (Hl : i < length (c_pcs c)) by (apply nth_error_Some; congruence).
  destruct pc as [req|old req|].
  2:{ exfalso; exact (Hnp _ _ _ E). }
  2:{ assert (Es : cstep c i = c) by (unfold cstep; rewrite E; reflexivity). rewrite !Es; auto. }
  set (noop := lstate_eqb (c_state c) req || (lstate_eqb (c_state c) STOPPED && lstate_eqb req REQUESTED_STOP)
                  || (lstate_eqb (c_state c) PAUSED && lstate_eqb req REQUESTED_PAUSE)).
  destruct noop eqn:En; [|destruct (isValidTransition (c_state c) req) eqn:Ev].
  - assert (Es : cstep c i = {| c_state := c_state c; c_trace := c_trace c; c_pcs := set_pc (c_pcs c) i PC_done |}).
    { unfold cstep; rewrite E. fold noop. rewrite En. reflexivity. }
    rewrite Es. unfold cstep; cbn [c_pcs]; rewrite nth_set_pc_same by exact Hl.
    split; [exact Hok|]. intros j o r. apply set_pc_no_pending. intros; apply Hnp.
  - assert (Es : cstep c i = {| c_state := c_state c; c_trace := c_trace c; c_pcs := set_pc (c_pcs c) i (PC_store (c_state c) req) |}).
    { unfold cstep; rewrite E. fold noop. rewrite En, Ev. reflexivity. }
    rewrite Es. unfold cstep; cbn [c_pcs c_trace c_state]; rewrite nth_set_pc_same by exact Hl.
    split.
    + destruct Hok as [l [Hl1 Hc]]. exists (c_trace c); split; [reflexivity|]. cbn.
      rewrite Hl1 in *. apply chain_app; [exact Hc|]. apply valid_edge; [exact Ev|].
      apply neqb_neq. unfold noop in En. destruct (lstate_eqb (c_state c) req); [discriminate|reflexivity].
    + intros j o r; cbn [c_pcs]. apply set_pc_no_pending. intros j' o' r' Hne.
      rewrite nth_set_pc_other by congruence. apply Hnp.
  - assert (Es : cstep c i = {| c_state := c_state c; c_trace := c_trace c; c_pcs := set_pc (c_pcs c) i PC_done |}).
    { unfold cstep; rewrite E. fold noop. rewrite En, Ev. reflexivity. }
    rewrite Es. unfold cstep; cbn [c_pcs]; rewrite nth_set_pc_same by exact Hl.
    split; [exact Hok|]. intros j o r. apply set_pc_no_pending. intros; apply Hnp.
Qed.

Lemma serial_run order : forall c, ctr_ok c -> no_pending c -> ctr_ok (crun c (serial order)).
Proof.
  induction order as [|i order IH]; intros c H1 H2; [exact H1|].
  change (ctr_ok (crun (cstep (cstep c i) i) (serial order))).
  destruct (serial_pair c i H1 H2) as [A B]. apply IH; assumption.
Qed.

Lemma serialised_callers s reqs order : chain edge (c_trace (crun (cinit s reqs) (serial order))).
Proof.
  destruct (serial_run order (cinit s reqs)) as [l [A B]]; [exists []; split; simpl; auto| |exact B].
  intros i o r. unfold cinit; cbn [c_pcs]. intros H.
  apply nth_error_In in H. apply in_map_iff in H. destruct H as [x [Hx _]]; discriminate.
Qed.

Lemma accepted_effect p m new t m' r :
  changeStateTo p m new t = (m', r) ->
  (r = Ok -> (idempotent (m_state m) new /\ m' = m) \/
             (edge (m_state m) new /\ m_state m <> new /\ m_state m' = new /\ m_trace m' = m_trace m ++ [new])) /\
  (r = HookThrew -> t = true /\ edge (m_state m) new /\ m_state m' = ERROR /\ m_trace m' = m_trace m ++ [new; ERROR] /\
                    exists h, doc_hook (m_state m) new h /\ p h = true).
Proof.
  intros H. split; intros Hr; subst r.
  - destruct (accepted_cases _ _ _ _ _ _ H) as [(A & B & _)|(A & B & C)]; [discriminate|left; auto|right].
    split; [exact A|]. split; [exact B|].
    unfold changeStateTo in H.
    destruct (lstate_eqb (m_state m) new) eqn:E1; [apply lstate_eqb_eq in E1; contradiction|]. cbn [orb] in H.
    destruct (lstate_eqb (m_state m) STOPPED && lstate_eqb new REQUESTED_STOP) eqn:E2.
    { apply andb_prop in E2; destruct E2 as [X Y]; apply lstate_eqb_eq in X; apply lstate_eqb_eq in Y.
      rewrite X, Y in A. destruct A as [A|A]; inversion A. }
    destruct (lstate_eqb (m_state m) PAUSED && lstate_eqb new REQUESTED_PAUSE) eqn:E3.
    { apply andb_prop in E3; destruct E3 as [X Y]; apply lstate_eqb_eq in X; apply lstate_eqb_eq in Y.
      rewrite X, Y in A. destruct A as [A|A]; inversion A. }
    cbn [orb] in H. destruct (isValidTransition (m_state m) new); cbn [negb] in H; [|discriminate].
    destruct (select_hook p (m_state m) new); [unfold invokeLifecycleMethod in H; destruct t; [discriminate|]|];
      inversion H; subst; cbn; auto.
  - unfold changeStateTo in H.
    destruct (lstate_eqb (m_state m) new) eqn:E1; [discriminate|].
    destruct (lstate_eqb (m_state m) STOPPED && lstate_eqb new REQUESTED_STOP) eqn:E2; [discriminate|].
    destruct (lstate_eqb (m_state m) PAUSED && lstate_eqb new REQUESTED_PAUSE) eqn:E3; [discriminate|].
    cbn [orb] in H. destruct (isValidTransition (m_state m) new) eqn:E4; cbn [negb] in H; [|discriminate].
    assert (A : edge (m_state m) new) by (apply valid_edge; [exact E4|apply neqb_neq; exact E1]).
    destruct (select_hook p (m_state m) new) as [h|] eqn:Es; [|discriminate].
    unfold invokeLifecycleMethod in H. destruct t; [|discriminate].
    inversion H; subst; cbn. rewrite <- app_assoc. cbn.
    destruct (select_hook_doc _ _ _ _ A Es). repeat split; auto. exists h; auto.
Qed.
