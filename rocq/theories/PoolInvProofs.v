(** Invariants of the pool over all interleavings. *)
From Coq Require Import ZArith Bool Arith Lia List Permutation.
From Verif Require Import Base PoolModel PoolSpec PoolProofs.
Import ListNotations.
Local Open Scope nat_scope.

Definition took (w : WPhase) : bool := match w with WTook _ => true | _ => false end.
Definition pushing (x : SPhase) : bool := match x with SPush _ => true | _ => false end.
Definition passed (x : SPhase) : bool := match x with SCheck | SRunning _ | SCreate => true | _ => false end.

Record Inv (p : Pool) : Prop := mkInv {
  iv_threads : pthreads p = number alive (pwork p);
  iv_running : prunning p = number inFunction (pwork p);
  iv_queued : pqueued p = length (pqueue p) + number took (pwork p) + number pushing (psub p) + length (pdropped p);
  iv_tasks : Permutation (psent p) (pqueue p ++ hands p ++ pstarted p ++ pdropped p) }.

Lemma push_perm t q : Permutation (push t q) (t :: q).
Proof.
  unfold push. destruct (tprio t =? 0)%Z; [symmetry; apply Permutation_cons_append|]. induction q as [|y r IH]; cbn [insertBefore]; [reflexivity|].
  destruct (tprio y <? tprio t)%Z; [reflexivity|]. rewrite IH. apply perm_swap.
Qed.

Lemma push_len t q : length (push t q) = S (length q).
Proof. rewrite (Permutation_length (push_perm t q)). reflexivity. Qed.

Lemma hands_same ws i w w' : nth_error ws i = Some w -> hand w = hand w' -> Permutation (flat_map hand (upd ws i w')) (flat_map hand ws).
Proof. intros H E. pose proof (flat_upd hand ws i w w' H) as X. rewrite E in X. exact (Permutation_app_inv_r _ _ _ X). Qed.

Lemma hands_take ws i w t : nth_error ws i = Some w -> hand w = [] -> Permutation (flat_map hand (upd ws i (WTook t))) (t :: flat_map hand ws).
Proof. intros H E. pose proof (flat_upd hand ws i w (WTook t) H) as X. rewrite E, app_nil_r in X. cbn [hand] in X. rewrite X. symmetry. apply Permutation_cons_append. Qed.

Lemma hands_begin ws i t : nth_error ws i = Some (WBegin t) -> Permutation (t :: flat_map hand (upd ws i (WIn t))) (flat_map hand ws).
Proof. intros H. pose proof (flat_upd hand ws i (WBegin t) (WIn t) H) as X. cbn [hand] in X. rewrite app_nil_r in X. rewrite <- X. apply Permutation_cons_append. Qed.

Lemma hands_map ws : flat_map hand (map (fun w => if asleep w then WLook else w) ws) = flat_map hand ws.
Proof. induction ws as [|w r IH]; cbn [map flat_map]; [reflexivity|]. rewrite IH. destruct w; reflexivity. Qed.

(** A step of a worker that leaves queue, counters and tasks alone. *)
Lemma inv_setW p i w w' : Inv p -> nth_error (pwork p) i = Some w -> hand w = hand w' -> alive w = alive w' -> inFunction w = inFunction w' -> took w = took w' ->
  Inv (setW p i w').
Proof.
  intros HI H E1 E2 E3 E4. pose proof (number_upd alive _ i w w' H) as N1. pose proof (number_upd inFunction _ i w w' H) as N2. pose proof (number_upd took _ i w w' H) as N3.
  rewrite E2 in N1. rewrite E3 in N2. rewrite E4 in N3. destruct HI as [A B C D]. constructor; cbn [setW pthreads prunning pqueued pqueue pwork psub pdropped psent pstarted].
  - lia.
  - lia.
  - lia.
  - unfold hands in *. cbn [setW pwork]. rewrite (hands_same _ i w w' H E1). exact D.
Qed.

Lemma inv_setS p j x x' : Inv p -> nth_error (psub p) j = Some x -> pushing x = pushing x' -> Inv (setS p j x').
Proof.
  intros HI H E. pose proof (number_upd pushing _ j x x' H) as N. rewrite E in N. destruct HI as [A B C D].
  constructor; cbn [setS pthreads prunning pqueued pqueue pwork psub pdropped psent pstarted]; try assumption. lia.
Qed.

Lemma worker_inv p i c p' : Inv p -> workerStep p i c = Some p' -> Inv p'.
Proof.
  intros HI H. unfold workerStep in H. destruct (nth_error (pwork p) i) as [w|] eqn:E; [|discriminate].
  pose proof (fun y => number_upd alive (pwork p) i w y E) as N1. pose proof (fun y => number_upd inFunction (pwork p) i w y E) as N2. pose proof (fun y => number_upd took (pwork p) i w y E) as N3.
  destruct w as [|t|t|t| | | | | | |n| | |].
  - destruct (pqueue p) as [|t q] eqn:Q; cbn [pop] in H; injection H as <-.
    + apply (inv_setW p i WPop); try assumption; reflexivity.
    + specialize (N1 (WTook t)). specialize (N2 (WTook t)). specialize (N3 (WTook t)). destruct HI as [A B C D]. rewrite Q in *. cbn [alive inFunction took] in *.
      constructor; cbn [setW setQueue pthreads prunning pqueued pqueue pwork psub pdropped psent pstarted length]; cbn [length] in C; try lia.
      unfold hands in *. cbn [setW setQueue pwork]. rewrite (hands_take _ i WPop t E eq_refl), D. cbn [app]. rewrite Permutation_middle. reflexivity.
  - injection H as <-. specialize (N1 (WBegin t)). specialize (N2 (WBegin t)). specialize (N3 (WBegin t)). destruct HI as [A B C D]. cbn [alive inFunction took] in *.
    constructor; cbn [setW setQueued pthreads prunning pqueued pqueue pwork psub pdropped psent pstarted]; try lia.
    unfold hands in *. cbn [setW setQueued pwork]. rewrite (hands_same _ i (WTook t) (WBegin t) E eq_refl). exact D.
  - injection H as <-. specialize (N1 (WIn t)). specialize (N2 (WIn t)). specialize (N3 (WIn t)). destruct HI as [A B C D]. cbn [alive inFunction took] in *.
    constructor; cbn [setW setRunning started pthreads prunning pqueued pqueue pwork psub pdropped psent pstarted]; try lia.
    unfold hands in *. cbn [setW setRunning started pwork]. rewrite D. apply Permutation_app_head. rewrite <- (hands_begin _ i t E). rewrite <- !app_assoc. cbn [app].
    rewrite (app_assoc _ (pstarted p)). rewrite Permutation_middle. rewrite <- app_assoc. reflexivity.
  - injection H as <-. apply (inv_setW p i (WIn t)); try assumption; reflexivity.
  - injection H as <-. specialize (N1 WCheck). specialize (N2 WCheck). specialize (N3 WCheck). destruct HI as [A B C D]. cbn [alive inFunction took] in *.
    constructor; cbn [setW setRunning pthreads prunning pqueued pqueue pwork psub pdropped psent pstarted]; try lia.
    unfold hands in *. cbn [setW setRunning pwork]. rewrite (hands_same _ i WOut WCheck E eq_refl). exact D.
  - injection H as <-. apply (inv_setW p i WIdle); try assumption; destruct c; reflexivity.
  - injection H as <-. apply (inv_setW p i WLook); try assumption; destruct ((0 <? pqueued p) || pshut p); reflexivity.
  - injection H as <-. apply (inv_setW p i WDozing); try assumption; reflexivity.
  - injection H as <-. apply (inv_setW p i WAsleep); try assumption; destruct c; reflexivity.
  - destruct (pshut p); injection H as <-; [|apply (inv_setW p i WCheck); try assumption; destruct c; reflexivity].
    set (w' := if pthreads p =? 1 then WClear1 else WGone). assert (X : alive w' = false /\ inFunction w' = false /\ took w' = false /\ hand w' = []) by (unfold w'; destruct (pthreads p =? 1); repeat split).
    destruct X as (X1 & X2 & X3 & X4). specialize (N1 w'). specialize (N2 w'). specialize (N3 w'). rewrite X1 in N1. rewrite X2 in N2. rewrite X3 in N3. destruct HI as [A B C D]. cbn [alive inFunction took] in *.
    constructor; cbn [setW setThreads pthreads prunning pqueued pqueue pwork psub pdropped psent pstarted]; try lia.
    unfold hands in *. cbn [setW setThreads pwork]. rewrite (hands_same _ i WCheck w' E (eq_sym X4)). exact D.
  - destruct (n <=? pmin p); [injection H as <-; apply (inv_setW p i (WShrink n)); try assumption; reflexivity|].
    destruct ((pthreads p =? n) && negb c) eqn:Z; injection H as <-; [|apply (inv_setW p i (WShrink n)); try assumption; reflexivity].
    apply andb_prop in Z as [Z _]. apply Nat.eqb_eq in Z.
    set (w' := if n =? 1 then WClear1 else WGone). assert (X : alive w' = false /\ inFunction w' = false /\ took w' = false /\ hand w' = []) by (unfold w'; destruct (n =? 1); repeat split).
    destruct X as (X1 & X2 & X3 & X4). specialize (N1 w'). specialize (N2 w'). specialize (N3 w'). rewrite X1 in N1. rewrite X2 in N2. rewrite X3 in N3. destruct HI as [A B C D]. cbn [alive inFunction took] in *.
    constructor; cbn [setW setThreads pthreads prunning pqueued pqueue pwork psub pdropped psent pstarted]; try lia.
    unfold hands in *. cbn [setW setThreads pwork]. rewrite (hands_same _ i (WShrink n) w' E (eq_sym X4)). exact D.
  - injection H as <-. apply (inv_setW p i WClear1); try assumption; reflexivity.
  - injection H as <-. specialize (N1 WGone). specialize (N2 WGone). specialize (N3 WGone). destruct HI as [A B C D]. cbn [alive inFunction took] in *.
    constructor; cbn [setW cleared pthreads prunning pqueued pqueue pwork psub pdropped psent pstarted length]; rewrite ?app_length; try lia.
    unfold hands in *. cbn [setW cleared pwork app]. rewrite (hands_same _ i WClear2 WGone E eq_refl), D. rewrite (Permutation_app_comm (pqueue p)), <- !app_assoc. reflexivity.
  - discriminate.
Qed.

Lemma notify_inv p k p' : Inv p -> notifyOne p k = Some p' -> Inv p' /\ psub p' = psub p /\ pthreads p' = pthreads p /\ pshut p' = pshut p /\ pmin p' = pmin p /\ pmax p' = pmax p.
Proof.
  intros HI H. unfold notifyOne in H. destruct (nth_error (pwork p) k) as [w|] eqn:E; [destruct w|];
    try (destruct (existsb asleep (pwork p)); [discriminate|]; injection H as <-; tauto).
  injection H as <-. split; [|repeat split]. apply (inv_setW p k WAsleep); try assumption; reflexivity.
Qed.

Lemma submit_inv p j t k p' : Inv p -> submitStep p j t k = Some p' -> Inv p'.
Proof.
  intros HI H. unfold submitStep in H. destruct (nth_error (psub p) j) as [x|] eqn:E; [|discriminate].
  destruct x as [|u| | | | |n|].
  - injection H as <-. pose proof (number_upd pushing _ j SIdle (SPush t) E) as N. cbn [pushing] in N. destruct HI as [A B C D].
    constructor; cbn [setS setQueued pthreads prunning pqueued pqueue pwork psub pdropped psent pstarted]; try assumption. lia.
  - injection H as <-. pose proof (number_upd pushing _ j (SPush u) SNotify E) as N. cbn [pushing] in N. destruct HI as [A B C D].
    constructor; cbn [setS pushed pthreads prunning pqueued pqueue pwork psub pdropped psent pstarted]; try assumption.
    + rewrite push_len. lia.
    + unfold hands in *. cbn [setS pushed pwork]. rewrite push_perm, D. symmetry. apply Permutation_cons_append.
  - destruct (notifyOne p k) as [q|] eqn:N; [|discriminate]. injection H as <-. destruct (notify_inv p k q HI N) as (A & B & _). apply (inv_setS q j SNotify); [exact A|rewrite B; exact E|reflexivity].
  - injection H as <-. apply (inv_setS p j SSize); try assumption. destruct (pqueue p); reflexivity.
  - injection H as <-. apply (inv_setS p j SMax); try assumption. destruct (pthreads p <? pmax p); reflexivity.
  - injection H as <-. apply (inv_setS p j SCheck); try assumption. reflexivity.
  - injection H as <-. apply (inv_setS p j (SRunning n)); try assumption. destruct ((n <=? prunning p) && (n <=? pmax p)); reflexivity.
  - injection H as <-. apply (inv_setS (createWorker p) j SCreate); [|exact E|reflexivity]. destruct HI as [A B C D].
    constructor; cbn [createWorker pthreads prunning pqueued pqueue pwork psub pdropped psent pstarted]; rewrite ?number_app.
    + change (number alive [WPop]) with 1. lia.
    + change (number inFunction [WPop]) with 0. lia.
    + change (number took [WPop]) with 0. lia.
    + unfold hands in *. cbn [createWorker pwork]. rewrite flat_map_app. cbn [flat_map hand app]. rewrite app_nil_r. exact D.
Qed.

Lemma step_inv p a p' : Inv p -> step p a = Some p' -> Inv p'.
Proof.
  intros HI H. destruct a as [i c|j t k| | |mn mx]; cbn [step] in H.
  - exact (worker_inv p i c p' HI H).
  - exact (submit_inv p j t k p' HI H).
  - injection H as <-. destruct HI as [A B C D]. constructor; assumption.
  - injection H as <-. destruct HI as [A B C D]. constructor; cbn [notifyAll pthreads prunning pqueued pqueue pwork psub pdropped psent pstarted]; rewrite ?number_map; try assumption; try (intros []; reflexivity).
    unfold hands in *. cbn [notifyAll pwork]. rewrite hands_map. exact D.
  - destruct ((mn =? 0) || (mx <? mn)); [discriminate|]. injection H as <-. destruct HI as [A B C D]. constructor; assumption.
Qed.

Lemma run_inv l : forall p p', Inv p -> run p l = Some p' -> Inv p'.
Proof.
  induction l as [|a r IH]; intros p p' HI H; cbn [run] in H; [injection H as <-; exact HI|]. destruct (step p a) as [q|] eqn:E; [|discriminate].
  exact (IH q p' (step_inv p a q HI E) H).
Qed.

Lemma hands_repeat n : flat_map hand (repeat WPop n) = [].
Proof. induction n as [|n IH]; [reflexivity|exact IH]. Qed.

Lemma inv_new mn mx k : Inv (newPool mn mx k).
Proof.
  constructor; unfold hands; cbn [newPool pthreads prunning pqueued pqueue pwork psub pdropped psent pstarted]; rewrite ?number_repeat; try reflexivity.
  rewrite hands_repeat. reflexivity.
Qed.

(** ** Bounds *)

(** While nobody shuts the pool down and the minimum is at least 1, nothing is ever dropped. *)
Record Kept (p : Pool) : Prop := mkKept {
  kp_shut : pshut p = false;
  kp_min : 1 <= pmin p;
  kp_drop : pdropped p = [];
  kp_clear : forall i w, nth_error (pwork p) i = Some w -> w <> WClear1 /\ w <> WClear2 }.

Lemma kept_upd p i w' : (forall j w, nth_error (pwork p) j = Some w -> w <> WClear1 /\ w <> WClear2) -> w' <> WClear1 -> w' <> WClear2 ->
  forall j w, nth_error (upd (pwork p) i w') j = Some w -> w <> WClear1 /\ w <> WClear2.
Proof. intros H A B j w Hj. apply nth_upd_inv in Hj as [[_ ->]|[_ Hj]]; [split; assumption|exact (H j w Hj)]. Qed.

Lemma kept_step p a p' : Kept p -> a <> AShutdown -> step p a = Some p' -> Kept p'.
Proof.
  intros [K1 K2 K3 K4] Ha H. destruct a as [i c|j t k| | |mn mx]; cbn [step] in H; [| |congruence| |].
  - unfold workerStep in H. destruct (nth_error (pwork p) i) as [w|] eqn:E; [|discriminate]. pose proof (K4 i w E) as [KA KB].
    assert (G : forall w', w' <> WClear1 -> w' <> WClear2 -> forall j w, nth_error (upd (pwork p) i w') j = Some w -> w <> WClear1 /\ w <> WClear2) by (intros w'; apply kept_upd; exact K4).
    destruct w as [|t|t|t| | | | | | |n| | |]; try congruence.
    + destruct (pop (pqueue p)) as [[t q]|]; injection H as <-; constructor; try assumption; cbn [setW setQueue pwork]; apply G; discriminate.
    + injection H as <-; constructor; try assumption; cbn [setW setQueued pwork]; apply G; discriminate.
    + injection H as <-; constructor; try assumption; cbn [setW setRunning started pwork]; apply G; discriminate.
    + injection H as <-; constructor; try assumption; cbn [setW pwork]; apply G; discriminate.
    + injection H as <-; constructor; try assumption; cbn [setW setRunning pwork]; apply G; discriminate.
    + injection H as <-; constructor; try assumption; cbn [setW pwork]; apply G; destruct c; discriminate.
    + injection H as <-; constructor; try assumption; cbn [setW pwork]; apply G; destruct ((0 <? pqueued p) || pshut p); discriminate.
    + injection H as <-; constructor; try assumption; cbn [setW pwork]; apply G; discriminate.
    + injection H as <-; constructor; try assumption; cbn [setW pwork]; apply G; destruct c; discriminate.
    + rewrite K1 in H. injection H as <-; constructor; try assumption; cbn [setW pwork]; apply G; destruct c; discriminate.
    + destruct (Nat.leb_spec n (pmin p)) as [L|L]; [injection H as <-; constructor; try assumption; cbn [setW pwork]; apply G; discriminate|].
      destruct ((pthreads p =? n) && negb c); injection H as <-; constructor; try assumption; cbn [setW setThreads pwork]; apply G; try discriminate;
        (destruct (Nat.eqb_spec n 1); [lia|discriminate]).
  - unfold submitStep in H. destruct (nth_error (psub p) j) as [x|] eqn:E; [|discriminate]. destruct x as [|u| | | | |n|]; try (injection H as <-; constructor; assumption).
    + unfold notifyOne in H. destruct (nth_error (pwork p) k) as [w|] eqn:Ek; [destruct w|];
        try (destruct (existsb asleep (pwork p)); [discriminate|]; injection H as <-; constructor; assumption).
      injection H as <-; constructor; try assumption. cbn [setS setW pwork]. apply kept_upd; [exact K4|discriminate|discriminate].
    + injection H as <-; constructor; try assumption. cbn [setS createWorker pwork]. intros i w Hi. destruct (Nat.lt_ge_cases i (length (pwork p))) as [L|L].
      * rewrite nth_error_app1 in Hi by exact L. exact (K4 i w Hi).
      * rewrite nth_error_app2 in Hi by exact L. destruct (i - length (pwork p)) as [|[|z]]; try discriminate. injection Hi as <-. split; discriminate.
  - injection H as <-. constructor; try assumption. cbn [notifyAll pwork]. intros i w Hi. rewrite nth_error_map in Hi. destruct (nth_error (pwork p) i) as [v|] eqn:E; [|discriminate].
    injection Hi as <-. destruct (K4 i v E). destruct v; cbn [asleep]; split; (discriminate || assumption).
  - destruct ((mn =? 0) || (mx <? mn)) eqn:Z; [discriminate|]. apply orb_false_elim in Z as [Z _]. apply Nat.eqb_neq in Z. injection H as <-. constructor; try assumption. cbn [pmin]. lia.
Qed.

Lemma kept_run l : forall p p', Kept p -> noShutdown l -> run p l = Some p' -> Kept p'.
Proof.
  induction l as [|a r IH]; intros p p' HK HN H; cbn [run] in H; [injection H as <-; exact HK|]. destruct (step p a) as [q|] eqn:E; [|discriminate].
  apply (IH q p'); [|intros X; apply HN; right; exact X|exact H]. apply (kept_step p a q HK); [|exact E]. intros ->. apply HN. left. reflexivity.
Qed.

Lemma kept_new mn mx k : 1 <= mn -> 1 <= mx -> Kept (newPool mn mx k).
Proof.
  intros A B. constructor; cbn [newPool pshut pmin pdropped pwork]; try reflexivity; [lia|]. intros i w H. apply nth_error_In in H. apply repeat_spec in H. subst w. split; discriminate.
Qed.

(** Fixed bounds. *)
Lemma bounds_step p a p' : step p a = Some p' -> (forall mn mx, a <> ABounds mn mx) -> pmin p' = pmin p /\ pmax p' = pmax p /\ length (psub p') = length (psub p).
Proof.
  intros H Hb. destruct a as [i c|j t k| | |mn mx]; cbn [step] in H; [| | | |destruct (Hb mn mx eq_refl)].
  - unfold workerStep in H. destruct (nth_error (pwork p) i) as [w|] eqn:E; [|discriminate]. destruct w as [|t|t|t| | | | | | |n| | |]; try discriminate; try (injection H as <-; repeat split; fail).
    + destruct (pop (pqueue p)) as [[t q]|]; injection H as <-; repeat split.
    + destruct (pshut p); injection H as <-; repeat split.
    + destruct (n <=? pmin p); [injection H as <-; repeat split|]. destruct ((pthreads p =? n) && negb c); injection H as <-; repeat split.
  - unfold submitStep in H. destruct (nth_error (psub p) j) as [x|] eqn:E; [|discriminate].
    destruct x; try (injection H as <-; repeat split; cbn [setS psub]; apply length_upd).
    unfold notifyOne in H. destruct (nth_error (pwork p) k) as [w|]; [destruct w|]; try (destruct (existsb asleep (pwork p)); [discriminate|]); injection H as <-; repeat split; cbn [setS psub]; apply length_upd.
  - injection H as <-. repeat split.
  - injection H as <-. repeat split.
Qed.

Lemma low_step p a p' : step p a = Some p' -> pshut p = false -> a <> AShutdown -> (forall mn mx, a <> ABounds mn mx) -> pmin p <= pthreads p -> pmin p' <= pthreads p' /\ pshut p' = false.
Proof.
  intros H Hs Ha Hb HL. destruct a as [i c|j t k| | |mn mx]; cbn [step] in H; [| |congruence| |destruct (Hb mn mx eq_refl)].
  - unfold workerStep in H. destruct (nth_error (pwork p) i) as [w|] eqn:E; [|discriminate]. destruct w as [|t|t|t| | | | | | |n| | |]; try discriminate; try (injection H as <-; split; assumption).
    + destruct (pop (pqueue p)) as [[t q]|]; injection H as <-; split; assumption.
    + rewrite Hs in H. injection H as <-; split; assumption.
    + destruct (Nat.leb_spec n (pmin p)) as [L|L]; [injection H as <-; split; assumption|]. destruct ((pthreads p =? n) && negb c); injection H as <-; split; try assumption. cbn [setW setThreads pmin pthreads]. lia.
  - unfold submitStep in H. destruct (nth_error (psub p) j) as [x|] eqn:E; [|discriminate].
    destruct x; try (injection H as <-; split; assumption).
    + unfold notifyOne in H. destruct (nth_error (pwork p) k) as [w|]; [destruct w|]; try (destruct (existsb asleep (pwork p)); [discriminate|]); injection H as <-; split; assumption.
    + injection H as <-. split; [cbn [setS createWorker pmin pthreads]; lia|assumption].
  - injection H as <-. split; assumption.
Qed.

Lemma high_step p a p' : step p a = Some p' -> (forall mn mx, a <> ABounds mn mx) -> 1 <= pmax p ->
  pthreads p + number passed (psub p) + 1 <= pmax p + Nat.max 1 (length (psub p)) -> pthreads p' + number passed (psub p') + 1 <= pmax p' + Nat.max 1 (length (psub p')).
Proof.
  intros H Hb HM HL. destruct a as [i c|j t k| | |mn mx]; cbn [step] in H; [| | | |destruct (Hb mn mx eq_refl)].
  - unfold workerStep in H. destruct (nth_error (pwork p) i) as [w|] eqn:E; [|discriminate]. destruct w as [|t|t|t| | | | | | |n| | |]; try discriminate; try (injection H as <-; exact HL).
    + destruct (pop (pqueue p)) as [[t q]|]; injection H as <-; exact HL.
    + destruct (pshut p); injection H as <-; [|exact HL]. cbn [setW setThreads pthreads psub pmax]. lia.
    + destruct (n <=? pmin p); [injection H as <-; exact HL|]. destruct ((pthreads p =? n) && negb c) eqn:Z; injection H as <-; [|exact HL]. apply andb_prop in Z as [Z _]. apply Nat.eqb_eq in Z.
      cbn [setW setThreads pthreads psub pmax]. lia.
  - unfold submitStep in H. destruct (nth_error (psub p) j) as [x|] eqn:E; [|discriminate].
    pose proof (fun y => number_upd passed (psub p) j x y E) as N. pose proof (fun y => length_upd (psub p) j y) as Le. pose proof (fun y => number_le passed (upd (psub p) j y)) as Nl.
    assert (SAME : forall y, passed y = passed x \/ passed y = false -> pthreads p + number passed (upd (psub p) j y) + 1 <= pmax p + Nat.max 1 (length (upd (psub p) j y))).
    { intros y [Hy|Hy]; specialize (N y); rewrite Hy in N; rewrite Le; destruct (passed x); lia. }
    destruct x as [|u| | | | |n|]; try (injection H as <-; apply SAME; left; reflexivity).
    + unfold notifyOne in H. destruct (nth_error (pwork p) k) as [w|]; [destruct w|]; try (destruct (existsb asleep (pwork p)); [discriminate|]); injection H as <-; apply SAME; left; reflexivity.
    + injection H as <-. apply SAME. right. destruct (pqueue p); reflexivity.
    + injection H as <-. cbn [setS pthreads psub pmax]. destruct (Nat.ltb_spec (pthreads p) (pmax p)) as [L|L]; [|apply SAME; right; reflexivity].
      pose proof (Nl SCheck) as X. rewrite Le in X |- *. lia.
    + injection H as <-. apply SAME. destruct ((n <=? prunning p) && (n <=? pmax p)); [left|right]; reflexivity.
    + injection H as <-. cbn [setS createWorker pthreads psub pmax]. specialize (N SNotify). cbn [passed] in N. rewrite Le. lia.
  - injection H as <-. exact HL.
  - injection H as <-. exact HL.
Qed.

Lemma fixed_run l : forall p p', fixedBounds l -> run p l = Some p' ->
  pmin p' = pmin p /\ pmax p' = pmax p /\ length (psub p') = length (psub p) /\
  (noShutdown l -> pshut p = false -> pmin p <= pthreads p -> pmin p <= pthreads p') /\
  (1 <= pmax p -> pthreads p + number passed (psub p) + 1 <= pmax p + Nat.max 1 (length (psub p)) -> pthreads p' + 1 <= pmax p + Nat.max 1 (length (psub p))).
Proof.
  induction l as [|a r IH]; intros p p' HF H; cbn [run] in H; [injection H as <-; repeat split; try tauto; lia|]. destruct (step p a) as [q|] eqn:E; [|discriminate].
  assert (Hb : forall mn mx, a <> ABounds mn mx) by (intros mn mx ->; exact (HF mn mx (or_introl eq_refl))).
  destruct (bounds_step p a q E Hb) as (B1 & B2 & B3). destruct (IH q p') as (I1 & I2 & I3 & I4 & I5); [intros mn mx X; exact (HF mn mx (or_intror X))|exact H|].
  rewrite B1 in I1, I4. rewrite B2 in I2, I5. rewrite B3 in I3, I5. repeat split; try assumption.
  - intros HN HS HL. destruct (low_step p a q E HS) as [L1 L2]; [intros ->; apply HN; left; reflexivity|exact Hb|exact HL|]. rewrite B1 in L1. apply I4; [intros X; apply HN; right; exact X|exact L2|exact L1].
  - intros HM HL. apply I5; [exact HM|]. pose proof (high_step p a q E Hb HM HL) as X. rewrite B2, B3 in X. exact X.
Qed.

(** Threads are only ever created by submitting threads. *)
Lemma create_step p a p' : step p a = Some p' -> (forall j t k, a <> ASubmit j t k) -> pthreads p' <= pthreads p.
Proof.
  intros H Hs. destruct a as [i c|j t k| | |mn mx]; cbn [step] in H; [|destruct (Hs j t k eq_refl)| | |].
  - unfold workerStep in H. destruct (nth_error (pwork p) i) as [w|] eqn:E; [|discriminate]. destruct w as [|t|t|t| | | | | | |n| | |]; try discriminate; try (injection H as <-; reflexivity).
    + destruct (pop (pqueue p)) as [[t q]|]; injection H as <-; reflexivity.
    + destruct (pshut p); injection H as <-; cbn [setW setThreads pthreads]; lia.
    + destruct (n <=? pmin p); [injection H as <-; reflexivity|]. destruct ((pthreads p =? n) && negb c) eqn:Z; injection H as <-; [|reflexivity]. apply andb_prop in Z as [Z _]. apply Nat.eqb_eq in Z.
      cbn [setW setThreads pthreads]. lia.
  - injection H as <-. reflexivity.
  - injection H as <-. reflexivity.
  - destruct ((mn =? 0) || (mx <? mn)); [discriminate|]. injection H as <-. reflexivity.
Qed.

Lemma create_run l : forall p p', noSubmit l -> run p l = Some p' -> pthreads p' <= pthreads p.
Proof.
  induction l as [|a r IH]; intros p p' HN H; cbn [run] in H; [injection H as <-; lia|]. destruct (step p a) as [q|] eqn:E; [|discriminate].
  assert (X := create_step p a q E (fun j t k e => HN j t k (or_introl e))). assert (Y := IH q p' (fun j t k e => HN j t k (or_intror e)) H). lia.
Qed.

(** ** Dropped tasks stay dropped *)

Lemma dropped_step p a p' : step p a = Some p' -> length (pdropped p) <= length (pdropped p').
Proof.
  intros H. destruct a as [i c|j t k| | |mn mx]; cbn [step] in H.
  - unfold workerStep in H. destruct (nth_error (pwork p) i) as [w|] eqn:E; [|discriminate]. destruct w as [|t|t|t| | | | | | |n| | |]; try discriminate; try (injection H as <-; reflexivity).
    + destruct (pop (pqueue p)) as [[t q]|]; injection H as <-; reflexivity.
    + destruct (pshut p); injection H as <-; reflexivity.
    + destruct (n <=? pmin p); [injection H as <-; reflexivity|]. destruct ((pthreads p =? n) && negb c); injection H as <-; reflexivity.
    + injection H as <-. cbn [setW cleared pdropped]. rewrite app_length. lia.
  - unfold submitStep in H. destruct (nth_error (psub p) j) as [x|] eqn:E; [|discriminate]. destruct x; try (injection H as <-; reflexivity).
    unfold notifyOne in H. destruct (nth_error (pwork p) k) as [w|]; [destruct w|]; try (destruct (existsb asleep (pwork p)); [discriminate|]); injection H as <-; reflexivity.
  - injection H as <-. reflexivity.
  - injection H as <-. reflexivity.
  - destruct ((mn =? 0) || (mx <? mn)); [discriminate|]. injection H as <-. reflexivity.
Qed.

Lemma dropped_run l : forall p p', run p l = Some p' -> length (pdropped p) <= length (pdropped p').
Proof.
  induction l as [|a r IH]; intros p p' H; cbn [run] in H; [injection H as <-; lia|]. destruct (step p a) as [q|] eqn:E; [|discriminate].
  pose proof (dropped_step p a q E). pose proof (IH q p' H). lia.
Qed.
