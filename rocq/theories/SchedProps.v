(** The scheduler at run time: quiescence, the worker loop, who runs which block, and messages. *)
From Coq Require Import NArith Bool Arith Lia List.
From Verif Require Import Base LifecycleModel.
From Verif Require TopoModel.
From Verif Require Import SchedModel SchedSpec SchedQuietProofs SchedLoopProofs SchedMsgProofs SchedOwnProofs SchedInvProofs SchedAwayProofs SchedFateProofs.
Import ListNotations.
Local Open Scope nat_scope.

(** One worker; and as many as there are threads, two. *)
Definition one : Cfg := mkCfg TopoModel.singleThreaded 1 (fun b => b).
Definition two : Cfg := mkCfg TopoModel.multiThreaded 2 (fun b => b).

Definition finish (o : Out) : Sched := match o with Next s => s | _ => initial [] end.

(** * C132: while a thread holds quiescence, no worker is inside a guarded section *)

(** For any number of workers and requesting threads and any interleaving of their accesses in which requests do not
    overlap: whoever holds quiescence does so while nobody works. *)
Theorem C132_quiescence_excludes_work : forall w r l j i,
  (N.of_nat w < two64)%N -> noOverlap (qinit w r) l -> holdsQuiet (qrun (qinit w r) l) j -> ~ inside (qrun (qinit w r) l) i.
Proof.
  intros w r l j i Hw HO HH HI.
  assert (HS : qsafe (qrun (qinit w r) l)).
  { apply qsafe_run; [apply qinv_init; exact Hw|apply qsafe_init|intros p; exists []; auto|].
    intros p q E a b x y Ha Hb Hx Hy. exact (HO p q E a b x y Ha Hb Hx Hy). }
  exact (proj2 HS j HH i WIn HI eq_refl).
Qed.
Print Assumptions C132_quiescence_excludes_work.

(** Two workers, one of them inside; the request waits until it has left and keeps the other one out. *)
Example C132_case :
  let l := [QWork 0; QWork 0; QWork 0; QReq 0; QWork 1; QReq 0; QWork 0; QWork 0; QReq 0; QWork 1; QWork 1] in
  inside (qrun (qinit 2 1) (firstn 3 l)) 0 /\ ~ holdsQuiet (qrun (qinit 2 1) (firstn 6 l)) 0 /\ holdsQuiet (qrun (qinit 2 1) l) 0.
Proof. vm_compute. repeat split; congruence. Qed.

(** The flag is one bit: when two threads ask, the first to release lets the workers in while the other still relies on
    quiescence. *)
Theorem C132_overlapping_requests_refuted :
  exists l, holdsQuiet (qrun (qinit 1 2) l) 1 /\ inside (qrun (qinit 1 2) l) 0.
Proof. exists [QReq 0; QReq 1; QReq 0; QReq 1; QReq 0; QWork 0; QWork 0; QWork 0]. vm_compute. split; reflexivity. Qed.
Print Assumptions C132_overlapping_requests_refuted.

(** * C133: a request for quiescence is granted *)

(** Whatever happened before: once the flag is set, three steps of each worker are enough, in any order. *)
Theorem C133_quiescence_is_granted : forall w r before l j,
  (N.of_nat w < two64)%N -> let s := qrun (qinit w r) before in
  qflag s = true -> nth_error (qreq s) j = Some RStored ->
  (forall a, In a l -> exists i, a = QWork i) -> (forall i, i < w -> 3 <= turnsOf i l) ->
  holdsQuiet (qrun s (l ++ [QReq j])) j.
Proof.
  intros w r before l j Hw s Hf Hj Hl Ht. apply granted_after; try assumption.
  - apply qinv_run, qinv_init. exact Hw.
  - intros i Hi. apply Ht. unfold s in Hi. rewrite qrun_len in Hi. cbn [qinit qwork] in Hi. rewrite repeat_length in Hi. exact Hi.
Qed.
Print Assumptions C133_quiescence_is_granted.

Example C133_case :
  let before := [QWork 0; QWork 0; QWork 0; QWork 1; QReq 0] in let l := [QWork 0; QWork 1; QWork 1; QWork 0; QWork 1; QWork 0] in
  qflag (qrun (qinit 2 1) before) = true /\ nth_error (qreq (qrun (qinit 2 1) before)) 0 = Some RStored /\
  turnsOf 0 l = 3 /\ turnsOf 1 l = 3 /\ holdsQuiet (qrun (qrun (qinit 2 1) before) (l ++ [QReq 0])) 0.
Proof. vm_compute. repeat split. Qed.

(** * C134: messages are handled at least once in ratio + 1 turns *)

Theorem C134_messages_are_handled : forall ratio first w ts ds w',
  ratio <> 0%N -> (ratio < two64)%N -> loop ratio first w ts = (ds, inl w') -> (ratio < N.of_nat (length ts))%N -> ~ silent ds.
Proof. intros ratio first w ts ds w' H0 H64 HL HT HS. pose proof (quiet_bound_any ratio first H0 H64 ts w ds w' HL HS). lia. Qed.
Print Assumptions C134_messages_are_handled.

(** A busy worker handles messages exactly in every ratio-th turn, for any ratio from 2. *)
Theorem C134_exact_period : forall ratio first ts, (2 <= ratio)%N -> (ratio < two64)%N -> (forall t, In t ts -> busyTurn t) ->
  exists ds w', loop ratio first (loopStart RUNNING) ts = (ds, inl w') /\
    forall k d, nth_error ds k = Some d -> (handled d = true <-> (N.of_nat k mod ratio = 0)%N).
Proof.
  intros ratio first ts H2 H64 HB. destruct (loop_period ratio first H2 H64 ts (loopStart RUNNING) HB) as (ds & w' & L & P); cbn [loopStart msgToCount activeState] in *; [lia|reflexivity|].
  exists ds, w'. split; [exact L|]. intros k d Hk. rewrite (P k d Hk). rewrite N.add_0_l. tauto.
Qed.
Print Assumptions C134_exact_period.

Definition busy : Turn := mkTurn false false RUNNING true false SOther false.

Example C134_case : map handled (fst (loop 3 true (loopStart RUNNING) (repeat busy 7))) = [true; false; false; true; false; false; true].
Proof. vm_compute. reflexivity. Qed.

(** Ratio 1 handles messages in every other turn, not in every one. *)
Example C134_ratio_one : map handled (fst (loop 1 true (loopStart RUNNING) (repeat busy 4))) = [true; false; true; false].
Proof. vm_compute. reflexivity. Qed.

(** Ratio 0, which the setting accepts, divides by zero in the second turn. *)
Theorem C134_ratio_zero_refuted : forall first, snd (loop 0 first (loopStart RUNNING) [busy; busy]) = inr ExUndefined.
Proof. intros []; vm_compute; reflexivity. Qed.
Print Assumptions C134_ratio_zero_refuted.

(** * C135: a stop is noticed, and blocks are worked on only while the state was RUNNING when last read *)

Theorem C135_stop_is_noticed : forall ratio first w ts ds o,
  ratio <> 0%N -> (ratio < two64)%N -> loop ratio first w ts = (ds, o) -> (forall t, In t ts -> isActive (stateNow t) = false) ->
  (N.of_nat (traversals ds) <= ratio + 1)%N /\ ((ratio < N.of_nat (length ts))%N -> exists e, o = inr e).
Proof.
  intros ratio first w ts ds o H0 H64 HL HA.
  destruct o as [w'|e].
  - destruct (inactive_run ratio first ts w ds (inl w') HL HA) as [Q|(ds' & d & _ & _ & _ & (e & X))]; [|discriminate].
    pose proof (quiet_bound_any ratio first H0 H64 ts w ds w' HL Q) as B. pose proof (loop_len ratio first ts w ds w' HL) as LL.
    pose proof (workedIn_le ds) as W. unfold traversals, workedIn in *. split; [lia|]. intros X. lia.
  - split; [|intros _; exists e; reflexivity].
    destruct (loop_snoc ratio first ts w ds e HL) as (ts' & t & ds' & d & w' & rest & -> & -> & L & T).
    destruct (inactive_run ratio first ts' w ds' (inl w') L ltac:(intros x Hx; apply HA; apply in_app_iff; left; exact Hx)) as [Q|(a & b & _ & _ & _ & (e' & X))]; [|discriminate].
    pose proof (quiet_bound_any ratio first H0 H64 ts' w ds' w' L Q) as B. pose proof (loop_len ratio first ts' w ds' w' L) as LL.
    pose proof (workedIn_le (ds' ++ [d])) as W. unfold traversals, workedIn in *. rewrite app_length in W. cbn [length] in W. lia.
Qed.
Print Assumptions C135_stop_is_noticed.

Theorem C135_works_only_when_running : forall ratio first w ts ds o,
  loop ratio first w ts = (ds, o) -> Forall2 (fun d s => worked d = true -> s = RUNNING) ds (lastRead (activeState w) ts ds).
Proof. intros ratio first w ts ds o. apply loop_works. Qed.
Print Assumptions C135_works_only_when_running.

(** The loop ends for no other reason than a DONE or ERROR of a traversal, an exchanged graph, or a state that is not active. *)
Theorem C135_reasons_to_leave : forall ratio first w ts ds e,
  ratio <> 0%N -> loop ratio first w ts = (ds, inr e) ->
  exists t d, In t ts /\ In d ds /\
    match e with
    | ExExchanged => first = true /\ exchanged t = true
    | ExDone => worked d = true /\ result t = SDone
    | ExError => worked d = true /\ result t = SError
    | ExInactive => exists s, isActive s = false /\ (s = activeState w \/ exists u, In u ts /\ s = stateNow u)
    | ExUndefined => False
    end.
Proof.
  intros ratio first w ts ds e H0 HL.
  destruct (loop_snoc ratio first ts w ds e HL) as (ts' & t & ds' & d & w' & rest & -> & -> & L & T).
  assert (HR : activeState w' = activeState w \/ exists u, In u ts' /\ activeState w' = stateNow u).
  { clear -L. revert w ds' L. induction ts' as [|x ts' IH]; intros w ds' L; cbn [loop] in L; [injection L as _ <-; left; reflexivity|].
    destruct (turn ratio first w x) as [d1 [w1|e1]] eqn:E; [|discriminate]. destruct (loop ratio first w1 ts') as [ds1 o1] eqn:E1. injection L as <- ->.
    destruct (IH w1 ds1 E1) as [X|(u & Hu & X)]; [|right; exists u; split; [right; exact Hu|exact X]].
    rewrite X, (turn_read _ _ _ _ _ _ E). destruct (handled d1); [right; exists x; split; [left; reflexivity|reflexivity]|left; reflexivity]. }
  pose proof (turn_exit _ _ _ _ _ _ H0 T) as X. exists t, d. split; [apply in_app_iff; right; left; reflexivity|]. split; [apply in_app_iff; right; left; reflexivity|].
  destruct e; try tauto. eexists. split; [exact X|]. destruct (handled d).
  - right. exists t. split; [apply in_app_iff; right; left; reflexivity|reflexivity].
  - destruct HR as [HR|(u & Hu & HR)]; [left; exact HR|right; exists u; split; [apply in_app_iff; left; exact Hu|exact HR]].
Qed.
Print Assumptions C135_reasons_to_leave.

Definition stoppedTurn : Turn := mkTurn false false STOPPED true false SOther false.

(** Ratio 4: the stop comes right after the state was read; three more traversals, then the worker leaves. *)
Example C135_case :
  let '(ds, o) := loop 4 true (loopStart RUNNING) (busy :: repeat stoppedTurn 6) in
  map worked ds = [true; true; true; true; false] /\ o = inr ExInactive.
Proof. vm_compute. split; reflexivity. Qed.

(** Stopped, initialised and started again between two reads of the state: the old worker sees nothing of it and never
    leaves, and the thread in [start] waits for it for ever. *)
Theorem C135_restart_unnoticed_refuted : forall ratio l, ratio <> 0%N -> (forall a, In a l -> ordinary a) ->
  let s0 := mkRestart RUNNING 1 (Some (mkWorker 1 RUNNING)) RsRunning in
  let s := fold_left (rsStep ratio) ([RsStop; RsInit; RsGo] ++ l) s0 in
  rsState s = RUNNING /\ rsPc s = RsWaiting /\ 0 < rsJobs s.
Proof.
  intros ratio l H0 HO s0 s. assert (HS : stuck s).
  { unfold s. rewrite fold_left_app. apply stuck_run; [exact H0| |exact HO]. split; [reflexivity|]. split; [cbn; lia|]. split; [|reflexivity].
    exists (mkWorker 1 RUNNING). split; reflexivity. }
  destruct HS as (A & B & _ & D). auto.
Qed.
Print Assumptions C135_restart_unnoticed_refuted.

(** When the worker has its turn with messages in between, it leaves and the restart goes on. *)
Example C135_noticed :
  let s := fold_left (rsStep 4) [RsTurn busy; RsStop; RsTurn busy; RsTurn busy; RsTurn busy; RsTurn busy; RsInit; RsGo; RsLook] (mkRestart RUNNING 1 (Some (loopStart RUNNING)) RsRunning) in
  rsPc s = RsStarted /\ rsOld s = None.
Proof. vm_compute. split; reflexivity. Qed.

(** * C136: what one pass over a job list reports *)

(** Blocks are called in order up to the first ERROR; the work performed is the sum, as a size_t; DONE means that every
    block reported DONE. *)
Theorem C136_pass_reports : forall reports n w st, traverseBlockListOnce reports = (n, w, st) ->
  n <= length reports /\ w = (fold_right N.add 0 (map fst (firstn n reports)) mod two64)%N /\
  (st = SError <-> In SError (map snd reports)) /\
  (st = SError -> nth_error (map snd reports) (n - 1) = Some SError /\ 1 <= n /\ forall k, k < n - 1 -> nth_error (map snd reports) k <> Some SError) /\
  (st <> SError -> n = length reports) /\
  (st = SDone <-> forall x, In x (map snd reports) -> x = SDone).
Proof.
  intros reports n w st H. pose proof (traverse_spec reports 0%N false ltac:(unfold two64; lia)) as S. unfold traverseBlockListOnce in H. rewrite H in S.
  destruct S as (A & B & C & D & E & F & G).
  assert (SN : forall l, sumN l = fold_right N.add 0%N l) by (induction l; cbn; congruence).
  split; [exact A|]. split; [rewrite B, SN, N.add_0_l; reflexivity|]. split; [split|split; [|split]].
  - intros X. destruct (C X) as (_ & Y & _). exact (nth_error_In _ _ Y).
  - intros X. apply In_nth_error in X as (k & X). destruct st; [exfalso; exact (F ltac:(discriminate) k X)|reflexivity|exfalso; exact (F ltac:(discriminate) k X)].
  - intros X. destruct (C X) as (_ & Y & Z & _). split; [exact Y|]. split; [exact Z|]. intros k Hk. apply E; [lia|exact X|lia].
  - exact D.
  - rewrite G. tauto.
Qed.
Print Assumptions C136_pass_reports.

Example C136_case : traverseBlockListOnce [(5%N, SOther); (7%N, SError); (1%N, SDone)] = (2, 12%N, SError) /\
  traverseBlockListOnce [(5%N, SDone); (7%N, SDone)] = (2, 12%N, SDone) /\ traverseBlockListOnce [(5%N, SDone); (7%N, SOther)] = (2, 12%N, SOther).
Proof. vm_compute. repeat split. Qed.

(** * C137: a block taken out of a running scheduler is never touched again *)

Theorem C137_taken_blocks_are_left_alone : forall c g0 before s bs g s1 b after s2,
  1 <= cthreads c -> NoDup g0 -> obeys timely c (initial g0) before -> run c (initial g0) before = Next s ->
  isActive (sst s) = true -> step c s (AGroup bs g) = Next s1 -> In b bs ->
  ~ everHands after b -> run c s1 after = Next s2 -> ~ touched s2 b.
Proof.
  intros c g0 before s bs g s1 b after s2 Hc HN HO HR HA HS Hb HH HR2.
  pose proof (run_inv c before _ s Hc (inv_initial g0 HN) HO HR) as [HI _].
  apply away_untouched. apply (away_run c b after s1 s2 Hc); [|exact HH|exact HR2].
  cbn [step] in HS. destruct (negb (allIdle s) || known s g || negb (forallb (fun b => memb b (sgraph s)) bs)) eqn:E; [discriminate|]. injection HS as <-.
  apply orb_false_elim in E as [E E3]. apply orb_false_elim in E as [E1 K]. apply negb_false_iff in E1, E3.
  apply known_not in K as (K1 & K2 & K3 & K4 & K5 & K6).
  assert (Hg : g <> b). { intros ->. apply K1. rewrite forallb_forall in E3. apply memb_In. exact (E3 b Hb). }
  apply adopt_away; [|exact Hg].
  destruct (removeRunning_inv bs (withGraph s (without bs (sgraph s) ++ [g])) HI E1 HA) as (_ & B & C & D & F).
  unfold removeBlocks. cbn [withGraph sst]. rewrite HA. constructor.
  - unfold removeRunning. destruct (eraseFromAdoption _ _ _). cbn [sgraph withGraph]. rewrite in_app_iff, without_In. cbn [In]. intros [X|[X|[]]]; [tauto|congruence].
  - intros i. rewrite B, without_In. tauto.
  - intros i. rewrite C, without_In. tauto.
  - intros i l Hi Hl. assert (Hi' : nth_error (swork s) i = Some (Live l)). { unfold removeRunning in Hi. destruct (eraseFromAdoption _ _ _). exact Hi. }
    destruct (proj2 (il_live _ _ _ _ _ _ HI i l Hi') b Hl) as [X|X]; [exact (D i b X)|exact (F i b Hb X)].
  - intros i l Hi. assert (Hi' : nth_error (sbusy s) i = Some (Some l)). { unfold removeRunning in Hi. destruct (eraseFromAdoption _ _ _). exact Hi. }
    apply (allIdle_nth s i _ E1) in Hi'. discriminate.
Qed.
Print Assumptions C137_taken_blocks_are_left_alone.

(** Two workers in their loops; block 1 is grouped away; the worker that had it goes on without it. *)
Example C137_case :
  let before := [AInit; AStart; AEnter 0; AEnter 1; AWork 0; AEnd 0] in let s := finish (run two (initial [1; 2; 3]) before) in
  let s1 := finish (step two s (AGroup [1] 8)) in let s2 := finish (run two s1 [AWork 0]) in
  obeys timely two (initial [1; 2; 3]) before /\ jobs s 0 = [1; 3] /\ isActive (sst s) = true /\
  step two s (AGroup [1] 8) = Next s1 /\ run two s1 [AWork 0] = Next s2 /\ handling s2 0 [3].
Proof. vm_compute. repeat split; exact I || reflexivity. Qed.

(** Grouping while the state is no longer active, but a worker has not noticed yet: the block is worked on after it was
    taken away, and the next message section runs outside the adoption lists. *)
Theorem C137_taken_while_stopping_refuted :
  exists s s1 s2, run one (initial [1; 2]) [AInit; AStart; AEnter 0; AState REQUESTED_STOP; AState STOPPED] = Next s /\
    step one s (AGroup [1] 9) = Next s1 /\ run one s1 [AWork 0] = Next s2 /\ touched s2 1 /\ step one s1 (AMsgs 0) = Undef.
Proof.
  eexists _, _, _. split; [vm_compute; reflexivity|]. split; [vm_compute; reflexivity|]. split; [vm_compute; reflexivity|]. split; [|vm_compute; reflexivity].
  exists 0, [1; 2]. split; [reflexivity|left; reflexivity].
Qed.
Print Assumptions C137_taken_while_stopping_refuted.

(** * C138: no block is handled by two workers at a time *)

Theorem C138_one_worker_per_block : forall c g0 l s i j li lj b,
  1 <= cthreads c -> NoDup g0 -> obeys timely c (initial g0) l -> run c (initial g0) l = Next s ->
  handling s i li -> handling s j lj -> In b li -> In b lj -> i = j.
Proof.
  intros c g0 l s i j li lj b Hc HN HO HR Hi Hj Bi Bj. pose proof (run_inv c l _ s Hc (inv_initial g0 HN) HO HR) as [HI _].
  destruct (il_busy _ _ _ _ _ _ HI i li Hi) as [_ X]. destruct (il_busy _ _ _ _ _ _ HI j lj Hj) as [_ Y].
  exact (proj2 (il_ex _ _ _ _ _ _ HI) i j b (X b Bi) (Y b Bj)).
Qed.
Print Assumptions C138_one_worker_per_block.

(** Nor twice by one worker, and only blocks that are in its published list. *)
Theorem C138_own_blocks_once : forall c g0 l s i li,
  1 <= cthreads c -> NoDup g0 -> obeys timely c (initial g0) l -> run c (initial g0) l = Next s ->
  handling s i li -> NoDup li /\ incl li (jobs s i).
Proof.
  intros c g0 l s i li Hc HN HO HR Hi. pose proof (run_inv c l _ s Hc (inv_initial g0 HN) HO HR) as [HI _].
  destruct (il_busy _ _ _ _ _ _ HI i li Hi) as [X Y]. split; [apply (il_live _ _ _ _ _ _ HI i li X)|exact Y].
Qed.
Print Assumptions C138_own_blocks_once.

(** Two workers at work at the same time, after a block was grouped away, ungrouped and adopted by the other worker. *)
Example C138_case :
  let l := [AInit; AStart; AEnter 0; AEnter 1; AGroup [2] 8; AMsgs 0; AEnd 0; AUngroup 8 [2]; AMsgs 0; AWork 1] in
  let s := finish (run two (initial [1; 2; 3; 5]) l) in
  obeys timely two (initial [1; 2; 3; 5]) l /\ run two (initial [1; 2; 3; 5]) l = Next s /\ handling s 0 [1; 3; 8; 2] /\ handling s 1 [5].
Proof. vm_compute. repeat split; exact I || (right; reflexivity) || (left; reflexivity) || reflexivity. Qed.

(** Without the wait for the workers: lists rebuilt while an old worker still works. *)
Theorem C138_rebuilt_while_working_refuted :
  exists l s, run two (initial [1; 2; 3]) l = Next s /\ (exists li, handling s 0 li /\ In 3 li) /\ ~ In 3 (jobs s 0) /\ In 3 (jobs s 1).
Proof.
  exists [AInit; AStart; AEnter 0; AEnter 1; AState REQUESTED_STOP; AState STOPPED; ARemove 1; AReset; AWork 0]. eexists. split; [vm_compute; reflexivity|].
  split; [exists [1; 3]; split; [reflexivity|right; left; reflexivity]|]. vm_compute. split; [intros [X|[]]; discriminate|left; reflexivity].
Qed.
Print Assumptions C138_rebuilt_while_working_refuted.

(** * C139: a worker handles exactly its published list *)

Theorem C139_published_lists_are_handled : forall c g0 l s i li,
  1 <= cthreads c -> NoDup g0 -> obeys tidy c (initial g0) l -> run c (initial g0) l = Next s ->
  handling s i li -> forall b, In b li <-> In b (jobs s i).
Proof.
  intros c g0 l s i li Hc HN HO HR Hi. destruct (pub_run c l _ s Hc (inv_initial g0 HN) (pub_initial g0) HO HR) as [HI HP].
  exact (pub_handles s i li HI HP Hi).
Qed.
Print Assumptions C139_published_lists_are_handled.

Example C139_case :
  let l := [AInit; AStart; AEnter 0; AEmplace 7; AGroup [1] 9; AMsgs 0] in let s := finish (run one (initial [1; 2]) l) in
  obeys tidy one (initial [1; 2]) l /\ run one (initial [1; 2]) l = Next s /\ handling s 0 [2; 7; 9] /\ jobs s 0 = [2; 7; 9].
Proof.
  split; [|vm_compute; repeat split]. vm_compute. repeat split; try exact I; try reflexivity; try (left; reflexivity).
  intros [|[|i]] p H; inversion H. eexists. reflexivity.
Qed.

(** A block grouped away before its worker copied its list leaves an entry behind that the start of the worker does not
    clear.  When the block comes back, the worker drops it for ever, although it stays in the published list. *)
Theorem C139_stale_removal_refuted :
  exists s, let l := [AInit; AStart; AEnter 0; AGroup [5] 8; AEnter 1; AUngroup 8 [5]; AMsgs 1; AEnd 1; AWork 1; AEnd 1] in
    obeys timely two (initial [1; 2; 3; 5]) l /\ run two (initial [1; 2; 3; 5]) l = Next s /\
    In 5 (sgraph s) /\ In 5 (jobs s 1) /\ nth_error (swork s) 1 = Some (Live [2]) /\
    forall after s2, ~ everHands after 5 -> (forall a, In a after -> ~ rebuilds a) -> run two s after = Next s2 -> ~ touched s2 5.
Proof.
  eexists. cbv zeta. split; [vm_compute; repeat split; exact I || (left; reflexivity)|]. split; [vm_compute; reflexivity|].
  split; [do 3 right; left; reflexivity|]. split; [right; left; reflexivity|]. split; [reflexivity|].
  intros after s2 HH HB HR. apply lost_untouched. refine (lost_run two 5 after _ s2 _ HH HB HR). constructor; cbn [sexec sadopt swork sbusy].
  - intros [|[|i]] H X; [discriminate|discriminate|]. destruct i; discriminate.
  - intros [|[|[|i]]] p H; destruct H.
  - intros [|[|i]] m H; [injection H as <-; intros [X|[X|[]]]; discriminate|injection H as <-; intros [X|[]]; discriminate|destruct i; discriminate].
  - intros [|[|i]] m H; [discriminate|discriminate|destruct i; discriminate].
Qed.
Print Assumptions C139_stale_removal_refuted.

(** * C140: an accepted block gets run *)

(** A block accepted while the scheduler is active is handled in the next message section of the worker it was given to. *)
Theorem C140_accepted_block_is_run : forall c s b s1 meanwhile s2 s3,
  isActive (sst s) = true -> sadopt s <> [] -> step c s (AEmplace b) = Next s1 ->
  let r := chash c b mod length (sadopt s) in
  obeys (keepsWaiting b r) c s1 meanwhile -> run c s1 meanwhile = Next s2 -> step c s2 (AMsgs r) = Next s3 ->
  exists l, handling s3 r l /\ In b l.
Proof.
  intros c s b s1 meanwhile s2 s3 HA HL HE r HO HR HM.
  assert (HW : In b (at_ (sadopt s1) r)).
  { cbn [step] in HE. destruct (known s b); [discriminate|]. injection HE as <-. unfold adoptBlock, withConn, withGraph. cbn [sst sgraph sexec sadopt smoved szomb swork sbusy sbst sconn].
    rewrite HA. cbn [negb]. destruct (Nat.eqb_spec (length (sadopt s)) 0) as [Z|Z]; [destruct (sadopt s); [congruence|discriminate]|]. cbn [sadopt].
    fold r. rewrite at_upd_in by (apply Nat.mod_upper_bound; exact Z). rewrite Nat.eqb_refl. apply in_app_iff. right. left. reflexivity. }
  pose proof (waits_run c b r meanwhile s1 s2 HW HO HR) as HW2. cbn [step] in HM. destruct (msgs_weak s2 r s3 HM) as (l & l3 & M).
  exists l3. split; [|exact (mw_ad3 _ _ _ _ _ M b HW2)]. unfold handling. rewrite (mw_bz _ _ _ _ _ M). apply nth_upd_same with (x := None). exact (mw_idle _ _ _ _ _ M).
Qed.
Print Assumptions C140_accepted_block_is_run.

Example C140_case :
  let s := finish (run two (initial [1; 2]) [AInit; AStart; AEnter 0; AEnter 1]) in let s1 := finish (step two s (AEmplace 7)) in
  let s2 := finish (run two s1 [AMsgs 0; AEnd 0; AWork 1; AEnd 1]) in let s3 := finish (step two s2 (AMsgs 1)) in
  isActive (sst s) = true /\ step two s (AEmplace 7) = Next s1 /\ run two s1 [AMsgs 0; AEnd 0; AWork 1; AEnd 1] = Next s2 /\
  obeys (keepsWaiting 7 1) two s1 [AMsgs 0; AEnd 0; AWork 1; AEnd 1] /\ step two s2 (AMsgs 1) = Next s3 /\ handling s3 1 [2; 7].
Proof. vm_compute. repeat split; discriminate || exact I. Qed.

(** Given by its hash to a worker that has left (its blocks were DONE), the block is never run, however long the scheduler
    stays active. *)
Theorem C140_worker_has_left_refuted : forall c g0 before s b s1 after s2,
  1 <= cthreads c -> NoDup g0 -> obeys timely c (initial g0) before -> run c (initial g0) before = Next s ->
  nth_error (swork s) (chash c b mod length (sadopt s)) = Some Gone -> step c s (AEmplace b) = Next s1 ->
  ~ everHands after b -> (forall a, In a after -> ~ rebuilds a) -> run c s1 after = Next s2 -> ~ touched s2 b.
Proof.
  intros c g0 before s b s1 after s2 Hc HN HO HR HG HE HH HB HR2. pose proof (run_inv c before _ s Hc (inv_initial g0 HN) HO HR) as [HI _].
  apply lost_untouched. apply (lost_run c b after s1 s2); try assumption.
  cbn [step] in HE. destruct (known s b) eqn:K; [discriminate|]. injection HE as <-. apply known_not in K as (K1 & K2 & K3 & K4 & K5 & K6).
  destruct (adoptBlock_same c b (withGraph s (sgraph s ++ [b]))) as (E1 & E2 & E3 & E4 & E5 & E6 & E7). constructor.
  - rewrite E1. intros i X. destruct (K2 i X).
  - intros i p X Hi. rewrite E5 in Hi. cbn [withGraph swork] in Hi. unfold adoptBlock, withConn, withGraph in X. cbn [sst sgraph sexec sadopt smoved szomb swork sbusy sbst sconn] in X.
    destruct (negb (isActive (sst s))); [destruct (K3 i X)|]. destruct (length (sadopt s) =? 0); [destruct (K3 i X)|]. cbn [sadopt] in X. rewrite at_upd in X.
    destruct (_ && _) eqn:Z; [|destruct (K3 i X)]. apply andb_prop in Z as [Z _]. apply Nat.eqb_eq in Z. rewrite Z in HG. congruence.
  - rewrite E5. intros i m Hi. exact (K6 i m Hi).
  - rewrite E6. intros i m Hi. destruct (il_busy _ _ _ _ _ _ HI i m Hi) as [X _]. exact (K6 i m X).
Qed.
Print Assumptions C140_worker_has_left_refuted.

Example C140_left_case :
  let before := [AInit; AStart; AEnter 0; AEnter 1; AWork 1; AEnd 1; ALeave 1] in let s := finish (run two (initial [1; 2]) before) in
  let s1 := finish (step two s (AEmplace 7)) in
  obeys timely two (initial [1; 2]) before /\ run two (initial [1; 2]) before = Next s /\ isActive (sst s) = true /\
  nth_error (swork s) (chash two 7 mod length (sadopt s)) = Some Gone /\ step two s (AEmplace 7) = Next s1 /\ In 7 (sgraph s1).
Proof. vm_compute. repeat split; exact I || (do 2 right; left; reflexivity). Qed.

Lemma fresh_lost s b s' : InvS s -> known s b = false -> sexec s' = sexec s -> (forall i x, In x (at_ (sadopt s') i) -> In x (at_ (sadopt s) i)) ->
  swork s' = swork s -> sbusy s' = sbusy s -> Lost s' b /\ nowhere s' b.
Proof.
  intros HI K E1 E2 E3 E4. apply known_not in K as (K1 & K2 & K3 & K4 & K5 & K6). split.
  - constructor; rewrite ?E1, ?E3, ?E4.
    + intros i X. destruct (K2 i X).
    + intros i p X. destruct (K3 i (E2 i b X)).
    + exact K6.
    + intros i m Hi. destruct (il_busy _ _ _ _ _ _ HI i m Hi) as [X _]. exact (K6 i m X).
  - intros i. rewrite E1. split; [intros X; exact (K3 i (E2 i b X))|exact (K2 i)].
Qed.

(** A block accepted while the scheduler is initialised but not yet started (or stopped) is in none of the lists the start
    uses: it is not run until the lists are built anew. *)
Theorem C140_accepted_before_start_refuted : forall c g0 before s b s1 after s2,
  1 <= cthreads c -> NoDup g0 -> obeys timely c (initial g0) before -> run c (initial g0) before = Next s ->
  isActive (sst s) = false -> step c s (AEmplace b) = Next s1 ->
  ~ everHands after b -> (forall a, In a after -> rebuilds a -> a = AStart) -> run c s1 after = Next s2 -> ~ touched s2 b.
Proof.
  intros c g0 before s b s1 after s2 Hc HN HO HR HA HE HH HB HR2. pose proof (run_inv c before _ s Hc (inv_initial g0 HN) HO HR) as [HI _].
  apply lost_untouched. cbn [step] in HE. destruct (known s b) eqn:K; [discriminate|]. injection HE as <-.
  assert (HL : Lost (adoptBlock c b (withGraph s (sgraph s ++ [b]))) b /\ nowhere (adoptBlock c b (withGraph s (sgraph s ++ [b]))) b).
  { apply (fresh_lost s b); try assumption; unfold adoptBlock, withConn, withGraph; cbn [sst sgraph sexec sadopt smoved szomb swork sbusy sbst sconn]; rewrite HA; cbn [negb sadopt]; reflexivity || tauto. }
  exact (proj1 (unlisted_run c b after _ s2 (proj1 HL) (proj2 HL) HH HB HR2)).
Qed.
Print Assumptions C140_accepted_before_start_refuted.

Example C140_before_start_case :
  let s := finish (run one (initial [1; 2]) [AInit]) in let s1 := finish (step one s (AEmplace 7)) in
  let s2 := finish (run one s1 [AStart; AEnter 0; AMsgs 0]) in
  run one (initial [1; 2]) [AInit] = Next s /\ sst s = INITIALISED /\ step one s (AEmplace 7) = Next s1 /\ In 7 (sgraph s1) /\
  run one s1 [AStart; AEnter 0; AMsgs 0] = Next s2 /\ handling s2 0 [1; 2].
Proof. vm_compute. repeat split. do 2 right. left. reflexivity. Qed.

(** The block that replaces another one is never adopted, whatever the state. *)
Theorem C140_replacement_not_run_refuted : forall c g0 before s old b s1 after s2,
  1 <= cthreads c -> NoDup g0 -> obeys timely c (initial g0) before -> run c (initial g0) before = Next s ->
  step c s (AReplace old b) = Next s1 ->
  ~ everHands after b -> (forall a, In a after -> rebuilds a -> a = AStart) -> run c s1 after = Next s2 -> ~ touched s2 b.
Proof.
  intros c g0 before s old b s1 after s2 Hc HN HO HR HE HH HB HR2. pose proof (run_inv c before _ s Hc (inv_initial g0 HN) HO HR) as [HI _].
  apply lost_untouched. cbn [step] in HE. destruct (memb old (sgraph s) && negb (known s b)) eqn:K; [|discriminate]. injection HE as <-.
  apply andb_prop in K as [_ K]. apply negb_true_iff in K.
  destruct (makeZombie_same old (withGraph s (without [old] (sgraph s ++ [b])))) as (E1 & E2 & E3 & E4 & E5 & E6 & E7 & E8).
  destruct (fresh_lost s b (makeZombie old (withGraph s (without [old] (sgraph s ++ [b])))) HI K E1 E8 E4 E5) as [L1 L2].
  exact (proj1 (unlisted_run c b after _ s2 L1 L2 HH HB HR2)).
Qed.
Print Assumptions C140_replacement_not_run_refuted.

Example C140_replacement_case :
  let s := finish (run one (initial [1; 2]) [AInit; AStart; AEnter 0]) in let s1 := finish (step one s (AReplace 2 7)) in
  let s2 := finish (run one s1 [AMsgs 0; AEnd 0; ABlock 2 STOPPED; AMsgs 0]) in
  run one (initial [1; 2]) [AInit; AStart; AEnter 0] = Next s /\ step one s (AReplace 2 7) = Next s1 /\ sgraph s1 = [1; 7] /\
  run one s1 [AMsgs 0; AEnd 0; ABlock 2 STOPPED; AMsgs 0] = Next s2 /\ handling s2 0 [1].
Proof. vm_compute. repeat split. Qed.

(** * C141: removed blocks are released *)

Lemma removeOne_keeps x z l : z <> x -> In z l -> In z (removeOne x l).
Proof.
  intros H. induction l as [|y l IH]; intros Hz; [destruct Hz|]. cbn [removeOne]. destruct (Nat.eqb_spec y x) as [->|Hy].
  - destruct Hz as [->|Hz]; [congruence|exact Hz].
  - destruct Hz as [->|Hz]; [left; reflexivity|right; exact (IH Hz)].
Qed.

Lemma cleanZ_others zs : forall l ex f z, ~ In z zs -> snd (cleanZ zs l ex f) z = f z.
Proof.
  induction zs as [|y r IH]; intros l ex f z Hz; [reflexivity|]. cbn [cleanZ]. assert (Hr : ~ In z r) by (intros X; apply Hz; right; exact X).
  assert (Hy : (z =? y) = false) by (apply Nat.eqb_neq; intros ->; apply Hz; left; reflexivity).
  assert (Q : forall f1, f1 z = f z -> snd (let '(zs', l', ex', f') := cleanZ r l ex f1 in (y :: zs', l', ex', f')) z = f z).
  { intros f1 E. specialize (IH l ex f1 z Hr). destruct (cleanZ r l ex f1) as [[[a b] d] e]. cbn [snd] in *. congruence. }
  destruct (memb y l); [|exact (Q f eq_refl)]. destruct (f y); try exact (IH _ _ f z Hr); try exact (Q f eq_refl).
  apply Q. unfold setSt. rewrite Hy. reflexivity.
Qed.

Lemma cleanZ_paused zs : forall l ex f z, NoDup zs -> In z zs -> In z l -> f z = PAUSED -> snd (cleanZ zs l ex f) z = REQUESTED_STOP.
Proof.
  induction zs as [|y r IH]; intros l ex f z HN Hz Hl Hp; [destruct Hz|]. inversion HN as [|? ? N1 N2]; subst. cbn [cleanZ]. destruct (Nat.eq_dec z y) as [->|Hy].
  - replace (memb y l) with true by (symmetry; apply memb_In; exact Hl). rewrite Hp. pose proof (cleanZ_others r l ex (setSt f y REQUESTED_STOP) y N1) as X.
    destruct (cleanZ r l ex (setSt f y REQUESTED_STOP)) as [[[a b] d] e]. cbn [snd] in *. rewrite X. unfold setSt. rewrite Nat.eqb_refl. reflexivity.
  - destruct Hz as [->|Hz]; [congruence|].
    assert (Q : forall f1, f1 z = PAUSED -> snd (let '(zs', l', ex', f') := cleanZ r l ex f1 in (y :: zs', l', ex', f')) z = REQUESTED_STOP).
    { intros f1 E. specialize (IH l ex f1 z N2 Hz Hl E). destruct (cleanZ r l ex f1) as [[[a b] d] e]. exact IH. }
    destruct (memb y l); [|exact (Q f Hp)]. destruct (f y) eqn:E; try exact (Q f Hp); try exact (IH _ _ f z N2 Hz (removeOne_keeps y z l Hy Hl) Hp).
    apply Q. unfold setSt. apply Nat.eqb_neq in Hy. rewrite Hy. exact Hp.
Qed.

Lemma msgs_paused s i l s' z : NoDup (szomb s) -> In z (szomb s) -> nth_error (swork s) i = Some (Live l) -> In z l -> ~ In z (nth i (smoved s) []) ->
  sbst s z = PAUSED -> msgSection s i = Next s' -> sbst s' z = REQUESTED_STOP.
Proof.
  intros HN Hz Hi Hl Hm Hp H. unfold msgSection in H. rewrite Hi in H. destruct (nth_error (sbusy s) i) as [[?|]|]; try discriminate.
  destruct (nth_error (smoved s) i) as [mv|] eqn:Em; [|discriminate]. destruct (nth_error (sadopt s) i) as [ad|]; [|discriminate]. destruct (nth_error (sexec s) i); [|discriminate].
  rewrite (nth_error_nth _ _ [] Em) in Hm. assert (HW : In z (without mv l)) by (apply without_In; split; assumption).
  destruct (without mv l) as [|y r] eqn:Ew; [destruct HW|]. pose proof (cleanZ_paused (szomb s) (y :: r) (sexec s) (sbst s) z HN Hz HW Hp) as X.
  destruct (cleanZ (szomb s) (y :: r) (sexec s) (sbst s)) as [[[a b] d] e]. injection H as <-. exact X.
Qed.

(** A removed block that a worker has in its list: released in that worker's next message section if it has stopped, asked
    to stop if it is paused, kept otherwise.  A released block is in no list and is never touched again. *)
Theorem C141_removed_blocks_are_released : forall c g0 before s z i l s1,
  1 <= cthreads c -> NoDup g0 -> obeys timely c (initial g0) before -> run c (initial g0) before = Next s ->
  In z (szomb s) -> nth_error (swork s) i = Some (Live l) -> In z l -> ~ In z (nth i (smoved s) []) -> step c s (AMsgs i) = Next s1 ->
  (stopped (sbst s z) = true -> ~ In z (szomb s1) /\ (forall j, ~ In z (jobs s1 j)) /\
     forall after s2, ~ everHands after z -> run c s1 after = Next s2 -> ~ touched s2 z) /\
  (sbst s z = PAUSED -> In z (szomb s1) /\ sbst s1 z = REQUESTED_STOP) /\
  (stopped (sbst s z) = false -> sbst s z <> PAUSED -> In z (szomb s1) /\ sbst s1 z = sbst s z).
Proof.
  intros c g0 before s z i l s1 Hc HN HO HR HZ Hi Hl Hm HS. pose proof (run_inv c before _ s Hc (inv_initial g0 HN) HO HR) as [HI HG].
  apply NoDup_app_l in HG as (G1 & G2 & G3). cbn [step] in HS. destruct (msgs_spec s i s1 HI HS) as (l' & rm & M).
  assert (l' = l) as -> by (pose proof (md_live _ _ _ _ _ M); congruence).
  destruct M as [md_live0 md_idle0 md_i0 md_rm0 md_st0 md_graph0 md_conn0 md_exlen0 md_ex0 md_ad0 md_mv0 md_wk0 md_bz0 md_z10 md_z20 md_z30 md_z40].
  destruct (md_z20 G2) as [_ ZZ]. split; [|split].
  - intros Hst. pose proof (md_z30 G2 z HZ Hl Hm Hst) as Hrm.
    assert (XE : In z (at_ (sexec s) i)). { destruct (proj2 (il_live _ _ _ _ _ _ HI i l Hi) z Hl) as [X|X]; [destruct (Hm X)|exact X]. }
    assert (NA : forall j, ~ In z (at_ (sadopt s) j)) by (intros j X; exact (il_apart _ _ _ _ _ _ HI i j z XE X)).
    assert (NE : forall j, ~ In z (at_ (sexec s1) j)). { intros j. rewrite md_ex0, in_app_iff, without_In. intros [[_ X]|X]; [exact (X Hrm)|]. destruct (i =? j); [exact (NA i X)|exact X]. }
    split; [intros X; exact (proj1 (ZZ z HZ) X Hrm)|]. split; [exact NE|]. intros after s2 HH HR2. apply away_untouched. apply (away_run c z after s1 s2 Hc); [|exact HH|exact HR2]. constructor.
    + rewrite md_graph0. intros X. exact (G3 z X HZ).
    + exact NE.
    + intros j. rewrite md_ad0, at_upd. destruct (_ && _); [intros []|apply NA].
    + intros j m Hj Hb. rewrite md_wk0 in Hj. apply nth_upd_inv in Hj as [[<- X]|[Hij Hj]].
      * injection X as ->. rewrite in_app_iff, without_In in Hb. destruct Hb as [[_ X]|X]; [destruct (X Hrm)|destruct (NA i X)].
      * rewrite md_mv0, at_upd. assert (Hq := Hij). apply Nat.eqb_neq in Hq. rewrite Hq.
        destruct (proj2 (il_live _ _ _ _ _ _ HI j m Hj) z Hb) as [X|X]; [exact X|]. destruct (Hij (proj2 (il_ex _ _ _ _ _ _ HI) i j z XE X)).
    + intros j m Hj. rewrite md_bz0 in Hj. apply nth_upd_inv in Hj as [[<- X]|[Hij Hj]].
      * injection X as ->. rewrite in_app_iff, without_In. intros [[_ X]|X]; [exact (X Hrm)|exact (NA i X)].
      * intros Hb. destruct (il_busy _ _ _ _ _ _ HI j m Hj) as [_ X]. exact (Hij (proj2 (il_ex _ _ _ _ _ _ HI) i j z XE (X z Hb))).
  - intros Hp. split; [apply (ZZ z HZ); intros X; destruct (md_rm0 z X) as (_ & _ & _ & Y); rewrite Hp in Y; discriminate|].
    exact (msgs_paused s i l s1 z G2 HZ Hi Hl Hm Hp HS).
  - intros Hst Hp. split; [apply (ZZ z HZ); intros X; destruct (md_rm0 z X) as (_ & _ & _ & Y); congruence|].
    destruct (md_z40 G2 z) as [X|(_ & _ & _ & X & _)]; [exact X|contradiction].
Qed.
Print Assumptions C141_removed_blocks_are_released.

Example C141_case :
  let before := [AInit; AStart; AEnter 0; ARemove 2; AMsgs 0; AEnd 0; ABlock 2 STOPPED] in let s := finish (run one (initial [1; 2]) before) in
  let s1 := finish (step one s (AMsgs 0)) in
  obeys timely one (initial [1; 2]) before /\ run one (initial [1; 2]) before = Next s /\ szomb s = [2] /\ nth_error (swork s) 0 = Some (Live [1; 2]) /\
  step one s (AMsgs 0) = Next s1 /\ szomb s1 = [] /\ handling s1 0 [1].
Proof. vm_compute. repeat split. Qed.

(** Removed while the scheduler is stopped and then reset: the block is in no worker's list any more, so it stays in the
    list of blocks to be released for ever, whatever happens afterwards. *)
Theorem C141_removed_while_stopped_refuted : forall c g0 before s z s1 s2 after s3,
  1 <= cthreads c -> NoDup g0 -> obeys timely c (initial g0) before -> run c (initial g0) before = Next s ->
  allGone s = true -> eraseAdoption z (sadopt s) = None -> step c s (ARemove z) = Next s1 -> step c s1 AReset = Next s2 ->
  ~ everHands after z -> run c s2 after = Next s3 -> In z (szomb s3).
Proof.
  intros c g0 before s z s1 s2 after s3 Hc HN HO HR HG HA H1 H2 HH H3. pose proof (run_inv c before _ s Hc (inv_initial g0 HN) HO HR) as [HI _].
  cbn [step] in H1. destruct (memb z (sgraph s)) eqn:Mz; [|discriminate]. injection H1 as <-. unfold makeZombie in H2. cbn [withGraph sadopt] in H2. rewrite HA in H2.
  cbn [step] in H2. destruct (_ || _); [|discriminate]. injection H2 as <-.
  refine (zombie_kept c z after _ s3 Hc _ _ HH H3).
  - constructor; cbn [customInit withBlocks withState withGraph sst sgraph sexec sadopt smoved szomb swork sbusy sbst sconn].
    + apply without_singleton_not.
    + intros i X. apply (jobsOf_sub c _ _ _ Hc) in X. exact (without_singleton_not _ _ X).
    + intros i X. rewrite at_empty in X. exact X.
    + intros i m Hi. apply (allGone_nth s i _ HG) in Hi. discriminate.
    + intros i m Hi. destruct (il_busy _ _ _ _ _ _ HI i m Hi) as [X _]. apply (allGone_nth s i _ HG) in X. discriminate.
  - cbn [customInit withBlocks withState withGraph szomb]. apply in_app_iff. right. left. reflexivity.
Qed.
Print Assumptions C141_removed_while_stopped_refuted.

Example C141_kept_case :
  let before := [AInit; AStart; AEnter 0; AState REQUESTED_STOP; AState STOPPED; ALeave 0] in let s := finish (run one (initial [1; 2]) before) in
  let s1 := finish (step one s (ARemove 2)) in let s2 := finish (step one s1 AReset) in
  let after := [AStart; AEnter 0; ABlock 2 STOPPED; AMsgs 0; AEnd 0; AMsgs 0] in
  obeys timely one (initial [1; 2]) before /\ run one (initial [1; 2]) before = Next s /\ allGone s = true /\ eraseAdoption 2 (sadopt s) = None /\
  step one s (ARemove 2) = Next s1 /\ step one s1 AReset = Next s2 /\ szomb (finish (run one s2 after)) = [2] /\ handling (finish (run one s2 after)) 0 [1].
Proof. vm_compute. repeat split. Qed.

(** * C142: after an exchange the new graph is run *)

Theorem C142_exchange_runs_new_graph : forall c g0 before s g s1,
  1 <= cthreads c -> NoDup g0 -> obeys timely c (initial g0) before -> run c (initial g0) before = Next s ->
  sst s = STOPPED \/ sst s = ERROR -> run c s [AExchange g; AReset; AStart] = Next s1 ->
  sst s1 = RUNNING /\ sgraph s1 = g /\ (forall b, (exists i, In b (jobs s1 i)) <-> In b g) /\
  (forall i, i < length (sexec s1) -> nth_error (swork s1) i = Some NotStarted).
Proof.
  intros c g0 before s g s1 Hc HN HO HR HS HX. cbn [run] in HX. destruct (step c s (AExchange g)) as [t| |] eqn:E1; try discriminate.
  cbn [step] in E1. destruct (isActive (sst s) || negb (distinct g) || existsb (known s) g); [discriminate|]. injection E1 as <-.
  match type of HX with context [step c ?t AReset] => set (u := t) in HX end.
  assert (Gu : sgraph u = g) by reflexivity.
  destruct (step c u AReset) as [v| |] eqn:E2; try discriminate. cbn [step] in E2. destruct (lstate_eqb (sst u) STOPPED || lstate_eqb (sst u) ERROR); [|discriminate]. injection E2 as <-.
  match type of HX with context [step c ?t AStart] => set (v := t) in HX end.
  destruct (step c v AStart) as [x| |] eqn:E3; try discriminate. injection HX as <-. cbn [step] in E3. unfold startSched in E3.
  assert (Gv : sgraph v = g) by exact Gu. assert (Ev : sexec v = jobsOf c g) by (unfold v, customInit, withBlocks, withState; cbn [sexec sgraph]; rewrite Gu; reflexivity).
  destruct (negb (lstate_eqb (sst v) INITIALISED) || negb (allGone v)); [discriminate|]. rewrite Ev in E3. destruct (jobsOf c g) as [|y r] eqn:Ex; [discriminate|]. rewrite <- Ex in E3. injection E3 as <-.
  cbn [sst sgraph sexec swork]. split; [reflexivity|]. split; [exact Gv|]. split.
  - intros b. unfold jobs. cbn [sexec]. split.
    + intros (i & Hi). exact (jobsOf_sub c g b i Hc Hi).
    + intros Hb. apply (jobsOf_In c g b Hc) in Hb. apply concat_in_at in Hb as (i & Hi & _). exists i. exact Hi.
  - intros i Hi. apply nth_error_repeat. exact Hi.
Qed.
Print Assumptions C142_exchange_runs_new_graph.

Example C142_case :
  let before := [AInit; AStart; AEnter 0; AState REQUESTED_STOP; AState STOPPED; ALeave 0] in let s := finish (run one (initial [1; 2]) before) in
  let s1 := finish (run one s [AExchange [5; 6]; AReset; AStart]) in
  obeys timely one (initial [1; 2]) before /\ run one (initial [1; 2]) before = Next s /\ sst s = STOPPED /\
  run one s [AExchange [5; 6]; AReset; AStart] = Next s1 /\ jobs s1 0 = [5; 6].
Proof. vm_compute. repeat split. Qed.

(** Exchanged while initialised but not yet started: the start runs the blocks of the old graph, and those of the new graph
    are not run until the lists are built anew. *)
Theorem C142_exchange_before_start_refuted : forall c g0 before s g s1 b after s2,
  1 <= cthreads c -> NoDup g0 -> obeys timely c (initial g0) before -> run c (initial g0) before = Next s ->
  sst s = INITIALISED -> step c s (AExchange g) = Next s1 -> In b g ->
  sexec s1 = sexec s /\
  (~ everHands after b -> (forall a, In a after -> rebuilds a -> a = AStart) -> run c s1 after = Next s2 -> ~ touched s2 b).
Proof.
  intros c g0 before s g s1 b after s2 Hc HN HO HR HS HE Hb. pose proof (run_inv c before _ s Hc (inv_initial g0 HN) HO HR) as [HI _].
  cbn [step] in HE. destruct (isActive (sst s) || negb (distinct g) || existsb (known s) g) eqn:E; [discriminate|]. rewrite HS in HE. cbn [lstate_eqb orb] in HE. injection HE as <-.
  split; [reflexivity|]. intros HH HB HR2. apply lost_untouched.
  assert (K : known s b = false). { apply orb_false_elim in E as [_ E]. destruct (known s b) eqn:K; [|reflexivity]. rewrite <- not_true_iff_false in E. exfalso. apply E. apply existsb_exists. exists b. split; assumption. }
  destruct (fresh_lost s b (withGraph s g) HI K eq_refl (fun i x X => X) eq_refl eq_refl) as [L1 L2].
  exact (proj1 (unlisted_run c b after _ s2 L1 L2 HH HB HR2)).
Qed.
Print Assumptions C142_exchange_before_start_refuted.

Example C142_before_start_case :
  let s := finish (run one (initial [1; 2]) [AInit]) in let s1 := finish (step one s (AExchange [5; 6])) in let s2 := finish (run one s1 [AStart; AEnter 0; AWork 0]) in
  run one (initial [1; 2]) [AInit] = Next s /\ step one s (AExchange [5; 6]) = Next s1 /\ sgraph s1 = [5; 6] /\
  run one s1 [AStart; AEnter 0; AWork 0] = Next s2 /\ handling s2 0 [1; 2].
Proof. vm_compute. repeat split. Qed.

(** * C143: messages of the children reach the scheduler's port once and in order *)

(** With somebody listening: what was accepted is what was put out, followed by what is still in the ring; nothing throws. *)
Theorem C143_children_are_heard : forall cap l v acc thr, upRun cap true (mkUp [] []) l = (v, acc, thr) ->
  acc = upOut v ++ upRing v /\ length (upRing v) <= cap /\ ~ In true thr.
Proof.
  intros cap l v acc thr H. pose proof (up_listening cap l (mkUp [] []) ltac:(cbn; lia)) as X. rewrite H in X. cbn [upRing upOut app] in X.
  destruct X as (A & B & C). split; [symmetry; exact A|tauto].
Qed.
Print Assumptions C143_children_are_heard.

Example C143_case : let m k := mkMsg k false in
  upRun 2 true (mkUp [] []) [USend (m 1); USend (m 2); USend (m 3); UForward; USend (m 3)] = (mkUp [m 3] [m 1; m 2], [m 1; m 2; m 3], [false]).
Proof. vm_compute. reflexivity. Qed.

(** With nobody listening nothing is ever consumed: after [cap] messages no child's message is accepted again (its send
    spins), and once one of them is an error every later turn throws it again. *)
Theorem C143_nobody_listens_refuted : forall cap first rest u acc thr v acc' thr',
  upRun cap false (mkUp [] []) first = (u, acc, thr) -> upRun cap false u rest = (v, acc', thr') ->
  upOut v = [] /\ upRing v = acc ++ acc' /\ length (acc ++ acc') <= cap /\
  (length acc = cap -> acc' = []) /\ (existsb isError acc = true -> forall t, In t thr' -> t = true).
Proof.
  intros cap first rest u acc thr v acc' thr' H1 H2.
  pose proof (up_deaf cap first (mkUp [] [])) as X. rewrite H1 in X. cbn [upRing upOut app] in X. destruct X as (A & B & C & _).
  pose proof (up_deaf cap rest u) as Y. rewrite H2 in Y. destruct Y as (D & E & F & G). specialize (C ltac:(cbn; lia)). rewrite B in *.
  split; [congruence|]. split; [exact E|]. split; [rewrite <- E; apply F; exact C|]. split; [|exact G].
  intros HL. pose proof (up_deaf_full cap rest u) as Z. rewrite H2, B in Z. apply Z. lia.
Qed.
Print Assumptions C143_nobody_listens_refuted.

Example C143_deaf_case :
  let '(u, acc, thr) := upRun 2 false (mkUp [] []) [USend (mkMsg 1 true); USend (mkMsg 2 false); UForward] in
  let '(v, acc', thr') := upRun 2 false u [USend (mkMsg 3 false); UForward; USend (mkMsg 3 false); UForward] in
  length acc = 2 /\ thr = [true] /\ acc' = [] /\ thr' = [true; true].
Proof. vm_compute. repeat split. Qed.

(** * C144: messages for the children are passed on *)

(** Once every child has handled its messages, the next message is passed on. *)
Theorem C144_passed_on_when_read : forall cap d reads, 1 <= cap ->
  (forall a, In a reads -> exists i, a = DRead i) -> (forall k, k < length (dnRead d) -> In (DRead k) reads) ->
  dnNext (dnRun cap d (reads ++ [DForward])) = S (dnNext d).
Proof.
  intros cap d reads Hc H1 H2. unfold dnRun. rewrite fold_left_app. fold (dnRun cap d reads). cbn [fold_left dnStep].
  destruct (down_reads cap reads d H1) as (A & B & C). unfold forwardDown. rewrite A.
  replace (forallb _ _) with true; [reflexivity|]. symmetry. apply forallb_forall. intros r Hr. apply Nat.ltb_lt.
  apply In_nth_error in Hr as (k & Hk). destruct (C k r Hk) as [->|[X Y]]; [lia|]. destruct X. apply H2. apply nth_error_Some. congruence.
Qed.
Print Assumptions C144_passed_on_when_read.

Example C144_case : dnNext (dnRun 2 (mkDown 0 [0; 0]) [DForward; DForward; DForward; DRead 1; DRead 0; DForward]) = 3.
Proof. vm_compute. reflexivity. Qed.

(** One child that handles no messages (its worker has left, or it was accepted and never run): at most [cap] messages are
    passed on, to anybody; then the thread that passes them on waits for ever. *)
Theorem C144_one_child_blocks_all_refuted : forall cap d k l,
  nth_error (dnRead d) k = Some (dnNext d) -> ~ In (DRead k) l -> dnNext (dnRun cap d l) <= dnNext d + cap.
Proof. intros cap d k l Hk Hn. destruct (down_blocked cap k l d (dnNext d) Hk Hn) as [_ X]. lia. Qed.
Print Assumptions C144_one_child_blocks_all_refuted.

Example C144_blocked_case : dnNext (dnRun 2 (mkDown 0 [0; 0]) [DForward; DRead 0; DForward; DRead 0; DForward; DRead 0; DForward]) = 2.
Proof. vm_compute. reflexivity. Qed.

(** * C145: every block that is run has its message ports connected *)

Theorem C145_run_blocks_are_connected : forall c g0 l s b,
  1 <= cthreads c -> obeys regular c (initial g0) l -> run c (initial g0) l = Next s -> touched s b -> In b (sconn s).
Proof.
  intros c g0 l s b Hc HO HR (i & li & H & Hb). pose proof (wired_run c l _ s Hc (wired_initial g0) HO HR) as HW. exact (wi_busy s HW i li H b Hb).
Qed.
Print Assumptions C145_run_blocks_are_connected.

Example C145_case :
  let l := [AInit; AStart; AEnter 0; AEmplace 7; AMsgs 0] in let s := finish (run one (initial [1; 2]) l) in
  obeys regular one (initial [1; 2]) l /\ run one (initial [1; 2]) l = Next s /\ handling s 0 [1; 2; 7].
Proof. vm_compute. repeat split. Qed.

(** Not so after an exchange, for a block added to the graph while stopped, after a replacement followed by a reset, or
    when the scheduler was stopped before it was ever initialised: only [init] connects, [reset] does not. *)
Theorem C145_not_connected_refuted :
  (exists s, run one (initial [1]) [AInit; AStart; AEnter 0; AState REQUESTED_STOP; AState STOPPED; ALeave 0; AExchange [5]; AReset; AStart; AEnter 0; AMsgs 0] = Next s
     /\ touched s 5 /\ ~ In 5 (sconn s)) /\
  (exists s, run one (initial [1]) [AInit; AStart; AEnter 0; AState REQUESTED_STOP; AState STOPPED; ALeave 0; AAdd 5; AReset; AStart; AEnter 0; AMsgs 0] = Next s
     /\ touched s 5 /\ ~ In 5 (sconn s)) /\
  (exists s, run one (initial [1]) [AInit; AStart; AEnter 0; AReplace 1 5; AState REQUESTED_STOP; AState STOPPED; ALeave 0; AReset; AStart; AEnter 0; AMsgs 0] = Next s
     /\ touched s 5 /\ ~ In 5 (sconn s)) /\
  (exists s, run one (initial [5]) [AState REQUESTED_STOP; AState STOPPED; AReset; AStart; AEnter 0; AMsgs 0] = Next s
     /\ touched s 5 /\ ~ In 5 (sconn s)).
Proof.
  split; [|split; [|split]]; (eexists; split; [vm_compute; reflexivity|]; split; [exists 0; eexists; split; [reflexivity|]; vm_compute; tauto|vm_compute; intuition discriminate]).
Qed.
Print Assumptions C145_not_connected_refuted.
