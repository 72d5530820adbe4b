(** C154-C161: the message interface of a block. *)
From Coq Require Import List NArith Arith Lia Bool Sorting.Sorted ZifyBool ZifyN.
From Verif Require Import Base LifecycleModel LifecycleSpec LifecycleProofs SettModel SettSpec SettProofs SettRunProofs SettHistProofs MsgModel MsgSpec MsgProofs.
Import ListNotations.
Local Open Scope N_scope.

(* ------------------------------------------------------------------ a block for the examples *)

Definition exB : bdesc := mkB [1; 2] (fun _ v => if v =? 99 then None else Some v) (fun _ _ => true) (fun _ v => v <? 50) (fun _ => false).
Definition exHooks : hooks_present := fun _ => true.
Definition exSt : st := mkS [] [] [(1, 7); (2, 8)] [] [(1, 7); (2, 8)] [(1, 7); (2, 8)] (0, 0) false never.
Definition exBlk : blk := mkBlk 10 11 (fun _ => []) machine_init exSt [(5, 6)] [].
Definition exEnv : env := mkEnv 100 101 102 false.
Definition exMsg (c : cmd) (client : N) (e : endp) (d : body) : msg := mkMsg 1 c 11 client e d 3.

(* ------------------------------------------------------------------ C154 *)

(** A message for another block, or for a property that is not registered, changes nothing and is not answered. *)
Theorem C154_not_concerned : forall B pred fuel hooks x b m, ~ meantFor (bName b) (bUnique b) m \/ (exists n, mEnd m = POther n) ->
  handle B pred fuel hooks x b m = (b, None).
Proof.
  intros B pred fuel hooks x b m H. unfold handle. destruct H as [H|[n H]].
  - destruct (addressed b m) eqn:E; [|reflexivity]. apply addressed_spec in E. contradiction.
  - rewrite H. cbn [registered]. rewrite orb_true_r. reflexivity.
Qed.
Print Assumptions C154_not_concerned.

(** A command that the property does not take changes nothing and is answered by an error. *)
Theorem C154_command_table : forall B pred fuel hooks x b m, meantFor (bName b) (bUnique b) m -> (forall n, mEnd m <> POther n) -> takes (mEnd m) (mCmd m) = false ->
  handle B pred fuel hooks x b m = (b, Some (replyTo (bUnique b) m None)).
Proof.
  intros B pred fuel hooks x b m HA HR HT. unfold handle. apply addressed_spec in HA. rewrite HA. cbn [negb orb].
  assert (R : registered (mEnd m) = true) by (destruct (mEnd m); try reflexivity; destruct (HR n eq_refl)). rewrite R. cbn [negb].
  enough (Q : callback B pred fuel hooks x b m = (b, RThrow)) by (rewrite Q; reflexivity).
  unfold callback. destruct (mEnd m); try (destruct (HR n eq_refl)); unfold cbHeartbeat, cbEcho, cbLife, cbSettings, cbStaged, cbStore, cbReset, cbActive, cbContexts, cbMeta, cbUi in *; try (destruct (mCmd m); try discriminate HT; reflexivity).
  unfold cbCtx. destruct (mBody m) as [d|]; [|reflexivity]. destruct (ctxName d); [|reflexivity]. destruct (mCmd m); try discriminate HT; reflexivity.
Qed.
Print Assumptions C154_command_table.

Lemma ctxName_spec d n : ctxName d = Some n <-> namesCtx d n.
Proof.
  unfold ctxName, namesCtx. destruct (kfind d KContext) as [[]|] eqn:E; split; try (intros [=]; subst; left; reflexivity); try (intros [[=]|[[=] _]]; subst; reflexivity); try (intros [=]; fail); try (intros [[=]|[[=] ?]]; fail).
  - destruct (kfind d KContextShort) as [[]|]; intros [=]. subst. right. split; reflexivity.
  - intros [[=]|[_ ->]]. reflexivity.
Qed.

(** A Get never changes the block; where the property takes Get it is answered with data (a context property needs the name
    of a context). *)
Theorem C154_get : forall B pred fuel hooks x b m, mCmd m = Get ->
  fst (handle B pred fuel hooks x b m) = b /\
  (meantFor (bName b) (bUnique b) m -> takes (mEnd m) Get = true -> (mEnd m = PCtx -> exists d n, mBody m = Some d /\ namesCtx d n) ->
   exists d, snd (handle B pred fuel hooks x b m) = Some (replyTo (bUnique b) m (Some d))).
Proof.
  intros B pred fuel hooks x b m HG.
  assert (Q : exists r, callback B pred fuel hooks x b m = (b, r) /\ (takes (mEnd m) Get = true -> (mEnd m = PCtx -> exists d n, mBody m = Some d /\ namesCtx d n) -> exists d, r = RMsg (withBody m (Some d)))).
  { unfold callback, cbHeartbeat, cbEcho, cbLife, cbSettings, cbStaged, cbStore, cbReset, cbActive, cbContexts, cbMeta, cbUi. rewrite HG.
    destruct (mEnd m) eqn:Ep; try (eexists; split; [reflexivity|]; intros T C; try discriminate T; eexists; reflexivity).
    unfold cbCtx. destruct (mBody m) as [d|].
    2:{ exists RThrow. split; [reflexivity|]. intros _ C. destruct (C eq_refl) as (d & n & [=] & _). }
    destruct (ctxName d) as [n|] eqn:En.
    - rewrite HG. eexists. split; [reflexivity|]. intros _ _. eexists. reflexivity.
    - exists RThrow. split; [reflexivity|]. intros _ C. destruct (C eq_refl) as (d' & n & [= <-] & C2). apply ctxName_spec in C2. congruence. }
  destruct Q as (r & Q1 & Q2). unfold handle. split.
  - destruct (negb (addressed b m) || negb (registered (mEnd m))); [reflexivity|]. rewrite Q1. destruct r; reflexivity.
  - intros HA HT HC. apply addressed_spec in HA. rewrite HA. assert (R : registered (mEnd m) = true) by (destruct (mEnd m); try reflexivity; discriminate HT). rewrite R. cbn [negb orb]. rewrite Q1.
    destruct (Q2 HT HC) as [d ->]. exists d. reflexivity.
Qed.
Print Assumptions C154_get.

Example C154_example :
  handle exB nullPred 5 exHooks exEnv exBlk (exMsg Set_ 4 PContexts None) = (exBlk, Some (mkMsg 1 Final 11 4 PContexts None 3))
  /\ snd (handle exB nullPred 5 exHooks exEnv exBlk (exMsg Get 4 PMeta None)) = Some (mkMsg 1 Final 11 4 PMeta (Some [(KParam 5, VPar 6)]) 3)
  /\ meantFor 10 11 (exMsg Get 4 PMeta None) /\ takes PMeta Get = true /\ takes PContexts Set_ = false.
Proof. repeat split; try reflexivity. right. left. reflexivity. Qed.

(* ------------------------------------------------------------------ C155 *)

Lemma answers_more u pre post out : Answers u pre out -> Answers u (pre ++ post) out.
Proof. induction 1; cbn [app]; [induction post; [constructor|apply ans_none; assumption]|apply ans_none; assumption|apply ans_one; assumption]. Qed.

(** The messages sent in answer to any requests are Final messages of the block with the identifiers of the request; at most
    one for each, in the order of the requests. *)
Theorem C155_replies : forall B pred fuel hooks b room l b' out ok, process B pred fuel hooks b room l = (b', out, ok) ->
  Answers (bUnique b) (map snd l) out /\ bUnique b' = bUnique b /\ bName b' = bName b.
Proof.
  intros B pred fuel hooks b room l b' out ok H. destruct (process_spec B pred fuel hooks l b room b' out ok H) as (done & D1 & D2 & D3). split.
  - destruct ok; [exact (proj2 D3)|]. destruct D3 as (pre & x & m & post & -> & _ & _ & P & _). rewrite map_app. apply answers_more. exact P.
  - assert (Q : forall done b, MsgProofs.names (handleAll B pred fuel hooks b done) = MsgProofs.names b).
    { clear. induction done as [|[x m] r IH]; intros b; [reflexivity|]. change (handleAll B pred fuel hooks b ((x, m) :: r)) with (handleAll B pred fuel hooks (fst (handle B pred fuel hooks x b m)) r). rewrite IH. apply handle_names. }
    specialize (Q done b). rewrite <- D2 in Q. unfold MsgProofs.names in Q. injection Q as Q1 Q2. split; assumption.
Qed.
Print Assumptions C155_replies.

(** A Set of values that are all members is confirmed on StagedSettings if a client is named. *)
Theorem C155_staged_set_confirmed : forall B pred fuel hooks x b m d, meantFor (bName b) (bUnique b) m -> mCmd m = Set_ -> mEnd m = PStaged -> mBody m = Some d -> mClient m <> 0 ->
  (forall k v, In (k, v) (params d) -> has k (writ B) = true /\ conv B k v <> None) ->
  exists d', snd (handle B pred fuel hooks x b m) = Some (replyTo (bUnique b) m (Some d')).
Proof.
  intros B pred fuel hooks x b m d HA HC HE HB HN HV. unfold handle. apply addressed_spec in HA. rewrite HA, HE. cbn [registered negb orb]. unfold callback. rewrite HE. unfold cbStaged. rewrite HC, HB. unfold setStaged.
  destruct (stageLoop_none B (params d) (staged (bSet b)) HV) as [stg' E]. rewrite E. apply N.eqb_neq in HN. rewrite HN. unfold asBody. eexists. cbn. unfold reply, replyTo, withBody. cbn. rewrite HE. reflexivity.
Qed.
Print Assumptions C155_staged_set_confirmed.

(** The same message to Settings or UiConstraints is never confirmed, whatever the client. *)
Theorem C155_settings_set_not_confirmed_refuted : forall B pred fuel hooks x b m, mCmd m = Set_ -> mEnd m = PSettings \/ mEnd m = PUi ->
  (forall d, snd (handle B pred fuel hooks x b m) <> Some (replyTo (bUnique b) m (Some d))) /\
  (forall d, mBody m = Some d -> (forall k v, In (k, v) (params d) -> has k (writ B) = true /\ conv B k v <> None) -> snd (handle B pred fuel hooks x b m) = None).
Proof.
  intros B pred fuel hooks x b m HC HE.
  assert (Q : callback B pred fuel hooks x b m = dropAnswer (cbStaged B b m)) by (unfold callback; destruct HE as [-> | ->]; [unfold cbSettings|unfold cbUi]; rewrite HC; reflexivity).
  unfold handle. rewrite Q. split.
  - intros d. destruct (negb (addressed b m) || negb (registered (mEnd m))); [discriminate|]. destruct (cbStaged B b m) as [b1 [|a|]]; cbn; discriminate.
  - intros d HB HV. destruct (negb (addressed b m) || negb (registered (mEnd m))); [reflexivity|]. unfold cbStaged. rewrite HC, HB. unfold setStaged. destruct (stageLoop_none B (params d) (staged (bSet b)) HV) as [stg' E]. rewrite E. destruct (mClient m =? 0); reflexivity.
Qed.
Print Assumptions C155_settings_set_not_confirmed_refuted.

Example C155_example :
  snd (handle exB nullPred 5 exHooks exEnv exBlk (exMsg Set_ 4 PStaged (asBody [(1, 20)]))) = Some (mkMsg 1 Final 11 4 PStaged (asBody [(1, 20)]) 3)
  /\ snd (handle exB nullPred 5 exHooks exEnv exBlk (exMsg Set_ 4 PSettings (asBody [(1, 20)]))) = None
  /\ snd (handle exB nullPred 5 exHooks exEnv exBlk (exMsg Set_ 4 PSettings (asBody [(3, 20)]))) = Some (mkMsg 1 Final 11 4 PSettings None 3).
Proof. repeat split; reflexivity. Qed.

(* ------------------------------------------------------------------ C156 *)

(** Whatever messages a new block has handled, the clients subscribed to a property are those whose last word on it was
    Subscribe. *)
Theorem C156_last_word : forall B pred fuel hooks b l e c, fresh b -> c <> 0 ->
  (In c (bSubs (handleAll B pred fuel hooks b l) e) <-> wants (bName b) (bUnique b) e c false (map snd l) = true).
Proof.
  intros B pred fuel hooks b l e c HF Hc. destruct (wants_spec B pred fuel hooks l b e c) as (_ & A & _); [rewrite HF; exact I|]. rewrite (A Hc). rewrite HF. cbn. reflexivity.
Qed.
Print Assumptions C156_last_word.

Lemma wants_zero nm u e l : forall now, wants nm u e 0 now l = now.
Proof. induction l as [|m r IH]; intros now; cbn [wants]; [reflexivity|]. rewrite IH. rewrite !andb_false_r. reflexivity. Qed.

(** A notification goes to exactly these clients, one message each. *)
Theorem C156_one_each : forall B pred fuel hooks b l e d c, fresh b ->
  about e c (notifyAll (handleAll B pred fuel hooks b l) e d) =
    if wants (bName b) (bUnique b) e c false (map snd l) then [mkMsg 0 Notify (bUnique b) c e d 0] else [].
Proof.
  intros B pred fuel hooks b l e d c HF. destruct (wants_spec B pred fuel hooks l b e c) as (R & A & Z); [rewrite HF; exact I|].
  rewrite about_notify by exact R. rewrite endEqb_refl. cbn [andb].
  assert (U : bUnique (handleAll B pred fuel hooks b l) = bUnique b).
  { assert (Q : forall l b, MsgProofs.names (handleAll B pred fuel hooks b l) = MsgProofs.names b).
    { clear. induction l as [|[x m] r IH]; intros b; [reflexivity|]. change (handleAll B pred fuel hooks b ((x, m) :: r)) with (handleAll B pred fuel hooks (fst (handle B pred fuel hooks x b m)) r). rewrite IH. apply handle_names. }
    specialize (Q l b). unfold MsgProofs.names in Q. injection Q as _ Q. exact Q. }
  rewrite U. rewrite HF in A, Z. destruct (N.eq_dec c 0) as [->|Hc].
  - rewrite wants_zero. destruct (in_dec N.eq_dec 0 (bSubs (handleAll B pred fuel hooks b l) e)) as [I1|I1]; [|reflexivity]. destruct (Z (fun F => F) I1).
  - specialize (A Hc). change (if in_dec N.eq_dec c [] then true else false) with false in A. destruct (in_dec N.eq_dec c (bSubs (handleAll B pred fuel hooks b l) e)) as [I1|I1].
    + apply A in I1. rewrite I1. reflexivity.
    + destruct (wants _ _ _ _ _ _); [|reflexivity]. destruct I1. apply A. reflexivity.
Qed.
Print Assumptions C156_one_each.

Example C156_example :
  let l := map (fun m => (exEnv, m)) [exMsg Subscribe 9 PSettings None; exMsg Subscribe 4 PSettings None; exMsg Subscribe 9 PLife None; exMsg Unsubscribe 9 PSettings None; exMsg Subscribe 4 PSettings None; exMsg Subscribe 6 PEcho None] in
  let b := handleAll exB nullPred 5 exHooks exBlk l in
  bSubs b PSettings = [4] /\ bSubs b PLife = [9] /\ bSubs b PEcho = [] /\ fresh exBlk
  /\ wants 10 11 PSettings 4 false (map snd l) = true /\ wants 10 11 PSettings 9 false (map snd l) = false
  /\ notifyAll b PSettings None = [mkMsg 0 Notify 11 4 PSettings None 0].
Proof. repeat split; reflexivity. Qed.

(* ------------------------------------------------------------------ C157 *)

(** What a Set leaves staged, taken over by the next application. *)
Lemma set_apply B pred fuel hooks x b m d k v v' : sane B -> noDup (staged (bSet b)) -> noDup (fields (bSet b)) -> meantFor (bName b) (bUnique b) m -> mCmd m = Set_ ->
  mEnd m = PSettings \/ mEnd m = PStaged \/ mEnd m = PUi -> mBody m = Some d -> convertible B (params d) -> has k (writ B) = true -> lastIn k (params d) = Some v -> conv B k v = Some v' -> valid B k v' = true ->
  let b2 := fst (applySettings B (fst (handle B pred fuel hooks x b m))) in pget (active (bSet b2)) k = Some v' /\ pget (fields (bSet b2)) k = Some v' /\ bName b2 = bName b /\ bUnique b2 = bUnique b.
Proof.
  intros HS N1 N2 HA HC HE HB HV HW HL Hv HO b2. assert (HN := handle_names B pred fuel hooks x b m).
  destruct (setStaged_ok B (bSet b) (params d) HV N1) as (s' & r & E & D1 & D2 & D3).
  assert (F : fields s' = fields (bSet b)). { pose proof (setStaged_frame B (bSet b) (params d)) as F. cbn zeta in F. rewrite E in F. cbn [fst] in F. tauto. }
  assert (Q : fst (handle B pred fuel hooks x b m) = putSet b s').
  { unfold handle. apply addressed_spec in HA. rewrite HA. assert (R : registered (mEnd m) = true) by (destruct HE as [-> | [-> | ->]]; reflexivity). rewrite R. cbn [negb orb].
    assert (QS : exists r0, cbStaged B b m = (putSet b s', r0)) by (unfold cbStaged; rewrite HC, HB, E; destruct r; eexists; reflexivity). destruct QS as [r0 QS].
    unfold callback. destruct HE as [-> | [-> | ->]]; [unfold cbSettings; rewrite HC|idtac|unfold cbUi; rewrite HC]; rewrite QS; destruct r0; reflexivity. }
  specialize (D3 k HW). rewrite HL, Hv in D3. unfold b2. rewrite Q in *. clear b2.
  assert (C : chg s' = true) by (apply D2; intros Z; rewrite Z in D3; discriminate).
  assert (OK : okVal B k v' = true) by (unfold okVal; rewrite (proj1 HS k v v' Hv), HO; reflexivity).
  destruct (applySettings_get B (putSet b s') k v') as [G1 G2]; cbn [putSet bSet]; try assumption; [rewrite F; exact N2|]. split; [exact G1|]. split; [exact G2|].
  unfold applySettings. cbn [putSet bSet]. rewrite C. destruct (applyStaged B s') as [[s ap] fw]. split; reflexivity.
Qed.

(** Set, the next application, Get: the reader gets the converted values that were set, as far as they are within the limits. *)
Theorem C157_set_apply_get : forall B pred fuel hooks x x' b m g d k v v', sane B -> noDup (staged (bSet b)) -> noDup (fields (bSet b)) -> meantFor (bName b) (bUnique b) m -> mCmd m = Set_ ->
  mEnd m = PSettings \/ mEnd m = PStaged -> mBody m = Some d -> convertible B (params d) -> has k (writ B) = true -> lastIn k (params d) = Some v -> conv B k v = Some v' -> valid B k v' = true ->
  meantFor (bName b) (bUnique b) g -> mCmd g = Get -> mEnd g = PSettings ->
  let b2 := fst (applySettings B (fst (handle B pred fuel hooks x b m))) in
  pget (fields (bSet b2)) k = Some v' /\ exists a, snd (handle B pred fuel hooks x' b2 g) = Some (replyTo (bUnique b) g a) /\ pget (paramsOf a) k = Some v'.
Proof.
  intros B pred fuel hooks x x' b m g d k v v' HS N1 N2 HA HC HE HB HV HW HL Hv HO GA GC GE b2.
  destruct (set_apply B pred fuel hooks x b m d k v v' HS N1 N2 HA HC ltac:(tauto) HB HV HW HL Hv HO) as (P1 & P2 & P3 & P4). fold b2 in P1, P2, P3, P4. split; [exact P2|].
  exists (asBody (active (bSet b2))). split; [|rewrite params_asBody; exact P1].
  unfold handle. rewrite <- P3, <- P4 in GA. apply addressed_spec in GA. rewrite GA, GE. cbn [registered negb orb]. unfold callback. rewrite GE. unfold cbSettings. rewrite GC. cbn [snd]. unfold reply, replyTo, withBody. cbn. rewrite P4. reflexivity.
Qed.
Print Assumptions C157_set_apply_get.

(** A Set that is answered by an error has nevertheless set the values of the known names. *)
Theorem C157_refused_set_applied_refuted : forall B pred fuel hooks x b m d k v v' k0 v0, sane B -> noDup (staged (bSet b)) -> noDup (fields (bSet b)) -> meantFor (bName b) (bUnique b) m -> mCmd m = Set_ ->
  mEnd m = PSettings \/ mEnd m = PStaged -> mBody m = Some d -> convertible B (params d) -> has k (writ B) = true -> lastIn k (params d) = Some v -> conv B k v = Some v' -> valid B k v' = true ->
  In (k0, v0) (params d) -> has k0 (writ B) = false ->
  snd (handle B pred fuel hooks x b m) = Some (replyTo (bUnique b) m None) /\
  pget (fields (bSet (fst (applySettings B (fst (handle B pred fuel hooks x b m)))))) k = Some v'.
Proof.
  intros B pred fuel hooks x b m d k v v' k0 v0 HS N1 N2 HA HC HE HB HV HW HL Hv HO HI H0. split.
  2:{ apply (set_apply B pred fuel hooks x b m d k v v' HS N1 N2 HA HC ltac:(tauto) HB HV HW HL Hv HO). }
  destruct (stageLoop_ok B (params d) (staged (bSet b)) [] HV) as (stg & ret & E & _).
  assert (NE := stageLoop_reported B k0 v0 H0 _ _ _ _ _ (or_introl HI) E).
  assert (QS : exists b1, cbStaged B b m = (b1, RThrow) /\ bUnique b1 = bUnique b). { unfold cbStaged, setStaged. rewrite HC, HB, E. destruct ret as [|z ret]; [congruence|]. eexists. split; reflexivity. }
  destruct QS as (b1 & QS & U). unfold handle. apply addressed_spec in HA. rewrite HA. assert (R : registered (mEnd m) = true) by (destruct HE as [-> | ->]; reflexivity). rewrite R. cbn [negb orb].
  assert (Q : callback B pred fuel hooks x b m = (b1, RThrow)) by (unfold callback; destruct HE as [-> | ->]; [unfold cbSettings; rewrite HC|]; rewrite QS; reflexivity). rewrite Q. cbn. unfold reply, replyTo, withBody. cbn. rewrite U. reflexivity.
Qed.
Print Assumptions C157_refused_set_applied_refuted.

Example C157_example :
  let m := exMsg Set_ 4 PSettings (asBody [(1, 20); (3, 5)]) in
  let b1 := fst (handle exB nullPred 5 exHooks exEnv exBlk m) in
  snd (handle exB nullPred 5 exHooks exEnv exBlk m) = Some (mkMsg 1 Final 11 4 PSettings None 3)
  /\ snd (handle exB nullPred 5 exHooks exEnv (fst (applySettings exB b1)) (exMsg Get 4 PSettings None)) = Some (mkMsg 1 Final 11 4 PSettings (asBody [(1, 20); (2, 8)]) 3)
  /\ noDup (staged exSt) /\ noDup (fields exSt).
Proof. split; [reflexivity|]. split; [reflexivity|]. split; unfold noDup; cbn; repeat constructor; cbn; intuition discriminate. Qed.

Definition exSane : bdesc := mkB [1; 2] (fun _ v => if v =? 99 then None else Some v) (fun _ v => negb (v =? 99)) (fun _ v => v <? 50) (fun _ => false).
Example C157_sane : sane exSane /\ convertible exSane [(1, 20)] /\ lastIn 1 [(1, 20)] = Some 20.
Proof.
  split; [|split; [|reflexivity]].
  - split; cbn; intros k v; [intros v'|]; destruct (v =? 99) eqn:E; try discriminate; [intros [= <-]; rewrite E; reflexivity|reflexivity].
  - intros k v [[= <- <-]|[]] _. discriminate.
Qed.

(* ------------------------------------------------------------------ C158 *)

Lemma life_set B pred fuel hooks x b m d s : meantFor (bName b) (bUnique b) m -> mCmd m = Set_ -> mEnd m = PLife -> mBody m = Some d -> kfind d KState = Some (VState s) ->
  handle B pred fuel hooks x b m = (putLife b (fst (changeStateTo hooks (bLife b) s (thrown x))), match snd (changeStateTo hooks (bLife b) s (thrown x)) with Ok => None | _ => Some (replyTo (bUnique b) m None) end).
Proof.
  intros HA HC HE HB HK. unfold handle. apply addressed_spec in HA. rewrite HA, HE. cbn [registered negb orb]. unfold callback. rewrite HE. unfold cbLife. rewrite HC, HB, HK.
  destruct (changeStateTo hooks (bLife b) s (thrown x)) as [l [| |]]; cbn; try reflexivity; unfold reply, replyTo, withBody; cbn; rewrite HE; reflexivity.
Qed.

Lemma putLife_same b : putLife b (bLife b) = b.
Proof. destruct b; reflexivity. Qed.

(** A state asked for by message is taken exactly along the edges of the documented diagram; a refused request and a
    failing user method are answered by an error. *)
Theorem C158_state_by_message : forall B pred fuel hooks x b m d s b' o, meantFor (bName b) (bUnique b) m -> mCmd m = Set_ -> mEnd m = PLife -> mBody m = Some d -> kfind d KState = Some (VState s) ->
  handle B pred fuel hooks x b m = (b', o) -> let a := m_state (bLife b) in
  (idempotent a s -> b' = b /\ o = None) /\
  (~ edge a s -> ~ idempotent a s -> b' = b /\ o = Some (replyTo (bUnique b) m None)) /\
  (edge a s -> ~ refused_doc_edge a s -> ~ idempotent a s -> thrown x = false -> m_state (bLife b') = s /\ o = None) /\
  (edge a s -> ~ refused_doc_edge a s -> ~ idempotent a s -> thrown x = true -> (exists h, doc_hook a s h /\ hooks h = true) -> m_state (bLife b') = ERROR /\ o = Some (replyTo (bUnique b) m None)) /\
  bSet b' = bSet b.
Proof.
  intros B pred fuel hooks x b m d s b' o HA HC HE HB HK H a. rewrite (life_set B pred fuel hooks x b m d s HA HC HE HB HK) in H. injection H as <- <-.
  destruct (changeStateTo hooks (bLife b) s (thrown x)) as [l r] eqn:E. cbn [fst snd bLife putLife bSet].
  assert (REJ : r = RejectedTransition -> l = bLife b /\ (~ edge a s \/ refused_doc_edge a s)) by (intros ->; exact (rejected_no_effect _ _ _ _ _ E)).
  assert (ACC : r <> RejectedTransition -> _) by (exact (accepted_cases _ _ _ _ _ _ E)). fold a in ACC.
  assert (RI : idempotent a s -> l = bLife b /\ r = Ok).
  { intros Hi. unfold changeStateTo in E. fold a in E. assert (T : lstate_eqb a s || lstate_eqb a STOPPED && lstate_eqb s REQUESTED_STOP || lstate_eqb a PAUSED && lstate_eqb s REQUESTED_PAUSE = true).
    { destruct Hi as [<-|[[-> ->]|[-> ->]]]; [rewrite lstate_eqb_refl; reflexivity|reflexivity|reflexivity]. }
    rewrite T in E. injection E as <- <-. split; reflexivity. }
  split; [intros Hi; destruct (RI Hi) as [-> ->]; rewrite putLife_same; split; reflexivity|].
  split.
  { intros NE NI. destruct r; [| |].
    - destruct (ACC ltac:(discriminate)) as [(Z & _)|(Z & _)]; contradiction.
    - destruct (REJ eq_refl) as [-> _]. rewrite putLife_same. split; reflexivity.
    - destruct (ACC ltac:(discriminate)) as [(Z & _)|(Z & _)]; contradiction. }
  assert (NR : edge a s -> ~ refused_doc_edge a s -> r <> RejectedTransition) by (intros H1 H2 H3; destruct (REJ H3) as [_ [Z|Z]]; contradiction).
  split.
  { intros He Hr Hi Ht. destruct (ACC (NR He Hr)) as [(Z & _)|(_ & _ & Z)]; [contradiction|]. destruct (select_hook hooks a s).
    - destruct Z as [_ [(_ & -> & Z)|(Z & _)]]; [split; [exact Z|reflexivity]|congruence].
    - destruct Z as (-> & Z & _). split; [exact Z|reflexivity]. }
  split; [|reflexivity].
  intros He Hr Hi Ht (h & Hh & Hp). destruct (ACC (NR He Hr)) as [(Z & _)|(_ & Hne & Z)]; [contradiction|]. rewrite (doc_hook_select hooks a s h He Hne Hh Hp) in Z.
  destruct Z as [_ [(Z & _)|(_ & -> & Z)]]; [congruence|]. split; [exact Z|reflexivity].
Qed.
Print Assumptions C158_state_by_message.

(** Get reports the state. *)
Theorem C158_get_state : forall B pred fuel hooks x b m, meantFor (bName b) (bUnique b) m -> mCmd m = Get -> mEnd m = PLife ->
  handle B pred fuel hooks x b m = (b, Some (replyTo (bUnique b) m (Some [(KState, VState (m_state (bLife b)))]))).
Proof.
  intros B pred fuel hooks x b m HA HC HE. unfold handle. apply addressed_spec in HA. rewrite HA, HE. cbn [registered negb orb]. unfold callback. rewrite HE. unfold cbLife. rewrite HC. unfold reply, replyTo, withBody. cbn. rewrite HE. reflexivity.
Qed.
Print Assumptions C158_get_state.

(** A request of a state is never confirmed: no message with data is ever sent in answer, whatever the client; a stop asked
    for while a pause is pending is refused although the diagram shows it. *)
Theorem C158_no_confirmation_refuted :
  (forall B pred fuel hooks x b m d, mCmd m = Set_ -> mEnd m = PLife -> snd (handle B pred fuel hooks x b m) <> Some (replyTo (bUnique b) m (Some d))) /\
  (forall B pred fuel hooks x b m d, meantFor (bName b) (bUnique b) m -> mCmd m = Set_ -> mEnd m = PLife -> mBody m = Some d -> kfind d KState = Some (VState REQUESTED_STOP) -> m_state (bLife b) = REQUESTED_PAUSE ->
     handle B pred fuel hooks x b m = (b, Some (replyTo (bUnique b) m None))).
Proof.
  split.
  - intros B pred fuel hooks x b m d HC HE. unfold handle. destruct (negb (addressed b m) || negb (registered (mEnd m))); [discriminate|]. unfold callback. rewrite HE. unfold cbLife. rewrite HC.
    destruct (mBody m) as [d0|]; [|cbn; unfold reply, replyTo, withBody; cbn; intros [=]]. destruct (kfind d0 KState) as [[]|]; try (cbn; unfold reply, replyTo, withBody; cbn; intros [=]; fail).
    destruct (changeStateTo hooks (bLife b) s (thrown x)) as [l [| |]]; cbn; unfold reply, replyTo, withBody; cbn; intros [=].
  - intros B pred fuel hooks x b m d HA HC HE HB HK HS. rewrite (life_set B pred fuel hooks x b m d REQUESTED_STOP HA HC HE HB HK). unfold changeStateTo. rewrite HS. cbn [lstate_eqb orb andb isValidTransition negb fst snd]. rewrite putLife_same. reflexivity.
Qed.
Print Assumptions C158_no_confirmation_refuted.

Example C158_example :
  let m s := exMsg Set_ 4 PLife (Some [(KState, VState s)]) in
  let b1 := fst (handle exB nullPred 5 exHooks exEnv exBlk (m INITIALISED)) in
  m_state (bLife b1) = INITIALISED /\ snd (handle exB nullPred 5 exHooks exEnv exBlk (m INITIALISED)) = None
  /\ handle exB nullPred 5 exHooks exEnv exBlk (m RUNNING) = (exBlk, Some (mkMsg 1 Final 11 4 PLife None 3))
  /\ m_state (bLife (fst (handle exB nullPred 5 exHooks (mkEnv 100 101 102 true) b1 (m RUNNING)))) = ERROR.
Proof. repeat split; reflexivity. Qed.

(* ------------------------------------------------------------------ C159 *)

(** Values stored for a new context by message are read back by message, for this and any later time. *)
Theorem C159_set_then_get : forall B fuel hooks x x' b m g n t t' p k, meantFor (bName b) (bUnique b) m -> mCmd m = Set_ -> mEnd m = PCtx -> mBody m = Some (ctxRequest n (VU64 t) (VMap p)) ->
  t <> 0 -> sget (stored (bSet b)) n = None -> expiry (bSet b) = never -> convertible B p -> has k (writ B) = true ->
  meantFor (bName b) (bUnique b) g -> mCmd g = Get -> mEnd g = PCtx -> mBody g = Some (ctxRequest n (VU64 t') (VKeys [])) -> t <= t' ->
  exists failed, snd (handle B nullPred fuel hooks x b m) = Some (replyTo (bUnique b) m (Some [(KFailed, VMap failed)])) /\
  exists vals, snd (handle B nullPred fuel hooks x' (fst (handle B nullPred fuel hooks x b m)) g) = Some (replyTo (bUnique b) g (Some [(KParameters, VMap vals)])) /\
    pget vals k = match lastIn k p with Some v => conv B k v | None => pget (dflt (bSet b)) k end.
Proof.
  intros B fuel hooks x x' b m g n t t' p k HA HC HE HB Ht HN HX HV HW GA GC GE GB Hle.
  assert (QM : exists failed s', SettModel.set B nullPred fuel (bSet b) (t1 x) (t2 x) p (t, n) = (s', Some failed) /\ exists mm, vecOf s' n = [(t, mm)] /\ pget mm k = match lastIn k p with Some v => conv B k v | None => pget (dflt (bSet b)) k end).
  { unfold SettModel.set. cbn [timed fst snd]. unfold timed. cbn [fst snd]. replace (t =? 0) with false by lia.
    assert (GB0 : getBest nullPred fuel (bSet b) (t, n) = None) by (unfold getBest, findBest; cbn [fst snd]; rewrite findName_null, HN; reflexivity). rewrite GB0.
    set (s1 := ensureAuto B nullPred fuel (bSet b) (t, n)). set (au0 := match aget (autoU s1) (t, n) with Some z => z | None => [] end).
    pose proof (setLoop_result B p (dflt (bSet b)) au0 []) as SL. destruct (setLoop B p (dflt (bSet b)) au0 []) as [[[mm au] ret] ok]. rewrite (convertible_ok B p HV) in SL. destruct SL as [-> SL]. rewrite (SL eq_refl).
    set (s2 := setAuto s1 (aput (autoU s1) (t, n) au)). eexists. eexists. split; [reflexivity|]. exists (overlay B (dflt (bSet b)) p).
    assert (F : stored s2 = stored (bSet b) /\ expiry s2 = never). { destruct (ensureAuto_frame B nullPred fuel (bSet b) (t, n)) as (F1 & F2 & _). unfold s2. cbn. unfold s1. rewrite F1, F2. split; [reflexivity|exact HX]. }
    destruct F as [F1 F2]. split; [|apply overlay_get; assumption].
    destruct (ensureAuto_frame B nullPred fuel s2 (t, n)) as (A1 & A2 & _). unfold vecOf, removeExpired, addStored. cbn [fst snd]. rewrite A1, F1, HN. cbn [before from app setStored stored expiry autoU]. rewrite A2, F2.
    match goal with |- context [purgeAll ?a0 ?b0 ?c0 ?d0] => destruct (purgeAll a0 b0 c0 d0) as [l au'] eqn:EP end. cbn [setAuto setStored stored].
    pose proof (f_equal (fun z => sget (fst z) n) EP) as SP. cbv beta in SP. rewrite sget_purgeAll in SP. cbn [fst] in SP. rewrite <- SP, sget_sput, N.eqb_refl.
    unfold purge. rewrite N.eqb_refl. cbn [fst]. assert (O : forall e : entry, outdated (t2 x) [e] = 0%nat) by (intros e0; unfold outdated; cbn [from before]; destruct (fst e0 <? t2 x); [reflexivity|]; cbn; destruct (fst e0 =? t2 x); reflexivity). rewrite O. reflexivity. }
  destruct QM as (failed & s' & QS & mm & QV & QG). exists failed.
  assert (H1 : handle B nullPred fuel hooks x b m = (putSet b s', Some (replyTo (bUnique b) m (Some [(KFailed, VMap failed)])))).
  { unfold handle. apply addressed_spec in HA. rewrite HA, HE. cbn [registered negb orb]. unfold callback. rewrite HE. unfold cbCtx. rewrite HB. unfold ctxRequest, ctxName, ctxTime. cbn [kfind keyEqb]. rewrite HC. rewrite QS. unfold reply, replyTo, withBody. cbn. rewrite HE. reflexivity. }
  rewrite H1. cbn [fst snd]. split; [reflexivity|]. exists mm. split; [|exact QG].
  unfold handle. change (addressed (putSet b s') g) with (addressed b g). apply addressed_spec in GA. rewrite GA, GE. cbn [registered negb orb]. unfold callback. rewrite GE. unfold cbCtx. rewrite GB. unfold ctxRequest, ctxName, ctxTime. cbn [kfind keyEqb]. rewrite GC.
  unfold getStored. unfold timed. cbn [fst snd putSet bSet]. replace (t' =? 0) with false by lia. rewrite getBest_null; [|rewrite QV; repeat constructor|lia]. rewrite QV. unfold lookV, upTo. cbn [filter fst]. replace (t <=? t') with true by lia. cbn. unfold reply, replyTo, withBody. cbn. rewrite GE. reflexivity.
Qed.
Print Assumptions C159_set_then_get.

(** A Get that lists parameters is answered with exactly those of them that the Get of all shows. *)
Theorem C159_listed_parameters : forall B pred fuel hooks x b g n t l, meantFor (bName b) (bUnique b) g -> mCmd g = Get -> mEnd g = PCtx -> l <> [] ->
  exists all some,
    snd (handle B pred fuel hooks x b (withBody g (Some (ctxRequest n (VU64 t) (VKeys []))))) = Some (replyTo (bUnique b) g (Some [(KParameters, VMap all)])) /\
    snd (handle B pred fuel hooks x b (withBody g (Some (ctxRequest n (VU64 t) (VKeys l))))) = Some (replyTo (bUnique b) g (Some [(KParameters, VMap some)])) /\
    forall k, (In k l -> pget some k = pget all k) /\ (~ In k l -> pget some k = None).
Proof.
  intros B pred fuel hooks x b g n t l HA HC HE Hl.
  exists (match getStored pred fuel (bSet b) (t1 x) (t, n) with Some p => p | None => [] end).
  exists (match getStored pred fuel (bSet b) (t1 x) (t, n) with Some p => filter (fun e => has (fst e) l) p | None => [] end).
  apply addressed_spec in HA. split; [|split].
  - unfold handle. change (addressed b (withBody g (Some (ctxRequest n (VU64 t) (VKeys []))))) with (addressed b g). rewrite HA. cbn [withBody mEnd]. rewrite HE. cbn [registered negb orb]. unfold callback. cbn [withBody mEnd]. rewrite ?HE. unfold cbCtx. cbn [withBody mBody mCmd]. unfold ctxRequest, ctxName, ctxTime. cbn [kfind keyEqb]. rewrite HC. unfold reply, replyTo, withBody, project. cbn. rewrite ?HE. reflexivity.
  - unfold handle. change (addressed b (withBody g (Some (ctxRequest n (VU64 t) (VKeys l))))) with (addressed b g). rewrite HA. cbn [withBody mEnd]. rewrite HE. cbn [registered negb orb]. unfold callback. cbn [withBody mEnd]. rewrite ?HE. unfold cbCtx. cbn [withBody mBody mCmd]. unfold ctxRequest, ctxName, ctxTime. cbn [kfind keyEqb]. rewrite HC. unfold reply, replyTo, withBody, project. cbn. rewrite ?HE. destruct l; [congruence|reflexivity].
  - intros k. destruct (getStored pred fuel (bSet b) (t1 x) (t, n)) as [p|]; [|split; reflexivity].
    assert (Hh : has k l = true <-> In k l).
    { unfold has. rewrite existsb_exists. split; [intros (y & Hy & E); apply N.eqb_eq in E; subst; exact Hy|]. intros H. exists k. split; [exact H|apply N.eqb_refl]. }
    split; intros H; induction p as [|[k' v] p IH]; cbn [filter pget fst]; try reflexivity.
    + destruct (has k' l) eqn:E; cbn [pget]; destruct (k' =? k) eqn:Ek; try rewrite IH; try reflexivity.
      apply N.eqb_eq in Ek. subst k'. apply Hh in H. congruence.
    + destruct (has k' l) eqn:E; cbn [pget]; [|exact IH]. destruct (k' =? k) eqn:Ek; [|exact IH].
      apply N.eqb_eq in Ek. subst k'. exfalso. apply H, Hh, E.
Qed.
Print Assumptions C159_listed_parameters.

(** The default context cannot be removed. *)
Theorem C159_default_stays : forall B pred fuel hooks x b m d, meantFor (bName b) (bUnique b) m -> mCmd m = Disconnect -> mEnd m = PCtx -> mBody m = Some d -> namesCtx d 0 ->
  handle B pred fuel hooks x b m = (b, Some (replyTo (bUnique b) m None)).
Proof.
  intros B pred fuel hooks x b m d HA HC HE HB HN. unfold handle. apply addressed_spec in HA. rewrite HA, HE. cbn [registered negb orb]. unfold callback. rewrite HE. unfold cbCtx. apply ctxName_spec in HN. rewrite HB, HN, HC. cbn [N.eqb]. unfold reply, replyTo, withBody. cbn. rewrite HE. reflexivity.
Qed.
Print Assumptions C159_default_stays.

(** A request whose time or whose parameters have another type is not refused: the time counts as 0 ("now"), the parameters
    as none, and the answer reports no failure; reading a context that does not exist is answered with no values. *)
Theorem C159_wrong_types_accepted_refuted :
  (forall B pred fuel hooks x b m1 m2 n v p, (forall t, v <> VU64 t) -> mBody m1 = Some (ctxRequest n v (VMap p)) -> m2 = withBody m1 (Some (ctxRequest n (VU64 0) (VMap p))) ->
     mEnd m1 = PCtx -> mCmd m1 = Set_ -> handle B pred fuel hooks x b m1 = handle B pred fuel hooks x b m2) /\
  (forall B pred fuel hooks x b m n t v, (forall p, v <> VMap p) -> meantFor (bName b) (bUnique b) m -> mEnd m = PCtx -> mCmd m = Set_ -> mBody m = Some (ctxRequest n t v) ->
     snd (handle B pred fuel hooks x b m) = Some (replyTo (bUnique b) m (Some [(KFailed, VMap [])]))) /\
  (forall B fuel hooks x b m n t v, meantFor (bName b) (bUnique b) m -> mEnd m = PCtx -> mCmd m = Get -> mBody m = Some (ctxRequest n t v) -> sget (stored (bSet b)) n = None ->
     snd (handle B nullPred fuel hooks x b m) = Some (replyTo (bUnique b) m (Some [(KParameters, VMap [])]))).
Proof.
  split; [|split].
  - intros B pred fuel hooks x b m1 m2 n v p Hv HB -> HE HC. unfold handle. change (addressed b (withBody m1 (Some (ctxRequest n (VU64 0) (VMap p))))) with (addressed b m1). cbn [withBody mEnd]. rewrite HE. destruct (addressed b m1); [|reflexivity]. cbn [registered negb orb].
    unfold callback. cbn [mEnd withBody]. rewrite HE. unfold cbCtx. cbn [mBody mCmd withBody]. rewrite HB, HC. unfold ctxRequest, ctxName, ctxTime. cbn [kfind keyEqb].
    replace (match v with VU64 t => t | _ => 0 end) with 0 by (destruct v; try reflexivity; exfalso; eapply Hv; reflexivity).
    destruct (SettModel.set B pred fuel (bSet b) (t1 x) (t2 x) p (0, n)) as [s [r|]]; reflexivity.
  - intros B pred fuel hooks x b m n t v Hv HA HE HC HB. unfold handle. apply addressed_spec in HA. rewrite HA, HE. cbn [registered negb orb]. unfold callback. rewrite HE. unfold cbCtx. rewrite HB. unfold ctxRequest, ctxName, ctxTime. cbn [kfind keyEqb]. rewrite HC.
    replace (match v with VMap p => p | _ => [] end) with (@nil (N * N)) by (destruct v; try reflexivity; exfalso; eapply Hv; reflexivity).
    unfold SettModel.set. cbn [setLoop]. unfold reply, replyTo, withBody. cbn. rewrite HE. reflexivity.
  - intros B fuel hooks x b m n t v HA HE HC HB HN. unfold handle. apply addressed_spec in HA. rewrite HA, HE. cbn [registered negb orb]. unfold callback. rewrite HE. unfold cbCtx. rewrite HB. unfold ctxRequest, ctxName, ctxTime. cbn [kfind keyEqb]. rewrite HC.
    unfold getStored, getBest, findBest, timed. cbn [fst snd]. rewrite findName_null, HN. unfold reply, replyTo, withBody. cbn. rewrite HE. reflexivity.
Qed.
Print Assumptions C159_wrong_types_accepted_refuted.

Example C159_example :
  let m := exMsg Set_ 4 PCtx (Some (ctxRequest 30 (VU64 50) (VMap [(1, 20); (9, 9)]))) in
  let b1 := fst (handle exB nullPred 5 exHooks exEnv exBlk m) in
  snd (handle exB nullPred 5 exHooks exEnv exBlk m) = Some (mkMsg 1 Final 11 4 PCtx (Some [(KFailed, VMap [(9, 9)])]) 3)
  /\ snd (handle exB nullPred 5 exHooks exEnv b1 (exMsg Get 5 PCtx (Some (ctxRequest 30 (VU64 60) (VKeys []))))) = Some (mkMsg 1 Final 11 5 PCtx (Some [(KParameters, VMap [(1, 20); (2, 8)])]) 3)
  /\ snd (handle exB nullPred 5 exHooks exEnv b1 (exMsg Get 5 PCtx (Some (ctxRequest 30 (VU64 60) (VKeys [2; 7]))))) = Some (mkMsg 1 Final 11 5 PCtx (Some [(KParameters, VMap [(2, 8)])]) 3)
  /\ snd (handle exB nullPred 5 exHooks exEnv b1 (exMsg Disconnect 5 PCtx (Some (ctxRequest 0 (VU64 60) (VKeys []))))) = Some (mkMsg 1 Final 11 5 PCtx None 3).
Proof. repeat split; vm_compute; reflexivity. Qed.

(* ------------------------------------------------------------------ C160 *)

(** As long as there is room for the replies, every waiting message is handled once, in order, and taken from the input. *)
Theorem C160_all_handled : forall B pred fuel hooks b room inbox xs, length xs = length inbox -> (length inbox <= room)%nat ->
  exists out, processPort B pred fuel hooks b room inbox xs = (handleAll B pred fuel hooks b (combine xs inbox), out, [], true) /\ Answers (bUnique b) inbox out.
Proof.
  intros B pred fuel hooks b room inbox xs HL HR. unfold processPort. assert (LC : length (combine xs inbox) = length inbox) by (rewrite combine_length; lia).
  pose proof (process_room B pred fuel hooks (combine xs inbox) b room ltac:(lia)) as OK. destruct (process B pred fuel hooks b room (combine xs inbox)) as [[b' out] ok] eqn:E. cbn [snd] in OK. subst ok.
  destruct (process_spec B pred fuel hooks _ _ _ _ _ _ E) as (done & _ & -> & -> & D). exists out. split; [reflexivity|].
  replace (map snd (combine xs inbox)) with inbox in D; [exact D|]. clear - HL. revert inbox HL. induction xs as [|x xs IH]; intros [|m r] HL; cbn in *; try discriminate; [reflexivity|]. f_equal. apply IH. lia.
Qed.
Print Assumptions C160_all_handled.

(** When a reply finds no room, everything handled so far has taken effect and its replies are sent, but all messages are
    given back and handled again in the next round. *)
Theorem C160_given_back_refuted : forall B pred fuel hooks b room inbox xs b' out inbox', length xs = length inbox -> processPort B pred fuel hooks b room inbox xs = (b', out, inbox', false) ->
  inbox' = inbox /\ length out = room /\ exists pre x m post, combine xs inbox = pre ++ (x, m) :: post /\ b' = handleAll B pred fuel hooks b (pre ++ [(x, m)]) /\ Answers (bUnique b) (map snd pre) out.
Proof.
  intros B pred fuel hooks b room inbox xs b' out inbox' HL H. unfold processPort in H. destruct (process B pred fuel hooks b room (combine xs inbox)) as [[b1 o1] ok] eqn:E. injection H as <- <- <- ->. split; [reflexivity|].
  destruct (process_spec B pred fuel hooks _ _ _ _ _ _ E) as (done & _ & -> & pre & x & m & post & P1 & -> & P3 & P4 & _). split; [exact P3|]. exists pre, x, m, post. split; [exact P1|]. split; [reflexivity|exact P4].
Qed.
Print Assumptions C160_given_back_refuted.

(** For example: of two echo requests, with room for one reply per round, the first is answered in every round and the
    second never. *)
Theorem C160_never_answered_refuted : forall B pred fuel hooks b m1 m2 xss, meantFor (bName b) (bUnique b) m1 -> meantFor (bName b) (bUnique b) m2 -> mEnd m1 = PEcho -> mEnd m2 = PEcho -> mCmd m1 = Set_ -> mCmd m2 = Set_ ->
  Forall (fun xs => length xs = 2%nat) xss ->
  rounds B pred fuel hooks b 1 [m1; m2] xss = (b, repeat (replyTo (bUnique b) m1 (mBody m1)) (length xss), [m1; m2]).
Proof.
  intros B pred fuel hooks b m1 m2 xss A1 A2 E1 E2 C1 C2 HX.
  assert (H : forall x m, meantFor (bName b) (bUnique b) m -> mEnd m = PEcho -> mCmd m = Set_ -> handle B pred fuel hooks x b m = (b, Some (replyTo (bUnique b) m (mBody m)))).
  { intros x m HA HE HC. unfold handle. apply addressed_spec in HA. rewrite HA, HE. cbn [registered negb orb]. unfold callback. rewrite HE. unfold cbEcho. rewrite HC. reflexivity. }
  induction HX as [|xs r HL HX IH]; [reflexivity|]. destruct xs as [|x1 [|x2 [|x3 xs]]]; try discriminate HL. cbn [rounds]. unfold processPort. cbn [combine process]. rewrite (H x1 m1 A1 E1 C1). cbn [process]. rewrite (H x2 m2 A2 E2 C2). rewrite IH. reflexivity.
Qed.
Print Assumptions C160_never_answered_refuted.

Example C160_example :
  let m1 := exMsg Set_ 4 PEcho (Some [(KParam 1, VPar 2)]) in let m2 := exMsg Set_ 5 PEcho None in
  rounds exB nullPred 5 exHooks exBlk 1 [m1; m2] [[exEnv; exEnv]; [exEnv; exEnv]; [exEnv; exEnv]] = (exBlk, [replyTo 11 m1 (mBody m1); replyTo 11 m1 (mBody m1); replyTo 11 m1 (mBody m1)], [m1; m2])
  /\ snd (fst (rounds exB nullPred 5 exHooks exBlk 2 [m1; m2] [[exEnv; exEnv]])) = [replyTo 11 m1 (mBody m1); replyTo 11 m2 None].
Proof. split; reflexivity. Qed.

(* ------------------------------------------------------------------ C161 *)

Lemma applyLoop_ap B : forall ps f ap fw k, noDup ps ->
  pget (snd (fst (applyLoop B ps f ap fw))) k = match pget ps k with Some v => if acceptable B k v then Some v else pget ap k | None => pget ap k end.
Proof.
  induction ps as [|[a v] r IH]; intros f ap fw k ND; cbn [applyLoop pget]; [reflexivity|]. unfold noDup in ND. cbn [map fst] in ND. inversion ND as [|? ? NI ND' E1]; subst.
  unfold acceptable, okVal in *. destruct (N.eqb_spec a k) as [->|Hk].
  - assert (NK : pget r k = None) by (apply pget_notin; exact NI). destruct (has k (writ B)); cbn [andb]; [|rewrite IH by exact ND'; rewrite NK; reflexivity].
    destruct (holds B k v && valid B k v); rewrite IH by exact ND'; rewrite NK; [rewrite pget_pput, N.eqb_refl; reflexivity|reflexivity].
  - destruct (has a (writ B)); [|apply IH; exact ND']. destruct (holds B a v && valid B a v); rewrite IH by exact ND'; [|reflexivity]. rewrite pget_pput. destruct (N.eqb_spec a k); [congruence|]. reflexivity.
Qed.

(** When changed settings are applied, each client subscribed to Settings gets one message with the settings now active,
    each client subscribed to StagedSettings one with the values applied, if there are any; nobody else gets anything. *)
Theorem C161_told_once : forall B b c, (forall e, rising (bSubs b e)) -> noDup (staged (bSet b)) -> chg (bSet b) = true ->
  let b' := fst (applySettings B b) in let out := snd (applySettings B b) in
  about PSettings c out = (if in_dec N.eq_dec c (bSubs b PSettings) then [mkMsg 0 Notify (bUnique b) c PSettings (asBody (active (bSet b'))) 0] else []) /\
  (forall e, e <> PSettings -> e <> PStaged -> about e c out = []) /\
  ((forall k v, pget (staged (bSet b)) k = Some v -> acceptable B k v = false) -> about PStaged c out = []) /\
  ((exists k v, pget (staged (bSet b)) k = Some v /\ acceptable B k v = true) ->
   exists d, about PStaged c out = (if in_dec N.eq_dec c (bSubs b PStaged) then [mkMsg 0 Notify (bUnique b) c PStaged d 0] else []) /\
     forall k, pget (paramsOf d) k = match pget (staged (bSet b)) k with Some v => if acceptable B k v then Some v else None | None => None end).
Proof.
  intros B b c HR HN HC b' out. unfold out, b', applySettings. rewrite HC. unfold applyStaged. pose proof (applyLoop_ap B (staged (bSet b)) (fields (bSet b)) [] [] ) as AP. destruct (applyLoop B (staged (bSet b)) (fields (bSet b)) [] []) as [[f ap] fw]. cbn [fst snd] in *.
  set (s := mkS _ _ _ _ _ _ _ _ _). set (b1 := putSet b s). assert (R1 : forall e, rising (bSubs b1 e)) by exact HR. change (bSet b1) with s.
  assert (ST : forall e, about e c (match ap with [] => [] | _ => notifyAll b1 PStaged (asBody ap) end) = if endEqb PStaged e && negb (match ap with [] => true | _ => false end) then (if in_dec N.eq_dec c (bSubs b PStaged) then [mkMsg 0 Notify (bUnique b) c PStaged (asBody ap) 0] else []) else []).
  { intros e. destruct ap as [|z ap]; [rewrite andb_false_r; reflexivity|]. rewrite (about_notify b1 e _ c PStaged (R1 PStaged)). cbn [negb]. rewrite andb_true_r. change (bSubs b1 PStaged) with (bSubs b PStaged). change (bUnique b1) with (bUnique b). destruct (endEqb PStaged e); cbn [andb]; [|reflexivity]. destruct (in_dec N.eq_dec c (bSubs b PStaged)); reflexivity. }
  split; [|split; [|split]].
  - rewrite about_app, ST. cbn [endEqb andb app]. rewrite (about_notify b1 PSettings _ c PSettings (R1 PSettings)). cbn [endEqb andb]. change (bSubs b1 PSettings) with (bSubs b PSettings). destruct (in_dec N.eq_dec c (bSubs b PSettings)); reflexivity.
  - intros e N1 N2. rewrite about_app, ST, (about_notify b1 e _ c PSettings (R1 PSettings)). destruct (endEqb_spec PStaged e); [congruence|]. destruct (endEqb_spec PSettings e); [congruence|]. reflexivity.
  - intros HA. rewrite about_app, ST, (about_notify b1 PStaged _ c PSettings (R1 PSettings)). cbn [endEqb andb]. rewrite app_nil_r. destruct ap as [|[k v] ap]; [reflexivity|]. specialize (AP k HN). cbn [pget] in AP. rewrite N.eqb_refl in AP.
    destruct (pget (staged (bSet b)) k) as [w|] eqn:EW; [|discriminate]. rewrite (HA k w EW) in AP. discriminate.
  - intros (k & v & K1 & K2). exists (asBody ap). split.
    + rewrite about_app, ST, (about_notify b1 PStaged _ c PSettings (R1 PSettings)). cbn [endEqb andb]. rewrite app_nil_r. destruct ap; [specialize (AP k HN); rewrite K1, K2 in AP; discriminate|]. reflexivity.
    + intros k'. rewrite params_asBody, AP by exact HN. reflexivity.
Qed.
Print Assumptions C161_told_once.

(** Nothing is sent when nothing has changed. *)
Theorem C161_quiet : forall B b, chg (bSet b) = false -> applySettings B b = (b, []).
Proof. intros B b H. unfold applySettings. rewrite H. reflexivity. Qed.
Print Assumptions C161_quiet.

(** A client may subscribe to LifecycleState, MetaInformation and UiConstraints, and is never notified, whatever happens to
    the block. *)
Theorem C161_never_told_refuted : forall B pred fuel hooks b c e acts x m, e = PLife \/ e = PMeta \/ e = PUi ->
  meantFor (bName b) (bUnique b) m -> mCmd m = Subscribe -> mEnd m = e -> mClient m = c -> c <> 0 ->
  let b1 := fst (handle B pred fuel hooks x b m) in
  snd (handle B pred fuel hooks x b m) = None /\ In c (bSubs b1 e) /\ about e c (snd (actRun B pred fuel hooks b1 acts)) = [].
Proof.
  intros B pred fuel hooks b c e acts x m He HA HC HE HM Hc b1. split; [|split].
  - unfold handle. apply addressed_spec in HA. rewrite HA. cbn [negb orb]. unfold callback. subst e. destruct He as [He|[He|He]]; rewrite He; cbn [registered negb]; [unfold cbLife|unfold cbMeta|unfold cbUi]; rewrite HC; reflexivity.
  - unfold b1. rewrite handle_subs. apply addressed_spec in HA. rewrite HA. unfold subsAfter. rewrite HE, endEqb_refl, HC, HM. assert (SE : subscribable e = true) by (destruct He as [He|[He|He]]; rewrite He; reflexivity). rewrite SE. cbn [andb]. apply N.eqb_neq in Hc. rewrite Hc. apply (setIns_In pred). left; reflexivity.
  - destruct (about e c (snd (actRun B pred fuel hooks b1 acts))) as [|z r] eqn:E; [reflexivity|]. assert (I1 : In z (about e c (snd (actRun B pred fuel hooks b1 acts)))) by (rewrite E; left; reflexivity).
    unfold about in I1. apply filter_In in I1 as [I1 I2]. apply andb_prop in I2 as [I2 I3]. apply andb_prop in I2 as [I2 _]. destruct (endEqb_spec (mEnd z) e) as [Z|]; [|discriminate].
    assert (T := actRun_told B pred fuel hooks acts b1 z I1 ltac:(destruct (mCmd z); try discriminate; reflexivity)). rewrite Z in T. destruct He as [-> | [-> | ->]]; discriminate T.
Qed.
Print Assumptions C161_never_told_refuted.

Lemma removeExpired_chg s now : chg (removeExpired s now) = chg s.
Proof. unfold removeExpired. destruct (purgeAll (expiry s) now (stored s) (autoU s)). reflexivity. Qed.

(** A reset to the defaults by message changes settings, is not answered, and nobody is told then or later. *)
Theorem C161_reset_untold_refuted :
  (forall B pred fuel hooks x b m, meantFor (bName b) (bUnique b) m -> mCmd m = Set_ -> mEnd m = PReset ->
     snd (handle B pred fuel hooks x b m) = None /\ let b1 := fst (handle B pred fuel hooks x b m) in applySettings B b1 = (b1, [])) /\
  (exists B pred fuel hooks x b m, meantFor (bName b) (bUnique b) m /\ mCmd m = Set_ /\ mEnd m = PReset /\ bSubs b PSettings = [4] /\
     active (bSet b) = [(1, 20)] /\ active (bSet (fst (handle B pred fuel hooks x b m))) = [(1, 7)]).
Proof.
  split.
  - intros B pred fuel hooks x b m HA HC HE.
    assert (Q : handle B pred fuel hooks x b m = (putSet b (resetDefaults B pred fuel (bSet b) (t1 x) (t2 x) (t3 x)), None)).
    { unfold handle. apply addressed_spec in HA. rewrite HA, HE. cbn [registered negb orb]. unfold callback. rewrite HE. unfold cbReset. rewrite HC. reflexivity. }
    rewrite Q. split; [reflexivity|]. cbn [fst]. apply C161_quiet. cbn [putSet bSet]. unfold resetDefaults. destruct (applyStaged B _) as [[s3 ap] fw] eqn:E. rewrite removeExpired_chg. unfold applyStaged in E. destruct (applyLoop B _ _ [] []) as [[f a] w]. injection E as <- _ _. reflexivity.
  - exists exB, nullPred, 5%nat, exHooks, exEnv, (mkBlk 10 11 (fun e => if endEqb e PSettings then [4] else []) machine_init (mkS [(0, [(50, [(1, 20)])])] [((50, 0), [])] [(1, 7)] [] [(1, 20)] [(1, 20)] (50, 0) false never) [] []), (exMsg Set_ 4 PReset None).
    split; [right; left; reflexivity|]. repeat split; vm_compute; reflexivity.
Qed.
Print Assumptions C161_reset_untold_refuted.

Example C161_example :
  let b0 := fst (handle exB nullPred 5 exHooks exEnv exBlk (exMsg Subscribe 4 PSettings None)) in
  let b1 := fst (handle exB nullPred 5 exHooks exEnv b0 (exMsg Set_ 4 PSettings (asBody [(1, 20); (2, 60)]))) in
  chg (bSet b1) = true /\ snd (applySettings exB b1) = [mkMsg 0 Notify 11 4 PSettings (asBody [(1, 20); (2, 8)]) 0]
  /\ acceptable exB 1 20 = true /\ acceptable exB 2 60 = false.
Proof. repeat split; reflexivity. Qed.
