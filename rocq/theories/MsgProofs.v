(** Proofs about the message interface. *)
From Coq Require Import List NArith Arith Lia Bool Sorting.Sorted ZifyBool ZifyN.
From Verif Require Import Base LifecycleModel LifecycleSpec SettModel SettSpec SettProofs SettRunProofs SettHistProofs MsgModel MsgSpec.
Import ListNotations.
Local Open Scope N_scope.

Lemma endEqb_spec a b : reflect (a = b) (endEqb a b).
Proof.
  destruct a, b; cbn [endEqb]; try (constructor; reflexivity); try (constructor; discriminate).
  destruct (N.eqb_spec n n0) as [->|H]; constructor; [reflexivity|congruence].
Qed.

Lemma endEqb_refl a : endEqb a a = true.
Proof. destruct (endEqb_spec a a); [reflexivity|congruence]. Qed.

Lemma addressed_spec b m : addressed b m = true <-> meantFor (bName b) (bUnique b) m.
Proof. unfold addressed, meantFor. lia. Qed.

(** ** What the callbacks leave alone *)

Definition ids (m : msg) : N * N * endp * N := (mProto m, mClient m, mEnd m, mRbac m).
Definition names (b : blk) : N * N := (bName b, bUnique b).

Section Block.
Variable B : bdesc.
Variable pred : N -> N -> N -> option bool.
Variable fuel : nat.
Variable hooks : hooks_present.

Notation callback := (callback B pred fuel hooks).
Notation handle := (handle B pred fuel hooks).
Notation process := (process B pred fuel hooks).
Notation handleAll := (handleAll B pred fuel hooks).

Lemma subscribe_names b e c : names (subscribe b e c) = names b.
Proof. unfold subscribe. destruct (c =? 0); reflexivity. Qed.

Lemma staged_names b m b' r : cbStaged B b m = (b', r) -> names b' = names b /\ (forall a, r = RMsg a -> ids a = ids m) /\ bLife b' = bLife b.
Proof.
  unfold cbStaged. intros H. destruct (mCmd m); try (injection H as <- <-; split; [reflexivity|split; [intros a [=]|reflexivity]]; fail).
  - injection H as <- <-. split; [reflexivity|]. split; [intros a [= <-]; reflexivity|reflexivity].
  - destruct (mBody m) as [d|]; [|injection H as <- <-; split; [reflexivity|split; [intros a [=]|reflexivity]]].
    destruct (setStaged B (bSet b) (params d)) as [s [[|x l]|]]; injection H as <- <-; (split; [reflexivity|]); (split; [|reflexivity]); intros a Ha; try discriminate.
    destruct (mClient m =? 0); [discriminate|]. injection Ha as <-. reflexivity.
  - injection H as <- <-. split; [apply subscribe_names|]. split; [intros a [=]|]. unfold subscribe. destruct (mClient m =? 0); reflexivity.
Qed.

Lemma drop_names b m b' r : dropAnswer (cbStaged B b m) = (b', r) -> names b' = names b /\ (forall a, r = RMsg a -> ids a = ids m).
Proof.
  destruct (cbStaged B b m) as [b1 r1] eqn:E. destruct (staged_names b m b1 r1 E) as (H1 & H2 & _). destruct r1; cbn [dropAnswer]; intros [= <- <-]; (split; [exact H1|intros a [=]]).
Qed.

Lemma callback_names x b m b' r : callback x b m = (b', r) -> names b' = names b /\ (forall a, r = RMsg a -> ids a = ids m).
Proof.
  assert (T1 : forall (a0 : blk) (r0 : ret) , (a0, r0) = (b', r) -> names a0 = names b -> (forall a, r0 = RMsg a -> ids a = ids m) -> names b' = names b /\ (forall a, r = RMsg a -> ids a = ids m)) by (intros a0 r0 [= <- <-] Q1 Q2; split; assumption).
  assert (T2 : forall a : msg, RThrow = RMsg a -> ids a = ids m) by (intros a [=]). assert (T3 : forall a : msg, RNone = RMsg a -> ids a = ids m) by (intros a [=]).
  assert (T4 : forall d (a : msg), RMsg (withBody m d) = RMsg a -> ids a = ids m) by (intros d a [= <-]; reflexivity). assert (T5 : forall (a : msg), RMsg m = RMsg a -> ids a = ids m) by (intros a [= <-]; reflexivity).
  unfold MsgModel.callback. destruct (mEnd m); intros H.
  - unfold cbHeartbeat in H. destruct (mCmd m); apply T1 in H; eauto using subscribe_names.
  - unfold cbEcho in H. destruct (mCmd m); apply T1 in H; eauto using subscribe_names.
  - unfold cbLife in H. destruct (mCmd m); try (apply T1 in H; eauto using subscribe_names; fail).
    destruct (mBody m) as [d|]; [|apply T1 in H; eauto using subscribe_names]. destruct (kfind d KState) as [v|]; [|apply T1 in H; eauto using subscribe_names].
    destruct v; try (apply T1 in H; eauto using subscribe_names; fail). destruct (changeStateTo hooks (bLife b) s (thrown x)) as [l [| |]]; apply T1 in H; eauto using subscribe_names.
  - unfold cbSettings in H. destruct (mCmd m); try (apply T1 in H; eauto using subscribe_names; fail); exact (drop_names b m b' r H).
  - destruct (staged_names b m b' r H) as (A & C & _). split; assumption.
  - unfold cbStore in H. destruct (mCmd m); apply T1 in H; eauto using subscribe_names.
  - unfold cbReset in H. destruct (mCmd m); apply T1 in H; eauto using subscribe_names.
  - unfold cbActive in H. destruct (mCmd m); try (apply T1 in H; eauto using subscribe_names; fail).
    destruct (mBody m) as [d|]; [|apply T1 in H; eauto using subscribe_names]. destruct (ctxName d) as [n|]; [|apply T1 in H; eauto using subscribe_names]. destruct (activate B pred fuel (bSet b) (t1 x) (ctxTime d, n)) as [s [[c|]|]]; apply T1 in H; eauto using subscribe_names.
  - unfold cbCtx in H. destruct (mBody m) as [d|]; [|apply T1 in H; eauto using subscribe_names]. destruct (ctxName d) as [n|]; [|apply T1 in H; eauto using subscribe_names]. destruct (mCmd m); try (apply T1 in H; eauto using subscribe_names; fail).
    + destruct (SettModel.set B pred fuel (bSet b) (t1 x) (t2 x) _ _) as [s [z|]]; apply T1 in H; eauto using subscribe_names.
    + destruct (n =? 0); [apply T1 in H; eauto using subscribe_names|]. destruct (removeContext B pred fuel (bSet b) (t1 x) (t2 x) (ctxTime d, n)) as [s [|]]; apply T1 in H; eauto using subscribe_names.
  - unfold cbContexts in H. destruct (mCmd m); apply T1 in H; eauto using subscribe_names.
  - unfold cbMeta in H. destruct (mCmd m); apply T1 in H; eauto using subscribe_names.
  - unfold cbUi in H. destruct (mCmd m); try (apply T1 in H; eauto using subscribe_names; fail); exact (drop_names b m b' r H).
  - apply T1 in H; eauto using subscribe_names.
Qed.

Lemma handle_spec x b m b' o : handle x b m = (b', o) -> names b' = names b /\ (forall a, o = Some a -> exists d, a = replyTo (bUnique b) m d).
Proof.
  unfold MsgModel.handle. destruct (negb (addressed b m) || negb (registered (mEnd m))); [intros [= <- <-]; split; [reflexivity|intros a [=]]|].
  destruct (callback x b m) as [b1 r] eqn:E. destruct (callback_names x b m b1 r E) as [A C]. assert (U : bUnique b1 = bUnique b) by (injection A; auto).
  destruct r as [|a|]; intros [= <- <-]; (split; [exact A|]); intros z Hz; try discriminate.
  - injection Hz as <-. specialize (C a eq_refl). unfold ids in C. injection C as C1 C2 C3 C4. exists (mBody a). unfold reply, replyTo. rewrite C1, C2, C3, C4, U. reflexivity.
  - injection Hz as <-. exists None. unfold reply, replyTo, withBody. cbn. rewrite U. reflexivity.
Qed.

Lemma handle_names x b m : names (fst (handle x b m)) = names b.
Proof. destruct (handle x b m) as [b' o] eqn:E. exact (proj1 (handle_spec x b m b' o E)). Qed.

Lemma process_spec l : forall b room b' out ok, process b room l = (b', out, ok) ->
  exists done, Answers (bUnique b) (map snd done) out /\ b' = handleAll b done /\
    (if ok then done = l /\ Answers (bUnique b) (map snd l) out else exists pre x m post, l = pre ++ (x, m) :: post /\ done = pre ++ [(x, m)] /\ length out = room /\ Answers (bUnique b) (map snd pre) out /\ snd (handle x (handleAll b pre) m) <> None).
Proof.
  induction l as [|[x m] r IH]; intros b room b' out ok H; cbn [MsgModel.process] in H.
  - injection H as <- <- <-. exists []. split; [constructor|]. split; [reflexivity|]. split; [reflexivity|constructor].
  - destruct (handle x b m) as [b1 o] eqn:E. destruct (handle_spec x b m b1 o E) as [N1 N2]. assert (U : bUnique b1 = bUnique b) by (injection N1; auto).
    assert (F : fst (handle x b m) = b1) by (rewrite E; reflexivity).
    destruct o as [a|].
    + destruct (N2 a eq_refl) as [d ->]. destruct room as [|k].
      * injection H as <- <- <-. exists [(x, m)]. split; [constructor; constructor|]. split; [unfold MsgSpec.handleAll; cbn; rewrite F; reflexivity|].
        exists [], x, m, r. split; [reflexivity|]. split; [reflexivity|]. split; [reflexivity|]. split; [constructor|]. cbn. rewrite E. discriminate.
      * destruct (process b1 k r) as [[b2 o2] ok2] eqn:E2. injection H as <- <- <-. destruct (IH b1 k b2 o2 ok2 E2) as (done & D1 & D2 & D3). rewrite U in *.
        exists ((x, m) :: done). split; [cbn [map snd]; apply ans_one; exact D1|]. split; [unfold MsgSpec.handleAll; cbn; rewrite F; exact D2|].
        destruct ok2.
        -- destruct D3 as [-> D3]. split; [reflexivity|]. cbn [map snd]. apply ans_one. exact D3.
        -- destruct D3 as (pre & y & n & post & P1 & P2 & P3 & P4 & P5). exists ((x, m) :: pre), y, n, post. split; [rewrite P1; reflexivity|]. split; [rewrite P2; reflexivity|]. split; [cbn [length]; congruence|].
           split; [cbn [map snd]; apply ans_one; exact P4|]. unfold MsgSpec.handleAll in *. cbn [fold_left fst snd]. rewrite F. exact P5.
    + destruct (IH b1 room b' out ok H) as (done & D1 & D2 & D3). rewrite U in *. exists ((x, m) :: done). split; [cbn [map snd]; apply ans_none; exact D1|].
      split; [unfold MsgSpec.handleAll; cbn; rewrite F; exact D2|]. destruct ok.
      * destruct D3 as [-> D3]. split; [reflexivity|]. cbn [map snd]. apply ans_none. exact D3.
      * destruct D3 as (pre & y & n & post & P1 & P2 & P3 & P4 & P5). exists ((x, m) :: pre), y, n, post. split; [rewrite P1; reflexivity|]. split; [rewrite P2; reflexivity|]. split; [exact P3|].
        split; [cbn [map snd]; apply ans_none; exact P4|]. unfold MsgSpec.handleAll in *. cbn [fold_left fst snd]. rewrite F. exact P5.
Qed.

Lemma process_room l : forall b room, (length l <= room)%nat -> snd (process b room l) = true.
Proof.
  induction l as [|[x m] r IH]; intros b room H; cbn [MsgModel.process length] in *; [reflexivity|]. destruct (handle x b m) as [b1 [a|]]; [|apply IH; lia].
  destruct room as [|k]; [lia|]. specialize (IH b1 k ltac:(lia)). destruct (process b1 k r) as [[b2 o2] ok2]. exact IH.
Qed.

(** ** Subscriptions *)

Lemma setIns_In c l y : In y (setIns c l) <-> y = c \/ In y l.
Proof.
  induction l as [|x r IH]; cbn [setIns]; [cbn; intuition|]. destruct (N.eqb_spec c x) as [->|H]; [cbn; intuition|]. destruct (c <? x); [cbn; intuition|]. cbn [In]. rewrite IH. intuition.
Qed.

Lemma setIns_rising c l : rising l -> rising (setIns c l).
Proof.
  induction l as [|x r IH]; intros H; cbn [setIns]; [cbn; split; [intros y []|exact I]|]. destruct H as [H1 H2]. destruct (N.eqb_spec c x) as [->|Hn]; [split; assumption|].
  destruct (N.ltb_spec c x) as [L|L].
  - split; [|split; assumption]. intros y [<-|Hy]; [exact L|specialize (H1 y Hy); lia].
  - split; [|exact (IH H2)]. intros y Hy. apply setIns_In in Hy as [->|Hy]; [lia|exact (H1 y Hy)].
Qed.

Lemma setDel_In c l y : In y (setDel c l) <-> In y l /\ y <> c.
Proof. unfold setDel. rewrite filter_In, negb_true_iff, N.eqb_neq. reflexivity. Qed.

Lemma setDel_rising c l : rising l -> rising (setDel c l).
Proof.
  induction l as [|x r IH]; intros H; [exact I|]. destruct H as [H1 H2]. unfold setDel in *. cbn [filter]. destruct (negb (x =? c)); [|exact (IH H2)].
  split; [|exact (IH H2)]. intros y Hy. apply filter_In in Hy as [Hy _]. exact (H1 y Hy).
Qed.

(** One callback's effect on the subscriptions. *)
Lemma staged_subs b m b' r e : cbStaged B b m = (b', r) -> mCmd m <> Subscribe -> mCmd m <> Unsubscribe -> bSubs b' e = bSubs b e.
Proof.
  unfold cbStaged. intros H A C. destruct (mCmd m); try congruence; try (injection H as <- <-; reflexivity).
  destruct (mBody m) as [d|]; [|injection H as <- <-; reflexivity]. destruct (setStaged B (bSet b) (params d)) as [s [[|z l]|]]; injection H as <- <-; reflexivity.
Qed.

Definition subsAfter (e : endp) (m : msg) (old : list N) : list N :=
  if endEqb e (mEnd m) && subscribable e then
    match mCmd m with Subscribe => if mClient m =? 0 then old else setIns (mClient m) old | Unsubscribe => setDel (mClient m) old | _ => old end
  else old.

Lemma subscribe_subs b p c e : bSubs (subscribe b p c) e = if endEqb e p then (if c =? 0 then bSubs b e else setIns c (bSubs b e)) else bSubs b e.
Proof. unfold subscribe. destruct (c =? 0); cbn; destruct (endEqb_spec e p) as [->|]; reflexivity. Qed.

Lemma unsubscribe_subs b p c e : bSubs (unsubscribe b p c) e = if endEqb e p then setDel c (bSubs b e) else bSubs b e.
Proof. unfold unsubscribe. cbn. destruct (endEqb_spec e p) as [->|]; reflexivity. Qed.

Lemma callback_subs x b m b' r e : callback x b m = (b', r) -> bSubs b' e = subsAfter e m (bSubs b e).
Proof.
  unfold MsgModel.callback, subsAfter. intros H.
  assert (SAME2 : forall (q : bool) z, z = bSubs b e -> z = (if q then bSubs b e else bSubs b e)) by (intros [|] z Hz; exact Hz).
  assert (SAME : forall p (c : list N) z, takes p Subscribe = false -> z = bSubs b e -> z = (if endEqb e p && subscribable e then c else bSubs b e)).
  { intros p c z Q ->. destruct (endEqb_spec e p) as [->|]; [|reflexivity]. unfold subscribable. rewrite Q. reflexivity. }
  destruct (mEnd m) as [ | | | | | | | | | | | |n] eqn:Ep.
  - unfold cbHeartbeat in H. destruct (mCmd m) eqn:Ec; injection H as <- <-; try (apply SAME2; reflexivity).
    + rewrite subscribe_subs. destruct (endEqb_spec e PHeartbeat) as [->|]; reflexivity.
    + rewrite unsubscribe_subs. destruct (endEqb_spec e PHeartbeat) as [->|]; reflexivity.
  - unfold cbEcho in H. apply (SAME PEcho); [reflexivity|]. destruct (mCmd m); injection H as <- <-; reflexivity.
  - unfold cbLife in H. destruct (mCmd m) eqn:Ec; try (injection H as <- <-; apply SAME2; reflexivity).
    + apply SAME2. destruct (mBody m) as [d|]; [|injection H as <- <-; reflexivity]. destruct (kfind d KState) as [v|]; [|injection H as <- <-; reflexivity].
      destruct v; try (injection H as <- <-; reflexivity). destruct (changeStateTo hooks (bLife b) s (thrown x)) as [l [| |]]; injection H as <- <-; reflexivity.
    + injection H as <- <-. rewrite subscribe_subs. destruct (endEqb_spec e PLife) as [->|]; reflexivity.
    + injection H as <- <-. rewrite unsubscribe_subs. destruct (endEqb_spec e PLife) as [->|]; reflexivity.
  - unfold cbSettings in H. destruct (mCmd m) eqn:Ec; try (injection H as <- <-; apply SAME2; reflexivity).
    + apply SAME2. destruct (cbStaged B b m) as [b1 r1] eqn:E1. pose proof (staged_subs b m b1 r1 e E1 ltac:(congruence) ltac:(congruence)) as Q. destruct r1; injection H as <- <-; exact Q.
    + injection H as <- <-. rewrite subscribe_subs. destruct (endEqb_spec e PSettings) as [->|]; reflexivity.
    + injection H as <- <-. rewrite unsubscribe_subs. destruct (endEqb_spec e PSettings) as [->|]; reflexivity.
  - destruct (mCmd m) eqn:Ec; try (apply SAME2; apply (staged_subs b m b' r e H); congruence).
    + unfold cbStaged in H. rewrite Ec in H. injection H as <- <-. rewrite subscribe_subs. destruct (endEqb_spec e PStaged) as [->|]; reflexivity.
    + unfold cbStaged in H. rewrite Ec in H. injection H as <- <-. rewrite unsubscribe_subs. destruct (endEqb_spec e PStaged) as [->|]; reflexivity.
  - unfold cbStore in H. apply (SAME PStore); [reflexivity|]. destruct (mCmd m); injection H as <- <-; reflexivity.
  - unfold cbReset in H. apply (SAME PReset); [reflexivity|]. destruct (mCmd m); injection H as <- <-; reflexivity.
  - unfold cbActive in H. apply (SAME PActive); [reflexivity|]. destruct (mCmd m); try (injection H as <- <-; reflexivity).
    destruct (mBody m) as [d|]; [|injection H as <- <-; reflexivity]. destruct (ctxName d) as [n|]; [|injection H as <- <-; reflexivity]. destruct (activate B pred fuel (bSet b) (t1 x) (ctxTime d, n)) as [s [[c|]|]]; injection H as <- <-; reflexivity.
  - unfold cbCtx in H. apply (SAME PCtx); [reflexivity|]. destruct (mBody m) as [d|]; [|injection H as <- <-; reflexivity]. destruct (ctxName d) as [n|]; [|injection H as <- <-; reflexivity].
    destruct (mCmd m); try (injection H as <- <-; reflexivity).
    + destruct (SettModel.set B pred fuel (bSet b) (t1 x) (t2 x) _ _) as [s [z|]]; injection H as <- <-; reflexivity.
    + destruct (n =? 0); [injection H as <- <-; reflexivity|]. destruct (removeContext B pred fuel (bSet b) (t1 x) (t2 x) (ctxTime d, n)) as [s [|]]; injection H as <- <-; reflexivity.
  - unfold cbContexts in H. apply (SAME PContexts); [reflexivity|]. destruct (mCmd m); injection H as <- <-; reflexivity.
  - unfold cbMeta in H. destruct (mCmd m) eqn:Ec; try (injection H as <- <-; apply SAME2; reflexivity).
    + injection H as <- <-. rewrite subscribe_subs. destruct (endEqb_spec e PMeta) as [->|]; reflexivity.
    + injection H as <- <-. rewrite unsubscribe_subs. destruct (endEqb_spec e PMeta) as [->|]; reflexivity.
  - unfold cbUi in H. destruct (mCmd m) eqn:Ec; try (injection H as <- <-; apply SAME2; reflexivity).
    + apply SAME2. destruct (cbStaged B b m) as [b1 r1] eqn:E1. pose proof (staged_subs b m b1 r1 e E1 ltac:(congruence) ltac:(congruence)) as Q. destruct r1; injection H as <- <-; exact Q.
    + injection H as <- <-. rewrite subscribe_subs. destruct (endEqb_spec e PUi) as [->|]; reflexivity.
    + injection H as <- <-. rewrite unsubscribe_subs. destruct (endEqb_spec e PUi) as [->|]; reflexivity.
  - injection H as <- <-. apply (SAME (POther n)); [reflexivity|reflexivity].
Qed.

Lemma handle_subs x b m e : bSubs (fst (handle x b m)) e = if addressed b m then subsAfter e m (bSubs b e) else bSubs b e.
Proof.
  unfold MsgModel.handle. destruct (addressed b m); cbn [negb orb]; [|reflexivity]. destruct (registered (mEnd m)) eqn:R; cbn [negb].
  - destruct (callback x b m) as [b1 r] eqn:E. pose proof (callback_subs x b m b1 r e E) as Q. destruct r; exact Q.
  - cbn [fst]. unfold subsAfter. destruct (endEqb_spec e (mEnd m)) as [->|]; [|reflexivity]. destruct (mEnd m); try discriminate. reflexivity.
Qed.

Lemma wants_spec l : forall b e c, rising (bSubs b e) -> rising (bSubs (handleAll b l) e) /\ (c <> 0 ->
  (In c (bSubs (handleAll b l) e) <-> wants (bName b) (bUnique b) e c (if in_dec N.eq_dec c (bSubs b e) then true else false) (map snd l) = true)) /\ (~ In 0 (bSubs b e) -> ~ In 0 (bSubs (handleAll b l) e)).
Proof.
  induction l as [|[x m] r IH]; intros b e c HR; cbn [map wants].
  - unfold MsgSpec.handleAll. cbn [fold_left]. split; [exact HR|]. split; [|intros Z; exact Z]. intros _. destruct (in_dec N.eq_dec c (bSubs b e)); intuition discriminate.
  - set (b1 := fst (handle x b m)). assert (N1 : names b1 = names b) by apply handle_names. unfold names in N1. injection N1 as N1 N2. pose proof (handle_subs x b m e) as HS. fold b1 in HS.
    assert (SA : forall old, rising old -> rising (subsAfter e m old)).
    { intros old Ho. unfold subsAfter. destruct (endEqb e (mEnd m) && subscribable e); [|exact Ho]. destruct (mCmd m); try exact Ho; [|apply setDel_rising; exact Ho]. destruct (mClient m =? 0); [exact Ho|]. apply setIns_rising; exact Ho. }
    assert (R1 : rising (bSubs b1 e)) by (rewrite HS; destruct (addressed b m); [apply SA|]; exact HR).
    destruct (IH b1 e c R1) as (A1 & A2 & A3). change (handleAll b ((x, m) :: r)) with (handleAll b1 r). split; [exact A1|]. split.
    + intros Hc. rewrite (A2 Hc), N1, N2. cbn [snd].
      assert (Q : (if in_dec N.eq_dec c (bSubs b1 e) then true else false) =
        (if ((mService m =? 0) || (mService m =? bUnique b) || (mService m =? bName b)) && endEqb (mEnd m) e && (mClient m =? c) && subscribable e && negb (c =? 0)
         then match mCmd m with Subscribe => true | Unsubscribe => false | _ => (if in_dec N.eq_dec c (bSubs b e) then true else false) end else (if in_dec N.eq_dec c (bSubs b e) then true else false))).
      { change ((mService m =? 0) || (mService m =? bUnique b) || (mService m =? bName b)) with (addressed b m). rewrite HS. destruct (addressed b m); cbn [andb]; [|reflexivity].
        unfold subsAfter. destruct (endEqb_spec e (mEnd m)) as [->|Hne].
        2:{ destruct (endEqb_spec (mEnd m) e) as [Q|]; [congruence|]. reflexivity. }
        rewrite endEqb_refl. cbn [andb]. destruct (subscribable (mEnd m)); cbn [andb]; [|rewrite !andb_false_r; reflexivity]. rewrite !andb_true_r.
        assert (Z : (c =? 0) = false) by lia. rewrite Z. cbn [negb]. rewrite andb_true_r.
        destruct (mCmd m); try (destruct (mClient m =? c); reflexivity).
        - destruct (N.eqb_spec (mClient m) 0) as [E0|E0]; [destruct (N.eqb_spec (mClient m) c); [lia|reflexivity]|].
          destruct (N.eqb_spec (mClient m) c) as [->|Ec]; [destruct (in_dec N.eq_dec c (setIns c (bSubs b (mEnd m)))) as [I1|I1]|destruct (in_dec N.eq_dec c (setIns (mClient m) (bSubs b (mEnd m)))) as [I1|I1]].
          + reflexivity.
          + destruct I1. apply setIns_In. left. reflexivity.
          + apply setIns_In in I1 as [I1|I1]; [congruence|]. destruct (in_dec N.eq_dec c (bSubs b (mEnd m))); [reflexivity|contradiction].
          + destruct (in_dec N.eq_dec c (bSubs b (mEnd m))) as [I2|I2]; [|reflexivity]. destruct I1. apply setIns_In. right. exact I2.
        - destruct (N.eqb_spec (mClient m) c) as [->|Ec]; [destruct (in_dec N.eq_dec c (setDel c (bSubs b (mEnd m)))) as [I1|I1]|destruct (in_dec N.eq_dec c (setDel (mClient m) (bSubs b (mEnd m)))) as [I1|I1]].
          + apply setDel_In in I1 as [_ I1]. congruence.
          + reflexivity.
          + apply setDel_In in I1 as [I1 _]. destruct (in_dec N.eq_dec c (bSubs b (mEnd m))); [reflexivity|contradiction].
          + destruct (in_dec N.eq_dec c (bSubs b (mEnd m))) as [I2|I2]; [|reflexivity]. destruct I1. apply setDel_In. split; [exact I2|congruence]. }
      rewrite Q. reflexivity.
    + intros H0. apply A3. rewrite HS. destruct (addressed b m); [|exact H0]. unfold subsAfter. destruct (endEqb e (mEnd m) && subscribable e); [|exact H0]. destruct (mCmd m); try exact H0.
      * destruct (N.eqb_spec (mClient m) 0); [exact H0|]. intros Z. apply setIns_In in Z as [Z|Z]; [congruence|exact (H0 Z)].
      * intros Z. apply setDel_In in Z as [Z _]. exact (H0 Z).
Qed.

(** ** Parameters in bodies *)

Lemma params_asBody p : paramsOf (asBody p) = p.
Proof. unfold paramsOf, asBody. induction p as [|[k v] r IH]; [reflexivity|]. cbn [map params flat_map fst snd app] in *. f_equal. exact IH. Qed.

(** Staging when everything is a writable member. *)
Lemma stageLoop_none : forall ps stg, (forall k v, In (k, v) ps -> has k (writ B) = true /\ conv B k v <> None) -> exists stg', stageLoop B ps stg [] = (stg', Some []).
Proof.
  induction ps as [|[k v] r IH]; intros stg H; cbn [stageLoop]; [exists stg; reflexivity|]. destruct (H k v (or_introl eq_refl)) as [H1 H2]. rewrite H1. destruct (conv B k v) as [v'|]; [|congruence].
  apply IH. intros k' v'' Hi. exact (H k' v'' (or_intror Hi)).
Qed.

Lemma pput_nonempty m k v : pput m k v <> [].
Proof. destruct m as [|[a b] r]; cbn [pput]; [discriminate|]. destruct (a =? k); discriminate. Qed.

(** A name that is not a member is reported. *)
Lemma stageLoop_reported k0 v0 : has k0 (writ B) = false -> forall ps stg ret stg' ret', (In (k0, v0) ps \/ ret <> []) -> stageLoop B ps stg ret = (stg', Some ret') -> ret' <> [].
Proof.
  intros H0. induction ps as [|[k v] r IH]; intros stg ret stg' ret' Hi H; cbn [stageLoop] in H.
  - injection H as <- <-. destruct Hi as [[]|Hi]. exact Hi.
  - destruct (has k (writ B)) eqn:E.
    + destruct (conv B k v); [|discriminate]. apply (IH _ _ _ _) in H; [exact H|]. destruct Hi as [[Hi|Hi]|Hi]; [congruence|left; exact Hi|right; exact Hi].
    + apply (IH _ _ _ _) in H; [exact H|]. right. apply pput_nonempty.
Qed.

Lemma applySettings_get b k v : noDup (staged (bSet b)) -> noDup (fields (bSet b)) -> chg (bSet b) = true -> has k (writ B) = true -> okVal B k v = true -> pget (staged (bSet b)) k = Some v ->
  pget (active (bSet (fst (applySettings B b)))) k = Some v /\ pget (fields (bSet (fst (applySettings B b)))) k = Some v.
Proof.
  intros N1 N2 C W O P. unfold applySettings. rewrite C. unfold applyStaged. pose proof (applyLoop_get B (staged (bSet b)) (fields (bSet b)) [] [] k N1) as G. pose proof (applyLoop_noDup B (staged (bSet b)) (fields (bSet b)) [] [] N2) as D.
  destruct (applyLoop B (staged (bSet b)) (fields (bSet b)) [] []) as [[f ap] fw]. cbn [fst snd] in *. cbn [putSet bSet active fields]. rewrite P, W, O in G. cbn [andb] in G. split; [|exact G]. rewrite pget_pputAll by exact D. rewrite G. reflexivity.
Qed.

End Block.

(** ** Notifications *)

Lemma about_notify b e d c p : rising (bSubs b p) -> about e c (notifyAll b p d) = if endEqb p e && (if in_dec N.eq_dec c (bSubs b p) then true else false) then [mkMsg 0 Notify (bUnique b) c p d 0] else [].
Proof.
  unfold notifyAll, about. destruct (endEqb_spec p e) as [->|Hne]; cbn [andb].
  - induction (bSubs b e) as [|x r IH]; intros H; [reflexivity|]. destruct H as [H1 H2]. cbn [map filter mEnd mClient mCmd]. rewrite endEqb_refl, andb_true_r. cbn [andb]. destruct (N.eqb_spec x c) as [->|Hx].
    + rewrite (IH H2). destruct (in_dec N.eq_dec c r) as [I1|I1]; [specialize (H1 c I1); lia|]. destruct (in_dec N.eq_dec c (c :: r)) as [I2|I2]; [reflexivity|destruct I2; left; reflexivity].
    + rewrite (IH H2). destruct (in_dec N.eq_dec c r) as [I1|I1]; destruct (in_dec N.eq_dec c (x :: r)) as [I2|I2]; try reflexivity; [destruct I2; right; exact I1|destruct I2; [congruence|contradiction]].
  - intros _. induction (bSubs b p) as [|x r IH]; [reflexivity|]. cbn [map filter mEnd mClient mCmd]. destruct (endEqb_spec p e); [congruence|]. cbn [andb]. exact IH.
Qed.

Lemma about_app e c a b : about e c (a ++ b) = about e c a ++ about e c b.
Proof. apply filter_app. Qed.

(** Only three properties are ever notified. *)
Definition toldAbout (e : endp) : bool := match e with PHeartbeat | PSettings | PStaged => true | _ => false end.

Lemma notifyAll_about b p d m : In m (notifyAll b p d) -> mEnd m = p.
Proof. unfold notifyAll. intros H. apply in_map_iff in H as (c & <- & _). reflexivity. Qed.

Lemma answers_final u ms out : Answers u ms out -> forall m, In m out -> mCmd m = Final.
Proof. induction 1; intros z Hz; [destruct Hz|auto|]. destruct Hz as [<-|Hz]; [reflexivity|auto]. Qed.

Lemma actStep_told B pred fuel hooks b a m : In m (snd (actStep B pred fuel hooks b a)) -> mCmd m = Notify -> toldAbout (mEnd m) = true.
Proof.
  intros H Hc. destruct a as [now room inbox xs| |s t]; cbn [actStep] in H.
  - unfold processPort in H. destruct (process B pred fuel hooks b (N.to_nat room) (combine xs inbox)) as [[b' out] ok] eqn:E. cbn [snd] in H. apply in_app_iff in H as [H|H].
    + apply notifyAll_about in H. rewrite H. reflexivity.
    + destruct (process_spec B pred fuel hooks _ _ _ _ _ _ E) as (done & D & _). rewrite (answers_final _ _ _ D m H) in Hc. discriminate.
  - unfold applySettings in H. destruct (chg (bSet b)); [|destruct H]. destruct (applyStaged B (bSet b)) as [[s ap] fw]. cbn [snd] in H. apply in_app_iff in H as [H|H].
    + destruct ap; [destruct H|]. apply notifyAll_about in H. rewrite H. reflexivity.
    + apply notifyAll_about in H. rewrite H. reflexivity.
  - destruct H.
Qed.

Lemma actRun_told B pred fuel hooks l : forall b m, In m (snd (actRun B pred fuel hooks b l)) -> mCmd m = Notify -> toldAbout (mEnd m) = true.
Proof.
  induction l as [|a r IH]; intros b m H Hc; cbn [actRun] in H; [destruct H|]. destruct (actStep B pred fuel hooks b a) as [b1 o1] eqn:E. destruct (actRun B pred fuel hooks b1 r) as [b2 o2] eqn:E2. cbn [snd] in H. apply in_app_iff in H as [H|H].
  - apply (actStep_told B pred fuel hooks b a m); [rewrite E; exact H|exact Hc].
  - apply (IH b1 m); [rewrite E2; exact H|exact Hc].
Qed.
