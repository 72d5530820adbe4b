(** Proofs about blocks that are away, lost, waiting or connected. *)
From Coq Require Import NArith Bool Arith Lia List.
From Verif Require Import Base LifecycleModel.
From Verif Require Import SchedModel SchedSpec SchedOwnProofs SchedInvProofs.
Import ListNotations.
Local Open Scope nat_scope.

(** ** What the parts of a step leave behind, without any invariant *)

Lemma eraseJob_sub b x : forall ls i, In x (at_ (eraseJob b ls) i) -> In x (at_ ls i).
Proof.
  induction ls as [|l r IH]; intros i H; cbn [eraseJob] in H; [exact H|]. destruct (memb b l).
  - destruct i as [|i]; [|exact H]. unfold at_ in *. cbn [nth] in *. apply without_In in H. tauto.
  - destruct i as [|i]; [exact H|]. unfold at_ in *. cbn [nth] in *. exact (IH i H).
Qed.

Lemma cleanZ_sub zs : forall l ex f, let '(zs', l', ex', f') := cleanZ zs l ex f in
  (forall x, In x l' -> In x l) /\ (forall i x, In x (at_ ex' i) -> In x (at_ ex i)) /\ (forall z, In z zs -> ~ In z l -> In z zs').
Proof.
  induction zs as [|z r IH]; intros l ex f; cbn [cleanZ]; [repeat split; tauto|].
  assert (KEEP : forall f1, let '(zs', l', ex', f') := (let '(zs', l', ex', f') := cleanZ r l ex f1 in (z :: zs', l', ex', f')) in
    (forall x, In x l' -> In x l) /\ (forall i x, In x (at_ ex' i) -> In x (at_ ex i)) /\ (forall y, In y (z :: r) -> ~ In y l -> In y zs')).
  { intros f1. specialize (IH l ex f1). destruct (cleanZ r l ex f1) as [[[zs' l'] ex'] f']. destruct IH as (A & B & C).
    split; [exact A|]. split; [exact B|]. intros y [->|Hy] Hn; [left; reflexivity|right; exact (C y Hy Hn)]. }
  destruct (memb z l) eqn:E; [|apply KEEP]. apply memb_In in E.
  assert (DROP : let '(zs', l', ex', f') := cleanZ r (removeOne z l) (eraseJob z ex) f in
    (forall x, In x l' -> In x l) /\ (forall i x, In x (at_ ex' i) -> In x (at_ ex i)) /\ (forall y, In y (z :: r) -> ~ In y l -> In y zs')).
  { specialize (IH (removeOne z l) (eraseJob z ex) f). destruct (cleanZ r (removeOne z l) (eraseJob z ex) f) as [[[zs' l'] ex'] f'].
    destruct IH as (A & B & C). split; [intros x Hx; exact (removeOne_sub _ _ _ (A x Hx))|]. split; [intros i x Hx; exact (eraseJob_sub _ _ _ _ (B i x Hx))|].
    intros y [<-|Hy] Hn; [contradiction|]. apply (C y Hy). intros X. exact (Hn (removeOne_sub _ _ _ X)). }
  destruct (f z); first [exact DROP|apply KEEP].
Qed.

Record MsgsWeak (s : Sched) (i : nat) (s' : Sched) (l l3 : list nat) : Prop := {
  mw_live : nth_error (swork s) i = Some (Live l); mw_idle : nth_error (sbusy s) i = Some None;
  mw_graph : sgraph s' = sgraph s; mw_conn : sconn s' = sconn s;
  mw_l3 : forall b, In b l3 -> (In b l /\ ~ In b (at_ (smoved s) i)) \/ In b (at_ (sadopt s) i);
  mw_ad3 : incl (at_ (sadopt s) i) l3;
  mw_ex : forall j b, In b (at_ (sexec s') j) -> In b (at_ (sexec s) j) \/ (i = j /\ In b (at_ (sadopt s) i));
  mw_ad : sadopt s' = upd (sadopt s) i [];
  mw_mv : smoved s' = upd (smoved s) i (without l (at_ (smoved s) i));
  mw_wk : swork s' = upd (swork s) i (Live l3);
  mw_bz : sbusy s' = upd (sbusy s) i (Some l3);
  mw_z : forall z, In z (szomb s) -> ~ (In z l /\ ~ In z (at_ (smoved s) i)) -> In z (szomb s') }.

Lemma msgs_weak s i s' : msgSection s i = Next s' -> exists l l3, MsgsWeak s i s' l l3.
Proof.
  intros H. unfold msgSection in H.
  destruct (nth_error (swork s) i) as [[|l|]|] eqn:Ew; try discriminate.
  destruct (nth_error (sbusy s) i) as [[x|]|] eqn:Eb; try discriminate.
  destruct (nth_error (smoved s) i) as [mv|] eqn:Em; [|discriminate].
  destruct (nth_error (sadopt s) i) as [ad|] eqn:Ea; [|discriminate].
  destruct (nth_error (sexec s) i) as [ex0|] eqn:Ex; [|discriminate].
  pose proof (at_some _ _ _ Em) as Em'. pose proof (at_some _ _ _ Ea) as Ea'.
  assert (Z : let '(zs, l2, ex, f) := match without mv l with [] => (szomb s, without mv l, sexec s, sbst s) | _ => cleanZ (szomb s) (without mv l) (sexec s) (sbst s) end in
    (forall x, In x l2 -> In x (without mv l)) /\ (forall j x, In x (at_ ex j) -> In x (at_ (sexec s) j)) /\ (forall z, In z (szomb s) -> ~ In z (without mv l) -> In z zs)).
  { destruct (without mv l) as [|y r]; [repeat split; tauto|]. apply cleanZ_sub. }
  destruct (match without mv l with [] => (szomb s, without mv l, sexec s, sbst s) | _ => cleanZ (szomb s) (without mv l) (sexec s) (sbst s) end) as [[[zs l2] ex] f].
  destruct Z as (Z1 & Z2 & Z3). injection H as <-. exists l, (l2 ++ ad). constructor; cbn [sst sgraph sexec sadopt smoved szomb swork sbusy sbst sconn]; try reflexivity; try assumption.
  - intros b Hb. rewrite Em', Ea'. apply in_app_iff in Hb as [Hb|Hb]; [|tauto]. apply Z1, without_In in Hb. tauto.
  - rewrite Ea'. intros b Hb. apply in_app_iff. tauto.
  - intros j b. rewrite Ea', at_upd. destruct (Nat.eqb_spec i j) as [->|]; cbn [andb]; [|intros Hb; left; exact (Z2 j b Hb)].
    destruct (j <? length ex); [|intros Hb; left; exact (Z2 j b Hb)]. rewrite in_app_iff. intros [Hb|Hb]; [left; exact (Z2 j b Hb)|tauto].
  - rewrite Em'. reflexivity.
  - intros z Hz Hn. apply (Z3 z Hz). rewrite without_In, <- Em'. exact Hn.
Qed.

Lemma moved_grows todo : forall ex mv i,
  incl (at_ mv i) (at_ (map (fun p => snd p ++ within todo (fst p)) (combine ex mv) ++ skipn (length ex) mv) i).
Proof.
  induction ex as [|e ex IH]; intros mv i b Hb; [exact Hb|]. destruct mv as [|m mv]; [rewrite at_out in Hb by (cbn; lia); destruct Hb|].
  cbn [combine map skipn length app]. destruct i as [|i]; [unfold at_ in *; cbn [nth fst snd] in *; apply in_app_iff; tauto|]. exact (IH mv i b Hb).
Qed.

Lemma removeBlocks_weak bs s : sgraph (removeBlocks bs s) = sgraph s /\ swork (removeBlocks bs s) = swork s /\ sbusy (removeBlocks bs s) = sbusy s /\
  szomb (removeBlocks bs s) = szomb s /\ sconn (removeBlocks bs s) = sconn s /\ sst (removeBlocks bs s) = sst s /\
  (forall i x, In x (at_ (sexec (removeBlocks bs s)) i) -> In x (at_ (sexec s) i)) /\
  (forall i x, In x (at_ (sadopt (removeBlocks bs s)) i) -> In x (at_ (sadopt s) i)) /\
  (forall i, incl (at_ (smoved s) i) (at_ (smoved (removeBlocks bs s)) i)).
Proof.
  unfold removeBlocks, removeRunning. destruct (isActive (sst s)).
  - pose proof (efa_spec bs (sadopt s) bs) as H. destruct (eraseFromAdoption bs bs (sadopt s)) as [todo ad]. destruct H as (_ & B & _).
    cbn [sst sgraph sexec sadopt smoved szomb swork sbusy sbst sconn]. repeat (split; [reflexivity|]). split; [|split].
    + intros i x. rewrite at_map_without, without_In. tauto.
    + intros i x. rewrite B, without_In. tauto.
    + intros i. apply moved_grows.
  - cbn [sst sgraph sexec sadopt smoved szomb swork sbusy sbst sconn]. repeat (split; [reflexivity|]). split; [|split].
    + intros i x H. rewrite at_out in H by (cbn; lia). destruct H.
    + intros i x H. rewrite at_out in H by (cbn; lia). destruct H.
    + intros i b Hb. exact Hb.
Qed.

Lemma jobsOf_sub c g b i : 1 <= cthreads c -> In b (at_ (jobsOf c g) i) -> In b g.
Proof. intros Hc H. apply at_in_concat in H. apply (jobsOf_In c g b Hc). exact H. Qed.

(** ** Blocks that are away *)

Record Away (s : Sched) (b : nat) : Prop := {
  aw_graph : ~ In b (sgraph s); aw_ex : forall i, ~ In b (at_ (sexec s) i); aw_ad : forall i, ~ In b (at_ (sadopt s) i);
  aw_live : forall i l, nth_error (swork s) i = Some (Live l) -> In b l -> In b (at_ (smoved s) i);
  aw_busy : forall i l, nth_error (sbusy s) i = Some (Some l) -> ~ In b l }.

Lemma adopt_away c x s b : Away s b -> x <> b -> Away (adoptBlock c x s) b.
Proof.
  intros [A B C D E] Hx. destruct (adoptBlock_same c x s) as (E1 & E2 & E3 & E4 & E5 & E6 & E7). constructor.
  - rewrite E2. exact A.
  - rewrite E1. exact B.
  - intros i H. apply adoptBlock_adopt in H as [H|H]; [exact (C i H)|congruence].
  - rewrite E4, E5. exact D.
  - rewrite E6. exact E.
Qed.

Lemma adoptAll_away c bs b : forall s, Away s b -> ~ In b bs -> Away (fold_left (fun t x => adoptBlock c x t) bs s) b.
Proof.
  induction bs as [|x bs IH]; intros s H Hn; cbn [fold_left]; [exact H|]. cbn [In] in Hn. apply IH; [apply adopt_away; [exact H|intros ->; tauto]|tauto].
Qed.

Lemma zombie_away x s b : Away s b -> Away (makeZombie x s) b.
Proof.
  intros [A B C D E]. destruct (makeZombie_same x s) as (E1 & E2 & E3 & E4 & E5 & E6 & E7 & E8). constructor.
  - rewrite E2. exact A.
  - rewrite E1. exact B.
  - intros i H. apply E8 in H. exact (C i H).
  - rewrite E3, E4. exact D.
  - rewrite E5. exact E.
Qed.

Lemma graph_away s g b : Away s b -> ~ In b g -> Away (withGraph s g) b.
Proof. intros [A B C D E] H. constructor; cbn [withGraph sgraph sexec sadopt smoved swork sbusy]; assumption. Qed.

Lemma away_step c s a s' b : 1 <= cthreads c -> Away s b -> ~ hands a b -> step c s a = Next s' -> Away s' b.
Proof.
  intros Hc HW HN H. pose proof HW as [A B C D E]. destruct a; cbn [step hands] in H, HN.
  - destruct (lstate_eqb (sst s) IDLE); [|discriminate]. injection H as <-. constructor; cbn [customInit withConn withState sst sgraph sexec sadopt smoved szomb swork sbusy]; try assumption.
    + intros i X. exact (A (jobsOf_sub c _ _ _ Hc X)).
    + intros i X. rewrite at_empty in X. exact X.
  - destruct (_ || _); [|discriminate]. injection H as <-. constructor; cbn [customInit withBlocks withState sst sgraph sexec sadopt smoved szomb swork sbusy]; try assumption.
    + intros i X. exact (A (jobsOf_sub c _ _ _ Hc X)).
    + intros i X. rewrite at_empty in X. exact X.
  - unfold startSched in H. destruct (_ || _); [discriminate|]. remember (sexec s) as ex0. destruct ex0 as [|x r] eqn:Ex; [discriminate|]. rewrite <- Ex in *. clear x r Ex. subst ex0. injection H as <-.
    constructor; cbn [sst sgraph sexec sadopt smoved szomb swork sbusy]; try assumption; intros i l X; apply nth_repeat_some in X as [X _]; discriminate.
  - destruct (_ && _); [|discriminate]. injection H as <-. constructor; assumption.
  - unfold enter in H. destruct (nth_error (swork s) i) as [[|l|]|] eqn:Ew; try discriminate.
    destruct (nth_error (sexec s) i) as [l|] eqn:Ex; [|discriminate]. injection H as <-.
    constructor; cbn [sst sgraph sexec sadopt smoved szomb swork sbusy]; try assumption.
    intros j m Hj Hb. apply nth_upd_inv in Hj as [[<- X]|[_ Hj]]; [|exact (D j m Hj Hb)]. exfalso. apply (B i). rewrite (at_some _ _ _ Ex). destruct l; [discriminate|injection X as ->; exact Hb].
  - destruct (msgs_weak s i s' H) as (l & l3 & M). destruct M.
    assert (L3 : ~ In b l3). { intros X. apply mw_l4 in X as [[X Y]|X]; [exact (Y (D i l mw_live0 X))|exact (C i X)]. }
    constructor.
    + rewrite mw_graph0. exact A.
    + intros j X. apply mw_ex0 in X as [X|[_ X]]; [exact (B j X)|exact (C i X)].
    + intros j. rewrite mw_ad0, at_upd. destruct (_ && _); [intros []|apply C].
    + intros j m Hj Hb. rewrite mw_wk0 in Hj. apply nth_upd_inv in Hj as [[<- X]|[Hij Hj]]; [injection X as ->; contradiction|].
      rewrite mw_mv0, at_upd. apply Nat.eqb_neq in Hij. rewrite Hij. exact (D j m Hj Hb).
    + intros j m Hj. rewrite mw_bz0 in Hj. apply nth_upd_inv in Hj as [[<- X]|[Hij Hj]]; [injection X as ->; exact L3|exact (E j m Hj)].
  - unfold workSection in H. destruct (nth_error (swork s) i) as [[|l|]|] eqn:Ew; try discriminate.
    destruct (nth_error (sbusy s) i) as [[y|]|] eqn:Eb; try discriminate. destruct (nth_error (smoved s) i) as [mv|] eqn:Em; [|discriminate].
    injection H as <-.
    assert (L1 : ~ In b (without mv l)). { rewrite without_In. intros [X Y]. apply Y. rewrite <- (at_some _ _ _ Em). exact (D i l Ew X). }
    constructor; cbn [sst sgraph sexec sadopt smoved szomb swork sbusy]; try assumption.
    + intros j m Hj Hb. apply nth_upd_inv in Hj as [[<- X]|[Hij Hj]]; [injection X as ->; contradiction|].
      rewrite at_upd. apply Nat.eqb_neq in Hij. rewrite Hij. exact (D j m Hj Hb).
    + intros j m Hj. apply nth_upd_inv in Hj as [[<- X]|[Hij Hj]]; [|exact (E j m Hj)]. destruct (without mv l) as [|y r]; [discriminate|]. injection X as ->. exact L1.
  - unfold endSection in H. destruct (nth_error (sbusy s) i) as [[y|]|] eqn:Eb; try discriminate. injection H as <-.
    constructor; cbn [sst sgraph sexec sadopt smoved szomb swork sbusy]; try assumption.
    intros j m Hj. apply nth_upd_inv in Hj as [[<- X]|[Hij Hj]]; [discriminate|exact (E j m Hj)].
  - unfold leave in H. destruct (nth_error (swork s) i) as [[|l|]|] eqn:Ew; try discriminate.
    destruct (nth_error (sbusy s) i) as [[y|]|] eqn:Eb; try discriminate. injection H as <-.
    constructor; cbn [sst sgraph sexec sadopt smoved szomb swork sbusy]; try assumption.
    intros j m Hj. apply nth_upd_inv in Hj as [[<- X]|[Hij Hj]]; [discriminate|exact (D j m Hj)].
  - destruct (known s b0); [discriminate|]. injection H as <-. apply adopt_away; [|exact HN]. apply graph_away; [exact HW|]. rewrite in_app_iff. intros [X|[X|[]]]; [exact (A X)|exact (HN X)].
  - destruct (memb b0 (sgraph s)); [|discriminate]. injection H as <-. apply zombie_away, graph_away; [exact HW|]. rewrite without_In. tauto.
  - destruct (_ && _); [|discriminate]. injection H as <-. apply zombie_away, graph_away; [exact HW|]. rewrite without_In, in_app_iff. cbn [In]. tauto.
  - destruct (_ || _); [discriminate|]. injection H as <-. apply adopt_away; [|exact HN].
    destruct (removeBlocks_weak bs (withGraph s (without bs (sgraph s) ++ [g]))) as (R1 & R2 & R3 & R4 & R5 & R6 & R7 & R8 & R9).
    cbn [withGraph sst sgraph sexec sadopt smoved szomb swork sbusy sbst sconn] in *. constructor.
    + rewrite R1, in_app_iff, without_In. cbn [In]. tauto.
    + intros i X. exact (B i (R7 i b X)).
    + intros i X. exact (C i (R8 i b X)).
    + intros i l Hi Hb. apply R9. rewrite R2 in Hi. exact (D i l Hi Hb).
    + rewrite R3. exact E.
  - destruct (_ || _); [discriminate|]. injection H as <-. apply adoptAll_away; [|exact HN]. apply zombie_away, graph_away; [exact HW|]. rewrite in_app_iff, without_In. tauto.
  - destruct (known s b0); [discriminate|]. injection H as <-. apply graph_away; [exact HW|]. rewrite in_app_iff. cbn [In]. tauto.
  - destruct (_ || _); [discriminate|]. injection H as <-. apply graph_away; [|exact HN]. destruct (_ || _); [|exact HW].
    constructor; cbn [customInit withBlocks withState sst sgraph sexec sadopt smoved szomb swork sbusy]; try assumption.
    + intros i X. exact (A (jobsOf_sub c _ _ _ Hc X)).
    + intros i X. rewrite at_empty in X. exact X.
  - injection H as <-. constructor; assumption.
Qed.

Lemma away_run c b l : forall s s', 1 <= cthreads c -> Away s b -> ~ everHands l b -> run c s l = Next s' -> Away s' b.
Proof.
  induction l as [|a l IH]; intros s s' Hc HW HN H; cbn [run] in H; [congruence|]. destruct (step c s a) as [t| |] eqn:E; try discriminate.
  apply (IH t s' Hc); [|intros (x & Hx & Hb); apply HN; exists x; split; [right; exact Hx|exact Hb]|exact H].
  apply (away_step c s a t b Hc HW); [|exact E]. intros X. apply HN. exists a. split; [left; reflexivity|exact X].
Qed.

Lemma away_untouched s b : Away s b -> ~ touched s b.
Proof. intros HW (i & l & H & Hb). exact (aw_busy s b HW i l H Hb). Qed.

(** A zombie that is away is never released. *)
Lemma zombie_kept_step c s a s' z : Away s z -> In z (szomb s) -> step c s a = Next s' -> In z (szomb s').
Proof.
  intros HW HZ H.
  assert (MZ : forall x t, In z (szomb t) -> In z (szomb (makeZombie x t))).
  { intros x t Ht. destruct (makeZombie_same x t) as (_ & _ & _ & _ & _ & _ & [-> | ->] & _); [exact Ht|apply in_app_iff; left; exact Ht]. }
  destruct a; cbn [step] in H.
  - destruct (lstate_eqb (sst s) IDLE); [|discriminate]. injection H as <-. exact HZ.
  - destruct (_ || _); [|discriminate]. injection H as <-. exact HZ.
  - unfold startSched in H. destruct (_ || _); [discriminate|]. destruct (sexec s); [discriminate|]. injection H as <-. exact HZ.
  - destruct (_ && _); [|discriminate]. injection H as <-. exact HZ.
  - unfold enter in H. destruct (nth_error (swork s) i) as [[|l|]|] eqn:Ew; try discriminate.
    destruct (nth_error (sexec s) i) as [l|] eqn:Ex; [|discriminate]. injection H as <-. exact HZ.
  - destruct (msgs_weak s i s' H) as (l & l3 & M). apply (mw_z _ _ _ _ _ M z HZ). intros [X Y]. apply Y. exact (aw_live s z HW i l (mw_live _ _ _ _ _ M) X).
  - unfold workSection in H. destruct (nth_error (swork s) i) as [[|l|]|] eqn:Ew; try discriminate.
    destruct (nth_error (sbusy s) i) as [[y|]|] eqn:Eb; try discriminate. destruct (nth_error (smoved s) i) as [mv|] eqn:Em; [|discriminate].
    injection H as <-. exact HZ.
  - unfold endSection in H. destruct (nth_error (sbusy s) i) as [[y|]|] eqn:Eb; try discriminate. injection H as <-. exact HZ.
  - unfold leave in H. destruct (nth_error (swork s) i) as [[|l|]|] eqn:Ew; try discriminate.
    destruct (nth_error (sbusy s) i) as [[y|]|] eqn:Eb; try discriminate. injection H as <-. exact HZ.
  - destruct (known s b); [discriminate|]. injection H as <-. destruct (adoptBlock_same c b (withGraph s (sgraph s ++ [b]))) as (_ & _ & -> & _). exact HZ.
  - destruct (memb b (sgraph s)); [|discriminate]. injection H as <-. apply MZ. exact HZ.
  - destruct (_ && _); [|discriminate]. injection H as <-. apply MZ. exact HZ.
  - destruct (_ || _); [discriminate|]. injection H as <-.
    match goal with |- In z (szomb (adoptBlock c g ?t)) => destruct (adoptBlock_same c g t) as (_ & _ & -> & _) end.
    destruct (removeBlocks_weak bs (withGraph s (without bs (sgraph s) ++ [g]))) as (_ & _ & _ & -> & _). exact HZ.
  - destruct (_ || _); [discriminate|]. injection H as <-.
    match goal with |- In z (szomb (fold_left ?f bs ?t)) => pose proof (adoptAll_same c bs t) as S; cbv zeta in S; destruct S as (_ & _ & -> & _) end.
    apply MZ. exact HZ.
  - destruct (known s b); [discriminate|]. injection H as <-. exact HZ.
  - destruct (_ || _); [discriminate|]. injection H as <-. destruct (_ || _); exact HZ.
  - injection H as <-. exact HZ.
Qed.

Lemma zombie_kept c z l : forall s s', 1 <= cthreads c -> Away s z -> In z (szomb s) -> ~ everHands l z -> run c s l = Next s' -> In z (szomb s').
Proof.
  induction l as [|a l IH]; intros s s' Hc HW HZ HN H; cbn [run] in H; [congruence|]. destruct (step c s a) as [t| |] eqn:E; try discriminate.
  apply (IH t s' Hc); [|exact (zombie_kept_step c s a t z HW HZ E)|intros (x & Hx & Hb); apply HN; exists x; split; [right; exact Hx|exact Hb]|exact H].
  apply (away_step c s a t z Hc HW); [|exact E]. intros X. apply HN. exists a. split; [left; reflexivity|exact X].
Qed.
