(** Proofs about blocks that are lost, waiting, connected, and about published lists. *)
From Coq Require Import NArith Bool Arith Lia List.
From Verif Require Import Base LifecycleModel.
From Verif Require Import SchedModel SchedSpec SchedOwnProofs SchedInvProofs SchedAwayProofs.
Import ListNotations.
Local Open Scope nat_scope.

(** ** Blocks nobody will run *)

Record Lost (s : Sched) (b : nat) : Prop := {
  lo_ex : forall i, In b (at_ (sexec s) i) -> nth_error (swork s) i <> Some NotStarted;
  lo_ad : forall i p, In b (at_ (sadopt s) i) -> nth_error (swork s) i = Some p -> p = Gone;
  lo_live : forall i l, nth_error (swork s) i = Some (Live l) -> ~ In b l;
  lo_busy : forall i l, nth_error (sbusy s) i = Some (Some l) -> ~ In b l }.

Definition nowhere (s : Sched) (b : nat) : Prop := forall i, ~ In b (at_ (sadopt s) i) /\ ~ In b (at_ (sexec s) i).

Lemma adopt_lost c x s b : Lost s b -> x <> b -> Lost (adoptBlock c x s) b.
Proof.
  intros [A B C D] Hx. destruct (adoptBlock_same c x s) as (E1 & E2 & E3 & E4 & E5 & E6 & E7). constructor.
  - rewrite E1, E5. exact A.
  - intros i p H. rewrite E5. apply adoptBlock_adopt in H as [H|H]; [exact (B i p H)|congruence].
  - rewrite E5. exact C.
  - rewrite E6. exact D.
Qed.

Lemma adoptAll_lost c bs b : forall s, Lost s b -> ~ In b bs -> Lost (fold_left (fun t x => adoptBlock c x t) bs s) b.
Proof.
  induction bs as [|x bs IH]; intros s H Hn; cbn [fold_left]; [exact H|]. cbn [In] in Hn. apply IH; [apply adopt_lost; [exact H|intros ->; tauto]|tauto].
Qed.

Lemma zombie_lost x s b : Lost s b -> Lost (makeZombie x s) b.
Proof.
  intros [A B C D]. destruct (makeZombie_same x s) as (E1 & E2 & E3 & E4 & E5 & E6 & E7 & E8). constructor.
  - rewrite E1, E4. exact A.
  - intros i p H. rewrite E4. apply E8 in H. exact (B i p H).
  - rewrite E4. exact C.
  - rewrite E5. exact D.
Qed.

Lemma graph_lost s g b : Lost s b -> Lost (withGraph s g) b.
Proof. intros [A B C D]. constructor; cbn [withGraph sgraph sexec sadopt smoved swork sbusy]; assumption. Qed.

Lemma lost_step c s a s' b : Lost s b -> ~ hands a b -> (rebuilds a -> a = AStart /\ nowhere s b) -> step c s a = Next s' -> Lost s' b.
Proof.
  intros HW HN HR H. pose proof HW as [A B C D]. destruct a; cbn [step hands rebuilds] in H, HN, HR.
  - destruct (HR I). discriminate.
  - destruct (HR I). discriminate.
  - destruct (HR I) as [_ HO]. unfold startSched in H. destruct (_ || _); [discriminate|]. remember (sexec s) as ex0. destruct ex0 as [|x r] eqn:Ex; [discriminate|]. rewrite <- Ex in *. clear x r Ex. subst ex0. injection H as <-.
    constructor; cbn [sst sgraph sexec sadopt smoved szomb swork sbusy]; try assumption; try (intros i l X; apply nth_repeat_some in X as [X _]; discriminate).
    + intros i X. destruct (proj2 (HO i) X).
    + intros i p X. destruct (proj1 (HO i) X).
  - destruct (_ && _); [|discriminate]. injection H as <-. constructor; assumption.
  - unfold enter in H. destruct (nth_error (swork s) i) as [[|l|]|] eqn:Ew; try discriminate.
    destruct (nth_error (sexec s) i) as [l|] eqn:Ex; [|discriminate]. injection H as <-.
    constructor; cbn [sst sgraph sexec sadopt smoved szomb swork sbusy]; try assumption.
    + intros j X Hj. apply nth_upd_inv in Hj as [[<- Y]|[_ Hj]]; [destruct l; discriminate|exact (A j X Hj)].
    + intros j p X Hj. apply nth_upd_inv in Hj as [[<- _]|[_ Hj]]; [|exact (B j p X Hj)]. pose proof (B i NotStarted X Ew). discriminate.
    + intros j m Hj Hb. apply nth_upd_inv in Hj as [[<- X]|[_ Hj]]; [|exact (C j m Hj Hb)]. apply (A i); [|exact Ew]. rewrite (at_some _ _ _ Ex). destruct l; [discriminate|injection X as ->; exact Hb].
  - destruct (msgs_weak s i s' H) as (l & l3 & M). destruct M as [mw_live0 mw_idle0 mw_graph0 mw_conn0 mw_l4 mw_ad30 mw_ex0 mw_ad0 mw_mv0 mw_wk0 mw_bz0 mw_z0].
    assert (NA : ~ In b (at_ (sadopt s) i)). { intros X. pose proof (B i _ X mw_live0). discriminate. }
    assert (L3 : ~ In b l3). { intros X. apply mw_l4 in X as [[X Y]|X]; [exact (C i l mw_live0 X)|exact (NA X)]. }
    constructor.
    + intros j X Hj. apply mw_ex0 in X as [X|[_ X]]; [|exact (NA X)]. rewrite mw_wk0 in Hj. apply nth_upd_inv in Hj as [[<- Y]|[_ Hj]]; [discriminate|exact (A j X Hj)].
    + intros j p. rewrite mw_ad0, mw_wk0, at_upd. intros X Hj. apply nth_upd_inv in Hj as [[<- _]|[Hij Hj]].
      * destruct (_ && _); [destruct X|contradiction].
      * apply Nat.eqb_neq in Hij. rewrite Hij in X. exact (B j p X Hj).
    + intros j m Hj Hb. rewrite mw_wk0 in Hj. apply nth_upd_inv in Hj as [[<- X]|[Hij Hj]]; [injection X as ->; contradiction|exact (C j m Hj Hb)].
    + intros j m Hj. rewrite mw_bz0 in Hj. apply nth_upd_inv in Hj as [[<- X]|[Hij Hj]]; [injection X as ->; exact L3|exact (D j m Hj)].
  - unfold workSection in H. destruct (nth_error (swork s) i) as [[|l|]|] eqn:Ew; try discriminate.
    destruct (nth_error (sbusy s) i) as [[y|]|] eqn:Eb; try discriminate. destruct (nth_error (smoved s) i) as [mv|] eqn:Em; [|discriminate].
    injection H as <-.
    assert (L1 : ~ In b (without mv l)). { rewrite without_In. intros [X Y]. exact (C i l Ew X). }
    constructor; cbn [sst sgraph sexec sadopt smoved szomb swork sbusy]; try assumption.
    + intros j X Hj. apply nth_upd_inv in Hj as [[<- Y]|[_ Hj]]; [discriminate|exact (A j X Hj)].
    + intros j p X Hj. apply nth_upd_inv in Hj as [[<- _]|[_ Hj]]; [|exact (B j p X Hj)]. pose proof (B i _ X Ew). discriminate.
    + intros j m Hj Hb. apply nth_upd_inv in Hj as [[<- X]|[Hij Hj]]; [injection X as ->; contradiction|exact (C j m Hj Hb)].
    + intros j m Hj. apply nth_upd_inv in Hj as [[<- X]|[Hij Hj]]; [|exact (D j m Hj)]. destruct (without mv l) as [|y r]; [discriminate|]. injection X as ->. exact L1.
  - unfold endSection in H. destruct (nth_error (sbusy s) i) as [[y|]|] eqn:Eb; try discriminate. injection H as <-.
    constructor; cbn [sst sgraph sexec sadopt smoved szomb swork sbusy]; try assumption.
    intros j m Hj. apply nth_upd_inv in Hj as [[<- X]|[Hij Hj]]; [discriminate|exact (D j m Hj)].
  - unfold leave in H. destruct (nth_error (swork s) i) as [[|l|]|] eqn:Ew; try discriminate.
    destruct (nth_error (sbusy s) i) as [[y|]|] eqn:Eb; try discriminate. injection H as <-.
    constructor; cbn [sst sgraph sexec sadopt smoved szomb swork sbusy]; try assumption.
    + intros j X Hj. apply nth_upd_inv in Hj as [[<- Y]|[_ Hj]]; [discriminate|exact (A j X Hj)].
    + intros j p X Hj. apply nth_upd_inv in Hj as [[<- ->]|[_ Hj]]; [reflexivity|exact (B j p X Hj)].
    + intros j m Hj. apply nth_upd_inv in Hj as [[<- X]|[Hij Hj]]; [discriminate|exact (C j m Hj)].
  - destruct (known s b0); [discriminate|]. injection H as <-. apply adopt_lost; [|exact HN]. apply graph_lost; exact HW.
  - destruct (memb b0 (sgraph s)); [|discriminate]. injection H as <-. apply zombie_lost, graph_lost; exact HW.
  - destruct (_ && _); [|discriminate]. injection H as <-. apply zombie_lost, graph_lost; exact HW.
  - destruct (_ || _); [discriminate|]. injection H as <-. apply adopt_lost; [|exact HN].
    destruct (removeBlocks_weak bs (withGraph s (without bs (sgraph s) ++ [g]))) as (R1 & R2 & R3 & R4 & R5 & R6 & R7 & R8 & R9).
    cbn [withGraph sst sgraph sexec sadopt smoved szomb swork sbusy sbst sconn] in *. constructor.
    + intros i X. rewrite R2. exact (A i (R7 i b X)).
    + intros i p X Hi. rewrite R2 in Hi. exact (B i p (R8 i b X) Hi).
    + rewrite R2. exact C.
    + rewrite R3. exact D.
  - destruct (_ || _); [discriminate|]. injection H as <-. apply adoptAll_lost; [|exact HN]. apply zombie_lost, graph_lost; exact HW.
  - destruct (known s b0); [discriminate|]. injection H as <-. apply graph_lost; exact HW.
  - destruct (HR I). discriminate.
  - injection H as <-. constructor; assumption.
Qed.

Lemma nowhere_step c s a s' b : nowhere s b -> ~ hands a b -> (rebuilds a -> a = AStart) -> step c s a = Next s' -> nowhere s' b.
Proof.
  intros HO HN HR H. destruct a; cbn [step hands rebuilds] in H, HN, HR.
  - discriminate (HR I).
  - discriminate (HR I).
  - unfold startSched in H. destruct (_ || _); [discriminate|]. remember (sexec s) as ex0. destruct ex0 as [|x r] eqn:Ex; [discriminate|]. rewrite <- Ex in *. clear x r Ex. subst ex0. injection H as <-. exact HO.
  - destruct (_ && _); [|discriminate]. injection H as <-. exact HO.
  - unfold enter in H. destruct (nth_error (swork s) i) as [[|l|]|] eqn:Ew; try discriminate.
    destruct (nth_error (sexec s) i) as [l|] eqn:Ex; [|discriminate]. injection H as <-. exact HO.
  - destruct (msgs_weak s i s' H) as (l & l3 & M). intros j. split.
    + rewrite (mw_ad _ _ _ _ _ M), at_upd. destruct (_ && _); [intros []|apply HO].
    + intros X. apply (mw_ex _ _ _ _ _ M) in X as [X|[_ X]]; [exact (proj2 (HO j) X)|exact (proj1 (HO i) X)].
  - unfold workSection in H. destruct (nth_error (swork s) i) as [[|l|]|] eqn:Ew; try discriminate.
    destruct (nth_error (sbusy s) i) as [[y|]|] eqn:Eb; try discriminate. destruct (nth_error (smoved s) i) as [mv|] eqn:Em; [|discriminate].
    injection H as <-. exact HO.
  - unfold endSection in H. destruct (nth_error (sbusy s) i) as [[y|]|] eqn:Eb; try discriminate. injection H as <-. exact HO.
  - unfold leave in H. destruct (nth_error (swork s) i) as [[|l|]|] eqn:Ew; try discriminate.
    destruct (nth_error (sbusy s) i) as [[y|]|] eqn:Eb; try discriminate. injection H as <-. exact HO.
  - destruct (known s b0); [discriminate|]. injection H as <-. intros j. split.
    + intros X. apply adoptBlock_adopt in X as [X|X]; [exact (proj1 (HO j) X)|congruence].
    + rewrite (proj1 (adoptBlock_same c b0 _)). apply HO.
  - destruct (memb b0 (sgraph s)); [|discriminate]. injection H as <-. intros j.
    match goal with |- context [makeZombie ?x ?t] => destruct (makeZombie_same x t) as (E0 & _ & _ & _ & _ & _ & _ & E) end.
    split; [intros X; exact (proj1 (HO j) (E j b X))|rewrite E0; apply HO].
  - destruct (_ && _); [|discriminate]. injection H as <-. intros j.
    match goal with |- context [makeZombie ?x ?t] => destruct (makeZombie_same x t) as (E0 & _ & _ & _ & _ & _ & _ & E) end.
    split; [intros X; exact (proj1 (HO j) (E j b X))|rewrite E0; apply HO].
  - destruct (_ || _); [discriminate|]. injection H as <-. intros j.
    destruct (removeBlocks_weak bs (withGraph s (without bs (sgraph s) ++ [g]))) as (_ & _ & _ & _ & _ & _ & R7 & R8 & _). split.
    + intros X. apply adoptBlock_adopt in X as [X|X]; [|congruence]. exact (proj1 (HO j) (R8 j b X)).
    + rewrite (proj1 (adoptBlock_same c g _)). intros X. exact (proj2 (HO j) (R7 j b X)).
  - destruct (_ || _); [discriminate|]. injection H as <-. intros j.
    match goal with |- context [makeZombie ?x ?t] => destruct (makeZombie_same x t) as (E0 & _ & _ & _ & _ & _ & _ & E); pose proof (adoptAll_same c bs (makeZombie x t)) as S end.
    cbv zeta in S. destruct S as (S1 & _). split.
    + intros X. apply adoptAll_adopt in X as [X|X]; [|contradiction]. exact (proj1 (HO j) (E j b X)).
    + rewrite S1, E0. apply HO.
  - destruct (known s b0); [discriminate|]. injection H as <-. exact HO.
  - discriminate (HR I).
  - injection H as <-. exact HO.
Qed.

Lemma lost_run c b l : forall s s', Lost s b -> ~ everHands l b -> (forall a, In a l -> ~ rebuilds a) -> run c s l = Next s' -> Lost s' b.
Proof.
  induction l as [|a l IH]; intros s s' HW HN HR H; cbn [run] in H; [congruence|]. destruct (step c s a) as [t| |] eqn:E; try discriminate.
  apply (IH t s'); [|intros (x & Hx & Hb); apply HN; exists x; split; [right; exact Hx|exact Hb]|intros x Hx; apply HR; right; exact Hx|exact H].
  apply (lost_step c s a t b HW); [| |exact E].
  - intros X. apply HN. exists a. split; [left; reflexivity|exact X].
  - intros X. destruct (HR a (or_introl eq_refl) X).
Qed.

Lemma unlisted_run c b l : forall s s', Lost s b -> nowhere s b -> ~ everHands l b -> (forall a, In a l -> rebuilds a -> a = AStart) -> run c s l = Next s' ->
  Lost s' b /\ nowhere s' b.
Proof.
  induction l as [|a l IH]; intros s s' HW HO HN HR H; cbn [run] in H; [injection H as <-; tauto|]. destruct (step c s a) as [t| |] eqn:E; try discriminate.
  assert (HB : ~ hands a b) by (intros X; apply HN; exists a; split; [left; reflexivity|exact X]).
  apply (IH t s'); [| |intros (x & Hx & Hb); apply HN; exists x; split; [right; exact Hx|exact Hb]|intros x Hx; apply HR; right; exact Hx|exact H].
  - apply (lost_step c s a t b HW HB); [|exact E]. intros X. split; [exact (HR a (or_introl eq_refl) X)|exact HO].
  - apply (nowhere_step c s a t b HO HB); [|exact E]. exact (HR a (or_introl eq_refl)).
Qed.

Lemma lost_untouched s b : Lost s b -> ~ touched s b.
Proof. intros HW (i & l & H & Hb). exact (lo_busy s b HW i l H Hb). Qed.

(** ** Blocks that wait for their worker *)

Lemma eraseAdoption_keep x b : x <> b -> forall ls ls' i, eraseAdoption x ls = Some ls' -> In b (at_ ls i) -> In b (at_ ls' i).
Proof.
  intros Hx. induction ls as [|l r IH]; intros ls' i H Hb; cbn [eraseAdoption] in H; [discriminate|]. destruct (memb x l) eqn:E.
  - injection H as <-. destruct i as [|i]; [|exact Hb]. unfold at_ in *. cbn [nth] in *. clear -Hx Hb. induction l as [|y l IH]; [exact Hb|].
    cbn [removeOne]. destruct (Nat.eqb_spec y x) as [->|]; [destruct Hb; [congruence|assumption]|]. destruct Hb as [->|Hb]; [left; reflexivity|right; exact (IH Hb)].
  - destruct (eraseAdoption x r) as [r'|]; [|discriminate]. injection H as <-. destruct i as [|i]; [exact Hb|]. exact (IH r' i eq_refl Hb).
Qed.

Lemma makeZombie_waits x b s r : x <> b -> In b (at_ (sadopt s) r) -> In b (at_ (sadopt (makeZombie x s)) r).
Proof.
  intros Hx H. unfold makeZombie. destruct (eraseAdoption x (sadopt s)) as [ad|] eqn:E; cbn [sadopt]; [|exact H]. exact (eraseAdoption_keep x b Hx _ _ r E H).
Qed.

Lemma adoptBlock_waits c x b s r : In b (at_ (sadopt s) r) -> In b (at_ (sadopt (adoptBlock c x s)) r).
Proof.
  intros H. unfold adoptBlock, withConn. cbn [sst sgraph sexec sadopt smoved szomb swork sbusy sbst sconn].
  destruct (negb (isActive (sst s))); [exact H|]. destruct (length (sadopt s) =? 0); [exact H|]. cbn [sadopt].
  rewrite at_upd. destruct (_ && _) eqn:E; [|exact H]. apply andb_prop in E as [E _]. apply Nat.eqb_eq in E. apply in_app_iff. left. unfold at_ in H. rewrite E. exact H.
Qed.

Lemma adoptAll_waits c bs b r : forall s, In b (at_ (sadopt s) r) -> In b (at_ (sadopt (fold_left (fun t x => adoptBlock c x t) bs s)) r).
Proof. induction bs as [|x bs IH]; intros s H; cbn [fold_left]; [exact H|]. apply IH, adoptBlock_waits. exact H. Qed.

Lemma waits_step c s a s' b r : In b (at_ (sadopt s) r) -> keepsWaiting b r s a -> step c s a = Next s' -> In b (at_ (sadopt s') r).
Proof.
  intros HW HK H. destruct a; cbn [step keepsWaiting] in H, HK.
  - destruct HK.
  - destruct HK.
  - unfold startSched in H. destruct (_ || _); [discriminate|]. destruct (sexec s); [discriminate|]. injection H as <-. exact HW.
  - destruct (_ && _); [|discriminate]. injection H as <-. exact HW.
  - unfold enter in H. destruct (nth_error (swork s) i) as [[|l|]|] eqn:Ew; try discriminate.
    destruct (nth_error (sexec s) i) as [l|] eqn:Ex; [|discriminate]. injection H as <-. exact HW.
  - destruct (msgs_weak s i s' H) as (l & l3 & M). rewrite (mw_ad _ _ _ _ _ M), at_upd. apply Nat.eqb_neq in HK. rewrite HK. exact HW.
  - unfold workSection in H. destruct (nth_error (swork s) i) as [[|l|]|] eqn:Ew; try discriminate.
    destruct (nth_error (sbusy s) i) as [[y|]|] eqn:Eb; try discriminate. destruct (nth_error (smoved s) i) as [mv|] eqn:Em; [|discriminate].
    injection H as <-. exact HW.
  - unfold endSection in H. destruct (nth_error (sbusy s) i) as [[y|]|] eqn:Eb; try discriminate. injection H as <-. exact HW.
  - unfold leave in H. destruct (nth_error (swork s) i) as [[|l|]|] eqn:Ew; try discriminate.
    destruct (nth_error (sbusy s) i) as [[y|]|] eqn:Eb; try discriminate. injection H as <-. exact HW.
  - destruct (known s b0); [discriminate|]. injection H as <-. apply adoptBlock_waits. exact HW.
  - destruct (memb b0 (sgraph s)); [|discriminate]. injection H as <-. apply makeZombie_waits; [exact HK|exact HW].
  - destruct (_ && _); [|discriminate]. injection H as <-. apply makeZombie_waits; [exact HK|exact HW].
  - destruct (_ || _); [discriminate|]. injection H as <-. apply adoptBlock_waits. destruct HK as [HA HB]. unfold removeBlocks. cbn [withGraph sst]. rewrite HA.
    unfold removeRunning. cbn [withGraph sadopt]. pose proof (efa_spec bs (sadopt s) bs) as X. destruct (eraseFromAdoption bs bs (sadopt s)) as [todo ad]. destruct X as (_ & X & _).
    cbn [sadopt]. rewrite X, without_In. tauto.
  - destruct (_ || _); [discriminate|]. injection H as <-. apply adoptAll_waits, makeZombie_waits; [exact HK|exact HW].
  - destruct (known s b0); [discriminate|]. injection H as <-. exact HW.
  - destruct HK.
  - injection H as <-. exact HW.
Qed.

Lemma waits_run c b r l : forall s s', In b (at_ (sadopt s) r) -> obeys (keepsWaiting b r) c s l -> run c s l = Next s' -> In b (at_ (sadopt s') r).
Proof.
  induction l as [|a l IH]; intros s s' HW HO H; cbn [run obeys] in *; [congruence|]. destruct HO as [HK HO]. destruct (step c s a) as [t| |] eqn:E; try discriminate.
  exact (IH t s' (waits_step c s a t b r HW HK E) HO H).
Qed.

(** ** Connected message ports *)

Record Wired (s : Sched) : Prop := {
  wi_graph : sst s <> IDLE -> incl (sgraph s) (sconn s);
  wi_ex : forall i, incl (at_ (sexec s) i) (sconn s); wi_ad : forall i, incl (at_ (sadopt s) i) (sconn s);
  wi_live : forall i l, nth_error (swork s) i = Some (Live l) -> incl l (sconn s);
  wi_busy : forall i l, nth_error (sbusy s) i = Some (Some l) -> incl l (sconn s) }.

Lemma adoptBlock_conn c x s : sconn (adoptBlock c x s) = x :: sconn s.
Proof.
  unfold adoptBlock, withConn. cbn [sst sgraph sexec sadopt smoved szomb swork sbusy sbst sconn app].
  destruct (negb (isActive (sst s))); [reflexivity|]. destruct (length (sadopt s) =? 0); reflexivity.
Qed.

(** The graph may already contain blocks about to be adopted. *)
Record WiredBut (s : Sched) (xs : list nat) : Prop := {
  wb_graph : sst s <> IDLE -> forall b, In b (sgraph s) -> In b xs \/ In b (sconn s);
  wb_ex : forall i, incl (at_ (sexec s) i) (sconn s); wb_ad : forall i, incl (at_ (sadopt s) i) (sconn s);
  wb_live : forall i l, nth_error (swork s) i = Some (Live l) -> incl l (sconn s);
  wb_busy : forall i l, nth_error (sbusy s) i = Some (Some l) -> incl l (sconn s) }.

Lemma wired_but s : WiredBut s [] -> Wired s.
Proof. intros [A B C D E]. constructor; try assumption. intros H b Hb. destruct (A H b Hb) as [[]|X]. exact X. Qed.

Lemma adopt_wired c x xs s : WiredBut s (x :: xs) -> WiredBut (adoptBlock c x s) xs.
Proof.
  intros [A B C D E]. destruct (adoptBlock_same c x s) as (E1 & E2 & E3 & E4 & E5 & E6 & E7). constructor; rewrite adoptBlock_conn.
  - rewrite E7, E2. intros H b Hb. destruct (A H b Hb) as [[->|X]|X]; [right; left; reflexivity|left; exact X|right; right; exact X].
  - rewrite E1. intros i b Hb. right. exact (B i b Hb).
  - intros i b Hb. apply adoptBlock_adopt in Hb as [Hb| ->]; [right; exact (C i b Hb)|left; reflexivity].
  - rewrite E5. intros i l Hi b Hb. right. exact (D i l Hi b Hb).
  - rewrite E6. intros i l Hi b Hb. right. exact (E i l Hi b Hb).
Qed.

Lemma adoptAll_wired c xs : forall s, WiredBut s xs -> Wired (fold_left (fun t b => adoptBlock c b t) xs s).
Proof. induction xs as [|x xs IH]; intros s H; cbn [fold_left]; [exact (wired_but s H)|]. apply IH, adopt_wired. exact H. Qed.

Lemma zombie_wired x s xs : WiredBut s xs -> WiredBut (makeZombie x s) xs.
Proof.
  intros [A B C D E]. destruct (makeZombie_same x s) as (E1 & E2 & E3 & E4 & E5 & E6 & E7 & E8).
  assert (EC : sconn (makeZombie x s) = sconn s) by (unfold makeZombie; destruct (eraseAdoption x (sadopt s)); reflexivity).
  constructor; rewrite EC.
  - rewrite E6, E2. exact A.
  - rewrite E1. exact B.
  - intros i b Hb. exact (C i b (E8 i b Hb)).
  - rewrite E4. exact D.
  - rewrite E5. exact E.
Qed.

Lemma graph_wired s g xs : Wired s -> (forall b, In b g -> In b xs \/ In b (sgraph s)) -> WiredBut (withGraph s g) xs.
Proof.
  intros [A B C D E] H. constructor; cbn [withGraph sst sgraph sexec sadopt smoved swork sbusy sconn]; try assumption.
  intros Hs b Hb. destruct (H b Hb) as [X|X]; [left; exact X|right; exact (A Hs b X)].
Qed.

Lemma wired_step c s a s' : 1 <= cthreads c -> Wired s -> regular s a -> step c s a = Next s' -> Wired s'.
Proof.
  intros Hc HW HR H. pose proof HW as [A B C D E]. destruct a; cbn [step regular] in H, HR.
  - destruct (lstate_eqb (sst s) IDLE); [|discriminate]. injection H as <-. constructor; cbn [customInit withConn withState sst sgraph sexec sadopt smoved szomb swork sbusy sconn].
    + intros _ b Hb. apply in_app_iff. tauto.
    + intros i b Hb. apply in_app_iff. left. exact (jobsOf_sub c _ _ _ Hc Hb).
    + intros i b Hb. rewrite at_empty in Hb. destruct Hb.
    + intros i l Hi b Hb. apply in_app_iff. right. exact (D i l Hi b Hb).
    + intros i l Hi b Hb. apply in_app_iff. right. exact (E i l Hi b Hb).
  - destruct (lstate_eqb (sst s) STOPPED || lstate_eqb (sst s) ERROR) eqn:ES; [|discriminate]. injection H as <-.
    assert (NI : sst s <> IDLE) by (intros X; rewrite X in ES; discriminate).
    constructor; cbn [customInit withBlocks withState sst sgraph sexec sadopt smoved szomb swork sbusy sconn]; try assumption.
    + intros _. exact (A NI).
    + intros i b Hb. apply (A NI). exact (jobsOf_sub c _ _ _ Hc Hb).
    + intros i b Hb. rewrite at_empty in Hb. destruct Hb.
  - unfold startSched in H. destruct (negb (lstate_eqb (sst s) INITIALISED) || negb (allGone s)) eqn:EG; [discriminate|]. remember (sexec s) as ex0. destruct ex0 as [|x r] eqn:Ex; [discriminate|]. rewrite <- Ex in *. clear x r Ex. subst ex0. injection H as <-.
    constructor; cbn [sst sgraph sexec sadopt smoved szomb swork sbusy sconn]; try assumption; try (intros i l X; apply nth_repeat_some in X as [X _]; discriminate).
    intros _. apply A. intros X. rewrite X in EG. discriminate.
  - destruct (_ && _); [|discriminate]. injection H as <-. constructor; cbn [withState sst sgraph sexec sadopt smoved szomb swork sbusy sconn]; try assumption. intros _. exact (A HR).
  - unfold enter in H. destruct (nth_error (swork s) i) as [[|l|]|] eqn:Ew; try discriminate.
    destruct (nth_error (sexec s) i) as [l|] eqn:Ex; [|discriminate]. injection H as <-.
    constructor; cbn [sst sgraph sexec sadopt smoved szomb swork sbusy sconn]; try assumption.
    intros j m Hj b Hb. apply nth_upd_inv in Hj as [[<- X]|[_ Hj]]; [|exact (D j m Hj b Hb)]. apply (B i). rewrite (at_some _ _ _ Ex). destruct l; [discriminate|injection X as ->; exact Hb].
  - assert (ST : sst s' = sst s).
    { unfold msgSection in H. destruct (nth_error (swork s) i) as [[|l|]|]; try discriminate. destruct (nth_error (sbusy s) i) as [[x|]|]; try discriminate.
      destruct (nth_error (smoved s) i); [|discriminate]. destruct (nth_error (sadopt s) i); [|discriminate]. destruct (nth_error (sexec s) i); [|discriminate].
      destruct (match without _ l with [] => _ | _ => _ end) as [[[zq lq] xq] fq]. injection H as <-. reflexivity. }
    destruct (msgs_weak s i s' H) as (l & l3 & M). destruct M as [mw_live0 mw_idle0 mw_graph0 mw_conn0 mw_l4 mw_ad30 mw_ex0 mw_ad0 mw_mv0 mw_wk0 mw_bz0 mw_z0].
    assert (L3 : incl l3 (sconn s)). { intros b X. apply mw_l4 in X as [[X Y]|X]; [exact (D i l mw_live0 b X)|exact (C i b X)]. }
    constructor; rewrite mw_conn0.
    + rewrite ST, mw_graph0. exact A.
    + intros j b X. apply mw_ex0 in X as [X|[_ X]]; [exact (B j b X)|exact (C i b X)].
    + intros j b. rewrite mw_ad0, at_upd. destruct (_ && _); [intros []|apply C].
    + intros j m Hj. rewrite mw_wk0 in Hj. apply nth_upd_inv in Hj as [[<- X]|[Hij Hj]]; [injection X as ->; exact L3|exact (D j m Hj)].
    + intros j m Hj. rewrite mw_bz0 in Hj. apply nth_upd_inv in Hj as [[<- X]|[Hij Hj]]; [injection X as ->; exact L3|exact (E j m Hj)].
  - unfold workSection in H. destruct (nth_error (swork s) i) as [[|l|]|] eqn:Ew; try discriminate.
    destruct (nth_error (sbusy s) i) as [[y|]|] eqn:Eb; try discriminate. destruct (nth_error (smoved s) i) as [mv|] eqn:Em; [|discriminate].
    injection H as <-.
    assert (L1 : incl (without mv l) (sconn s)). { intros b. rewrite without_In. intros [X Y]. exact (D i l Ew b X). }
    constructor; cbn [sst sgraph sexec sadopt smoved szomb swork sbusy sconn]; try assumption.
    + intros j m Hj. apply nth_upd_inv in Hj as [[<- X]|[Hij Hj]]; [injection X as ->; exact L1|exact (D j m Hj)].
    + intros j m Hj. apply nth_upd_inv in Hj as [[<- X]|[Hij Hj]]; [|exact (E j m Hj)]. destruct (without mv l) as [|y r]; [discriminate|]. injection X as ->. exact L1.
  - unfold endSection in H. destruct (nth_error (sbusy s) i) as [[y|]|] eqn:Eb; try discriminate. injection H as <-.
    constructor; cbn [sst sgraph sexec sadopt smoved szomb swork sbusy sconn]; try assumption.
    intros j m Hj. apply nth_upd_inv in Hj as [[<- X]|[Hij Hj]]; [discriminate|exact (E j m Hj)].
  - unfold leave in H. destruct (nth_error (swork s) i) as [[|l|]|] eqn:Ew; try discriminate.
    destruct (nth_error (sbusy s) i) as [[y|]|] eqn:Eb; try discriminate. injection H as <-.
    constructor; cbn [sst sgraph sexec sadopt smoved szomb swork sbusy sconn]; try assumption.
    intros j m Hj. apply nth_upd_inv in Hj as [[<- X]|[Hij Hj]]; [discriminate|exact (D j m Hj)].
  - destruct (known s b); [discriminate|]. injection H as <-. apply wired_but, adopt_wired, graph_wired; [exact HW|]. intros x Hx. apply in_app_iff in Hx. tauto.
  - destruct (memb b (sgraph s)); [|discriminate]. injection H as <-. apply wired_but, zombie_wired, graph_wired; [exact HW|]. intros x Hx. apply without_In in Hx. tauto.
  - destruct HR.
  - destruct (_ || _); [discriminate|]. injection H as <-. apply wired_but, adopt_wired.
    assert (WG : WiredBut (withGraph s (without bs (sgraph s) ++ [g])) [g]).
    { apply graph_wired; [exact HW|]. intros x Hx. rewrite in_app_iff, without_In in Hx. tauto. }
    destruct (removeBlocks_weak bs (withGraph s (without bs (sgraph s) ++ [g]))) as (R1 & R2 & R3 & R4 & R5 & R6 & R7 & R8 & R9).
    destruct WG as [A' B' C' D' E']. constructor; rewrite R5.
    + rewrite R6, R1. exact A'.
    + intros i b X. exact (B' i b (R7 i b X)).
    + intros i b X. exact (C' i b (R8 i b X)).
    + rewrite R2. exact D'.
    + rewrite R3. exact E'.
  - destruct (_ || _); [discriminate|]. injection H as <-. apply adoptAll_wired, zombie_wired, graph_wired; [exact HW|]. intros x Hx. rewrite in_app_iff, without_In in Hx. tauto.
  - destruct HR.
  - destruct HR.
  - injection H as <-. constructor; assumption.
Qed.

Lemma wired_run c l : forall s s', 1 <= cthreads c -> Wired s -> obeys regular c s l -> run c s l = Next s' -> Wired s'.
Proof.
  induction l as [|a l IH]; intros s s' Hc HI HO H; cbn [run obeys] in *; [congruence|]. destruct HO as [HT HO].
  destruct (step c s a) as [t| |] eqn:E; try discriminate. exact (IH t s' Hc (wired_step c s a t Hc HI HT E) HO H).
Qed.

Lemma wired_initial g : Wired (initial g).
Proof.
  constructor; cbn [initial sst sgraph sexec sadopt smoved szomb swork sbusy sconn]; try congruence; try (intros [|i]; discriminate);
    intros i b H; rewrite at_out in H by (cbn; lia); destruct H.
Qed.

(** ** Published lists *)

Record Pub (s : Sched) : Prop := {
  pu_live : forall i l, nth_error (swork s) i = Some (Live l) ->
    incl (at_ (sexec s) i) l /\ incl (at_ (smoved s) i) l /\ forall b, In b (at_ (smoved s) i) -> ~ In b (at_ (sexec s) i);
  pu_mv : forall i, (forall l, nth_error (swork s) i <> Some (Live l)) -> at_ (smoved s) i = [];
  pu_len : isActive (sst s) = true -> length (sexec s) <= length (swork s) }.

Lemma adopt_pub c x s : Pub s -> Pub (adoptBlock c x s).
Proof. intros [A B L]. destruct (adoptBlock_same c x s) as (E1 & E2 & E3 & E4 & E5 & E6 & E7). constructor; rewrite ?E1, ?E4, ?E5, ?E7; assumption. Qed.

Lemma adoptAll_pub c xs s : Pub s -> Pub (fold_left (fun t b => adoptBlock c b t) xs s).
Proof. pose proof (adoptAll_same c xs s) as S. cbv zeta in S. destruct S as (E1 & E2 & E3 & E4 & E5 & E6 & E7). intros [A B L]. constructor; rewrite ?E1, ?E4, ?E5, ?E7; assumption. Qed.

Lemma zombie_pub x s : Pub s -> Pub (makeZombie x s).
Proof. intros [A B L]. destruct (makeZombie_same x s) as (E1 & E2 & E3 & E4 & E5 & E6 & E7 & E8). constructor; rewrite ?E1, ?E3, ?E4, ?E6; assumption. Qed.

Lemma graph_pub s g : Pub s -> Pub (withGraph s g).
Proof. intros [A B L]. constructor; assumption. Qed.

Lemma gone_moved s : Pub s -> allGone s = true -> forall i, at_ (smoved s) i = [].
Proof. intros HP HG i. apply (pu_mv s HP). intros l X. apply (allGone_nth s i _ HG) in X. discriminate. Qed.

Lemma at_resize n l i : (forall j, at_ l j = []) -> at_ (resize n l) i = [].
Proof.
  intros H. unfold resize, at_. destruct (lt_dec i (length (firstn n l))) as [L|L].
  - rewrite app_nth1 by exact L. specialize (H i). unfold at_ in H. rewrite <- (firstn_skipn n l) in H. rewrite app_nth1 in H by exact L. exact H.
  - rewrite app_nth2 by lia. destruct (lt_dec (i - length (firstn n l)) (n - length l)) as [M|M]; [|apply nth_overflow; rewrite repeat_length; lia].
    apply nth_repeat.
Qed.

Lemma pub_gone s s' : Pub s -> allGone s = true -> swork s' = swork s -> smoved s' = smoved s -> isActive (sst s') = false -> Pub s'.
Proof.
  intros HP HG E1 E2 E3. constructor; [rewrite E1, E2|rewrite E1, E2; apply (pu_mv s HP)|congruence]. intros i l X. apply (allGone_nth s i _ HG) in X. discriminate.
Qed.

Lemma pub_step c s a s' : 1 <= cthreads c -> Inv s -> Pub s -> tidy s a -> step c s a = Next s' -> Pub s'.
Proof.
  intros Hc HV HP [HT HD] H. destruct HV as [HI _]. pose proof HP as [A B LN]. destruct a; cbn [step timely tidy] in H, HT, HD.
  - destruct (lstate_eqb (sst s) IDLE); [|discriminate]. injection H as <-. apply (pub_gone s); [exact HP|exact HT|reflexivity|reflexivity|reflexivity].
  - destruct (_ || _); [|discriminate]. injection H as <-. apply (pub_gone s); [exact HP|exact HT|reflexivity|reflexivity|reflexivity].
  - unfold startSched in H. destruct (negb (lstate_eqb (sst s) INITIALISED) || negb (allGone s)) eqn:EG; [discriminate|].
    apply orb_false_elim in EG as [_ EG]. apply negb_false_iff in EG. remember (sexec s) as ex0. destruct ex0 as [|x r] eqn:Ex; [discriminate|]. rewrite <- Ex in *. clear x r Ex. subst ex0. injection H as <-. constructor; cbn [sst sgraph sexec sadopt smoved szomb swork sbusy].
    + intros i l X. apply nth_repeat_some in X as [X _]. discriminate.
    + intros i _. apply at_resize. exact (gone_moved s HP EG).
    + intros _. rewrite repeat_length. lia.
  - destruct (isValidTransition (sst s) v && negb (lstate_eqb v INITIALISED) && negb (lstate_eqb (sst s) INITIALISED && lstate_eqb v RUNNING)) eqn:E; [|discriminate].
    injection H as <-. apply andb_prop in E as [E E3]. apply andb_prop in E as [E1 E2]. apply negb_true_iff in E2, E3.
    constructor; cbn [withState sst sgraph sexec sadopt smoved szomb swork sbusy]; try assumption. intros HA. apply LN. exact (active_from _ _ E1 E2 E3 HA).
  - unfold enter in H. destruct (nth_error (swork s) i) as [[|l|]|] eqn:Ew; try discriminate.
    destruct (nth_error (sexec s) i) as [l|] eqn:Ex; [|discriminate]. injection H as <-.
    assert (M : at_ (smoved s) i = []) by (apply B; intros m; congruence).
    constructor; cbn [sst sgraph sexec sadopt smoved szomb swork sbusy].
    + intros j m Hj. apply nth_upd_inv in Hj as [[<- X]|[_ Hj]]; [|exact (A j m Hj)].
      assert (m = l) as -> by (destruct l; [discriminate|injection X as ->; reflexivity]). rewrite M, (at_some _ _ _ Ex). split; [intros b Hb; exact Hb|]. split; intros b [].
    + intros j Hj. destruct (Nat.eq_dec i j) as [<-|Hij]; [exact M|]. apply B. intros m X. apply (Hj m). rewrite nth_upd_other by exact Hij. exact X.
    + intros HA. rewrite length_upd. exact (LN HA).
  - destruct (msgs_spec s i s' HI H) as (l & rm & M). destruct M as [md_live0 md_idle0 md_i0 md_rm0 md_st0 md_graph0 md_conn0 md_exlen0 md_ex0 md_ad0 md_mv0 md_wk0 md_bz0 md_z10 md_z20 md_z30 md_z40]. destruct md_i0 as (Hi1 & Hi2 & Hi3). destruct (A i l md_live0) as (A1 & A2 & A3).
    assert (MV : without l (at_ (smoved s) i) = []).
    { destruct (without l (at_ (smoved s) i)) as [|y r] eqn:E; [reflexivity|]. exfalso. assert (X : In y (y :: r)) by (left; reflexivity). rewrite <- E in X. apply without_In in X as [X Y]. exact (Y (A2 y X)). }
    constructor.
    + intros j m Hj. rewrite md_wk0 in Hj. rewrite md_mv0, at_upd_in, MV by exact Hi3. apply nth_upd_inv in Hj as [[<- X]|[Hij Hj]].
      * injection X as ->. rewrite Nat.eqb_refl. split; [|split; intros b []]. intros b. rewrite md_ex0, Nat.eqb_refl, !in_app_iff, !without_In. intros [[X Y]|X]; [|tauto].
        left. split; [|exact Y]. split; [exact (A1 b X)|]. intros Z. exact (A3 b Z X).
      * destruct (A j m Hj) as (B1 & B2 & B3). apply Nat.eqb_neq in Hij. rewrite Hij. split; [|split; [exact B2|]].
        -- intros b. rewrite md_ex0, Hij, app_nil_r, without_In. intros [X _]. exact (B1 b X).
        -- intros b Hb. rewrite md_ex0, Hij, app_nil_r, without_In. intros [X _]. exact (B3 b Hb X).
    + intros j Hj. rewrite md_mv0, at_upd_in, MV by exact Hi3. destruct (Nat.eqb_spec i j) as [|Hij]; [reflexivity|]. apply B. intros m X. apply (Hj m). rewrite md_wk0, nth_upd_other by exact Hij. exact X.
    + rewrite md_st0, md_exlen0, md_wk0, length_upd. exact LN.
  - unfold workSection in H. destruct (nth_error (swork s) i) as [[|l|]|] eqn:Ew; try discriminate.
    destruct (nth_error (sbusy s) i) as [[y|]|] eqn:Eb; try discriminate. destruct (nth_error (smoved s) i) as [mv|] eqn:Em; [|discriminate].
    injection H as <-. destruct (A i l Ew) as (A1 & A2 & A3). rewrite (at_some _ _ _ Em) in A2, A3.
    assert (MV : without l mv = []).
    { destruct (without l mv) as [|z r] eqn:E; [reflexivity|]. exfalso. assert (X : In z (z :: r)) by (left; reflexivity). rewrite <- E in X. apply without_In in X as [X Y]. exact (Y (A2 z X)). }
    constructor; cbn [sst sgraph sexec sadopt smoved szomb swork sbusy].
    + intros j m Hj. rewrite MV, at_upd_in by exact (nth_lt _ _ _ Em). apply nth_upd_inv in Hj as [[<- X]|[Hij Hj]].
      * injection X as ->. rewrite Nat.eqb_refl. split; [|split; intros b []]. intros b Hb. apply without_In. split; [exact (A1 b Hb)|]. intros Z. exact (A3 b Z Hb).
      * apply Nat.eqb_neq in Hij. rewrite Hij. exact (A j m Hj).
    + intros j Hj. rewrite MV, at_upd_in by exact (nth_lt _ _ _ Em). destruct (Nat.eqb_spec i j) as [|Hij]; [reflexivity|]. apply B. intros m X. apply (Hj m). rewrite nth_upd_other by exact Hij. exact X.
    + intros HA. rewrite length_upd. exact (LN HA).
  - unfold endSection in H. destruct (nth_error (sbusy s) i) as [[y|]|] eqn:Eb; try discriminate. injection H as <-. constructor; assumption.
  - unfold leave in H. destruct (nth_error (swork s) i) as [[|l|]|] eqn:Ew; try discriminate.
    destruct (nth_error (sbusy s) i) as [[y|]|] eqn:Eb; try discriminate. injection H as <-. constructor; cbn [sst sgraph sexec sadopt smoved szomb swork sbusy].
    + intros j m Hj. apply nth_upd_inv in Hj as [[<- X]|[Hij Hj]]; [discriminate|exact (A j m Hj)].
    + intros j Hj. destruct (Nat.eq_dec i j) as [<-|Hij]; [exact HD|]. apply B. intros m X. apply (Hj m). rewrite nth_upd_other by exact Hij. exact X.
    + intros HA. rewrite length_upd. exact (LN HA).
  - destruct (known s b); [discriminate|]. injection H as <-. apply adopt_pub, graph_pub. exact HP.
  - destruct (memb b (sgraph s)); [|discriminate]. injection H as <-. apply zombie_pub, graph_pub. exact HP.
  - destruct (_ && _); [|discriminate]. injection H as <-. apply zombie_pub, graph_pub. exact HP.
  - destruct (negb (allIdle s) || known s g || negb (forallb (fun b => memb b (sgraph s)) bs)) eqn:E; [discriminate|]. injection H as <-.
    apply orb_false_elim in E as [E _]. apply orb_false_elim in E as [E _]. apply negb_false_iff in E. destruct HD as [HA HL]. apply adopt_pub.
    unfold removeBlocks. cbn [withGraph sst]. rewrite HA.
    pose proof (il_mv _ _ _ _ _ _ HI HA) as LL.
    unfold removeRunning. cbn [withGraph sst sgraph sexec sadopt smoved szomb swork sbusy sbst sconn]. destruct (eraseFromAdoption bs bs (sadopt s)) as [todo ad].
    constructor; cbn [sst sgraph sexec sadopt smoved szomb swork sbusy].
    + intros i l Hi. destruct (A i l Hi) as (A1 & A2 & A3). rewrite moved_at, at_map_without by exact LL. split; [|split].
      * intros b Hb. apply without_In in Hb. exact (A1 b (proj1 Hb)).
      * intros b Hb. rewrite in_app_iff, within_In in Hb. destruct Hb as [Hb|[Hb _]]; [exact (A2 b Hb)|exact (A1 b Hb)].
      * intros b Hb. rewrite in_app_iff, within_In in Hb. rewrite without_In. intros [X Y]. destruct Hb as [Hb|[_ Hb]]; [exact (A3 b Hb X)|exact (Y Hb)].
    + intros i Hi. rewrite moved_at by exact LL. rewrite (B i Hi). cbn [app].
      destruct (lt_dec i (length (swork s))) as [L|L].
      * exfalso. destruct (nth_some (swork s) i L) as (p & Ep). destruct (HL i p Ep) as (l & ->). exact (Hi l Ep).
      * specialize (LN HA). rewrite (at_out (sexec s)) by lia. reflexivity.
    + intros _. rewrite map_length. exact (LN HA).
  - destruct (_ || _); [discriminate|]. injection H as <-. apply adoptAll_pub, zombie_pub, graph_pub. exact HP.
  - destruct (known s b); [discriminate|]. injection H as <-. apply graph_pub. exact HP.
  - destruct (isActive (sst s) || negb (distinct g) || existsb (known s) g) eqn:E; [discriminate|]. injection H as <-.
    apply orb_false_elim in E as [E _]. apply orb_false_elim in E as [E _]. apply graph_pub. destruct (_ || _); [|exact HP].
    apply (pub_gone s); [exact HP|exact HT|reflexivity|reflexivity|exact E].
  - injection H as <-. constructor; assumption.
Qed.

Lemma obeys_weaker (P Q : Sched -> Act -> Prop) c : (forall s a, P s a -> Q s a) -> forall l s, obeys P c s l -> obeys Q c s l.
Proof.
  intros H. induction l as [|a l IH]; intros s HO; cbn [obeys] in *; [exact I|]. destruct HO as [X Y]. split; [exact (H s a X)|].
  destruct (step c s a); try exact I. exact (IH s0 Y).
Qed.

Lemma pub_run c l : forall s s', 1 <= cthreads c -> Inv s -> Pub s -> obeys tidy c s l -> run c s l = Next s' -> Inv s' /\ Pub s'.
Proof.
  induction l as [|a l IH]; intros s s' Hc HI HP HO H; cbn [run obeys] in *; [injection H as <-; tauto|]. destruct HO as [HT HO].
  destruct (step c s a) as [t| |] eqn:E; try discriminate.
  exact (IH t s' Hc (step_inv c s a t Hc HI (proj1 HT) E) (pub_step c s a t Hc HI HP HT E) HO H).
Qed.

Lemma pub_initial g : Pub (initial g).
Proof. constructor; cbn [initial sst sgraph sexec sadopt smoved szomb swork sbusy]; [intros [|i]; discriminate|intros i _; apply at_out; cbn; lia|discriminate]. Qed.

Lemma pub_handles s i l : Inv s -> Pub s -> handling s i l -> forall b, In b l <-> In b (jobs s i).
Proof.
  intros [HI _] HP H b. destruct (il_busy _ _ _ _ _ _ HI i l H) as [A B]. split; [apply B|]. exact (proj1 (pu_live s HP i l A) b).
Qed.
