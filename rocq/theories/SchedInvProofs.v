(** Proofs about who runs which block: the invariant is kept by every timely step. *)
From Coq Require Import NArith Bool Arith Lia List.
From Verif Require Import Base LifecycleModel.
From Verif Require TopoModel TopoSpec TopoSearch TopoMoreProofs TopoNameProofs.
From Verif Require Import SchedModel SchedSpec SchedOwnProofs.
Import ListNotations.
Local Open Scope nat_scope.

Record InvL (st : lstate) (ex ad mv : list (list nat)) (wk : list Phase) (bz : list (option (list nat))) : Prop := {
  il_len : length ad = length ex;
  il_ex : single ex; il_ad : single ad; il_apart : apart ex ad;
  il_mv : isActive st = true -> length mv = length ex;
  il_in : forall i p, nth_error wk i = Some p -> p <> Gone -> i < length ex /\ i < length mv;
  il_live : forall i l, nth_error wk i = Some (Live l) -> NoDup l /\ forall b, In b l -> In b (at_ mv i) \/ In b (at_ ex i);
  il_busy : forall i l, nth_error bz i = Some (Some l) -> nth_error wk i = Some (Live l) /\ incl l (at_ ex i);
  il_n : length bz = length wk }.

Definition InvS (s : Sched) : Prop := InvL (sst s) (sexec s) (sadopt s) (smoved s) (swork s) (sbusy s).

Definition Inv (s : Sched) : Prop := InvS s /\ NoDup (sgraph s ++ szomb s).

(** ** Parts of steps *)

Lemma at_empty {A} (l : list A) i : at_ (map (fun _ => []) l) i = [].
Proof. unfold at_. revert i; induction l as [|x l IH]; intros [|i]; cbn [map nth]; try reflexivity. apply IH. Qed.

Lemma single_empty {A} (l : list A) : single (map (fun _ => []) l).
Proof. split; [intros i; rewrite at_empty; constructor|]. intros i j b H. rewrite at_empty in H. destruct H. Qed.

Lemma single_nil : single [].
Proof. split; [intros i; rewrite at_out by (cbn; lia); constructor|]. intros i j b H. rewrite at_out in H by (cbn; lia). destruct H. Qed.

Lemma NoDup_nth_error_of {A} (l : list A) : (forall m m' x, nth_error l m = Some x -> nth_error l m' = Some x -> m = m') -> NoDup l.
Proof.
  intros H. apply NoDup_nth_error. intros i j Hi E. destruct (nth_some l i Hi) as (x & Ex). apply (H i j x Ex). congruence.
Qed.

Lemma jobsOf_single c g : 1 <= cthreads c -> NoDup g -> single (jobsOf c g).
Proof.
  intros Hc HN. unfold jobsOf. destruct g as [|x g].
  - cbn [length]. assert (E : concat (TopoModel.batchBlocks [] (TopoModel.nBatches (cpol c) (cthreads c) 0)) = []) by apply TopoNameProofs.jobs_empty.
    split.
    + intros i. destruct (at_ (TopoModel.batchBlocks [] (TopoModel.nBatches (cpol c) (cthreads c) 0)) i) as [|y r] eqn:Ey; [constructor|].
      exfalso. assert (H : In y []); [|destruct H]. rewrite <- E. apply (at_in_concat _ i). rewrite Ey. left. reflexivity.
    + intros i j b H _. apply at_in_concat in H. rewrite E in H. destruct H.
  - pose proof (TopoNameProofs.nBatches_pos (cpol c) (cthreads c) (length (x :: g)) Hc ltac:(cbn; lia)) as Hn.
    pose proof (TopoSearch.batch_roundRobin (x :: g) _ Hn) as HR. remember (TopoModel.batchBlocks (x :: g) _) as jb.
    pose proof (TopoMoreProofs.roundRobin_unique _ _ _ Hn HR HN) as U. split.
    + intros i. apply NoDup_nth_error_of. intros m m' b Hm Hm'.
      destruct (lt_dec i (length jb)) as [L|L]; [|rewrite at_out in Hm by lia; destruct m; discriminate].
      destruct (nth_some jb i L) as (l & El). rewrite (at_some _ _ _ El) in Hm, Hm'. exact (proj2 (U b i i l l m m' El Hm El Hm')).
    + intros i j b Hi Hj.
      destruct (lt_dec i (length jb)) as [L|L]; [|rewrite at_out in Hi by lia; destruct Hi].
      destruct (lt_dec j (length jb)) as [M|M]; [|rewrite at_out in Hj by lia; destruct Hj].
      destruct (nth_some jb i L) as (l & El). destruct (nth_some jb j M) as (m & Em). rewrite (at_some _ _ _ El) in Hi. rewrite (at_some _ _ _ Em) in Hj.
      apply In_nth_error in Hi as (p & Ep). apply In_nth_error in Hj as (q & Eq). exact (proj1 (U b i j l m p q El Ep Em Eq)).
Qed.

Lemma jobsOf_In c g b : 1 <= cthreads c -> (In b (concat (jobsOf c g)) <-> In b g).
Proof. apply TopoNameProofs.jobs_In. Qed.

Lemma allGone_nth s i p : allGone s = true -> nth_error (swork s) i = Some p -> p = Gone.
Proof.
  unfold allGone. rewrite forallb_forall. intros H Hi. specialize (H p (nth_error_In _ _ Hi)). destruct p; congruence.
Qed.

Lemma allIdle_nth s i o : allIdle s = true -> nth_error (sbusy s) i = Some o -> o = None.
Proof.
  unfold allIdle. rewrite forallb_forall. intros H Hi. specialize (H o (nth_error_In _ _ Hi)). destruct o; congruence.
Qed.

(** With nobody working, the lists may be replaced. *)
Lemma InvL_gone s st ex ad mv : InvS s -> allGone s = true ->
  length ad = length ex -> single ex -> single ad -> apart ex ad -> (isActive st = true -> length mv = length ex) ->
  InvL st ex ad mv (swork s) (sbusy s).
Proof.
  intros HI HG H1 H2 H3 H4 H5. constructor; try assumption.
  - intros i p Hi Hp. rewrite (allGone_nth s i p HG Hi) in Hp. congruence.
  - intros i l Hi. apply (allGone_nth s i _ HG) in Hi. discriminate.
  - intros i l Hi. apply (il_busy _ _ _ _ _ _ HI) in Hi as [Hw _]. apply (allGone_nth s i _ HG) in Hw. discriminate.
  - apply (il_n _ _ _ _ _ _ HI).
Qed.

Lemma InvL_adopt st ex ad mv wk bz b r : InvL st ex ad mv wk bz -> r < length ad -> (forall i, ~ In b (at_ ex i)) -> (forall i, ~ In b (at_ ad i)) ->
  InvL st ex (upd ad r (nth r ad [] ++ [b])) mv wk bz.
Proof.
  intros HI Hr Hx Ha.
  assert (E : forall i x, In x (at_ (upd ad r (nth r ad [] ++ [b])) i) -> In x (at_ ad i) \/ (i = r /\ x = b)).
  { intros i x H. rewrite at_upd_in in H by exact Hr. destruct (Nat.eqb_spec r i) as [->|]; [|left; exact H].
    apply in_app_iff in H as [H|[H|[]]]; [left; exact H|right; split; [reflexivity|congruence]]. }
  constructor; try apply HI.
  - rewrite length_upd. apply HI.
  - split.
    + intros i. rewrite at_upd_in by exact Hr. destruct (Nat.eqb_spec r i) as [->|]; [|apply (il_ad _ _ _ _ _ _ HI)].
      pose proof (proj1 (il_ad _ _ _ _ _ _ HI) i) as HN. specialize (Ha i). unfold at_ in *.
      apply NoDup_rev in HN. rewrite <- (rev_involutive (nth i ad [] ++ [b])). apply NoDup_rev. rewrite rev_app_distr. cbn [rev app].
      constructor; [rewrite <- in_rev; exact Ha|exact HN].
    + intros i j x Hi Hj. apply E in Hi as [Hi|[-> ->]]; apply E in Hj as [Hj|[-> Ej]]; try subst x.
      * exact (proj2 (il_ad _ _ _ _ _ _ HI) i j x Hi Hj).
      * destruct (Ha _ Hi).
      * destruct (Ha _ Hj).
      * reflexivity.
  - intros i j x Hi Hj. apply E in Hj as [Hj|[-> ->]]; [exact (il_apart _ _ _ _ _ _ HI i j x Hi Hj)|exact (Hx i Hi)].
Qed.

Lemma adoptBlock_inv c b s : InvS s -> (forall i, ~ In b (at_ (sexec s) i)) -> (forall i, ~ In b (at_ (sadopt s) i)) -> InvS (adoptBlock c b s).
Proof.
  intros HI Hx Ha. unfold adoptBlock, InvS, withConn. cbn [sst sgraph sexec sadopt smoved szomb swork sbusy sbst sconn].
  destruct (negb (isActive (sst s))); [exact HI|].
  destruct (Nat.eqb_spec (length (sadopt s)) 0) as [E|E]; [exact HI|]. cbn [sst sgraph sexec sadopt smoved szomb swork sbusy sbst sconn].
  apply InvL_adopt; try assumption. apply Nat.mod_upper_bound. exact E.
Qed.

Lemma adoptBlock_same c b s : sexec (adoptBlock c b s) = sexec s /\ sgraph (adoptBlock c b s) = sgraph s /\ szomb (adoptBlock c b s) = szomb s
  /\ smoved (adoptBlock c b s) = smoved s /\ swork (adoptBlock c b s) = swork s /\ sbusy (adoptBlock c b s) = sbusy s /\ sst (adoptBlock c b s) = sst s.
Proof.
  unfold adoptBlock, withConn. cbn [sst sgraph sexec sadopt smoved szomb swork sbusy sbst sconn].
  destruct (negb (isActive (sst s))); [repeat split|]. destruct (length (sadopt s) =? 0); repeat split.
Qed.

Lemma adoptBlock_adopt c b s i x : In x (at_ (sadopt (adoptBlock c b s)) i) -> In x (at_ (sadopt s) i) \/ x = b.
Proof.
  unfold adoptBlock, withConn. cbn [sst sgraph sexec sadopt smoved szomb swork sbusy sbst sconn].
  destruct (negb (isActive (sst s))); [tauto|]. destruct (length (sadopt s) =? 0); [tauto|]. cbn [sadopt].
  rewrite at_upd. destruct (_ && _) eqn:E; [|tauto]. apply andb_prop in E as [E _]. apply Nat.eqb_eq in E. subst i.
  rewrite in_app_iff. unfold at_. cbn [In]. intros [H|[H|[]]]; [left; exact H|right; congruence].
Qed.

Lemma adoptAll_inv c bs : forall s, NoDup bs -> InvS s -> (forall b, In b bs -> (forall i, ~ In b (at_ (sexec s) i)) /\ (forall i, ~ In b (at_ (sadopt s) i))) ->
  InvS (fold_left (fun t b => adoptBlock c b t) bs s).
Proof.
  induction bs as [|b bs IH]; intros s HN HI H; cbn [fold_left]; [exact HI|]. inversion HN as [|? ? Hb HN']; subst.
  apply IH; [exact HN'| |].
  - apply adoptBlock_inv; [exact HI| |]; apply (H b (or_introl eq_refl)).
  - intros x Hx. destruct (H x (or_intror Hx)) as [A B]. split.
    + intros i. rewrite (proj1 (adoptBlock_same c b s)). apply A.
    + intros i Hi. apply adoptBlock_adopt in Hi as [Hi| ->]; [exact (B i Hi)|contradiction].
Qed.

Lemma adoptAll_same c bs : forall s, let t := fold_left (fun t b => adoptBlock c b t) bs s in
  sexec t = sexec s /\ sgraph t = sgraph s /\ szomb t = szomb s /\ smoved t = smoved s /\ swork t = swork s /\ sbusy t = sbusy s /\ sst t = sst s.
Proof.
  induction bs as [|b bs IH]; intros s; cbn [fold_left]; [repeat split|]. cbv zeta.
  specialize (IH (adoptBlock c b s)). cbv zeta in IH. destruct IH as (A & B & C & D & E & F & G).
  destruct (adoptBlock_same c b s) as (A' & B' & C' & D' & E' & F' & G').
  rewrite A, B, C, D, E, F, G. tauto.
Qed.

Lemma adoptAll_adopt c bs : forall s i x, In x (at_ (sadopt (fold_left (fun t b => adoptBlock c b t) bs s)) i) -> In x (at_ (sadopt s) i) \/ In x bs.
Proof.
  induction bs as [|b bs IH]; intros s i x H; cbn [fold_left] in H; [left; exact H|].
  apply IH in H as [H|H]; [|right; right; exact H]. apply adoptBlock_adopt in H as [H| ->]; [left; exact H|right; left; reflexivity].
Qed.

Lemma makeZombie_inv b s : InvS s -> InvS (makeZombie b s).
Proof.
  intros HI. unfold makeZombie. destruct (eraseAdoption b (sadopt s)) as [ad|] eqn:E; [|exact HI].
  unfold InvS. cbn [sst sgraph sexec sadopt smoved szomb swork sbusy sbst sconn].
  destruct (eraseAdoption_spec _ _ _ E) as (A & B & C). constructor; try apply HI.
  - rewrite A. apply HI.
  - apply (single_sub (sadopt s)); [apply HI|apply C; apply HI|exact B].
  - intros i j x Hi Hj. exact (il_apart _ _ _ _ _ _ HI i j x Hi (B j x Hj)).
Qed.

Lemma makeZombie_same b s : sexec (makeZombie b s) = sexec s /\ sgraph (makeZombie b s) = sgraph s /\ smoved (makeZombie b s) = smoved s
  /\ swork (makeZombie b s) = swork s /\ sbusy (makeZombie b s) = sbusy s /\ sst (makeZombie b s) = sst s /\
  (szomb (makeZombie b s) = szomb s \/ szomb (makeZombie b s) = szomb s ++ [b]) /\
  (forall i x, In x (at_ (sadopt (makeZombie b s)) i) -> In x (at_ (sadopt s) i)).
Proof.
  unfold makeZombie. destruct (eraseAdoption b (sadopt s)) as [ad|] eqn:E; cbn [sst sgraph sexec sadopt smoved szomb swork sbusy sbst sconn].
  - repeat (split; [reflexivity|]). split; [left; reflexivity|]. apply (eraseAdoption_spec _ _ _ E).
  - repeat (split; [reflexivity|]). split; [right; reflexivity|]. tauto.
Qed.

Lemma efa_spec all : forall ls todo, let '(todo', ls') := eraseFromAdoption all todo ls in
  length ls' = length ls /\ (forall i, at_ ls' i = without all (at_ ls i)) /\
  (forall x, In x todo' <-> In x todo /\ forall i, ~ In x (at_ ls i)).
Proof.
  induction ls as [|l r IH]; intros todo; cbn [eraseFromAdoption].
  - split; [reflexivity|]. split; [intros i; rewrite at_out by (cbn; lia); reflexivity|].
    intros x. split; [intros H; split; [exact H|]; intros i; rewrite at_out by (cbn; lia); tauto|tauto].
  - specialize (IH (without l todo)). destruct (eraseFromAdoption all (without l todo) r) as [todo' r'].
    destruct IH as (A & B & C). split; [cbn; congruence|]. split; [intros [|i]; [reflexivity|exact (B i)]|].
    intros x. rewrite C, without_In. split.
    + intros [[H1 H2] H3]. split; [exact H1|]. intros [|i]; [exact H2|exact (H3 i)].
    + intros [H1 H2]. split; [split; [exact H1|exact (H2 0)]|]. intros i. exact (H2 (S i)).
Qed.

Lemma combine_len {A B} (l : list A) (m : list B) : length l = length m -> length (combine l m) = length l.
Proof. intros H. rewrite combine_length, <- H. apply Nat.min_id. Qed.

Lemma moved_at todo : forall ex mv i, length mv = length ex ->
  at_ (map (fun p => snd p ++ within todo (fst p)) (combine ex mv) ++ skipn (length ex) mv) i = at_ mv i ++ within todo (at_ ex i).
Proof.
  induction ex as [|e ex IH]; intros [|m mv] i HL; cbn [length] in HL; try discriminate.
  - rewrite !at_out by (cbn; lia). reflexivity.
  - cbn [combine map skipn length app]. destruct i as [|i]; [reflexivity|]. apply (IH mv i). lia.
Qed.

Lemma removeRunning_inv bs s : InvS s -> allIdle s = true -> isActive (sst s) = true ->
  InvS (removeRunning bs s) /\
  (forall i, at_ (sexec (removeRunning bs s)) i = without bs (at_ (sexec s) i)) /\
  (forall i, at_ (sadopt (removeRunning bs s)) i = without bs (at_ (sadopt s) i)) /\
  (forall i, incl (at_ (smoved s) i) (at_ (smoved (removeRunning bs s)) i)) /\
  (forall i b, In b bs -> In b (at_ (sexec s) i) -> In b (at_ (smoved (removeRunning bs s)) i)).
Proof.
  intros HI HD HA. unfold removeRunning. pose proof (efa_spec bs (sadopt s) bs) as H.
  destruct (eraseFromAdoption bs bs (sadopt s)) as [todo ad]. destruct H as (A & B & C).
  pose proof (il_mv _ _ _ _ _ _ HI HA) as HL.
  assert (W : forall i, without todo (at_ (sexec s) i) = without bs (at_ (sexec s) i)).
  { intros i. unfold without. apply filter_ext_in. intros x Hx. f_equal. apply eq_true_iff_eq. rewrite !memb_In, C.
    split; [tauto|]. intros Hb. split; [exact Hb|]. intros j Hj. exact (il_apart _ _ _ _ _ _ HI i j x Hx Hj). }
  cbn [sst sgraph sexec sadopt smoved szomb swork sbusy sbst sconn]. unfold InvS. cbn [sst sgraph sexec sadopt smoved szomb swork sbusy sbst sconn].
  assert (LM : length (map (fun p : list nat * list nat => snd p ++ within todo (fst p)) (combine (sexec s) (smoved s)) ++ skipn (length (sexec s)) (smoved s)) = length (smoved s)).
  { rewrite app_length, map_length, combine_len, skipn_length by (symmetry; exact HL). lia. }
  split.
  - constructor.
    + rewrite A, map_length. apply HI.
    + apply (single_sub (sexec s)); [apply HI| |]; intros i; rewrite at_map_without; [apply NoDup_without; apply HI|].
      intros b Hb. apply without_In in Hb. tauto.
    + apply (single_sub (sadopt s)); [apply HI| |]; intros i; rewrite B; [apply NoDup_without; apply HI|].
      intros b Hb. apply without_In in Hb. tauto.
    + intros i j b. rewrite at_map_without, B, !without_In. intros [Hi _] [Hj _]. exact (il_apart _ _ _ _ _ _ HI i j b Hi Hj).
    + intros _. rewrite LM, map_length. exact HL.
    + intros i p Hi Hp. rewrite LM, map_length. exact (il_in _ _ _ _ _ _ HI i p Hi Hp).
    + intros i l Hi. destruct (il_live _ _ _ _ _ _ HI i l Hi) as [HN HB]. split; [exact HN|]. intros b Hb.
      rewrite moved_at, at_map_without, in_app_iff, within_In, without_In by exact HL.
      destruct (HB b Hb) as [H|H]; [tauto|]. destruct (in_dec Nat.eq_dec b todo); tauto.
    + intros i l Hi. apply (allIdle_nth s i _ HD) in Hi. discriminate.
    + apply HI.
  - split; [intros i; rewrite at_map_without; apply W|]. split; [exact B|]. split.
    + intros i b Hb. rewrite moved_at by exact HL. apply in_app_iff. left. exact Hb.
    + intros i b Hb Hi. rewrite moved_at by exact HL. apply in_app_iff. right. apply within_In. split; [exact Hi|].
      apply C. split; [exact Hb|]. intros j Hj. exact (il_apart _ _ _ _ _ _ HI i j b Hi Hj).
Qed.

(** ** The message section *)

Record MsgsDone (s : Sched) (i : nat) (s' : Sched) (l rm : list nat) : Prop := {
  md_live : nth_error (swork s) i = Some (Live l); md_idle : nth_error (sbusy s) i = Some None;
  md_i : i < length (sexec s) /\ i < length (sadopt s) /\ i < length (smoved s);
  md_rm : forall b, In b rm -> In b l /\ ~ In b (at_ (smoved s) i) /\ In b (szomb s) /\ stopped (sbst s b) = true;
  md_st : sst s' = sst s; md_graph : sgraph s' = sgraph s; md_conn : sconn s' = sconn s;
  md_exlen : length (sexec s') = length (sexec s);
  md_ex : forall j, at_ (sexec s') j = without rm (at_ (sexec s) j) ++ (if i =? j then at_ (sadopt s) i else []);
  md_ad : sadopt s' = upd (sadopt s) i [];
  md_mv : smoved s' = upd (smoved s) i (without l (at_ (smoved s) i));
  md_wk : swork s' = upd (swork s) i (Live (without rm (without (at_ (smoved s) i) l) ++ at_ (sadopt s) i));
  md_bz : sbusy s' = upd (sbusy s) i (Some (without rm (without (at_ (smoved s) i) l) ++ at_ (sadopt s) i));
  md_z1 : forall z, In z (szomb s') -> In z (szomb s);
  md_z2 : NoDup (szomb s) -> NoDup (szomb s') /\ forall z, In z (szomb s) -> (In z (szomb s') <-> ~ In z rm);
  md_z3 : NoDup (szomb s) -> forall z, In z (szomb s) -> In z l -> ~ In z (at_ (smoved s) i) -> stopped (sbst s z) = true -> In z rm;
  md_z4 : NoDup (szomb s) -> forall b, sbst s' b = sbst s b \/
    (In b (szomb s') /\ In b l /\ ~ In b (at_ (smoved s) i) /\ sbst s b = PAUSED /\ sbst s' b = REQUESTED_STOP) }.

Lemma msgs_spec s i s' : InvS s -> msgSection s i = Next s' -> exists l rm, MsgsDone s i s' l rm.
Proof.
  intros HI H. unfold msgSection in H.
  destruct (nth_error (swork s) i) as [[|l|]|] eqn:Ew; try discriminate.
  destruct (nth_error (sbusy s) i) as [[x|]|] eqn:Eb; try discriminate.
  destruct (nth_error (smoved s) i) as [mv|] eqn:Em; [|discriminate].
  destruct (nth_error (sadopt s) i) as [ad|] eqn:Ea; [|discriminate].
  destruct (nth_error (sexec s) i) as [ex0|] eqn:Ex; [|discriminate].
  destruct (il_live _ _ _ _ _ _ HI i l Ew) as [HN HB].
  pose proof (at_some _ _ _ Em) as Em'. pose proof (at_some _ _ _ Ea) as Ea'.
  assert (Z : let '(zs, l2, ex, f) := match without mv l with [] => (szomb s, without mv l, sexec s, sbst s) | _ => cleanZ (szomb s) (without mv l) (sexec s) (sbst s) end in
    exists rm, (forall b, In b rm -> In b (without mv l) /\ In b (szomb s) /\ stopped (sbst s b) = true) /\
    l2 = without rm (without mv l) /\ length ex = length (sexec s) /\ (forall j, at_ ex j = without rm (at_ (sexec s) j)) /\
    (forall z, In z zs -> In z (szomb s)) /\ (NoDup (szomb s) -> NoDup zs /\ forall z, In z (szomb s) -> (In z zs <-> ~ In z rm)) /\
    (NoDup (szomb s) -> forall z, In z (szomb s) -> In z (without mv l) -> stopped (sbst s z) = true -> In z rm) /\
    (NoDup (szomb s) -> forall b, f b = sbst s b \/ (In b zs /\ In b (without mv l) /\ sbst s b = PAUSED /\ f b = REQUESTED_STOP))).
  { destruct (without mv l) as [|y r] eqn:El.
    - exists []. split; [intros b []|]. split; [reflexivity|]. split; [reflexivity|]. split; [intros j; symmetry; apply without_none|].
      split; [tauto|]. split; [intros HZ; split; [exact HZ|]; intros z Hz; cbn; tauto|]. split; [intros _ z _ []|]. intros _ b. left. reflexivity.
    - apply cleanZ_spec; [|apply HI]. rewrite <- El. apply NoDup_without. exact HN. }
  destruct (match without mv l with [] => (szomb s, without mv l, sexec s, sbst s) | _ => cleanZ (szomb s) (without mv l) (sexec s) (sbst s) end) as [[[zs l2] ex] f].
  destruct Z as (rm & R1 & R2 & R3 & R4 & R5 & R6 & R7 & R8). injection H as <-.
  exists l, rm. constructor; cbn [sst sgraph sexec sadopt smoved szomb swork sbusy sbst sconn]; try reflexivity; try assumption.
  - split; [exact (nth_lt _ _ _ Ex)|]. split; [exact (nth_lt _ _ _ Ea)|exact (nth_lt _ _ _ Em)].
  - intros b Hb. destruct (R1 b Hb) as (A & B & C). apply without_In in A. rewrite Em'. tauto.
  - rewrite length_upd. exact R3.
  - intros j. rewrite at_upd_in by (rewrite R3; exact (nth_lt _ _ _ Ex)). destruct (Nat.eqb_spec i j) as [->|].
    + change (nth j ex []) with (at_ ex j). rewrite R4, Ea'. reflexivity.
    + rewrite R4, app_nil_r. reflexivity.
  - rewrite Em'. reflexivity.
  - rewrite Em', Ea', R2. reflexivity.
  - rewrite Em', Ea', R2. reflexivity.
  - intros HZ z H1 H2 H3 H4. apply (R7 HZ z H1); [|exact H4]. rewrite Em' in H3. apply without_In. tauto.
  - intros HZ b. destruct (R8 HZ b) as [E|(A & B & C & D)]; [left; exact E|]. apply without_In in B. rewrite Em'. right. tauto.
Qed.

Lemma NoDup_app_of {A} (l m : list A) : NoDup l -> NoDup m -> (forall x, In x l -> In x m -> False) -> NoDup (l ++ m).
Proof.
  intros Hl Hm H. induction l as [|x l IH]; cbn [app]; [exact Hm|]. inversion Hl as [|? ? Hx Hl']; subst. constructor.
  - rewrite in_app_iff. intros [X|X]; [contradiction|]. exact (H x (or_introl eq_refl) X).
  - apply IH; [exact Hl'|]. intros y Hy. apply H. right. exact Hy.
Qed.

Lemma NoDup_app_l {T} (l m : list T) : NoDup (l ++ m) -> NoDup l /\ NoDup m /\ forall x, In x l -> In x m -> False.
Proof.
  induction l as [|x l IH]; cbn [app]; intros H; [split; [constructor|split; [exact H|intros x []]]|].
  inversion H as [|? ? Hx Hl]; subst. destruct (IH Hl) as (A & B & C). rewrite in_app_iff in Hx.
  split; [constructor; [tauto|exact A]|]. split; [exact B|]. intros y [->|Hy] Hm; [tauto|exact (C y Hy Hm)].
Qed.

Lemma msgs_inv s i s' l rm : InvS s -> MsgsDone s i s' l rm -> InvS s'.
Proof.
  intros HI M. destruct M. destruct md_i0 as (Hi1 & Hi2 & Hi3).
  destruct (il_live _ _ _ _ _ _ HI i l md_live0) as [HN HB].
  assert (RM : forall b j, In b rm -> In b (at_ (sexec s) j) -> i = j).
  { intros b j Hb Hj. destruct (md_rm0 b Hb) as (A & B & _). destruct (HB b A) as [X|X]; [contradiction|]. exact (proj2 (il_ex _ _ _ _ _ _ HI) i j b X Hj). }
  assert (EX : forall j b, In b (at_ (sexec s') j) -> In b (at_ (sexec s) j) \/ (i = j /\ In b (at_ (sadopt s) i))).
  { intros j b. rewrite md_ex0, in_app_iff, without_In. destruct (Nat.eqb_spec i j); cbn [In]; tauto. }
  unfold InvS. rewrite md_st0, md_ad0, md_mv0, md_wk0, md_bz0. constructor.
  - rewrite length_upd, md_exlen0. apply HI.
  - split.
    + intros j. rewrite md_ex0. apply NoDup_app_of.
      * apply NoDup_without. apply HI.
      * destruct (i =? j); [apply HI|constructor].
      * intros x Hx. apply without_In in Hx as [Hx _]. destruct (Nat.eqb_spec i j); [|intros []]. intros Ha. exact (il_apart _ _ _ _ _ _ HI _ _ x Hx Ha).
    + intros j k b Hj Hk. apply EX in Hj as [Hj|[<- Hj]]; apply EX in Hk as [Hk|[<- Hk]].
      * exact (proj2 (il_ex _ _ _ _ _ _ HI) j k b Hj Hk).
      * destruct (il_apart _ _ _ _ _ _ HI _ _ b Hj Hk).
      * destruct (il_apart _ _ _ _ _ _ HI _ _ b Hk Hj).
      * reflexivity.
  - apply (single_sub (sadopt s)); [apply HI| |]; intros j; rewrite at_upd_in by exact Hi2; destruct (i =? j); try constructor; try apply HI; try (intros b []); tauto.
  - intros j k b Hj Hk. rewrite at_upd_in in Hk by exact Hi2. destruct (Nat.eqb_spec i k); [destruct Hk|].
    apply EX in Hj as [Hj|[<- Hj]]; [exact (il_apart _ _ _ _ _ _ HI j k b Hj Hk)|].
    apply n. exact (proj2 (il_ad _ _ _ _ _ _ HI) i k b Hj Hk).
  - intros HA. rewrite length_upd, md_exlen0. exact (il_mv _ _ _ _ _ _ HI HA).
  - intros j p Hj Hp. rewrite length_upd, md_exlen0. apply nth_upd_inv in Hj as [[<- ->]|[Hij Hj]]; [tauto|].
    exact (il_in _ _ _ _ _ _ HI j p Hj Hp).
  - intros j m Hj. rewrite at_upd_in by exact Hi3. apply nth_upd_inv in Hj as [[<- E]|[Hij Hj]].
    + injection E as ->. rewrite Nat.eqb_refl. split.
      * apply NoDup_app_of; [apply NoDup_without, NoDup_without; exact HN|apply HI|].
        intros x Hx Ha. rewrite !without_In in Hx. destruct Hx as [[Hx Hmv] Hrm]. destruct (HB x Hx) as [X|X]; [contradiction|].
        exact (il_apart _ _ _ _ _ _ HI _ _ x X Ha).
      * intros b Hb. right. rewrite md_ex0, Nat.eqb_refl, in_app_iff, without_In. apply in_app_iff in Hb as [Hb|Hb]; [|tauto].
        rewrite !without_In in Hb. destruct Hb as [[Hx Hmv] Hrm]. destruct (HB b Hx) as [X|X]; [contradiction|tauto].
    + apply Nat.eqb_neq in Hij. rewrite Hij. apply Nat.eqb_neq in Hij. destruct (il_live _ _ _ _ _ _ HI j m Hj) as [HNm HBm]. split; [exact HNm|].
      intros b Hb. destruct (HBm b Hb) as [X|X]; [left; exact X|]. right. rewrite md_ex0, in_app_iff, without_In. left.
      split; [exact X|]. intros Hrm. apply Hij. exact (RM b j Hrm X).
  - intros j m Hj. apply nth_upd_inv in Hj as [[<- E]|[Hij Hj]].
    + injection E as ->. split; [apply nth_upd_same with (x := Live l); exact md_live0|].
      intros b Hb. rewrite md_ex0, Nat.eqb_refl, in_app_iff, without_In. apply in_app_iff in Hb as [Hb|Hb]; [|tauto].
      rewrite !without_In in Hb. destruct Hb as [[Hx Hmv] Hrm]. destruct (HB b Hx) as [X|X]; [contradiction|tauto].
    + rewrite nth_upd_other by exact Hij. destruct (il_busy _ _ _ _ _ _ HI j m Hj) as [A B]. split; [exact A|].
      intros b Hb. rewrite md_ex0, in_app_iff, without_In. left. split; [exact (B b Hb)|]. intros Hrm. apply Hij. exact (RM b j Hrm (B b Hb)).
  - rewrite !length_upd. apply HI.
Qed.

(** ** Every step *)

Lemma distinct_NoDup l : distinct l = true -> NoDup l.
Proof.
  induction l as [|x l IH]; cbn [distinct]; intros H; [constructor|]. apply andb_prop in H as [A B].
  constructor; [apply memb_not; destruct (memb x l); [discriminate|reflexivity]|exact (IH B)].
Qed.

Lemma known_not s b : known s b = false -> ~ In b (sgraph s) /\ (forall i, ~ In b (at_ (sexec s) i)) /\ (forall i, ~ In b (at_ (sadopt s) i)) /\
  (forall i, ~ In b (at_ (smoved s) i)) /\ ~ In b (szomb s) /\ (forall i l, nth_error (swork s) i = Some (Live l) -> ~ In b l).
Proof.
  unfold known. rewrite memb_not, !in_app_iff. intros H. split; [tauto|]. split; [intros i X; apply at_in_concat in X; tauto|].
  split; [intros i X; apply at_in_concat in X; tauto|]. split; [intros i X; apply at_in_concat in X; tauto|]. split; [tauto|].
  intros i l Hi Hb. apply H. do 5 right. apply in_flat_map. exists (Live l). split; [exact (nth_error_In _ _ Hi)|exact Hb].
Qed.

Lemma held_not s b : held s b = false -> ~ In b (sgraph s) /\ (forall i, ~ In b (at_ (sexec s) i)) /\ (forall i, ~ In b (at_ (sadopt s) i)) /\ ~ In b (szomb s).
Proof.
  unfold held. rewrite memb_not, !in_app_iff. intros H. split; [tauto|]. split; [intros i X; apply at_in_concat in X; tauto|].
  split; [intros i X; apply at_in_concat in X; tauto|]. tauto.
Qed.

Lemma active_from s v : isValidTransition s v = true -> lstate_eqb v INITIALISED = false -> lstate_eqb s INITIALISED && lstate_eqb v RUNNING = false ->
  isActive v = true -> isActive s = true.
Proof. destruct s, v; cbn; congruence. Qed.

Lemma NoDup_graph_add (g z bs : list nat) : NoDup (g ++ z) -> NoDup bs -> (forall b, In b bs -> ~ In b g /\ ~ In b z) -> NoDup ((g ++ bs) ++ z).
Proof.
  intros H Hb Hd. apply NoDup_app_l in H as (A & B & C). apply NoDup_app_of; [apply NoDup_app_of; [exact A|exact Hb|]|exact B|].
  - intros x Hx Hx'. exact (proj1 (Hd x Hx') Hx).
  - intros x Hx Hz. apply in_app_iff in Hx as [Hx|Hx]; [exact (C x Hx Hz)|exact (proj2 (Hd x Hx) Hz)].
Qed.

Lemma NoDup_graph_without (g z bs : list nat) : NoDup (g ++ z) -> NoDup (without bs g ++ z).
Proof.
  intros H. apply NoDup_app_l in H as (A & B & C). apply NoDup_app_of; [apply NoDup_without; exact A|exact B|].
  intros x Hx. apply without_In in Hx as [Hx _]. exact (C x Hx).
Qed.

Lemma makeZombie_zomb b s : NoDup (sgraph s ++ szomb s) -> ~ In b (sgraph s) -> ~ In b (szomb s) -> NoDup (sgraph (makeZombie b s) ++ szomb (makeZombie b s)).
Proof.
  intros H Hg Hz. destruct (makeZombie_same b s) as (_ & -> & _ & _ & _ & _ & [-> | ->] & _); [exact H|].
  rewrite app_assoc. apply NoDup_app_of; [exact H|repeat constructor; intros []|]. intros x Hx [<-|[]]. apply in_app_iff in Hx. tauto.
Qed.

Lemma resize_len n l : length (resize n l) = n.
Proof. unfold resize. rewrite app_length, firstn_length, repeat_length. lia. Qed.

Lemma nth_repeat_some {A} (x : A) n i y : nth_error (repeat x n) i = Some y -> y = x /\ i < n.
Proof.
  revert i; induction n as [|n IH]; intros [|i] H; cbn in H; try discriminate; [injection H as <-; split; [reflexivity|lia]|].
  destruct (IH i H). split; [assumption|lia].
Qed.

Lemma without_singleton_not x l : ~ In x (without [x] l).
Proof. rewrite without_In. cbn. tauto. Qed.

Lemma step_inv c s a s' : 1 <= cthreads c -> Inv s -> timely s a -> step c s a = Next s' -> Inv s'.
Proof.
  intros Hc [HI HG] HT H. destruct a; cbn [step timely] in H, HT.
  - (* AInit *) destruct (lstate_eqb (sst s) IDLE); [|discriminate]. injection H as <-. split; [|exact HG].
    unfold InvS, customInit, withConn, withState. cbn [sst sgraph sexec sadopt smoved szomb swork sbusy sbst sconn].
    apply (InvL_gone s); try assumption; [apply map_length|apply jobsOf_single; [exact Hc|apply NoDup_app_l in HG; tauto]|apply single_empty| |discriminate].
    intros i j b _ X. rewrite at_empty in X. destruct X.
  - (* AReset *) destruct (_ || _); [|discriminate]. injection H as <-. split; [|exact HG].
    unfold InvS, customInit, withBlocks, withState. cbn [sst sgraph sexec sadopt smoved szomb swork sbusy sbst sconn].
    apply (InvL_gone s); try assumption; [apply map_length|apply jobsOf_single; [exact Hc|apply NoDup_app_l in HG; tauto]|apply single_empty| |discriminate].
    intros i j b _ X. rewrite at_empty in X. destruct X.
  - (* AStart *) unfold startSched in H. destruct (negb (lstate_eqb (sst s) INITIALISED) || negb (allGone s)) eqn:EG; [discriminate|].
    remember (sexec s) as ex0. destruct ex0 as [|x r] eqn:Ex; [discriminate|]. rewrite <- Ex in *. clear x r Ex. subst ex0. injection H as <-.
    split; [|exact HG]. unfold InvS. cbn [sst sgraph sexec sadopt smoved szomb swork sbusy sbst sconn]. constructor; try apply HI.
    + intros _. apply resize_len.
    + intros i p Hi _. apply nth_repeat_some in Hi as [_ Hi]. rewrite resize_len. tauto.
    + intros i l Hi. apply nth_repeat_some in Hi as [X _]. discriminate.
    + intros i l Hi. apply nth_repeat_some in Hi as [X _]. discriminate.
    + rewrite !repeat_length. reflexivity.
  - (* AState *) destruct (isValidTransition (sst s) v && negb (lstate_eqb v INITIALISED) && negb (lstate_eqb (sst s) INITIALISED && lstate_eqb v RUNNING)) eqn:E; [|discriminate].
    injection H as <-. split; [|exact HG]. apply andb_prop in E as [E E3]. apply andb_prop in E as [E1 E2]. apply negb_true_iff in E2, E3.
    unfold InvS, withState. cbn [sst sgraph sexec sadopt smoved szomb swork sbusy sbst sconn]. constructor; try apply HI.
    intros HA. apply (il_mv _ _ _ _ _ _ HI). exact (active_from _ _ E1 E2 E3 HA).
  - (* AEnter *) unfold enter in H. destruct (nth_error (swork s) i) as [[|l|]|] eqn:Ew; try discriminate.
    destruct (nth_error (sexec s) i) as [l|] eqn:Ex; [|discriminate]. injection H as <-. split; [|exact HG].
    unfold InvS. cbn [sst sgraph sexec sadopt smoved szomb swork sbusy sbst sconn]. constructor; try apply HI.
    + intros j p Hj Hp. apply nth_upd_inv in Hj as [[<- _]|[_ Hj]]; [apply (il_in _ _ _ _ _ _ HI i _ Ew); discriminate|exact (il_in _ _ _ _ _ _ HI j p Hj Hp)].
    + intros j m Hj. apply nth_upd_inv in Hj as [[<- E]|[_ Hj]]; [|exact (il_live _ _ _ _ _ _ HI j m Hj)].
      assert (m = l) as -> by (destruct l; [discriminate|injection E; intros ->; reflexivity]).
      pose proof (proj1 (il_ex _ _ _ _ _ _ HI) i) as HN. rewrite (at_some _ _ _ Ex) in HN. split; [exact HN|]. intros b Hb. right. rewrite (at_some _ _ _ Ex). exact Hb.
    + intros j m Hj. destruct (il_busy _ _ _ _ _ _ HI j m Hj) as [A B]. split; [|exact B]. rewrite nth_upd_other; [exact A|]. intros ->. congruence.
    + rewrite length_upd. apply HI.
  - (* AMsgs *) destruct (msgs_spec s i s' HI H) as (l & rm & M). split; [exact (msgs_inv s i s' l rm HI M)|].
    apply NoDup_app_l in HG as (A & B & C). rewrite (md_graph _ _ _ _ _ M). apply NoDup_app_of; [exact A|apply (md_z2 _ _ _ _ _ M B)|].
    intros x Hx Hz. exact (C x Hx (md_z1 _ _ _ _ _ M x Hz)).
  - (* AWork *) unfold workSection in H. destruct (nth_error (swork s) i) as [[|l|]|] eqn:Ew; try discriminate.
    destruct (nth_error (sbusy s) i) as [[y|]|] eqn:Eb; try discriminate. destruct (nth_error (smoved s) i) as [mv|] eqn:Em; [|discriminate].
    injection H as <-. split; [|exact HG]. destruct (il_live _ _ _ _ _ _ HI i l Ew) as [HN HB]. rewrite (at_some _ _ _ Em) in HB.
    assert (X : forall b, In b (without mv l) -> In b (at_ (sexec s) i)). { intros b Hb. apply without_In in Hb as [H1 H2]. destruct (HB b H1); [contradiction|assumption]. }
    unfold InvS. cbn [sst sgraph sexec sadopt smoved szomb swork sbusy sbst sconn]. constructor; try apply HI.
    + intros HA. rewrite length_upd. exact (il_mv _ _ _ _ _ _ HI HA).
    + intros j p Hj Hp. rewrite length_upd. apply nth_upd_inv in Hj as [[<- _]|[_ Hj]]; [apply (il_in _ _ _ _ _ _ HI i _ Ew); discriminate|exact (il_in _ _ _ _ _ _ HI j p Hj Hp)].
    + intros j m Hj. apply nth_upd_inv in Hj as [[<- E]|[Hij Hj]].
      * injection E as ->. split; [apply NoDup_without; exact HN|]. intros b Hb. right. exact (X b Hb).
      * destruct (il_live _ _ _ _ _ _ HI j m Hj) as [A B]. split; [exact A|]. intros b Hb. rewrite at_upd. apply Nat.eqb_neq in Hij. rewrite Hij. exact (B b Hb).
    + intros j m Hj. apply nth_upd_inv in Hj as [[<- E]|[Hij Hj]].
      * destruct (without mv l) as [|y r] eqn:El; [discriminate|]. injection E as ->. split; [apply nth_upd_same with (x := Live l); exact Ew|]. intros b Hb. exact (X b Hb).
      * rewrite nth_upd_other by exact Hij. exact (il_busy _ _ _ _ _ _ HI j m Hj).
    + rewrite !length_upd. apply HI.
  - (* AEnd *) unfold endSection in H. destruct (nth_error (sbusy s) i) as [[y|]|] eqn:Eb; try discriminate. injection H as <-. split; [|exact HG].
    unfold InvS. cbn [sst sgraph sexec sadopt smoved szomb swork sbusy sbst sconn]. constructor; try apply HI.
    + intros j m Hj. apply nth_upd_inv in Hj as [[<- E]|[Hij Hj]]; [discriminate|exact (il_busy _ _ _ _ _ _ HI j m Hj)].
    + rewrite length_upd. apply HI.
  - (* ALeave *) unfold leave in H. destruct (nth_error (swork s) i) as [[|l|]|] eqn:Ew; try discriminate.
    destruct (nth_error (sbusy s) i) as [[y|]|] eqn:Eb; try discriminate. injection H as <-. split; [|exact HG].
    unfold InvS. cbn [sst sgraph sexec sadopt smoved szomb swork sbusy sbst sconn]. constructor; try apply HI.
    + intros j p Hj Hp. apply nth_upd_inv in Hj as [[<- ->]|[_ Hj]]; [congruence|exact (il_in _ _ _ _ _ _ HI j p Hj Hp)].
    + intros j m Hj. apply nth_upd_inv in Hj as [[<- E]|[_ Hj]]; [discriminate|exact (il_live _ _ _ _ _ _ HI j m Hj)].
    + intros j m Hj. destruct (il_busy _ _ _ _ _ _ HI j m Hj) as [A B]. split; [|exact B]. rewrite nth_upd_other; [exact A|]. intros ->. congruence.
    + rewrite length_upd. apply HI.
  - (* AEmplace *) destruct (known s b) eqn:K; [discriminate|]. injection H as <-. apply known_not in K as (K1 & K2 & K3 & K4 & K5 & K6). split.
    + apply adoptBlock_inv; [exact HI|exact K2|exact K3].
    + destruct (adoptBlock_same c b (withGraph s (sgraph s ++ [b]))) as (_ & -> & -> & _).
      apply (NoDup_graph_add _ _ [b] HG); [repeat constructor; intros []|]. intros x [<-|[]]. tauto.
  - (* ARemove *) destruct (memb b (sgraph s)) eqn:M; [|discriminate]. injection H as <-. apply memb_In in M. split; [apply makeZombie_inv; exact HI|].
    apply makeZombie_zomb; cbn [withGraph sgraph szomb]; [apply NoDup_graph_without; exact HG|apply without_singleton_not|].
    apply NoDup_app_l in HG as (_ & _ & C). exact (fun z => C b M z).
  - (* AReplace *) destruct (memb old (sgraph s) && negb (known s new)) eqn:M; [|discriminate]. injection H as <-. apply andb_prop in M as [M K].
    apply memb_In in M. apply negb_true_iff in K. apply known_not in K as (K1 & K2 & K3 & K4 & K5 & K6). split; [apply makeZombie_inv; exact HI|].
    apply makeZombie_zomb; cbn [withGraph sgraph szomb]; [|apply without_singleton_not|].
    + apply NoDup_graph_without. apply (NoDup_graph_add _ _ [new] HG); [repeat constructor; intros []|]. intros x [<-|[]]. tauto.
    + apply NoDup_app_l in HG as (_ & _ & C). exact (fun z => C old M z).
  - (* AGroup *) destruct (negb (allIdle s) || known s g || negb (forallb (fun b => memb b (sgraph s)) bs)) eqn:E; [discriminate|]. injection H as <-.
    apply orb_false_elim in E as [E E3]. apply orb_false_elim in E as [E1 K]. apply negb_false_iff in E1.
    apply known_not in K as (K1 & K2 & K3 & K4 & K5 & K6).
    assert (ZG : NoDup ((without bs (sgraph s) ++ [g]) ++ szomb s)).
    { apply (NoDup_graph_add _ _ [g]); [apply NoDup_graph_without; exact HG|repeat constructor; intros []|]. intros x [<-|[]]. rewrite without_In. tauto. }
    split.
    + unfold removeBlocks. cbn [withGraph sst]. destruct (isActive (sst s)) eqn:HA.
      * destruct (removeRunning_inv bs (withGraph s (without bs (sgraph s) ++ [g])) HI E1 HA) as (A & B & C & _). apply adoptBlock_inv; [exact A| |].
        -- intros i. rewrite B, without_In. cbn [withGraph sexec]. intros [X _]. exact (K2 i X).
        -- intros i. rewrite C, without_In. cbn [withGraph sadopt]. intros [X _]. exact (K3 i X).
      * destruct HT as [HT|HT]; [discriminate|]. apply adoptBlock_inv; cbn [withGraph sexec sadopt smoved szomb swork sbusy sst]; try (intros i; rewrite at_out by (cbn; lia); tauto).
        unfold InvS. cbn [sst sgraph sexec sadopt smoved szomb swork sbusy sbst sconn]. apply (InvL_gone s); try assumption; try apply single_nil; [reflexivity| |congruence].
        intros i j b X. rewrite at_out in X by (cbn; lia). destruct X.
    + destruct (adoptBlock_same c g (removeBlocks bs (withGraph s (without bs (sgraph s) ++ [g])))) as (_ & -> & -> & _).
      unfold removeBlocks. cbn [withGraph sst]. destruct (isActive (sst s)); [|exact ZG]. unfold removeRunning. destruct (eraseFromAdoption _ _ _). exact ZG.
  - (* AUngroup *) destruct (negb (allIdle s) || negb (memb g (sgraph s)) || negb (distinct bs) || existsb (held s) bs) eqn:E; [discriminate|]. injection H as <-.
    apply orb_false_elim in E as [E E4]. apply orb_false_elim in E as [E E3]. apply orb_false_elim in E as [E1 E2]. apply negb_false_iff in E1, E2, E3.
    apply memb_In in E2. apply distinct_NoDup in E3.
    assert (HH : forall b, In b bs -> held s b = false). { intros b Hb. destruct (held s b) eqn:X; [|reflexivity]. exfalso. rewrite <- not_true_iff_false in E4. apply E4. apply existsb_exists. exists b. split; assumption. }
    destruct (makeZombie_same g (withGraph s (without [g] (sgraph s) ++ bs))) as (A & B & _ & _ & _ & _ & _ & C).
    split.
    + apply adoptAll_inv; [exact E3|apply makeZombie_inv; exact HI|]. intros b Hb. destruct (held_not s b (HH b Hb)) as (H1 & H2 & H3 & H4). split.
      * intros i. rewrite A. exact (H2 i).
      * intros i X. apply C in X. exact (H3 i X).
    + pose proof (adoptAll_same c bs (makeZombie g (withGraph s (without [g] (sgraph s) ++ bs)))) as S. cbv zeta in S. destruct S as (_ & -> & -> & _).
      apply makeZombie_zomb; cbn [withGraph sgraph szomb].
      * apply NoDup_graph_add; [apply NoDup_graph_without; exact HG|exact E3|]. intros b Hb. destruct (held_not s b (HH b Hb)) as (H1 & _ & _ & H4). rewrite without_In. tauto.
      * rewrite in_app_iff. intros [X|X]; [exact (without_singleton_not _ _ X)|]. destruct (held_not s g (HH g X)) as (H1 & _). contradiction.
      * apply NoDup_app_l in HG as (_ & _ & Z). exact (fun z => Z g E2 z).
  - (* AAdd *) destruct (known s b) eqn:K; [discriminate|]. injection H as <-. apply known_not in K as (K1 & K2 & K3 & K4 & K5 & K6). split; [exact HI|].
    apply (NoDup_graph_add _ _ [b] HG); [repeat constructor; intros []|]. intros x [<-|[]]. tauto.
  - (* AExchange *) destruct (isActive (sst s) || negb (distinct g) || existsb (known s) g) eqn:E; [discriminate|]. injection H as <-.
    apply orb_false_elim in E as [E E3]. apply orb_false_elim in E as [E1 E2]. apply negb_false_iff in E2. apply distinct_NoDup in E2.
    assert (HH : forall b, In b g -> known s b = false). { intros b Hb. destruct (known s b) eqn:X; [|reflexivity]. exfalso. rewrite <- not_true_iff_false in E3. apply E3. apply existsb_exists. exists b. split; assumption. }
    assert (ZG : NoDup (g ++ szomb s)).
    { apply NoDup_app_l in HG as (_ & Z & _). apply NoDup_app_of; [exact E2|exact Z|]. intros x Hx Hz. apply (known_not s x (HH x Hx)). exact Hz. }
    destruct (lstate_eqb (sst s) STOPPED || lstate_eqb (sst s) ERROR); [|split; [exact HI|exact ZG]]. split; [|exact ZG].
    unfold InvS, customInit, withBlocks, withGraph. cbn [sst sgraph sexec sadopt smoved szomb swork sbusy sbst sconn].
    apply (InvL_gone s); try assumption; [apply map_length|apply jobsOf_single; [exact Hc|apply NoDup_app_l in HG; tauto]|apply single_empty| |congruence].
    intros i j b _ X. rewrite at_empty in X. destruct X.
  - (* ABlock *) injection H as <-. split; assumption.
Qed.

Lemma inv_initial g : NoDup g -> Inv (initial g).
Proof.
  intros H. split; [|cbn; rewrite app_nil_r; exact H]. unfold InvS, initial. cbn [sst sgraph sexec sadopt smoved szomb swork sbusy sbst sconn].
  constructor; try apply single_nil; try reflexivity; try (intros [|i]; discriminate).
  intros i j b X. rewrite at_out in X by (cbn; lia). destruct X.
Qed.

Lemma run_inv c l : forall s s', 1 <= cthreads c -> Inv s -> obeys timely c s l -> run c s l = Next s' -> Inv s'.
Proof.
  induction l as [|a l IH]; intros s s' Hc HI HO H; cbn [run obeys] in *; [congruence|]. destruct HO as [HT HO].
  destruct (step c s a) as [t| |] eqn:E; try discriminate. exact (IH t s' Hc (step_inv c s a t Hc HI HT E) HO H).
Qed.
