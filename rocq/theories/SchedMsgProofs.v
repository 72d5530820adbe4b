(** Proofs about the loop's period, restarting and message forwarding. *)
From Coq Require Import NArith Bool Arith Lia List ZifyBool ZifyNat ZifyN.
From Verif Require Import Base LifecycleModel SchedModel SchedSpec SchedLoopProofs.
Import ListNotations.
Local Open Scope nat_scope.


(** ** The loop *)

Lemma turn_read ratio first w t d w' : turn ratio first w t = (d, inl w') -> activeState w' = if handled d then stateNow t else activeState w.
Proof.
  unfold turn. destruct ((msgToCount w =? 0)%N || (first && pending t)).
  - destruct (true && first && exchanged t); [discriminate|]. destruct (_ && _), (result t); try discriminate; destruct (isActive (stateNow t)); try discriminate; intros H; injection H as <- <-; reflexivity.
  - cbn [andb]. destruct (nextCount ratio (msgToCount w)); [|discriminate].
    destruct (_ && _), (result t); try discriminate; destruct (isActive (activeState w)); try discriminate; intros H; injection H as <- <-; reflexivity.
Qed.

Lemma turn_works ratio first w t d o : turn ratio first w t = (d, o) -> worked d = true ->
  (if handled d then stateNow t else activeState w) = RUNNING /\ granted t = true /\ noBlocks t = false.
Proof.
  assert (R : forall v, lstate_eqb v RUNNING = true -> v = RUNNING) by (intros []; cbn; congruence).
  unfold turn. destruct ((msgToCount w =? 0)%N || (first && pending t)).
  - destruct (true && first && exchanged t); [intros H; injection H as <- <-; discriminate|].
    destruct (lstate_eqb (stateNow t) RUNNING) eqn:E, (granted t), (noBlocks t); cbn [andb negb]; destruct (result t); intros H; injection H as <- <-; try discriminate; cbn; auto.
  - cbn [andb]. destruct (nextCount ratio (msgToCount w)); [|intros H; injection H as <- <-; discriminate].
    destruct (lstate_eqb (activeState w) RUNNING) eqn:E, (granted t), (noBlocks t); cbn [andb negb]; destruct (result t); intros H; injection H as <- <-; try discriminate; cbn; auto.
Qed.

Lemma loop_works ratio first : forall ts w ds o, loop ratio first w ts = (ds, o) ->
  Forall2 (fun d s => worked d = true -> s = RUNNING) ds (lastRead (activeState w) ts ds).
Proof.
  induction ts as [|t ts IH]; intros w ds o H; cbn [loop] in H; [injection H as <- <-; constructor|].
  destruct (turn ratio first w t) as [d [w'|e]] eqn:E.
  - destruct (loop ratio first w' ts) as [ds' o'] eqn:El. injection H as <- <-. cbn [lastRead]. constructor.
    + intros Hw. exact (proj1 (turn_works _ _ _ _ _ _ E Hw)).
    + rewrite <- (turn_read _ _ _ _ _ _ E). exact (IH w' ds' o' El).
  - injection H as <- <-. cbn [lastRead]. constructor; [|destruct ts; constructor]. intros Hw. exact (proj1 (turn_works _ _ _ _ _ _ E Hw)).
Qed.

Lemma turn_exit ratio first w t d e : ratio <> 0%N -> turn ratio first w t = (d, inr e) ->
  match e with
  | ExExchanged => first = true /\ exchanged t = true /\ handled d = true
  | ExDone => worked d = true /\ result t = SDone
  | ExError => worked d = true /\ result t = SError
  | ExInactive => isActive (if handled d then stateNow t else activeState w) = false
  | ExUndefined => False
  end.
Proof.
  intros Hr. unfold turn. destruct ((msgToCount w =? 0)%N || (first && pending t)) eqn:M.
  - destruct (true && first && exchanged t) eqn:X; [intros H; injection H as <- <-; apply andb_prop in X as [X1 X2]; cbn in *; auto|].
    destruct (lstate_eqb (stateNow t) RUNNING && granted t && negb (noBlocks t)) eqn:W, (result t) eqn:ER; destruct (isActive (stateNow t)) eqn:A; intros H; inversion H; subst; cbn; auto.
  - cbn [andb]. rewrite (nextCount_mod ratio _ Hr).
    destruct (lstate_eqb (activeState w) RUNNING && granted t && negb (noBlocks t)) eqn:W, (result t) eqn:ER; destruct (isActive (activeState w)) eqn:A; intros H; inversion H; subst; cbn; auto.
Qed.

Lemma turn_busy ratio first w t : busyTurn t -> (2 <= ratio)%N -> (ratio < two64)%N -> (msgToCount w < ratio)%N -> activeState w = RUNNING ->
  turn ratio first w t = (mkDid (msgToCount w =? 0)%N true, inl (mkWorker ((msgToCount w + 1) mod ratio) RUNNING)).
Proof.
  intros (P & X & S & G & NB & R & W) H2 H64 Hc Ha. unfold turn. rewrite P, X, S, G, NB, R, W, Ha, andb_false_r, orb_false_r, andb_false_r.
  assert (I : inc64 (msgToCount w) = (msgToCount w + 1)%N) by (unfold inc64; apply N.mod_small; unfold two64 in *; lia).
  destruct (N.eqb_spec (msgToCount w) 0) as [E|E].
  - cbn [lstate_eqb andb negb orb isActive]. rewrite E. do 3 f_equal; try reflexivity. unfold inc64. rewrite !N.mod_small; unfold two64 in *; lia.
  - rewrite nextCount_mod by lia. rewrite I. reflexivity.
Qed.

Lemma loop_period ratio first : (2 <= ratio)%N -> (ratio < two64)%N -> forall ts w, (forall t, In t ts -> busyTurn t) ->
  (msgToCount w < ratio)%N -> activeState w = RUNNING ->
  exists ds w', loop ratio first w ts = (ds, inl w') /\
    forall k d, nth_error ds k = Some d -> (handled d = true <-> ((msgToCount w + N.of_nat k) mod ratio = 0)%N).
Proof.
  intros H2 H64. induction ts as [|t ts IH]; intros w HB Hc Ha; cbn [loop].
  - exists [], w. split; [reflexivity|]. intros [|k] d H; discriminate.
  - rewrite (turn_busy ratio first w t (HB t (or_introl eq_refl)) H2 H64 Hc Ha).
    destruct (IH (mkWorker ((msgToCount w + 1) mod ratio) RUNNING)) as (ds & w' & L & P); cbn [msgToCount activeState]; [intros x Hx; apply HB; right; exact Hx|apply N.mod_lt; lia|reflexivity|].
    rewrite L. exists (mkDid (msgToCount w =? 0)%N true :: ds), w'. split; [reflexivity|]. intros [|k] d H; cbn [nth_error] in H.
    + injection H as <-. cbn [handled]. rewrite N.eqb_eq. rewrite N.add_0_r, N.mod_small by lia. tauto.
    + rewrite (P k d H). cbn [msgToCount]. rewrite N.add_mod_idemp_l by lia.
      replace (msgToCount w + 1 + N.of_nat k)%N with (msgToCount w + N.of_nat (S k))%N by lia. tauto.
Qed.

(** ** Restart *)

Definition stuck (s : Restart) : Prop :=
  rsState s = RUNNING /\ 0 < rsJobs s /\ (exists w, rsOld s = Some w /\ isActive (activeState w) = true) /\ rsPc s = RsWaiting.

Lemma stuck_step ratio s a : ratio <> 0%N -> stuck s -> ordinary a -> stuck (rsStep ratio s a).
Proof.
  intros Hr (S1 & S2 & (w & S3 & S4) & S5) HO. destruct a; cbn [ordinary] in HO; try contradiction; cbn [rsStep].
  - rewrite S3. set (t' := mkTurn _ _ _ _ _ _ _). destruct (turn ratio true w t') as [d [w'|e]] eqn:E; cbn [snd].
    + split; [exact S1|]. split; [exact S2|]. split; [|exact S5]. exists w'. split; [reflexivity|].
      rewrite (turn_read _ _ _ _ _ _ E). destruct (handled d); [subst t'; cbn [stateNow]; rewrite S1; reflexivity|exact S4].
    + exfalso. pose proof (turn_exit _ _ _ _ _ _ Hr E) as X. destruct HO as [O1 O2]. subst t'. cbn [exchanged result stateNow] in X. destruct e.
      * destruct X as (_ & X & _). congruence.
      * destruct X as (_ & X). congruence.
      * destruct X as (_ & X). congruence.
      * destruct (handled d); [rewrite S1 in X; discriminate|congruence].
      * exact X.
  - rewrite S5. destruct (Nat.eqb_spec (rsJobs s) 0); [lia|]. split; [exact S1|]. split; [exact S2|]. split; [exists w; tauto|exact S5].
Qed.

Lemma stuck_run ratio l : ratio <> 0%N -> forall s, stuck s -> (forall a, In a l -> ordinary a) -> stuck (fold_left (rsStep ratio) l s).
Proof.
  intros Hr. induction l as [|a l IH]; intros s HS HO; cbn [fold_left]; [exact HS|].
  apply IH; [apply stuck_step; [exact Hr|exact HS|apply HO; left; reflexivity]|intros x Hx; apply HO; right; exact Hx].
Qed.

(** ** Messages of children *)

Lemma up_listening cap l : forall u, length (upRing u) <= cap -> let '(v, acc, thr) := upRun cap true u l in
  upOut v ++ upRing v = upOut u ++ upRing u ++ acc /\ length (upRing v) <= cap /\ ~ In true thr.
Proof.
  induction l as [|[m|] l IH]; intros u Hu; cbn [upRun].
  - split; [rewrite app_nil_r; reflexivity|]. split; [exact Hu|intros []].
  - unfold childSend. destruct (Nat.ltb_spec (length (upRing u)) cap) as [L|L].
    + specialize (IH (mkUp (upRing u ++ [m]) (upOut u))). cbn [upRing upOut] in IH. destruct (upRun cap true (mkUp (upRing u ++ [m]) (upOut u)) l) as [[v acc] thr].
      rewrite app_length in IH. cbn [length] in IH. destruct (IH ltac:(lia)) as (A & B & C). split; [rewrite A, <- !app_assoc; reflexivity|tauto].
    + specialize (IH u Hu). destruct (upRun cap true u l) as [[v acc] thr]. exact IH.
  - unfold forwardUp. destruct (upRing u) as [|m r] eqn:E.
    + specialize (IH u). rewrite E in IH. specialize (IH Hu). destruct (upRun cap true u l) as [[v acc] thr]. destruct IH as (A & B & C).
      split; [exact A|]. split; [exact B|]. intros [X|X]; [discriminate|exact (C X)].
    + specialize (IH (mkUp [] (upOut u ++ m :: r))). cbn [upRing upOut length] in IH. destruct (upRun cap true (mkUp [] (upOut u ++ m :: r)) l) as [[v acc] thr].
      destruct (IH ltac:(lia)) as (A & B & C). split; [rewrite A; cbn [app]; rewrite <- app_assoc; reflexivity|]. split; [exact B|]. intros [X|X]; [discriminate|exact (C X)].
Qed.

Lemma up_deaf cap l : forall u, let '(v, acc, thr) := upRun cap false u l in
  upOut v = upOut u /\ upRing v = upRing u ++ acc /\ (length (upRing u) <= cap -> length (upRing v) <= cap) /\
  (existsb isError (upRing u) = true -> forall t, In t thr -> t = true).
Proof.
  induction l as [|[m|] l IH]; intros u; cbn [upRun].
  - split; [reflexivity|]. split; [rewrite app_nil_r; reflexivity|]. split; [tauto|intros _ t []].
  - unfold childSend. destruct (Nat.ltb_spec (length (upRing u)) cap) as [L|L].
    + specialize (IH (mkUp (upRing u ++ [m]) (upOut u))). cbn [upRing upOut] in IH. destruct (upRun cap false (mkUp (upRing u ++ [m]) (upOut u)) l) as [[v acc] thr].
      destruct IH as (A & B & C & D). split; [exact A|]. split; [rewrite B, <- app_assoc; reflexivity|]. split.
      * intros _. apply C. rewrite app_length. cbn. lia.
      * intros X. apply D. rewrite existsb_app, X. reflexivity.
    + specialize (IH u). destruct (upRun cap false u l) as [[v acc] thr]. exact IH.
  - assert (F : forwardUp false u = (u, existsb isError (upRing u))) by (unfold forwardUp; destruct (upRing u) eqn:E; rewrite ?E; reflexivity).
    rewrite F. specialize (IH u). destruct (upRun cap false u l) as [[v acc] thr]. destruct IH as (A & B & C & D).
    split; [exact A|]. split; [exact B|]. split; [exact C|]. intros X t [<-|Ht]; [exact X|exact (D X t Ht)].
Qed.

Lemma up_deaf_full cap l : forall u, cap <= length (upRing u) -> let '(v, acc, thr) := upRun cap false u l in v = u /\ acc = [].
Proof.
  induction l as [|[m|] l IH]; intros u Hu; cbn [upRun].
  - split; reflexivity.
  - unfold childSend. destruct (Nat.ltb_spec (length (upRing u)) cap) as [L|L]; [lia|]. specialize (IH u Hu). destruct (upRun cap false u l) as [[v acc] thr]. exact IH.
  - assert (F : forwardUp false u = (u, existsb isError (upRing u))) by (unfold forwardUp; destruct (upRing u) eqn:E; rewrite ?E; reflexivity).
    rewrite F. specialize (IH u Hu). destruct (upRun cap false u l) as [[v acc] thr]. exact IH.
Qed.

(** ** Messages to children *)

Lemma down_blocked cap k l : forall d r, nth_error (dnRead d) k = Some r -> ~ In (DRead k) l ->
  nth_error (dnRead (dnRun cap d l)) k = Some r /\ dnNext (dnRun cap d l) <= Nat.max (dnNext d) (r + cap).
Proof.
  induction l as [|a l IH]; intros d r Hk Hn; cbn [dnRun fold_left]; [split; [exact Hk|lia]|]. fold (dnRun cap (dnStep cap d a) l).
  assert (Hn' : ~ In (DRead k) l) by (intros X; apply Hn; right; exact X). destruct a as [|i]; cbn [dnStep].
  - unfold forwardDown. destruct (forallb _ (dnRead d)) eqn:E.
    + destruct (IH (mkDown (S (dnNext d)) (dnRead d)) r Hk Hn') as [A B]. split; [exact A|]. cbn [dnNext] in B.
      rewrite forallb_forall in E. specialize (E r (nth_error_In _ _ Hk)). apply Nat.ltb_lt in E. lia.
    + exact (IH d r Hk Hn').
  - unfold readAll. assert (i <> k) by (intros ->; apply Hn; left; reflexivity).
    apply (IH (mkDown (dnNext d) (upd (dnRead d) i (dnNext d))) r); [cbn [dnRead]; rewrite nth_upd_other by assumption; exact Hk|exact Hn'].
Qed.

Lemma down_reads cap l : forall d, (forall a, In a l -> exists i, a = DRead i) ->
  dnNext (dnRun cap d l) = dnNext d /\ length (dnRead (dnRun cap d l)) = length (dnRead d) /\
  forall k r, nth_error (dnRead (dnRun cap d l)) k = Some r -> r = dnNext d \/ (~ In (DRead k) l /\ nth_error (dnRead d) k = Some r).
Proof.
  induction l as [|a l IH]; intros d H; cbn [dnRun fold_left]; [split; [reflexivity|split; [reflexivity|]]; intros k r Hr; right; split; [intros []|exact Hr]|].
  fold (dnRun cap (dnStep cap d a) l). destruct (H a (or_introl eq_refl)) as (i & ->). cbn [dnStep].
  destruct (IH (readAll d i)) as (A & B & C); [intros x Hx; apply H; right; exact Hx|]. unfold readAll in *. cbn [dnNext dnRead] in *.
  split; [exact A|]. split; [rewrite B; apply length_upd|]. intros k r Hr. destruct (C k r Hr) as [X|[X Y]]; [left; exact X|].
  apply nth_upd_inv in Y as [[<- ->]|[Hij Y]]; [left; reflexivity|]. right. split; [|exact Y]. intros [Z|Z]; [injection Z as ->; congruence|contradiction].
Qed.
