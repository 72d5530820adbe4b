(** Basic facts on the settings model: maps, stored vectors, lookups and the purge. *)
From Coq Require Import List NArith Arith Lia Bool Sorting.Sorted.
From Coq Require Import ZifyBool ZifyNat ZifyN.
From Verif Require Import SettModel SettSpec.
Import ListNotations.
Local Open Scope N_scope.

(* ------------------------------------------------------------------ maps *)

Lemma pget_pput m k v k' : pget (pput m k v) k' = if k =? k' then Some v else pget m k'.
Proof.
  induction m as [|[a b] m IH]; cbn [pput pget]; [reflexivity|].
  destruct (N.eqb_spec a k) as [->|Ha]; cbn [pget].
  - destruct (k =? k'); reflexivity.
  - rewrite IH. destruct (N.eqb_spec a k') as [->|Hb]; [|reflexivity].
    destruct (N.eqb_spec k k'); [congruence|reflexivity].
Qed.

Lemma pget_app m m' k : pget (m ++ m') k = match pget m k with Some v => Some v | None => pget m' k end.
Proof. induction m as [|[a b] m IH]; cbn [app pget]; [reflexivity|]. destruct (a =? k); [reflexivity|exact IH]. Qed.

Lemma pget_pins m k v k' :
  pget (pins m k v) k' = match pget m k' with Some x => Some x | None => if k =? k' then Some v else None end.
Proof.
  unfold pins. destruct (pget m k) as [x|] eqn:E.
  - destruct (pget m k') eqn:E'; [reflexivity|]. destruct (N.eqb_spec k k'); [congruence|reflexivity].
  - rewrite pget_app. cbn [pget]. reflexivity.
Qed.

Lemma pget_pinsAll add : forall m k,
  pget (pinsAll m add) k = match pget m k with Some x => Some x | None => pget add k end.
Proof.
  unfold pinsAll. induction add as [|[a b] add IH]; intros m k; cbn [fold_left pget fst snd].
  - destruct (pget m k); reflexivity.
  - rewrite IH, pget_pins. destruct (pget m k); [reflexivity|]. destruct (a =? k); reflexivity.
Qed.

(** Lookups in a map overwritten by another one. *)
Lemma pget_pputAll_none add : forall m k, pget add k = None -> pget (pputAll m add) k = pget m k.
Proof.
  unfold pputAll. induction add as [|[a b] add IH]; intros m k H; cbn [fold_left fst snd]; [reflexivity|].
  cbn [pget] in H. destruct (N.eqb_spec a k) as [->|Ha]; [discriminate H|]. rewrite IH by exact H. rewrite pget_pput.
  destruct (N.eqb_spec a k); [congruence|reflexivity].
Qed.

Lemma pget_notin m k : ~ In k (map fst m) -> pget m k = None.
Proof.
  induction m as [|[a b] m IH]; cbn [map fst In pget]; intros H; [reflexivity|].
  destruct (N.eqb_spec a k); [exfalso; apply H; auto|apply IH; tauto].
Qed.

Lemma pget_in m k v : pget m k = Some v -> In (k, v) m.
Proof.
  induction m as [|[a b] m IH]; cbn [pget]; intros H; [discriminate|].
  destruct (N.eqb_spec a k) as [->|Ha]; [injection H as ->; left; reflexivity|right; auto].
Qed.

Lemma pget_key m k : In k (map fst m) -> exists v, pget m k = Some v.
Proof.
  induction m as [|[a b] m IH]; cbn [map fst In pget]; intros H; [contradiction|].
  destruct (N.eqb_spec a k) as [->|Ha]; [eexists; reflexivity|apply IH; destruct H; congruence].
Qed.

Lemma in_pget m k v : noDup m -> In (k, v) m -> pget m k = Some v.
Proof.
  unfold noDup. induction m as [|[a b] m IH]; cbn [map fst pget]; intros Hn Hi; [contradiction|].
  apply NoDup_cons_iff in Hn. destruct Hn as [Hn1 Hn2].
  destruct Hi as [E|Hi]; [injection E as -> ->; rewrite N.eqb_refl; reflexivity|].
  destruct (N.eqb_spec a k) as [->|Ha]; [exfalso; apply Hn1; apply in_map_iff; exists (k, v); auto|apply IH; assumption].
Qed.

Lemma pget_pputAll add : forall m k, noDup add ->
  pget (pputAll m add) k = match pget add k with Some v => Some v | None => pget m k end.
Proof.
  unfold pputAll, noDup. induction add as [|[a b] add IH]; intros m k H; cbn [fold_left fst snd pget]; [reflexivity|].
  cbn [map fst] in H. apply NoDup_cons_iff in H. destruct H as [H1 H2]. rewrite IH by exact H2. rewrite pget_pput.
  destruct (N.eqb_spec a k) as [->|Ha]; [rewrite pget_notin by exact H1; reflexivity|reflexivity].
Qed.

Lemma pput_keys m k v x : In x (map fst (pput m k v)) <-> x = k \/ In x (map fst m).
Proof.
  induction m as [|[a b] m IH]; cbn [pput map fst In].
  - intuition.
  - destruct (N.eqb_spec a k) as [->|Ha]; cbn [map fst In]; [intuition|]. rewrite IH. intuition.
Qed.

Lemma pput_noDup m k v : noDup m -> noDup (pput m k v).
Proof.
  unfold noDup. induction m as [|[a b] m IH]; cbn [pput map fst]; intros H.
  - constructor; [intros []|constructor].
  - apply NoDup_cons_iff in H. destruct H as [H1 H2]. destruct (N.eqb_spec a k) as [->|Ha]; cbn [map fst].
    + constructor; assumption.
    + constructor; [|auto]. rewrite pput_keys. intros [E|Hx]; [congruence|contradiction].
Qed.

Lemma pputAll_noDup add : forall m, noDup m -> noDup (pputAll m add).
Proof. unfold pputAll. induction add as [|[a b] add IH]; intros m H; cbn [fold_left fst snd]; [exact H|]. apply IH, pput_noDup, H. Qed.

Lemma has_spec k s : has k s = true <-> In k s.
Proof.
  unfold has. rewrite existsb_exists. split.
  - intros (x & Hx & E). apply N.eqb_eq in E. subst. exact Hx.
  - intros H. exists k. split; [exact H|apply N.eqb_refl].
Qed.

Lemma has_without k k' s : has k (without k' s) = has k s && negb (k =? k').
Proof.
  unfold without, has. induction s as [|a s IH]; cbn [filter existsb]; [reflexivity|].
  destruct (N.eqb_spec a k') as [->|Ha]; cbn [negb existsb].
  - rewrite IH. destruct (N.eqb_spec k k') as [->|Hk]; cbn [negb]; [rewrite !andb_false_r; reflexivity|]. reflexivity.
  - rewrite IH. destruct (N.eqb_spec k a) as [->|Hk]; cbn [orb andb]; [|reflexivity].
    destruct (N.eqb_spec a k'); [congruence|reflexivity].
Qed.

(* ------------------------------------------------------------------ contexts *)

Lemma ctxEqb_refl c : ctxEqb c c = true.
Proof. unfold ctxEqb. rewrite !N.eqb_refl. reflexivity. Qed.

Lemma ctxEqb_spec a b : reflect (a = b) (ctxEqb a b).
Proof.
  unfold ctxEqb. destruct a as [a1 a2], b as [b1 b2]. cbn [fst snd].
  destruct (N.eqb_spec a1 b1), (N.eqb_spec a2 b2); cbn [andb]; constructor; congruence.
Qed.

Lemma aget_aput {X} (l : list (ctx * X)) c x c' : aget (aput l c x) c' = if ctxEqb c c' then Some x else aget l c'.
Proof.
  induction l as [|[a b] l IH]; cbn [aput aget]; [reflexivity|].
  destruct (ctxEqb_spec a c) as [->|Ha]; cbn [aget].
  - destruct (ctxEqb c c'); reflexivity.
  - rewrite IH. destruct (ctxEqb_spec a c') as [->|Hb]; [|reflexivity].
    destruct (ctxEqb_spec c c'); [congruence|reflexivity].
Qed.

Lemma aget_adel {X} (l : list (ctx * X)) c c' : aget (adel l c) c' = if ctxEqb c c' then None else aget l c'.
Proof.
  unfold adel. induction l as [|[a b] l IH]; cbn [filter aget fst]; [destruct (ctxEqb c c'); reflexivity|].
  destruct (ctxEqb_spec a c) as [->|Ha]; cbn [negb aget].
  - rewrite IH. destruct (ctxEqb_spec c c'); reflexivity.
  - rewrite IH. destruct (ctxEqb_spec a c') as [->|Hb]; [|reflexivity].
    destruct (ctxEqb_spec c c'); [congruence|reflexivity].
Qed.

Lemma aget_adels {X} cs : forall (l : list (ctx * X)) c, aget (fold_left adel cs l) c = if existsb (fun x => ctxEqb x c) cs then None else aget l c.
Proof.
  induction cs as [|a cs IH]; intros l c; cbn [fold_left existsb]; [reflexivity|]. rewrite IH, aget_adel.
  destruct (ctxEqb a c); cbn [orb]; [|reflexivity]. destruct (existsb _ cs); reflexivity.
Qed.

Lemma sget_sput l n x n' : sget (sput l n x) n' = if n =? n' then Some x else sget l n'.
Proof.
  induction l as [|[a b] l IH]; cbn [sput sget]; [reflexivity|].
  destruct (N.eqb_spec a n) as [->|Ha]; cbn [sget].
  - destruct (n =? n'); reflexivity.
  - destruct (n <? a); cbn [sget]; [reflexivity|]. rewrite IH.
    destruct (N.eqb_spec a n') as [->|Hb]; [|reflexivity]. destruct (N.eqb_spec n n'); [congruence|reflexivity].
Qed.

(* ------------------------------------------------------------------ sorted vectors *)

Definition lt1 (a b : entry) : Prop := fst a < fst b.
Definition le1 (a b : entry) : Prop := fst a <= fst b.

Lemma before_from t v : before t v ++ from t v = v.
Proof. induction v as [|e v IH]; cbn [before from]; [reflexivity|]. destruct (fst e <? t); cbn [app]; [rewrite IH|]; reflexivity. Qed.

Lemma before_lt t v : Forall (fun e => fst e < t) (before t v).
Proof. induction v as [|e v IH]; cbn [before]; [constructor|]. destruct (N.ltb_spec (fst e) t); constructor; assumption. Qed.

Lemma from_ge t v : StronglySorted le1 v -> Forall (fun e => t <= fst e) (from t v).
Proof.
  induction 1 as [|e v Hv IH Hf]; cbn [from]; [constructor|]. destruct (N.ltb_spec (fst e) t); [exact IH|].
  constructor; [assumption|]. eapply Forall_impl; [|exact Hf]. intros a Ha. unfold le1 in Ha. lia.
Qed.

Lemma lt_le v : StronglySorted lt1 v -> StronglySorted le1 v.
Proof.
  induction 1 as [|e v Hv IH Hf]; constructor; [exact IH|]. eapply Forall_impl; [|exact Hf]. unfold lt1, le1. intros; lia.
Qed.

Lemma lastOf_app {X} (v : list X) e : lastOf (v ++ [e]) = Some e.
Proof. unfold lastOf. rewrite rev_app_distr. reflexivity. Qed.

Lemma lastOf_in {X} (v : list X) e : lastOf v = Some e -> exists p, v = p ++ [e].
Proof.
  unfold lastOf. destruct (rev v) as [|a r] eqn:E; [discriminate|]. intros H. injection H as ->.
  exists (rev r). rewrite <- (rev_involutive v), E. reflexivity.
Qed.

Lemma lastOf_none {X} (v : list X) : lastOf v = None -> v = [].
Proof.
  unfold lastOf. destruct (rev v) as [|a r] eqn:E; [|discriminate]. intros _. rewrite <- (rev_involutive v), E. reflexivity.
Qed.

Lemma sorted_app_inv {X} (R : X -> X -> Prop) a b : StronglySorted R (a ++ b) -> StronglySorted R a /\ StronglySorted R b /\ (forall x y, In x a -> In y b -> R x y).
Proof.
  induction a as [|x a IH]; cbn [app]; intros H.
  - split; [constructor|]. split; [exact H|]. intros x y [].
  - apply StronglySorted_inv in H. destruct H as [H1 H2]. destruct (IH H1) as (I1 & I2 & I3).
    apply Forall_app in H2. destruct H2 as [H2 H3].
    split; [constructor; assumption|]. split; [exact I2|]. intros y z [ -> | Hy ] Hz; [rewrite Forall_forall in H3; auto|auto].
Qed.

Lemma sorted_app {X} (R : X -> X -> Prop) a b : StronglySorted R a -> StronglySorted R b -> (forall x y, In x a -> In y b -> R x y) -> StronglySorted R (a ++ b).
Proof.
  induction a as [|x a IH]; cbn [app]; intros Ha Hb H; [exact Hb|]. apply StronglySorted_inv in Ha. destruct Ha as [H1 H2].
  constructor.
  - apply IH; [exact H1|exact Hb|]. intros y z Hy Hz. apply H; [right; exact Hy|exact Hz].
  - apply Forall_app. split; [exact H2|]. apply Forall_forall. intros z Hz. apply H; [left; reflexivity|exact Hz].
Qed.

(** The part of a sorted vector up to and including time [t]. *)
Definition upTo (t : N) (v : list entry) : list entry := filter (fun e => fst e <=? t) v.

Lemma upTo_split t v : StronglySorted le1 v -> upTo t v = before t v ++ upTo t (from t v).
Proof.
  intros Hs. unfold upTo. rewrite <- (before_from t v) at 1. rewrite filter_app. f_equal.
  pose proof (before_lt t v) as H. induction H as [|e r He Hr IH]; cbn [filter]; [reflexivity|].
  destruct (N.leb_spec (fst e) t); [rewrite IH; reflexivity|lia].
Qed.

Lemma upTo_gt t v : StronglySorted le1 v -> (forall e r, v = e :: r -> t < fst e) -> upTo t v = [].
Proof.
  intros Hs H. unfold upTo. destruct v as [|e r]; [reflexivity|]. specialize (H e r eq_refl).
  assert (HF : Forall (fun x => t < fst x) (e :: r)).
  { constructor; [exact H|]. apply StronglySorted_inv in Hs. destruct Hs as [_ Hs]. eapply Forall_impl; [|exact Hs].
    unfold le1. intros; lia. }
  clear Hs. induction HF as [|x l Hx Hl IH]; cbn [filter]; [reflexivity|]. destruct (N.leb_spec (fst x) t); [lia|exact IH].
Qed.

(** The search of findBestMatchSettingsCtx finds the last entry not after [t]. *)
Lemma findTime_spec v t : StronglySorted le1 v -> t <> 0 -> findTime v t = option_map fst (lastOf (upTo t v)).
Proof.
  intros Hs Ht. unfold findTime. destruct (lastOf v) as [b|] eqn:El.
  2:{ apply lastOf_none in El. subst v. reflexivity. }
  destruct (lastOf_in _ _ El) as [p Ep]. destruct (N.eqb_spec t 0) as [|_]; [contradiction|]. cbn [orb].
  destruct (N.leb_spec (fst b) t) as [Hb|Hb].
  - assert (Hall : upTo t v = v).
    { unfold upTo. assert (HF : Forall (fun e => fst e <= t) v).
      { subst v. apply sorted_app_inv in Hs. destruct Hs as (_ & _ & H3). apply Forall_app. split.
        - apply Forall_forall. intros x Hx. specialize (H3 x b Hx (or_introl eq_refl)). unfold le1 in H3. lia.
        - constructor; [exact Hb|constructor]. }
      clear - HF. induction HF as [|x l Hx Hl IH]; cbn [filter]; [reflexivity|]. destruct (N.leb_spec (fst x) t); [rewrite IH; reflexivity|lia]. }
    rewrite Hall, El. reflexivity.
  - rewrite (upTo_split t v Hs).
    destruct (from t v) as [|e r] eqn:Ef.
    { exfalso. rewrite <- (before_from t v), Ef, app_nil_r in Ep. pose proof (before_lt t v) as H. rewrite Ep in H.
      apply Forall_app in H. destruct H as [_ H]. apply Forall_inv in H. lia. }
    assert (Hse : StronglySorted le1 (e :: r)).
    { rewrite <- (before_from t v), Ef in Hs. apply sorted_app_inv in Hs. tauto. }
    pose proof (from_ge t v Hs) as Hge. rewrite Ef in Hge. apply Forall_inv in Hge.
    destruct (N.eqb_spec (fst e) t) as [He|He].
    + (* the exact time is stored: the last of the equal ones has the same time *)
      assert (Hl : exists e', lastOf (before t v ++ upTo t (e :: r)) = Some e' /\ fst e' = t).
      { assert (Hie : In e (upTo t (e :: r))) by (apply filter_In; split; [left; reflexivity|lia]).
        destruct (lastOf (upTo t (e :: r))) as [e'|] eqn:E'; [|apply lastOf_none in E'; rewrite E' in Hie; contradiction].
        exists e'. destruct (lastOf_in _ _ E') as [q Eq].
        assert (Hi' : In e' (upTo t (e :: r))) by (rewrite Eq; apply in_or_app; right; left; reflexivity).
        rewrite Eq. rewrite app_assoc, lastOf_app. split; [reflexivity|].
        apply filter_In in Hi'. destruct Hi' as [Hx Hx2].
        pose proof (from_ge t v Hs) as H. rewrite Ef in H. rewrite Forall_forall in H. specialize (H e' Hx). lia. }
      destruct Hl as (e' & -> & <-). cbn [option_map]. f_equal. lia.
    + rewrite (upTo_gt t (e :: r) Hse) by (intros e0 r0 E; injection E as <- <-; lia). rewrite app_nil_r.
      destruct (lastOf (before t v)); reflexivity.
Qed.

Lemma byTime_strict v e : StronglySorted lt1 v -> In e v -> byTime v (fst e) = Some (snd e).
Proof.
  unfold byTime. induction 1 as [|a v Hv IH Hf]; intros Hi; [contradiction|]. cbn [find].
  destruct Hi as [ -> | Hi ]; [rewrite N.eqb_refl; reflexivity|].
  rewrite Forall_forall in Hf. specialize (Hf e Hi). unfold lt1 in Hf.
  destruct (N.eqb_spec (fst a) (fst e)); [lia|]. apply IH, Hi.
Qed.

(** The values found in one vector. *)
Definition lookV (v : list entry) (t : N) : option pmap := option_map snd (lastOf (upTo t v)).

Lemma lookV_ok v t : StronglySorted lt1 v -> t <> 0 ->
  match findTime v t with Some t' => byTime v t' | None => None end = lookV v t.
Proof.
  intros Hs Ht. rewrite findTime_spec by (try apply lt_le; assumption). unfold lookV.
  destruct (lastOf (upTo t v)) as [e|] eqn:E; cbn [option_map]; [|reflexivity].
  apply byTime_strict; [exact Hs|]. destruct (lastOf_in _ _ E) as [p Ep].
  assert (Hi : In e (upTo t v)) by (rewrite Ep; apply in_or_app; right; left; reflexivity).
  apply filter_In in Hi. tauto.
Qed.

Lemma lookV_char v t m : StronglySorted lt1 v ->
  lookV v t = Some m <-> exists c, In (c, m) v /\ c <= t /\ forall e, In e v -> ~ (c < fst e <= t).
Proof.
  intros Hs. unfold lookV. split.
  - destruct (lastOf (upTo t v)) as [e|] eqn:E; cbn [option_map]; [|discriminate]. intros H. injection H as <-.
    destruct (lastOf_in _ _ E) as [p Ep]. exists (fst e).
    assert (Hi : In e (upTo t v)) by (rewrite Ep; apply in_or_app; right; left; reflexivity).
    apply filter_In in Hi. destruct Hi as [Hi Hle]. split; [destruct e; exact Hi|]. split; [lia|].
    intros e' He' [H1 H2].
    assert (Hi' : In e' (upTo t v)) by (apply filter_In; split; [exact He'|lia]).
    rewrite Ep in Hi'. apply in_app_or in Hi'. destruct Hi' as [Hi'|[ <- | [] ]]; [|lia].
    assert (HsU : StronglySorted lt1 (upTo t v)).
    { clear - Hs. unfold upTo. induction Hs as [|a v Hv IH Hf]; cbn [filter]; [constructor|]. destruct (fst a <=? t); [|exact IH].
      constructor; [exact IH|]. apply Forall_forall. intros x Hx. apply filter_In in Hx. rewrite Forall_forall in Hf. apply Hf. tauto. }
    rewrite Ep in HsU. apply sorted_app_inv in HsU. destruct HsU as (_ & _ & H3). specialize (H3 e' e Hi' (or_introl eq_refl)). unfold lt1 in H3. lia.
  - intros (c & Hi & Hc & Hmax).
    destruct (lastOf (upTo t v)) as [e|] eqn:E; cbn [option_map].
    + destruct (lastOf_in _ _ E) as [p Ep].
      assert (Hie : In e (upTo t v)) by (rewrite Ep; apply in_or_app; right; left; reflexivity).
      apply filter_In in Hie. destruct Hie as [Hie Hle].
      assert (HsU : StronglySorted lt1 (upTo t v)).
      { clear - Hs. unfold upTo. induction Hs as [|a v Hv IH Hf]; cbn [filter]; [constructor|]. destruct (fst a <=? t); [|exact IH].
        constructor; [exact IH|]. apply Forall_forall. intros x Hx. apply filter_In in Hx. rewrite Forall_forall in Hf. apply Hf. tauto. }
      assert (Hic : In (c, m) (upTo t v)) by (apply filter_In; split; [exact Hi|cbn [fst]; lia]).
      rewrite Ep in Hic, HsU. apply in_app_or in Hic. destruct Hic as [Hic|[Hic|[]]]; [|subst e; reflexivity].
      exfalso. apply sorted_app_inv in HsU. destruct HsU as (_ & _ & H3). specialize (H3 _ e Hic (or_introl eq_refl)).
      unfold lt1 in H3. cbn [fst] in H3. apply (Hmax e Hie). lia.
    + exfalso. apply lastOf_none in E. assert (Hic : In (c, m) (upTo t v)) by (apply filter_In; split; [exact Hi|cbn [fst]; lia]).
      rewrite E in Hic. exact Hic.
Qed.

(* ------------------------------------------------------------------ inserting and purging *)

Lemma insert_sorted t m v : StronglySorted lt1 v -> ~ In t (map fst v) ->
  StronglySorted lt1 (before t v ++ (t, m) :: from t v).
Proof.
  intros Hs Hn. pose proof (before_from t v) as Eb.
  assert (Hs' : StronglySorted lt1 (before t v ++ from t v)) by (rewrite Eb; exact Hs).
  apply sorted_app_inv in Hs'. destruct Hs' as (H1 & H2 & H3).
  pose proof (before_lt t v) as Hb. pose proof (from_ge t v (lt_le v Hs)) as Hf.
  rewrite Forall_forall in Hb, Hf.
  assert (Hf' : forall e, In e (from t v) -> t < fst e).
  { intros e He. specialize (Hf e He). destruct (N.eq_dec t (fst e)) as [E|]; [|lia].
    exfalso. apply Hn. rewrite E. apply in_map. rewrite <- Eb. apply in_or_app. right. exact He. }
  apply sorted_app; [exact H1| |].
  - constructor; [exact H2|]. apply Forall_forall. intros e He. unfold lt1. cbn [fst]. apply Hf', He.
  - intros x y Hx [ <- | Hy ]; [unfold lt1; cbn [fst]; apply Hb, Hx|]. apply H3; assumption.
Qed.

Lemma insert_in t m v e : In e (before t v ++ (t, m) :: from t v) <-> e = (t, m) \/ In e v.
Proof.
  rewrite in_app_iff. cbn [In]. rewrite <- (before_from t v) at 3. rewrite in_app_iff. intuition.
Qed.

(** What survives in a sorted vector at time [now]. *)
Definition keep (now : N) (L : list entry) (e : entry) : Prop := In e L /\ forall e', In e' L -> ~ (fst e < fst e' <= now).

Lemma skipn_tail {X} (a b : list X) : skipn (length a) (a ++ b) = b.
Proof. rewrite skipn_app, skipn_all, Nat.sub_diag. reflexivity. Qed.

(** The purge keeps the newest entry not after [now] and everything later. *)
Lemma purge_keep now v e : StronglySorted lt1 v -> v <> [] -> In e (skipn (outdated now v) v) <-> keep now v e.
Proof.
  intros Hs Hne.
  assert (G : exists a b, v = a ++ b /\ outdated now v = length a
     /\ ((exists x r, b = x :: r /\ fst x <= now /\ (forall y, In y r -> now < fst y)) \/ (a = [] /\ forall y, In y b -> now < fst y))).
  { pose proof (before_from now v) as Eb. pose proof (before_lt now v) as Hb. pose proof (from_ge now v (lt_le v Hs)) as Hf.
    rewrite Forall_forall in Hb, Hf. unfold outdated. destruct (from now v) as [|x r] eqn:Ef.
    - rewrite app_nil_r in Eb. destruct (lastOf v) as [z|] eqn:El; [|apply lastOf_none in El; contradiction].
      destruct (lastOf_in _ _ El) as [p Ep]. exists p, [z]. split; [exact Ep|]. split; [rewrite Ep, app_length; cbn [length]; lia|].
      left. exists z, []. split; [reflexivity|]. split; [|intros y []].
      assert (Hz : In z (before now v)) by (rewrite Eb, Ep; apply in_or_app; right; left; reflexivity). specialize (Hb z Hz). lia.
    - destruct (N.eqb_spec (fst x) now) as [Ex|Ex].
      + exists (before now v), (x :: r). split; [symmetry; exact Eb|]. split; [reflexivity|]. left. exists x, r.
        split; [reflexivity|]. split; [lia|]. intros y Hy.
        assert (Hsf : StronglySorted lt1 (x :: r)) by (rewrite <- Eb in Hs; apply sorted_app_inv in Hs; tauto).
        apply StronglySorted_inv in Hsf. destruct Hsf as [_ Hsf]. rewrite Forall_forall in Hsf. specialize (Hsf y Hy). unfold lt1 in Hsf. lia.
      + assert (Hfut : forall y, In y (x :: r) -> now < fst y).
        { intros y Hy. assert (Hsf : StronglySorted lt1 (x :: r)) by (rewrite <- Eb in Hs; apply sorted_app_inv in Hs; tauto).
          apply StronglySorted_inv in Hsf. destruct Hsf as [_ Hsf]. rewrite Forall_forall in Hsf.
          pose proof (Hf x (or_introl eq_refl)). destruct Hy as [ <- | Hy ]; [lia|]. specialize (Hsf y Hy). unfold lt1 in Hsf. lia. }
        destruct (lastOf (before now v)) as [z|] eqn:El.
        * destruct (lastOf_in _ _ El) as [p Ep]. exists p, (z :: x :: r).
          split; [rewrite <- Eb, Ep, <- app_assoc; reflexivity|].
          rewrite Ep. rewrite app_length. cbn [length].
          split; [destruct (Nat.ltb_spec 1 (length p + 1)); lia|].
          left. exists z, (x :: r). split; [reflexivity|]. split; [|exact Hfut].
          assert (Hz : In z (before now v)) by (rewrite Ep; apply in_or_app; right; left; reflexivity). specialize (Hb z Hz). lia.
        * apply lastOf_none in El. exists [], (x :: r). split; [rewrite <- Eb, El; reflexivity|]. rewrite El. split; [reflexivity|].
          right. split; [reflexivity|exact Hfut]. }
  destruct G as (a & b & Ev & Eo & G). rewrite Eo. rewrite Ev at 1. rewrite skipn_tail.
  rewrite Ev in Hs. apply sorted_app_inv in Hs. destruct Hs as (Hsa & Hsb & Hab). unfold keep. rewrite Ev.
  destruct G as [(x & r & -> & Hx & Hr)|(-> & Hfut)].
  - assert (Hxr : forall y, In y r -> fst x < fst y).
    { apply StronglySorted_inv in Hsb. destruct Hsb as [_ Hsb]. rewrite Forall_forall in Hsb. exact Hsb. }
    split.
    + intros Hi. split; [apply in_or_app; right; exact Hi|]. intros e' He' [H1 H2]. apply in_app_or in He'.
      assert (Hxe : fst x <= fst e) by (destruct Hi as [ <- | Hi ]; [lia|specialize (Hxr _ Hi); lia]).
      destruct He' as [He'|[ <- | He' ]]; [specialize (Hab e' x He' (or_introl eq_refl)); unfold lt1 in Hab; lia|lia|specialize (Hr _ He'); lia].
    + intros [Hi Hk]. apply in_app_or in Hi. destruct Hi as [Hi|Hi]; [|exact Hi]. exfalso.
      specialize (Hab e x Hi (or_introl eq_refl)). unfold lt1 in Hab.
      apply (Hk x); [apply in_or_app; right; left; reflexivity|lia].
  - cbn [app] in *. split; [|tauto]. intros Hi. split; [exact Hi|]. intros e' He' [H1 H2]. specialize (Hfut e' He'). lia.
Qed.

Lemma skipn_sorted {X} (R : X -> X -> Prop) k v : StronglySorted R v -> StronglySorted R (skipn k v).
Proof. intros H. rewrite <- (firstn_skipn k v) in H. apply sorted_app_inv in H. tauto. Qed.

Lemma sget_purgeAll e now : forall l au n,
  sget (fst (purgeAll e now l au)) n = match sget l n with Some v => Some (fst (purge e now n v [])) | None => None end.
Proof.
  induction l as [|[a v] l IH]; intros au n; cbn [purgeAll]; [reflexivity|].
  destruct (purge e now a v au) as [v1 au1] eqn:Ep. specialize (IH au1 n).
  destruct (purgeAll e now l au1) as [r1 au2]. cbn [fst sget] in IH |- *.
  destruct (N.eqb_spec a n) as [->|Ha]; [|exact IH]. f_equal.
  replace v1 with (fst (purge e now n v au)) by (rewrite Ep; reflexivity).
  unfold purge. destruct (e =? never).
  - destruct v; reflexivity.
  - destruct (filter (fun x => negb (expired e now x)) v); reflexivity.
Qed.
