(* Proofs about the poller of the stream, the callback and the queue of data sets. *)

From Coq Require Import Arith ZArith List Bool Lia Sorted.
From Verif Require Import SinkModel SinkSpec.
Import ListNotations.

Local Open Scope nat_scope.

Section P.
Context {A T M : Type}.
Notation ptr := (ptrace A T M).

Lemma tagsOf_app off g h : @tagsOf A T M off (g ++ h) = tagsOf off g ++ tagsOf (off + length (samplesOf g)) h.
Proof.
  revert off. induction g as [|[s t] g IH]; intros off.
  - cbn. rewrite Nat.add_0_r. reflexivity.
  - cbn [app tagsOf]. rewrite IH, app_assoc. unfold samplesOf. cbn [map concat fst]. rewrite app_length, Nat.add_assoc. reflexivity.
Qed.

Lemma samplesOf_app g h : @samplesOf A T M (g ++ h) = samplesOf g ++ samplesOf h.
Proof. unfold samplesOf. rewrite map_app, concat_app. reflexivity. Qed.

Lemma samplesOf_one (s : list A) (t : list (nat * ptag T M)) : samplesOf [(s, t)] = s.
Proof. unfold samplesOf. cbn. apply app_nil_r. Qed.

Record pinv (c : pcfg) (x : ptr) (P : list (nat * ptag T M)) : Prop := {
  pi_acc : account (blocking c) (begun x) (samplesOf (got x) ++ waiting (pS x)) P (lost (pS x));
  pi_read : nRead (pS x) = length (samplesOf (got x));
  pi_pub : nPub (pS x) = nRead (pS x) + length (sq (pS x));
  pi_cap : length (sq (pS x)) <= capS c /\ length (tq (pS x)) <= capT c;
  pi_mid : blocking c = false -> length (waiting (pS x)) <= capS c }.

Lemma begin_some c d t (st st' : pst A T M) : pBegin c d t st = Some st' ->
  mid st = None /\
  exists n nt metas, n <= length d /\ length metas <= 1 /\ (n = 0 -> nt = 0) /\
    (blocking c = false -> n <= capS c - length (sq st)) /\
    nt <= capT c - length (tq st) /\
    (let whole := map (fun m => (nPub st, Meta m)) metas
                  ++ map (fun e => (nPub st + fst e, Plain (snd e))) (filter (fun e => fst e <? n) t) in
     (blocking c = true -> n = length d /\ (n <> 0 -> length whole <= nt)) /\
     exists pn dT', st' = mkPst (sq st) (tq st ++ firstn nt whole) pn (nPub st) (nRead st) (dropS st) (dropT st)
                 (Some (mkMid (firstn n d) (length d - n) dT'))).
Proof.
  unfold pBegin. destruct (mid st) eqn:Em; [discriminate|]. intros H. split; [reflexivity|].
  set (n := if blocking c then length d else min (length d) (capS c - length (sq st))) in *.
  assert (Hn : n <= length d) by (unfold n; destruct (blocking c); lia).
  assert (Hc : blocking c = false -> n <= capS c - length (sq st)) by (unfold n; intros ->; lia).
  assert (Hb : blocking c = true -> n = length d) by (unfold n; intros ->; lia).
  clearbody n. cbv zeta in H.
  destruct (Nat.ltb_spec 0 n) as [H0|H0].
  - set (av := _ + length (filter _ t)) in H.
    set (nt := if blocking c then av else _) in H.
    destruct (Nat.ltb_spec (capT c - length (tq st)) nt) as [|Ht]; [discriminate|]. injection H as <-.
    exists n, nt, (match pend st with Some m => [m] | None => [] end).
    split; [exact Hn|]. split; [destruct (pend st); cbn; lia|]. split; [lia|]. split; [exact Hc|]. split; [exact Ht|].
    cbv zeta. split.
    + intros B. split; [apply Hb; exact B|]. intros _. rewrite app_length, !map_length.
      unfold nt, av. rewrite B. destruct (pend st); cbn [length]; lia.
    + destruct (pend st) eqn:Ep; cbn [map]; eexists _, _; reflexivity.
  - injection H as <-. exists n, 0, [].
    split; [exact Hn|]. split; [cbn; lia|]. split; [reflexivity|]. split; [exact Hc|]. split; [lia|].
    cbv zeta. split; [intros B; split; [apply Hb; exact B|lia]|].
    eexists _, _. cbn [firstn]. rewrite app_nil_r. reflexivity.
Qed.

Lemma begin_mid c d t (st st' : pst A T M) : pBegin c d t st = Some st' -> mid st' <> None.
Proof. intros H. apply begin_some in H as (_ & n & nt & ms & _ & _ & _ & _ & _ & _ & pn & dt & ->). discriminate. Qed.

Lemma pinv_begin c x P d t st' : pinv c x P -> pBegin c d t (pS x) = Some st' ->
  exists nt metas, length metas <= 1 /\ exists n, n <= length d /\ (n = 0 -> nt = 0) /\
  let whole := map (fun m => (nPub (pS x), Meta m)) metas
               ++ map (fun e => (nPub (pS x) + fst e, Plain (snd e))) (filter (fun e => fst e <? n) t) in
  tq st' = tq (pS x) ++ firstn nt whole /\ nPub st' = nPub (pS x) /\ nRead st' = nRead (pS x) /\ sq st' = sq (pS x) /\
  length (waiting st') = length (sq (pS x)) + n /\
  pinv c (mkPtr st' (got x) (begun x ++ [(d, t)])) (P ++ firstn nt whole).
Proof.
  intros [Hacc Hr Hp [Hc1 Hc2] Hm] H. apply begin_some in H as (Em & n & nt & metas & H1 & H2 & H3 & H4 & H5 & H6 & pn & dt & ->).
  exists nt, metas. split; [exact H2|]. exists n. split; [exact H1|]. split; [exact H3|]. cbv zeta.
  cbn [tq nPub nRead sq]. split; [reflexivity|]. split; [reflexivity|]. split; [reflexivity|]. split; [reflexivity|].
  unfold waiting in *. rewrite Em in *. cbn [mid kept sq]. rewrite app_nil_r in Hacc.
  split; [rewrite app_length, firstn_length; lia|].
  assert (Hlen : length (samplesOf (got x) ++ sq (pS x)) = nPub (pS x)) by (rewrite app_length; lia).
  split; cbn [pS got begun nRead nPub sq tq mid kept].
  - unfold lost in *. rewrite Em in Hacc. cbn [dropS mid dS]. unfold waiting. cbn [sq mid kept]. rewrite app_assoc. rewrite Nat.add_0_r in Hacc.
    rewrite <- Hlen. apply acc_call; try assumption.
    + rewrite Hlen. exact H6.
  - exact Hr.
  - exact Hp.
  - split; [exact Hc1|]. rewrite app_length, firstn_length. lia.
  - intros B. unfold waiting. cbn [sq mid kept]. specialize (H4 B). rewrite app_length, firstn_length. lia.
Qed.

Lemma pinv_end c x P st' : pinv c x P -> pEnd c (pS x) = Some st' ->
  pinv c (mkPtr st' (got x) (begun x)) P /\ waiting st' = waiting (pS x) /\ tq st' = tq (pS x) /\
  nRead st' = nRead (pS x) /\ nPub st' = nRead (pS x) + length (waiting (pS x)) /\ mid st' = None.
Proof.
  intros [Hacc Hr Hp [Hc1 Hc2] Hm] H. unfold pEnd in H. destruct (mid (pS x)) as [m|] eqn:Em; [|discriminate].
  destruct (Nat.ltb_spec (capS c - length (sq (pS x))) (length (kept m))) as [|Hk]; [discriminate|]. injection H as <-.
  unfold waiting, lost in *. rewrite Em in *. cbn [sq mid tq nRead nPub dropS]. rewrite app_nil_r.
  split; [|repeat split; rewrite ?app_length; lia].
  split; cbn [pS got begun nRead nPub sq tq mid]; unfold waiting, lost; cbn [sq mid dropS]; rewrite ?app_nil_r.
  - rewrite Nat.add_0_r. exact Hacc.
  - exact Hr.
  - rewrite app_length. lia.
  - split; [|exact Hc2]. rewrite app_length. lia.
  - intros B. apply Hm. exact B.
Qed.

Lemma pinv_meta c x P m st' : pinv c x P -> pMeta m (pS x) = Some st' ->
  pinv c (mkPtr st' (got x) (begun x)) P /\ sq st' = sq (pS x) /\ tq st' = tq (pS x) /\ nRead st' = nRead (pS x) /\
  nPub st' = nPub (pS x) /\ mid st' = mid (pS x) /\ waiting st' = waiting (pS x).
Proof.
  intros [Hacc Hr Hp Hc Hm] H. unfold pMeta in H. destruct (mid (pS x)) as [u|] eqn:Em; [discriminate|]. injection H as <-.
  unfold waiting, lost in *. rewrite Em in *. cbn. split; [|repeat split].
  split; cbn; assumption.
Qed.

(* What a call of process does. *)
Lemma proc_cases c w r st st' o : @pProc A T M c w r st = (st', o) ->
  let n := nToProcess (length (sq st)) r (minN c) (maxN c) in
  (n < minN c /\ st' = st /\ o = None) \/
  (minN c <= n /\ n <= length (sq st) /\
   o = Some (firstn n (sq st), if w then map (fun e => (fst e - nRead st, snd e)) (prefixWhile (fun i => i <? nRead st + n) (tq st)) else []) /\
   st' = mkPst (skipn n (sq st)) (if w then skipn (length (prefixWhile (fun i => i <? nRead st + n) (tq st))) (tq st) else [])
              (pend st) (nPub st) (nRead st + n) (dropS st) (dropT st) (mid st)).
Proof.
  unfold pProc. cbv zeta. destruct (Nat.ltb_spec (nToProcess (length (sq st)) r (minN c) (maxN c)) (minN c)) as [H|H].
  - intros E. injection E as <- <-. left. auto.
  - intros E. right. split; [exact H|]. split; [unfold nToProcess; lia|]. destruct w; injection E as <- <-; auto.
Qed.

Lemma pinv_proc c x P w r st' o : pinv c x P -> pProc c w r (pS x) = (st', o) ->
  pinv c (mkPtr st' (match o with Some g => got x ++ [g] | None => got x end) (begun x)) P.
Proof.
  intros [Hacc Hr Hp [Hc1 Hc2] Hm] H. apply proc_cases in H. cbv zeta in H.
  destruct H as [(H1 & -> & ->)|(H1 & H2 & -> & ->)]; [split; try assumption; split; assumption|].
  set (n := nToProcess _ _ _ _) in *. clearbody n.
  split; cbn [pS got begun nRead nPub sq tq mid].
  - rewrite samplesOf_app, samplesOf_one. unfold waiting, lost in *. cbn [sq mid dropS].
    rewrite <- app_assoc, (app_assoc (firstn n _)), firstn_skipn. exact Hacc.
  - rewrite samplesOf_app, samplesOf_one, app_length, firstn_length. lia.
  - rewrite skipn_length. lia.
  - rewrite skipn_length. split; [lia|]. destruct w; [rewrite skipn_length; lia|cbn; lia].
  - intros B. specialize (Hm B). unfold waiting in *. cbn [sq mid]. rewrite app_length, skipn_length in *. lia.
Qed.

Lemma pinv0 c : pinv c ptr0 [].
Proof. split; cbn; try lia. apply acc_none. Qed.

Lemma prun_snoc c es e : @prun A T M c (es ++ [e]) = pstep c (prun c es) e.
Proof. unfold prun. rewrite fold_left_app. reflexivity. Qed.

Theorem prun_inv c es : exists P, pinv c (@prun A T M c es) P.
Proof.
  induction es as [|e es IH] using rev_ind; [exists []; apply pinv0|].
  destruct IH as (P & IH). rewrite prun_snoc. set (x := prun c es) in *. clearbody x. destruct e as [m|d t| |w r]; cbn [pstep].
  - destruct (pMeta m (pS x)) eqn:E; [|exists P; exact IH]. exists P. apply (pinv_meta _ _ _ _ _ IH E).
  - destruct (pBegin c d t (pS x)) eqn:E; [|exists P; exact IH].
    destruct (pinv_begin _ _ _ _ _ _ IH E) as (nt & ms & _ & n & _ & _ & H). cbv zeta in H. destruct H as (_ & _ & _ & _ & _ & H). eexists. exact H.
  - destruct (pEnd c (pS x)) eqn:E; [|exists P; exact IH]. exists P. apply (pinv_end _ _ _ _ IH E).
  - destruct (pProc c w r (pS x)) as [s [g|]] eqn:E; exists P; apply (pinv_proc _ _ _ _ _ _ _ IH E).
Qed.

(* ---------- tags ---------- *)

Definition tidy (e : pev A T M) : Prop :=
  match e with EvBegin _ t => inOrder (map fst t) | EvProc w _ => w = true | _ => True end.

Record tinv (c : pcfg) (x : ptr) : Prop := {
  ti_p : pinv c x (tagsOf 0 (got x) ++ tq (pS x));
  ti_sorted : inOrder (map fst (tq (pS x)));
  ti_late : Forall (fun e => nRead (pS x) <= fst e < nRead (pS x) + length (waiting (pS x))) (tq (pS x));
  ti_chunks : Forall (fun g => Forall (fun e => fst e < length (fst g)) (snd g)) (got x) }.

Lemma sorted_app l r : inOrder l -> inOrder r -> (forall a b, In a l -> In b r -> a <= b) -> inOrder (l ++ r).
Proof.
  intros Hl. induction Hl as [|a l Hl IH Ha]; intros Hr H; [exact Hr|]. cbn. constructor.
  - apply IH; [exact Hr|]. intros u v Hu Hv. apply H; [right; exact Hu|exact Hv].
  - apply Forall_app. split; [exact Ha|]. rewrite Forall_forall. intros b Hb. apply H; [left; reflexivity|exact Hb].
Qed.
Lemma sorted_app_inv l r : inOrder (l ++ r) -> inOrder l /\ inOrder r.
Proof.
  induction l as [|a l IH]; intros H; [split; [constructor|exact H]|]. cbn in H. inversion H as [|? ? H1 H2 E]; clear E.
  apply IH in H1 as [H1 H3]. split; [|exact H3]. constructor; [exact H1|]. apply Forall_app in H2 as [H2 _]. exact H2.
Qed.
Lemma sorted_firstn n l : inOrder l -> inOrder (firstn n l).
Proof. intros H. rewrite <- (firstn_skipn n l) in H. apply (sorted_app_inv _ _ H). Qed.
Lemma sorted_skipn n l : inOrder l -> inOrder (skipn n l).
Proof. intros H. rewrite <- (firstn_skipn n l) in H. apply (sorted_app_inv _ _ H). Qed.
Lemma sorted_map_mono (g : nat -> nat) l : (forall a b, a <= b -> g a <= g b) -> inOrder l -> inOrder (map g l).
Proof.
  intros Hg H. induction H as [|a l H IH Ha]; cbn; constructor; [exact IH|]. rewrite Forall_forall in *.
  intros b Hb. apply in_map_iff in Hb as (u & <- & Hu). apply Hg, Ha, Hu.
Qed.
Lemma sorted_filter {X} (g : X -> nat) p (l : list X) : inOrder (map g l) -> inOrder (map g (filter p l)).
Proof.
  induction l as [|a l IH]; intros H; [constructor|]. cbn [map] in H. inversion H as [|? ? H1 H2 E]; clear E. cbn [filter].
  destruct (p a); [|apply IH; exact H1]. cbn [map]. constructor; [apply IH; exact H1|]. rewrite Forall_forall in *.
  intros b Hb. apply in_map_iff in Hb as (u & <- & Hu). apply H2, in_map. apply filter_In in Hu. apply Hu.
Qed.

Lemma prefixWhile_split p l : exists r, l = @prefixWhile T M p l ++ r /\ skipn (length (prefixWhile p l)) l = r /\
  Forall (fun e => p (fst e) = true) (prefixWhile p l) /\ match r with [] => True | e :: _ => p (fst e) = false end.
Proof.
  induction l as [|e l IH]; cbn.
  - exists []. repeat split. constructor.
  - destruct (p (fst e)) eqn:E.
    + destruct IH as (r & H1 & H2 & H3 & H4). exists r. cbn. rewrite <- H1. repeat split; try assumption. constructor; assumption.
    + exists (e :: l). cbn. repeat split; [constructor|exact E].
Qed.

Theorem trun_inv c es : Forall tidy es -> tinv c (@prun A T M c es).
Proof.
  induction es as [|e es IH] using rev_ind; intros Hall.
  { split; cbn; [apply pinv0|constructor|constructor|constructor]. }
  apply Forall_app in Hall as [Hall He]. specialize (IH Hall). pose proof (Forall_inv He) as He1. clear He Hall.
  rewrite prun_snoc. set (x := prun c es) in *. clearbody x. destruct IH as [Hp Hs Hl Hch].
  destruct e as [m|d t| |w r]; cbn [pstep].
  - destruct (pMeta m (pS x)) as [s|] eqn:E; [|split; assumption].
    destruct (pinv_meta _ _ _ _ _ Hp E) as (H1 & H2 & H3 & H4 & H5 & H6 & H7).
    split; cbn [pS got begun]; rewrite ?H3, ?H4, ?H7; assumption.
  - destruct (pBegin c d t (pS x)) as [s|] eqn:E; [|split; assumption].
    destruct (pinv_begin _ _ _ _ _ _ Hp E) as (nt & ms & Hms & n & Hn & Hz & H). cbv zeta in H.
    destruct H as (H1 & H2 & H3 & H4 & H5 & H6).
    assert (Em : mid (pS x) = None) by (apply begin_some in E; apply E).
    assert (Hw : waiting (pS x) = sq (pS x)) by (unfold waiting; rewrite Em; apply app_nil_r).
    pose proof (pi_pub _ _ _ Hp) as Hpub.
    cbn in He1.
    set (whole := map (fun m => (nPub (pS x), Meta m)) ms ++ map (fun e => (nPub (pS x) + fst e, Plain (snd e))) (filter (fun e => fst e <? n) t)) in *.
    assert (Hwh : inOrder (map fst whole)).
    { unfold whole. rewrite map_app, !map_map. cbn [fst]. apply sorted_app.
      - destruct ms as [|m1 [|m2 ms]]; cbn in *; try lia; repeat constructor.
      - rewrite <- (map_map (@fst nat T) (fun i => nPub (pS x) + i)). apply sorted_map_mono; [intros; lia|].
        apply sorted_filter. exact He1.
      - intros a b Ha Hb. apply in_map_iff in Ha as (? & <- & _). apply in_map_iff in Hb as (? & <- & _). lia. }
    assert (Hwr : 0 < n -> Forall (fun e => nPub (pS x) <= fst e < nPub (pS x) + n) whole).
    { intros Hpos. unfold whole. apply Forall_app. split; rewrite Forall_forall; intros e Hin.
      - apply in_map_iff in Hin as (m & <- & _). cbn. lia.
      - apply in_map_iff in Hin as (u & <- & Hu). apply filter_In in Hu as [_ Hu]. cbn [fst]. apply Nat.ltb_lt in Hu. lia. }
    assert (Hfr : Forall (fun e => nPub (pS x) <= fst e < nPub (pS x) + n) (firstn nt whole)).
    { destruct n as [|n']; [rewrite (Hz eq_refl); constructor|]. specialize (Hwr ltac:(lia)).
      rewrite <- (firstn_skipn nt whole) in Hwr. apply Forall_app in Hwr. apply Hwr. }
    split; cbn [pS got begun]; rewrite ?H1, ?H3, ?H5.
    + rewrite app_assoc. exact H6.
    + rewrite map_app. apply sorted_app; [exact Hs|rewrite <- firstn_map; apply sorted_firstn; exact Hwh|].
      intros a b Ha Hb. apply in_map_iff in Ha as (u & <- & Hu). apply in_map_iff in Hb as (v & <- & Hv).
      rewrite Forall_forall in Hl, Hfr. specialize (Hl _ Hu). specialize (Hfr _ Hv). rewrite Hw in Hl. lia.
    + apply Forall_app. rewrite Hw in Hl. split; rewrite Forall_forall in *; intros u Hu.
      * specialize (Hl _ Hu). cbv beta in Hl |- *. lia.
      * specialize (Hfr _ Hu). cbv beta in Hfr |- *. lia.
    + exact Hch.
  - destruct (pEnd c (pS x)) as [s|] eqn:E; [|split; assumption].
    destruct (pinv_end _ _ _ _ Hp E) as (H1 & H2 & H3 & H4 & H5 & H6).
    split; cbn [pS got begun]; rewrite ?H2, ?H3, ?H4; assumption.
  - cbn in He1. subst w. destruct (pProc c true r (pS x)) as [s o] eqn:E.
    pose proof (pinv_proc _ _ _ _ _ _ _ Hp E) as H1. apply proc_cases in E. cbv zeta in E.
    destruct E as [(E1 & -> & ->)|(E1 & E2 & -> & ->)]; [split; assumption|].
    set (n := nToProcess _ _ _ _) in *. clearbody n.
    destruct (prefixWhile_split (fun i => i <? nRead (pS x) + n) (tq (pS x))) as (rest & F1 & F2 & F3 & F4).
    set (rel := prefixWhile _ _) in *. clearbody rel. rewrite F2 in H1 |- *.
    assert (Hrel : Forall (fun e => nRead (pS x) <= fst e < nRead (pS x) + n) rel).
    { rewrite F1 in Hl. apply Forall_app in Hl as [Hl _]. rewrite Forall_forall in *. intros u Hu.
      specialize (Hl _ Hu). specialize (F3 _ Hu). cbv beta in *. apply Nat.ltb_lt in F3. lia. }
    assert (Hrest : Forall (fun e => nRead (pS x) + n <= fst e) rest).
    { destruct rest as [|e rest]; [constructor|]. apply Nat.ltb_ge in F4.
      rewrite F1, map_app in Hs. apply sorted_app_inv in Hs as [_ Hs]. cbn [map] in Hs.
      inversion Hs as [|? ? _ Hs2 E]; clear E. constructor; [exact F4|].
      rewrite Forall_forall in *. intros u Hu. specialize (Hs2 (fst u) (in_map fst _ _ Hu)). lia. }
    pose proof (pi_read _ _ _ Hp) as Hread.
    split; cbn [pS got begun tq nRead].
    + rewrite tagsOf_app. cbn [tagsOf]. rewrite app_nil_r, map_map. cbn [fst snd].
      assert (Em : map (fun e => (0 + length (samplesOf (got x)) + (fst e - nRead (pS x)), snd e)) rel = rel).
      { clear -Hrel Hread. induction rel as [|e rel IH]; [reflexivity|]. inversion Hrel as [|? ? H1 H2 E]; clear E. cbn [map]. rewrite (IH H2).
        f_equal. destruct e as [i u]. cbn [fst snd] in *. f_equal. lia. }
      rewrite Em, <- app_assoc, <- F1. exact H1.
    + rewrite F1, map_app in Hs. apply (sorted_app_inv _ _ Hs).
    + rewrite F1 in Hl. apply Forall_app in Hl as [_ Hl]. rewrite Forall_forall in *. intros u Hu.
      specialize (Hl _ Hu). specialize (Hrest _ Hu). cbv beta in *. unfold waiting in *. cbn [sq mid].
      rewrite app_length, skipn_length in *. lia.
    + apply Forall_app. split; [exact Hch|]. constructor; [|constructor]. cbn [fst snd].
      rewrite Forall_forall in *. intros u Hu. apply in_map_iff in Hu as (v & <- & Hv). specialize (Hrel _ Hv). cbn [fst].
      rewrite firstn_length. lia.
Qed.

(* ---------- the callback ---------- *)


Lemma skipn_plus {X} a b (l : list X) : skipn b (skipn a l) = skipn (a + b) l.
Proof. revert l. induction a as [|a IH]; intros l; [reflexivity|]. destruct l as [|x l]; [destruct b; reflexivity|]. cbn. apply IH. Qed.

Lemma filter_none {X} (p : X -> bool) l : (forall a, p a = false) -> filter p l = [].
Proof. intros H. induction l as [|a l IH]; [reflexivity|]. cbn. rewrite H. exact IH. Qed.

Lemma filter_cut (tags : list (nat * T)) a b e : inOrder (map fst tags) -> a <= b <= e ->
  filter (fun x => (a <=? fst x) && (fst x <? e)) tags =
  filter (fun x => (a <=? fst x) && (fst x <? b)) tags ++ filter (fun x => (b <=? fst x) && (fst x <? e)) tags.
Proof.
  intros Hs H. induction tags as [|[i u] tags IH]; [reflexivity|]. cbn [map fst] in Hs. apply StronglySorted_inv in Hs as [H1 H2].
  specialize (IH H1). cbn [filter fst].
  destruct (Nat.leb_spec a i), (Nat.ltb_spec i e), (Nat.ltb_spec i b), (Nat.leb_spec b i); cbn [andb]; try lia; try exact IH;
    try (rewrite IH; reflexivity).
  assert (E : filter (fun x => (a <=? fst x) && (fst x <? b)) tags = []).
  { clear IH H1. induction tags as [|[j v] tags IH]; [reflexivity|]. cbn [map fst] in H2. pose proof (Forall_inv H2) as G5. pose proof (Forall_inv_tail H2) as G6.
    cbn [filter fst]. destruct (Nat.ltb_spec j b); [lia|]. rewrite andb_false_r. apply IH. exact G6. }
  rewrite E in IH |- *. cbn [app] in *. rewrite IH. reflexivity.
Qed.

Lemma cbLoop_spec fuel chunk (data : list A) (tags : list (nat * T)) : forall off (pn : option M),
  0 < chunk -> length data <= off + fuel -> inOrder (map fst tags) -> off <= length data ->
  let '(r, pn') := cbLoop fuel chunk off data tags pn in
  samplesOf r = skipn off data /\
  Forall (fun g => 0 < length (fst g) <= chunk /\ Forall (fun e => fst e < length (fst g)) (snd g)) r /\
  pn' = (if off <? length data then None else pn) /\
  tagsOf off r = (if off <? length data then match pn with Some m => [(off, Meta m)] | None => [] end else [])
                 ++ map (fun e => (fst e, Plain (snd e))) (filter (fun e => (off <=? fst e) && (fst e <? length data)) tags).
Proof.
  assert (Hend : forall off (pn : option M), off = length data ->
    samplesOf (M := M) (T := T) [] = skipn off data /\
    Forall (fun g : list A * list (nat * ptag T M) => 0 < length (fst g) <= chunk /\ Forall (fun e => fst e < length (fst g)) (snd g)) [] /\
    pn = (if off <? length data then None else pn) /\
    tagsOf (A := A) off [] = (if off <? length data then match pn with Some m => [(off, Meta m)] | None => [] end else [])
       ++ map (fun e : nat * T => (fst e, Plain (snd e))) (filter (fun e => (off <=? fst e) && (fst e <? length data)) tags)).
  { intros off pn ->. rewrite skipn_all, Nat.ltb_irrefl. split; [reflexivity|]. split; [constructor|]. split; [reflexivity|].
    rewrite filter_none; [reflexivity|]. intros e. destruct (Nat.leb_spec (length data) (fst e)), (Nat.ltb_spec (fst e) (length data)); try reflexivity; lia. }
  induction fuel as [|fuel IH]; intros off pn Hc Hf Ho Hle; cbn [cbLoop].
  - apply Hend. lia.
  - destruct (Nat.ltb_spec off (length data)) as [Hlt|Hge].
    2:{ pose proof (Hend off pn ltac:(lia)) as H. destruct (Nat.ltb_spec off (length data)); [lia|]. exact H. }
    set (len := min chunk (length data - off)).
    assert (Hlen : 0 < len /\ len <= chunk /\ off + len <= length data) by (unfold len; lia). clearbody len.
    cbv zeta. specialize (IH (off + len) None Hc ltac:(lia) Ho ltac:(lia)).
    destruct (cbLoop fuel chunk (off + len) data tags None) as [r pn'].
    destruct IH as (H1 & H2 & H3 & H4).
    assert (L : length (firstn len (skipn off data)) = len) by (rewrite firstn_length, skipn_length; lia).
    split; [|split; [|split]].
    + change (samplesOf ((firstn len (skipn off data), _) :: r)) with (firstn len (skipn off data) ++ samplesOf r).
      rewrite H1, <- skipn_plus. apply firstn_skipn.
    + constructor; [|exact H2]. cbn [fst snd]. rewrite L. split; [lia|]. apply Forall_app. split.
      * destruct pn; repeat constructor. cbn. lia.
      * rewrite Forall_forall. intros e Hin. apply in_map_iff in Hin as (u & <- & Hu). apply filter_In in Hu as [_ Hu].
        apply andb_true_iff in Hu as [U1 U2]. apply Nat.leb_le in U1. apply Nat.ltb_lt in U2. cbn [fst]. lia.
    + rewrite H3. destruct (off + len <? length data); reflexivity.
    + cbn [tagsOf]. rewrite L, H4. clear H4.
      replace (if off + len <? length data then @nil (nat * ptag T M) else []) with (@nil (nat * ptag T M)) by (destruct (off + len <? length data); reflexivity).
      cbn [app]. rewrite (filter_cut tags off (off + len) (length data) Ho ltac:(lia)).
      rewrite !map_app, <- app_assoc. f_equal.
      * destruct pn; cbn [map fst snd]; [rewrite Nat.add_0_r|]; reflexivity.
      * f_equal. rewrite map_map. apply map_ext_in. intros e He. apply filter_In in He as [_ He]. cbn [fst snd].
        apply andb_true_iff in He as [U1 U2]. apply Nat.leb_le in U1. f_equal. lia.
Qed.

(* ---------- the queue of data sets ---------- *)

Context {D : Type}.
Inductive subseq : list D -> list D -> Prop :=
| sub_nil : subseq [] []
| sub_keep : forall d l m, subseq l m -> subseq (l ++ [d]) (m ++ [d])
| sub_drop : forall d l m, subseq l m -> subseq l (m ++ [d]).

Lemma qrun_snoc b cap lo hi es (e : qev D) : qrun b cap lo hi (es ++ [e]) = qstep b cap lo hi (qrun b cap lo hi es) e.
Proof. unfold qrun. rewrite fold_left_app. reflexivity. Qed.

Lemma qrun_inv b cap lo hi es : let x := @qrun D b cap lo hi es in
  subseq (concat (qGot x) ++ dq (qS x)) (qIn x) /\
  length (concat (qGot x)) + length (dq (qS x)) + dDrop (qS x) = length (qIn x) /\
  length (dq (qS x)) <= cap /\
  (b = true -> concat (qGot x) ++ dq (qS x) = qIn x) /\
  Forall (fun g => lo <= length g) (qGot x).
Proof.
  cbv zeta. induction es as [|e es IH] using rev_ind.
  { cbn. repeat split; try lia; constructor. }
  rewrite qrun_snoc. set (x := qrun b cap lo hi es) in *. clearbody x. destruct IH as (H1 & H2 & H3 & H4 & H5).
  destruct e as [d|r]; cbn [qstep].
  - unfold qPut. destruct (Nat.ltb_spec 0 (cap - length (dq (qS x)))) as [Hr|Hr].
    + cbn [qS qGot qIn dq dDrop]. rewrite !app_length, app_assoc. cbn [length]. repeat split; try lia; try assumption.
      * apply sub_keep. exact H1.
      * intros B. rewrite (H4 B). reflexivity.
    + destruct b; [repeat split; assumption|]. cbn [qS qGot qIn dq dDrop]. rewrite app_length. cbn [length].
      repeat split; try lia; try assumption; try (apply sub_drop; exact H1); discriminate.
  - unfold qProc. destruct (Nat.ltb_spec (nToProcess (length (dq (qS x))) r lo hi) lo) as [Hn|Hn].
    + cbn [qS qGot qIn]. repeat split; assumption.
    + cbn [qS qGot qIn dq dDrop]. set (n := nToProcess _ _ _ _) in *.
      assert (Hle : n <= length (dq (qS x))) by (unfold n, nToProcess; lia). clearbody n.
      rewrite concat_app. cbn [concat]. rewrite app_nil_r, <- app_assoc, firstn_skipn, app_length, firstn_length, skipn_length.
      repeat split; try lia; try assumption. apply Forall_app. split; [exact H5|]. constructor; [|constructor]. rewrite firstn_length. lia.
Qed.

End P.
