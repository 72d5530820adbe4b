(* Properties of the sinks that hand a stream to code outside the flow graph
   (C183-C191). *)

From Coq Require Import Arith ZArith List Bool Lia Sorted.
From Verif Require Import SinkModel SinkSpec SinkProofs SinkProofs2 SinkRegModel.
Import ListNotations.

Local Open Scope nat_scope.

Section Props.
Context {A T M : Type}.

(* ---------- C183: samples of a poller ---------- *)

Theorem C183_samples : forall (c : pcfg) (es : list (pev A T M)),
  let x := prun c es in
  exists P, account (M := M) (blocking c) (begun x) (samplesOf (got x) ++ waiting (pS x)) P (lost (pS x)).
Proof. intros c es. destruct (prun_inv (A := A) (T := T) (M := M) c es) as (P & H). exists P. apply (pi_acc _ _ _ H). Qed.

Lemma account_all cs S P d : account (A := A) (T := T) (M := M) true cs S P d -> S = concat (map fst cs) /\ d = 0.
Proof.
  intros H. induction H as [|cs S P d data tags k metas nt H [IH1 IH2] Hk Hm Hz whole Hall]; [split; reflexivity|].
  destruct (Hall eq_refl) as [-> _]. rewrite map_app, concat_app, IH1, IH2. cbn. rewrite app_nil_r, firstn_all, Nat.sub_diag. auto.
Qed.

Lemma account_count b cs S P d : account (A := A) (T := T) (M := M) b cs S P d -> length S + d = length (concat (map fst cs)).
Proof.
  intros H. induction H as [|cs S P d data tags k metas nt H IH Hk Hm Hz whole Hall]; [reflexivity|].
  rewrite map_app, concat_app, !app_length, <- IH, firstn_length. cbn. rewrite app_nil_r. lia.
Qed.

(* With backpressure the handler and the queue hold exactly the stream; always
   every sample is handed over, waiting or counted as dropped. *)
Theorem C183_nothing_lost : forall (c : pcfg) (es : list (pev A T M)),
  let x := prun c es in
  let all := concat (map fst (begun x)) in
  length (samplesOf (got x)) + length (waiting (pS x)) + lost (pS x) = length all /\
  (blocking c = true -> samplesOf (got x) ++ waiting (pS x) = all /\ lost (pS x) = 0).
Proof.
  intros c es. cbv zeta. destruct (prun_inv (A := A) (T := T) (M := M) c es) as (P & H). pose proof (pi_acc _ _ _ H) as HA. split.
  - rewrite <- (account_count _ _ _ _ _ HA), app_length. reflexivity.
  - intros B. rewrite B in HA. apply account_all in HA. exact HA.
Qed.

Theorem C183_bounded : forall (c : pcfg) (es : list (pev A T M)),
  let x := prun c es in length (sq (pS x)) <= capS c /\ length (tq (pS x)) <= capT c.
Proof. intros c es. destruct (prun_inv (A := A) (T := T) (M := M) c es) as (P & H). apply (pi_cap _ _ _ H). Qed.

(* A call that was begun can be ended without dropping once the queue was
   emptied, if the call is not larger than the queue. *)
Theorem C183_progress : forall (c : pcfg) (es : list (pev A T M)) m,
  let x := prun c es in mid (pS x) = Some m -> sq (pS x) = [] -> length (kept m) <= capS c -> pEnd c (pS x) <> None.
Proof.
  intros c es m. cbv zeta. intros Hm Hs Hk. unfold pEnd. rewrite Hm, Hs. cbn [length].
  destruct (Nat.ltb_spec (capS c - 0) (length (kept m))); [lia|discriminate].
Qed.

(* Samples are dropped only without backpressure and with a full queue, and
   only the last ones of the call. *)
Theorem C183_only_when_full : forall (c : pcfg) data tags (st st1 : pst A T M), pBegin c data tags st = Some st1 ->
  exists m, mid st1 = Some m /\ sq st1 = sq st /\ kept m = firstn (length (kept m)) data /\
    length (kept m) + dS m = length data /\
    (dS m <> 0 -> blocking c = false /\ capS c <= length (sq st) + length (kept m)).
Proof.
  intros c data tags st st1 H. unfold pBegin in H. destruct (mid st); [discriminate|].
  set (n := if blocking c then length data else min (length data) (capS c - length (sq st))) in *. cbv zeta in H.
  assert (Hn : n <= length data) by (unfold n; destruct (blocking c); lia).
  assert (Hd : length data - n <> 0 -> blocking c = false /\ capS c <= length (sq st) + n).
  { unfold n. destruct (blocking c); intros G; [lia|split; [reflexivity|lia]]. }
  assert (G : exists dt, mid st1 = Some (mkMid (firstn n data) (length data - n) dt) /\ sq st1 = sq st).
  { destruct (0 <? n); [match type of H with context [if ?b then None else _] => destruct b; [discriminate|] end|];
      injection H as <-; eexists; split; reflexivity. }
  destruct G as (dt & G1 & G2). eexists. split; [exact G1|]. split; [exact G2|]. cbn [kept dS].
  rewrite firstn_length, (Nat.min_l n) by exact Hn. repeat split; try reflexivity; try lia; apply Hd; assumption.
Qed.

(* ---------- C184: tags of a poller ---------- *)

(* When every handler takes tags: the tags handed over and those waiting are
   those accounted for; a tag is handed over together with its sample, and
   those waiting belong to samples that are not handed over yet. *)
Theorem C184_tags : forall (c : pcfg) (es : list (pev A T M)), Forall tidy es ->
  let x := prun c es in
  account (blocking c) (begun x) (samplesOf (got x) ++ waiting (pS x)) (tagsOf 0 (got x) ++ tq (pS x)) (lost (pS x)) /\
  Forall (fun g => Forall (fun e => fst e < length (fst g)) (snd g)) (got x) /\
  Forall (fun e => length (samplesOf (got x)) <= fst e) (tq (pS x)).
Proof.
  intros c es H. cbv zeta. destruct (trun_inv c es H) as [H1 H2 H3 H4]. split; [apply (pi_acc _ _ _ H1)|]. split; [exact H4|].
  rewrite (pi_read _ _ _ H1) in H3. rewrite Forall_forall in *. intros e He. specialize (H3 e He). cbv beta in H3. lia.
Qed.

(* What a call puts into the tag queue: the description that is pending, then
   the tags of the samples that fit; less only without backpressure and with a
   full queue, and what is missing is counted. *)
Theorem C184_only_when_full : forall (c : pcfg) data tags (st st1 : pst A T M), pBegin c data tags st = Some st1 ->
  exists m new, mid st1 = Some m /\ tq st1 = tq st ++ new /\
    let whole := (match pend st with Some d => [(nPub st, Meta d)] | None => [] end)
                 ++ map (fun e => (nPub st + fst e, Plain (snd e))) (filter (fun e => fst e <? length (kept m)) tags) in
    pend st1 = (match new with [] => pend st | _ => None end) /\
    (kept m = [] -> new = []) /\
    (kept m <> [] -> new = firstn (length new) whole /\ length new + dT m = length whole /\
       (dT m <> 0 -> blocking c = false /\ capT c <= length (tq st1))).
Proof.
  intros c data tags st st1 H. unfold pBegin in H. destruct (mid st); [discriminate|].
  set (n := if blocking c then length data else min (length data) (capS c - length (sq st))) in *. cbv zeta in H.
  assert (Hn : n <= length data) by (unfold n; destruct (blocking c); lia).
  assert (Hk : length (firstn n data) = n) by (rewrite firstn_length; lia).
  set (whole := (match pend st with Some d => [(nPub st, Meta d)] | None => [] end)
                 ++ map (fun e => (nPub st + fst e, Plain (snd e))) (filter (fun e => fst e <? n) tags)) in *.
  set (av := (match pend st with Some _ => 1 | None => 0 end) + length (filter (fun e => fst e <? n) tags)) in *.
  assert (Hw : length whole = av) by (unfold whole, av; rewrite app_length, map_length; destruct (pend st); reflexivity).
  set (nt := if blocking c then av else min av (capT c - length (tq st))) in *.
  assert (Ht : nt <= av) by (unfold nt; destruct (blocking c); lia).
  destruct (Nat.ltb_spec 0 n) as [H0|H0].
  - destruct (Nat.ltb_spec (capT c - length (tq st)) nt) as [Hc|Hc]; [discriminate|]. injection H as <-.
    eexists. exists (firstn nt whole). cbn [mid tq pend]. split; [reflexivity|]. split; [reflexivity|]. cbn [kept dT]. rewrite Hk. fold whole.
    assert (Hl : length (firstn nt whole) = nt) by (rewrite firstn_length; lia). split; [|split].
    + destruct (firstn nt whole) as [|a l]; cbn [length] in Hl; rewrite <- Hl; reflexivity.
    + intros E. rewrite E in Hk. cbn [length] in Hk. lia.
    + intros _. rewrite Hl, Hw. split; [reflexivity|]. split; [lia|]. rewrite app_length, Hl. unfold nt. destruct (blocking c); intros G; [lia|].
      split; [reflexivity|lia].
  - injection H as <-. eexists. exists []. cbn [mid tq pend]. rewrite app_nil_r. split; [reflexivity|]. split; [reflexivity|]. cbn [kept].
    split; [reflexivity|]. split; [reflexivity|]. intros G. exfalso. apply G. apply length_zero_iff_nil. lia.
Qed.

(* A full queue: the tags of the samples that are dropped are lost and not
   counted. *)
Theorem C184_not_counted_refuted : forall (c : pcfg) data tags (st : pst A T M),
  blocking c = false -> capS c <= length (sq st) -> mid st = None -> pend st = None ->
  exists st1, pBegin c data tags st = Some st1 /\ exists st2, pEnd c st1 = Some st2 /\
    tq st2 = tq st /\ dropT st2 = dropT st /\ dropS st2 = dropS st + length data.
Proof.
  intros c data tags st Hb Hc Hm Hp. unfold pBegin. rewrite Hm, Hb, Hp. replace (min (length data) (capS c - length (sq st))) with 0 by lia.
  assert (Ef : filter (fun e : nat * T => fst e <? 0) tags = []) by (apply filter_none; intros a; reflexivity).
  rewrite Ef. cbn [length Nat.add Nat.min]. change (0 <? 0) with false. cbv iota.
  eexists. split; [reflexivity|]. unfold pEnd. cbn [mid kept sq firstn length].
  destruct (Nat.ltb_spec (capS c - length (sq st)) 0); [lia|]. eexists. split; [reflexivity|]. cbn [tq dropT dropS dT dS]. repeat split; lia.
Qed.

(* A full tag queue: the description of the signal is counted as dropped but
   kept for the next call. *)
Theorem C184_counted_but_kept_refuted : forall (c : pcfg) x r (st : pst A T M) m,
  blocking c = false -> length (sq st) + length (x :: r) <= capS c -> capT c <= length (tq st) -> mid st = None -> pend st = Some m ->
  exists st1, pBegin c (x :: r) [] st = Some st1 /\ exists st2, pEnd c st1 = Some st2 /\
    dropT st2 = S (dropT st) /\ pend st2 = Some m.
Proof.
  intros c x r st m Hb Hc Ht Hm Hp. unfold pBegin. rewrite Hm, Hb, Hp. cbn [filter length Nat.add] in *.
  replace (min (S (length r)) (capS c - length (sq st))) with (S (length r)) by lia. change (0 <? S (length r)) with true. cbv iota zeta.
  replace (capT c - length (tq st)) with 0 by lia. cbn [Nat.min]. change (0 <? 0) with false. cbv iota.
  eexists. split; [reflexivity|]. unfold pEnd. cbn [mid kept sq]. rewrite firstn_length. cbn [length].
  destruct (Nat.ltb_spec (capS c - length (sq st)) (min (S (length r)) (S (length r)))); [lia|]. eexists. split; [reflexivity|].
  cbn [dropT pend dT]. split; [lia|reflexivity].
Qed.

(* A handler without tags discards the tags of samples that are not handed
   over yet. *)
Theorem C184_without_tags_refuted : forall (c : pcfg) r (st st' : pst A T M) g,
  pProc c false r st = (st', Some g) -> tq st' = [].
Proof. intros c r st st' g H. apply proc_cases in H. cbv zeta in H. destruct H as [(_ & _ & H)|(_ & _ & _ & ->)]; [discriminate|reflexivity]. Qed.

(* ---------- C185: how much a call of process hands over ---------- *)

Theorem C185_bounds : forall (c : pcfg) w r (st st' : pst A T M) o, minN c <= maxN c ->
  pProc c w r st = (st', o) ->
  match o with
  | Some g => minN c <= length (fst g) <= maxN c /\ length (fst g) <= length (sq st) /\
              (length (fst g) <= r \/ length (fst g) = minN c) /\
              sq st = fst g ++ sq st' /\
              (length (fst g) < r -> length (fst g) < maxN c -> sq st' = [] \/ length (fst g) = minN c)
  | None => length (sq st) < minN c /\ st' = st
  end.
Proof.
  intros c w r st st' o Hmm H. apply proc_cases in H. cbv zeta in H. unfold nToProcess, clamp in H.
  destruct H as [(H1 & -> & ->)|(H1 & H2 & -> & ->)].
  - split; [|reflexivity]. destruct (Nat.ltb_spec r (minN c)); [lia|]. destruct (Nat.ltb_spec (maxN c) r); lia.
  - cbn [fst sq]. rewrite firstn_length, firstn_skipn.
    destruct (Nat.ltb_spec r (minN c)) as [Ha|Ha]; [|destruct (Nat.ltb_spec (maxN c) r) as [Hb|Hb]].
    + repeat split; lia.
    + repeat split; try lia; intros G1 G2; left; apply skipn_all2; lia.
    + repeat split; try lia; intros G1 G2; left; apply skipn_all2; lia.
Qed.

(* What is left below the minimum when the sink has stopped is never handed
   over. *)
Theorem C185_remainder_refuted : forall (c : pcfg) w r (st : pst A T M), length (sq st) < minN c -> pProc c w r st = (st, None).
Proof.
  intros c w r st H. unfold pProc, nToProcess.
  destruct (Nat.ltb_spec (min (length (sq st)) (clamp r (minN c) (maxN c))) (minN c)); [reflexivity|lia].
Qed.

(* ---------- C186: the callback ---------- *)

Theorem C186_callback : forall mx (data : list A) (tags : list (nat * T)) (pn : option M), inOrder (map fst tags) ->
  let '(r, pn') := cbProcess mx data tags pn in
  samplesOf r = data /\
  Forall (fun g => 0 < length (fst g) /\ (mx <> 0 -> length (fst g) <= mx) /\ Forall (fun e => fst e < length (fst g)) (snd g)) r /\
  (data <> [] -> pn' = None /\
     tagsOf 0 r = (match pn with Some m => [(0, Meta m)] | None => [] end)
                  ++ map (fun e => (fst e, Plain (snd e))) (filter (fun e => fst e <? length data) tags)) /\
  (data = [] -> pn' = pn).
Proof.
  intros mx data tags pn Ho. unfold cbProcess. destruct data as [|x r].
  { cbn. split; [reflexivity|]. split; [constructor|]. split; [congruence|auto]. }
  set (data := x :: r). set (chunk := if mx =? 0 then length data else mx).
  assert (Hc : 0 < chunk) by (unfold chunk, data; destruct (Nat.eqb_spec mx 0); cbn; lia).
  pose proof (cbLoop_spec (length data) chunk data tags 0 pn Hc ltac:(lia) Ho ltac:(lia)) as H.
  destruct (cbLoop (length data) chunk 0 data tags pn) as [g pn']. destruct H as (H1 & H2 & H3 & H4).
  change (0 <? length data) with true in H3, H4. cbv iota in H3, H4.
  split; [exact H1|]. split; [|split].
  - rewrite Forall_forall in *. intros e He. destruct (H2 e He) as [G1 G2]. split; [lia|]. split; [|exact G2].
    intros Hm. unfold chunk in G1. destruct (Nat.eqb_spec mx 0); [contradiction|lia].
  - intros _. split; [exact H3|]. rewrite H4. f_equal.
  - discriminate.
Qed.

(* ---------- C187: triggers ---------- *)

Context {F : Type} (mt : F -> T -> F * verdict) (emptyT : T -> bool).

(* However the stream is cut into calls, each trigger gives one data set, in
   order, once the samples behind it are there. *)
Theorem C187_windows : forall pre post cap (f0 : F) (h0 : list A) (ks : list (call A T)),
  proper ks -> pre <= cap -> length h0 <= cap ->
  let s := streamOf ks in
  ttOut (trun mt emptyT pre post cap f0 h0 ks) =
  map (window pre post h0 (map fst s)) (filter (fun e => fst e + post <=? length s) (starts mt emptyT f0 s)).
Proof.
  intros pre post cap f0 h0 ks Hp Hc Hh. cbv zeta. destruct (trigger_inv mt emptyT pre post h0 cap f0 ks Hp Hc Hh) as (_ & _ & _ & H).
  cbv zeta in H. rewrite H, map_length. reflexivity.
Qed.

Lemma filter_both {X} (g : X -> nat) (l : list X) n : inOrder (map g l) ->
  filter (fun e => g e <=? n) l ++ filter (fun e => n <? g e) l = l.
Proof.
  induction l as [|e l IH]; intros Hs; [reflexivity|]. cbn [map] in Hs. apply StronglySorted_inv in Hs as [H1 H2]. specialize (IH H1). cbn [filter].
  destruct (Nat.leb_spec (g e) n), (Nat.ltb_spec n (g e)); try lia.
  - cbn [app]. rewrite IH. reflexivity.
  - assert (E : filter (fun u => g u <=? n) l = []).
    { clear IH H1. induction l as [|u l IH]; [reflexivity|]. cbn [map] in H2. pose proof (Forall_inv H2). cbn [filter].
      destruct (Nat.leb_spec (g u) n); [lia|]. apply IH. exact (Forall_inv_tail H2). }
    rewrite E in *. cbn [app] in *. rewrite IH. reflexivity.
Qed.

(* When the sink stops, the triggers that still wait for samples give what
   there is: in the end every trigger gives exactly one data set. *)
Theorem C187_all_triggers : forall pre post cap (f0 : F) (h0 : list A) (ks : list (call A T)),
  proper ks -> pre <= cap -> length h0 <= cap ->
  let x := trun mt emptyT pre post cap f0 h0 ks in
  let s := streamOf ks in
  ttOut x ++ tStop (ttS x) = map (window pre post h0 (map fst s)) (starts mt emptyT f0 s).
Proof.
  intros pre post cap f0 h0 ks Hp Hc Hh. cbv zeta. destruct (trigger_inv mt emptyT pre post h0 cap f0 ks Hp Hc Hh) as (_ & H1 & _ & H2).
  cbv zeta in H1, H2. destruct (starts_range mt emptyT f0 (streamOf ks)) as [R1 R2]. unfold tStop. rewrite H1, H2.
  set (s := map fst (streamOf ks)) in *. set (st := starts mt emptyT f0 (streamOf ks)) in *.
  rewrite map_map. cbn [cds capOf]. unfold capOf. cbn [cds].
  assert (E : filter (fun d : dset A T => 0 <? length (vals d)) (map (window pre post h0 s) (filter (fun e => length s <? fst e + post) st))
              = map (window pre post h0 s) (filter (fun e => length s <? fst e + post) st)).
  { assert (G : Forall (fun e => fst e < length s) st) by (unfold s; rewrite map_length; exact R1).
    clear -G. induction st as [|e st IH]; [reflexivity|]. cbn [filter]. specialize (IH (Forall_inv_tail G)). pose proof (Forall_inv G) as He. cbv beta in He.
    destruct (Nat.ltb_spec (length s) (fst e + post)) as [Hl|Hl]; [|exact IH]. cbn [map filter]. rewrite IH.
    assert (Hv : 0 < length (vals (window pre post h0 s e))).
    { unfold window. cbn [vals]. rewrite app_length.
      assert (G1 : length (firstn post (skipn (fst e) s)) = min post (length s - fst e)) by (rewrite firstn_length, skipn_length; reflexivity).
      lia. }
    apply Nat.ltb_lt in Hv. rewrite Hv. reflexivity. }
  etransitivity; [apply f_equal; exact E|]. rewrite <- map_app. f_equal.
  apply (filter_both (fun e => fst e + post)). rewrite <- (map_map fst (fun i => i + post)). apply sorted_map_mono; [intros; lia|exact R2].
Qed.

(* Registering a listener that needs more samples in front reverses the
   samples remembered so far. *)
Theorem C187_history_refuted : forall n cap (h : list A), length h <= cap -> cap < n -> ensureHist n (cap, h) = (n, rev h).
Proof.
  intros n cap h Hh Hn. unfold ensureHist. cbn [fst snd]. destruct (Nat.leb_spec n cap); [lia|]. unfold pushHist.
  rewrite app_nil_r, firstn_all2 by (rewrite rev_length; lia). reflexivity.
Qed.

(* ---------- C188: ranges ---------- *)

Theorem C188_ranges : forall mx (f0 : F) (ks : list (call A T)), proper ks ->
  let s := streamOf ks in
  let x := mrun mt mx f0 ks in
  (mtOut x, mcur (mtS x)) = ranges mx (map fst s) (snd (judged mt (fun _ => false) f0 0 s)).
Proof. intros mx f0 ks Hp. cbv zeta. symmetry. apply (mux_inv mt mx f0 ks Hp). Qed.

Lemma ranges_bounded mx (s : list A) (l : list (nat * T * verdict)) : mx <> 0 ->
  Forall (fun d => length (vals d) <= mx) (fst (ranges mx s l)).
Proof.
  intros Hm. assert (G : forall p e ev, length (vals (range (T := T) mx p e s ev)) <= mx).
  { intros p e ev. unfold range, part. cbn [vals]. destruct (Nat.eqb_spec mx 0); [contradiction|]. rewrite firstn_length. lia. }
  induction l as [|[[p t] v] l IH]; [constructor|]. cbn [ranges]. destruct (ranges mx s l) as [o c]. cbn [fst] in IH.
  destruct v; try exact IH. destruct l as [|[[q u] w] l].
  - destruct (full mx p (length s)); cbn [fst]; [constructor; [apply G|constructor]|constructor].
  - cbn [fst]. constructor; [apply G|exact IH].
Qed.

Theorem C188_bounded : forall mx (f0 : F) (ks : list (call A T)), proper ks -> mx <> 0 ->
  Forall (fun d => length (vals d) <= mx) (mtOut (mrun mt mx f0 ks)).
Proof.
  intros mx f0 ks Hp Hm. destruct (mux_inv mt mx f0 ks Hp) as [_ H]. cbv zeta in H.
  pose proof (ranges_bounded mx (map fst (streamOf ks)) (snd (judged mt (fun _ => false) f0 0 (streamOf ks))) Hm) as G.
  rewrite H in G. exact G.
Qed.

(* ---------- C189: snapshots ---------- *)

Theorem C189_snapshots : forall delay (f0 : F) (ks : list (call A T)), proper ks ->
  let s := streamOf ks in
  ntOut (nrun mt emptyT delay f0 ks) = somes (map (snapshot delay (map fst s)) (starts mt emptyT f0 s)).
Proof. intros delay f0 ks Hp. cbv zeta. apply (snapshot_inv mt emptyT delay f0 ks Hp). Qed.

(* ---------- C190: the queue of data sets ---------- *)

Context {D : Type}.
Theorem C190_queue : forall b cap lo hi (es : list (qev D)),
  let x := qrun b cap lo hi es in
  subseq (concat (qGot x) ++ dq (qS x)) (qIn x) /\
  length (concat (qGot x)) + length (dq (qS x)) + dDrop (qS x) = length (qIn x) /\
  length (dq (qS x)) <= cap /\
  (b = true -> concat (qGot x) ++ dq (qS x) = qIn x) /\
  Forall (fun g => lo <= length g) (qGot x).
Proof. intros b cap lo hi es. apply qrun_inv. Qed.

End Props.

Print Assumptions C183_samples.
Print Assumptions C183_nothing_lost.
Print Assumptions C183_bounded.
Print Assumptions C183_progress.
Print Assumptions C184_tags.
Print Assumptions C183_only_when_full.
Print Assumptions C184_only_when_full.
Print Assumptions C184_not_counted_refuted.
Print Assumptions C184_counted_but_kept_refuted.
Print Assumptions C184_without_tags_refuted.
Print Assumptions C185_bounds.
Print Assumptions C185_remainder_refuted.
Print Assumptions C186_callback.
Print Assumptions C187_windows.
Print Assumptions C187_all_triggers.
Print Assumptions C187_history_refuted.
Print Assumptions C188_ranges.
Print Assumptions C188_bounded.
Print Assumptions C189_snapshots.
Print Assumptions C190_queue.

(* ---------- cases ---------- *)

(* Two calls into a queue for four samples, with reading in between. *)
Definition cDrop : pcfg := mkP false 4 8 1 3.
Definition esDrop : list (pev nat nat nat) :=
  [EvMeta 7; EvBegin [10; 11; 12] [(0, 100); (2, 102)]; EvEnd; EvProc true 2; EvBegin [13; 14; 15; 16] [(1, 104); (3, 106)]; EvEnd; EvProc true 9; EvProc true 9].
Example C183_ex : let x := prun cDrop esDrop in
  samplesOf (got x) = [10; 11; 12; 13; 14; 15] /\ waiting (pS x) = [] /\ lost (pS x) = 1 /\ dropS (pS x) = 1.
Proof. vm_compute. repeat split. Qed.
Example C184_ex : Forall tidy esDrop /\ let x := prun cDrop esDrop in
  got x = [([10; 11], [(0, Meta 7); (0, Plain 100)]); ([12; 13; 14], [(0, Plain 102); (2, Plain 104)]); ([15], [])] /\ dropT (pS x) = 0.
Proof. split; [repeat constructor|vm_compute; split; reflexivity]. Qed.
Example C184_lost_ex : let st := pS (prun (mkP false 2 8 1 3) [EvBegin [1; 2] [(0, 5)]; EvEnd]) in
  capS (mkP false 2 8 1 3) <= length (sq st) /\ mid st = None /\ pend (T := nat) (M := nat) st = None.
Proof. vm_compute. repeat split. lia. Qed.
Example C184_kept_ex : let c := mkP false 9 1 1 3 in let st := pS (prun c [EvBegin [1; 2] [(0, 5)]; EvEnd; EvMeta (T := nat) 3]) in
  length (sq st) + length [8; 9] <= capS c /\ capT c <= length (tq st) /\ mid st = None /\ pend st = Some 3.
Proof. vm_compute. repeat split; lia. Qed.
Example C184_full_ex : exists st1, pBegin (mkP false 4 2 1 9) [13; 14; 15; 16] [(0, 103); (1, 104); (3, 106)]
    (pS (prun (mkP false 4 2 1 9) [EvMeta 7; EvBegin [10; 11] [(0, 100)]; EvEnd; EvProc true 1; EvMeta 8])) = Some st1 /\
  exists st2, pBegin (mkP false 4 2 1 9) [13; 14; 15; 16] [(0, 103); (1, 104); (3, 106)]
    (pS (prun (mkP false 4 2 1 9) [EvBegin [10; 11] [(0, 100)]; EvEnd; EvMeta 8])) = Some st2 /\
  tq st2 = [(0, Plain 100); (2, Meta 8)] /\ pend st2 = None /\ mid st2 = Some (mkMid [13; 14] 2 2).
Proof. eexists. split; [vm_compute; reflexivity|]. eexists. split; [vm_compute; reflexivity|]. vm_compute. repeat split. Qed.
Example C185_ex : pProc cDrop true 2 (pS (prun cDrop (firstn 3 esDrop))) =
  (mkPst [12] [(2, Plain 102)] None 3 2 0 0 None, Some ([10; 11], [(0, Meta 7); (0, Plain 100)])).
Proof. vm_compute. reflexivity. Qed.
Example C186_ex : inOrder (map fst [(0, 5); (3, 6); (4, 7)]) /\ cbProcess 2 [1; 2; 3; 4; 5] [(0, 5); (3, 6); (4, 7)] (Some 9) =
  ([([1; 2], [(0, Meta 9); (0, Plain 5)]); ([3; 4], [(1, Plain 6)]); ([5], [(0, Plain 7)])], None).
Proof. split; [repeat constructor|vm_compute; reflexivity]. Qed.

(* Tags 1 start, 2 stop, others are ignored. *)
Definition mtEx (f : unit) (t : nat) : unit * verdict := (f, match t with 1 => Matching | 2 => NotMatching | _ => Ignore end).
Definition ksEx : list (call nat nat) := [mkCall [] [10; 11; 12]; mkCall [1; 5] [13]; mkCall [1] [14; 15]; mkCall [2] [16; 17; 18]; mkCall [1] [19]].
Example C187_ex : proper ksEx /\ ttOut (trun mtEx (fun _ => false) 2 3 4 tt [] ksEx) =
  [mkDs [11; 12; 13; 14; 15] [0; 1; 2; 3; 4] 5 [(2%Z, 1)]; mkDs [12; 13; 14; 15; 16] [0; 1; 2; 3; 4] 5 [(2%Z, 1)]] /\
  tStop (ttS (trun mtEx (fun _ => false) 2 3 4 tt [] ksEx)) = [mkDs [17; 18; 19] [0; 1; 2] 3 [(2%Z, 1)]].
Proof. split; [repeat constructor; discriminate|vm_compute; split; reflexivity]. Qed.
(* The samples 1, 2 came first; after another listener asked for four samples
   in front, the window shows them in the wrong order. *)
Example C187_history_ex : let h := pushHist 2 [1; 2] [] in
  ttOut (trun mtEx (fun _ => false) 2 1 4 tt h [mkCall [1] [3]]) = [mkDs [1; 2; 3] [0; 1; 2] 3 [(2%Z, 1)]] /\
  ttOut (trun mtEx (fun _ => false) 2 1 4 tt (snd (ensureHist 4 (2, h))) [mkCall [1] [3]]) = [mkDs [2; 1; 3] [0; 1; 2] 3 [(2%Z, 1)]].
Proof. vm_compute. split; reflexivity. Qed.
Example C188_ex : proper ksEx /\ mtOut (mrun mtEx 0 tt ksEx) =
  [mkDs [13] [0] 1 [(0%Z, 1); (1%Z, 1)]; mkDs [14; 15] [0; 1] 2 [(0%Z, 1); (2%Z, 2)]] /\
  mtOut (mrun mtEx 1 tt ksEx) = [mkDs [13] [0] 1 [(0%Z, 1)]; mkDs [14] [0] 1 [(0%Z, 1)]; mkDs [19] [0] 1 [(0%Z, 1)]].
Proof. split; [repeat constructor; discriminate|vm_compute; split; reflexivity]. Qed.
Example C189_ex : proper ksEx /\ ntOut (nrun mtEx (fun _ => false) 2 tt ksEx) = [mkDs [15] [0] 1 [((-2)%Z, 1)]; mkDs [16] [0] 1 [((-2)%Z, 1)]].
Proof. split; [repeat constructor; discriminate|vm_compute; reflexivity]. Qed.
Example C190_ex : let x := qrun false 2 1 5 [QPut 1; QPut 2; QPut 3; QProc 1; QPut 4] in
  qGot x = [[1]] /\ dq (qS x) = [2; 4] /\ dDrop (qS x) = 1.
Proof. vm_compute. repeat split. Qed.

(* ---------- C191: the registry ---------- *)

(* Nothing throws and only registered sinks are stopped. *)
Fixpoint calm (st : rst) (ops : list rop) : Prop :=
  match ops with
  | [] => True
  | o :: r => snd (rstep st o) = true /\ (match o with Stop i => sReg (env st i) = true | _ => True end) /\ calm (fst (rstep st o)) r
  end.

Definition rinv (st : rst) : Prop :=
  (forall n j, look n (byName st) = Some j <-> (sReg (env st j) = true /\ sSig (env st j) = n)) /\
  (forall j, sReg (env st j) = true -> sSig (env st j) <> 0).

Lemma look_erase n k m : look n (erase k m) = if n =? k then None else look n m.
Proof.
  unfold erase. induction m as [|[a v] m IH]; [destruct (n =? k); reflexivity|]. cbn [filter fst look].
  destruct (Nat.eqb_spec a k) as [->|Hk]; cbn [negb look].
  - rewrite IH. destruct (Nat.eqb_spec n k) as [->|Hn]; [reflexivity|]. destruct (Nat.eqb_spec k n); [congruence|reflexivity].
  - rewrite IH. destruct (Nat.eqb_spec a n) as [->|Ha]; [|reflexivity]. destruct (Nat.eqb_spec n k); [congruence|reflexivity].
Qed.

Lemma setRec_same i r e : setRec i r e i = r.
Proof. unfold setRec. rewrite Nat.eqb_refl. reflexivity. Qed.
Lemma setRec_other i r e j : j <> i -> setRec i r e j = e j.
Proof. intros H. unfold setRec. destruct (Nat.eqb_spec j i); [contradiction|reflexivity]. Qed.

Lemma rinv_step st o : rinv st -> snd (rstep st o) = true -> (match o with Stop i => sReg (env st i) = true | _ => True end) -> rinv (fst (rstep st o)).
Proof.
  intros [HI HZ] Hok Hs. destruct o as [i n|i]; cbn [rstep] in *.
  - unfold setName in *. set (r := env st i) in *.
    assert (HU : sReg r = false -> rinv (mkR (setRec i (mkS (sTy r) n (sReg r)) (env st)) (sinks st) (byName st) (dead st))).
    { intros Hr. split; cbn [byName env].
      - intros k j. rewrite HI. destruct (Nat.eq_dec j i) as [->|Hj]; [|rewrite setRec_other by exact Hj; reflexivity].
        rewrite setRec_same. cbn [sReg]. fold r. rewrite Hr. split; intros (X & _); discriminate.
      - intros j. destruct (Nat.eq_dec j i) as [->|Hj]; [|rewrite setRec_other by exact Hj; apply HZ].
        rewrite setRec_same. cbn [sReg]. rewrite Hr. discriminate. }
    destruct (Nat.eqb_spec (sSig r) 0) as [H0|H0].
    + assert (Hr : sReg r = false).
      { destruct (sReg r) eqn:E; [|reflexivity]. exfalso. exact (HZ i E H0). }
      specialize (HU Hr). unfold registerSink in *. cbn [env byName sinks dead] in *. rewrite setRec_same in *. cbn [sReg sSig sTy] in *.
      rewrite Hr in *. cbn [orb] in *. destruct (Nat.eqb_spec n 0) as [->|Hn]; [exact HU|].
      unfold contains in *. destruct (look n (byName st)) as [q|] eqn:E; [discriminate|]. cbn [fst]. split; cbn [byName env].
      * intros k j. cbn [look]. destruct (Nat.eqb_spec n k) as [<-|Hk].
        -- destruct (Nat.eq_dec j i) as [->|Hj].
           ++ rewrite setRec_same. cbn. tauto.
           ++ rewrite setRec_other by exact Hj. rewrite setRec_other by exact Hj. split; [intros X; congruence|].
              intros X. apply HI in X. congruence.
        -- destruct (Nat.eq_dec j i) as [->|Hj].
           ++ rewrite setRec_same. cbn. rewrite HI. fold r. rewrite Hr. split; [intros (X & _); discriminate|intros (_ & X); congruence].
           ++ rewrite setRec_other by exact Hj. rewrite setRec_other by exact Hj. apply HI.
      * intros j. destruct (Nat.eq_dec j i) as [->|Hj].
        -- rewrite setRec_same. cbn. auto.
        -- rewrite setRec_other by exact Hj. rewrite setRec_other by exact Hj. apply HZ.
    + destruct (Nat.eqb_spec (sSig r) n) as [Hn|Hn].
      * cbn [negb andb fst] in *. rewrite <- Hn. split; cbn [byName env].
        -- intros k j. rewrite HI. destruct (Nat.eq_dec j i) as [->|Hj]; [|rewrite setRec_other by exact Hj; reflexivity].
           rewrite setRec_same. cbn. reflexivity.
        -- intros j. destruct (Nat.eq_dec j i) as [->|Hj]; [|rewrite setRec_other by exact Hj; apply HZ].
           rewrite setRec_same. cbn. intros _. exact H0.
      * cbn [negb andb] in *. destruct (sReg r) eqn:Hr; [|cbn [fst]; apply HU; reflexivity].
        unfold updateSignalName in *. cbn [env byName sinks dead] in *. destruct (Nat.eqb_spec (sSig r) 0); [contradiction|].
        destruct (Nat.eqb_spec n 0) as [->|Hz]; [discriminate|]. unfold contains in *.
        destruct (look n (byName st)) as [q|] eqn:E; [discriminate|]. cbn [fst]. split; cbn [byName env].
        -- intros k j. cbn [look]. rewrite look_erase. destruct (Nat.eqb_spec n k) as [<-|Hk].
           ++ destruct (Nat.eq_dec j i) as [->|Hj].
              ** rewrite setRec_same. cbn. tauto.
              ** rewrite setRec_other by exact Hj. split; [intros X; congruence|]. intros X. apply HI in X. congruence.
           ++ destruct (Nat.eq_dec j i) as [->|Hj].
              ** rewrite setRec_same. cbn. split; [|intros (_ & X); congruence].
                 destruct (Nat.eqb_spec k (sSig r)) as [->|Hq]; [discriminate|]. intros X. apply HI in X as [_ X]. fold r in X. congruence.
              ** rewrite setRec_other by exact Hj. destruct (Nat.eqb_spec k (sSig r)) as [->|Hq]; [|apply HI].
                 split; [discriminate|]. intros X. apply HI in X. assert (Y : look (sSig r) (byName st) = Some i) by (apply HI; auto). congruence.
        -- intros j. destruct (Nat.eq_dec j i) as [->|Hj]; [|rewrite setRec_other by exact Hj; apply HZ]. rewrite setRec_same. cbn. auto.
  - unfold stop, unregisterSink in *. set (r := env st i) in *.
    destruct (existsb _ (sinks st)); [discriminate|]. cbn [fst]. split; cbn [byName env].
    + intros k j. rewrite look_erase. destruct (Nat.eq_dec j i) as [->|Hj].
      * rewrite setRec_same. cbn. split; [|intros (X & _); discriminate]. destruct (Nat.eqb_spec k (sSig r)) as [->|Hq]; [discriminate|].
        intros X. apply HI in X as [_ X]. fold r in X. congruence.
      * rewrite setRec_other by exact Hj. destruct (Nat.eqb_spec k (sSig r)) as [->|Hq]; [|apply HI].
        split; [discriminate|]. intros X. apply HI in X. assert (Y : look (sSig r) (byName st) = Some i) by (apply HI; auto). congruence.
    + intros j. destruct (Nat.eq_dec j i) as [->|Hj]; [rewrite setRec_same; cbn; discriminate|]. rewrite setRec_other by exact Hj. apply HZ.
Qed.

Lemma rinv_run ops st : rinv st -> calm st ops -> rinv (rrun st ops).
Proof.
  revert st. induction ops as [|o ops IH]; intros st HI Hc; [exact HI|]. destruct Hc as (H1 & H2 & H3).
  unfold rrun. cbn [fold_left]. apply IH; [apply rinv_step; assumption|exact H3].
Qed.

(* A lookup finds exactly the registered sink that has the name and type. *)
Theorem C191_lookup : forall ty ops, calm (rst0 ty) ops ->
  let st := rrun (rst0 ty) ops in
  forall n t j, findSig n t st = Some j <-> (sReg (env st j) = true /\ sSig (env st j) = n /\ sTy (env st j) = t).
Proof.
  intros ty ops Hc. cbv zeta. assert (H0 : rinv (rst0 ty)).
  { split; cbn; [intros n j; split; [discriminate|intros (X & _); discriminate]|discriminate]. }
  destruct (rinv_run ops _ H0 Hc) as [HI _]. intros n t j. unfold findSig. destruct (look n _) as [q|] eqn:E.
  - destruct (Nat.eqb_spec (sTy (env (rrun (rst0 ty) ops) q)) t) as [Ht|Ht].
    + split; [intros X; injection X as <-; apply HI in E; tauto|]. intros (X1 & X2 & X3).
      assert (Y : look n (byName (rrun (rst0 ty) ops)) = Some j) by (apply HI; auto). congruence.
    + split; [discriminate|]. intros (X1 & X2 & X3).
      assert (Y : look n (byName (rrun (rst0 ty) ops)) = Some j) by (apply HI; auto). congruence.
  - split; [discriminate|]. intros (X1 & X2 & X3).
    assert (Y : look n (byName (rrun (rst0 ty) ops)) = Some j) by (apply HI; auto). congruence.
Qed.

(* No two registered sinks share a name. *)
Theorem C191_names_differ : forall ty ops, calm (rst0 ty) ops ->
  let st := rrun (rst0 ty) ops in
  forall i j, sReg (env st i) = true -> sReg (env st j) = true -> sSig (env st i) = sSig (env st j) -> i = j.
Proof.
  intros ty ops Hc. cbv zeta. assert (H0 : rinv (rst0 ty)).
  { split; cbn; [intros n j; split; [discriminate|intros (X & _); discriminate]|discriminate]. }
  destruct (rinv_run ops _ H0 Hc) as [HI _]. intros i j Hi Hj E.
  assert (Y1 : look (sSig (env (rrun (rst0 ty) ops) i)) (byName (rrun (rst0 ty) ops)) = Some i) by (apply HI; auto).
  assert (Y2 : look (sSig (env (rrun (rst0 ty) ops) i)) (byName (rrun (rst0 ty) ops)) = Some j) by (apply HI; auto). congruence.
Qed.

(* Stopping a sink while one of another type is registered ends the process. *)
Theorem C191_types_refuted : forall st i j, In j (sinks st) -> sTy (env st j) <> sTy (env st i) -> dead (fst (stop i st)) = true.
Proof.
  intros st i j Hj Ht. unfold stop, unregisterSink.
  replace (existsb _ (sinks st)) with true; [reflexivity|]. symmetry. apply existsb_exists. exists j. split; [exact Hj|].
  destruct (Nat.eqb_spec (sTy (env st j)) (sTy (env st i))); [contradiction|reflexivity].
Qed.

(* Stopping a sink that could not be registered because its name is taken
   makes the sink that has the name unreachable. *)
Theorem C191_taken_name_refuted : forall st i, 
  (forall j, In j (sinks st) -> sTy (env st j) = sTy (env st i)) -> forall t, findSig (sSig (env st i)) t (fst (stop i st)) = None.
Proof.
  intros st i Ht t. unfold stop, unregisterSink. destruct (existsb _ (sinks st)) eqn:E.
  - exfalso. apply existsb_exists in E as (j & Hj & E). rewrite (Ht j Hj), Nat.eqb_refl in E. discriminate.
  - cbn [fst]. unfold findSig. cbn [byName]. rewrite look_erase, Nat.eqb_refl. reflexivity.
Qed.

(* Once its first name was refused, a sink is not registered under any other
   name either. *)
Theorem C191_never_again_refuted : forall st i n, sReg (env st i) = false -> sSig (env st i) <> 0 -> n <> 0 ->
  let st' := fst (setName i n st) in
  sReg (env st' i) = false /\ sSig (env st' i) = n /\ byName st' = byName st /\ sinks st' = sinks st.
Proof.
  intros st i n Hr Hs Hn. cbv zeta. unfold setName. destruct (Nat.eqb_spec (sSig (env st i)) 0); [contradiction|].
  rewrite Hr, andb_false_r. cbn [fst env byName sinks]. rewrite setRec_same. auto.
Qed.

(* A refused new name leaves the old one in the registry after the sink
   stopped and may be gone. *)
Theorem C191_stale_refuted : forall st i n, sReg (env st i) = true -> sSig (env st i) <> 0 -> sSig (env st i) <> n ->
  look (sSig (env st i)) (byName st) = Some i -> contains n (byName st) = true ->
  (forall j, In j (sinks st) -> sTy (env st j) = sTy (env st i)) ->
  let st2 := fst (stop i (fst (setName i n st))) in
  sReg (env st2 i) = false /\ findSig (sSig (env st i)) (sTy (env st i)) st2 = Some i.
Proof.
  intros st i n Hr Hs Hn Hl Hc Ht. cbv zeta. unfold setName. destruct (Nat.eqb_spec (sSig (env st i)) 0); [contradiction|].
  destruct (Nat.eqb_spec (sSig (env st i)) n); [contradiction|]. rewrite Hr. cbn [negb andb]. unfold updateSignalName. cbn [byName].
  destruct (Nat.eqb_spec (sSig (env st i)) 0); [contradiction|]. rewrite Hc.
  assert (E : forall (b : bool) (x : rst), fst (if b then (x, false) else (x, false)) = x) by (intros []; reflexivity). rewrite E.
  unfold stop, unregisterSink. cbn [env sinks byName dead]. rewrite setRec_same. cbn [sTy sSig sReg].
  destruct (existsb _ (sinks st)) eqn:Ex.
  - exfalso. apply existsb_exists in Ex as (j & Hj & Ex). unfold setRec in Ex. destruct (Nat.eqb_spec j i) as [->|Hji]; cbn [sTy] in Ex;
      [|rewrite (Ht j Hj) in Ex]; rewrite Nat.eqb_refl in Ex; discriminate.
  - cbn [fst env]. rewrite setRec_same. split; [reflexivity|]. unfold findSig. cbn [byName env]. rewrite look_erase.
    destruct (Nat.eqb_spec (sSig (env st i)) n); [contradiction|]. rewrite Hl, setRec_same. cbn [sTy]. rewrite Nat.eqb_refl. reflexivity.
Qed.

Print Assumptions C191_lookup.
Print Assumptions C191_names_differ.
Print Assumptions C191_types_refuted.
Print Assumptions C191_taken_name_refuted.
Print Assumptions C191_never_again_refuted.
Print Assumptions C191_stale_refuted.

Example C191_ex : let ops := [SetName 1 7; SetName 2 8; SetName 1 9; Stop 2; SetName 3 8] in
  calm (rst0 (fun _ => 5)) ops /\ map (fun n => findSig n 5 (rrun (rst0 (fun _ => 5)) ops)) [7; 8; 9] = [None; Some 3; Some 1].
Proof. vm_compute. repeat split. Qed.
Example C191_types_ex : let st := rrun (rst0 (fun i => i)) [SetName 1 7; SetName 2 8] in In 2 (sinks st) /\ sTy (env st 2) <> sTy (env st 1).
Proof. vm_compute. split; [tauto|discriminate]. Qed.
Example C191_taken_ex : let st := rrun (rst0 (fun _ => 5)) [SetName 1 7; SetName 2 7] in
  findSig 7 5 st = Some 1 /\ sSig (env st 2) = 7 /\ findSig 7 5 (fst (stop 2 st)) = None /\ sReg (env (fst (stop 2 st)) 1) = true /\
  sReg (env st 2) = false /\ sSig (env st 2) <> 0.
Proof. vm_compute. repeat split. discriminate. Qed.
Example C191_stale_ex : let st := rrun (rst0 (fun _ => 5)) [SetName 1 7; SetName 2 8] in
  sReg (env st 1) = true /\ sSig (env st 1) = 7 /\ look 7 (byName st) = Some 1 /\ contains 8 (byName st) = true /\
  (forall j, In j (sinks st) -> sTy (env st j) = sTy (env st 1)).
Proof. vm_compute. repeat split. intros j [<-|[<-|[]]]; reflexivity. Qed.
