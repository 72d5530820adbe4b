(* Proofs about the listeners that publish data sets. *)

From Coq Require Import Arith ZArith List Bool Lia Sorted.
From Verif Require Import SinkModel SinkSpec SinkProofs.
Import ListNotations.

Local Open Scope nat_scope.

Section L.
Context {A T F : Type} (mt : F -> T -> F * verdict).

(* ---------- the stream and the tags ---------- *)

Lemma streamOf_snoc (ks : list (call A T)) k : streamOf (ks ++ [k]) = streamOf ks ++ spanOf k.
Proof. unfold streamOf. rewrite map_app, concat_app. cbn. rewrite app_nil_r. reflexivity. Qed.

Lemma spanOf_samples (k : call A T) : map fst (spanOf k) = cSmp k.
Proof.
  unfold spanOf. destruct (cSmp k) as [|x r]; [reflexivity|]. cbn [map fst]. rewrite map_map. cbn [fst]. rewrite map_id. reflexivity.
Qed.

Lemma judged_app skip s s' : forall f i, judged (A := A) mt skip f i (s ++ s') =
  let '(f1, l) := judged mt skip f i s in
  let '(f2, l2) := judged mt skip f1 (i + length s) s' in (f2, l ++ l2).
Proof.
  induction s as [|[x ts] s IH]; intros f i; cbn [app judged length].
  - rewrite Nat.add_0_r. destruct (judged mt skip f i s'). reflexivity.
  - destruct (judge mt skip f i ts) as [f1 l1]. rewrite IH. destruct (judged mt skip f1 (S i) s) as [f2 l2].
    replace (S i + length s) with (i + S (length s)) by lia. destruct (judged mt skip f2 (i + S (length s)) s') as [f3 l3].
    rewrite app_assoc. reflexivity.
Qed.

Lemma judged_bare skip (l : list A) : forall f i, judged mt skip f i (map (fun y => (y, [])) l) = (f, []).
Proof. induction l as [|x l IH]; intros f i; [reflexivity|]. cbn [map judged judge]. rewrite IH. reflexivity. Qed.

Lemma judged_span skip (k : call A T) f i : cSmp k <> [] -> judged mt skip f i (spanOf k) = judge mt skip f i (cTags k).
Proof.
  intros H. unfold spanOf. destruct (cSmp k) as [|x r]; [congruence|]. cbn [judged]. destruct (judge mt skip f i (cTags k)) as [f1 l].
  rewrite judged_bare, app_nil_r. reflexivity.
Qed.

Lemma judge_pos skip ts : forall f i, Forall (fun e => fst (fst e) = i) (snd (judge mt skip f i ts)).
Proof.
  induction ts as [|t ts IH]; intros f i; cbn [judge]; [constructor|]. destruct (skip t); [apply IH|].
  destruct (mt f t) as [f1 v]. specialize (IH f1 i). destruct (judge mt skip f1 i ts) as [f2 l]. cbn [snd] in *.
  destruct v; try exact IH; constructor; try exact IH; reflexivity.
Qed.

Lemma judged_range skip (s : list (A * list T)) : forall f i,
  Forall (fun e => i <= fst (fst e) < i + length s) (snd (judged mt skip f i s)) /\
  inOrder (map (fun e => fst (fst e)) (snd (judged mt skip f i s))).
Proof.
  induction s as [|[x ts] s IH]; intros f i; cbn [judged length]; [split; constructor|].
  pose proof (judge_pos skip ts f i) as H. destruct (judge mt skip f i ts) as [f1 l]. cbn [snd] in H.
  specialize (IH f1 (S i)). destruct (judged mt skip f1 (S i) s) as [f2 l2]. cbn [snd] in *. destruct IH as [IH1 IH2]. split.
  - apply Forall_app. rewrite !Forall_forall in *. split; intros e He; [specialize (H e He)|specialize (IH1 e He)]; cbv beta in *; lia.
  - rewrite map_app. apply sorted_app.
    + clear -H. induction l as [|e l IH]; cbn; constructor.
      * apply IH. exact (Forall_inv_tail H).
      * pose proof (Forall_inv H) as E. pose proof (Forall_inv_tail H) as H2. clear IH H. rewrite Forall_forall in *. intros u Hu.
        apply in_map_iff in Hu as (w & <- & Hw). rewrite (H2 w Hw). cbv beta in E. lia.
    + exact IH2.
    + intros a b Ha Hb. apply in_map_iff in Ha as (u & <- & Hu). apply in_map_iff in Hb as (w & <- & Hw).
      rewrite Forall_forall in *. specialize (H u Hu). specialize (IH1 w Hw). cbv beta in *. lia.
Qed.

Notation startsIn := (fun l : list (nat * T * verdict) => map fst (filter isStart l)).

Lemma starts_snoc skip f (s : list (A * list T)) (k : call A T) : cSmp k <> [] ->
  starts mt skip f (s ++ spanOf k) = starts mt skip f s ++ startsIn (snd (judge mt skip (fst (judged mt skip f 0 s)) (length s) (cTags k))).
Proof.
  intros H. unfold starts. rewrite judged_app. destruct (judged mt skip f 0 s) as [f1 l]. cbn [fst snd Nat.add].
  rewrite (judged_span skip k f1 (length s) H). destruct (judge mt skip f1 (length s) (cTags k)) as [f2 l2]. cbn [snd].
  rewrite filter_app, map_app. reflexivity.
Qed.

Lemma state_snoc skip f (s : list (A * list T)) (k : call A T) : cSmp k <> [] ->
  fst (judged mt skip f 0 (s ++ spanOf k)) = fst (judge mt skip (fst (judged mt skip f 0 s)) (length s) (cTags k)).
Proof.
  intros H. rewrite judged_app. destruct (judged mt skip f 0 s) as [f1 l]. cbn [fst snd Nat.add].
  rewrite (judged_span skip k f1 (length s) H). destruct (judge mt skip f1 (length s) (cTags k)) as [f2 l2]. reflexivity.
Qed.

Lemma starts_range skip f (s : list (A * list T)) :
  Forall (fun e => fst e < length s) (starts mt skip f s) /\ inOrder (map fst (starts mt skip f s)).
Proof.
  unfold starts. destruct (judged_range skip s f 0) as [H1 H2]. split.
  - rewrite Forall_forall in *. intros e He. apply in_map_iff in He as (u & <- & Hu). apply filter_In in Hu as [Hu _]. apply H1. exact Hu.
  - rewrite map_map. apply sorted_filter. exact H2.
Qed.

Lemma filter_split {X} (g : X -> nat) (l : list X) n n' : inOrder (map g l) -> n <= n' ->
  filter (fun e => g e <=? n') l = filter (fun e => g e <=? n) l ++ filter (fun e => g e <=? n') (filter (fun e => n <? g e) l).
Proof.
  intros Hs Hn. induction l as [|e l IH]; [reflexivity|]. cbn [map] in Hs. apply StronglySorted_inv in Hs as [H1 H2]. specialize (IH H1).
  cbn [filter]. destruct (Nat.leb_spec (g e) n') as [Ha|Ha], (Nat.leb_spec (g e) n) as [Hb|Hb], (Nat.ltb_spec n (g e)) as [Hc|Hc]; try lia.
  - cbn [app]. rewrite IH. reflexivity.
  - cbn [filter]. destruct (Nat.leb_spec (g e) n') as [_|]; [|lia].
    assert (E : filter (fun u => g u <=? n) l = []).
    { clear IH H1. induction l as [|u l IH]; [reflexivity|]. cbn [map] in H2. pose proof (Forall_inv H2). cbn [filter].
      destruct (Nat.leb_spec (g u) n); [lia|]. apply IH. exact (Forall_inv_tail H2). }
    rewrite E in IH |- *. cbn [app] in *. rewrite IH. reflexivity.
  - cbn [filter]. destruct (Nat.leb_spec (g e) n') as [|_]; [lia|]. exact IH.
Qed.

Lemma filter_later {X} (g : X -> nat) (l : list X) n n' : n <= n' ->
  filter (fun e => n' <? g e) (filter (fun e => n <? g e) l) = filter (fun e => n' <? g e) l.
Proof.
  intros Hn. induction l as [|e l IH]; [reflexivity|]. cbn [filter].
  destruct (Nat.ltb_spec n (g e)) as [Ha|Ha]; cbn [filter]; destruct (Nat.ltb_spec n' (g e)) as [Hb|Hb]; try lia; rewrite ?IH; reflexivity.
Qed.

(* ---------- triggers ---------- *)

Section Trigger.
Context (emptyT : T -> bool) (pre post : nat) (h0 : list A).

Definition capOf (s : list A) (e : nat * T) : capture A T := mkCap (window pre post h0 s e) (post - (length s - fst e)).

Lemma tOpen_spec (hist : list A) (s : list A) ts : forall st : tst A T F,
  (exists cap, hist = firstn cap (rev (rev h0 ++ s)) /\ pre <= cap) ->
  tOpen mt emptyT pre post hist ts st =
  mkT (fst (judge mt emptyT (tf st) (length s) ts))
      (caps st ++ map (capOf s) (startsIn (snd (judge mt emptyT (tf st) (length s) ts)))).
Proof.
  intros st (cap & Hh & Hcap). revert st. induction ts as [|t ts IH]; intros st; cbn [tOpen judge].
  - cbn. rewrite app_nil_r. destruct st. reflexivity.
  - destruct (emptyT t); [apply IH|]. destruct (mt (tf st) t) as [f v]. rewrite IH. cbn [tf caps].
    destruct (judge mt emptyT f (length s) ts) as [f2 l]. cbn [fst snd].
    assert (Ew : mkCap (mkDs (rev (firstn (min pre (length hist)) hist)) (seq 0 (min pre (length hist))) (min pre (length hist)) [(Z.of_nat (min pre (length hist)), t)]) post
                 = capOf s (length s, t)).
    { unfold capOf, window. cbn [fst snd]. rewrite firstn_all, skipn_all, firstn_nil, app_nil_r.
      assert (Hn : min pre (length hist) = min pre (length (rev h0 ++ s))) by (rewrite Hh, firstn_length, rev_length; lia).
      rewrite Hn. set (b := rev h0 ++ s) in *. set (n := min pre (length b)).
      assert (Hlen : length (lastn n b) = n) by (unfold lastn; rewrite skipn_length; unfold n; lia).
      rewrite Hlen. f_equal; [|lia]. f_equal.
      rewrite Hh, firstn_firstn. replace (min n cap) with n by (unfold n; lia). rewrite firstn_rev, rev_involutive. reflexivity. }
    destruct v; cbn [filter isStart snd map fst].
    + rewrite Ew, <- app_assoc. reflexivity.
    + reflexivity.
    + reflexivity.
Qed.

Lemma window_grow (s smp : list A) (e : nat * T) : fst e <= length s ->
  vals (window pre post h0 (s ++ smp) e) = vals (window pre post h0 s e) ++ firstn (post - (length s - fst e)) smp /\
  evs (window pre post h0 (s ++ smp) e) = evs (window pre post h0 s e).
Proof.
  intros H. unfold window. cbn [vals evs]. rewrite firstn_app. replace (fst e - length s) with 0 by lia. cbn [firstn]. rewrite app_nil_r.
  split; [|reflexivity]. rewrite <- app_assoc. f_equal. rewrite skipn_app. replace (fst e - length s) with 0 by lia. cbn [skipn].
  rewrite firstn_app, skipn_length. reflexivity.
Qed.

Lemma window_shape (s : list A) (e : nat * T) : let w := window (T := T) pre post h0 s e in
  w = mkDs (vals w) (seq 0 (length (vals w))) (length (vals w)) (evs w).
Proof. reflexivity. Qed.

Lemma feed_capOf (s smp : list A) (e : nat * T) : fst e <= length s -> feed smp (capOf s e) = capOf (s ++ smp) e.
Proof.
  intros H. destruct (window_grow s smp e H) as [H1 H2]. unfold feed, capOf. cbn [cRem cds].
  rewrite (window_shape (s ++ smp) e), H1, H2. rewrite (window_shape s e) at 2 3. cbn [vals axis evs].
  set (r := post - (length s - fst e)).
  assert (Ef : firstn (min r (length smp)) smp = firstn r smp).
  { destruct (Nat.le_gt_cases r (length smp)); [f_equal; lia|]. rewrite (firstn_all2 (n := r)) by lia. apply firstn_all2. lia. }
  f_equal.
  - rewrite Ef, app_length, firstn_length, seq_app. cbn [Nat.add]. reflexivity.
  - unfold r. rewrite app_length. lia.
Qed.

Lemma window_done (s smp : list A) (e : nat * T) : fst e + post <= length s -> window (T := T) pre post h0 (s ++ smp) e = window pre post h0 s e.
Proof.
  intros H. destruct (window_grow s smp e ltac:(lia)) as [H1 H2]. rewrite (window_shape (s ++ smp) e), (window_shape s e), H1, H2.
  replace (post - (length s - fst e)) with 0 by lia. cbn [firstn]. rewrite app_nil_r. reflexivity.
Qed.

Lemma tFeed_spec (s smp : list A) (l : list (nat * T)) : Forall (fun e => fst e <= length s) l -> 
  tFeed smp (map (capOf s) l) =
  (map (window pre post h0 (s ++ smp)) (filter (fun e => fst e + post <=? length (s ++ smp)) l),
   map (capOf (s ++ smp)) (filter (fun e => length (s ++ smp) <? fst e + post) l)).
Proof.
  induction l as [|e l IH]; intros H; [reflexivity|]. cbn [map tFeed filter].
  rewrite (feed_capOf s smp e (Forall_inv H)), (IH (Forall_inv_tail H)). pose proof (Forall_inv H) as He. cbv beta in He.
  change (cRem (capOf (s ++ smp) e)) with (post - (length (s ++ smp) - fst e)). rewrite app_length in *.
  destruct (Nat.eqb_spec (post - (length s + length smp - fst e)) 0),
    (Nat.leb_spec (fst e + post) (length s + length smp)), (Nat.ltb_spec (length s + length smp) (fst e + post)); try lia; reflexivity.
Qed.

Lemma trun_snoc cap f0 ks k : trun mt emptyT pre post cap f0 h0 (ks ++ [k]) = tstep mt emptyT pre post cap (trun mt emptyT pre post cap f0 h0 ks) k.
Proof. unfold trun. rewrite fold_left_app. reflexivity. Qed.

Theorem trigger_inv cap f0 (ks : list (call A T)) : proper ks -> pre <= cap -> length h0 <= cap ->
  let x := trun mt emptyT pre post cap f0 h0 ks in
  let s := streamOf ks in
  let st := starts mt emptyT f0 s in
  let smp := map fst s in
  tf (ttS x) = fst (judged mt emptyT f0 0 s) /\
  caps (ttS x) = map (capOf smp) (filter (fun e => length smp <? fst e + post) st) /\
  ttH x = firstn cap (rev (rev h0 ++ smp)) /\
  ttOut x = map (window pre post h0 smp) (filter (fun e => fst e + post <=? length smp) st).
Proof.
  cbv zeta. intros Hp Hc Hh. induction ks as [|k ks IH] using rev_ind.
  { cbn. repeat split. rewrite app_nil_r, rev_involutive, firstn_all2 by lia. reflexivity. }
  apply Forall_app in Hp as [Hp Hk]. specialize (IH Hp). apply Forall_inv in Hk. rewrite trun_snoc, streamOf_snoc.
  set (x := trun _ _ _ _ _ _ _ _) in *. clearbody x. set (s := streamOf ks) in *. clearbody s.
  destruct IH as (I1 & I2 & I3 & I4). rewrite (starts_snoc emptyT f0 s k Hk), (state_snoc emptyT f0 s k Hk).
  destruct (starts_range emptyT f0 s) as [R1 R2]. set (st := starts mt emptyT f0 s) in *. clearbody st.
  rewrite map_app, spanOf_samples. set (smp := map fst s) in *.
  assert (El : length s = length smp) by (unfold smp; rewrite map_length; reflexivity). rewrite El in *. clearbody smp. clear El.
  unfold tstep, tProcess. rewrite (tOpen_spec (ttH x) smp).
  2:{ exists cap. split; [exact I3|exact Hc]. }
  rewrite I1. set (f1 := fst (judged mt emptyT f0 0 s)) in *. clearbody f1.
  pose proof (judge_pos emptyT (cTags k) f1 (length smp)) as Hj.
  destruct (judge mt emptyT f1 (length smp) (cTags k)) as [f2 l]. cbn [fst snd] in *. cbn [caps tf].
  set (nw := map fst (filter isStart l)).
  assert (Hnw : Forall (fun e => fst e = length smp) nw).
  { unfold nw. rewrite Forall_forall in *. intros e He. apply in_map_iff in He as (u & <- & Hu). apply filter_In in Hu as [Hu _]. apply Hj. exact Hu. }
  rewrite I2, <- map_app, tFeed_spec.
  2:{ apply Forall_app. rewrite !Forall_forall in *. split; intros e He; [apply filter_In in He as [He _]; specialize (R1 e He)|specialize (Hnw e He)]; cbv beta in *; lia. }
  cbn [ttS ttH ttOut tf caps].
  assert (R3 : inOrder (map (fun e => fst e + post) st)).
  { rewrite <- (map_map fst (fun i => i + post)). apply sorted_map_mono; [intros; lia|exact R2]. }
  split; [reflexivity|]. split; [|split].
  - f_equal. rewrite !filter_app. f_equal. apply (filter_later (fun e => fst e + post)). rewrite app_length. lia.
  - rewrite I3. unfold pushHist. rewrite app_assoc, (rev_app_distr _ (cSmp k)).
    rewrite !firstn_app, firstn_firstn. f_equal. f_equal. lia.
  - rewrite I4, !filter_app, !map_app, app_assoc. f_equal.
    rewrite (filter_split (fun e => fst e + post) st (length smp) (length (smp ++ cSmp k)) R3 ltac:(rewrite app_length; lia)), map_app.
    f_equal. apply map_ext_in. intros e He. apply filter_In in He as [_ He]. apply Nat.leb_le in He. symmetry. apply window_done. exact He.
Qed.
End Trigger.

(* ---------- snapshots ---------- *)

Section Snap.
Context (emptyT : T -> bool) (delay : nat).

Definition snapOf (n : nat) (e : nat * T) : snap T := mkSnap (snd e) delay (delay - (n - fst e)).

Lemma nOpen_spec n ts : forall st : nst T F,
  nOpen mt emptyT delay ts st =
  mkN (fst (judge mt emptyT (nf st) n ts)) (snaps st ++ map (snapOf n) (startsIn (snd (judge mt emptyT (nf st) n ts)))).
Proof.
  induction ts as [|t ts IH]; intros st; cbn [nOpen judge].
  - cbn. rewrite app_nil_r. destruct st. reflexivity.
  - destruct (emptyT t); [apply IH|]. destruct (mt (nf st) t) as [f v]. rewrite IH. cbn [nf snaps].
    destruct (judge mt emptyT f n ts) as [f2 l]. cbn [fst snd]. destruct v; cbn [filter isStart snd map fst]; try reflexivity.
    rewrite <- app_assoc. unfold snapOf at 2. cbn [fst snd]. rewrite Nat.sub_diag, Nat.sub_0_r. reflexivity.
Qed.

Lemma nFeed_spec (s smp : list A) (l : list (nat * T)) :
  Forall (fun e => fst e <= length s /\ length s <= fst e + delay) l ->
  nFeed smp (map (snapOf (length s)) l) =
  (somes (map (snapshot delay (s ++ smp)) l),
   map (snapOf (length (s ++ smp))) (filter (fun e => length (s ++ smp) <=? fst e + delay) l)).
Proof.
  induction l as [|e l IH]; intros H; [reflexivity|]. cbn [map nFeed filter]. rewrite (IH (Forall_inv_tail H)).
  destruct (Forall_inv H) as [H1 H2]. unfold somes. cbn [map concat]. fold (somes (map (snapshot delay (s ++ smp)) l)).
  assert (Es : snapshot delay (s ++ smp) e = match nth_error smp (fst e + delay - length s) with
    | Some x => Some (mkDs [x] [0] 1 [((- Z.of_nat delay)%Z, snd e)]) | None => None end).
  { unfold snapshot. rewrite nth_error_app2 by lia. reflexivity. }
  rewrite Es. cbn [snapOf nRem nTag nTrig].
  replace (delay - (length s - fst e)) with (fst e + delay - length s) by lia. rewrite app_length.
  destruct (nth_error smp (fst e + delay - length s)) eqn:En.
  - assert (fst e + delay - length s < length smp) by (apply nth_error_Some; congruence). destruct (Nat.leb_spec (length s + length smp) (fst e + delay)); [lia|]. reflexivity.
  - apply nth_error_None in En. destruct (Nat.leb_spec (length s + length smp) (fst e + delay)); [|lia]. cbn [map app]. f_equal. f_equal.
    unfold snapOf. f_equal. lia.
Qed.

Lemma somes_app {X} (a b : list (option X)) : somes (a ++ b) = somes a ++ somes b.
Proof. unfold somes. rewrite map_app, concat_app. reflexivity. Qed.

Lemma somes_filter {X Y} (g : X -> option Y) p (l : list X) : (forall e, In e l -> p e = false -> g e = None) ->
  somes (map g l) = somes (map g (filter p l)).
Proof.
  induction l as [|e l IH]; intros H; [reflexivity|]. cbn [map filter]. unfold somes at 1. cbn [map concat]. fold (somes (map g l)).
  rewrite IH by (intros u Hu; apply H; right; exact Hu). destruct (p e) eqn:E.
  - reflexivity.
  - rewrite (H e (or_introl eq_refl) E). reflexivity.
Qed.

Lemma nrun_snoc f0 ks k : nrun (A := A) mt emptyT delay f0 (ks ++ [k]) = nstep mt emptyT delay (nrun mt emptyT delay f0 ks) k.
Proof. unfold nrun. rewrite fold_left_app. reflexivity. Qed.

Theorem snapshot_inv f0 (ks : list (call A T)) : proper ks ->
  let x := nrun mt emptyT delay f0 ks in
  let s := streamOf ks in
  let st := starts mt emptyT f0 s in
  let smp := map fst s in
  nf (ntS x) = fst (judged mt emptyT f0 0 s) /\
  snaps (ntS x) = map (snapOf (length smp)) (filter (fun e => length smp <=? fst e + delay) st) /\
  ntOut x = somes (map (snapshot delay smp) st).
Proof.
  cbv zeta. intros Hp. induction ks as [|k ks IH] using rev_ind; [cbn; auto|].
  apply Forall_app in Hp as [Hp Hk]. specialize (IH Hp). apply Forall_inv in Hk. rewrite nrun_snoc, streamOf_snoc.
  set (x := nrun _ _ _ _ _) in *. clearbody x. set (s := streamOf ks) in *. clearbody s.
  destruct IH as (I1 & I2 & I4). rewrite (starts_snoc emptyT f0 s k Hk), (state_snoc emptyT f0 s k Hk).
  destruct (starts_range emptyT f0 s) as [R1 R2]. set (st := starts mt emptyT f0 s) in *. clearbody st.
  rewrite map_app, spanOf_samples. set (smp := map fst s) in *.
  assert (El : length s = length smp) by (unfold smp; rewrite map_length; reflexivity). rewrite El in *. clearbody smp. clear El.
  unfold nstep, nProcess. rewrite (nOpen_spec (length smp)), I1. set (f1 := fst (judged mt emptyT f0 0 s)) in *. clearbody f1.
  pose proof (judge_pos emptyT (cTags k) f1 (length smp)) as Hj.
  destruct (judge mt emptyT f1 (length smp) (cTags k)) as [f2 l]. cbn [fst snd] in *. cbn [snaps nf].
  set (nw := map fst (filter isStart l)).
  assert (Hnw : Forall (fun e => fst e = length smp) nw).
  { unfold nw. rewrite Forall_forall in *. intros e He. apply in_map_iff in He as (u & <- & Hu). apply filter_In in Hu as [Hu _]. apply Hj. exact Hu. }
  rewrite I2, <- map_app, nFeed_spec.
  2:{ apply Forall_app. rewrite !Forall_forall in *. split; intros e He;
        [apply filter_In in He as [He Hl]; apply Nat.leb_le in Hl; specialize (R1 e He)|specialize (Hnw e He)]; cbv beta in *; lia. }
  cbn [ntS ntOut nf snaps]. split; [reflexivity|]. split.
  - f_equal. rewrite !filter_app. f_equal. clear -mt. induction st as [|e st IH]; [reflexivity|]. cbn [filter]. rewrite app_length in *.
    destruct (Nat.leb_spec (length smp) (fst e + delay)) as [Ha|Ha]; cbn [filter];
      destruct (Nat.leb_spec (length smp + length (cSmp k)) (fst e + delay)) as [Hb|Hb]; try lia; rewrite ?IH; reflexivity.
  - rewrite I4, !map_app, !somes_app, app_assoc. f_equal.
    assert (R3 : inOrder (map (fun e => fst e + delay) st)).
    { rewrite <- (map_map fst (fun i => i + delay)). apply sorted_map_mono; [intros; lia|exact R2]. }
    clear -R3. induction st as [|e st IH]; [reflexivity|]. cbn [map] in R3. apply StronglySorted_inv in R3 as [R3 R4]. specialize (IH R3).
    cbn [map filter]. destruct (Nat.leb_spec (length smp) (fst e + delay)) as [Ha|Ha].
    + assert (En : forall u, In u (e :: st) -> snapshot (T := T) delay smp u = None).
      { intros u [<-|Hu]; unfold snapshot.
        - rewrite (proj2 (nth_error_None smp (fst e + delay))) by lia. reflexivity.
        - rewrite Forall_forall in R4. specialize (R4 (fst u + delay) (in_map (fun e => fst e + delay) _ _ Hu)).
          rewrite (proj2 (nth_error_None smp (fst u + delay))) by lia. reflexivity. }
      assert (E0 : forall l, (forall u, In u l -> snapshot (T := T) delay smp u = None) -> somes (map (snapshot delay smp) l) = []).
      { induction l as [|u l IHl]; intros G; [reflexivity|]. cbn [map]. rewrite (G u (or_introl eq_refl)). unfold somes. cbn [map concat app]. apply IHl. intros w Hw. apply G. right. exact Hw. }
      change (snapshot delay smp e :: map (snapshot delay smp) st) with (map (snapshot delay smp) (e :: st)). rewrite (E0 _ En).
      rewrite (E0 st) in IH by (intros u Hu; apply En; right; exact Hu). cbn [app map] in *.
      unfold somes in *. cbn [map concat]. rewrite IH. reflexivity.
    + unfold somes in *. cbn [map concat]. rewrite <- app_assoc, <- IH. f_equal. unfold snapshot. rewrite nth_error_app1 by lia. reflexivity.
Qed.
End Snap.

(* ---------- ranges ---------- *)

Section Mux.
Context (mx : nat).

Definition closing (c : option (dset A T)) (u : T) : list (dset A T) :=
  match c with None => [] | Some d => [mkDs (vals d) (axis d) (ext d) (evs d ++ [(Z.of_nat (length (vals d)), u)])] end.

Lemma part_length p e (s : list A) : p <= e <= length s -> length (part mx p e s) = if mx =? 0 then e - p else min mx (e - p).
Proof.
  intros H. unfold part. destruct (mx =? 0); rewrite ?firstn_length, ?skipn_length; lia.
Qed.

Lemma ranges_tag (s : list A) u v E : v <> Ignore -> Forall (fun e => fst (fst e) <= length s) E ->
  let '(o, c) := ranges mx s E in
  ranges mx s (E ++ [(length s, u, v)]) =
  (o ++ closing c u, match v with Matching => Some (mkDs [] [] 0 [(0%Z, u)]) | _ => None end).
Proof.
  intros Hv. induction E as [|[[p t] w] E IH]; intros H.
  - cbn [ranges app closing]. destruct v; try reflexivity.
    assert (Hf : full mx (length s) (length s) = false).
    { unfold full. destruct (Nat.eqb_spec mx 0), (Nat.leb_spec (length s + mx) (length s)); try reflexivity; lia. }
    rewrite Hf. unfold range. assert (Hn : part mx (length s) (length s) s = []).
    { unfold part. rewrite Nat.sub_diag. cbn [firstn]. rewrite firstn_nil. destruct (mx =? 0); reflexivity. }
    rewrite Hn. reflexivity.
  - specialize (IH (Forall_inv_tail H)). pose proof (Forall_inv H) as Hp. cbn [fst] in Hp. cbn [app ranges].
    destruct (ranges mx s E) as [o c] eqn:ER. rewrite IH. destruct w; try reflexivity.
    destruct E as [|[[q u'] w'] E]; [|reflexivity]. cbn [app]. cbn [ranges] in ER. injection ER as <- <-. cbn [closing app].
    destruct (full mx p (length s)) eqn:Ef; cbn [closing app]; [reflexivity|].
    unfold range. cbn [vals axis ext evs app]. rewrite part_length by lia. f_equal. f_equal. f_equal. f_equal. f_equal. f_equal. f_equal.
    unfold full in Ef. destruct (Nat.eqb_spec mx 0); [reflexivity|]. cbn [negb andb] in Ef. apply Nat.leb_gt in Ef. lia.
Qed.

Lemma mTags_spec (s : list A) ts : forall (st : mst A T F) E o,
  Forall (fun e => fst (fst e) <= length s) E -> ranges mx s E = (o, mcur st) ->
  let '(st', p) := mTags mt ts st in
  let '(f', l) := judge mt (fun _ => false) (mf st) (length s) ts in
  mf st' = f' /\ ranges mx s (E ++ l) = (o ++ p, mcur st').
Proof.
  induction ts as [|t ts IH]; intros st E o HE HR; cbn [mTags judge].
  - rewrite !app_nil_r. auto.
  - destruct (mt (mf st) t) as [f v].
    set (cp := match v, mcur st with Ignore, c => (c, []) | _, None => (None, []) | _, Some d => _ end).
    assert (Hcp : v <> Ignore -> snd cp = closing (mcur st) t /\ fst cp = None) by (unfold cp; destruct v, (mcur st); cbn; intuition congruence).
    assert (Hig : v = Ignore -> cp = (mcur st, [])) by (unfold cp; intros ->; destruct (mcur st); reflexivity).
    destruct cp as [cur p1]. cbn [fst snd] in Hcp.
    set (cur' := match v with Matching => _ | _ => cur end).
    destruct v.
    + destruct (Hcp ltac:(discriminate)) as [-> ->]. pose proof (ranges_tag s t Matching E ltac:(discriminate) HE) as HT. rewrite HR in HT.
      specialize (IH (mkM f cur') (E ++ [(length s, t, Matching)]) (o ++ closing (mcur st) t)). cbn [mf mcur] in IH.
      assert (HE' : Forall (fun e => fst (fst e) <= length s) (E ++ [(length s, t, Matching)])) by (apply Forall_app; split; [exact HE|repeat constructor]).
      specialize (IH HE' HT). destruct (mTags mt ts (mkM f cur')) as [st' q]. destruct (judge mt (fun _ => false) f (length s) ts) as [f' l].
      rewrite <- !app_assoc in IH. cbn [app] in IH. exact IH.
    + destruct (Hcp ltac:(discriminate)) as [-> ->]. pose proof (ranges_tag s t NotMatching E ltac:(discriminate) HE) as HT. rewrite HR in HT.
      specialize (IH (mkM f cur') (E ++ [(length s, t, NotMatching)]) (o ++ closing (mcur st) t)). cbn [mf mcur] in IH.
      assert (HE' : Forall (fun e => fst (fst e) <= length s) (E ++ [(length s, t, NotMatching)])) by (apply Forall_app; split; [exact HE|repeat constructor]).
      specialize (IH HE' HT). destruct (mTags mt ts (mkM f cur')) as [st' q]. destruct (judge mt (fun _ => false) f (length s) ts) as [f' l].
      rewrite <- !app_assoc in IH. cbn [app] in IH. exact IH.
    + specialize (Hig eq_refl). injection Hig as -> ->. specialize (IH (mkM f cur') E o HE HR). cbn [mf mcur] in IH.
      destruct (mTags mt ts (mkM f cur')) as [st' q]. destruct (judge mt (fun _ => false) f (length s) ts) as [f' l]. exact IH.
Qed.

Lemma part_stable p e (s smp : list A) : e <= length s -> part mx p e (s ++ smp) = part mx p e s.
Proof.
  intros H. unfold part. assert (E : firstn (e - p) (skipn p (s ++ smp)) = firstn (e - p) (skipn p s)).
  { rewrite skipn_app, firstn_app, skipn_length. replace (e - p - (length s - p)) with 0 by lia. cbn [firstn]. apply app_nil_r. }
  rewrite E. reflexivity.
Qed.

Lemma ranges_samples (s smp : list A) (f : F) (E : list (nat * T * verdict)) : Forall (fun e => fst (fst e) <= length s) E ->
  let '(o, c) := ranges mx s E in
  let '(st', p) := mSamples mx smp (mkM f c) in
  mf st' = f /\ ranges mx (s ++ smp) E = (o ++ p, mcur st').
Proof.
  induction E as [|[[p t] w] E IH]; intros H; [cbn; auto|]. specialize (IH (Forall_inv_tail H)). pose proof (Forall_inv H) as Hp. cbn [fst] in Hp.
  cbn [ranges]. destruct (ranges mx s E) as [o c] eqn:ER.
  destruct w; try (destruct (mSamples mx smp (mkM f c)) as [st' q]; destruct IH as [IH1 IH2]; rewrite IH2; auto; fail).
  destruct E as [|[[q u'] w'] E].
  - clear IH ER o c. cbn [ranges].
    set (N := length s) in *. rewrite app_length. fold N.
    destruct (full mx p N) eqn:Ef.
    + unfold full in Ef. apply andb_true_iff in Ef as [E1 E2]. apply Nat.leb_le in E2. cbn [mSamples mcur app mf].
      assert (Ef' : full mx p (N + length smp) = true) by (unfold full; rewrite E1; apply Nat.leb_le; lia). rewrite Ef'. split; [reflexivity|].
      assert (Ep : part mx p (N + length smp) (s ++ smp) = part mx p N s).
      { unfold part. destruct (Nat.eqb_spec mx 0); [discriminate|]. rewrite !firstn_firstn.
        replace (min mx (N + length smp - p)) with mx by lia. replace (min mx (N - p)) with mx by lia.
        rewrite skipn_app, firstn_app, skipn_length. fold N. replace (mx - (N - p)) with 0 by lia. cbn [firstn]. apply app_nil_r. }
      unfold range. rewrite Ep. reflexivity.
    + assert (Hlen : length (part mx p N s) = N - p).
      { rewrite part_length by (unfold N; lia). unfold full in Ef. destruct (Nat.eqb_spec mx 0); [reflexivity|]. cbn [negb andb] in Ef. apply Nat.leb_gt in Ef. lia. }
      assert (Hall : part mx p N s = skipn p s).
      { assert (L : length (skipn p s) = N - p) by apply skipn_length.
        unfold part in *. destruct (mx =? 0); [apply firstn_all2; lia|]. rewrite firstn_firstn in Hlen |- *. rewrite firstn_length in Hlen. apply firstn_all2. lia. }
      unfold mSamples. cbn [mcur mf]. unfold range. cbn [vals axis ext evs]. rewrite Hlen.
      set (n := if mx =? 0 then length smp else min (length smp) (mx - (N - p))).
      assert (Hgrow : part mx p (N + length smp) (s ++ smp) = part mx p N s ++ firstn n smp).
      { rewrite Hall. unfold part, n. rewrite (firstn_all2 (n := N + length smp - p)) by (rewrite skipn_length, app_length; fold N; lia).
        rewrite skipn_app. fold N. replace (p - N) with 0 by lia. cbn [skipn].
        unfold full in Ef. destruct (Nat.eqb_spec mx 0) as [E0|E0]; [rewrite firstn_all; reflexivity|]. cbn [negb andb] in Ef. apply Nat.leb_gt in Ef.
        rewrite firstn_app, skipn_length. fold N. rewrite (firstn_all2 (n := mx)) by (rewrite skipn_length; fold N; lia). f_equal.
        destruct (Nat.le_gt_cases (length smp) (mx - (N - p))).
        - rewrite (firstn_all2 (n := mx - (N - p))) by lia. symmetry. apply firstn_all2. lia.
        - f_equal. lia. }
      assert (Hn : n <= length smp) by (unfold n; destruct (mx =? 0); lia).
      assert (Ef' : full mx p (N + length smp) = negb (mx =? 0) && (N - p + n =? mx)).
      { unfold full, n in *. destruct (Nat.eqb_spec mx 0); [reflexivity|]. cbn [negb andb] in *. apply Nat.leb_gt in Ef.
        destruct (Nat.leb_spec (p + mx) (N + length smp)), (Nat.eqb_spec (N - p + min (length smp) (mx - (N - p))) mx); try reflexivity; lia. }
      rewrite Ef'. clearbody n.
      assert (Ed : (if 0 <? n then mkDs (part mx p N s ++ firstn n smp) (seq 0 (N - p) ++ seq (N - p) n) (N - p + n) [(0%Z, t)]
                    else mkDs (part mx p N s) (seq 0 (N - p)) (N - p) [(0%Z, t)])
                   = range mx p (N + length smp) (s ++ smp) [(0%Z, t)]).
      { unfold range. rewrite Hgrow, app_length, firstn_length, Hlen. replace (min n (length smp)) with n by lia.
        destruct (Nat.ltb_spec 0 n) as [|Hz]; [rewrite seq_app; reflexivity|]. assert (n = 0) as -> by lia. cbn [firstn]. rewrite app_nil_r, Nat.add_0_r. reflexivity. }
      rewrite Ed. unfold range at 1. destruct (negb (mx =? 0) && (N - p + n =? mx)); cbn [mf mcur app]; auto.
  - destruct (mSamples mx smp (mkM f c)) as [st' p']. destruct IH as [IH1 IH2]. rewrite IH2. split; [exact IH1|].
    pose proof (Forall_inv (Forall_inv_tail H)) as Hq. cbn [fst] in Hq. unfold range. rewrite (part_stable p q s smp Hq). reflexivity.
Qed.

Lemma mrun_snoc f0 ks k : mrun (A := A) mt mx f0 (ks ++ [k]) = mstep mt mx (mrun mt mx f0 ks) k.
Proof. unfold mrun. rewrite fold_left_app. reflexivity. Qed.

Theorem mux_inv f0 (ks : list (call A T)) : proper ks ->
  let x := mrun mt mx f0 ks in
  let s := streamOf ks in
  mf (mtS x) = fst (judged mt (fun _ => false) f0 0 s) /\
  ranges mx (map fst s) (snd (judged mt (fun _ => false) f0 0 s)) = (mtOut x, mcur (mtS x)).
Proof.
  cbv zeta. intros Hp. induction ks as [|k ks IH] using rev_ind; [cbn; auto|].
  apply Forall_app in Hp as [Hp Hk]. specialize (IH Hp). apply Forall_inv in Hk. rewrite mrun_snoc, streamOf_snoc.
  set (x := mrun _ _ _ _) in *. clearbody x. set (s := streamOf ks) in *. clearbody s. destruct IH as [I1 I2].
  rewrite judged_app, map_app, spanOf_samples. destruct (judged_range (fun _ => false) s f0 0) as [R1 _].
  destruct (judged mt (fun _ => false) f0 0 s) as [f1 E]. cbn [fst snd] in *. rewrite (judged_span _ k f1 _ Hk). cbn [Nat.add].
  assert (HE : Forall (fun e => fst (fst e) <= length (map fst s)) E).
  { rewrite map_length. rewrite Forall_forall in *. intros e He. specialize (R1 e He). cbv beta in *. lia. }
  pose proof (mTags_spec (map fst s) (cTags k) (mtS x) E (mtOut x) HE I2) as HT. rewrite I1, map_length in HT.
  pose proof (judge_pos (fun _ => false) (cTags k) f1 (length s)) as Hj.
  unfold mstep, mProcess. destruct (mTags mt (cTags k) (mtS x)) as [st1 p]. destruct (judge mt (fun _ => false) f1 (length s) (cTags k)) as [f2 l].
  cbn [fst snd] in *. destruct HT as [H1 H2].
  assert (HE2 : Forall (fun e => fst (fst e) <= length (map fst s)) (E ++ l)).
  { apply Forall_app. split; [exact HE|]. rewrite map_length. rewrite Forall_forall in *. intros e He. rewrite (Hj e He). lia. }
  pose proof (ranges_samples (map fst s) (cSmp k) (mf st1) (E ++ l) HE2) as HS. rewrite H2 in HS.
  destruct st1 as [fs cur]. cbn [mf mcur] in *. destruct (mSamples mx (cSmp k) (mkM fs cur)) as [st2 q]. destruct HS as [S1 S2].
  cbn [mtS mtOut]. rewrite S1, S2, app_assoc. auto.
Qed.
End Mux.
End L.
