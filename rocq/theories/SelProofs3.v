(* Proofs about the selector block: whole calls. *)

From Coq Require Import Arith List Bool Relations Sorted Lia.
From Verif Require Import SelModel SelSpec SelProofs SelProofs2.
Import ListNotations.

Local Open Scope nat_scope.

Section Calls.

Context {A T : Type}.
Implicit Types c : call A T.
Implicit Types r : result A T.

Lemma useSync_iff s : configured s -> (useSync s = true <-> synchronised s).
Proof.
  intros H. destruct (configured_groups s H) as (V & G & _). unfold useSync, synchronised.
  rewrite andb_true_iff, existsb_exists. split.
  - intros (H1 & [o is] & Hin & E). split; [exact H1|]. exists o.
    apply (oi_in_group _ _ _ _ _ G) in Hin. subst is. cbn [snd] in E. apply Nat.ltb_lt in E. lia.
  - intros (H1 & o & Ho). split; [exact H1|]. exists (o, sources (pairs s) o). split.
    + eapply group_in_oi; [exact G|]. destruct (sources (pairs s) o); [cbn in Ho; lia|discriminate].
    + cbn [snd]. apply Nat.ltb_lt. lia.
Qed.

Lemma inRange_true s c : configured s -> fits s c -> inRange s c = true.
Proof.
  intros H (F1 & F2). destruct (configured_groups s H) as ((_ & V) & G & _).
  unfold inRange. apply forallb_forall. intros [o is] Hin.
  pose proof (oi_in_group _ _ _ _ _ G Hin) as ->. cbn [fst snd].
  assert (Hne : sources (pairs s) o <> []).
  { destruct G as (_ & _ & _ & G4 & _). unfold full in G4. rewrite Forall_forall in G4. exact (G4 _ Hin). }
  assert (Ho : o < nOut s).
  { destruct (sources (pairs s) o) as [|i l] eqn:E; [congruence|].
    assert (Hi : In i (sources (pairs s) o)) by (rewrite E; left; reflexivity).
    apply in_sources in Hi. apply (V _ _ Hi). }
  rewrite F2, (proj2 (Nat.ltb_lt _ _) Ho). cbn [andb].
  apply forallb_forall. intros i Hi. apply in_sources in Hi. rewrite F1. apply Nat.ltb_lt. apply (V _ _ Hi).
Qed.

Lemma nonempty_pairs s : configured s -> pairs s <> [] -> inOut s <> [].
Proof.
  intros H Hp E. destruct (configured_groups s H) as (_ & G & _).
  apply (inOut_empty _ _ _ G) in E. contradiction.
Qed.

(* the call once the branch is known *)
Lemma processBulk_eq s c : configured s -> fits s c -> pairs s <> [] ->
  processBulk s c =
  match (if useSync s then syncBranch c (outIn s)
         else asyncBranch c (inOut s) (fun _ => emptySpan) (fun _ => None)) with
  | None => None
  | Some (outs, f) =>
      let '(mon, f') := monitorStep c f in
      Some (mkResult outs mon (map (finalCount s c f') (seq 0 (length (ins c)))) (length (selq c)))
  end.
Proof.
  intros H F Hp. unfold processBulk. rewrite (inRange_true s c H F).
  pose proof (nonempty_pairs s H Hp). destruct (inOut s); [congruence|reflexivity].
Qed.

Lemma isSel_iff c i : isSel c i = true <-> selected c = Some i.
Proof.
  unfold isSel. destruct (selected c) as [x|]; [|split; discriminate].
  rewrite Nat.eqb_eq. split; [intros ->; reflexivity|intros E; injection E; auto].
Qed.

Lemma monitor_keeps c f mon f' :
  (forall i n, f i = Some n -> n <= avail c i /\ (selected c = Some i -> n <= monCap c)) ->
  monitorStep c f = (mon, f') ->
  (forall i n, f i = Some n -> f' i = Some n)
  /\ (forall i, f i = None -> (selected c <> Some i \/ length (ins c) <= i) -> f' i = None)
  /\ (forall i, f i = None -> selected c = Some i -> i < length (ins c) -> f' i = Some (Nat.min (avail c i) (monCap c)))
  /\ (forall i, selected c = Some i -> i < length (ins c) ->
        exists n, f' i = Some n /\ n <= avail c i /\ mon = copyTo n (inAt c i) emptySpan)
  /\ ((selected c = None \/ exists i, selected c = Some i /\ length (ins c) <= i) -> mon = emptySpan).
Proof.
  intros Hf H. unfold monitorStep in H. destruct (selected c) as [k|] eqn:Es.
  - destruct (k <? length (ins c)) eqn:El.
    + apply Nat.ltb_lt in El. injection H as <- <-.
      split; [|split; [|split; [|split]]].
      * intros i n E. unfold upd. destruct (i =? k) eqn:Ei; [|exact E].
        apply Nat.eqb_eq in Ei; subst i. rewrite E. destruct (Hf k n E) as [L1 L2]. f_equal.
        specialize (L2 eq_refl). lia.
      * intros i E [Hn|Hn]; rewrite upd_other; try assumption; [congruence|lia].
      * intros i E Hi Hl. injection Hi as <-. rewrite upd_same, E. reflexivity.
      * intros i Hi Hl. injection Hi as <-. rewrite upd_same. eexists. split; [reflexivity|].
        split; [|reflexivity]. destruct (f k); lia.
      * intros [Hn|(i & Hi & Hl)]; [discriminate|]. injection Hi as <-. lia.
    + apply Nat.ltb_ge in El. injection H as <- <-.
      split; [auto|]. split; [auto|]. split; [|split; [|auto]].
      * intros i _ Hi Hl. injection Hi as <-. lia.
      * intros i Hi Hl. injection Hi as <-. lia.
  - injection H as <- <-. split; [auto|]. split; [auto|]. split; [discriminate|]. split; [discriminate|auto].
Qed.

Lemma consumed_at s c f outs mon n i : i < length (ins c) -> f i = Some n ->
  consumed (mkResult outs mon (map (finalCount s c f) (seq 0 (length (ins c)))) (length (selq c)) : result A T) i = n.
Proof.
  intros Hi E. unfold consumed; cbn [rCons].
  rewrite (nth_indep _ 0 (finalCount s c f 0)) by (rewrite map_length, seq_length; exact Hi).
  rewrite map_nth, seq_nth by exact Hi. unfold finalCount. cbn. rewrite E. reflexivity.
Qed.

Lemma consumed_none s c f outs mon i : i < length (ins c) -> f i = None ->
  consumed (mkResult outs mon (map (finalCount s c f) (seq 0 (length (ins c)))) (length (selq c)) : result A T) i
  = if backPressure s then 0 else avail c i.
Proof.
  intros Hi E. unfold consumed; cbn [rCons].
  rewrite (nth_indep _ 0 (finalCount s c f 0)) by (rewrite map_length, seq_length; exact Hi).
  rewrite map_nth, seq_nth by exact Hi. unfold finalCount. cbn. rewrite E. reflexivity.
Qed.

(* ---------- the bound of a group ---------- *)

Lemma bnd_spec c g b : snd g <> [] -> bnd c g = Some b ->
  (forall i, In i (snd g) -> b <= avail c i)
  /\ b * length (snd g) <= capAt c (fst g)
  /\ (forall i, In i (snd g) -> selected c = Some i -> b <= monCap c)
  /\ ((exists i, In i (snd g) /\ b = avail c i)
      \/ capAt c (fst g) < S b * length (snd g)
      \/ ((exists i, In i (snd g) /\ selected c = Some i) /\ b = monCap c)).
Proof.
  intros Hne. unfold bnd, groupAvail.
  assert (Hlen : length (snd g) <> 0) by (destruct (snd g); [congruence|discriminate]).
  pose proof (Nat.mul_div_le (capAt c (fst g)) (length (snd g)) Hlen) as D1.
  pose proof (Nat.mul_succ_div_gt (capAt c (fst g)) (length (snd g)) Hlen) as D2.
  set (q := capAt c (fst g) / length (snd g)) in *.
  destruct (ominl (map (fun i => Some (avail c i)) (snd g))) as [a|] eqn:Ea.
  2: { destruct (snd g) as [|i is]; [congruence|]. exfalso.
       destruct (ominl_in (map (fun i => Some (avail c i)) (i :: is)) (avail c i)) as (y & E & _);
         [left; reflexivity|congruence]. }
  assert (A1 : forall i, In i (snd g) -> a <= avail c i).
  { intros i Hi. destruct (ominl_in (map (fun i => Some (avail c i)) (snd g)) (avail c i)) as (y & E & L).
    - change (Some (avail c i)) with ((fun i => Some (avail c i)) i). apply in_map. exact Hi.
    - rewrite E in Ea. injection Ea as ->. exact L. }
  assert (A2 : exists i, In i (snd g) /\ a = avail c i).
  { apply ominl_tight in Ea. apply in_map_iff in Ea. destruct Ea as (i & E & Hi). injection E as E. exists i; auto. }
  cbn [omin].
  destruct (existsb (isSel c) (snd g)) eqn:Es; cbn [omin]; intros E; injection E as <-.
  - apply existsb_exists in Es. destruct Es as (k & Hk & Ek). apply isSel_iff in Ek.
    split; [intros i Hi; specialize (A1 i Hi); lia|]. split; [nia|]. split; [intros; lia|].
    destruct A2 as (i & Hi & Ei).
    destruct (Nat.min_dec (Nat.min a q) (monCap c)) as [E|E]; rewrite E; [|right; right; split; [exists k; auto|reflexivity]].
    destruct (Nat.min_dec a q) as [E'|E']; rewrite E'; [left; exists i; auto|]. right; left. lia.
  - split; [intros i Hi; specialize (A1 i Hi); lia|]. split; [nia|]. split.
    + intros i Hi Hs. exfalso. apply isSel_iff in Hs.
      assert (existsb (isSel c) (snd g) = true) by (apply existsb_exists; exists i; auto). congruence.
    + destruct A2 as (i & Hi & Ei).
      destruct (Nat.min_dec a q) as [E'|E']; rewrite E'; [left; exists i; auto|]. right; left. lia.
Qed.

(* ---------- without synchronisation ---------- *)

Lemma async_call s c : configured s -> fits s c -> pairs s <> [] -> useSync s = false ->
  exists r, processBulk s c = Some r
    /\ (forall o, tagsInside (rOut r o) /\ length (smp (rOut r o)) <= capAt c o)
    /\ (forall o, annot (rOut r o)
          = concat (map (fun i => firstn (consumed r i) (annot (inAt c i)))
                        (sourcesAsc (nIn s) (pairs s) o)))
    /\ (forall i, mapped (pairs s) i -> consumed r i <= avail c i
          /\ (selected c = Some i -> consumed r i <= monCap c)
          /\ (consumed r i = avail c i \/ (selected c = Some i /\ consumed r i = monCap c)
              \/ exists o, In (i, o) (pairs s) /\ length (smp (rOut r o)) = capAt c o)).
Proof.
  intros H F Hp Hu. destruct (configured_groups s H) as (V & G & _).
  rewrite (processBulk_eq s c H F Hp), Hu.
  destruct (asyncBranch_ok c (inOut s) (fun _ => emptySpan) (fun _ => None)) as (outs & f & E & R1 & R2 & R3 & R4).
  - apply G.
  - intros [i os] Hin. rewrite (io_in_group _ _ _ _ _ G Hin). cbn. apply NoDup_sinks, V.
  - intros o. split; [apply empty_inside|cbn; lia].
  - rewrite E. destruct (monitorStep c f) as [mon f'] eqn:Em.
    assert (Hmap : forall i, mapped (pairs s) i -> exists n, f i = Some n /\ n <= avail c i
          /\ (isSel c i = true -> n <= monCap c)
          /\ (n = avail c i \/ (isSel c i = true /\ n = monCap c)
              \/ exists o, In o (sinks (pairs s) i) /\ length (smp (outs o)) = capAt c o)).
    { intros i (o & Ho). apply R4. eapply group_in_io; [exact G|]. intros E0.
      apply in_sinks in Ho. rewrite E0 in Ho. contradiction. }
    assert (Hun : forall i, ~ mapped (pairs s) i -> f i = None).
    { intros i Hi. apply R3. intros Hin. apply in_map_iff in Hin. destruct Hin as ([j os] & <- & Hin).
      cbn in *. pose proof (io_in_group _ _ _ _ _ G Hin) as ->.
      destruct G as (_ & _ & G3 & _). unfold full in G3. rewrite Forall_forall in G3. specialize (G3 _ Hin).
      cbn in G3. destruct (sinks (pairs s) j) as [|o l] eqn:Eo; [congruence|].
      apply Hi. exists o. apply in_sinks. rewrite Eo. left; reflexivity. }
    assert (Hbound : forall i n, f i = Some n -> n <= avail c i /\ (selected c = Some i -> n <= monCap c)).
    { intros i n En. destruct (In_dec Nat.eq_dec i (map fst (inOut s))) as [Hin|Hin].
      - apply in_map_iff in Hin. destruct Hin as ([j os] & <- & Hin). cbn in *.
        destruct (R4 j os Hin) as (m & Em' & L1 & L2 & _). rewrite En in Em'. injection Em' as <-.
        split; [exact L1|]. intros Hs. apply L2. apply isSel_iff. exact Hs.
      - rewrite R3 in En by exact Hin. discriminate. }
    destruct (monitor_keeps c f mon f' Hbound Em) as (M1 & _).
    assert (Hcons : forall i, mapped (pairs s) i ->
       consumed (mkResult outs mon (map (finalCount s c f') (seq 0 (length (ins c)))) (length (selq c))) i = cnt f i).
    { intros i Hi. destruct (Hmap i Hi) as (n & En & _). unfold cnt. rewrite En.
      apply consumed_at; [|apply M1; exact En]. destruct Hi as (o & Ho).
      destruct F as [F1 _]. rewrite F1. apply (proj2 V _ _ Ho). }
    eexists. split; [reflexivity|]. cbn [rOut]. split; [|split].
    + intros o. destruct (R1 o) as [Q1 Q2]. split; [exact Q1|lia].
    + intros o. rewrite R2. cbn [annot emptySpan annotFrom smp app].
      assert (Hsrc : map fst (filter (feeds o) (inOut s)) = sourcesAsc (nIn s) (pairs s) o)
        by (unfold feeds; eapply io_sources; eassumption).
      rewrite Hsrc. f_equal. apply map_ext_in. intros i Hi. rewrite Hcons; [reflexivity|].
      unfold sourcesAsc in Hi. apply filter_In in Hi. destruct Hi as [_ Hi].
      apply existsb_exists in Hi. destruct Hi as ([a b] & Hin & Ep). unfold peq in Ep; cbn in Ep.
      apply andb_true_iff in Ep. destruct Ep as [E1 E2]. apply Nat.eqb_eq in E1; apply Nat.eqb_eq in E2.
      subst a b. exists o. exact Hin.
    + intros i Hi. rewrite (Hcons i Hi). destruct (Hmap i Hi) as (n & En & L1 & L2 & L3).
      unfold cnt. rewrite En. split; [exact L1|]. split.
      * intros Hs. apply L2. apply isSel_iff. exact Hs.
      * destruct L3 as [L|[(L & L')|(o & Ho & L)]]; [auto| |].
        -- right; left. split; [apply isSel_iff; exact L|exact L'].
        -- right; right. exists o. split; [apply in_sinks; exact Ho|exact L].
Qed.

(* ---------- with synchronisation ---------- *)

Lemma sync_counts s c : configured s -> fits s c ->
  exists f, levelLoop (levelFuel (length (ins c)) (firstCounts c (outIn s))) (outIn s) (firstCounts c (outIn s)) = Some f
    /\ (forall i, mapped (pairs s) i -> exists n, f i = Some n
          /\ (exists j o, linked (pairs s) i j /\ In (j, o) (pairs s) /\ bnd c (o, sources (pairs s) o) = Some n)
          /\ (forall o b, In (i, o) (pairs s) -> bnd c (o, sources (pairs s) o) = Some b -> n <= b))
    /\ (forall i, ~ mapped (pairs s) i -> f i = None)
    /\ (forall i j, linked (pairs s) i j -> f i = f j).
Proof.
  intros H (F1 & F2). destruct (configured_groups s H) as (V & G & _).
  assert (O1 : forall g, In g (outIn s) -> snd g = sources (pairs s) (fst g) /\ snd g <> []).
  { intros [o is] Hin. cbn. split; [eapply oi_in_group; eassumption|].
    destruct G as (_ & _ & _ & G4 & _). unfold full in G4. rewrite Forall_forall in G4. exact (G4 _ Hin). }
  assert (O2 : forall i o, In (i, o) (pairs s) -> In (o, sources (pairs s) o) (outIn s)).
  { intros i o Hin. eapply group_in_oi; [exact G|]. intros E. apply in_sources in Hin. rewrite E in Hin. contradiction. }
  assert (Hsome : forall i, inSome (outIn s) i <-> mapped (pairs s) i).
  { intros i. split.
    - intros (g & Hg & Hi). destruct (O1 g Hg) as [E _]. rewrite E in Hi. exists (fst g). apply in_sources. exact Hi.
    - intros (o & Ho). exists (o, sources (pairs s) o). split; [eapply O2; eassumption|]. apply in_sources. exact Ho. }
  pose proof (firstCounts_inv c (pairs s) (outIn s)) as I0.
  destruct (levelLoop_ends c (pairs s) (outIn s) O1 (length (ins c))) with
     (fuel := levelFuel (length (ins c)) (firstCounts c (outIn s))) (f := firstCounts c (outIn s))
    as (f & E & I & L).
  - intros i Hi. apply Hsome in Hi. destruct Hi as (o & Ho). rewrite F1. apply (proj2 V _ _ Ho).
  - exact I0.
  - rewrite levelFuel_sum. lia.
  - exists f. split; [exact E|]. destruct I as [I1 I2]. split; [|split].
    + intros i Hi. apply Hsome in Hi. destruct (I1 i Hi) as (n & En & (j & g & Lk & Hg & Hj & Eb) & B).
      exists n. split; [exact En|]. split.
      * exists j, (fst g). split; [exact Lk|]. destruct (O1 g Hg) as [Eg _]. rewrite Eg in Hj. split.
        -- apply in_sources. exact Hj.
        -- rewrite <- Eg. destruct g; exact Eb.
      * intros o b Ho Eb'. eapply (B (o, sources (pairs s) o)); [eapply O2; eassumption| |exact Eb'].
        apply in_sources. exact Ho.
    + intros i Hi. apply I2. intros Hc. apply Hi. apply Hsome. exact Hc.
    + intros i j Hij. eapply linked_equal; eauto.
Qed.

Lemma linked_sym ps i j : linked ps i j -> linked ps j i.
Proof.
  intros H. induction H as [i j (o & H1 & H2)|i|i j k _ IH1 _ IH2].
  - apply rt_step. exists o; auto.
  - apply rt_refl.
  - eapply rt_trans; eassumption.
Qed.

Lemma sync_call s c r : configured s -> fits s c -> useSync s = true -> processBulk s c = Some r ->
  exists f, (forall i n, f i = Some n -> consumed r i = n /\ n <= avail c i /\ (selected c = Some i -> n <= monCap c))
    /\ (forall i, mapped (pairs s) i -> exists n, f i = Some n
          /\ (exists j o, linked (pairs s) i j /\ In (j, o) (pairs s) /\ bnd c (o, sources (pairs s) o) = Some n)
          /\ (forall o b, In (i, o) (pairs s) -> bnd c (o, sources (pairs s) o) = Some b -> n <= b))
    /\ (forall i, ~ mapped (pairs s) i -> f i = None)
    /\ (forall i j, linked (pairs s) i j -> f i = f j)
    /\ (forall o, sources (pairs s) o <> [] -> syncOutput c f (o, sources (pairs s) o) = Some (rOut r o))
    /\ (forall o, sources (pairs s) o = [] -> rOut r o = emptySpan).
Proof.
  intros H F Hu Hr. destruct (configured_groups s H) as (V & G & _).
  assert (Hp : pairs s <> []).
  { intros E. apply (useSync_iff s H) in Hu. destruct Hu as (_ & o & Ho). rewrite E in Ho. cbn in Ho. lia. }
  rewrite (processBulk_eq s c H F Hp), Hu in Hr. unfold syncBranch in Hr. cbn zeta in Hr.
  destruct (sync_counts s c H F) as (f & E & C1 & C2 & C3). rewrite E in Hr.
  destruct (syncOutputs c f (outIn s) (fun _ => emptySpan)) as [outs|] eqn:Eo; [|discriminate].
  destruct (monitorStep c f) as [mon f'] eqn:Em. injection Hr as <-.
  assert (Hb : forall i n, f i = Some n -> n <= avail c i /\ (selected c = Some i -> n <= monCap c) /\ i < length (ins c)).
  { intros i n En. destruct F as [F1 F2].
    assert (Hm : mapped (pairs s) i).
    { destruct (In_dec Nat.eq_dec i (map fst (pairs s))) as [Hin|Hin].
      - apply in_map_iff in Hin. destruct Hin as ([a b] & <- & Hin). exists b. exact Hin.
      - exfalso. rewrite C2 in En; [discriminate|]. intros (o & Ho). apply Hin.
        apply (in_map fst) in Ho. exact Ho. }
    destruct (C1 i Hm) as (m & Em' & _ & B). rewrite En in Em'. injection Em' as <-.
    destruct Hm as (o & Ho). destruct (bnd_some c (o, sources (pairs s) o)) as [b Eb].
    specialize (B o b Ho Eb). apply in_sources in Ho.
    destruct (bnd_spec c (o, sources (pairs s) o) b) as (B1 & _ & B3 & _); cbn [snd fst] in *.
    - intros E0. rewrite E0 in Ho. contradiction.
    - exact Eb.
    - split; [specialize (B1 i Ho); lia|]. split; [intros Hs; specialize (B3 i Ho Hs); lia|].
      rewrite F1. apply in_sources in Ho. apply (proj2 V _ _ Ho). }
  destruct (monitor_keeps c f mon f') as (M1 & _).
  { intros i n En. destruct (Hb i n En) as (B1 & B2 & _). auto. }
  { exact Em. }
  exists f. split.
  { intros i n En. destruct (Hb i n En) as (B1 & B2 & B3). split; [|auto].
    apply consumed_at; [exact B3|apply M1; exact En]. }
  split; [exact C1|]. split; [exact C2|]. split; [exact C3|].
  destruct (syncOutputs_some c f (outIn s) (fun _ => emptySpan) outs (proj1 (proj2 G)) Eo) as [S1 S2].
  cbn [rOut]. split.
  - intros o Ho. apply (S2 (o, sources (pairs s) o)). eapply group_in_oi; eassumption.
  - intros o Ho. apply S1. intros Hin. apply in_map_iff in Hin. destruct Hin as ([a is] & <- & Hin). cbn in *.
    destruct G as (_ & G2 & _ & G4 & _ & G6). unfold full in G4. rewrite Forall_forall in G4. specialize (G4 _ Hin). cbn in G4.
    apply G4. rewrite <- (findm_in _ _ _ G2 Hin). rewrite G6. exact Ho.
Qed.

Lemma roundRobin_one {X : Type} (l : list X) n : n <= length l -> roundRobin n [l] = firstn n l.
Proof.
  unfold roundRobin. intros H.
  assert (G : forall n k, k + n <= length l ->
     flat_map (fun j => flat_map (fun l => match nth_error l j with Some x => [x] | None => [] end) [l]) (seq k n)
     = firstn n (skipn k l)).
  { clear. induction n as [|n IH]; intros k H; [reflexivity|].
    cbn [seq flat_map]. rewrite IH by lia. rewrite app_nil_r.
    destruct (nth_error l k) as [x|] eqn:E; [|apply nth_error_None in E; lia].
    apply nth_error_split in E. destruct E as (l1 & l2 & -> & <-).
    rewrite (skipn_app (length l1)), skipn_all, Nat.sub_diag.
    replace (S (length l1)) with (length l1 + 1) by lia.
    rewrite skipn_app, skipn_all2 by lia. replace (length l1 + 1 - length l1) with 1 by lia. reflexivity. }
  apply (G n 0). lia.
Qed.

(* the outputs of a defined synchronised call *)
Lemma sync_output_single s c r o i : configured s -> fits s c -> useSync s = true ->
  processBulk s c = Some r -> sources (pairs s) o = [i] ->
  annot (rOut r o) = firstn (consumed r i) (annot (inAt c i)).
Proof.
  intros H F Hu Hr Ho. destruct (sync_call s c r H F Hu Hr) as (f & C0 & C1 & _ & _ & C4 & _).
  specialize (C4 o). rewrite Ho in C4. specialize (C4 ltac:(discriminate)).
  unfold syncOutput in C4; cbn [snd] in C4. destruct (f i) as [n|] eqn:E; [|discriminate].
  injection C4 as <-. destruct (C0 i n E) as (-> & _ & _).
  rewrite copyTo_annot by apply empty_inside. reflexivity.
Qed.

End Calls.
