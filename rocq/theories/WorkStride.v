(** Strided blocks: chunks start on the grid of multiples of the stride as long as no tag but the end of stream is fed. *)
From Coq Require Import List NArith ZArith Lia Bool.
From Coq Require Import ZifyBool ZifyNat ZifyN.
From Verif Require Import WorkModel WorkSpec WorkProofs WorkRun WorkInv.
Import ListNotations.
Local Open Scope N_scope.

Lemma stride_pos c : strideActive c = true -> 1 <= stride c.
Proof. unfold strideActive. lia. Qed.

Lemma resampling_stride c minIn maxIn minOut maxOut req :
  chunked c -> strided c -> maxIn <= umax ->
  let '(a, b, s) := computeResampling c minIn maxIn minOut maxOut req in
  (a = 0 /\ b = 0) \/ (a = ics c /\ b = ocs c /\ ics c <= maxIn /\ ocs c <= maxOut).
Proof.
  intros Hch (H1 & H2 & H3) Hmax. pose proof Hch as ((Hc1 & Hc1') & (Ho1 & Ho1') & _).
  unfold computeResampling. rewrite H1, H2. cbn [negb].
  destruct ((ics c =? 1) && (ocs c =? 1)) eqn:E; [exfalso; lia|]. clear E.
  set (rq := if req =? 0 then umax else req). clearbody rq.
  destruct ((ics c <=? maxIn) && (ocs c <=? maxOut)) eqn:Ek.
  - rewrite !N.mul_1_l. rewrite !u64_id by (unfold umax; lia).
    destruct (N.ltb_spec (ics c) minIn); [left; auto|]. destruct (N.ltb_spec (ocs c) minOut); [left; auto|]. cbv zeta.
    destruct (N.ltb_spec rq (ics c)) as [Hr|Hr]; [|right; lia].
    assert (Ec : clamp rq (N.max minIn (ics c)) maxIn = ics c) by (unfold clamp; destruct (N.ltb_spec rq (N.max minIn (ics c))); lia).
    rewrite Ec. rewrite N.div_same by lia.
    assert (Em : N.min 1 (maxOut / ocs c) = 1) by (assert (1 <= maxOut / ocs c) by (apply mul_le_div; lia); lia).
    rewrite Em, !N.mul_1_l, !u64_id by (unfold umax; lia).
    match goal with |- context[if ?b then _ else _] => destruct b end; right; lia.
  - rewrite !N.mul_0_l. change (u64 0) with 0.
    destruct (0 <? minIn); [left; auto|]. destruct (0 <? minOut); [left; auto|]. cbv zeta.
    destruct (N.ltb_spec rq 0); [lia|]. left; auto.
Qed.

(** One call of work on a strided block: skip what is left of the gap, then at most one whole chunk, and only at the
    end of the gap. *)
Lemma limits_stride c cn avIn avOut nt ne req :
  chunked c -> strided c -> ne <= nt \/ ne = 0 -> ne <= umax -> avIn <= umax ->
  let l := computeLimits c cn avIn avOut nt ne req in
  lSkip l + lCnt l = cn /\ lSkip l <= avIn /\ lSkip l <= ne
  /\ (lEos l = false ->
      (lIn l = 0 /\ lOut l = 0)
      \/ (lIn l = ics c /\ lOut l = ocs c /\ lCnt l = 0 /\ lSkip l + ics c <= avIn /\ lSkip l + ics c <= ne)).
Proof.
  intros Hch Hst Hnt Hne Hav. pose proof Hst as (_ & H2 & _). pose proof Hch as ((Hc1 & Hc1') & (Ho1 & Ho1') & _).
  unfold computeLimits. cbv zeta.
  set (nt' := if isFwd (pol c) then umax else nt).
  assert (Hnt' : ne <= nt' \/ ne = 0) by (unfold nt'; destruct (isFwd (pol c)); [left; exact Hne|exact Hnt]). clearbody nt'.
  destruct (skipBefore c cn (N.min avIn (N.min nt' ne))) as [sk cn'] eqn:Es.
  assert (Hsk : sk + cn' = cn /\ sk <= avIn /\ sk <= ne /\ (cn' = 0 \/ sk = avIn \/ sk = ne)).
  { unfold skipBefore in Es. rewrite H2 in Es. cbn [andb] in Es. destruct (N.ltb_spec 0 cn); injection Es as <- <-; lia. }
  pose proof (resampling_stride c (N.min (minReq (inP c)) ne) (toProcess c avIn nt' ne sk) (minReq (outP c))
                (N.min (maxReq (outP c)) avOut) req Hch Hst (proj1 (proj2 (toProcess_le c avIn nt' ne sk)))) as HR.
  destruct (computeResampling c _ _ _ _ _) as [[a b] s]. cbn [lIn lOut lSkip lCnt lEos].
  split; [lia|]. split; [lia|]. split; [lia|]. intros He.
  destruct HR as [[-> ->]|(-> & -> & Hi & _)]; [left; auto|right].
  pose proof (toProcess_le c avIn nt' ne sk) as (_ & _ & T1 & T2). unfold after in *.
  destruct (N.ltb_spec sk avIn); destruct (N.ltb_spec sk ne); lia.
Qed.

Lemma nextTagOf_some {T} pos (tss : list (list (tag T))) :
  nextTagOf pos tss < umax -> exists ts t, In ts tss /\ In t ts /\ pos < tIdx t /\ nextTagOf pos tss = tIdx t - pos.
Proof.
  induction tss as [|x tss IH]; cbn [nextTagOf fold_right]; [lia|]. fold (nextTagOf pos tss). intros H.
  destruct (N.le_gt_cases (nextTagOf pos tss) (distTo (fun _ => true) 1 pos x)) as [Hc|Hc].
  - destruct IH as (ts & t & H1 & H2 & H3 & H4); [lia|]. exists ts, t. repeat split; auto; [right; auto|].
    rewrite N.min_l by exact Hc. exact H4.
  - destruct (distTo_some (fun _ => true) 1 pos x ltac:(lia)) as (t & H1 & H2 & H3 & H4). exists x, t.
    repeat split; auto; [left; auto|lia|]. rewrite N.min_r by lia. exact H4.
Qed.

Lemma eos_before_tag {T} pos (tss : list (list (tag T))) :
  Forall ascending tss -> (forall ts t, In ts tss -> In t ts -> tEos t = true) -> nextEosOf pos tss <= nextTagOf pos tss.
Proof.
  intros Ha He. destruct (N.lt_ge_cases (nextTagOf pos tss) umax) as [Hl|Hl].
  - destruct (nextTagOf_some _ _ Hl) as (ts & t & H1 & H2 & H3 & ->). apply nextEosOf_le with (ts := ts); eauto. lia.
  - pose proof (nextEosOf_max pos tss). lia.
Qed.

Section Grid.
Context {A B S T : Type}.
Variables (c : cfg) (u : ublock A B S T) (chunk : S -> list (list A) -> S * list (list B)) (s0 : S).
Hypotheses (Hch : chunked c) (Hshape : chunkShape chunk c) (Hstr : strided c)
  (Hplain : Forall plain (inP c)) (Hproc : worksByChunk chunk c (proc u)).

Record GInv (F : list (list A)) (G : list (list (tag T))) (st : state A B S T) (k : nat) : Prop := {
  gPos : pos st + cnt st = N.of_nat k * stride c;
  gOpos : opos st = N.of_nat k * ocs c;
  gFlen : length F = length (inP c);
  gGlen : length G = length (inP c);
  gRead : Forall (fun f => pos st <= nlen f) F;
  gWin : forall j, (j < k)%nat -> Forall (fun f => N.of_nat j * stride c + ics c <= nlen f) F;
  gQs : qs st = map (dropN (pos st)) F;
  gAsc : Forall ascending G;
  gTgs : tgs st = G;
  gEos : forall ts t, In ts G -> In t ts -> tEos t = true /\ pos st <= tIdx t;
  gRef : gridRef chunk c s0 F k = (us st, outs st);
  gTag : otags st = if stopped st then [eosAt (opos st)] else [] }.

Lemma avail_plain (Q : list (list A)) i f :
  length Q = length (inP c) -> nth_error Q i = Some f -> availOf (inP c) (map nlen Q) <= nlen f.
Proof.
  clear - Hplain. intros HL Hf. destruct (nth_error (inP c) i) as [p|] eqn:Ep.
  2:{ apply nth_error_None in Ep. assert (i < length Q)%nat by (apply nth_error_Some; congruence). lia. }
  rewrite Forall_forall in Hplain. destruct (Hplain p (nth_error_In _ _ Ep)) as [H1 H2].
  pose proof (availOf_ge (inP c) (map nlen Q) i p (nlen f) Ep (map_nth_error nlen i Q Hf) H1) as H.
  unfold effAvail in H. rewrite H2 in H. cbn [negb] in H. rewrite andb_false_r in H. exact H.
Qed.

Lemma take_outs (o : list (list B)) n : Forall (fun x => nlen x = n) o -> map (takeN n) o = o.
Proof. clear. intros H. apply map_id_ext. intros x Hx. rewrite Forall_forall in H. apply takeN_all. rewrite (H x Hx). lia. Qed.

Lemma gridRef_feed F i xs k :
  (forall j, (j < k)%nat -> Forall (fun f => N.of_nat j * stride c + ics c <= nlen f) F) ->
  gridRef chunk c s0 (addAt i xs F) k = gridRef chunk c s0 F k.
Proof.
  induction k as [|k IH]; intros H; [reflexivity|]. cbn [gridRef]. rewrite IH by (intros j Hj; apply H; lia).
  destruct (gridRef chunk c s0 F k) as [s o].
  rewrite (map_addAt_same (fun f => takeN (ics c) (dropN (N.of_nat k * stride c) f))); [reflexivity|].
  intros q Hq. apply nth_error_In in Hq. specialize (H k ltac:(lia)). rewrite Forall_forall in H. specialize (H q Hq).
  rewrite dropN_app by lia. apply takeN_app. rewrite nlen_dropN. lia.
Qed.

Lemma ginv_feed F G st k i xs ts :
  GInv F G st k -> (i < length F)%nat -> Forall (fun t => nlen (nth i F []) <= tIdx t) ts ->
  ascending (nth i G [] ++ ts) -> Forall (fun t => tEos t = true) ts ->
  GInv (addAt i xs F) (addAt i ts G) (step c u st (Feed i xs ts)) k.
Proof.
  intros HI Hi Hts Hasc He. destruct HI.
  assert (Hi' : pos st <= nlen (nth i F [])) by (rewrite Forall_forall in gRead0; apply gRead0, nth_In; exact Hi).
  assert (Hm : forall m, Forall (fun f => m <= nlen f) F -> Forall (fun f => m <= nlen f) (addAt i xs F)).
  { intros m H. apply Forall_addAt; [exact H|]. intros q Hq. rewrite nlen_app. apply nth_error_In in Hq.
    rewrite Forall_forall in H. specialize (H q Hq). lia. }
  constructor; cbn [step pos opos qs tgs cnt us outs otags stopped]; auto.
  - rewrite length_addAt; auto.
  - rewrite length_addAt; auto.
  - rewrite gQs0. symmetry. apply map_addAt. intros q Hq. apply dropN_app. apply nth_error_In in Hq.
    rewrite Forall_forall in gRead0. exact (gRead0 q Hq).
  - apply Forall_addAt; auto. intros q Hq. rewrite (nth_error_nth' G i q [] Hq) in Hasc. exact Hasc.
  - rewrite gTgs0. reflexivity.
  - intros l t Hl Ht. destruct (In_addAt i ts G l t Hl Ht) as [(q & Hq1 & Hq2)|Hin].
    + exact (gEos0 q t Hq1 Hq2).
    + rewrite Forall_forall in Hts, He. specialize (Hts t Hin). split; [auto|lia].
  - rewrite gridRef_feed; auto.
Qed.

Lemma takeTags_none {X} lim (ts : list (tag X)) : (forall t, In t ts -> lim <= tIdx t) -> takeTags lim ts = [].
Proof. destruct ts as [|t ts]; intros H; [reflexivity|]. cbn [takeTags]. specialize (H t (or_introl eq_refl)). destruct (N.ltb_spec (tIdx t) lim); [lia|reflexivity]. Qed.

Lemma dropTags_none {X} lim (ts : list (tag X)) : (forall t, In t ts -> lim <= tIdx t) -> dropTags lim ts = ts.
Proof. destruct ts as [|t ts]; intros H; [reflexivity|]. cbn [dropTags]. specialize (H t (or_introl eq_refl)). destruct (N.ltb_spec (tIdx t) lim); [lia|reflexivity]. Qed.

Lemma applyTags_none s (w : list (list (tag T))) : (forall l, In l w -> l = []) -> applyTags u s w = s.
Proof. apply applied_empty. Qed.

Lemma windows_none p n (G : list (list (tag T))) :
  (forall ts t, In ts G -> In t ts -> p + n <= tIdx t) -> forall l, In l (map (takeTags (windowEnd c p n)) G) -> l = [].
Proof.
  intros H l Hl. apply in_map_iff in Hl as (ts & <- & Hts). apply takeTags_none. intros t Ht. specialize (H ts t Hts Ht).
  unfold windowEnd. destruct (isBwd (pol c)); lia.
Qed.

Lemma consume_none sp n p (G : list (list (tag T))) :
  (forall ts t, In ts G -> In t ts -> p + n <= tIdx t) -> map (consumeTagsOf c sp n p) G = G.
Proof.
  intros H. apply map_id_ext. intros ts Hts. unfold consumeTagsOf. destruct ((sp =? 0) || (n =? 0)) eqn:E; [reflexivity|].
  apply dropTags_none. intros t Ht. specialize (H ts t Hts Ht). destruct (isBwd (pol c)); lia.
Qed.

Lemma ginv_work F G st k req space tr :
  GInv F G st k -> exists k', GInv F G (step c u st (Work req space tr)) k'.
Proof.
  intros HI. cbn [step]. unfold work.
  destruct (stopped st) eqn:Est. { exists k. cbn [fst]. exact HI. }
  destruct HI. pose proof Hch as ((Hc1 & Hc1') & (Ho1 & Ho1') & _). pose proof Hstr as (_ & Hsa & _).
  pose proof (stride_pos c Hsa) as Hsp.
  set (avIn := availOf (inP c) (map nlen (qs st))). set (avOut := availOf (outP c) space).
  rewrite gTgs0. set (nt := nextTagOf (pos st) G). set (ne := nextEosOf (pos st) G).
  assert (Hnt : ne <= nt) by (apply eos_before_tag; auto; intros ts t H1 H2; apply (gEos0 ts t H1 H2)).
  pose proof (limits_stride c (cnt st) avIn avOut nt ne req Hch Hstr (or_introl Hnt) (nextEosOf_max _ _) (availOf_le _ _)) as HL.
  cbv zeta in HL. set (l := computeLimits c (cnt st) avIn avOut nt ne req) in *. destruct HL as (L1 & L2 & L3 & L4).
  assert (Hidx : forall ts t, In ts G -> In t ts -> pos st + ne <= tIdx t).
  { intros ts t H1 H2. destruct (gEos0 ts t H1 H2) as [H3 H4].
    pose proof (nextEosOf_le (pos st) G ts t gAsc0 H1 H2 H3 H4). fold ne in H. lia. }
  assert (Hav : forall f, In f F -> pos st + avIn <= nlen f).
  { intros f Hf. apply In_nth_error in Hf as (i & Hi).
    pose proof (avail_plain (qs st) i (dropN (pos st) f)) as Ha. rewrite gQs0, map_length in Ha.
    specialize (Ha gFlen0 (map_nth_error (dropN (pos st)) i F Hi)). rewrite <- gQs0 in Ha. fold avIn in Ha. rewrite nlen_dropN in Ha.
    apply nth_error_In in Hi. rewrite Forall_forall in gRead0. specialize (gRead0 f Hi). lia. }
  cbv zeta.
  assert (Es1 : (if 0 <? lSkip l then applyTags u (us st) (map (takeTags (windowEnd c (pos st) (lSkip l))) G) else us st) = us st).
  { destruct (0 <? lSkip l); [|reflexivity]. apply applyTags_none. apply windows_none. intros ts t H1 H2. specialize (Hidx ts t H1 H2). lia. }
  rewrite Es1.
  assert (Et1 : map (consumeTagsOf c (lSkip l) (lSkip l) (pos st)) G = G).
  { apply consume_none. intros ts t H1 H2. specialize (Hidx ts t H1 H2). lia. }
  rewrite Et1.
  assert (Eq1 : map (dropN (lSkip l)) (qs st) = map (dropN (pos st + lSkip l)) F).
  { rewrite gQs0, map_map. apply map_ext. intros f. apply dropN_dropN. }
  rewrite Eq1.
  destruct (lEos l) eqn:Eeos; cbn [fst].
  { exists k. constructor; cbn [pos opos qs tgs cnt us outs otags stopped]; auto.
    - lia.
    - apply Forall_forall. intros f Hf. specialize (Hav f Hf). lia.
    - intros ts t H1 H2. destruct (gEos0 ts t H1 H2). specialize (Hidx ts t H1 H2). split; [auto|lia].
    - rewrite gTag0, Est. reflexivity. }
  destruct ((lIn l =? 0) && (lOut l =? 0)) eqn:Ez; cbn [fst].
  { exists k. constructor; cbn [pos opos qs tgs cnt us outs otags stopped]; auto.
    - lia.
    - apply Forall_forall. intros f Hf. specialize (Hav f Hf). lia.
    - intros ts t H1 H2. destruct (gEos0 ts t H1 H2). specialize (Hidx ts t H1 H2). split; [auto|lia].
    - rewrite gTag0, Est. reflexivity. }
  destruct (L4 eq_refl) as [[H0 H0']|(Hi & Ho & Hc0 & Ha & He)]; [exfalso; lia|]. clear L4 Ez.
  rewrite Hi, Ho.
  set (p1 := pos st + lSkip l) in *.
  assert (Hw : forall x, In x (map (takeTags (windowEnd c p1 (ics c))) G) -> x = []).
  { apply windows_none. intros ts t H1 H2. specialize (Hidx ts t H1 H2). unfold p1. lia. }
  rewrite (applyTags_none (us st) _ Hw).
  assert (Ef : forwarded u (us st) (map (takeTags (windowEnd c p1 (ics c))) G) = []).
  { unfold forwarded. set (w := map (takeTags (windowEnd c p1 (ics c))) G) in *.
    assert (Ec : concat w = []) by (apply concat_empty; exact Hw).
    destruct w as [|x [|y w]]; [reflexivity| |rewrite Ec; reflexivity]. rewrite (Hw x (or_introl eq_refl)). reflexivity. }
  rewrite Ef.
  set (spans := map (takeN (ics c)) (map (dropN p1) F)).
  assert (Hpr : proc u (us st) spans (ocs c) = mkRes (fst (chunks chunk c 1 (us st) spans)) OK None None (snd (chunks chunk c 1 (us st) spans))).
  { rewrite <- (N.mul_1_l (ocs c)). apply (Hproc 1%nat).
    - unfold spans. rewrite !map_length. exact gFlen0.
    - apply Forall_forall. intros x Hx. unfold spans in Hx. rewrite map_map in Hx. apply in_map_iff in Hx as (f & <- & Hf).
      rewrite nlen_takeN, nlen_dropN. specialize (Hav f Hf). unfold p1. lia. }
  assert (Hone : chunks chunk c 1 (us st) spans = chunk (us st) spans).
  { cbn [chunks]. assert (Esp : map (takeN (ics c)) spans = spans).
    { unfold spans. rewrite map_map. apply map_ext. intros f. rewrite takeN_takeN. f_equal. lia. }
    rewrite Esp. destruct (chunk (us st) spans) as [s1 o1] eqn:Ech. f_equal. apply zipApp_nil_r.
    destruct (Hshape (us st) spans) as [Hl _]. rewrite Ech in Hl. exact Hl. }
  rewrite Hone in Hpr. rewrite Hpr. cbn [uCons uPub uStat uOut uS zeroed isDone].
  destruct (N.eqb_spec (ics c) 0) as [|_]; [lia|].
  destruct (N.eqb_spec (ocs c) 0) as [|_]; [lia|].
  unfold strideConsume. rewrite Hsa, Hc0. cbn [N.eqb andb]. destruct (N.ltb_spec 0 (ics c)) as [_|]; [|lia].
  destruct (N.ltb_spec 0 (N.min (stride c) (ics c))) as [_|]; [|lia]. cbn [fst].
  set (a := N.min (stride c) (ics c)).
  assert (Ep1 : p1 = N.of_nat k * stride c) by (unfold p1; lia).
  destruct (Hshape (us st) spans) as [Hs1 Hs2].
  exists (Datatypes.S k). constructor; cbn [pos opos qs tgs cnt us outs otags stopped]; auto.
  - rewrite Ep1. unfold a. lia.
  - lia.
  - apply Forall_forall. intros f Hf. specialize (Hav f Hf). unfold p1, a. lia.
  - intros j Hj. destruct (Nat.eq_dec j k) as [->|]; [|apply gWin0; lia].
    apply Forall_forall. intros f Hf. specialize (Hav f Hf). rewrite <- Ep1. unfold p1. lia.
  - rewrite map_map. apply map_ext. intros f. apply dropN_dropN.
  - apply consume_none. intros ts t H1 H2. specialize (Hidx ts t H1 H2). unfold p1, a. lia.
  - intros ts t H1 H2. destruct (gEos0 ts t H1 H2). specialize (Hidx ts t H1 H2). split; [auto|unfold p1, a; lia].
  - cbn [gridRef]. rewrite gRef0. rewrite <- Ep1.
    assert (Esp : map (fun f => takeN (ics c) (dropN p1 f)) F = spans) by (unfold spans; rewrite map_map; reflexivity).
    rewrite Esp. destruct (chunk (us st) spans) as [s1 o1]. cbn [fst snd] in *. rewrite take_outs by exact Hs2. reflexivity.
  - rewrite gTag0, Est. unfold room. rewrite firstn_nil. reflexivity.
Qed.

Lemma ginv_run es F G st k nOut :
  GInv F G st k -> goodEvents nOut F G es -> (forall i xs ts, In (Feed i xs ts) es -> Forall (fun t => tEos t = true) ts) ->
  exists k', GInv (fold_left feedQ es F) (fold_left feedT es G) (run c u st es) k'.
Proof.
  revert F G st k. induction es as [|e es IH]; intros F G st k HI HG He.
  - exists k. exact HI.
  - cbn [run fold_left]. fold (run c u (step c u st e) es).
    assert (He' : forall i xs ts, In (Feed i xs ts) es -> Forall (fun t => tEos t = true) ts) by (intros; eapply He; right; eassumption).
    destruct e as [i xs ts|req space tr]; cbn [goodEvents] in HG.
    + destruct HG as (Hi & Hts & Hasc & HG). cbn [feedQ feedT].
      apply IH with (k := k); auto. apply ginv_feed; auto. apply (He i xs ts). left. reflexivity.
    + destruct HG as (_ & Htr & HG). cbn [feedQ feedT].
      destruct (ginv_work F G st k req space tr HI) as (k' & HI'). apply IH with (k := k'); auto.
Qed.

Lemma ginv_init : GInv (repeat [] (length (inP c))) (repeat [] (length (inP c))) (init c s0) 0.
Proof.
  assert (HE : forall X, map (fun _ => []) (inP c) = repeat (@nil X) (length (inP c))).
  { clear. intros X. induction (inP c) as [|p l IH]; cbn [map repeat length]; [reflexivity|f_equal; exact IH]. }
  constructor; cbn [init pos opos qs tgs cnt us outs otags stopped]; rewrite ?N.mul_0_l; try reflexivity.
  - apply repeat_length.
  - apply repeat_length.
  - apply Forall_forall. intros x _. lia.
  - intros j Hj. lia.
  - rewrite HE. symmetry. apply map_id_ext. reflexivity.
  - apply Forall_forall. intros x Hx. apply repeat_spec in Hx. subst. exact I.
  - apply HE.
  - intros ts t H1 H2. apply repeat_spec in H1. subst. destruct H2.
Qed.
End Grid.
