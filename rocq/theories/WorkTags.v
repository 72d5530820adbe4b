(** Consequences of the invariant: tags of single-input blocks, progress, end of stream; strided blocks. *)
From Coq Require Import List NArith ZArith Lia Bool.
From Coq Require Import ZifyBool ZifyNat ZifyN.
From Verif Require Import WorkModel WorkSpec WorkProofs WorkRun WorkInv.
Import ListNotations.
Local Open Scope N_scope.

Lemma chunkNo_mono c i j : 1 <= ics c -> i <= j -> chunkNo c i <= chunkNo c j.
Proof. intros Hc H. unfold chunkNo. apply N.div_le_mono; lia. Qed.

Lemma filter_snoc {T} c k (g : list (tag T)) :
  1 <= ics c -> ascending g ->
  filter (fun t => chunkNo c (tIdx t) <? k + 1) g
  = filter (fun t => chunkNo c (tIdx t) <? k) g ++ filter (fun t => chunkNo c (tIdx t) =? k) g.
Proof.
  intros Hc. induction g as [|t g IH]; [reflexivity|]. cbn [ascending filter]. intros [H1 H2]. specialize (IH H2).
  destruct (N.ltb_spec (chunkNo c (tIdx t)) k) as [Ha|Ha].
  - destruct (N.ltb_spec (chunkNo c (tIdx t)) (k + 1)); [|lia]. destruct (N.eqb_spec (chunkNo c (tIdx t)) k); [lia|].
    rewrite IH. reflexivity.
  - assert (E : filter (fun t => chunkNo c (tIdx t) <? k) g = []).
    { apply filter_none. intros x Hx. rewrite Forall_forall in H1. specialize (H1 x Hx).
      pose proof (chunkNo_mono c (tIdx t) (tIdx x) Hc H1). lia. }
    rewrite E in *. cbn [app] in *.
    destruct (N.ltb_spec (chunkNo c (tIdx t)) (k + 1)); destruct (N.eqb_spec (chunkNo c (tIdx t)) k); try lia.
    + rewrite IH. reflexivity.
    + exact IH.
Qed.

Lemma reference_tags {A B S T} c (u : ublock A B S T) chunk s0 F g k f :
  1 <= ics c -> ascending g -> (forall s x, fwd u s x = f x) ->
  snd (reference chunk c u s0 F [g] k) = expectTags c f (N.of_nat k) g.
Proof.
  intros Hc Ha Hf. induction k as [|k IH].
  - cbn [reference snd]. unfold expectTags. rewrite (filter_none _ g); [reflexivity|]. intros t _. lia.
  - cbn [reference]. destruct (reference chunk c u s0 F [g] k) as [[s o] ts]. cbn [snd] in IH. cbv zeta.
    match goal with |- context[chunk ?a ?b] => destruct (chunk a b) as [s2 o2] end. cbn [snd]. rewrite IH.
    unfold expectTags. replace (N.of_nat (Datatypes.S k)) with (N.of_nat k + 1) by lia. rewrite filter_snoc by assumption.
    rewrite flat_map_app. f_equal. unfold chunkForward, chunkTags. cbn [map].
    assert (E : forall l : list (tag T), (forall t, In t l -> chunkNo c (tIdx t) = N.of_nat k) -> forall s',
      map (fun x => (N.of_nat k * ocs c, Some x)) (flat_map (fun t => match fwd u s' (tPay t) with Some x => [x] | None => [] end) l)
      = flat_map (fun t => match f (tPay t) with Some x => [(chunkNo c (tIdx t) * ocs c, Some x)] | None => [] end) l).
    { induction l as [|t l IHl]; intros Hl s'; [reflexivity|]. cbn [flat_map]. rewrite map_app, IHl by (intros; apply Hl; right; auto).
      f_equal. rewrite Hf. rewrite (Hl t (or_introl eq_refl)). destruct (f (tPay t)); reflexivity. }
    apply E. intros t Ht. apply filter_In in Ht. lia.
Qed.

(* ------------------------------------------------------------------ progress *)

Lemma minReq_le ps n : (forall p, In p ps -> pSync p = true -> effMin p <= n) -> minReq ps <= n.
Proof.
  induction ps as [|p ps IH]; intros H; cbn [minReq fold_right]; [lia|]. fold (minReq ps).
  assert (minReq ps <= n) by (apply IH; intros; apply H; [right; auto|auto]).
  destruct (pSync p) eqn:E; [|auto]. specialize (H p (or_introl eq_refl) E). lia.
Qed.

Lemma maxReq_le' ps n : n <= umax -> (forall p, In p ps -> pSync p = true -> n <= pMax p) -> n <= maxReq ps.
Proof.
  intros Hn. induction ps as [|p ps IH]; intros H; cbn [maxReq fold_right]; [exact Hn|]. fold (maxReq ps).
  assert (n <= maxReq ps) by (apply IH; intros; apply H; [right; auto|auto]).
  destruct (pSync p) eqn:E; [|auto]. specialize (H p (or_introl eq_refl) E). lia.
Qed.

Lemma availOf_le' ps ns n : n <= umax -> Forall (fun x => n <= x) ns -> n <= availOf ps ns.
Proof.
  intros Hn. revert ns; induction ps as [|p ps IH]; intros [|x ns] H; cbn [availOf]; auto.
  inversion H; subst. specialize (IH ns ltac:(assumption)). unfold effAvail.
  destruct (pSync p); [|auto]. destruct (pOpt p && negb (pConn p)); lia.
Qed.

(** Enough input and output for one chunk, minimal requirements no larger than a chunk: something is processed. *)
Lemma limits_progress c cnt avIn avOut nt ne req :
  chunked c -> strideActive c = false -> pol c = PDefault -> minReq (inP c) <= 1 -> minReq (outP c) <= ocs c ->
  1 <= nt -> ne <= umax ->
  ics c <= maxReq (inP c) -> ocs c <= maxReq (outP c) -> ics c <= avIn -> ocs c <= avOut -> avOut <= umax ->
  let l := computeLimits c cnt avIn avOut nt ne req in lEos l = false -> ics c <= lIn l.
Proof.
  intros Hch Hs Hp Hmi Hmo Hnt Hne HxI HxO HaI HaO HaU l. intros He.
  pose proof (limits_eos c cnt avIn avOut nt ne req Hs) as HE. fold l in HE. rewrite He in HE.
  pose proof (limits_plain c cnt avIn avOut nt ne req Hs) as [Hsk _]. fold l in Hsk.
  pose proof Hch as ((Hc1 & Hc1') & (Ho1 & Ho1') & _).
  pose proof (limits_legal c cnt avIn avOut nt ne req Hch) as HL. cbv zeta in HL. fold l in HL.
  destruct HL as ((m & Hm1 & Hm2) & _ & _ & _ & _ & _).
  assert (Hfull : exists k, 1 <= k /\ lIn l = k * ics c).
  { unfold l, computeLimits, skipBefore. rewrite Hs. cbn [andb]. rewrite Hp. cbn [isFwd].
    set (tp := toProcess c avIn nt ne 0).
    assert (Htp : ics c <= tp).
    { unfold tp, toProcess. rewrite !after_0. assert (Hu : umax = 2 ^ 64 - 1) by reflexivity.
      destruct (N.leb_spec (minReq (inP c)) nt); [|lia]. destruct (N.leb_spec (ics c) nt); lia. }
    set (mo := N.min (maxReq (outP c)) avOut). assert (Hmo' : ocs c <= mo) by (unfold mo; lia).
    assert (Hmou : mo <= umax) by (unfold mo; pose proof (maxReq_le (outP c)); lia).
    assert (Htpu : tp <= umax) by (apply (toProcess_le c avIn nt ne 0)).
    clearbody tp mo. set (mi := N.min (minReq (inP c)) ne). assert (Hmi' : mi <= 1) by (unfold mi; lia). clearbody mi.
    unfold computeResampling. set (rq := if req =? 0 then umax else req).
    assert (Hrq : 1 <= rq) by (unfold rq; destruct (N.eqb_spec req 0); [unfold umax; lia|lia]). clearbody rq.
    assert (Hpl : ics c = 1 -> ocs c = 1 -> exists k, 1 <= k /\
        fst (fst (plainResampling mi tp (minReq (outP c)) mo rq)) = k * ics c).
    { intros E1 E2. unfold plainResampling. destruct (N.ltb_spec (N.min tp mo) mi); [lia|].
      destruct (N.ltb_spec (N.min tp mo) (minReq (outP c))); [lia|]. cbn [fst].
      exists (clamp rq (N.max mi (minReq (outP c))) (N.min tp mo)). split; [|lia].
      unfold clamp. destruct (N.ltb_spec rq (N.max mi (minReq (outP c)))); [lia|]. destruct (N.ltb_spec (N.min tp mo) rq); lia. }
    destruct Hch as (_ & _ & Hr). destruct (resEn c) eqn:Ere; cbn [negb].
    2:{ destruct (Hr eq_refl) as [E1 E2]. destruct (Hpl E1 E2) as (k & Hk1 & Hk2).
        destruct (plainResampling mi tp (minReq (outP c)) mo rq) as [[a b] s]. cbn [fst lIn] in *. exists k. auto. }
    destruct ((ics c =? 1) && (ocs c =? 1)) eqn:E1.
    { destruct (Hpl ltac:(lia) ltac:(lia)) as (k & Hk1 & Hk2).
        destruct (plainResampling mi tp (minReq (outP c)) mo rq) as [[a b] s]. cbn [fst lIn] in *. exists k. auto. }
    rewrite Hs.
    set (k := N.min (tp / ics c) (mo / ocs c)).
    assert (Hk1 : 1 <= k) by (unfold k; apply N.min_glb; apply mul_le_div; lia).
    assert (Hk : k * ics c <= tp /\ k * ocs c <= mo).
    { pose proof (div_mul_le tp (ics c) ltac:(lia)). pose proof (div_mul_le mo (ocs c) ltac:(lia)). unfold k.
      split; etransitivity; [apply N.mul_le_mono_r, N.le_min_l|eassumption|apply N.mul_le_mono_r, N.le_min_r|eassumption]. }
    rewrite (u64_id (k * ics c)) by lia. rewrite (u64_id (k * ocs c)) by lia.
    assert (Hge : ics c <= k * ics c /\ ocs c <= k * ocs c) by (clearbody k; clear - Hk1; split; nia).
    destruct (N.ltb_spec (k * ics c) mi); [lia|]. destruct (N.ltb_spec (k * ocs c) (minReq (outP c))); [lia|].
    cbv zeta. destruct (rq <? k * ics c); cbn [lIn]; [|exists k; auto].
    set (rq' := clamp rq (N.max mi (ics c)) tp).
    assert (Hrq' : ics c <= rq' <= tp).
    { pose proof (clamp_bounds rq (N.max mi (ics c)) tp ltac:(lia)). unfold rq'. lia. }
    set (k2 := N.min (rq' / ics c) (mo / ocs c)).
    assert (Hk2 : 1 <= k2) by (unfold k2; apply N.min_glb; apply mul_le_div; lia).
    match goal with |- context[if ?b then _ else _] => destruct b end; cbn [lIn]; [|exists k; auto].
    exists k2. split; [exact Hk2|]. apply u64_id.
    pose proof (div_mul_le rq' (ics c) ltac:(lia)).
    assert (k2 * ics c <= rq' / ics c * ics c) by (apply N.mul_le_mono_r; unfold k2; lia). lia. }
  destruct Hfull as (k & Hk1 & Hk2). rewrite Hk2. clear - Hk1. nia.
Qed.

Section Live.
Context {A B S T : Type}.
Variables (c : cfg) (u : ublock A B S T) (chunk : S -> list (list A) -> S * list (list B)) (s0 : S).
Hypotheses (Hch : chunked c) (Hshape : chunkShape chunk c) (Hstride : strideActive c = false) (Hpol : pol c = PDefault)
  (Hplain : Forall plain (inP c)) (HminI : minReq (inP c) <= 1) (HminO : minReq (outP c) <= ocs c)
  (Hproc : worksByChunk chunk c (proc u)).

Lemma minO31 : minReq (outP c) < 2 ^ 31.
Proof. clear - Hch HminO. destruct Hch as (_ & (_ & H) & _). lia. Qed.

(** One more chunk of input on every port and room for its output: the call processes it, or ends the stream. *)
Lemma work_progress F G st k req space tr :
  Inv c u chunk s0 F G st k -> fewTags c G -> (length (concat G) <= tr)%nat -> stopped st = false ->
  ics c <= maxReq (inP c) -> ocs c <= maxReq (outP c) ->
  Forall (fun f => (N.of_nat k + 1) * ics c <= nlen f) F -> Forall (fun n => ocs c <= n) space ->
  let st' := step c u st (Work req space tr) in stopped st' = true \/ pos st + ics c <= pos st'.
Proof.
  intros HI Hfew Htr Hst HxI HxO HF HS st'.
  destruct (inv_work_full c u chunk s0 Hch Hshape Hstride Hpol Hplain HminI minO31 Hproc F G st k req space tr HI Hfew Htr)
    as (k' & HI' & H). destruct (H Hst) as [H1 H2]. fold st' in H1, HI'. destruct (lEos (limitsOf c st req space)) eqn:E; [left; exact H1|right].
  rewrite (iPos _ _ _ _ _ _ _ _ HI'), H2. apply N.add_le_mono_l. pose proof Hch as ((Hc1 & Hc1') & (Ho1 & Ho1') & _).
  unfold limitsOf in *. apply limits_progress; auto.
  - apply nextTagOf_ge.
  - apply nextEosOf_max.
  - apply availOf_le'; [unfold umax; lia|]. rewrite (iQs _ _ _ _ _ _ _ _ HI), map_map. apply Forall_forall. intros x Hx.
    apply in_map_iff in Hx as (f & <- & Hf). rewrite nlen_dropN. rewrite Forall_forall in HF. specialize (HF f Hf). lia.
  - apply availOf_le'; [unfold umax; lia|exact HS].
  - apply availOf_le.
Qed.

(** An end-of-stream tag with less than a chunk in front of it ends the stream at the next call. *)
Lemma work_ends F G st k req space tr ts t :
  Inv c u chunk s0 F G st k -> fewTags c G -> (length (concat G) <= tr)%nat ->
  In ts G -> In t ts -> tEos t = true -> tIdx t < pos st + ics c ->
  stopped (step c u st (Work req space tr)) = true.
Proof.
  intros HI Hfew Htr H1 H2 H3 H4. destruct (stopped st) eqn:Hst.
  { cbn [step]. unfold work. rewrite Hst. exact Hst. }
  destruct (inv_work_full c u chunk s0 Hch Hshape Hstride Hpol Hplain HminI minO31 Hproc F G st k req space tr HI Hfew Htr)
    as (k' & _ & H). destruct (H Hst) as [E _]. rewrite E. unfold limitsOf. rewrite limits_eos by exact Hstride.
  pose proof Hch as ((Hc1 & _) & _). destruct HI.
  assert (nextEosOf (pos st) (tgs st) <= tIdx t - pos st).
  { apply nextEosOf_le with (ts := filter (fun t => N.of_nat k <=? chunkNo c (tIdx t)) ts); auto.
    - rewrite iTgs. apply Forall_forall. intros x Hx. apply in_map_iff in Hx as (y & <- & Hy). apply ascending_filter.
      rewrite Forall_forall in iAsc. auto.
    - rewrite iTgs. apply in_map_iff. exists ts; auto.
    - apply filter_In. split; [exact H2|]. apply N.leb_le. apply chunkNo_ge; [exact Hc1|]. specialize (iEos ts t H1 H2 H3). lia.
    - rewrite iPos. exact (iEos ts t H1 H2 H3). }
  assert (pos st <= tIdx t) by (rewrite iPos; exact (iEos ts t H1 H2 H3)). lia.
Qed.

(** When the stream has ended, less than one chunk was left. *)
Lemma stop_rest F G st k :
  Inv c u chunk s0 F G st k -> stopped st = true ->
  exists ts t, In ts G /\ In t ts /\ tEos t = true /\ pos st <= tIdx t /\ (tIdx t < pos st + 2 ^ 33 -> tIdx t < pos st + ics c).
Proof.
  clear - Hch HminO. intros HI Hs. destruct HI. destruct (iStop Hs) as (ts & t & H1 & H2 & H3 & H4). exists ts, t. repeat split; auto.
  - rewrite iPos. exact (iEos ts t H1 H2 H3).
  - intros Hb. pose proof Hch as ((Hc1 & Hc1') & (Ho1 & Ho1') & _). pose proof (iEos ts t H1 H2 H3) as Hge. rewrite <- iPos in Hge.
    cbv zeta in H4. destruct H4 as [H4|[H4|H4]]; [lia|lia|].
    destruct (N.lt_ge_cases (tIdx t) (pos st + ics c)) as [|Hn]; [auto|]. exfalso.
    set (d := tIdx t - pos st) in *. assert (Hd : ics c <= d < 2 ^ 33) by (unfold d; lia).
    assert (Hq : 1 <= d / ics c <= d).
    { split; [apply mul_le_div; lia|]. rewrite <- (N.div_1_r d) at 2. apply N.div_le_compat_l. lia. }
    rewrite u64_id in H4. 2:{ clearbody d. clear - Hq Hd Ho1'. set (q := d / ics c) in *. clearbody q.
      assert (ocs c * q <= 2 ^ 31 * 2 ^ 33 - 1 * 1) by nia. unfold umax. lia. }
    clearbody d. set (q := d / ics c) in *. clearbody q. nia.
Qed.
End Live.

(** A stopped block never changes its outputs, position or tags again, whatever is fed or called. *)
Lemma stopped_frozen {A B S T} c (u : ublock A B S T) es st :
  stopped st = true ->
  let st' := run c u st es in stopped st' = true /\ pos st' = pos st /\ opos st' = opos st /\ outs st' = outs st /\ otags st' = otags st /\ us st' = us st.
Proof.
  revert st. induction es as [|e es IH]; intros st H; [cbn; auto 10|]. cbn [run fold_left]. fold (run c u (step c u st e) es).
  assert (E : stopped (step c u st e) = true /\ pos (step c u st e) = pos st /\ opos (step c u st e) = opos st
            /\ outs (step c u st e) = outs st /\ otags (step c u st e) = otags st /\ us (step c u st e) = us st).
  { destruct e as [i xs ts|req sp tr]; cbn [step]; [cbn; auto 10|]. unfold work. rewrite H. cbn [fst]. auto 10. }
  destruct E as (E1 & E2 & E3 & E4 & E5 & E6). specialize (IH _ E1). cbv zeta in IH. rewrite E2, E3, E4, E5, E6 in IH. exact IH.
Qed.

(* ------------------------------------------------------------------ stalls *)

Lemma find_app' {X} (f : X -> bool) a b : find f (a ++ b) = match find f a with Some x => Some x | None => find f b end.
Proof. induction a as [|x a IH]; [reflexivity|]. simpl. destruct (f x); auto. Qed.

(** One input port, the next tag [d] samples away, and no amount of input or output space lets the limits be non-zero:
    the block is stuck for good. *)
Lemma stall {A B S T} c (u : ublock A B S T) d :
  strideActive c = false -> pol c = PDefault -> d < umax ->
  (forall cn avIn avOut req, avIn <= umax -> avOut <= umax ->
     let l := computeLimits c cn avIn avOut d umax req in lIn l = 0 /\ lOut l = 0 /\ lEos l = false) ->
  forall es st g, stopped st = false -> tgs st = [g] -> distTo (fun _ => true) 1 (pos st) g = d ->
    Forall (fun t => tEos t = false) g -> feedsNoEos es ->
    let st' := run c u st es in
    stopped st' = false /\ pos st' = pos st /\ opos st' = opos st /\ outs st' = outs st /\ otags st' = otags st /\ us st' = us st.
Proof.
  intros Hs Hp Hd HL. induction es as [|e es IH]; intros st g Hst Hg Hdist Hne Hes; [cbn; auto 10|].
  cbn [run fold_left]. fold (run c u (step c u st e) es).
  assert (Hes' : feedsNoEos es) by (intros i xs ts H; apply (Hes i xs ts); right; exact H).
  assert (E : exists g', stopped (step c u st e) = false /\ tgs (step c u st e) = [g'] /\ distTo (fun _ => true) 1 (pos st) g' = d
     /\ Forall (fun t => tEos t = false) g' /\ pos (step c u st e) = pos st /\ opos (step c u st e) = opos st
     /\ outs (step c u st e) = outs st /\ otags (step c u st e) = otags st /\ us (step c u st e) = us st).
  { destruct e as [i xs ts|req sp tr]; cbn [step stopped tgs pos opos outs otags us].
    - rewrite Hg. destruct i as [|i]; cbn [addAt].
      + exists (g ++ ts). split; [auto|]. split; [reflexivity|]. split.
        * unfold distTo in *. rewrite find_app'.
          destruct (find (fun t => (pos st + 1 <=? tIdx t) && true) g); [exact Hdist|]. lia.
        * split; [|auto 10]. apply Forall_app. split; [exact Hne|]. apply (Hes 0%nat xs ts). left. reflexivity.
      + exists g. destruct i; cbn [addAt]; auto 15.
    - exists g. unfold work. rewrite Hst, Hg.
      assert (En : nextTagOf (pos st) [g] = d).
      { unfold nextTagOf. cbn [fold_right]. rewrite Hdist. lia. }
      assert (Ee : nextEosOf (pos st) [g] = umax).
      { apply nextEosOf_none. intros ts t [<-|[]] Ht. rewrite Forall_forall in Hne. auto. }
      rewrite En, Ee.
      pose proof (HL (cnt st) (availOf (inP c) (map nlen (qs st))) (availOf (outP c) sp) req (availOf_le _ _) (availOf_le _ _)) as H.
      pose proof (limits_plain c (cnt st) (availOf (inP c) (map nlen (qs st))) (availOf (outP c) sp) d umax req Hs) as H'.
      cbv zeta in H, H'. set (l := computeLimits c _ _ _ _ _ _) in *. destruct H as (H1 & H2 & H3). destruct H' as [H4 H5].
      cbv zeta. rewrite H1, H2, H3, H4. cbn [N.eqb andb fst stopped tgs pos opos outs otags us N.ltb N.compare].
      repeat split; auto; try lia. }
  destruct E as (g' & E0 & E1 & E2 & E3 & E4 & E5 & E6 & E7 & E8).
  specialize (IH (step c u st e) g' E0 E1 ltac:(rewrite E4; exact E2) E3 Hes'). cbv zeta in IH.
  rewrite E4, E5, E6, E7, E8 in IH. exact IH.
Qed.

(** Blocks without resampling: a tag nearer than the smallest output the block accepts. *)
Lemma stall_out c d : strideActive c = false -> pol c = PDefault -> ics c = 1 -> ocs c = 1 -> minReq (inP c) <= 1 -> 1 <= d -> d < minReq (outP c) -> minReq (outP c) < 2 ^ 31 ->
  forall cn avIn avOut req, avIn <= umax -> avOut <= umax ->
     let l := computeLimits c cn avIn avOut d umax req in lIn l = 0 /\ lOut l = 0 /\ lEos l = false.
Proof.
  intros Hs Hp H1 H2 H3 H4 H5 H5' cn avIn avOut req H6 H7 l.
  pose proof (limits_eos c cn avIn avOut d umax req Hs) as HE. fold l in HE.
  assert (HE' : lEos l = false).
  { rewrite HE, H1, H2, N.div_1_r, N.mul_1_l, u64_id by lia. unfold umax. lia. }
  split; [|split; [|exact HE']]; unfold l, computeLimits, skipBefore; rewrite Hs, Hp; cbn [andb isFwd];
    unfold computeResampling; rewrite H1, H2; cbn [N.eqb Pos.eqb andb];
    set (tp := toProcess c avIn d umax 0);
    (assert (Htp : tp <= d) by (unfold tp, toProcess; rewrite !after_0, H1; destruct (N.leb_spec (minReq (inP c)) d); [|lia];
      destruct (N.leb_spec 1 d); lia));
    clearbody tp; destruct (resEn c); cbn [negb]; unfold plainResampling;
    (destruct (N.min tp (N.min (maxReq (outP c)) avOut) <? N.min (minReq (inP c)) umax); [reflexivity|]);
    (destruct (N.ltb_spec (N.min tp (N.min (maxReq (outP c)) avOut)) (minReq (outP c))); [reflexivity|lia]).
Qed.
