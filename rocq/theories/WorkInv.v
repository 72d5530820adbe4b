(** The work loop keeps the reference result: invariant, preserved by feeding and by every call of work. *)
From Coq Require Import List NArith ZArith Lia Bool.
From Coq Require Import ZifyBool ZifyNat ZifyN.
From Verif Require Import WorkModel WorkSpec WorkProofs WorkRun.
Import ListNotations.
Local Open Scope N_scope.

Lemma limits_plain c cnt avIn avOut nt ne req :
  strideActive c = false ->
  let l := computeLimits c cnt avIn avOut nt ne req in lSkip l = 0 /\ lCnt l = cnt.
Proof.
  intros Hs. unfold computeLimits, skipBefore. rewrite Hs. cbn [andb].
  destruct (computeResampling c (N.min (minReq (inP c)) ne) _ _ _ _) as [[a b] s]. cbn [lSkip lCnt]. auto.
Qed.

Lemma limits_eos c cnt avIn avOut nt ne req :
  strideActive c = false ->
  lEos (computeLimits c cnt avIn avOut nt ne req) =
  ((ne <=? 0) || (ne <? minReq (inP c)) || (ne <? ics c) || (u64 (ocs c * (ne / ics c)) <? minReq (outP c))).
Proof.
  intros Hs. unfold computeLimits, skipBefore. rewrite Hs. cbn [andb].
  destruct (computeResampling c (N.min (minReq (inP c)) ne) _ _ _ _) as [[a b] s]. cbn [lEos].
  rewrite after_0. reflexivity.
Qed.

(** The 64-bit product in the end-of-stream test does not wrap to a small number when there is no such tag. *)
Lemma no_false_eos c : chunked c -> 2 ^ 31 <= u64 (ocs c * (umax / ics c)).
Proof.
  intros (Hi & Ho & _). set (Q := umax / ics c).
  pose proof (N.div_mod umax (ics c) ltac:(lia)) as HQ. fold Q in HQ.
  pose proof (N.mod_lt umax (ics c) ltac:(lia)) as Hr. set (r := umax mod ics c) in *.
  pose proof (N.div_mod (ocs c) (ics c) ltac:(lia)) as Ha. set (a := ocs c / ics c) in *.
  pose proof (N.mod_lt (ocs c) (ics c) ltac:(lia)) as Hb. set (b := ocs c mod ics c) in *.
  clearbody Q r a b. set (i := ics c) in *. set (o := ocs c) in *. clearbody i o.
  assert (HQ33 : 2 ^ 33 <= Q).
  { destruct (N.le_gt_cases (2 ^ 33) Q); [auto|]. exfalso. unfold umax in HQ. nia. }
  assert (Har : a * (1 + r) <= o) by nia.
  assert (Hprod : o * Q + a * (1 + r) = a * 2 ^ 64 + b * Q).
  { unfold umax in HQ. rewrite Ha. nia. }
  unfold u64.
  destruct (N.le_gt_cases (a * (1 + r)) (b * Q)) as [Hc|Hc].
  - assert (Hb1 : 1 <= b).
    { destruct (N.eq_dec b 0) as [E|E]; [|lia]. exfalso. rewrite E in *. assert (a = 0) by nia. nia. }
    assert (E : o * Q = (b * Q - a * (1 + r)) + a * 2 ^ 64) by lia.
    rewrite E, N.mod_add by lia. rewrite N.mod_small.
    + assert (Q <= b * Q) by nia. lia.
    + assert (b * Q <= i * Q) by nia. unfold umax in HQ. lia.
  - assert (Ha1 : 1 <= a) by nia.
    assert (E : o * Q = (2 ^ 64 - (a * (1 + r) - b * Q)) + (a - 1) * 2 ^ 64) by nia.
    rewrite E, N.mod_add by lia. rewrite N.mod_small by lia. lia.
Qed.

Section Inv.
Context {A B S T : Type}.
Variable c : cfg.
Variable u : ublock A B S T.
Variable chunk : S -> list (list A) -> S * list (list B).
Variable s0 : S.
Hypothesis Hch : chunked c.
Hypothesis Hshape : chunkShape chunk c.
Hypothesis Hstride : strideActive c = false.
Hypothesis Hpol : pol c = PDefault.
Hypothesis Hplain : Forall plain (inP c).
Hypothesis HminIn : minReq (inP c) <= 1.
Hypothesis HminOut : minReq (outP c) < 2 ^ 31.
Hypothesis Hproc : worksByChunk chunk c (proc u).

Lemma dedup_firstOcc seen' ts :
  (length seen' <= 8)%nat -> (length seen' + length ts <= 9)%nat ->
  dedup u (map (fun t => (tIdx t, tPay t)) seen') ts = firstOcc (eqT u) seen' ts.
Proof.
  clear Hstride HminIn HminOut.
  revert seen'; induction ts as [|t ts IH]; intros seen' H8 H9; [reflexivity|]. cbn [dedup firstOcc length] in *.
  assert (E : dup u (map (fun t => (tIdx t, tPay t)) seen') t
              = existsb (fun e => (tIdx e =? tIdx t) && eqT u (tPay e) (tPay t)) seen').
  { unfold dup. clear. induction seen' as [|x l IH]; [reflexivity|]. cbn [map existsb fst snd]. rewrite IH. reflexivity. }
  rewrite E. destruct (existsb _ seen'); [apply IH; lia|]. f_equal. rewrite map_length.
  destruct (Nat.ltb_spec (length seen') 8).
  - specialize (IH (seen' ++ [t])). rewrite map_app in IH. cbn [map] in IH. apply IH; rewrite app_length; cbn [length]; lia.
  - destruct ts as [|x ts]; [reflexivity|]. cbn [length] in H9. lia.
Qed.

Lemma forwarded_eq s G k :
  fewTags c G -> length G = length (inP c) ->
  forwarded u s (chunkTags c k G) = chunkForward u s (chunkTags c k G).
Proof.
  intros Hf HG. unfold forwarded, chunkForward. f_equal.
  assert (HL : length (chunkTags c k G) = length G) by apply map_length.
  destruct (chunkTags c k G) as [|w [|w2 ws]] eqn:E; [reflexivity|reflexivity|].
  apply (dedup_firstOcc []); [cbn [length]; lia|]. destruct Hf as [Hf|Hf]; [cbn [length] in HL; lia|].
  rewrite <- E. cbn [length]. apply Hf.
Qed.

Lemma firstOcc_len eq seen (ts : list (tag T)) : (length (firstOcc eq seen ts) <= length ts)%nat.
Proof.
  revert seen; induction ts as [|t ts IH]; intros seen; [cbn; lia|]. cbn [firstOcc].
  destruct (existsb _ seen); cbn [length]; specialize (IH seen) as H1; specialize (IH (seen ++ [t])); lia.
Qed.

Lemma flat_len s (ts : list (tag T)) :
  (length (flat_map (fun t => match fwd u s (tPay t) with Some x => [x] | None => [] end) ts) <= length ts)%nat.
Proof.
  induction ts as [|t ts IH]; [cbn; lia|]. cbn [flat_map]. rewrite app_length. cbn [length].
  destruct (fwd u s (tPay t)); cbn [length]; lia.
Qed.

Lemma concat_filter_len (f : tag T -> bool) G : (length (concat (map (filter f) G)) <= length (concat G))%nat.
Proof.
  induction G as [|g G IH]; [cbn; lia|]. cbn [map concat]. rewrite !app_length.
  assert (length (filter f g) <= length g)%nat.
  { clear. induction g as [|x g IH]; [cbn; lia|]. cbn [filter]. destruct (f x); cbn [length]; lia. }
  lia.
Qed.

Lemma chunkForward_len s k G : (length (chunkForward u s (chunkTags c k G)) <= length (concat G))%nat.
Proof.
  unfold chunkForward. etransitivity; [apply flat_len|].
  etransitivity; [|apply (concat_filter_len (fun t => chunkNo c (tIdx t) =? k))]. fold (chunkTags c k G).
  destruct (chunkTags c k G) as [|w [|w2 ws]]; [cbn; lia|cbn [concat]; rewrite app_nil_r; lia|apply firstOcc_len].
Qed.

Record Inv (F : list (list A)) (G : list (list (tag T))) (st : state A B S T) (k : nat) : Prop := {
  iPos : pos st = N.of_nat k * ics c;
  iOpos : opos st = N.of_nat k * ocs c;
  iFlen : length F = length (inP c);
  iGlen : length G = length (inP c);
  iRead : Forall (fun f => N.of_nat k * ics c <= nlen f) F;
  iQs : qs st = map (dropN (N.of_nat k * ics c)) F;
  iAsc : Forall ascending G;
  iTgs : tgs st = map (filter (fun t => N.of_nat k <=? chunkNo c (tIdx t))) G;
  iCnt : cnt st = 0;
  iEos : forall ts t, In ts G -> In t ts -> tEos t = true -> N.of_nat k * ics c <= tIdx t;
  iRef : exists ot, reference chunk c u s0 F G k = (us st, outs st, ot)
         /\ otags st = ot ++ (if stopped st then [eosAt (opos st)] else []);
  iStop : stopped st = true -> exists ts t, In ts G /\ In t ts /\ tEos t = true /\
      let d := tIdx t - pos st in
      (d = 0 \/ d < ics c \/ u64 (ocs c * (d / ics c)) < minReq (outP c)) }.

Lemma availOf_plain (F : list (list A)) i f :
  length F = length (inP c) -> nth_error F i = Some f -> availOf (inP c) (map nlen F) <= nlen f.
Proof.
  intros HL Hf. destruct (nth_error (inP c) i) as [p|] eqn:Ep.
  2:{ apply nth_error_None in Ep. assert (i < length F)%nat by (apply nth_error_Some; congruence). lia. }
  rewrite Forall_forall in Hplain. destruct (Hplain p (nth_error_In _ _ Ep)) as [H1 H2].
  pose proof (availOf_ge (inP c) (map nlen F) i p (nlen f) Ep (map_nth_error nlen i F Hf) H1) as H.
  unfold effAvail in H. rewrite H2 in H. cbn [negb] in H. rewrite andb_false_r in H. exact H.
Qed.

Lemma inv_feed F G st k i xs ts :
  Inv F G st k -> (i < length F)%nat -> Forall (fun t => nlen (nth i F []) <= tIdx t) ts ->
  ascending (nth i G [] ++ ts) ->
  Inv (addAt i xs F) (addAt i ts G) (step c u st (Feed i xs ts)) k.
Proof.
  intros HI Hi Hts Hasc. destruct HI. destruct Hch as ((Hc1 & _) & _ & _).
  assert (Hi' : N.of_nat k * ics c <= nlen (nth i F [])).
  { rewrite Forall_forall in iRead0. apply iRead0. apply nth_In. exact Hi. }
  constructor; cbn [step pos opos qs tgs cnt us outs otags stopped]; auto.
  - rewrite length_addAt; auto.
  - rewrite length_addAt; auto.
  - apply Forall_addAt; auto. intros q Hq. rewrite nlen_app. apply nth_error_In in Hq.
    rewrite Forall_forall in iRead0. specialize (iRead0 q Hq). lia.
  - rewrite iQs0. symmetry. apply map_addAt. intros q Hq. apply dropN_app. apply nth_error_In in Hq.
    rewrite Forall_forall in iRead0. exact (iRead0 q Hq).
  - apply Forall_addAt; auto. intros q Hq. rewrite (nth_error_nth' G i q [] Hq) in Hasc. exact Hasc.
  - rewrite iTgs0. symmetry. apply map_addAt. intros q _. rewrite filter_app. f_equal.
    apply filter_all. intros t Ht. rewrite Forall_forall in Hts. specialize (Hts t Ht).
    apply N.leb_le. apply chunkNo_ge; [exact Hc1|]. lia.
  - intros l t Hl Ht He. destruct (In_addAt i ts G l t Hl Ht) as [(q & Hq1 & Hq2)|Hin].
    + exact (iEos0 q t Hq1 Hq2 He).
    + rewrite Forall_forall in Hts. specialize (Hts t Hin). lia.
  - rewrite (reference_feed c u chunk s0 Hch F G i xs ts k); auto. lia.
  - intros Hs. destruct (iStop0 Hs) as (l & t & H1 & H2 & H3 & H4).
    destruct (In_addAt_old i ts G l t H1 H2) as (l' & H5 & H6). exists l', t. auto.
Qed.

Lemma takeN_outs (o : list (list B)) n : Forall (fun x => nlen x = n) o -> map (takeN n) o = o.
Proof. intros H. apply map_id_ext. intros x Hx. rewrite Forall_forall in H. apply takeN_all. rewrite (H x Hx). lia. Qed.

(** The limits one call of work computes. *)
Definition limitsOf (st : state A B S T) (req : N) (space : list N) : limits :=
  computeLimits c (cnt st) (availOf (inP c) (map nlen (qs st))) (availOf (outP c) space)
                (nextTagOf (pos st) (tgs st)) (nextEosOf (pos st) (tgs st)) req.

Lemma inv_work_full F G st k req space tr :
  Inv F G st k -> fewTags c G -> (length (concat G) <= tr)%nat ->
  exists k', Inv F G (step c u st (Work req space tr)) k'
    /\ (stopped st = false ->
        stopped (step c u st (Work req space tr)) = lEos (limitsOf st req space)
        /\ N.of_nat k' * ics c = pos st + (if lEos (limitsOf st req space) then 0 else lIn (limitsOf st req space))).
Proof.
  intros HI Hfew Htr. cbn [step]. unfold limitsOf, work.
  destruct (stopped st) eqn:Est. { exists k. cbn [fst]. split; [exact HI|intros; discriminate]. }
  pose proof HI as HI0. destruct HI.
  pose proof Hch as ((Hc1 & Hc1') & (Ho1 & Ho1') & _).
  set (avIn := availOf (inP c) (map nlen (qs st))). set (avOut := availOf (outP c) space).
  set (nt := nextTagOf (pos st) (tgs st)). set (ne := nextEosOf (pos st) (tgs st)).
  destruct (limits_plain c (cnt st) avIn avOut nt ne req Hstride) as [Hsk Hcn].
  pose proof (limits_legal c (cnt st) avIn avOut nt ne req Hch) as HL.
  pose proof (limits_eos c (cnt st) avIn avOut nt ne req Hstride) as HE.
  cbv zeta in HL, Hsk, Hcn. set (l := computeLimits c (cnt st) avIn avOut nt ne req) in *.
  rewrite Hsk, Hcn. rewrite Hsk in HL. cbn [N.ltb N.compare]. cbv zeta.
  assert (Eq1 : map (dropN 0) (qs st) = qs st) by (apply map_id_ext; reflexivity).
  assert (Et1 : map (consumeTagsOf c 0 0 (pos st)) (tgs st) = tgs st) by (apply map_id_ext; reflexivity).
  rewrite Eq1, Et1, N.add_0_r.
  assert (Hasc1 : Forall ascending (tgs st)).
  { rewrite iTgs0. apply Forall_forall. intros x Hx. apply in_map_iff in Hx as (y & <- & Hy). apply ascending_filter.
    rewrite Forall_forall in iAsc0. auto. }
  assert (Hin_tgs : forall ts t, In ts (tgs st) -> In t ts -> exists ts', In ts' G /\ In t ts').
  { intros ts t H1 H2. rewrite iTgs0 in H1. apply in_map_iff in H1 as (y & <- & Hy). apply filter_In in H2. exists y; tauto. }
  destruct (lEos l) eqn:Eeos; cbn [fst].
  { exists k. split; [|intros _; split; [reflexivity|lia]]. constructor; cbn [pos opos qs tgs cnt us outs otags stopped]; auto.
    - destruct iRef0 as (ot & H1 & H2). exists ot. split; [exact H1|]. rewrite H2, Est, app_nil_r. reflexivity.
    - intros _. clear Eeos. rename HE into Eeos.
      assert (Hlt : ne < umax).
      { destruct (N.lt_ge_cases ne umax) as [|Hge]; [auto|]. exfalso. pose proof (nextEosOf_max (pos st) (tgs st)) as Hmax. fold ne in Hmax.
        assert (E : ne = umax) by lia. rewrite E in Eeos. pose proof (no_false_eos c Hch) as Hno.
        assert (Hnf : u64 (ocs c * (umax / ics c)) < minReq (outP c)).
        { assert (Hu : umax = 2 ^ 64 - 1) by reflexivity. set (pr := u64 (ocs c * (umax / ics c))) in *. clearbody pr. clear E. lia. }
        lia. }
      destruct (nextEosOf_some _ _ Hlt) as (ts & t & H1 & H2 & H3 & H4 & H5).
      destruct (Hin_tgs ts t H1 H2) as (ts' & H6 & H7). exists ts', t. repeat split; auto. fold ne in H5. rewrite <- H5.
      lia. }
  destruct ((lIn l =? 0) && (lOut l =? 0)) eqn:Ez; cbn [fst].
  { exists k. split; [|intros _; split; [reflexivity|lia]]. constructor; cbn [pos opos qs tgs cnt us outs otags stopped]; auto.
    - destruct iRef0 as (ot & H1 & H2). exists ot. split; [exact H1|]. rewrite H2, Est, app_nil_r. reflexivity.
    - intros; discriminate. }
  destruct HL as ((m & Hm1 & Hm2) & _ & Hin & Hout & _ & _).
  assert (Hm0 : m <> 0) by (intros ->; lia).
  assert (Hl0 : lIn l <> 0) by nia.
  pose proof (toProcess_le c avIn (if isFwd (pol c) then umax else nt) ne 0) as Htp. rewrite !after_0 in Htp.
  (* the spans *)
  assert (Hspan : forall q, In q (qs st) -> lIn l <= nlen q).
  { intros q Hq. apply In_nth_error in Hq as (i & Hi).
    pose proof (availOf_plain (qs st) i q) as Ha. rewrite iQs0, map_length in Ha. rewrite <- iQs0 in Ha. specialize (Ha iFlen0 Hi).
    fold avIn in Ha. lia. }
  set (mm := N.to_nat m). assert (Emm : N.of_nat mm = m) by (unfold mm; lia).
  assert (Hwin : windowEnd c (pos st) (lIn l) = pos st + 1).
  { unfold windowEnd. rewrite Hpol. cbn [isBwd]. lia. }
  rewrite Hwin.
  assert (Hwins : map (takeTags (pos st + 1)) (tgs st) = chunkTags c (N.of_nat k) G).
  { rewrite iTgs0, map_map. unfold chunkTags. apply map_ext_in. intros y Hy. rewrite Forall_forall in iAsc0.
    rewrite takeTags_filter by (apply ascending_filter; auto). rewrite filter_filter'. apply filter_ext. intros t.
    pose proof (chunkNo_le c (tIdx t) (N.of_nat k) Hc1). rewrite iPos0. lia. }
  rewrite Hwins.
  set (s2 := applyTags u (us st) (chunkTags c (N.of_nat k) G)).
  rewrite (forwarded_eq s2 G (N.of_nat k) Hfew iGlen0).
  set (spans := map (takeN (lIn l)) (qs st)).
  assert (Hpr : proc u s2 spans (lOut l) = mkRes (fst (chunks chunk c mm s2 spans)) OK None None (snd (chunks chunk c mm s2 spans))).
  { rewrite Hm2, <- Emm. apply Hproc.
    - unfold spans. rewrite map_length, iQs0, map_length. exact iFlen0.
    - apply Forall_forall. intros x Hx. unfold spans in Hx. apply in_map_iff in Hx as (q & <- & Hq). rewrite nlen_takeN.
      specialize (Hspan q Hq). rewrite Emm, <- Hm1. lia. }
  rewrite Hpr. cbn [uCons uPub uStat uOut uS zeroed isDone]. 
  destruct (N.eqb_spec (lIn l) 0) as [|_]; [contradiction|].
  destruct (N.eqb_spec (lOut l) 0) as [E|_]; [nia|].
  assert (Hsc : strideConsume c (cnt st) (lIn l) = (0, cnt st)).
  { unfold strideConsume. rewrite Hstride. reflexivity. }
  rewrite Hsc. cbn [N.ltb N.compare]. cbn [fst].
  (* no tags between the chunks of this call *)
  assert (Hnt : nt >= m * ics c \/ m = 1).
  { destruct (N.eq_dec m 1); [auto|left]. rewrite Hm1 in Hin. unfold toProcess in Hin. rewrite Hpol in Hin. cbn [isFwd] in Hin.
    rewrite !after_0 in Hin. pose proof (nextTagOf_ge (pos st) (tgs st)) as Hg. fold nt in Hg.
    destruct (N.leb_spec (minReq (inP c)) nt); [|lia].
    destruct (N.leb_spec (ics c) nt); [lia|]. assert (m * ics c <= ics c) by lia. nia. }
  assert (Hgap : forall j w, (k < j < k + mm)%nat -> In w (chunkTags c (N.of_nat j) G) -> w = []).
  { intros j w Hj Hw. unfold chunkTags in Hw. apply in_map_iff in Hw as (y & <- & Hy). apply filter_none. intros t Ht.
    destruct (N.eqb_spec (chunkNo c (tIdx t)) (N.of_nat j)) as [E|]; [|reflexivity]. exfalso.
    pose proof (proj1 (chunkNo_le c (tIdx t) (N.of_nat j) Hc1) ltac:(lia)) as Hu.
    pose proof (proj1 (chunkNo_ge c (tIdx t) (N.of_nat j) Hc1) ltac:(lia)) as Hlo.
    assert (Hgt : pos st < tIdx t) by (rewrite iPos0; nia).
    assert (Hle : nt <= tIdx t - pos st).
    { apply nextTagOf_le with (ts := filter (fun t => N.of_nat k <=? chunkNo c (tIdx t)) y); auto.
      - rewrite iTgs0. apply in_map_iff. exists y; auto.
      - apply filter_In. split; [exact Ht|]. lia. }
    destruct Hnt as [Hnt|Hnt]; [|lia]. rewrite iPos0 in Hle, Hgt. nia. }
  exists (k + mm)%nat.
  destruct (chunks_shape c chunk Hshape mm s2 spans) as [Hs1 Hs2].
  split; [|intros _; split; [reflexivity|rewrite Hm1, iPos0; nia]].
  constructor; cbn [pos opos qs tgs cnt us outs otags stopped]; auto.
  - rewrite Hm1, iPos0. nia.
  - rewrite Hm2, iOpos0. nia.
  - rewrite Forall_forall in *. intros f Hf.
    assert (Hq : In (dropN (N.of_nat k * ics c) f) (qs st)) by (rewrite iQs0; apply in_map; exact Hf).
    specialize (Hspan _ Hq). rewrite nlen_dropN in Hspan. specialize (iRead0 f Hf). nia.
  - rewrite iQs0, map_map. apply map_ext. intros f. rewrite dropN_dropN. f_equal. nia.
  - rewrite iTgs0, map_map. apply map_ext_in. intros y Hy. unfold consumeTagsOf.
    destruct (N.eqb_spec (lIn l) 0) as [|_]; [contradiction|]. cbn [orb]. rewrite Hpol. cbn [isBwd].
    rewrite Forall_forall in iAsc0.
    rewrite dropTags_filter by (apply ascending_filter; auto). rewrite filter_filter'.
    apply filter_ext_in. intros t Ht.
    pose proof (chunkNo_le c (tIdx t) (N.of_nat k) Hc1) as H1.
    assert (H2 : chunkNo c (tIdx t) <= N.of_nat k \/ N.of_nat (k + mm) <= chunkNo c (tIdx t)).
    { destruct (N.le_gt_cases (chunkNo c (tIdx t)) (N.of_nat k)); [left; auto|right].
      destruct (N.le_gt_cases (N.of_nat (k + mm)) (chunkNo c (tIdx t))); [auto|]. exfalso.
      pose proof (Hgap (N.to_nat (chunkNo c (tIdx t))) (filter (fun t' => chunkNo c (tIdx t') =? N.of_nat (N.to_nat (chunkNo c (tIdx t)))) y) ltac:(lia)) as Hw.
      assert (Hn : filter (fun t' => chunkNo c (tIdx t') =? N.of_nat (N.to_nat (chunkNo c (tIdx t)))) y = []).
      { apply Hw. unfold chunkTags. apply in_map_iff. exists y; auto. }
      assert (Hin' : In t []) by (rewrite <- Hn; apply filter_In; split; [exact Ht|lia]). destruct Hin'. }
    rewrite iPos0. lia.
  - intros ts t H1 H2 H3.
    assert (Hne : ne <= tIdx t - pos st).
    { destruct (N.le_gt_cases (N.of_nat k) (chunkNo c (tIdx t))) as [Hk|Hk].
      - apply nextEosOf_le with (ts := filter (fun t => N.of_nat k <=? chunkNo c (tIdx t)) ts); auto.
        + rewrite iTgs0. apply in_map_iff. exists ts; auto.
        + apply filter_In. split; [exact H2|]. lia.
        + rewrite iPos0. exact (iEos0 ts t H1 H2 H3).
      - pose proof (iEos0 ts t H1 H2 H3). exfalso.
        assert (~ N.of_nat k * ics c < tIdx t + ics c) by (rewrite <- chunkNo_ge by exact Hc1; lia). lia. }
    pose proof (iEos0 ts t H1 H2 H3). rewrite iPos0 in Hne. nia.
  - destruct iRef0 as (ot & H1 & H2).
    pose proof (reference_steps c u chunk s0 Hshape F G k mm ltac:(lia) Hgap) as Hr.
    rewrite H1 in Hr. cbv zeta in Hr. fold (applyTags u (us st) (chunkTags c (N.of_nat k) G)) in Hr.
    unfold applied in Hr. unfold s2, applyTags in *.
    assert (Esp : spans = map (takeN (N.of_nat mm * ics c)) (map (dropN (N.of_nat k * ics c)) F)).
    { unfold spans. rewrite iQs0, Emm, <- Hm1. reflexivity. }
    rewrite <- Esp in Hr.
    match type of Hr with context[chunks chunk c mm ?a spans] => set (s2' := a) in * end.
    destruct (chunks chunk c mm s2' spans) as [s3 o3]. cbn [fst snd] in *.
    eexists. split; [|rewrite H2, Est, !app_nil_r; reflexivity].
    rewrite Hr. rewrite takeN_outs by (rewrite Hm2, <- Emm; exact Hs2).
    unfold room. rewrite firstn_all2. 2:{ pose proof (chunkForward_len s2' (N.of_nat k) G). lia. }
    rewrite iOpos0. reflexivity.
  - intros; discriminate.
Qed.

Lemma inv_work F G st k req space tr :
  Inv F G st k -> fewTags c G -> (length (concat G) <= tr)%nat ->
  exists k', Inv F G (step c u st (Work req space tr)) k'.
Proof. intros H1 H2 H3. destruct (inv_work_full F G st k req space tr H1 H2 H3) as (k' & H & _). eauto. Qed.
End Inv.

(* ------------------------------------------------------------------ whole runs *)

Definition feedQ {A T} (a : list (list A)) (e : event A T) := match e with Feed i xs _ => addAt i xs a | Work _ _ _ => a end.
Definition feedT {A T} (a : list (list (tag T))) (e : event A T) := match e with Feed i _ ts => addAt i ts a | Work _ _ _ => a end.

Lemma concat_addAt_len {X} i (xs : list X) l : (length (concat l) <= length (concat (addAt i xs l)))%nat.
Proof.
  revert i; induction l as [|q l IH]; intros [|i]; cbn [addAt concat]; rewrite ?app_length; try lia. specialize (IH i). lia.
Qed.

Lemma fewTags_feed {T} c i ts (G : list (list (tag T))) : fewTags c (addAt i ts G) -> fewTags c G.
Proof.
  intros [H|H]; [left; exact H|right]. intros k. specialize (H k). etransitivity; [|exact H]. unfold chunkTags.
  rewrite (map_addAt (filter (fun t => chunkNo c (tIdx t) =? k)) i ts G (filter (fun t => chunkNo c (tIdx t) =? k) ts)).
  - apply concat_addAt_len.
  - intros q _. apply filter_app.
Qed.

Lemma fewTags_feeds {A T} c (es : list (event A T)) G : fewTags c (fold_left feedT es G) -> fewTags c G.
Proof.
  revert G; induction es as [|e es IH]; intros G H; [exact H|]. cbn [fold_left] in H. specialize (IH _ H).
  destruct e; cbn [feedT] in IH; [eapply fewTags_feed; exact IH|exact IH].
Qed.

Lemma inv_run {A B S T} c (u : ublock A B S T) chunk s0 es F G st k nOut :
  chunked c -> chunkShape chunk c -> strideActive c = false -> pol c = PDefault -> Forall plain (inP c) ->
  minReq (inP c) <= 1 -> minReq (outP c) < 2 ^ 31 -> worksByChunk chunk c (proc u) ->
  Inv c u chunk s0 F G st k -> goodEvents nOut F G es -> fewTags c (fold_left feedT es G) ->
  exists k', Inv c u chunk s0 (fold_left feedQ es F) (fold_left feedT es G) (run c u st es) k'.
Proof.
  intros H1 H2 H3 H4 H5 H6 H7 H8. revert F G st k. induction es as [|e es IH]; intros F G st k HI HG Hf.
  - exists k. exact HI.
  - cbn [run fold_left]. destruct e as [i xs ts|req space tr]; cbn [goodEvents] in HG.
    + destruct HG as (Hi & Hts & Hasc & HG). cbn [feedQ feedT]. cbn [fold_left feedT] in Hf.
      apply IH with (k := k); auto. apply inv_feed; auto.
    + destruct HG as (_ & Htr & HG). cbn [feedQ feedT]. cbn [fold_left feedT] in Hf.
      destruct (inv_work c u chunk s0 H1 H2 H3 H4 H5 H6 H7 H8 F G st k req space tr HI (fewTags_feeds c es G Hf) Htr) as (k' & HI').
      apply IH with (k := k'); auto.
Qed.

Lemma inv_init {A B S T} c (u : ublock A B S T) chunk s0 :
  Inv c u chunk s0 (repeat [] (length (inP c))) (repeat [] (length (inP c))) (init c s0) 0.
Proof.
  assert (HE : forall X, map (fun _ => []) (inP c) = repeat (@nil X) (length (inP c))).
  { intros X. induction (inP c) as [|p l IH]; cbn [map repeat length]; [reflexivity|f_equal; exact IH]. }
  constructor; cbn [init pos opos qs tgs cnt us outs otags stopped]; rewrite ?N.mul_0_l; try reflexivity.
  - apply repeat_length.
  - apply repeat_length.
  - apply Forall_forall. intros x _. lia.
  - rewrite HE. symmetry. apply map_id_ext. reflexivity.
  - apply Forall_forall. intros x Hx. apply repeat_spec in Hx. subst. exact I.
  - rewrite HE. symmetry. apply map_id_ext. intros x Hx. apply repeat_spec in Hx. subst. reflexivity.
  - intros ts t H1 H2. apply repeat_spec in H1. subst. destruct H2.
  - exists []. split; reflexivity.
  - intros; discriminate.
Qed.
