From Coq Require Import Arith Lia Bool List Sorted.
From Verif Require Import WinModel WinSpec WinStrSpec WinStrProofs WinStrProofs2 WinStrProofs3.
From Verif Require WinProofs.
Import ListNotations.

Local Open Scope nat_scope.

Section E.
Context {A T F : Type}.
Context (mt : F -> option T -> F * verdict) (f0 : F) (single : bool) (SS EE : T -> bool) (idle open : F -> Prop).
Context (M : matcher mt f0 single SS EE idle open).

Lemma ft_find f ts (P : T -> bool) : (forall t, triggers (snd (mt f (Some t))) = P t) ->
  (exists t, firstTrigger mt [f] ts = Some t /\ P t = true /\ existsb P ts = true) \/
  (existsb P ts = false /\ match firstTrigger mt [f] ts with Some t => P t = false | None => True end).
Proof.
  intros H. unfold firstTrigger. rewrite (WinProofs.find_ext _ P) by (intros t; cbn [existsb]; rewrite H, orb_false_r; reflexivity).
  destruct (find P ts) as [t|] eqn:E.
  - left. exists t. apply find_some in E. destruct E as [E1 E2]. split; [reflexivity|]. split; [exact E2|]. apply existsb_exists. exists t. auto.
  - right. pose proof (find_none P ts E) as N. split.
    + destruct (existsb P ts) eqn:Q; [|reflexivity]. apply existsb_exists in Q. destruct Q as (t & Q1 & Q2). rewrite N in Q2 by exact Q1. discriminate.
    + destruct ts as [|t ts]; [exact I|]. cbn [hd_error]. apply N. left. reflexivity.
Qed.

Lemma trig_idle f t : idle f -> triggers (snd (mt f (Some t))) = SS t.
Proof.
  intros Hf. destruct (SS t) eqn:E.
  - destruct (m_idle _ _ _ _ _ _ _ M f t Hf E) as [-> _]. reflexivity.
  - destruct (m_idle_no _ _ _ _ _ _ _ M f t Hf E) as [-> _]. reflexivity.
Qed.
Lemma trig_open f t : open f -> triggers (snd (mt f (Some t))) = EE t.
Proof.
  intros Hf. destruct (EE t) eqn:E.
  - destruct (m_open _ _ _ _ _ _ _ M f t Hf E) as [-> _]. reflexivity.
  - destruct (m_open_no _ _ _ _ _ _ _ M f t Hf E) as [-> _]. reflexivity.
Qed.

Context (c : wcfg).

Definition fOk (st : sst A T F) (r : ref A T) : Prop := if opened r then open (sf st) else idle (sf st).
Definition Rel (st : sst A T F) (r : ref A T) : Prop := fOk st r /\ Rel0 c single st r.

Lemma update_silent a : update c silent a = a.
Proof. unfold update, silent. cbn [vStart vEnd vSingle]. rewrite !andb_false_r. reflexivity. Qed.

Lemma ev_ok ts (st : sst A T F) r : Rel st r ->
  let '(f, v) := mt (sf st) (firstTrigger mt [sf st] ts) in
  Rel (mkSst f (update c v (sa st)) (shist st) (shtags st) (smerged st)) (ev c single SS EE ts r).
Proof.
  unfold Rel, Rel0. intros (Hf & Ha & Hh & G). pose proof (ev_good c single SS EE ts r G) as GE. unfold fOk in Hf. destruct (opened r) eqn:Eo.
  - (* waiting for the stop *)
    assert (Es : single = false). { destruct single; [|reflexivity]. destruct G as (G1 & _). rewrite (G1 eq_refl) in Eo. discriminate. }
    destruct (ft_find (sf st) ts EE (fun t => trig_open _ t Hf)) as [(t & E1 & E2 & E3)|(E1 & E2)].
    + rewrite E1. destruct (m_open _ _ _ _ _ _ _ M _ t Hf E2) as [V I]. destruct (mt (sf st) (Some t)) as [f v]. cbn [fst snd] in V, I. subst v.
      unfold ev in *. rewrite Es in GE |- *. rewrite Eo, E3 in *. unfold update. cbn [vStart vEnd vSingle]. rewrite andb_false_r, andb_true_r.
      split; [exact I|]. split; [|split; [|exact GE]].
      * cbn [sa]. unfold accRel in *. cbn [md due]. destruct (md r).
        -- destruct Ha as [Q1 Q2]. rewrite Q1. cbn [andb]. auto.
        -- destruct Ha as (Q1 & Q2 & Q3). rewrite Q1, Q2. cbn. auto.
        -- destruct Ha as (Q1 & Q2 & Q3 & Q4). rewrite Q1, Q2. cbn. auto.
      * exact (HR_acc _ _ _ _ _ _ Hh).
    + assert (V : snd (mt (sf st) (firstTrigger mt [sf st] ts)) = silent /\ open (fst (mt (sf st) (firstTrigger mt [sf st] ts)))).
      { destruct (firstTrigger mt [sf st] ts) as [t|]; [apply (m_open_no _ _ _ _ _ _ _ M); assumption|apply (m_open_none _ _ _ _ _ _ _ M); assumption]. }
      destruct V as [V I]. destruct (mt (sf st) (firstTrigger mt [sf st] ts)) as [f v]. cbn [fst snd] in V, I. subst v. rewrite update_silent.
      assert (EV : ev c single SS EE ts r = r) by (unfold ev; rewrite Es, Eo, E1; reflexivity). rewrite EV. split; [unfold fOk; rewrite Eo; exact I|]. split; [exact Ha|split; [exact (HR_acc _ _ _ _ _ _ Hh)|exact G]].
  - destruct (ft_find (sf st) ts SS (fun t => trig_idle _ t Hf)) as [(t & E1 & E2 & E3)|(E1 & E2)].
    + rewrite E1. destruct (m_idle _ _ _ _ _ _ _ M _ t Hf E2) as [V I]. destruct (mt (sf st) (Some t)) as [f v]. cbn [fst snd] in V, I. subst v.
      unfold ev in *. rewrite Eo, E3 in *. unfold update. cbn [vStart vEnd vSingle]. rewrite andb_true_r, !andb_false_r.
      unfold accRel in Ha. destruct single eqn:Es.
      * destruct (md r) eqn:Em.
        -- destruct Ha as [Q1 Q2]. rewrite Q1, Q2. cbn [negb orb]. split; [unfold fOk; cbn [opened]; exact I|]. split; [|split; [exact (HR_acc _ _ _ _ _ _ Hh)|exact GE]].
           unfold accRel. cbn [md due sa act postA rem preA andb]. auto.
        -- destruct Ha as (Q1 & Q2 & Q3). rewrite Q1. cbn [negb]. split; [unfold fOk; rewrite Eo; exact I|]. split; [unfold accRel; rewrite Em; auto|split; [exact (HR_acc _ _ _ _ _ _ Hh)|exact GE]].
        -- destruct Ha as (Q1 & Q2 & Q3 & Q4). rewrite Q1. cbn [negb]. split; [unfold fOk; rewrite Eo; exact I|]. split; [unfold accRel; rewrite Em; auto|split; [exact (HR_acc _ _ _ _ _ _ Hh)|exact GE]].
      * destruct (md r) eqn:Em.
        -- destruct Ha as [Q1 Q2]. rewrite Q1, Q2. cbn [negb orb]. split; [exact I|]. split; [|split; [exact (HR_acc _ _ _ _ _ _ Hh)|exact GE]].
           unfold accRel. cbn [md due sa act postA rem preA andb]. auto.
        -- destruct Ha as (Q1 & Q2 & Q3). rewrite Q1. cbn [negb]. split; [exact I|]. split; [unfold accRel; cbn [md due]; auto|split; [exact (HR_acc _ _ _ _ _ _ Hh)|exact GE]].
        -- destruct Ha as (Q1 & Q2 & Q3 & Q4). rewrite Q1. cbn [negb]. split; [exact I|]. split; [unfold accRel; cbn [md due]; auto|split; [exact (HR_acc _ _ _ _ _ _ Hh)|exact GE]].
    + assert (V : snd (mt (sf st) (firstTrigger mt [sf st] ts)) = silent /\ idle (fst (mt (sf st) (firstTrigger mt [sf st] ts)))).
      { destruct (firstTrigger mt [sf st] ts) as [t|]; [apply (m_idle_no _ _ _ _ _ _ _ M); assumption|apply (m_idle_none _ _ _ _ _ _ _ M); assumption]. }
      destruct V as [V I]. destruct (mt (sf st) (firstTrigger mt [sf st] ts)) as [f v]. cbn [fst snd] in V, I. subst v. rewrite update_silent.
      assert (EV : ev c single SS EE ts r = r) by (unfold ev; rewrite Eo, E1; destruct single; reflexivity). rewrite EV.
      split; [unfold fOk; rewrite Eo; exact I|]. split; [exact Ha|split; [exact (HR_acc _ _ _ _ _ _ Hh)|exact G]].
Qed.

(* ---------- one call ---------- *)

Context (CF : single = true -> 0 < nPost c \/ nPre c = 0).

Lemma ev_post0 (ts : list T) (r : ref A T) : Good c single r -> md r <> Post 0 -> md (ev c single SS EE ts r) = Post 0 ->
  ts <> [] /\ (nPre c = 0 \/ due (ev c single SS EE ts r) = false \/ (single = false /\ due r = true)).
Proof.
  intros G Hm H. split; [intros ->; rewrite ev_nil in H; contradiction|]. unfold ev in *. destruct single eqn:Es.
  - destruct (existsb SS ts); [|contradiction]. destruct (md r) eqn:Em; try congruence. cbn [md] in H. injection H as H. destruct CF as [Q|Q]; [reflexivity|lia|auto].
  - destruct (opened r).
    + destruct (existsb EE ts); [|contradiction]. cbn [md due] in *. destruct (due r); auto.
    + destruct (existsb SS ts); [|contradiction]. destruct (md r); cbn [md] in H; congruence.
Qed.

Lemma scall_ok ts smp room (st : sst A T F) r :
  Rel st r -> md r <> Post 0 -> (smp = [] -> ts = []) -> (due r = true -> existsb SS ts = true -> existsb EE ts = false) -> (due r = true -> ts <> [] -> existsb SS ts = true) ->
  let '(st', o) := scall mt c ts smp room st in
  exists r', Rel st' r' /\ md r' <> Post 0 /\
    rout r' = rout r ++ sOut o /\
    rtags r' = rtags r ++ map (fun e => (length (rout r) + fst e, snd e)) (sTags o) /\
    ((sCons o = 0 /\ (r' = ev c single SS EE ts r \/ r' = flush c (ev c single SS EE ts r))) \/
     (0 < sCons o <= length smp /\ r' = takes (firstn (sCons o) (spanOf ts smp)) (flush c (ev c single SS EE ts r)))) /\
    (smp <> [] -> nPre c < room -> 0 < sCons o) /\ (nPre c + length smp <= room -> sCons o = length smp).
Proof.
  intros HR0 Hm Hts Hd1 Hd2. rewrite scall_cont. pose proof (ev_ok ts st r HR0) as HE. destruct (mt (sf st) (firstTrigger mt [sf st] ts)) as [f v].
  destruct HE as [HEf HE]. set (st1 := mkSst f (update c v (sa st)) (shist st) (shtags st) (smerged st)) in *.
  assert (G : Good c single r) by apply HR0.
  assert (HP : md (ev c single SS EE ts r) = Post 0 -> smp <> [] /\ (nPre c = 0 \/ due (ev c single SS EE ts r) = false)).
  { intros H. destruct (ev_post0 ts r G Hm H) as [Q1 Q2]. split; [intros E; apply Q1, Hts, E|]. destruct Q2 as [Q2|[Q2|[Q2 Q3]]]; auto. exfalso.
    specialize (Hd1 Q3 (Hd2 Q3 Q1)). specialize (Hd2 Q3 Q1). unfold ev in H. rewrite Q2, Hd1, Hd2 in H. destruct (opened r); [contradiction|]. destruct (md r); cbn [md] in H; congruence. }
  pose proof (scont_ok c single ts smp room st1 (ev c single SS EE ts r) HE Hts HP) as HS.
  destruct (scont c ts smp room st1) as [st' o]. destruct HS as (S1 & r' & S2 & S3 & S4 & S5 & S6 & S7 & S8 & S9).
  assert (Eo : rout (ev c single SS EE ts r) = rout r /\ rtags (ev c single SS EE ts r) = rtags r).
  { unfold ev. destruct single; [destruct (existsb SS ts); [destruct (md r)|]|destruct (opened r); [destruct (existsb EE ts)|destruct (existsb SS ts); [destruct (md r)|]]]; split; reflexivity. }
  destruct Eo as [Eo1 Eo2]. rewrite Eo1, Eo2 in *.
  exists r'. split; [|auto 10]. split; [|exact S2]. unfold fOk in *. rewrite S4, S1. exact HEf.
Qed.

(* ---------- any number of calls ---------- *)

Notation RR zs := (rrun c single SS EE zs).

Lemma take_due z (r : ref A T) : due (take z r) = due r.
Proof. unfold take. destruct (md r) as [| |[|[|k]]]; reflexivity. Qed.

Lemma rrun_due (zs : stream A T) : due (RR zs) = false.
Proof.
  unfold rrun. destruct (rev zs) as [|z q] eqn:E.
  - apply (f_equal (@rev _)) in E. rewrite rev_involutive in E. rewrite E. reflexivity.
  - apply (f_equal (@rev _)) in E. rewrite rev_involutive in E. rewrite E. cbn [rev]. rewrite fold_left_app. cbn [fold_left]. unfold rstep. rewrite take_due. apply flush_due.
Qed.

Lemma rrun_bare xs : forall r : ref A T, due r = false -> fold_left (rstep c single SS EE) (bare xs) r = takes (bare xs) r.
Proof.
  induction xs as [|x xs IH]; intros r H; [reflexivity|]. cbn [bare map fold_left takes]. fold (@bare A T xs). rewrite IH.
  - unfold rstep. cbn [snd]. rewrite ev_nil, (flush_not c r H). reflexivity.
  - unfold rstep. cbn [snd]. rewrite ev_nil, (flush_not c r H). rewrite take_due. exact H.
Qed.

Lemma rrun_span ts smp (r : ref A T) : smp <> [] -> fold_left (rstep c single SS EE) (spanOf ts smp) r = takes (spanOf ts smp) (flush c (ev c single SS EE ts r)).
Proof.
  intros H. destruct smp as [|x smp]; [congruence|]. rewrite span_cons. cbn [fold_left takes]. fold (takes (bare smp) (take (x, ts) (flush c (ev c single SS EE ts r)))).
  rewrite rrun_bare; [reflexivity|]. unfold rstep. rewrite take_due. apply flush_due.
Qed.

(* The machine is in step, or the event of the next sample, and possibly the
   samples in front of it, are through. *)
Definition ahead (zs : stream A T) (r0 r' : ref A T) : Prop :=
  r' = r0 \/ exists z zs', zs = z :: zs' /\ (r' = ev c single SS EE (snd z) r0 \/ r' = flush c (ev c single SS EE (snd z) r0)).

Definition PInv (x : strace A T F) (zs : stream A T) : Prop :=
  exists r', Rel (stSt x) r' /\ md r' <> Post 0 /\ stOut x = rout r' /\ stTags x = rtags r' /\ ahead zs (RR (stIn x)) r'.

Lemma offer_spec n room (zs : stream A T) : let k := offer n room zs in
  (cSmp k = [] -> cTags k = []) /\ (exists rest, zs = spanOf (cTags k) (cSmp k) ++ rest) /\ cRoom k = room /\
  (0 < n -> zs <> [] -> cSmp k <> []) /\ (cSmp k <> [] -> exists x r, zs = (x, cTags k) :: r).
Proof.
  unfold offer. destruct zs as [|[x ts] zs].
  - cbn. repeat split; auto; try congruence. exists []. reflexivity.
  - destruct n as [|n].
    + cbn. repeat split; auto; try congruence; try lia. eexists. reflexivity.
    + cbn [cTags cSmp cRoom firstn]. split; [discriminate|]. split; [|split; [reflexivity|split; [discriminate|]]].
      * rewrite span_cons. assert (G : forall (l : stream A T) m, exists rest, l = bare (firstn m (untagged l)) ++ rest).
        { induction l as [|[y us] l IH]; intros m; [exists []; destruct m; reflexivity|]. destruct m; [exists ((y, us) :: l); reflexivity|]. cbn [untagged]. destruct us; [|exists ((y, t :: us) :: l); reflexivity].
          destruct (IH m) as [rest Hr]. exists rest. cbn [firstn bare map app]. f_equal. exact Hr. }
        destruct (G zs n) as [rest Hr]. exists rest. cbn [app]. f_equal. exact Hr.
      * intros _. eexists. eexists. reflexivity.
Qed.

Lemma step_ok x zs n room : PInv x zs -> Forall (oneSided SS EE) zs ->
  let k := offer n room zs in let x' := sstep mt c x k in
  exists m, m <= length (cSmp k) /\ stIn x' = stIn x ++ firstn m zs /\ PInv x' (skipn m zs) /\ m <= length zs /\
    (0 < n -> zs <> [] -> nPre c < room -> 0 < m) /\ (nPre c + length (cSmp k) <= room -> m = length (cSmp k)).
Proof.
  intros (r & HRl & Hm & Ho & Ht & Hah) Hone k x'. destruct (offer_spec n room zs) as (F1 & (rest & F2) & F3 & F4 & F5). fold k in F1, F2, F3, F4, F5.
  set (r0 := RR (stIn x)) in *. pose proof (rrun_due (stIn x)) as D0. fold r0 in D0.
  assert (Hd : due r = true -> cTags k <> [] -> existsb SS (cTags k) = true /\ existsb EE (cTags k) = false).
  { intros Hdue Hne. destruct Hah as [-> | (z & zs' & Ez & Hz)]; [congruence|].
    assert (Hsm : cSmp k <> []) by (intros E; apply Hne, F1, E). destruct (F5 Hsm) as (a & q & Eq). rewrite Eq in Ez. injection Ez as <- <-. cbn [snd] in Hz.
    rewrite Eq in Hone. apply Forall_cons_iff in Hone. destruct Hone as [Hone _]. unfold oneSided in Hone. cbn [snd] in Hone.
    assert (Hs : existsb SS (cTags k) = true).
    { destruct Hz as [-> | ->]; [|rewrite flush_due in Hdue; discriminate]. unfold ev in Hdue. destruct single.
      - destruct (existsb SS (cTags k)); [reflexivity|congruence].
      - destruct (opened r0); [destruct (existsb EE (cTags k)); cbn [due] in Hdue; congruence|]. destruct (existsb SS (cTags k)); [reflexivity|congruence]. }
    split; [exact Hs|apply Hone, Hs]. }
  assert (H1 : due r = true -> existsb SS (cTags k) = true -> existsb EE (cTags k) = false).
  { intros Q1 Q2. apply (Hd Q1). intros E. rewrite E in Q2. discriminate. }
  assert (H2 : due r = true -> cTags k <> [] -> existsb SS (cTags k) = true) by (intros; apply Hd; assumption).
  pose proof (scall_ok (cTags k) (cSmp k) (cRoom k) (stSt x) r HRl Hm F1 H1 H2) as HS.
  unfold x', sstep in *. destruct (scall mt c (cTags k) (cSmp k) (cRoom k) (stSt x)) as [st' o]. destruct HS as (r' & S1 & S2 & S3 & S4 & S5 & S6 & S7).
  cbn [stIn stOut stTags stSt].
  assert (Hln : sCons o <= length (cSmp k)) by (destruct S5 as [[-> _]|[? _]]; lia).
  assert (Hfn : firstn (sCons o) (spanOf (cTags k) (cSmp k)) = firstn (sCons o) zs).
  { rewrite F2. rewrite firstn_app. rewrite WinProofs.spanOf_length. replace (sCons o - length (cSmp k)) with 0 by lia. cbn [firstn]. rewrite app_nil_r. reflexivity. }
  exists (sCons o). split; [exact Hln|]. split; [f_equal; exact Hfn|]. split; [|split].
  - exists r'. cbn [stSt stOut stTags stIn]. split; [exact S1|]. split; [exact S2|]. rewrite Ho, Ht, S3, S4. split; [reflexivity|]. split; [reflexivity|].
    assert (Hflush : cSmp k <> [] -> flush c (ev c single SS EE (cTags k) r) = flush c (ev c single SS EE (cTags k) r0) /\
              (ev c single SS EE (cTags k) r = ev c single SS EE (cTags k) r0 \/ ev c single SS EE (cTags k) r = flush c (ev c single SS EE (cTags k) r0))).
    { intros Hsm. destruct Hah as [-> | (z & zs' & Ez & Hz)]; [auto|]. destruct (F5 Hsm) as (a & q & Eq). rewrite Eq in Ez. injection Ez as <- <-. cbn [snd] in Hz.
      rewrite Eq in Hone. apply Forall_cons_iff in Hone. destruct Hone as [Hone _]. unfold oneSided in Hone. cbn [snd] in Hone.
      destruct Hz as [-> | ->]; [rewrite ev_ev by exact Hone; auto|rewrite ev_flush_ev by exact Hone; rewrite flush_flush; auto]. }
    destruct S5 as [[S5 S5']|[S5 S5']].
    + rewrite S5. cbn [firstn skipn]. rewrite app_nil_r. destruct (cSmp k) as [|a q] eqn:Esm.
      * rewrite (F1 eq_refl), ev_nil in S5'. destruct S5' as [-> | ->]; [exact Hah|]. destruct Hah as [-> | (z & zs' & Ez & Hz)]; [left; apply flush_not; exact D0|].
        right. exists z, zs'. split; [exact Ez|]. right. destruct Hz as [-> | ->]; [reflexivity|apply flush_flush].
      * destruct (Hflush ltac:(discriminate)) as [L1 L2]. destruct (F5 ltac:(discriminate)) as (b & q' & Eq). right. exists (b, cTags k), q'. split; [exact Eq|]. cbn [snd].
        destruct S5' as [-> | ->]; [exact L2|right; exact L1].
    + assert (Hsm : cSmp k <> []) by (intros E; rewrite E in S5; cbn in S5; lia). destruct (Hflush Hsm) as [L1 _]. left. fold r0. unfold rrun. rewrite fold_left_app. fold (RR (stIn x)). fold r0.
      rewrite S5', L1. rewrite WinProofs.spanOf_firstn by lia. rewrite rrun_span; [reflexivity|]. destruct (cSmp k), (sCons o); cbn in *; try lia; try congruence.
  - rewrite F2, app_length, WinProofs.spanOf_length. lia.
  - rewrite F3 in *. split; [|exact S7]. intros Q1 Q2. apply S6. apply F4; assumption.
Qed.

Lemma play_ok : forall ps x zs, PInv x zs -> Forall (oneSided SS EE) zs ->
  let '(x', zs') := play mt c ps x zs in
  PInv x' zs' /\ exists ys, zs = ys ++ zs' /\ stIn x' = stIn x ++ ys.
Proof.
  induction ps as [|[n room] ps IH]; intros x zs H Hone; cbn [play].
  - split; [exact H|]. exists []. rewrite app_nil_r. auto.
  - destruct (step_ok x zs n room H Hone) as (m & M1 & M2 & M3 & M4 & _). set (x' := sstep mt c x (offer n room zs)) in *.
    assert (E : length (stIn x') - length (stIn x) = m) by (rewrite M2, app_length, firstn_length; lia). rewrite E.
    assert (Hone' : Forall (oneSided SS EE) (skipn m zs)). { rewrite <- (firstn_skipn m zs) in Hone. apply Forall_app in Hone. apply Hone. }
    specialize (IH x' (skipn m zs) M3 Hone'). destruct (play mt c ps x' (skipn m zs)) as [x2 z2]. destruct IH as (I1 & ys & I2 & I3). split; [exact I1|].
    exists (firstn m zs ++ ys). rewrite <- app_assoc, <- I2, firstn_skipn. split; [reflexivity|]. rewrite I3, M2, app_assoc. reflexivity.
Qed.

Lemma init_ok zs : PInv (str0 f0) zs.
Proof.
  exists ref0. split; [|split; [discriminate|split; [reflexivity|split; [reflexivity|left; reflexivity]]]].
  split; [exact (m_f0 _ _ _ _ _ _ _ M)|]. split; [split; reflexivity|]. split.
  - constructor; try reflexivity; try constructor. cbn. unfold hist. destruct (0 <? nPre c); [rewrite firstn_nil|]; reflexivity.
  - split; [reflexivity|]. split; [reflexivity|]. intros H. contradiction H. reflexivity.
Qed.

End E.
