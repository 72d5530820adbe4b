From Coq Require Import Arith ZArith List Bool Lia ZifyBool ZifyNat.
From Verif Require Import WinModel WinSpec WinProofs.
Import ListNotations.

Local Open Scope nat_scope.

Section P2a.

Context {A T : Type}.

Implicit Type xs : stream A T.

(* ---- history ---- *)

Lemma firstn_app_firstn {X} n (a b : list X) : firstn n (a ++ firstn n b) = firstn n (a ++ b).
Proof. rewrite !firstn_app, firstn_firstn. f_equal. f_equal. lia. Qed.

Lemma okHist_step c xs h ts smp : okHist c xs h -> okHist c (xs ++ spanOf ts smp) (pushHist c smp h).
Proof.
  unfold okHist, pushHist. intros ->. destruct (0 <? nPre c); [|reflexivity].
  rewrite firstn_app_firstn, map_app, spanOf_fst, rev_app_distr. reflexivity.
Qed.

Lemma aged_app (a b : stream A T) : aged (a ++ b) = map (fun e => (fst e + length b, snd e)) (aged a) ++ aged b.
Proof.
  induction a as [|[x ts] a IH]; [reflexivity|]. cbn [app aged]. rewrite IH, map_app, <- app_assoc, map_map. f_equal.
  apply map_ext. intros t. cbn [fst snd length]. rewrite app_length. reflexivity.
Qed.
Lemma aged_bare (l : list A) : aged (map (fun y => (y, @nil T)) l) = [].
Proof. induction l as [|x l IH]; [reflexivity|]. cbn [map aged app]. exact IH. Qed.
Lemma aged_span ts (smp : list A) : smp <> [] -> aged (spanOf ts smp) = map (pair (length smp)) (ts : list T).
Proof.
  destruct smp as [|x smp]; [congruence|]. intros _. cbn [spanOf aged]. rewrite aged_bare, app_nil_r. cbn [length]. rewrite map_length. reflexivity.
Qed.
Lemma lastn_all {X} n (l : list X) : length l <= n -> lastn n l = l.
Proof. intros H. unfold lastn. replace (length l - n) with 0 by lia. reflexivity. Qed.
Lemma aged_filter n (l : stream A T) : filter (fun e => fst e <=? n) (aged l) = aged (lastn n l).
Proof.
  induction l as [|[x ts] l IH]; [reflexivity|]. destruct (Nat.le_gt_cases (length ((x, ts) :: l)) n) as [H|H].
  - rewrite lastn_all by exact H. apply filter_all. eapply Forall_impl; [|apply aged_range]. cbn beta. intros e He. lia.
  - cbn [aged]. rewrite filter_app. replace (filter _ (map _ ts)) with (@nil (nat * T)).
    + cbn [app]. rewrite IH. unfold lastn. cbn [length] in H |- *. replace (S (length l) - n) with (S (length l - n)) by lia. reflexivity.
    + symmetry. cbn [length] in H |- *. clear IH. induction ts as [|t ts IHt]; [reflexivity|]. cbn [map filter fst]. destruct (_ <=? n) eqn:E; [lia|exact IHt].
Qed.
Lemma skipn_skipn {X} a b (l : list X) : skipn a (skipn b l) = skipn (a + b) l.
Proof. revert l. induction b as [|b IH]; intros l; [rewrite Nat.add_0_r; reflexivity|]. rewrite Nat.add_succ_r. destruct l; [rewrite !skipn_nil; reflexivity|]. cbn [skipn]. apply IH. Qed.
Lemma lastn_app {X} n (a b : list X) : lastn n (lastn n a ++ b) = lastn n (a ++ b).
Proof.
  unfold lastn. rewrite !app_length, skipn_length. rewrite !skipn_app, !skipn_length.
  rewrite skipn_skipn. f_equal; f_equal; lia.
Qed.
Lemma okTags_step c xs h ts smp : smp <> [] -> okTags c xs h ->
  okTags c (xs ++ spanOf ts smp) (filter (fun e => fst e <=? nPre c) (age c (length smp) ts h)).
Proof.
  intros Hs. unfold okTags. intros ->. unfold age. destruct (0 <? nPre c) eqn:En.
  - rewrite <- lastn_app, <- (aged_filter _ (lastn (nPre c) xs ++ spanOf ts smp)). f_equal. rewrite aged_app, aged_span, spanOf_length by exact Hs. rewrite map_app, map_map. reflexivity.
  - replace (nPre c) with 0 by lia. unfold lastn. rewrite !Nat.sub_0_r, !skipn_all. reflexivity.
Qed.

End P2a.

Section P2b.

Context {A T : Type} (single : bool) (SS EE : T -> bool).

Implicit Type xs : stream A T.
Notation rng := (ranges (A:=A) (T:=T) single SS EE).

(* ---- ranges ---- *)

Lemma rangesFrom_app xs ys i rs :
  rangesFrom single SS EE i rs (xs ++ ys) = rangesFrom single SS EE (length xs + i) (rangesFrom single SS EE i rs xs) ys.
Proof.
  revert i rs. induction xs as [|[x ts] xs IH]; intros i rs; [reflexivity|]. cbn [app rangesFrom length]. rewrite IH. f_equal. lia.
Qed.
Lemma rangesFrom_bare (l : list A) i rs : rangesFrom single SS EE i rs (map (fun y => (y, @nil T)) l) = rs.
Proof. revert i. induction l as [|x l IH]; intros i; [reflexivity|]. cbn [map rangesFrom event find]. apply IH. Qed.
Lemma ranges_span xs ts smp : smp <> [] -> rng (xs ++ spanOf ts smp) = event single SS EE (length xs) ts (rng xs).
Proof.
  intros Hs. unfold ranges. rewrite rangesFrom_app. destruct smp as [|x smp]; [congruence|]. cbn [spanOf rangesFrom]. rewrite rangesFrom_bare. f_equal. lia.
Qed.

Lemma event_closed i ts pubs rs : Forall (fun r => isOpen r = false) pubs ->
  event single SS EE i ts (pubs ++ rs) = pubs ++ event single SS EE i ts rs.
Proof.
  intros H. unfold event. assert (He : existsb isOpen (pubs ++ rs) = existsb isOpen rs).
  { rewrite existsb_app. replace (existsb isOpen pubs) with false; [reflexivity|]. symmetry. induction H as [|r l H _ IH]; [reflexivity|]. cbn [existsb]. rewrite H, IH. reflexivity. }
  rewrite He. destruct (find _ ts) as [t|]; [|reflexivity]. destruct (SS t); [rewrite app_assoc; reflexivity|].
  induction H as [|[b [e|]] l H _ IH]; [reflexivity| |discriminate]. cbn [app close]. f_equal. apply IH.
  cbn [app existsb] in He. exact He.
Qed.

Lemma done_closed c n r : done c n r -> isOpen r = false.
Proof. unfold done, isOpen. destruct (snd r); [reflexivity|contradiction]. Qed.

End P2b.

(* ---- publishing ---- *)

Lemma publish_ok {A T F} room (sl : list (slot A T F)) : exists k, k <= room /\ k <= length sl /\
  publish room sl = (map sds (firstn k sl), skipn k sl) /\ Forall (fun s => act (sacc s) = false) (firstn k sl) /\
  (k = room \/ match skipn k sl with [] => True | s :: _ => act (sacc s) = true end).
Proof.
  revert room. induction sl as [|s sl IH]; intros room.
  - exists 0. destruct room; cbn; repeat split; auto; lia.
  - destruct room as [|n].
    + exists 0. cbn. repeat split; auto; lia.
    + cbn [publish]. destruct (act (sacc s)) eqn:Ea.
      * exists 0. cbn. repeat split; auto; lia.
      * destruct (IH n) as (k & K1 & K2 & K3 & K4 & K5). exists (S k). cbn [firstn skipn map length]. rewrite K3.
        split; [lia|]. split; [lia|]. split; [reflexivity|]. split; [constructor; assumption|]. destruct K5 as [K5|K5]; [left; lia|right; exact K5].
Qed.

Lemma Forall2_firstn {X Y} (P : X -> Y -> Prop) k a b : Forall2 P a b -> Forall2 P (firstn k a) (firstn k b).
Proof. intros H. revert k. induction H; intros [|k]; constructor; auto. Qed.
Lemma Forall2_skipn {X Y} (P : X -> Y -> Prop) k a b : Forall2 P a b -> Forall2 P (skipn k a) (skipn k b).
Proof. intros H. revert k. induction H as [|x y a b H1 H2 IH]; intros [|k]; cbn [skipn]; auto. Qed.

Section P2.

Context {A T F : Type}.
Context (mt : F -> option T -> F * verdict) (f0 : F) (single : bool) (SS EE : T -> bool) (idle open : F -> Prop).
Notation R := (R (A:=A) (T:=T) (F:=F) idle open).
Notation U := (U (A:=A) (T:=T) (F:=F) idle open).
Notation rng := (ranges (A:=A) (T:=T) single SS EE).

(* ---- the run ---- *)

Context (M : matcher mt f0 single SS EE idle open).
Context (disj : forall t, SS t = true -> EE t = false).

Definition Inv (c : wcfg) (x : dtrace A T F) (pubs rs : list range) : Prop :=
  rng (trIn x) = pubs ++ rs /\
  Forall (fun r => fst r <= length (trIn x) /\ done c (length (trIn x)) r) pubs /\
  trOut x = map (dataSet c (trIn x)) pubs /\
  Forall2 (R c (trIn x)) rs (slots (trSt x)) /\
  okHist c (trIn x) (dhist (trSt x)) /\ okTags c (trIn x) (dhtags (trSt x)) /\
  trTags x ++ dmerged (trSt x) = allTags (trIn x).

Lemma Inv0 c : Inv c dtr0 [] [].
Proof.
  red. cbn [dtr0 trIn trOut trSt trTags dst0 slots dhist dhtags dmerged]. split; [reflexivity|]. split; [constructor|]. split; [reflexivity|]. split; [constructor|].
  unfold okHist, okTags. split; [destruct (0 <? nPre c); reflexivity|]. split; reflexivity.
Qed.

Definition blocked (room : nat) (st : dst A T F) : bool :=
  match slots st with s :: _ => negb (act (sacc s)) && (room =? 0) | [] => false end.

Lemma dstep_blocked c x k : blocked (cRoom k) (trSt x) = true -> dstep mt f0 c x k = x.
Proof.
  intros H. unfold dstep, dcall. unfold blocked in H. rewrite H. cbn [dOut dTag dCons firstn]. rewrite !app_nil_r. destruct x; reflexivity.
Qed.

Lemma dstep_ok c x k pubs rs : dcfgOk c = true -> cSmp k <> [] -> Inv c x pubs rs -> blocked (cRoom k) (trSt x) = false ->
  let y := dstep mt f0 c x k in
  trIn y = trIn x ++ spanOf (cTags k) (cSmp k) /\
  exists new rs', Inv c y (pubs ++ new) rs' /\ length new <= cRoom k /\
    (length new = cRoom k \/ match rs' with [] => True | r :: _ => notDue c (length (trIn x)) (length (trIn x) + length (cSmp k)) r end).
Proof.
  intros Hc Hsmp (I1 & I2 & I3 & I4 & I5 & I6 & I7) Hb y.
  destruct k as [ts smp room]. cbn [cTags cSmp cRoom] in *. set (xs := trIn x) in *.
  assert (Hlen : 0 < length smp) by (destruct smp; [congruence|cbn [length]; lia]).
  set (st := trSt x) in *.
  set (t := firstTrigger mt (tried f0 st) ts).
  set (sl := stopFirst mt c t (slots st ++ openNew mt f0 c t)).
  set (rs1 := event single SS EE (length xs) ts rs).
  assert (HU : Forall2 (U c xs) rs1 sl).
  { pose proof (trigger_step idle open mt f0 single SS EE M disj c xs rs (slots st) ts (dhist st) (dhtags st) (dmerged st) I4) as Q.
    cbn zeta in Q. replace (mkDst (slots st) (dhist st) (dhtags st) (dmerged st)) with st in Q by (destruct st; reflexivity). exact Q. }
  set (sl' := map (copySlot c (dhist st) (dhtags st) ts smp) sl).
  set (zs := xs ++ spanOf ts smp) in *.
  assert (HR : Forall2 (fun r s => R c zs r s /\ (act (sacc s) = true -> notDue c (length xs) (length xs + length smp) r)) rs1 sl').
  { unfold sl'. clear -HU Hc I5 I6 Hsmp. induction HU as [|r s l l' H _ IH]; [constructor|]. cbn [map]. constructor; [|exact IH]. apply copySlot_ok; assumption. }
  assert (Hrng : rng zs = pubs ++ rs1).
  { unfold zs. rewrite ranges_span by exact Hsmp. rewrite I1. apply event_closed. eapply Forall_impl; [|exact I2]. cbn beta. intros r [_ D]. eapply done_closed; exact D. }
  destruct (publish_ok room sl') as (kk & K1 & K2 & K3 & K4 & K5).
  assert (Hfst : firstn (length smp) (spanOf ts smp) = spanOf ts smp) by (rewrite <- (spanOf_length ts smp); apply firstn_all).
  assert (Hdc : dcall mt f0 c ts smp room st =
     (mkDst (skipn kk sl') (pushHist c smp (dhist st)) (filter (fun e => fst e <=? nPre c) (age c (length smp) ts (dhtags st)))
        (if kk =? 0 then dmerged st ++ ts else []),
      mkDout (length smp) (map sds (firstn kk sl')) (if kk =? 0 then [] else dmerged st ++ ts))).
  { unfold dcall. unfold blocked in Hb. rewrite Hb. fold t. fold sl. unfold updateHistoryD. destruct (0 <? length smp) eqn:E; [|lia]. cbn [slots dhist dhtags dmerged].
    destruct sl as [|s0 sl0] eqn:Esl.
    - cbn [sl' map] in *. subst sl'. cbn [map length] in K2. replace kk with 0 by lia. reflexivity.
    - fold sl'. rewrite K3. destruct kk as [|kk].
      + cbn [firstn map]. cbn [Nat.eqb]. reflexivity.
      + assert (Hne : sl' <> []) by (destruct sl'; [cbn [length] in K2; lia|discriminate]). destruct sl' as [|s1 sl1] eqn:Es'; [congruence|]. cbn [firstn map Nat.eqb]. reflexivity. }
  assert (Hy : y = mkTr (fst (dcall mt f0 c ts smp room st)) (trOut x ++ map sds (firstn kk sl')) (trTags x ++ (if kk =? 0 then [] else dmerged st ++ ts)) zs).
  { unfold y, dstep. cbn [cTags cSmp cRoom]. fold st. rewrite Hdc. cbn [fst dOut dTag dCons]. rewrite Hfst. reflexivity. }
  rewrite Hy, Hdc. cbn [fst trIn]. split; [reflexivity|]. exists (firstn kk rs1), (skipn kk rs1).
  assert (Hlr : length rs1 = length sl') by (clear -HR; induction HR as [|? ? ? ? _ _ IH]; [reflexivity|cbn [length]; rewrite IH; reflexivity]).
  assert (Hpub : Forall (fun r => fst r <= length zs /\ done c (length zs) r) (firstn kk rs1) /\ map sds (firstn kk sl') = map (dataSet c zs) (firstn kk rs1)).
  { pose proof (Forall2_firstn _ kk _ _ HR) as Q. clear -Q K4. revert K4. induction Q as [|r s l l' [[H1 H2] _] _ IH]; intros K4; [split; [constructor|reflexivity]|].
    apply Forall_cons_iff in K4. destruct K4 as [Ka K4]. destruct (IH K4) as [J1 J2]. destruct H1 as (W1 & W2 & W3 & W4 & W5). split.
    - constructor; [|exact J1]. split; [exact W1|]. destruct (snd r) as [e|] eqn:Er.
      + apply W5. exact Ka.
      + destruct W5 as (W5 & _). congruence.
    - cbn [map]. rewrite J2, W4. reflexivity. }
  destruct Hpub as [P1 P2].
  split; [|split].
  - red. cbn [trIn trOut trSt trTags slots dhist dhtags dmerged].
    split; [rewrite Hrng, <- app_assoc, firstn_skipn; reflexivity|]. split.
    { apply Forall_app. split; [|exact P1]. eapply Forall_impl; [|exact I2]. cbn beta. intros r [D1 D2]. unfold zs. rewrite app_length. split; [lia|]. eapply done_mono; [|exact D2]. lia. }
    split.
    { rewrite map_app, <- P2, I3. f_equal. apply map_ext_in. intros r Hr. rewrite Forall_forall in I2. destruct (I2 r Hr) as [D1 D2]. symmetry. apply dataSet_done; assumption. }
    split. { pose proof (Forall2_skipn _ kk _ _ HR) as Q. clear -Q. induction Q as [|r s l l' [H _] _ IH]; constructor; assumption. }
    split; [apply okHist_step; exact I5|]. split; [apply okTags_step; assumption|].
    unfold zs, allTags. rewrite flat_map_app. fold (allTags xs). fold (allTags (spanOf ts smp)). rewrite spanOf_tags by exact Hsmp. rewrite <- I7.
    destruct (kk =? 0); rewrite ?app_nil_r, ?app_assoc; reflexivity.
  - rewrite firstn_length. lia.
  - rewrite firstn_length. rewrite Nat.min_l by lia. destruct K5 as [K5|K5]; [left; exact K5|right].
    pose proof (Forall2_skipn _ kk _ _ HR) as Q. destruct Q as [|r s l l' [_ H] _]; [exact I|]. apply H. exact K5.
Qed.

Lemma drun_inv c ks : dcfgOk c = true -> Forall (fun k => cSmp k <> []) ks -> exists pubs rs, Inv c (drun mt f0 c ks) pubs rs.
Proof.
  intros Hc. unfold drun. assert (G : forall ks x, Forall (fun k => cSmp k <> []) ks -> (exists pubs rs, Inv c x pubs rs) -> exists pubs rs, Inv c (fold_left (dstep mt f0 c) ks x) pubs rs).
  { clear ks. induction ks as [|k ks IH]; intros x Hk HI; [exact HI|]. apply Forall_cons_iff in Hk. destruct Hk as [K1 K2]. cbn [fold_left]. apply IH; [exact K2|].
    destruct (blocked (cRoom k) (trSt x)) eqn:Eb.
    - rewrite dstep_blocked by exact Eb. exact HI.
    - destruct HI as (pubs & rs & HI). destruct (dstep_ok c x k pubs rs Hc K1 HI Eb) as (_ & new & rs' & H & _). eauto. }
  intros Hk. apply G; [exact Hk|]. exists [], []. apply Inv0.
Qed.

End P2.
