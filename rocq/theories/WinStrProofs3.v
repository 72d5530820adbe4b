From Coq Require Import Arith Lia Bool List Sorted.
From Verif Require Import WinModel WinSpec WinStrSpec WinStrProofs WinStrProofs2.
From Verif Require WinProofs.
Import ListNotations.

Local Open Scope nat_scope.

Section C.
Context {A T F : Type}.

Definition scont (c : wcfg) (ts : list T) (smp : list A) (room : nat) (st1 : sst A T F) : sst A T F * sout A T :=
  let f := sf st1 in let a := sa st1 in let st := st1 in
  if negb (act a) then (updateHistoryS c ts smp (length smp) true st1, mkSout (length smp) [] [])
  else
    let np := if preA a then min (nPre c) (length (shist st)) else 0 in
    if room <? np then (st1, mkSout 0 [] [])
    else
      let pre := rev (firstn np (shist st)) in
      let a1 := mkAcc (act a) false (postA a) (rem a) (nP a) (nS a + np) in
      let avail := min (length smp) (room - np) in
      let k := if postA a then min (rem a) avail else avail in
      let a2 := if postA a then updatePost k a1 else mkAcc (act a1) (preA a1) (postA a1) (rem a1) (nP a1) (nS a1 + k) in
      if (np + k =? 0) && act a2 then (mkSst f a2 (shist st) (shtags st) (smerged st), mkSout 0 [] [])
      else
        let pub := 0 <? np + k in
        let tags :=
          if pub then
            (match smerged st with [] => [] | m => [(0, Merged m)] end)
            ++ map (fun e => (if (0 <? nPre c) && (fst e <? np) then np - fst e else 0, Own (snd e))) (shtags st)
            ++ (if 0 <? k then map (fun x => (np, Own x)) ts else [])
          else [] in
        let st2 := if pub then mkSst f a2 (shist st) [] [] else mkSst f a2 (shist st) (shtags st) (smerged st) in
        let n := if act a2 then k else length smp in
        (updateHistoryS c ts smp n (negb pub) st2, mkSout n (pre ++ firstn k smp) tags).

Lemma scall_cont mt c ts smp room (st : sst A T F) :
  scall mt c ts smp room st =
  (let '(f, v) := mt (sf st) (firstTrigger mt [sf st] ts) in
   scont c ts smp room (mkSst f (update c v (sa st)) (shist st) (shtags st) (smerged st))).
Proof. unfold scall. destruct (mt (sf st) (firstTrigger mt [sf st] ts)) as [f v]. reflexivity. Qed.

Definition accRel (c : wcfg) (a : acc) (r : ref A T) : Prop :=
  match md r with
  | Off => act a = false /\ postA a = false
  | Body => act a = true /\ postA a = false /\ preA a = due r && (0 <? nPre c)
  | Post j => act a = true /\ postA a = true /\ rem a = j /\ preA a = due r && (0 <? nPre c)
  end.

(* The state of the filter is left open here. *)
Definition Rel0 (c : wcfg) (single : bool) (st : sst A T F) (r : ref A T) : Prop :=
  accRel c (sa st) r /\ HR c (past r) (pend r) st /\ Good c single r.

Definition npOf (c : wcfg) (r : ref A T) : nat := if due r then min (nPre c) (length (past r)) else 0.

Lemma hist_length (c : wcfg) (p : list A) : 0 < nPre c -> min (nPre c) (length (hist c p)) = min (nPre c) (length p).
Proof. intros H. unfold hist. apply Nat.ltb_lt in H. rewrite H. rewrite firstn_length, rev_length. lia. Qed.

Lemma pre_hist (c : wcfg) (p : list A) np : np = 0 \/ 0 < nPre c -> np <= nPre c -> np <= length p -> rev (firstn np (hist c p)) = skipn (length p - np) p.
Proof.
  intros Hd H1 H2. destruct (Nat.eq_dec np 0) as [->|N]; [cbn; rewrite Nat.sub_0_r, skipn_all; reflexivity|]. destruct Hd as [Hd|Hd]; [lia|].
  unfold hist. apply Nat.ltb_lt in Hd. rewrite Hd. rewrite firstn_firstn. replace (min np (1024 + nPre c)) with np by lia. rewrite WinProofs.rev_firstn_rev. reflexivity.
Qed.

Lemma npOf_le c r : npOf c r <= nPre c /\ npOf c r <= length (past r).
Proof. unfold npOf. destruct (due r); lia. Qed.

Lemma flush_np0 c r : npOf c r = 0 -> flush c r = mkRef (past r) (pend r) (opened r) (md r) false (rout r) (rtags r).
Proof.
  intros H. unfold flush. unfold npOf in H. destruct (due r) eqn:E.
  - rewrite H. reflexivity.
  - rewrite <- E. destruct r; reflexivity.
Qed.

Lemma flush_np c r : 0 < npOf c r ->
  flush c r = mkRef (past r) [] (opened r) (md r) false (rout r ++ skipn (length (past r) - npOf c r) (past r))
               (rtags r ++ mergedAt (length (rout r)) (older c r) ++ map (fun e => (length (rout r) + (fst e - (length (past r) - npOf c r)), Own (snd e))) (recent c r)).
Proof.
  intros H. unfold npOf in *. unfold flush. destruct (due r) eqn:E; [|lia]. destruct (min (nPre c) (length (past r)) =? 0) eqn:En; [apply Nat.eqb_eq in En; lia|]. reflexivity.
Qed.

(* Pending tags without samples in front: all are old. *)
Lemma no_recent c single r st : Rel0 c single st r -> md r <> Off -> npOf c r = 0 -> recent c r = [] /\ older c r = pend r.
Proof.
  intros (_ & [_ _ _ Hl _] & (_ & _ & G)) Hm Hn.
  assert (D : nPre c = 0 \/ pend r = []).
  { unfold npOf in Hn. destruct (due r) eqn:Ed; [|apply G; auto]. destruct (Nat.eq_dec (nPre c) 0) as [Z|Z]; [left; exact Z|right].
    assert (length (past r) = 0) by lia. destruct (pend r) as [|e l]; [reflexivity|]. apply Forall_cons_iff in Hl. destruct Hl. lia. }
  unfold recent, older. destruct D as [Z| ->]; [|split; reflexivity]. split.
  - apply filter_none. eapply Forall_impl; [|exact Hl]. cbn beta. intros e He. apply negb_false_iff. unfold old. apply Nat.ltb_lt. lia.
  - apply WinProofs.filter_all. eapply Forall_impl; [|exact Hl]. cbn beta. intros e He. unfold old. apply Nat.ltb_lt. lia.
Qed.

(* The tags of a batch. *)
Lemma batch_tags c single r st o : Rel0 c single st r -> md r <> Off -> o = length (rout r) ->
  map (fun e => (o + fst e, snd e))
    ((match smerged st with [] => [] | m => [(0, Merged m)] end)
     ++ map (fun e => (if (0 <? nPre c) && (fst e <? npOf c r) then npOf c r - fst e else 0, Own (snd e))) (shtags st))
  = mergedAt o (older c r) ++ map (fun e => (o + (fst e - (length (past r) - npOf c r)), Own (snd e))) (recent c r).
Proof.
  intros HRl Hm Ho. pose proof HRl as (_ & [_ Ht Hmg Hl _] & _). rewrite map_app. f_equal.
  - rewrite Hmg. fold (older c r). unfold mergedAt. destruct (older c r) as [|e l]; [reflexivity|]. cbn [map]. rewrite Nat.add_0_r. reflexivity.
  - rewrite Ht. fold (recent c r). rewrite !map_map. cbn [fst snd]. destruct (Nat.eq_dec (npOf c r) 0) as [Z|Z].
    + rewrite (proj1 (no_recent _ _ _ _ HRl Hm Z)). reflexivity.
    + apply map_ext_in. intros e He. f_equal. unfold recent in He. apply filter_In in He. destruct He as [He Ho']. rewrite Forall_forall in Hl. specialize (Hl _ He). unfold old in Ho'.
      apply negb_true_iff, Nat.ltb_ge in Ho'. unfold npOf in *. destruct (due r); [|congruence]. f_equal.
      assert (E1 : (0 <? nPre c) = true) by (apply Nat.ltb_lt; lia). rewrite E1. cbn [andb]. destruct (length (past r) - fst e <? min (nPre c) (length (past r))) eqn:E2; [apply Nat.ltb_lt in E2|apply Nat.ltb_ge in E2]; lia.
Qed.

Lemma HR_drop c p (pd : list (nat * T)) (st : sst A T F) (f : F) a : HR c p pd st -> HR c p [] (@mkSst A T F f a (shist st) [] []).
Proof. intros [H1 _ _ _ _]. constructor; cbn; auto; constructor. Qed.

Lemma HR_acc c p (pd : list (nat * T)) (st : sst A T F) (f : F) a : HR c p pd st -> HR c p pd (mkSst f a (shist st) (shtags st) (smerged st)).
Proof. intros [H1 H2 H3 H4 H5]. constructor; assumption. Qed.

Lemma span_split (ts : list T) k (smp : list A) : 0 < k -> k <= length smp -> spanOf ts smp = spanOf ts (firstn k smp) ++ bare (skipn k smp).
Proof.
  intros H1 H2. destruct smp as [|x smp]; [cbn in H2; lia|]. destruct k; [lia|]. cbn [firstn skipn]. rewrite !span_cons. cbn [app]. f_equal. unfold bare. rewrite <- map_app, firstn_skipn. reflexivity.
Qed.

Lemma upd_zero c ts (smp : list A) b (st : sst A T F) : updateHistoryS c ts smp 0 b st = st.
Proof. reflexivity. Qed.

Context (c : wcfg) (single : bool).

(* What the rest of a call does. *)
Lemma scont_ok ts smp room (st : sst A T F) r :
  Rel0 c single st r -> (smp = [] -> ts = []) -> (md r = Post 0 -> smp <> [] /\ (nPre c = 0 \/ due r = false)) ->
  let '(st', o) := scont c ts smp room st in
  sf st' = sf st /\ exists r', Rel0 c single st' r' /\ md r' <> Post 0 /\ opened r' = opened r /\
    rout r' = rout r ++ sOut o /\
    rtags r' = rtags r ++ map (fun e => (length (rout r) + fst e, snd e)) (sTags o) /\
    ((sCons o = 0 /\ (r' = r \/ r' = flush c r)) \/
     (0 < sCons o <= length smp /\ r' = takes (firstn (sCons o) (spanOf ts smp)) (flush c r))) /\
    (smp <> [] -> nPre c < room -> 0 < sCons o) /\ (nPre c + length smp <= room -> sCons o = length smp).
Proof.
  intros HRl Hts HP0. pose proof HRl as (Ha & Hh & G). pose proof G as (G1 & G2 & G3).
  assert (Hlt : Forall (fun e => fst e < length (past r)) (pend r)) by apply Hh.
  unfold scont. destruct (md r) as [| |j] eqn:Em.
  - (* nothing is passed on *)
    unfold accRel in Ha. rewrite Em in Ha. destruct Ha as [Ha1 Ha2]. rewrite Ha1. cbn [negb sCons sOut sTags map]. rewrite (flush_not c r (G2 eq_refl)).
    destruct smp as [|x smp].
    + rewrite (Hts eq_refl). cbn [length]. rewrite upd_zero. split; [reflexivity|]. exists r. rewrite !app_nil_r. rewrite Em. split; [exact HRl|]. split; [discriminate|]. split; [reflexivity|]. split; [reflexivity|]. split; [reflexivity|]. split; [left; auto|]. split; congruence.
    + remember (x :: smp) as smp' eqn:Es. assert (Hn : smp' <> []) by (subst; discriminate). assert (L0 : 0 < length smp') by (subst; cbn; lia).
      destruct (upd_ok c ts smp' (length smp') true st (past r) (pend r) L0 (le_n _) Hh) as (U1 & U2 & U3). rewrite firstn_all in U1.
      split; [exact U2|]. exists (takes (spanOf ts smp') r). rewrite skip_span by auto. cbn [md opened rout rtags]. rewrite !app_nil_r.
      split; [|split; [discriminate|split; [reflexivity|split; [reflexivity|split; [reflexivity|]]]]].
      * unfold Rel0. cbn [past pend]. rewrite U3. split; [unfold accRel; cbn [md]; auto|]. split; [exact U1|]. unfold Good. cbn [md due opened pend]. repeat split; auto; congruence.
      * split; [|auto]. right. split; [lia|]. rewrite <- (WinProofs.spanOf_length ts smp'), firstn_all. rewrite skip_span by auto. reflexivity.
  - (* the range *)
    unfold accRel in Ha. rewrite Em in Ha. destruct Ha as (Ha1 & Ha2 & Ha3). rewrite Ha1, Ha2. cbn [negb].
    assert (Enp : (if preA (sa st) then min (nPre c) (length (shist st)) else 0) = npOf c r).
    { rewrite Ha3. rewrite (hr_h _ _ _ _ _ _ Hh). unfold npOf. destruct (due r); [|reflexivity]. cbn [andb]. destruct (0 <? nPre c) eqn:E; [apply Nat.ltb_lt in E; apply hist_length; exact E|apply Nat.ltb_ge in E; lia]. }
    rewrite Enp. destruct (npOf_le c r) as [N1 N2]. destruct (room <? npOf c r) eqn:Er.
    + apply Nat.ltb_lt in Er. split; [reflexivity|]. exists r. cbn [sCons sOut sTags map]. rewrite !app_nil_r, Em. split; [exact HRl|]. split; [discriminate|]. split; [reflexivity|]. split; [reflexivity|]. split; [reflexivity|]. split; [left; auto|]. split; intros; lia.
    + apply Nat.ltb_ge in Er. cbn [act preA postA rem nP nS]. remember (min (length smp) (room - npOf c r)) as k eqn:Ek.
      assert (Kf : k <= length smp /\ k <= room - npOf c r /\ (k = length smp \/ k = room - npOf c r)) by (clear -Ek; lia). clear Ek Enp Ha3.
      remember (mkAcc true false false (rem (sa st)) (nP (sa st)) (nS (sa st) + npOf c r + k)) as a2 eqn:Ea2. rewrite andb_true_r.
      assert (Hpre : rev (firstn (npOf c r) (shist st)) = skipn (length (past r) - npOf c r) (past r)).
      { rewrite (hr_h _ _ _ _ _ _ Hh). apply pre_hist; lia. }
      assert (HA : forall q, md q = Body -> due q = false -> accRel c a2 q). { intros q Q1 Q2. unfold accRel. rewrite Q1, Q2, Ea2. cbn. auto. }
      destruct (npOf c r + k =? 0) eqn:E0.
      * apply Nat.eqb_eq in E0. split; [reflexivity|]. exists (flush c r). cbn [sCons sOut sTags map]. rewrite !app_nil_r.
        pose proof (flush_good c single r G Hlt) as GF. rewrite (flush_np0 c r) in * by lia. cbn [md opened rout rtags].
        split; [|split; [congruence|split; [reflexivity|split; [reflexivity|split; [reflexivity|]]]]].
        { split; [apply HA; [exact Em|reflexivity]|]. split; [apply HR_acc; exact Hh|exact GF]. }
        split; [left; auto|]. split; intros; [destruct smp; [congruence|cbn [length] in *; lia]|lia].
      * apply Nat.eqb_neq in E0. assert (Ep : (0 <? npOf c r + k) = true) by (apply Nat.ltb_lt; lia). rewrite Ep. cbn [negb]. replace (act a2) with true by (rewrite Ea2; reflexivity).
        rewrite Hpre. pose proof (HR_drop c (past r) (pend r) st (sf st) a2 Hh) as HD.
        assert (BT := batch_tags c single r st (length (rout r)) HRl ltac:(congruence) eq_refl).
        destruct (Nat.eq_dec k 0) as [K|K].
        { (* only the samples in front *)
          rewrite K. change (0 <? 0) with false. cbv iota. rewrite !app_nil_r. rewrite upd_zero. split; [reflexivity|]. exists (flush c r).
          pose proof (flush_good c single r G Hlt) as GF. rewrite (flush_np c r) in * by lia. cbn [md opened rout rtags sCons sOut sTags firstn]. rewrite ?app_nil_r.
          split; [|split; [congruence|split; [reflexivity|split; [reflexivity|split]]]].
          - split; [apply HA; [exact Em|reflexivity]|]. split; [exact HD|exact GF].
          - rewrite BT. reflexivity.
          - split; [left; auto|]. split; intros; [destruct smp; [congruence|cbn [length] in *; lia]|lia]. }
        assert (K0 : (0 <? k) = true) by (apply Nat.ltb_lt; lia). rewrite K0.
        assert (Hk : k <= length smp) by lia. assert (Hfk : firstn k smp <> []) by (clear -K Hk; destruct k, smp; cbn [length firstn] in *; try lia; discriminate).
        destruct (upd_ok c ts smp k false (mkSst (sf st) a2 (shist st) [] []) (past r) [] ltac:(lia) Hk HD) as (U1 & U2 & U3). cbn [app sf sa] in U1, U2, U3.
        split; [exact U2|]. exists (takes (spanOf ts (firstn k smp)) (flush c r)). cbn [sCons sOut sTags].
        assert (Emf : md (flush c r) = Body) by (unfold flush; destruct (due r); [destruct (min (nPre c) (length (past r)) =? 0)|]; exact Em).
        assert (Eof : opened (flush c r) = opened r) by (unfold flush; destruct (due r); [destruct (min (nPre c) (length (past r)) =? 0)|]; reflexivity).
        assert (Epf : past (flush c r) = past r) by (unfold flush; destruct (due r); [destruct (min (nPre c) (length (past r)) =? 0)|]; reflexivity).
        rewrite pass_span by (rewrite ?Emf; cbn; auto). cbn [md opened rout rtags]. rewrite Emf, Eof, Epf. cbn [dec].
        split; [|split; [discriminate|split; [reflexivity|]]].
        { unfold Rel0. cbn [past pend]. rewrite U3. split; [apply HA; [reflexivity|apply flush_due]|]. split; [exact U1|]. unfold Good. cbn [md due opened pend]. rewrite flush_due. repeat split; auto; congruence. }
        assert (Eout : rout (flush c r) = rout r ++ skipn (length (past r) - npOf c r) (past r)).
        { destruct (Nat.eq_dec (npOf c r) 0) as [Z|Z]; [rewrite (flush_np0 c r Z), Z; cbn [rout]; rewrite Nat.sub_0_r, skipn_all, app_nil_r; reflexivity|rewrite (flush_np c r) by lia; reflexivity]. }
        split; [rewrite Eout, app_assoc; reflexivity|]. split.
        { rewrite (app_assoc _ (map _ (shtags st))), map_app, BT, map_map. cbn [fst snd]. rewrite Eout. rewrite app_length, skipn_length.
          replace (length (past r) - (length (past r) - npOf c r)) with (npOf c r) by lia.
          destruct (Nat.eq_dec (npOf c r) 0) as [Z|Z].
          - destruct (no_recent c single r st HRl ltac:(congruence) Z) as [-> ->]. rewrite (flush_np0 c r Z). cbn [rtags pend map]. rewrite Z, !Nat.add_0_r, app_nil_r. reflexivity.
          - rewrite (flush_np c r) by lia. cbn [rtags pend mergedAt app]. rewrite <- !app_assoc. reflexivity. }
        split; [right; split; [lia|]; rewrite WinProofs.spanOf_firstn by lia; rewrite pass_span by (rewrite ?Emf; cbn; auto); rewrite Emf, Eof, Epf; reflexivity|].
        split; intros; [lia|]. destruct smp; cbn [length] in *; lia.
  - (* the last samples *)
    unfold accRel in Ha. rewrite Em in Ha. destruct Ha as (Ha1 & Ha2 & Ha4 & Ha3). rewrite Ha1, Ha2. cbn [negb].
    assert (Enp : (if preA (sa st) then min (nPre c) (length (shist st)) else 0) = npOf c r).
    { rewrite Ha3. rewrite (hr_h _ _ _ _ _ _ Hh). unfold npOf. destruct (due r); [|reflexivity]. cbn [andb]. destruct (0 <? nPre c) eqn:E; [apply Nat.ltb_lt in E; apply hist_length; exact E|apply Nat.ltb_ge in E; lia]. }
    rewrite Enp. destruct (npOf_le c r) as [N1 N2]. rewrite Ha4. clear Ha4. destruct (room <? npOf c r) eqn:Er.
    + apply Nat.ltb_lt in Er. split; [reflexivity|]. exists r. cbn [sCons sOut sTags map]. rewrite !app_nil_r, Em.
      assert (j <> 0). { intros ->. destruct (HP0 eq_refl) as [_ [Z|Z]]; [lia|]. unfold npOf in Er. rewrite Z in Er. lia. }
      split; [exact HRl|]. split; [congruence|]. split; [reflexivity|]. split; [reflexivity|]. split; [reflexivity|]. split; [left; auto|]. split; intros; lia.
    + apply Nat.ltb_ge in Er. remember (min j (min (length smp) (room - npOf c r))) as k eqn:Ek.
      assert (Kf : k <= j /\ k <= length smp /\ k <= room - npOf c r /\ (k = j \/ k = length smp \/ k = room - npOf c r)) by (clear -Ek; lia). clear Ek Enp Ha3.
      unfold updatePost. cbn [act preA postA rem nP nS]. cbn [andb].
      remember (mkAcc (negb (j - k =? 0)) false (negb (j - k =? 0)) (j - k) (nP (sa st)) (nS (sa st) + npOf c r + k)) as a2 eqn:Ea2.
      assert (Hpre : rev (firstn (npOf c r) (shist st)) = skipn (length (past r) - npOf c r) (past r)).
      { rewrite (hr_h _ _ _ _ _ _ Hh). apply pre_hist; lia. }
      assert (HA : forall q, md q = dec (Post j) k -> due q = false -> accRel c a2 q).
      { intros q Q1 Q2. unfold accRel. rewrite Q1, Q2, Ea2. cbn [dec]. destruct (j - k =? 0); cbn; auto. }
      assert (BT := batch_tags c single r st (length (rout r)) HRl ltac:(congruence) eq_refl).
      
      assert (Emf : md (flush c r) = Post j) by (unfold flush; destruct (due r); [destruct (min (nPre c) (length (past r)) =? 0)|]; exact Em).
      assert (Eof : opened (flush c r) = opened r) by (unfold flush; destruct (due r); [destruct (min (nPre c) (length (past r)) =? 0)|]; reflexivity).
      assert (Epf : past (flush c r) = past r) by (unfold flush; destruct (due r); [destruct (min (nPre c) (length (past r)) =? 0)|]; reflexivity).
      destruct (Nat.eq_dec j 0) as [J|J].
      { (* no samples behind the stop *)
        subst j. destruct (HP0 eq_refl) as [Hn Hz]. assert (Z : npOf c r = 0) by (unfold npOf; destruct Hz as [Hz|Hz]; rewrite Hz; [destruct (due r); reflexivity|reflexivity]).
        assert (K : k = 0) by lia. rewrite Z, K in *. cbn [plus Nat.eqb andb Nat.ltb Nat.leb negb firstn rev app]. cbn [Nat.sub Nat.eqb negb].
        assert (L0 : 0 < length smp) by (destruct smp; [congruence|cbn; lia]).
        destruct (upd_ok c ts smp (length smp) true (mkSst (sf st) a2 (shist st) (shtags st) (smerged st)) (past r) (pend r) L0 (le_n _) (HR_acc _ _ _ _ _ _ Hh)) as (U1 & U2 & U3). rewrite firstn_all in U1. cbn [sf sa] in U2, U3.
        split; [exact U2|]. exists (takes (spanOf ts smp) (flush c r)). rewrite skip_span by auto. rewrite (flush_np0 c r Z). cbn [past pend opened due md rout rtags sCons sOut sTags map]. rewrite !app_nil_r.
        split; [|split; [discriminate|split; [reflexivity|split; [reflexivity|split; [reflexivity|]]]]].
        - unfold Rel0. cbn [past pend]. rewrite U3. split; [unfold accRel; cbn [md]; rewrite Ea2; auto|]. split; [exact U1|]. unfold Good. cbn [md due opened pend]. repeat split; auto; congruence.
        - split; [|auto]. right. split; [lia|]. rewrite <- (WinProofs.spanOf_length ts smp), firstn_all. rewrite skip_span by auto. reflexivity. }
      destruct (npOf c r + k =? 0) eqn:E0.
      * apply Nat.eqb_eq in E0. assert (Hact : negb (j - k =? 0) = true) by (apply negb_true_iff, Nat.eqb_neq; lia). rewrite Hact. cbn [andb].
        split; [reflexivity|]. exists (flush c r). cbn [sCons sOut sTags map]. rewrite !app_nil_r.
        pose proof (flush_good c single r G Hlt) as GF. rewrite (flush_np0 c r) in * by lia. cbn [md opened rout rtags].
        split; [|split; [congruence|split; [reflexivity|split; [reflexivity|split; [reflexivity|]]]]].
        { split; [apply HA; [cbn [md dec]; rewrite Em; replace k with 0 by lia; rewrite Nat.sub_0_r; destruct (j =? 0) eqn:Q; [apply Nat.eqb_eq in Q; lia|reflexivity]|reflexivity]|]. split; [apply HR_acc; exact Hh|exact GF]. }
        split; [left; auto|]. split; intros; [destruct smp; [congruence|cbn [length] in *; lia]|destruct smp; cbn [length] in *; lia].
      * cbn [andb]. apply Nat.eqb_neq in E0. assert (Ep : (0 <? npOf c r + k) = true) by (apply Nat.ltb_lt; lia). rewrite Ep. cbn [negb].
        rewrite Hpre. pose proof (HR_drop c (past r) (pend r) st (sf st) a2 Hh) as HD.
        destruct (Nat.eq_dec k 0) as [K|K].
        { assert (Hact : negb (j - k =? 0) = true) by (apply negb_true_iff, Nat.eqb_neq; lia). rewrite Hact.
          rewrite K. change (0 <? 0) with false. cbv iota. rewrite !app_nil_r. rewrite upd_zero. split; [reflexivity|]. exists (flush c r).
          pose proof (flush_good c single r G Hlt) as GF. rewrite (flush_np c r) in * by lia. cbn [md opened rout rtags sCons sOut sTags firstn]. rewrite ?app_nil_r.
          split; [|split; [congruence|split; [reflexivity|split; [reflexivity|split]]]].
          - split; [apply HA; [cbn [md dec]; rewrite Em; replace k with 0 by lia; rewrite Nat.sub_0_r; destruct (j =? 0) eqn:Q; [apply Nat.eqb_eq in Q; lia|reflexivity]|reflexivity]|]. split; [exact HD|exact GF].
          - rewrite BT. reflexivity.
          - split; [left; auto|]. split; intros; destruct smp; cbn [length] in *; try congruence; lia. }
        assert (K0 : (0 <? k) = true) by (apply Nat.ltb_lt; lia). rewrite K0.
        assert (Hk : k <= length smp) by lia. assert (Hfk : firstn k smp <> []) by (clear -K Hk; destruct k, smp; cbn [length firstn] in *; try lia; discriminate).
        assert (Hlk : length (firstn k smp) = k) by (apply firstn_length_le; exact Hk).
        assert (Eout : rout (flush c r) = rout r ++ skipn (length (past r) - npOf c r) (past r)).
        { destruct (Nat.eq_dec (npOf c r) 0) as [Z|Z]; [rewrite (flush_np0 c r Z), Z; cbn [rout]; rewrite Nat.sub_0_r, skipn_all, app_nil_r; reflexivity|rewrite (flush_np c r) by lia; reflexivity]. }
        assert (TK : takes (spanOf ts (firstn k smp)) (flush c r) =
          mkRef (past r ++ firstn k smp) [] (opened r) (dec (Post j) k) false (rout r ++ skipn (length (past r) - npOf c r) (past r) ++ firstn k smp)
            (rtags r ++ map (fun e => (length (rout r) + fst e, snd e)) ((match smerged st with [] => [] | m => [(0, Merged m)] end)
     ++ map (fun e => (if (0 <? nPre c) && (fst e <? npOf c r) then npOf c r - fst e else 0, Own (snd e))) (shtags st) ++ map (fun x => (npOf c r, Own x)) ts))).
        { rewrite pass_span by (try exact Hfk; rewrite Emf; cbn [passes]; lia). rewrite Emf, Eof, Epf, Hlk, flush_due, Eout. f_equal; [rewrite app_assoc; reflexivity|].
          rewrite (app_assoc _ (map _ (shtags st))), map_app, BT, map_map. cbn [fst snd]. rewrite app_length, skipn_length.
          replace (length (past r) - (length (past r) - npOf c r)) with (npOf c r) by lia.
          destruct (Nat.eq_dec (npOf c r) 0) as [Z|Z].
          - destruct (no_recent c single r st HRl ltac:(congruence) Z) as [-> ->]. rewrite (flush_np0 c r Z). cbn [rtags pend map]. rewrite Z, !Nat.add_0_r, app_nil_r. reflexivity.
          - rewrite (flush_np c r) by lia. cbn [rtags pend mergedAt app]. rewrite <- !app_assoc. reflexivity. }
        destruct (j - k =? 0) eqn:Ejk.
        { (* the range ends in this call *)
          cbn [negb]. assert (L0 : 0 < length smp) by lia.
          destruct (upd_ok c ts smp (length smp) false (mkSst (sf st) a2 (shist st) [] []) (past r) [] L0 (le_n _) HD) as (U1 & U2 & U3). rewrite firstn_all in U1. cbn [app sf sa] in U1, U2, U3.
          split; [exact U2|]. exists (takes (spanOf ts smp) (flush c r)). cbn [sCons sOut sTags].
          assert (TE : takes (spanOf ts smp) (flush c r) =
            mkRef (past r ++ smp) [] (opened r) Off false (rout r ++ skipn (length (past r) - npOf c r) (past r) ++ firstn k smp)
              (rtags (takes (spanOf ts (firstn k smp)) (flush c r)))).
          { rewrite (span_split ts k smp) by lia. rewrite takes_app, TK. rewrite skip_bare by (cbn [md dec]; rewrite Ejk; reflexivity). cbn [past pend opened due rout rtags]. rewrite <- app_assoc, firstn_skipn. reflexivity. }
          rewrite TE, TK. cbn [md opened rout rtags].
          split; [|split; [discriminate|split; [reflexivity|split; [reflexivity|split; [reflexivity|]]]]].
          - unfold Rel0. cbn [past pend]. rewrite U3. split; [apply HA; [cbn [md dec]; rewrite Ejk; reflexivity|reflexivity]|]. split; [exact U1|]. unfold Good. cbn [md due opened pend]. repeat split; auto; congruence.
          - split; [|auto]. right. split; [lia|]. rewrite <- (WinProofs.spanOf_length ts smp), firstn_all. rewrite TE, TK. reflexivity. }
        cbn [negb]. apply Nat.eqb_neq in Ejk.
        destruct (upd_ok c ts smp k false (mkSst (sf st) a2 (shist st) [] []) (past r) [] ltac:(lia) Hk HD) as (U1 & U2 & U3). cbn [app sf sa] in U1, U2, U3.
        split; [exact U2|]. exists (takes (spanOf ts (firstn k smp)) (flush c r)). cbn [sCons sOut sTags]. rewrite TK. cbn [md opened rout rtags].
        split; [|split; [cbn [dec]; destruct (j - k =? 0) eqn:Q; [discriminate|intros E; injection E as E; lia]|split; [reflexivity|split; [reflexivity|split; [reflexivity|]]]]].
        { unfold Rel0. cbn [past pend]. rewrite U3. split; [apply HA; reflexivity|]. split; [exact U1|]. unfold Good. cbn [md due opened pend]. repeat split; auto; congruence. }
        split; [right; split; [lia|]; rewrite WinProofs.spanOf_firstn by lia; exact (eq_sym TK)|].
        split; intros; lia.
Qed.

End C.
