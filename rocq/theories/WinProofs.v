From Coq Require Import Arith ZArith List Bool Lia ZifyBool ZifyNat.
From Verif Require Import WinModel WinSpec.
Import ListNotations.

Local Open Scope nat_scope.

Section L.

Context {A T : Type}.

Implicit Type xs : stream A T.

(* ---- lists ---- *)

Lemma eventsOf_app i (a b : stream A T) : eventsOf i (a ++ b) = eventsOf i a ++ eventsOf (length a + i) b.
Proof.
  revert i. induction a as [|[x ts] a IH]; intros i; [reflexivity|]. cbn [eventsOf app length]. rewrite IH, <- app_assoc.
  replace (length a + (1 + i)) with (S (length a) + i) by lia. reflexivity.
Qed.

Lemma eventsOf_bare i (l : list A) : eventsOf i (map (fun y => (y, @nil T)) l) = [].
Proof. revert i. induction l as [|x l IH]; intros i; [reflexivity|]. cbn [map eventsOf]. cbn [app]. apply IH. Qed.

Lemma spanOf_length (ts : list T) (smp : list A) : length (spanOf ts smp) = length smp.
Proof. destruct smp; [reflexivity|]. cbn [spanOf length]. rewrite map_length. reflexivity. Qed.
Lemma spanOf_fst (ts : list T) (smp : list A) : map fst (spanOf ts smp) = smp.
Proof. destruct smp; [reflexivity|]. cbn [spanOf map fst]. f_equal. rewrite map_map. cbn. apply map_id. Qed.
Lemma spanOf_tags (ts : list T) (smp : list A) : smp <> [] -> allTags (spanOf ts smp) = ts.
Proof.
  destruct smp as [|x smp]; [congruence|]. intros _. unfold allTags. cbn [spanOf flat_map snd].
  replace (flat_map snd (map (fun y : A => (y, @nil T)) smp)) with (@nil T); [apply app_nil_r|].
  induction smp as [|y smp IH]; [reflexivity|]. exact IH.
Qed.
Lemma spanOf_firstn k (ts : list T) (smp : list A) : 0 < k -> firstn k (spanOf ts smp) = spanOf ts (firstn k smp).
Proof.
  intros Hk. destruct k as [|k]; [lia|]. destruct smp as [|x smp]; [reflexivity|]. cbn [spanOf firstn]. f_equal. apply firstn_map.
Qed.
Lemma spanOf_events i (ts : list T) (smp : list A) : smp <> [] -> eventsOf i (spanOf ts smp) = map (pair i) ts.
Proof.
  destruct smp as [|x smp]; [congruence|]. intros _. cbn [spanOf eventsOf]. rewrite eventsOf_bare. apply app_nil_r.
Qed.

Lemma seq_add a n : seq a n = map (fun j => a + j) (seq 0 n).
Proof.
  revert a. induction n as [|n IH]; intros a; [reflexivity|]. cbn [seq map]. rewrite Nat.add_0_r. f_equal.
  rewrite (IH (S a)), (IH 1), map_map. apply map_ext. intros j. lia.
Qed.

(* taking k samples appends them to the content *)
Lemma take_ds k ts smp a p (l : stream A T) :
  nS a = length l -> nP a = p -> k <= length smp ->
  takeSamples k ts smp a (dsOf p l) = dsOf p (l ++ firstn k (spanOf ts smp)).
Proof.
  intros HS HP Hk. unfold takeSamples. destruct (0 <? k) eqn:E.
  - rewrite spanOf_firstn by lia.
    assert (Hne : firstn k smp <> []). { destruct k; [discriminate E|]. destruct smp; [cbn in Hk; lia|discriminate]. }
    unfold dsOf. f_equal.
    + cbn [vals]. rewrite map_app, spanOf_fst. reflexivity.
    + unfold fillAxis. cbn [axis]. rewrite app_length, spanOf_length, firstn_length_le by exact Hk.
      rewrite seq_app, map_app. f_equal. rewrite (seq_add (0 + length l)), map_map. apply map_ext. intros j. rewrite HS, HP. lia.
    + cbn [evs]. rewrite eventsOf_app, spanOf_events by exact Hne. f_equal. f_equal. f_equal. lia.
  - replace k with 0 by lia. cbn [firstn]. rewrite app_nil_r. reflexivity.
Qed.

(* ---- one data set ---- *)

Definition done (c : wcfg) (n : nat) (r : range) : Prop :=
  match snd r with
  | None => False
  | Some e => e <= n /\ (e + nPost c <= n \/ (nMax c <> 0 /\ fst r - nPre c + nMax c <= n))
  end.

Definition okHist (c : wcfg) xs (h : list A) : Prop :=
  h = if 0 <? nPre c then firstn (1024 + nPre c) (rev (map fst xs)) else [].
(* tags of the samples with their age: 1 for the newest *)
Fixpoint aged (l : stream A T) : list (nat * T) :=
  match l with [] => [] | (x, ts) :: r => map (pair (length l)) ts ++ aged r end.
Definition lastn {X} (n : nat) (l : list X) : list X := skipn (length l - n) l.
Definition okTags (c : wcfg) xs (h : list (nat * T)) : Prop := h = aged (lastn (nPre c) xs).

Lemma cap_length {X} c (l : list X) : length (cap c l) = if nMax c =? 0 then length l else min (nMax c) (length l).
Proof. unfold cap. destruct (nMax c =? 0); [reflexivity|apply firstn_length]. Qed.

Lemma aged_range (l : stream A T) : Forall (fun e => 1 <= fst e <= length l) (aged l).
Proof.
  induction l as [|[x ts] l IH]; [constructor|]. cbn [aged]. apply Forall_app. split.
  - apply Forall_map. apply Forall_forall. intros t _. cbn [fst length]. lia.
  - eapply Forall_impl; [|exact IH]. cbn [length]. intros e He. lia.
Qed.
Lemma aged_events (l : stream A T) : map (fun e => (length l - fst e, snd e)) (aged l) = eventsOf 0 l.
Proof.
  assert (G : forall l k, map (fun e => (k + length l - fst e, snd e)) (aged l) = eventsOf k l).
  { clear. induction l as [|[x ts] l IH]; intros k; [reflexivity|]. cbn [aged eventsOf]. rewrite map_app, map_map. f_equal.
    - apply map_ext. intros t. cbn [fst snd length]. f_equal. lia.
    - rewrite <- (IH (1 + k)). apply map_ext. intros e. cbn [length]. f_equal. lia. }
  specialize (G l 0). cbn [plus] in G. exact G.
Qed.
Lemma filter_all {X} (f : X -> bool) l : Forall (fun x => f x = true) l -> filter f l = l.
Proof. induction 1 as [|x l H _ IH]; [reflexivity|]. cbn [filter]. rewrite H, IH. reflexivity. Qed.

Lemma lastn_length {X} n (l : list X) : length (lastn n l) = min n (length l).
Proof. unfold lastn. rewrite skipn_length. lia. Qed.
Lemma rev_firstn_rev {X} n (l : list X) : rev (firstn n (rev l)) = lastn n l.
Proof. unfold lastn. rewrite firstn_rev, rev_involutive. reflexivity. Qed.

Lemma dcfg_cap (c : wcfg) (H : dcfgOk c = true) : nMax c = 0 \/ nPre c + nPost c <= nMax c.
Proof. unfold dcfgOk in H. lia. Qed.



Lemma skipn_le_app {X} n (l m : list X) : n <= length l -> skipn n (l ++ m) = skipn n l ++ m.
Proof. intros H. rewrite skipn_app. replace (n - length l) with 0 by lia. reflexivity. Qed.

Lemma content_length c xs r : fst r <= length xs -> length (content c xs r) =
  let full := length xs - (fst r - nPre c) in
  let part := match snd r with None => full | Some e => min (e + nPost c - (fst r - nPre c)) full end in
  if nMax c =? 0 then part else min (nMax c) part.
Proof.
  intros H. unfold content. destruct (snd r) as [e|]; rewrite cap_length; [rewrite firstn_length|]; rewrite skipn_length; cbn zeta; reflexivity.
Qed.

(* content of the longer stream *)
Lemma content_step c xs ys r : fst r <= length xs ->
  content c (xs ++ ys) r = content c xs r ++
    firstn (let room := if nMax c =? 0 then length ys else min (nMax c - length (content c xs r)) (length ys) in
            match snd r with None => room | Some e => min room (e + nPost c - (fst r - nPre c) - length (content c xs r)) end) ys.
Proof.
  intros H. rewrite (content_length c xs r H). unfold content. cbn zeta. rewrite skipn_le_app by lia.
  set (B := fst r - nPre c) in *. assert (HB : B <= length xs) by (unfold B; lia).
  assert (Hl : length (skipn B xs) = length xs - B) by apply skipn_length.
  destruct (snd r) as [e|].
  - rewrite firstn_app, Hl. unfold cap. destruct (nMax c =? 0) eqn:E.
    + f_equal. set (q := e + nPost c - B). destruct (Nat.le_gt_cases (length ys) (q - (length xs - B))).
      * rewrite !firstn_all2 by lia. reflexivity.
      * f_equal. lia.
    + set (q := e + nPost c - B). rewrite firstn_app, firstn_length, Hl. f_equal. rewrite firstn_firstn.
      destruct (Nat.le_gt_cases (length ys) (min (nMax c - min q (length xs - B)) (q - (length xs - B)))).
      * rewrite !firstn_all2 by lia. reflexivity.
      * f_equal. lia.
  - unfold cap. destruct (nMax c =? 0) eqn:E.
    + rewrite firstn_all. reflexivity.
    + rewrite firstn_app, Hl. f_equal. destruct (Nat.le_gt_cases (length ys) (nMax c - (length xs - B))).
      * rewrite !firstn_all2 by lia. reflexivity.
      * f_equal. lia.
Qed.

Lemma done_content c xs ys r : fst r <= length xs -> done c (length xs) r -> content c (xs ++ ys) r = content c xs r.
Proof.
  intros H D. rewrite (content_step c xs ys r H), (content_length c xs r H). red in D. destruct (snd r) as [e|]; [|contradiction]. cbn zeta.
  match goal with |- _ ++ firstn ?n _ = _ => replace n with 0 by (destruct (nMax c =? 0) eqn:E; lia) end. apply app_nil_r.
Qed.

Lemma dataSet_done c xs ys r : fst r <= length xs -> done c (length xs) r -> dataSet c (xs ++ ys) r = dataSet c xs r.
Proof. intros H D. unfold dataSet. rewrite done_content by assumption. reflexivity. Qed.

Lemma done_mono c n m r : n <= m -> done c n r -> done c m r.
Proof. intros H. unfold done. destruct (snd r); [|trivial]. lia. Qed.

Lemma vals_dsOf p (l : stream A T) : length (vals (dsOf p l)) = length l.
Proof. cbn [dsOf vals]. apply map_length. Qed.

(* what is still active after the call was not due *)
Definition notDue c (n m : nat) (r : range) : Prop :=
  match snd r with None => True | Some e => n < e + nPost c /\ (nMax c = 0 -> m < e + nPost c) end.

End L.

Section P.

Context {A T F : Type}.
Context (idle open : F -> Prop).

Implicit Type xs : stream A T.

(* weak: what holds of a slot between the triggers and the copying *)
Definition W (c : wcfg) xs (r : range) (s : slot A T F) : Prop :=
  fst r <= length xs /\ preA (sacc s) = false /\ nP (sacc s) = min (nPre c) (fst r) /\
  sds s = dataSet c xs r /\
  match snd r with
  | None => act (sacc s) = true /\ postA (sacc s) = false /\ open (sfl s) /\ nS (sacc s) = length (content c xs r)
  | Some e => fst r <= e /\ e <= length xs /\ idle (sfl s) /\
      (act (sacc s) = true -> postA (sacc s) = true /\ nS (sacc s) = length (content c xs r) /\
         ((nMax c <> 0 /\ length (content c xs r) = nMax c) \/ rem (sacc s) + length (content c xs r) = e + nPost c - (fst r - nPre c))) /\
      (act (sacc s) = false -> done c (length xs) r)
  end.
Definition R (c : wcfg) xs (r : range) (s : slot A T F) : Prop :=
  W c xs r s /\ (act (sacc s) = true -> postA (sacc s) = true -> 0 < rem (sacc s)).
Definition Fresh (c : wcfg) xs (r : range) (s : slot A T F) : Prop :=
  fst r = length xs /\ sds s = ds0 /\ nP (sacc s) = 0 /\ nS (sacc s) = 0 /\ act (sacc s) = true /\ preA (sacc s) = (0 <? nPre c) /\
  match snd r with
  | None => postA (sacc s) = false /\ open (sfl s)
  | Some e => e = length xs /\ postA (sacc s) = true /\ rem (sacc s) = nPost c /\ idle (sfl s)
  end.
Definition U c xs r s : Prop := W c xs r s \/ Fresh c xs r s.

(* the pre samples of a new data set *)
Lemma copyPre_fresh c xs r s h ht :
  dcfgOk c = true -> okHist c xs h -> okTags c xs ht -> Fresh c xs r s -> W c xs r (copyPre c h ht s).
Proof.
  intros Hc Hh Ht (H1 & H2 & H3 & H4 & H5 & H6 & H7). apply dcfg_cap in Hc. red in Hh, Ht. destruct r as [b oe]. cbn [fst snd] in *. subst b.
  set (B := length xs - nPre c).
  assert (Hct : content c xs (length xs, oe) = lastn (nPre c) xs).
  { unfold content. cbn [fst snd]. fold B. change (lastn (nPre c) xs) with (skipn B xs).
    assert (Hl : length (skipn B xs) <= nPre c) by (rewrite skipn_length; unfold B; lia).
    destruct oe as [e|].
    - destruct H7 as (-> & _). rewrite firstn_all2 by (rewrite skipn_length; lia). unfold cap. destruct (nMax c =? 0) eqn:E; [reflexivity|]. apply firstn_all2. lia.
    - unfold cap. destruct (nMax c =? 0) eqn:E; [reflexivity|]. apply firstn_all2. lia. }
  assert (Hlen : length (lastn (nPre c) xs) = min (nPre c) (length xs)) by apply lastn_length.
  unfold copyPre. rewrite H6. destruct (0 <? nPre c) eqn:En.
  - set (n := min (nPre c) (length h)).
    assert (Hn : n = min (nPre c) (length xs)). { unfold n. rewrite Hh. rewrite firstn_length, rev_length, map_length. lia. }
    assert (Hds : mkDs (vals (sds s) ++ rev (firstn n h)) (fillAxis (- Z.of_nat n) n (sds s))
       (if 0 <? n then evs (sds s) ++ map (fun e => (n - fst e, snd e)) (filter (fun e => fst e <=? n) ht) else evs (sds s)) = dsOf n (lastn (nPre c) xs)).
    { rewrite H2. cbn [ds0 vals evs app]. unfold dsOf. f_equal.
      - rewrite Hh, firstn_firstn. replace (min n (1024 + nPre c)) with n by lia. rewrite rev_firstn_rev. unfold lastn. rewrite map_length, <- skipn_map. f_equal. lia.
      - unfold fillAxis. cbn [ds0 axis app]. rewrite Hlen, <- Hn. apply map_ext. intros j. lia.
      - assert (Hall : Forall (fun e => (fst e <=? n) = true) ht). { rewrite Ht. eapply Forall_impl; [|apply aged_range]. cbn beta. intros e He. lia. }
        rewrite (filter_all _ _ Hall). destruct (0 <? n) eqn:E0.
        + rewrite Ht. rewrite <- aged_events. apply map_ext. intros e. f_equal. lia.
        + destruct (lastn (nPre c) xs); [reflexivity|cbn [length] in Hlen; lia]. }
    red. cbn [sds sacc sfl fst snd preA nP nS act postA rem]. rewrite Hds. split; [lia|]. split; [reflexivity|]. split; [exact Hn|]. split.
    { unfold dataSet. rewrite Hct. cbn [fst]. rewrite <- Hn. reflexivity. }
    rewrite Hct. destruct oe as [e|].
    + destruct H7 as (-> & P1 & P2 & P3). split; [lia|]. split; [lia|]. split; [exact P3|]. split.
      * intros _. split; [exact P1|]. split; [rewrite H4, Hlen; lia|]. right. rewrite P2, Hlen. lia.
      * intros H. congruence.
    + destruct H7 as (P1 & P2). rewrite H4, Hlen. split; [exact H5|]. split; [exact P1|]. split; [exact P2|]. lia.
  - assert (Hz : nPre c = 0) by lia. assert (Hnil : lastn (nPre c) xs = []) by (destruct (lastn (nPre c) xs); [reflexivity|cbn [length] in Hlen; lia]).
    red. cbn [fst snd]. split; [lia|]. split; [exact H6|]. split; [lia|]. split.
    { rewrite H2. unfold dataSet. rewrite Hct, Hnil. reflexivity. }
    rewrite Hct, Hnil. cbn [length]. destruct oe as [e|].
    + destruct H7 as (-> & P1 & P2 & P3). split; [lia|]. split; [lia|]. split; [exact P3|]. split.
      * intros _. split; [exact P1|]. split; [exact H4|]. right. lia.
      * intros H. congruence.
    + destruct H7 as (P1 & P2). auto.
Qed.

Lemma copyPre_id c h ht (s : slot A T F) : preA (sacc s) = false -> copyPre c h ht s = s.
Proof. intros H. unfold copyPre. rewrite H. reflexivity. Qed.

Lemma copyBody_ok c xs r s ts smp : smp <> [] -> W c xs r s -> act (sacc s) = true ->
  R c (xs ++ spanOf ts smp) r (copyBody c ts smp s) /\
  (act (sacc (copyBody c ts smp s)) = true -> notDue c (length xs) (length xs + length smp) r).
Proof.
  intros Hsmp (H1 & H2 & H3 & H4 & H5) Ha.
  assert (Hlen : 0 < length smp) by (destruct smp; [congruence|cbn [length]; lia]).
  pose proof (content_step c xs (spanOf ts smp) r H1) as Cs. rewrite spanOf_length in Cs. cbn zeta in Cs.
  pose proof (content_length c xs r H1) as Cl. cbn zeta in Cl.
  remember (length (content c xs r)) as L eqn:HL.
  unfold copyBody. rewrite H4. unfold dataSet. rewrite vals_dsOf, <- HL.
  remember (if nMax c =? 0 then length smp else min (nMax c - L) (length smp)) as room eqn:HR.
  assert (RD : (nMax c = 0 /\ room = length smp) \/ (nMax c <> 0 /\ room = min (nMax c - L) (length smp))).
  { destruct (nMax c =? 0) eqn:E; [left|right]; split; lia. }
  assert (Hroom : room <= length smp) by lia. clear HR.
  destruct r as [b [e|]]; cbn [fst snd] in *.
  - destruct H5 as (E1 & E2 & E3 & E4 & _). destruct (E4 Ha) as (P1 & P2 & P3). rewrite P1. cbn [negb].
    remember (e + nPost c - (b - nPre c)) as q eqn:Hq.
    assert (LD : (nMax c = 0 /\ L = min q (length xs - (b - nPre c))) \/ (nMax c <> 0 /\ L = min (nMax c) (min q (length xs - (b - nPre c))))).
    { destruct (nMax c =? 0) eqn:E; [left|right]; split; lia. }
    clear Cl.
    assert (Hk : min room (rem (sacc s)) = min room (q - L)).
    { clear -P3 RD. destruct P3 as [[P3 P3']|P3]; [|lia]. assert (room = 0) by lia. lia. }
    rewrite Hk. remember (min room (q - L)) as k eqn:Kd.
    assert (Kle : k <= length smp) by (clear -Kd Hroom; lia). rewrite take_ds by (first [assumption | congruence]). rewrite <- Cs.
    assert (Lq : L <= q) by (clear -LD; lia).
    destruct (0 <? k) eqn:Ek.
    + apply Nat.ltb_lt in Ek.
      assert (Hlk : length (content c (xs ++ spanOf ts smp) (b, Some e)) = L + k).
      { rewrite Cs, app_length. rewrite <- HL. rewrite firstn_length, spanOf_length, Nat.min_l by exact Kle. reflexivity. }
      assert (Hrem : rem (sacc s) = q - L).
      { clear -P3 RD Ek Kd. destruct P3 as [[P3 P3']|P3]; [|lia]. assert (room = 0) by lia. lia. }
      assert (HLp : L = min q (length xs - (b - nPre c))) by (clear -LD RD Ek Kd; lia).
      assert (Hmore : forall x y : bool, x && negb (rem (sacc s) - k =? 0) = true -> k < q - L).
      { intros x y Hm. apply andb_true_iff in Hm. destruct Hm as [_ Hm]. apply negb_true_iff, Nat.eqb_neq in Hm. clear -Hm Hrem. lia. }
      clear LD P3 Hk.
      cbn [sacc sds sfl]. unfold updatePost. split.
      * split.
        { split; [rewrite app_length; cbn [fst]; lia|]. cbn [preA nP sds sacc fst snd]. split; [exact H2|]. split; [exact H3|]. split; [reflexivity|].
          split; [exact E1|]. split; [rewrite app_length; lia|]. split; [exact E3|]. cbn [act postA nS rem]. rewrite Hlk. split.
          - intros Hm. split; [rewrite P1; apply andb_true_iff in Hm; exact (proj2 Hm)|]. split; [clear -P2; lia|]. right. rewrite <- Hq. clear -Hrem Lq Kd. lia.
          - intros Hm. rewrite Ha in Hm. cbn [andb] in Hm. apply negb_false_iff, Nat.eqb_eq in Hm.
            red. cbn [snd fst]. rewrite app_length, spanOf_length. split; [lia|]. left. clear -Hm Hrem HLp Hq Kd Hroom E2 E1. lia. }
        { cbn [sacc act postA rem]. intros Hm _. apply (Hmore _ true) in Hm. clear -Hm Hrem. lia. }
      * cbn [act]. intros Hm. red. cbn [snd]. apply (Hmore _ true) in Hm. clear -Hm HLp Hq Kd RD E2 E1 Hroom. split; [lia|]. intros Hz. lia.
    + apply Nat.ltb_ge in Ek. cbn [sacc act]. split; [|discriminate]. split; [|cbn [sacc act]; discriminate].
      assert (Hk0 : k = 0) by lia.
      assert (Ceq : content c (xs ++ spanOf ts smp) (b, Some e) = content c xs (b, Some e)) by (rewrite Cs, Hk0; cbn [firstn]; apply app_nil_r).
      split; [rewrite app_length; cbn [fst]; lia|]. cbn [preA nP sds sacc fst snd]. split; [exact H2|]. split; [exact H3|]. split; [unfold dataSet; rewrite Ceq; reflexivity|].
      split; [exact E1|]. split; [rewrite app_length; lia|]. split; [exact E3|]. cbn [act]. split; [discriminate|]. intros _.
      red. cbn [snd fst]. rewrite app_length, spanOf_length. split; [lia|]. clear -Hk0 Kd RD LD Hq Hlen E1 E2. lia.
  - destruct H5 as (E1 & E2 & E3 & E4). rewrite E2. cbn [negb]. rewrite take_ds by (first [assumption | congruence]). rewrite <- Cs. cbn [sacc act]. split; [|intros _; exact I].
    assert (Hlk : length (content c (xs ++ spanOf ts smp) (b, None)) = L + room).
    { rewrite Cs, app_length. rewrite <- HL. rewrite firstn_length, spanOf_length. lia. }
    split; [|cbn [sacc postA]; congruence].
    split; [rewrite app_length; cbn [fst]; lia|]. cbn [preA nP sds sacc fst snd]. split; [exact H2|]. split; [exact H3|]. split; [reflexivity|].
    cbn [act postA nS sfl]. split; [exact Ha|]. split; [reflexivity|]. split; [exact E3|]. rewrite Hlk. lia.
Qed.

Lemma copySlot_ok c xs r s h ht ts smp : dcfgOk c = true -> okHist c xs h -> okTags c xs ht -> smp <> [] -> U c xs r s ->
  R c (xs ++ spanOf ts smp) r (copySlot c h ht ts smp s) /\
  (act (sacc (copySlot c h ht ts smp s)) = true -> notDue c (length xs) (length xs + length smp) r).
Proof.
  intros Hc Hh Ht Hs HU. unfold copySlot. destruct (act (sacc s)) eqn:Ea.
  - destruct HU as [HW|HF].
    + rewrite copyPre_id by apply HW. apply copyBody_ok; assumption.
    + apply copyBody_ok; [exact Hs|apply copyPre_fresh; assumption|]. unfold copyPre. destruct (preA (sacc s)); [cbn [sacc act]; exact Ea|exact Ea].
  - destruct HU as [(H1 & H2 & H3 & H4 & H5)|HF]; [|red in HF; destruct HF as (_ & _ & _ & _ & HF & _); congruence].
    split; [|congruence]. split; [|congruence]. split; [rewrite app_length; lia|]. split; [exact H2|]. split; [exact H3|].
    destruct r as [b [e|]]; cbn [snd fst] in *.
    + destruct H5 as (E1 & E2 & E3 & E4 & E5). specialize (E5 Ea). split; [rewrite dataSet_done by assumption; exact H4|].
      split; [exact E1|]. split; [rewrite app_length; lia|]. split; [exact E3|]. split; [congruence|]. intros _. eapply done_mono; [|exact E5]. rewrite app_length. lia.
    + destruct H5 as (E1 & _). congruence.
Qed.

(* ---- triggers ---- *)

Context (mt : F -> option T -> F * verdict) (f0 : F) (single : bool) (SS EE : T -> bool).

Context (M : matcher mt f0 single SS EE idle open).
Context (disj : forall t, SS t = true -> EE t = false).

Lemma U_state c xs r s : U c xs r s -> match snd r with None => open (sfl s) | Some _ => idle (sfl s) end.
Proof. intros [(_ & _ & _ & _ & H)|(_ & _ & _ & _ & _ & _ & H)]; destruct (snd r); tauto. Qed.
Lemma U_open c xs r s : U c xs r s -> (negb (act (sacc s)) || postA (sacc s)) = negb (isOpen r).
Proof.
  unfold isOpen. intros [(_ & _ & _ & _ & H)|(_ & _ & _ & _ & Ha & _ & H)]; destruct (snd r).
  - destruct (act (sacc s)); [|reflexivity]. cbn [negb orb]. apply H. reflexivity.
  - destruct H as (-> & -> & _). reflexivity.
  - destruct H as (_ & -> & _). destruct (act (sacc s)); reflexivity.
  - destruct H as (-> & _). rewrite Ha. reflexivity.
Qed.

Lemma R_W c xs r s : R c xs r s -> W c xs r s. Proof. intros [H _]. exact H. Qed.

Definition quiet (t : option T) : Prop := forall f, open f -> snd (mt f t) = silent /\ open (fst (mt f t)).

Lemma setfl_U c xs r s f : U c xs r s -> isOpen r = true -> open f -> U c xs r (mkSlot (sds s) (sacc s) f).
Proof.
  unfold isOpen. intros [(H1 & H2 & H3 & H4 & H)|(H1 & H2 & H3 & H4 & H5 & H6 & H)] Ho Hf; destruct r as [b [e|]]; try discriminate; cbn [snd fst] in *.
  - left. red. cbn [snd fst sds sacc sfl]. tauto.
  - right. red. cbn [snd fst sds sacc sfl]. tauto.
Qed.

Lemma stopFirst_quiet c xs t rs sl : quiet t -> Forall2 (U c xs) rs sl -> Forall2 (U c xs) rs (stopFirst mt c t sl).
Proof.
  intros Hq H. induction H as [|r s rs sl H H' IH]; [constructor|]. cbn [stopFirst]. rewrite (U_open _ _ _ _ H). pose proof (U_state _ _ _ _ H) as Hs.
  unfold isOpen in *. destruct (snd r) eqn:Er; cbn [negb].
  - constructor; assumption.
  - destruct (Hq _ Hs) as [Q1 Q2]. destruct (mt (sfl s) t) as [f v]. cbn [fst snd] in *. subst v. cbn [vEnd silent]. constructor; [|assumption].
    apply setfl_U; [exact H|unfold isOpen; rewrite Er; reflexivity|exact Q2].
Qed.

Lemma stop_idle c xs t rs sl : existsb isOpen rs = false -> Forall2 (U c xs) rs sl -> stopFirst mt c t sl = sl.
Proof.
  intros He H. induction H as [|r s rs sl H _ IH]; [reflexivity|]. cbn [existsb] in He. apply orb_false_iff in He. destruct He as [E1 E2].
  cbn [stopFirst]. rewrite (U_open _ _ _ _ H), E1. cbn [negb]. f_equal. apply IH. exact E2.
Qed.

(* closing the earliest open range; the slots are from earlier calls *)
Lemma stop_close c xs t rs sl : EE t = true -> existsb isOpen rs = true -> Forall2 (R c xs) rs sl ->
  Forall2 (U c xs) (close (length xs) rs) (stopFirst mt c (Some t) sl).
Proof.
  intros Ht He H. induction H as [|r s rs sl H H' IH]; [discriminate|]. cbn [existsb] in He. cbn [stopFirst]. pose proof (or_introl (R_W _ _ _ _ H) : U c xs r s) as HU.
  rewrite (U_open _ _ _ _ HU). pose proof (U_state _ _ _ _ HU) as Hs.
  destruct r as [b [e|]]; unfold isOpen in He |- *; cbn [snd negb orb] in *.
  - cbn [close]. constructor; [exact HU|apply IH; exact He].
  - cbn [close]. destruct (m_open _ _ _ _ _ _ _ M (sfl s) t Hs Ht) as [Q1 Q2]. destruct (mt (sfl s) (Some t)) as [f v]. cbn [fst snd] in *. subst v. cbn [vEnd].
    constructor.
    + left. destruct H as [(H1 & H2 & H3 & H4 & P1 & P2 & P3 & P4) _]. cbn [fst snd] in *.
      assert (Hu : update c (mkV false true single) (sacc s) = mkAcc true (preA (sacc s)) true (nPost c) (nP (sacc s)) (nS (sacc s))).
      { unfold update. cbn [vStart vEnd]. rewrite andb_false_r, P1, P2. reflexivity. }
      rewrite Hu. red. cbn [fst snd sds sacc sfl preA nP act postA rem nS].
      assert (Hct : content c xs (b, Some (length xs)) = content c xs (b, None)).
      { unfold content. cbn [fst snd]. f_equal. apply firstn_all2. rewrite skipn_length. lia. }
      split; [exact H1|]. split; [exact H2|]. split; [exact H3|]. split; [rewrite H4; unfold dataSet; rewrite Hct; reflexivity|].
      split; [exact H1|]. split; [lia|]. split; [exact Q2|]. split; [|discriminate]. intros _. split; [reflexivity|]. rewrite Hct. split; [exact P4|].
      rewrite (content_length c xs (b, None)) by exact H1. cbn [fst snd]. destruct (nMax c =? 0) eqn:Em; [right; lia|].
      destruct (Nat.le_gt_cases (nMax c) (length xs - (b - nPre c))); [left; lia|right; lia].
    + clear -H'. induction H'; constructor; [left; apply R_W; assumption|assumption].
Qed.

Lemma openNew_S c t xs : SS t = true ->
  exists s, openNew mt f0 c (Some t) = [s] /\ Fresh c xs (length xs, if single then Some (length xs) else None) s.
Proof.
  intros Ht. unfold openNew. destruct (m_idle _ _ _ _ _ _ _ M f0 t (m_f0 _ _ _ _ _ _ _ M) Ht) as [Q1 Q2].
  destruct (mt f0 (Some t)) as [f v]. cbn [fst snd] in *. subst v. cbn [vStart]. eexists. split; [reflexivity|].
  unfold Fresh. destruct single; cbn; repeat split; auto.
Qed.
Lemma openNew_no c t : match t with Some t => SS t = false | None => True end -> openNew mt f0 c t = @nil (slot A T F).
Proof.
  intros Ht. unfold openNew. assert (Q : snd (mt f0 t) = silent).
  { destruct t as [t|]; [apply (m_idle_no _ _ _ _ _ _ _ M f0 t (m_f0 _ _ _ _ _ _ _ M) Ht)|apply (m_idle_none _ _ _ _ _ _ _ M f0 (m_f0 _ _ _ _ _ _ _ M))]. }
  destruct (mt f0 t) as [f v]. cbn [snd] in Q. subst v. reflexivity.
Qed.

Lemma find_ext {X} (f g : X -> bool) l : (forall x, f x = g x) -> find f l = find g l.
Proof. intros H. induction l as [|x l IH]; [reflexivity|]. cbn [find]. rewrite H, IH. reflexivity. Qed.

Lemma tried_ok c xs rs sl t : Forall2 (R c xs) rs sl ->
  existsb (fun f => triggers (snd (mt f (Some t)))) (f0 :: map sfl sl) = SS t || (existsb isOpen rs && EE t).
Proof.
  assert (Hidle : forall f, idle f -> triggers (snd (mt f (Some t))) = SS t).
  { intros f Hf. destruct (SS t) eqn:E; [destruct (m_idle _ _ _ _ _ _ _ M f t Hf E) as [-> _]|destruct (m_idle_no _ _ _ _ _ _ _ M f t Hf E) as [-> _]]; reflexivity. }
  assert (Hopen : forall f, open f -> triggers (snd (mt f (Some t))) = EE t).
  { intros f Hf. destruct (EE t) eqn:E; [destruct (m_open _ _ _ _ _ _ _ M f t Hf E) as [-> _]|destruct (m_open_no _ _ _ _ _ _ _ M f t Hf E) as [-> _]]; reflexivity. }
  intros H. cbn [existsb]. rewrite (Hidle f0 (m_f0 _ _ _ _ _ _ _ M)). destruct (SS t) eqn:ES; [reflexivity|]. cbn [orb].
  induction H as [|r s rs sl H _ IH]; [reflexivity|]. cbn [map existsb]. rewrite IH. pose proof (U_state _ _ _ _ (or_introl (R_W _ _ _ _ H))) as Hs.
  unfold isOpen at 2. destruct (snd r).
  - rewrite (Hidle _ Hs). reflexivity.
  - rewrite (Hopen _ Hs). cbn [orb andb]. destruct (EE t), (existsb isOpen rs); reflexivity.
Qed.

Lemma trigger_step c xs rs sl ts h ht m :
  Forall2 (R c xs) rs sl ->
  let t := firstTrigger mt (tried f0 (mkDst sl h ht m)) ts in
  Forall2 (U c xs) (event single SS EE (length xs) ts rs) (stopFirst mt c t (sl ++ openNew mt f0 c t)).
Proof.
  intros H t.
  assert (HU : Forall2 (U c xs) rs sl). { clear -H. induction H; constructor; [left; apply R_W; assumption|assumption]. }
  unfold event. unfold t, firstTrigger, tried. cbn [slots].
  rewrite (find_ext (fun t => existsb (fun f => triggers (snd (mt f (Some t)))) (f0 :: map sfl sl)) (fun t => SS t || (existsb isOpen rs && EE t))) by (intros t'; apply (tried_ok c xs); exact H).
  destruct (find _ ts) as [t'|] eqn:Ef.
  - apply find_some in Ef. destruct Ef as [_ Ef]. destruct (SS t') eqn:ES.
    + destruct (openNew_S c t' xs ES) as (s & -> & HF). apply stopFirst_quiet; [|apply Forall2_app; [exact HU|constructor; [right; exact HF|constructor]]].
      intros f Hf. apply (m_open_no _ _ _ _ _ _ _ M f t' Hf). apply disj. exact ES.
    + rewrite openNew_no, app_nil_r by exact ES. apply andb_true_iff in Ef. destruct Ef as [E1 E2]. apply stop_close; assumption.
  - assert (Hno : match hd_error ts with Some t' => SS t' = false | None => True end /\
                  (existsb isOpen rs = true -> match hd_error ts with Some t' => EE t' = false | None => True end)).
    { destruct ts as [|t' ts]; [cbn; auto|]. cbn [hd_error]. cbn [find] in Ef. destruct (SS t') eqn:ES; [discriminate|].
      split; [reflexivity|]. intros Ho. rewrite Ho in Ef. cbn [orb andb] in Ef. destruct (EE t'); [discriminate|reflexivity]. }
    destruct Hno as [N1 N2]. rewrite openNew_no, app_nil_r by exact N1. destruct (existsb isOpen rs) eqn:Eo.
    + specialize (N2 eq_refl). apply stopFirst_quiet; [|exact HU]. intros f Hf. destruct (hd_error ts) as [t'|].
      * apply (m_open_no _ _ _ _ _ _ _ M f t' Hf N2).
      * apply (m_open_none _ _ _ _ _ _ _ M f Hf).
    + rewrite (stop_idle c xs _ rs) by assumption. exact HU.
Qed.

End P.
