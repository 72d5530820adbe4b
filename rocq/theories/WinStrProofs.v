From Coq Require Import Arith Lia Bool List Sorted.
From Verif Require Import WinModel WinSpec WinStrSpec.
From Verif Require WinProofs.
Import ListNotations.

Local Open Scope nat_scope.

Section L.
Context {A T : Type}.

(* ---------- the history ---------- *)

Definition hist (c : wcfg) (p : list A) : list A := if 0 <? nPre c then firstn (1024 + nPre c) (rev p) else [].

Definition by_index (a b : nat * T) : Prop := fst a <= fst b.

Record HRel (c : wcfg) (p : list A) (pd : list (nat * T)) (h : list A) (ht : list (nat * T)) (mg : list T) : Prop := {
  hr_h : h = hist c p;
  hr_t : ht = map (fun e => (length p - fst e, snd e)) (filter (fun e => negb (old c (length p) e)) pd);
  hr_m : mg = map snd (filter (old c (length p)) pd);
  hr_lt : Forall (fun e => fst e < length p) pd;
  hr_s : StronglySorted by_index pd }.

Lemma old_split c n pd : StronglySorted by_index pd -> filter (old c n) pd ++ filter (fun e => negb (old c n e)) pd = pd.
Proof.
  induction 1 as [|e l H IH F]; [reflexivity|]. cbn [filter]. destruct (old c n e) eqn:E; cbn [negb app]; [f_equal; exact IH|].
  assert (N : filter (old c n) l = []).
  { clear IH H. induction F as [|y l Hy _ IHF]; [reflexivity|]. cbn [filter]. unfold old in *. unfold by_index in Hy.
    apply Nat.ltb_ge in E. destruct (nPre c <? n - fst y) eqn:Ey; [apply Nat.ltb_lt in Ey; lia|exact IHF]. }
  rewrite N. cbn [app]. f_equal. rewrite N in IH. exact IH.
Qed.

Lemma filter_filter {X} (f g : X -> bool) l : filter f (filter g l) = filter (fun x => g x && f x) l.
Proof. induction l as [|x l IH]; [reflexivity|]. cbn [filter]. destruct (g x); cbn [filter andb]; [destruct (f x); rewrite IH; reflexivity|exact IH]. Qed.

Lemma filter_map {X Y} (f : Y -> bool) (g : X -> Y) l : filter f (map g l) = map g (filter (fun x => f (g x)) l).
Proof. induction l as [|x l IH]; [reflexivity|]. cbn [filter map]. destruct (f (g x)); cbn [map]; rewrite IH; reflexivity. Qed.

Lemma filter_eq {X} (f g : X -> bool) l : Forall (fun x => f x = g x) l -> filter f l = filter g l.
Proof. induction 1 as [|x l H _ IH]; [reflexivity|]. cbn [filter]. rewrite H, IH. reflexivity. Qed.

Lemma filter_none {X} (f : X -> bool) l : Forall (fun x => f x = false) l -> filter f l = [].
Proof. induction 1 as [|x l H _ IH]; [reflexivity|]. cbn [filter]. rewrite H. exact IH. Qed.

Lemma sorted_app (l m : list (nat * T)) : StronglySorted by_index l -> StronglySorted by_index m ->
  Forall (fun e => Forall (by_index e) m) l -> StronglySorted by_index (l ++ m).
Proof.
  induction 1 as [|e l H IH F]; intros Hm Ha; [exact Hm|]. apply Forall_cons_iff in Ha. destruct Ha as [He Ha]. cbn [app]. constructor; [apply IH; assumption|].
  apply Forall_app. split; assumption.
Qed.

Lemma sorted_same i (ts : list T) : StronglySorted by_index (map (pair i) ts).
Proof.
  induction ts as [|t ts IH]; [constructor|]. cbn [map]. constructor; [exact IH|]. apply Forall_forall. intros e He. apply in_map_iff in He.
  destruct He as (u & <- & _). unfold by_index. cbn [fst]. lia.
Qed.

Lemma push_hist c smp p : pushHist c smp (hist c p) = hist c (p ++ smp).
Proof.
  unfold pushHist, hist. destruct (0 <? nPre c); [|reflexivity]. rewrite rev_app_distr. rewrite !firstn_app. f_equal. rewrite firstn_firstn. f_equal. lia.
Qed.

Lemma grow_ok c (p q : list A) pd (ts : list T) : Forall (fun e => fst e < length p) pd -> StronglySorted by_index pd -> q <> [] ->
  Forall (fun e => fst e < length (p ++ q)) (pd ++ map (pair (length p)) ts) /\ StronglySorted by_index (pd ++ map (pair (length p)) ts) /\
  filter (old c (length p)) pd ++ filter (old c (length (p ++ q))) (filter (fun e => negb (old c (length p) e)) pd ++ map (pair (length p)) ts)
    = filter (old c (length (p ++ q))) (pd ++ map (pair (length p)) ts) /\
  filter (fun e => negb (old c (length (p ++ q)) e)) (filter (fun e => negb (old c (length p) e)) pd ++ map (pair (length p)) ts)
    = filter (fun e => negb (old c (length (p ++ q)) e)) (pd ++ map (pair (length p)) ts).
Proof.
  intros Hl Hs Hq. assert (Hn : length (p ++ q) = length p + length q) by apply app_length.
  assert (0 < length q) by (destruct q; [congruence|cbn; lia]).
  assert (Mono : forall e : nat * T, old c (length p) e = true -> old c (length (p ++ q)) e = true).
  { intros e. unfold old. rewrite !Nat.ltb_lt. lia. }
  split. { apply Forall_app. split; [eapply Forall_impl; [|exact Hl]; cbn beta; intros; lia|]. apply Forall_forall. intros e He. apply in_map_iff in He. destruct He as (u & <- & _). cbn [fst]. lia. }
  split. { apply sorted_app; [exact Hs|apply sorted_same|]. eapply Forall_impl; [|exact Hl]. cbn beta. intros e He. apply Forall_forall. intros y Hy. apply in_map_iff in Hy. destruct Hy as (u & <- & _). unfold by_index. cbn [fst]. lia. }
  rewrite !filter_app, app_assoc. split; f_equal.
  - rewrite <- (old_split c (length p) pd Hs) at 3. rewrite filter_app. f_equal. symmetry. apply WinProofs.filter_all. apply Forall_forall. intros e He. apply filter_In in He. apply Mono, He.
  - rewrite filter_filter. apply filter_eq. apply Forall_forall. intros e _. destruct (old c (length p) e) eqn:E; [rewrite (Mono _ E); reflexivity|reflexivity].
Qed.

End L.

Section U.
Context {A T F : Type}.

Definition HR (c : wcfg) (p : list A) (pd : list (nat * T)) (st : sst A T F) : Prop := HRel c p pd (shist st) (shtags st) (smerged st).

Lemma upd_ok c ts smp n (b : bool) (st : sst A T F) p pd : 0 < n -> n <= length smp -> HR c p pd st ->
  HR c (p ++ firstn n smp) (pd ++ (if b then map (pair (length p)) ts else [])) (updateHistoryS c ts smp n b st) /\
  sf (updateHistoryS c ts smp n b st) = sf st /\ sa (updateHistoryS c ts smp n b st) = sa st.
Proof.
  intros H0 Hn [H1 H2 H3 H4 H5]. unfold updateHistoryS. replace (min n (length smp)) with n by lia. assert (E0 : (0 <? n) = true) by (apply Nat.ltb_lt; exact H0). rewrite E0.
  assert (Hq : firstn n smp <> []) by (destruct n, smp; cbn in *; try lia; discriminate).
  assert (Hlq : length (firstn n smp) = n) by (apply firstn_length_le; exact Hn).
  set (tt := if b then ts else []). replace (if b then map (pair (length p)) ts else []) with (map (pair (length p)) tt) by (unfold tt; destruct b; reflexivity).
  destruct (grow_ok c p (firstn n smp) pd tt H4 H5 Hq) as (G1 & G2 & G3 & G4).
  assert (Hlen : length (p ++ firstn n smp) = length p + n) by (rewrite app_length, Hlq; reflexivity).
  destruct (0 <? nPre c) eqn:Ep; (split; [|split; reflexivity]); constructor; cbn [shist shtags smerged]; try assumption.
  - rewrite H1. apply push_hist.
  - unfold age. rewrite Ep, H2. rewrite <- G4. clear G3 G4. rewrite filter_map. rewrite !filter_app, !map_app.
    rewrite (filter_map _ (fun e => (length p - fst e, snd e))), (filter_map _ (pair 0)), (filter_map _ (pair (length p))), !map_map. f_equal.
    + rewrite (filter_eq _ (fun e => negb (old c (length (p ++ firstn n smp)) e))).
      * apply map_ext_in. intros e He. apply filter_In in He. destruct He as [He _]. apply filter_In in He. destruct He as [He _]. rewrite Forall_forall in H4. specialize (H4 _ He). cbn [fst snd]. f_equal. rewrite Hlen. lia.
      * apply Forall_forall. intros e He. apply filter_In in He. destruct He as [He _]. rewrite Forall_forall in H4. specialize (H4 _ He). cbn [fst snd]. unfold old. rewrite Hlen.
        replace (length p + n - fst e) with (length p - fst e + n) by lia. destruct (length p - fst e + n <=? nPre c) eqn:L; [apply Nat.leb_le in L|apply Nat.leb_gt in L]; symmetry; [apply negb_true_iff, Nat.ltb_ge|apply negb_false_iff, Nat.ltb_lt]; lia.
    + assert (Q : (0 + n <=? nPre c) = negb (nPre c <? length (p ++ firstn n smp) - length p)).
      { rewrite Hlen. replace (length p + n - length p) with n by lia. cbn [plus]. destruct (n <=? nPre c) eqn:L; [apply Nat.leb_le in L|apply Nat.leb_gt in L]; symmetry; [apply negb_true_iff, Nat.ltb_ge|apply negb_false_iff, Nat.ltb_lt]; lia. }
      cbn [fst snd]. unfold old. cbn [fst]. rewrite Q. destruct (negb _).
      * rewrite !WinProofs.filter_all by (apply Forall_forall; reflexivity). apply map_ext. intros t. rewrite Hlen. f_equal. lia.
      * rewrite !filter_none by (apply Forall_forall; reflexivity). reflexivity.
  - unfold age. rewrite Ep, H2, H3. rewrite <- G3. clear G3 G4. rewrite filter_map. rewrite !filter_app, !map_app. f_equal.
    rewrite (filter_map _ (fun e => (length p - fst e, snd e))), (filter_map _ (pair 0)), (filter_map _ (pair (length p))), !map_map. f_equal.
    + rewrite (filter_eq _ (fun e => old c (length (p ++ firstn n smp)) e)).
      * reflexivity.
      * apply Forall_forall. intros e He. apply filter_In in He. destruct He as [He _]. rewrite Forall_forall in H4. specialize (H4 _ He). cbn [fst snd]. unfold old. rewrite Hlen.
        replace (length p + n - fst e) with (length p - fst e + n) by lia. destruct (length p - fst e + n <=? nPre c) eqn:L; [apply Nat.leb_le in L|apply Nat.leb_gt in L]; symmetry; [apply Nat.ltb_ge|apply Nat.ltb_lt]; lia.
    + assert (Q : negb (0 + n <=? nPre c) = (nPre c <? length (p ++ firstn n smp) - length p)).
      { rewrite Hlen. replace (length p + n - length p) with n by lia. cbn [plus]. destruct (n <=? nPre c) eqn:L; [apply Nat.leb_le in L|apply Nat.leb_gt in L]; symmetry; [apply Nat.ltb_ge|apply Nat.ltb_lt]; lia. }
      cbn [fst snd]. unfold old. cbn [fst]. rewrite Q. destruct (nPre c <? length (p ++ firstn n smp) - length p).
      * rewrite !WinProofs.filter_all by (apply Forall_forall; reflexivity). reflexivity.
      * rewrite !filter_none by (apply Forall_forall; reflexivity). reflexivity.
  - rewrite H1. unfold hist. rewrite Ep. reflexivity.
  - assert (Z : nPre c = 0) by (apply Nat.ltb_ge in Ep; lia).
    assert (AO : forall l : list (nat * T), Forall (fun e => fst e < length p) l -> filter (fun e => negb (old c (length p) e)) l = []).
    { intros l Hl. apply filter_none. eapply Forall_impl; [|exact Hl]. cbn beta. intros e He. apply negb_false_iff. unfold old. apply Nat.ltb_lt. lia. }
    rewrite H2, AO by exact H4. cbn [map]. rewrite (filter_none (fun e => negb (old c (length (p ++ firstn n smp)) e))); [reflexivity|].
    eapply Forall_impl; [|exact G1]. cbn beta. intros e He. apply negb_false_iff. unfold old. apply Nat.ltb_lt. lia.
  - assert (Z : nPre c = 0) by (apply Nat.ltb_ge in Ep; lia).
    rewrite H3. rewrite (WinProofs.filter_all (old c (length p))) by (eapply Forall_impl; [|exact H4]; cbn beta; intros e He; unfold old; apply Nat.ltb_lt; lia).
    rewrite (WinProofs.filter_all (old c (length (p ++ firstn n smp)))) by (eapply Forall_impl; [|exact G1]; cbn beta; intros e He; unfold old; apply Nat.ltb_lt; lia).
    rewrite map_app, map_map. cbn [snd]. rewrite map_id. fold tt. reflexivity.
Qed.
End U.
