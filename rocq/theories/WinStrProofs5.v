From Coq Require Import Arith Lia Bool List Sorted.
From Verif Require Import WinModel WinSpec WinStrSpec WinStrProofs WinStrProofs2 WinStrProofs3 WinStrProofs4.
From Verif Require WinProofs.
Import ListNotations.

Local Open Scope nat_scope.

Section G.
Context {A T : Type}.

(* ---------- the tags of the machine ---------- *)

Definition ofTag (e : nat * otag T) : list T := match snd e with Merged l => l | Own t => [t] end.
Definition carried (l : list (nat * otag T)) : list T := flat_map ofTag l.

Lemma carried_app a b : carried (a ++ b) = carried a ++ carried b.
Proof. apply flat_map_app. Qed.
Lemma carried_merged p (l : list (nat * T)) : carried (mergedAt p l) = map snd l.
Proof. unfold mergedAt. destruct l; [reflexivity|]. cbn. rewrite app_nil_r. reflexivity. Qed.
Lemma carried_own (f : nat * T -> nat) l : carried (map (fun e => (f e, Own (snd e))) l) = map snd l.
Proof. induction l as [|e l IH]; [reflexivity|]. cbn. f_equal. exact IH. Qed.
Lemma carried_own' o (l : list T) : carried (map (fun t => (o, Own t)) l) = l.
Proof. induction l as [|e l IH]; [reflexivity|]. cbn. f_equal. exact IH. Qed.

Record TInv (zs : stream A T) (r : ref A T) : Prop := {
  t_past : past r = map fst zs;
  t_all : carried (rtags r) ++ map snd (pend r) = allTags zs;
  t_lt : Forall (fun e => fst e < length (past r)) (pend r);
  t_sort : StronglySorted by_index (pend r);
  t_pend : forall i t, In (i, t) (pend r) -> exists x ts, nth_error zs i = Some (x, ts) /\ In t ts;
  t_own : forall p t, In (p, Own t) (rtags r) -> exists i x ts, nth_error zs i = Some (x, ts) /\ In t ts /\ nth_error (rout r) p = Some x;
  t_in : forall p l, In (p, Merged l) (rtags r) -> p < length (rout r) }.

Context (c : wcfg) (single : bool) (SS EE : T -> bool).

Lemma ev_same ts (r : ref A T) : past (ev c single SS EE ts r) = past r /\ pend (ev c single SS EE ts r) = pend r /\
  rout (ev c single SS EE ts r) = rout r /\ rtags (ev c single SS EE ts r) = rtags r.
Proof.
  unfold ev. destruct single; [destruct (existsb SS ts); [destruct (md r)|]|destruct (opened r); [destruct (existsb EE ts)|destruct (existsb SS ts); [destruct (md r)|]]]; repeat split; reflexivity.
Qed.

Lemma ev_T zs ts r : TInv zs r -> TInv zs (ev c single SS EE ts r).
Proof. destruct (ev_same ts r) as (E1 & E2 & E3 & E4). intros [H1 H2 H3 H4 H5 H6 H7]. constructor; rewrite ?E1, ?E2, ?E3, ?E4; assumption. Qed.

Lemma mergedAt_in p q (l : list (nat * T)) o : In (p, o) (mergedAt q l) -> p = q /\ exists m, o = Merged m.
Proof. unfold mergedAt. destruct l; [intros []|]. intros [E|[]]. injection E as <- <-. split; [reflexivity|eexists; reflexivity]. Qed.

Lemma nth_skipn {X} k : forall (l : list X) i, nth_error (skipn k l) i = nth_error l (k + i).
Proof. induction k as [|k IH]; intros l i; [reflexivity|]. destruct l as [|x l]; [cbn; destruct i; reflexivity|]. cbn [skipn plus nth_error]. apply IH. Qed.

Lemma flush_T zs r : TInv zs r -> TInv zs (flush c r).
Proof.
  intros [H1 H2 H3 H4 H5 H6 H7]. unfold flush. destruct (due r); [|constructor; assumption]. destruct (min (nPre c) (length (past r)) =? 0) eqn:E; [constructor; assumption|].
  apply Nat.eqb_neq in E. remember (min (nPre c) (length (past r))) as np eqn:Enp. assert (Hnp : np <= nPre c /\ np <= length (past r) /\ (np = nPre c \/ np = length (past r))) by lia.
  assert (Hsk : length (skipn (length (past r) - np) (past r)) = np) by (rewrite skipn_length; lia).
  constructor; cbn [past pend rout rtags]; try assumption; try (constructor; fail).
  - rewrite !carried_app, carried_merged, (carried_own (fun e => length (rout r) + (fst e - (length (past r) - np)))). cbn [map]. rewrite app_nil_r, <- H2. f_equal. rewrite <- map_app. f_equal. apply old_split. exact H4.
  - intros i t [].
  - intros p t Hin. apply in_app_iff in Hin. destruct Hin as [Hin|Hin].
    + destruct (H6 p t Hin) as (i & x & ts & Q1 & Q2 & Q3). exists i, x, ts. split; [exact Q1|]. split; [exact Q2|]. rewrite nth_error_app1; [exact Q3|]. apply nth_error_Some. congruence.
    + apply in_app_iff in Hin. destruct Hin as [Hin|Hin]; [apply mergedAt_in in Hin; destruct Hin as (_ & m & Hm); discriminate|].
      apply in_map_iff in Hin. destruct Hin as ((i & u) & He & Hin). injection He as <- ->. cbn [fst]. unfold recent in Hin. apply filter_In in Hin. destruct Hin as [Hin Ho]. cbn [fst] in Ho.
      rewrite Forall_forall in H3. pose proof (H3 _ Hin) as Hlt. cbn [fst] in Hlt. unfold old in Ho. apply negb_true_iff, Nat.ltb_ge in Ho. cbn [fst] in Ho.
      destruct (H5 i t Hin) as (x & ts & Q1 & Q2). exists i, x, ts. split; [exact Q1|]. split; [exact Q2|].
      rewrite nth_error_app2 by lia. rewrite nth_skipn, H1. replace (_ + _) with i by (rewrite H1 in *; lia). rewrite (map_nth_error fst _ _ Q1). reflexivity.
  - intros p l Hin. rewrite app_length, Hsk. apply in_app_iff in Hin. destruct Hin as [Hin|Hin]; [specialize (H7 _ _ Hin); lia|].
    apply in_app_iff in Hin. destruct Hin as [Hin|Hin]; [apply mergedAt_in in Hin; destruct Hin as [-> _]; lia|].
    apply in_map_iff in Hin. destruct Hin as (e & He & _). discriminate.
Qed.

Lemma take_T zs z r : TInv zs r -> TInv (zs ++ [z]) (take z r).
Proof.
  intros [H1 H2 H3 H4 H5 H6 H7]. destruct z as [x ts].
  assert (Hlz : length (past r) = length zs) by (rewrite H1, map_length; reflexivity).
  assert (Hself : nth_error (zs ++ [(x, ts)]) (length (past r)) = Some (x, ts)) by (rewrite nth_error_app2, Hlz, Nat.sub_diag by lia; reflexivity).
  assert (Hkeep : forall i y us, nth_error zs i = Some (y, us) -> nth_error (zs ++ [(x, ts)]) i = Some (y, us)).
  { intros i y us Q. rewrite nth_error_app1; [exact Q|]. apply nth_error_Some. congruence. }
  assert (Hall : allTags (zs ++ [(x, ts)]) = allTags zs ++ ts) by (unfold allTags; rewrite flat_map_app; cbn; rewrite app_nil_r; reflexivity).
  assert (SK : forall m, TInv (zs ++ [(x, ts)]) (mkRef (past r ++ [x]) (pend r ++ map (pair (length (past r))) ts) (opened r) m (due r) (rout r) (rtags r))).
  { intros m. destruct (grow_ok c (past r) [x] (pend r) ts H3 H4 ltac:(discriminate)) as (G1 & G2 & _). constructor; cbn [past pend rout rtags].
    - rewrite map_app, H1. reflexivity.
    - rewrite Hall, <- H2, map_app, map_map. cbn [snd]. rewrite map_id, <- app_assoc. reflexivity.
    - exact G1.
    - exact G2.
    - intros i t Hin. apply in_app_iff in Hin. destruct Hin as [Hin|Hin]; [destruct (H5 _ _ Hin) as (y & us & Q1 & Q2); exists y, us; auto|].
      apply in_map_iff in Hin. destruct Hin as (u & Hu & Hin). injection Hu as <- ->. exists x, ts. auto.
    - intros p t Hin. destruct (H6 _ _ Hin) as (i & y & us & Q1 & Q2 & Q3). exists i, y, us. auto.
    - exact H7. }
  assert (PA : forall m, TInv (zs ++ [(x, ts)]) (mkRef (past r ++ [x]) [] (opened r) m (due r) (rout r ++ [x]) (rtags r ++ mergedAt (length (rout r)) (pend r) ++ map (fun t => (length (rout r), Own t)) ts))).
  { intros m. constructor; cbn [past pend rout rtags]; try (constructor; fail).
    - rewrite map_app, H1. reflexivity.
    - rewrite Hall, <- H2, !carried_app, carried_merged, carried_own'. cbn [map]. rewrite app_nil_r, app_assoc. reflexivity.
    - intros i t [].
    - intros p t Hin. apply in_app_iff in Hin. destruct Hin as [Hin|Hin].
      + destruct (H6 _ _ Hin) as (i & y & us & Q1 & Q2 & Q3). exists i, y, us. split; [auto|]. split; [exact Q2|]. rewrite nth_error_app1; [exact Q3|]. apply nth_error_Some. congruence.
      + apply in_app_iff in Hin. destruct Hin as [Hin|Hin]; [apply mergedAt_in in Hin; destruct Hin as (_ & q & Hq); discriminate|].
        apply in_map_iff in Hin. destruct Hin as (u & Hu & Hin). injection Hu as <- ->. exists (length (past r)), x, ts. split; [exact Hself|]. split; [exact Hin|]. rewrite nth_error_app2, Nat.sub_diag by lia. reflexivity.
    - intros p l Hin. rewrite app_length. cbn [length]. apply in_app_iff in Hin. destruct Hin as [Hin|Hin]; [specialize (H7 _ _ Hin); lia|].
      apply in_app_iff in Hin. destruct Hin as [Hin|Hin]; [apply mergedAt_in in Hin; destruct Hin as [-> _]; lia|]. apply in_map_iff in Hin. destruct Hin as (e & He & _). discriminate. }
  unfold take. cbn [fst snd]. destruct (md r) as [| |[|[|k]]]; first [apply SK|apply PA].
Qed.

Lemma rrun_T zs : TInv zs (rrun c single SS EE zs).
Proof.
  unfold rrun. assert (Gn : forall (zs ys : stream A T) r, TInv ys r -> TInv (ys ++ zs) (fold_left (rstep c single SS EE) zs r)).
  { clear zs. induction zs as [|z zs IH]; intros ys r H; [rewrite app_nil_r; exact H|]. cbn [fold_left]. replace (ys ++ z :: zs) with ((ys ++ [z]) ++ zs) by (rewrite <- app_assoc; reflexivity).
    apply IH. unfold rstep. apply take_T, flush_T, ev_T, H. }
  apply (Gn zs [] ref0). constructor; cbn; try reflexivity; try (constructor; fail); intros; contradiction.
Qed.

(* ---------- ranges far enough apart ---------- *)

Notation run zs r := (fold_left (rstep c single SS EE) zs r).

Definition calm (r : ref A T) : Prop := md r = Off /\ opened r = false /\ due r = false.

Lemma gap_run g : forall r, calm r -> Forall (fun z => existsb SS (snd z) = false) g ->
  calm (run g r) /\ rout (run g r) = rout r /\ past (run g r) = past r ++ map fst g.
Proof.
  induction g as [|z g IH]; intros r Hc Hg; cbn [fold_left map]; [rewrite app_nil_r; auto|]. apply Forall_cons_iff in Hg. destruct Hg as [Hz Hg].
  destruct Hc as (C1 & C2 & C3). assert (E : rstep c single SS EE r z = take z r).
  { unfold rstep, ev. rewrite Hz, C2. replace (if single then r else r) with r by (destruct single; reflexivity). rewrite (flush_not c r C3). reflexivity. }
  rewrite E. destruct (IH (take z r)) as (I1 & I2 & I3); [unfold take; rewrite C1; split; [reflexivity|split; assumption]|exact Hg|].
  split; [exact I1|]. rewrite I2, I3. unfold take. rewrite C1. cbn [rout past]. rewrite <- app_assoc. auto.
Qed.

End G.

Section G2.
Context {A T : Type}.
Context (c : wcfg) (SS EE : T -> bool).

Notation run2 zs r := (fold_left (@rstep A T c false SS EE) zs r).
Notation run1 zs r := (fold_left (@rstep A T c true SS EE) zs r).

Lemma flush_out (r : ref A T) : due r = true -> rout (flush c r) = rout r ++ skipn (length (past r) - nPre c) (past r) /\ past (flush c r) = past r /\ md (flush c r) = md r /\ opened (flush c r) = opened r.
Proof.
  intros H. unfold flush. rewrite H. destruct (min (nPre c) (length (past r)) =? 0) eqn:E; cbn [rout past md opened].
  - apply Nat.eqb_eq in E. rewrite skipn_all2 by lia. rewrite app_nil_r. auto.
  - split; [|auto]. f_equal. destruct (Nat.le_ge_cases (nPre c) (length (past r))) as [L|L]; [rewrite Nat.min_l by exact L; reflexivity|]. rewrite Nat.min_r by exact L. f_equal. lia.
Qed.

(* In the range. *)
Lemma body_run b : forall r, md r = Body -> opened r = true -> due r = false -> Forall (fun z => existsb EE (snd z) = false) b ->
  md (run2 b r) = Body /\ opened (run2 b r) = true /\ due (run2 b r) = false /\ rout (run2 b r) = rout r ++ map fst b /\ past (run2 b r) = past r ++ map fst b.
Proof.
  induction b as [|z b IH]; intros r H1 H2 H3 Hb; cbn [fold_left map]; [rewrite !app_nil_r; auto|]. apply Forall_cons_iff in Hb. destruct Hb as [Hz Hb].
  assert (E : rstep c false SS EE r z = take z r) by (unfold rstep, ev; rewrite Hz, H2, (flush_not c r H3); reflexivity).
  rewrite E. destruct (IH (take z r)) as (I1 & I2 & I3 & I4 & I5); [unfold take; rewrite H1; assumption || reflexivity ..|exact Hb|].
  rewrite I1, I2, I3, I4, I5. unfold take. rewrite H1. cbn [rout past]. rewrite <- !app_assoc. auto.
Qed.

(* Behind it: no start is heard. *)
Lemma tail_run (single : bool) q : forall (r : ref A T) j, md r = Post j -> opened r = false -> due r = false -> length q = j -> 0 < j ->
  (single = true \/ Forall (fun z => existsb SS (snd z) = false) q) ->
  let r' := fold_left (rstep c single SS EE) q r in
  calm r' /\ rout r' = rout r ++ map fst q /\ past r' = past r ++ map fst q.
Proof.
  induction q as [|z q IH]; intros r j H1 H2 H3 Hl Hj Hs; [cbn in Hl; lia|]. cbn [fold_left map]. cbn zeta.
  assert (E : rstep c single SS EE r z = take z r).
  { unfold rstep, ev. rewrite H2, H1. destruct Hs as [-> |Hs].
    - destruct (existsb SS (snd z)); rewrite (flush_not c r H3); reflexivity.
    - apply Forall_cons_iff in Hs. destruct Hs as [Hz _]. rewrite Hz. replace (if single then r else r) with r by (destruct single; reflexivity). rewrite (flush_not c r H3); reflexivity. }
  rewrite E. cbn [length] in Hl. unfold take. rewrite H1. destruct j as [|[|j]]; [lia| |].
  - destruct q; [|cbn in Hl; lia]. cbn [fold_left map rout past]. repeat split; auto.
  - match goal with |- calm (fold_left _ q ?u) /\ _ => destruct (IH u (S j)) as (I1 & I2 & I3) end; try reflexivity; try assumption; try lia.
    { destruct Hs as [Hs|Hs]; [left; exact Hs|right]. apply Forall_cons_iff in Hs. apply Hs. }
    cbn zeta in *. split; [exact I1|]. rewrite I2, I3. cbn [rout past]. rewrite <- !app_assoc. auto.
Qed.
End G2.
