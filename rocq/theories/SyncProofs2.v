(* Proofs about the synchronising block, part two: the call that aligns. *)

From Coq Require Import Arith NArith List Bool Sorted Lia.
From Coq Require Import ZifyBool ZifyNat ZifyN.
From Verif Require Import SyncModel SyncSpec SyncProofs.
Import ListNotations.

Local Open Scope nat_scope.

Section Align.

Context {A : Type}.

Lemma nth_firstn_lt (q : nat) : forall m (l : list A), q < m -> nth_error (firstn m l) q = nth_error l q.
Proof.
  induction q as [|q IH]; intros [|m] [|x l] H; cbn; try reflexivity; try lia. apply IH. lia.
Qed.

(* the aligning call: common position, common length, the tag that was found *)
Lemma aligned_core c st (ins : list (sspan A)) outs T :
  goodCall st ins outs -> earliestCommon c ins T -> T <> noTime ->
  exists st' rs k pos, syncBulk c st ins outs = (st', rs) /\ synced st' = true
    /\ (forall cap, In cap outs -> k <= cap)
    /\ (k = minl outs
        \/ exists sp t, In sp ins /\ find (fun t => within c (getTime t) T) (stgs sp) = Some t
             /\ exists pre, k = pre + 1 + postSamples c sp (tRel t) /\ pre = pos)
    /\ forall i sp, nth_error ins i = Some sp ->
       exists r t, nth_error rs i = Some r /\ length (pOut r) = k
         /\ find (fun t => within c (getTime t) T) (stgs sp) = Some t
         /\ In t (stgs sp) /\ close c (getTime t) T /\ tRel t < length (ssmp sp)
         /\ tRel t = skipped r + pos
         /\ pos <= preSamples c sp (tRel t)
         /\ k <= pos + 1 + postSamples c sp (tRel t)
         /\ forall p, p < k -> nth_error (pOut r) p = nth_error (ssmp sp) (skipped r + p).
Proof.
  intros H HT Hn. pose proof H as (Hne & Hlo & Hln & Ho).
  assert (ET : findSyncTime c ins = Some T) by (apply findSyncTime_some; auto).
  destruct (synchronize_some c ins T Ho ET) as [Hl Hd].
  unfold syncBulk. cbn zeta. rewrite (proj2 (Nat.eqb_eq _ _) Hl).
  set (minPre := minl (map dPre (synchronize c ins))) in *.
  set (minPost := minl (map dPost (synchronize c ins))) in *.
  set (k := Nat.min (minPre + 1 + minPost) (minl outs)) in *.
  eexists _, _, k, minPre. split; [reflexivity|]. split; [reflexivity|].
  split; [intros cap Hc; pose proof (minl_le outs cap Hc); lia|]. split.
  - destruct (Nat.le_gt_cases (minl outs) (minPre + 1 + minPost)) as [L|L]; [left; lia|]. right.
    assert (Hne2 : map dPost (synchronize c ins) <> []).
    { intros E. apply (f_equal (@length _)) in E. rewrite map_length, Hl in E. destruct ins; [congruence|discriminate]. }
    pose proof (minl_in _ Hne2) as Hin. fold minPost in Hin. apply in_map_iff in Hin. destruct Hin as (dd & E1 & E2).
    apply In_nth_error in E2. destruct E2 as (i & Ei).
    assert (Li : i < length ins) by (rewrite <- Hl; apply nth_error_Some; congruence).
    destruct (nth_error ins i) as [sp|] eqn:Es; [|apply nth_error_None in Es; lia].
    pose proof (nth_error_In _ _ Es) as Hsp.
    destruct (dataOf_common c ins T sp (proj1 HT) Ho Hsp) as (t & F & _ & _ & _ & Ed).
    rewrite (Hd i sp Es), Ed in Ei. injection Ei as <-. cbn [dPost] in E1.
    exists sp, t. split; [exact Hsp|]. split; [exact F|]. exists minPre. split; [lia|reflexivity].
  - intros i sp Hsp. pose proof (nth_error_In _ _ Hsp) as Hin.
    assert (Li : i < length (nDrop st)) by (rewrite Hln; apply nth_error_Some; congruence).
    destruct (nth_error (nDrop st) i) as [pp|] eqn:Ep; [|apply nth_error_None in Ep; lia].
    destruct (dataOf_common c ins T sp (proj1 HT) Ho Hin) as (t & F & Ht & W & Hlt & Ed).
    specialize (Hd i sp Hsp). rewrite Ed in Hd. set (dd := mkData _ _ _) in *.
    assert (L1 : minPre <= dPre dd) by (apply minl_le, in_map; eapply nth_error_In; exact Hd).
    assert (L2 : minPost <= dPost dd) by (apply minl_le, in_map; eapply nth_error_In; exact Hd).
    cbn [dPre dPost dd] in L1, L2.
    pose proof (preSamples_le c sp (tRel t)). pose proof (postSamples_le c sp (tRel t) Hlt).
    exists (alignPort minPre k sp dd pp), t.
    split; [rewrite map3_nth, Hsp, Hd, Ep; reflexivity|].
    assert (Lo : length (pOut (alignPort minPre k sp dd pp)) = k).
    { unfold alignPort. cbn [pOut dIdx dd]. rewrite firstn_length, skipn_length. lia. }
    assert (Sk : skipped (alignPort minPre k sp dd pp) = tRel t - minPre).
    { unfold skipped. rewrite Lo. unfold alignPort. cbn [pCons dIdx dd]. lia. }
    split; [exact Lo|]. split; [exact F|]. split; [exact Ht|]. split; [exact W|]. split; [exact Hlt|].
    rewrite Sk. split; [lia|]. split; [lia|]. split; [lia|]. intros p Hp. unfold alignPort. cbn [pOut dIdx dd].
    rewrite nth_firstn_lt by exact Hp. apply nth_error_skipn_some.
Qed.

(* at most one trigger before a position: the samples in front begin behind it *)
Lemma preSamples_single c (sp : sspan A) i t : In t (stgs sp) -> tRel t < i -> isSync c t = true ->
  (forall u, In u (stgs sp) -> tRel u < i -> isSync c u = true -> tRel u = tRel t) ->
  preSamples c sp i = i - tRel t - 1.
Proof.
  intros Ht Hi Hs Hu. unfold preSamples. destruct (find _ _) as [u|] eqn:E.
  - apply find_some in E. destruct E as [E1 E2]. apply andb_true_iff in E2. destruct E2 as [E2 E3].
    apply Nat.ltb_lt in E2. rewrite (Hu u E1 E2 E3). reflexivity.
  - exfalso. pose proof (find_none _ _ E t Ht) as Q. cbn beta in Q. rewrite Hs, andb_true_r in Q. apply Nat.ltb_ge in Q. lia.
Qed.

(* no common time: no data *)
Lemma not_synchronized c (ins : list (sspan A)) : ins <> [] ->
  (forall T, common c ins T -> T = noTime) -> (length (synchronize c ins) =? length ins) = false.
Proof.
  intros Hne H. destruct (findSyncTime c ins) as [T|] eqn:E.
  - apply findSyncTime_some in E. destruct E as [[E _] N]. exfalso. apply N. apply H. exact E.
  - unfold synchronize. rewrite E. destruct ins; [congruence|reflexivity].
Qed.

End Align.
