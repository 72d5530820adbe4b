(** Proofs about the work loop. *)
From Coq Require Import List NArith ZArith Lia Bool Sorted.
From Coq Require Import ZifyBool ZifyNat ZifyN.
From Verif Require Import WorkModel WorkSpec.
Import ListNotations.
Local Open Scope N_scope.

(* ------------------------------------------------------------------ arithmetic *)

Lemma u64_id x : x <= umax -> u64 x = x.
Proof. intros H. unfold u64. apply N.mod_small. unfold umax in H. lia. Qed.

Lemma clamp_bounds v lo hi : lo <= hi -> lo <= clamp v lo hi <= hi.
Proof. unfold clamp; intros. destruct (N.ltb_spec v lo); [lia|]. destruct (N.ltb_spec hi v); lia. Qed.

Lemma clamp_le v lo hi : clamp v lo hi <= N.max lo v.
Proof. unfold clamp. destruct (N.ltb_spec v lo); [lia|]. destruct (N.ltb_spec hi v); lia. Qed.

Lemma div_mul_le a b : b <> 0 -> a / b * b <= a.
Proof. intros H. rewrite N.mul_comm. apply N.mul_div_le. exact H. Qed.

Lemma mul_le_div k a b : b <> 0 -> k * b <= a -> k <= a / b.
Proof. intros Hb H. apply N.div_le_lower_bound; [exact Hb|]. rewrite N.mul_comm. exact H. Qed.

Lemma after_le x s : after x s <= x.
Proof. unfold after. destruct (s <? x); lia. Qed.

Lemma after_0 x : after x 0 = x.
Proof. unfold after. destruct (N.ltb_spec 0 x); lia. Qed.

(* ------------------------------------------------------------------ resampling *)

(** Result of computeResampling: a number of chunks that respects all limits. *)
Definition legal (c : cfg) (minIn maxIn minOut maxOut : N) (r : N * N * status) : Prop :=
  let '(a, b, s) := r in
  (s = OK /\ exists m, a = m * ics c /\ b = m * ocs c /\ minIn <= a <= maxIn /\ minOut <= b <= maxOut)
  \/ (s <> OK /\ a = 0 /\ b = 0).

Lemma plain_legal c minIn maxIn minOut maxOut req :
  ics c = 1 -> ocs c = 1 -> legal c minIn maxIn minOut maxOut (plainResampling minIn maxIn minOut maxOut req).
Proof.
  intros Hi Ho. unfold plainResampling, legal.
  destruct (N.ltb_spec (N.min maxIn maxOut) minIn); [right; split; [discriminate|auto]|].
  destruct (N.ltb_spec (N.min maxIn maxOut) minOut); [right; split; [discriminate|auto]|].
  left. split; [reflexivity|].
  pose proof (clamp_bounds req (N.max minIn minOut) (N.min maxIn maxOut) ltac:(lia)) as Hc.
  exists (clamp req (N.max minIn minOut) (N.min maxIn maxOut)). rewrite Hi, Ho. lia.
Qed.

Lemma resampling_legal c minIn maxIn minOut maxOut req :
  chunked c -> maxIn <= umax -> maxOut <= umax ->
  legal c minIn maxIn minOut maxOut (computeResampling c minIn maxIn minOut maxOut req).
Proof.
  intros (Hi & Ho & Hr) HmI HmO. unfold computeResampling.
  set (rq := if req =? 0 then umax else req). clearbody rq.
  destruct (resEn c) eqn:Er; cbn [negb].
  2:{ destruct (Hr eq_refl) as [-> ->] || idtac. apply plain_legal; apply Hr; reflexivity. }
  destruct ((ics c =? 1) && (ocs c =? 1)) eqn:E1.
  { apply plain_legal; lia. }
  set (k := if strideActive c then if (ics c <=? maxIn) && (ocs c <=? maxOut) then 1 else 0
            else N.min (maxIn / ics c) (maxOut / ocs c)).
  assert (Hk : k * ics c <= maxIn /\ k * ocs c <= maxOut).
  { unfold k. destruct (strideActive c).
    - destruct ((ics c <=? maxIn) && (ocs c <=? maxOut)) eqn:E; lia.
    - pose proof (div_mul_le maxIn (ics c) ltac:(lia)). pose proof (div_mul_le maxOut (ocs c) ltac:(lia)).
      split; etransitivity; [apply N.mul_le_mono_r, N.le_min_l|eassumption|apply N.mul_le_mono_r, N.le_min_r|eassumption]. }
  assert (Hk1 : rq < k * ics c -> ics c <= maxIn).
  { intros H. destruct (N.eq_dec k 0) as [E|E]; [rewrite E in H; lia|]. nia. }
  destruct Hk as [Hki Hko].
  rewrite (u64_id (k * ics c)) by lia. rewrite (u64_id (k * ocs c)) by lia.
  destruct (N.ltb_spec (k * ics c) minIn); [right; split; [discriminate|auto]|].
  destruct (N.ltb_spec (k * ocs c) minOut); [right; split; [discriminate|auto]|].
  cbv zeta.
  destruct (N.ltb_spec rq (k * ics c)) as [Hrq|Hrq].
  2:{ left. split; [reflexivity|]. exists k. lia. }
  specialize (Hk1 Hrq).
  pose proof (clamp_bounds rq (N.max minIn (ics c)) maxIn ltac:(lia)) as Hc.
  set (rq' := clamp rq (N.max minIn (ics c)) maxIn) in *.
  set (k2 := N.min (rq' / ics c) (maxOut / ocs c)).
  assert (Hk2 : k2 * ics c <= maxIn /\ k2 * ocs c <= maxOut).
  { pose proof (div_mul_le rq' (ics c) ltac:(lia)). pose proof (div_mul_le maxOut (ocs c) ltac:(lia)). unfold k2.
    split; [apply N.le_trans with (rq' / ics c * ics c)|apply N.le_trans with (maxOut / ocs c * ocs c)]; try lia;
      apply N.mul_le_mono_r; lia. }
  destruct Hk2 as [H2i H2o].
  rewrite (u64_id (k2 * ics c)) by lia. rewrite (u64_id (k2 * ocs c)) by lia.
  destruct ((minIn <=? k2 * ics c) && (minOut <=? k2 * ocs c)) eqn:E2.
  - left. split; [reflexivity|]. exists k2. lia.
  - left. split; [reflexivity|]. exists k. lia.
Qed.

(** When some whole number of chunks respects all limits, one is found. *)
Lemma resampling_complete c minIn maxIn minOut maxOut req m :
  chunked c -> strideActive c = false -> maxIn <= umax -> maxOut <= umax ->
  minIn <= m * ics c <= maxIn -> minOut <= m * ocs c <= maxOut ->
  snd (computeResampling c minIn maxIn minOut maxOut req) = OK.
Proof.
  intros (Hi & Ho & Hr) Hs HmI HmO Ha Hb. unfold computeResampling.
  set (rq := if req =? 0 then umax else req). clearbody rq.
  assert (Hpl : ics c = 1 -> ocs c = 1 -> snd (plainResampling minIn maxIn minOut maxOut rq) = OK).
  { intros E1 E2. rewrite E1, E2 in *. unfold plainResampling.
    destruct (N.ltb_spec (N.min maxIn maxOut) minIn); [lia|].
    destruct (N.ltb_spec (N.min maxIn maxOut) minOut); [lia|]. reflexivity. }
  destruct (resEn c) eqn:Er; cbn [negb]. 2:{ apply Hpl; apply Hr; reflexivity. }
  destruct ((ics c =? 1) && (ocs c =? 1)) eqn:E1. { apply Hpl; lia. }
  rewrite Hs. set (k := N.min (maxIn / ics c) (maxOut / ocs c)).
  assert (Hm : m <= k).
  { unfold k. apply N.min_glb; apply mul_le_div; lia. }
  assert (Hk : k * ics c <= maxIn /\ k * ocs c <= maxOut).
  { pose proof (div_mul_le maxIn (ics c) ltac:(lia)). pose proof (div_mul_le maxOut (ocs c) ltac:(lia)). unfold k.
    split; etransitivity; [apply N.mul_le_mono_r, N.le_min_l|eassumption|apply N.mul_le_mono_r, N.le_min_r|eassumption]. }
  rewrite (u64_id (k * ics c)) by lia. rewrite (u64_id (k * ocs c)) by lia.
  assert (m * ics c <= k * ics c) by (apply N.mul_le_mono_r; exact Hm).
  assert (m * ocs c <= k * ocs c) by (apply N.mul_le_mono_r; exact Hm).
  destruct (N.ltb_spec (k * ics c) minIn); [lia|]. destruct (N.ltb_spec (k * ocs c) minOut); [lia|].
  cbv zeta. destruct (rq <? k * ics c); [|reflexivity].
  match goal with |- context[if ?b then _ else _] => destruct b end; reflexivity.
Qed.

(* ------------------------------------------------------------------ port limits *)

Lemma maxReq_le ps : maxReq ps <= umax.
Proof. induction ps as [|p ps IH]; simpl; [lia|]. destruct (pSync p); lia. Qed.

Lemma minReq_ge ps p : In p ps -> pSync p = true -> effMin p <= minReq ps.
Proof.
  induction ps as [|q ps IH]; simpl; [tauto|]. intros [E|H] Hs.
  - subst q. rewrite Hs. lia.
  - specialize (IH H Hs). destruct (pSync q); lia.
Qed.

Lemma maxReq_ge ps p : In p ps -> pSync p = true -> maxReq ps <= pMax p.
Proof.
  induction ps as [|q ps IH]; simpl; [tauto|]. intros [E|H] Hs.
  - subst q. rewrite Hs. lia.
  - specialize (IH H Hs). destruct (pSync q); lia.
Qed.

Lemma availOf_le ps ns : availOf ps ns <= umax.
Proof. revert ns; induction ps as [|p ps IH]; intros [|n ns]; simpl; try lia. specialize (IH ns). destruct (pSync p); lia. Qed.

Lemma availOf_ge ps ns i p n :
  nth_error ps i = Some p -> nth_error ns i = Some n -> pSync p = true -> availOf ps ns <= effAvail p n.
Proof.
  revert ns i; induction ps as [|q ps IH]; intros ns i Hp Hn Hs; [destruct i; discriminate|].
  destruct ns as [|n0 ns]; [destruct i; discriminate|].
  destruct i as [|i]; cbn [nth_error] in *.
  - injection Hp as ->. injection Hn as ->. cbn [availOf]. rewrite Hs. lia.
  - specialize (IH _ _ Hp Hn Hs). cbn [availOf]. destruct (pSync q); lia.
Qed.

Lemma toProcess_le c av nt ne sk :
  toProcess c av nt ne sk <= maxReq (inP c) /\ toProcess c av nt ne sk <= umax
  /\ toProcess c av nt ne sk <= after av sk /\ toProcess c av nt ne sk <= after ne sk.
Proof. unfold toProcess. lia. Qed.

Lemma skipBefore_le c cnt av : fst (skipBefore c cnt av) <= av /\ fst (skipBefore c cnt av) + snd (skipBefore c cnt av) = cnt
  \/ skipBefore c cnt av = (0, cnt).
Proof. unfold skipBefore. destruct (strideActive c && (0 <? cnt)); [left|right; reflexivity]. cbn [fst snd]. lia. Qed.

(** What a call of work decides, whatever the ports and the stride state. *)
Lemma limits_legal c cnt avIn avOut nt ne req :
  chunked c ->
  let l := computeLimits c cnt avIn avOut nt ne req in
  (exists m, lIn l = m * ics c /\ lOut l = m * ocs c)
  /\ (lIn l <> 0 -> N.min (minReq (inP c)) ne <= lIn l /\ minReq (outP c) <= lOut l)
  /\ lIn l <= toProcess c avIn (if isFwd (pol c) then umax else nt) ne (lSkip l)
  /\ lOut l <= N.min (maxReq (outP c)) avOut
  /\ lSkip l <= N.min avIn ne
  /\ (lIn l <> 0 -> lStat l = OK).
Proof.
  intros Hc. unfold computeLimits. cbv zeta.
  set (nt' := if isFwd (pol c) then umax else nt).
  pose proof (skipBefore_le c cnt (N.min avIn (N.min nt' ne))) as Hsk.
  destruct (skipBefore c cnt (N.min avIn (N.min nt' ne))) as [sk cnt'] eqn:Esk. cbn [fst snd] in Hsk.
  assert (Hs : sk <= N.min avIn ne).
  { destruct Hsk as [[H _]|H]; [lia|]. injection H as -> _. lia. }
  pose proof (toProcess_le c avIn nt' ne sk) as Htp.
  pose proof (maxReq_le (outP c)) as HmO.
  pose proof (resampling_legal c (N.min (minReq (inP c)) ne) (toProcess c avIn nt' ne sk) (minReq (outP c))
                (N.min (maxReq (outP c)) avOut) req Hc ltac:(lia) ltac:(lia)) as HL.
  destruct (computeResampling c (N.min (minReq (inP c)) ne) (toProcess c avIn nt' ne sk) (minReq (outP c))
                (N.min (maxReq (outP c)) avOut) req) as [[a b] s].
  cbn [lIn lOut lSkip lStat]. unfold legal in HL.
  destruct HL as [(Es & m & Ea & Eb & H1 & H2)|(Es & -> & ->)].
  - repeat split; try lia; try (intros; assumption). exists m; auto.
  - repeat split; try lia. exists 0. lia.
Qed.

(* ------------------------------------------------------------------ SIMD rounds *)

Local Open Scope nat_scope.

(** [rounds] covers exactly the indices [i .. j). *)
Fixpoint covers (rounds : list (nat * nat)) (i j : nat) : Prop :=
  match rounds with
  | [] => i = j
  | (a, w) :: r => a = i /\ 0 < w /\ covers r (i + w) j
  end.

Lemma covers_app r1 r2 i j k : covers r1 i j -> covers r2 j k -> covers (r1 ++ r2) i k.
Proof.
  revert i; induction r1 as [|[a w] r1 IH]; intros i H1 H2; cbn [covers app] in *.
  - subst. exact H2.
  - destruct H1 as (-> & Hw & H1). repeat split; auto.
Qed.

Lemma simdMain_spec fuel w n i :
  0 < w -> i <= n -> n - i < fuel ->
  let (r, j) := simdMain fuel w n i in covers r i j /\ j <= n /\ n < j + w.
Proof.
  intros Hw. revert i; induction fuel as [|f IH]; intros i Hi Hf; [lia|]. cbn [simdMain].
  destruct (Nat.leb_spec (i + w) n) as [H|H].
  - specialize (IH (i + w) H ltac:(lia)). destruct (simdMain f w n (i + w)) as [r j].
    cbn [covers]. destruct IH as (H1 & H2 & H3). repeat split; auto.
  - cbn [covers]. repeat split; lia.
Qed.

Lemma halves_pow e fuel : e < fuel -> halves fuel (2 ^ e) = map (fun d => 2 ^ d) (rev (seq 0 e)).
Proof.
  revert fuel; induction e as [|e IH]; intros [|fuel] H; try lia.
  - reflexivity.
  - cbn [halves].
    assert (E : 2 ^ S e / 2 = 2 ^ e).
    { rewrite Nat.pow_succ_r'. rewrite Nat.mul_comm. apply Nat.div_mul. lia. }
    rewrite E. assert (Hp : 0 < 2 ^ e) by (apply Nat.neq_0_lt_0, Nat.pow_nonzero; lia).
    destruct (Nat.ltb_spec 0 (2 ^ e)); [|lia].
    rewrite IH by lia. rewrite seq_S, rev_app_distr. reflexivity.
Qed.

Lemma simdTail_spec e n i :
  i <= n -> n < i + 2 ^ e -> covers (simdTail (map (fun d => 2 ^ d) (rev (seq 0 e))) n i) i n.
Proof.
  revert i; induction e as [|e IH]; intros i H1 H2.
  - cbn in *. lia.
  - assert (Er : rev (seq 0 (S e)) = e :: rev (seq 0 e)) by (rewrite seq_S, rev_app_distr; reflexivity).
    rewrite Er. cbn [map simdTail].
    assert (Hp : 0 < 2 ^ e) by (apply Nat.neq_0_lt_0, Nat.pow_nonzero; lia).
    rewrite Nat.pow_succ_r' in H2.
    destruct (Nat.leb_spec (i + 2 ^ e) n).
    + cbn [covers]. repeat split; auto. apply IH; lia.
    + apply IH; lia.
Qed.

Lemma simdRounds_cover e n : covers (simdRounds (2 ^ e) n) 0 n.
Proof.
  unfold simdRounds.
  assert (Hp : 0 < 2 ^ e) by (apply Nat.neq_0_lt_0, Nat.pow_nonzero; lia).
  pose proof (simdMain_spec (S n) (2 ^ e) n 0 Hp ltac:(lia) ltac:(lia)) as H.
  destruct (simdMain (S n) (2 ^ e) n 0) as [r j]. destruct H as (H1 & H2 & H3).
  apply covers_app with j; [exact H1|].
  rewrite halves_pow. { apply simdTail_spec; lia. }
  apply Nat.pow_gt_lin_r. lia.
Qed.

Local Close Scope nat_scope.
Local Open Scope N_scope.
