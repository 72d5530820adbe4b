(* Theorems about the counting source. *)

From Coq Require Import ZArith Bool Lia List.
From Verif Require Import TickModel TickSpec TickProofs.
Import ListNotations.

Local Open Scope Z_scope.

Definition demo : conf := mkK 20 [0; 3; 12] [5; 8] 8000000.

(* ------------------------------------------------------------------ C219 *)

(* Whatever the timer counts from call to call, every tag published is at the
   sample its list says, in the order of the samples, and each once, in the
   order of its list. *)
Theorem C219_tags_in_place : forall c ks,
  0 < nMax c < 2 ^ 32 -> places (marks c) -> places (timed c) -> apart (marks c) (timed c) -> later c ->
  let '(s, os, n) := calls c start ks in
  (forall o, In o os -> exact c o)
  /\ (forall i x y, nth_error (map place os) i = Some x -> nth_error (map place os) (S i) = Some y -> x <= y)
  /\ (exists a b, marksOf os = seq 0 a /\ timedOf os = seq 0 b).
Proof.
  intros c ks H1 H2 H3 H4 H5. assert (Hc : okConf c) by exact (conj H1 (conj H2 (conj H3 (conj H4 H5)))).
  assert (D := calls_did c ks start Hc (start_good c Hc)). destruct (calls c start ks) as [[s os] n].
  destruct D as (G & M & N & E1 & E2 & _ & _ & X & O). cbn [start nextMark nextTimed] in *.
  split; [intros o Ho; apply X; exact Ho|]. split; [exact O|]. exists (nextMark s - 0)%nat, (nextTimed s - 0)%nat. auto.
Qed.
Print Assumptions C219_tags_in_place.

(* No tag of a published sample is missing. *)
Theorem C219_no_tag_missing : forall c ks i x,
  0 < nMax c < 2 ^ 32 -> places (marks c) -> places (timed c) -> apart (marks c) (timed c) -> later c ->
  let '(s, os, n) := calls c start ks in
  x < n ->
  (nth_error (marks c) i = Some x -> In (Mark i x) os) /\ (nth_error (timed c) i = Some x -> In (Timed i x) os).
Proof.
  intros c ks i x H1 H2 H3 H4 H5. assert (Hc : okConf c) by exact (conj H1 (conj H2 (conj H3 (conj H4 H5)))).
  assert (D := calls_did c ks start Hc (start_good c Hc)). destruct (calls c start ks) as [[s os] n].
  destruct D as (G & M & N & E1 & E2 & _ & _ & X & O). cbn [start nextMark nextTimed made] in *. rewrite Nat.sub_0_r in E1, E2.
  destruct G as (_ & AM & AT & LM & LT). intros L. split; intros E.
  - assert (I : (i < nextMark s)%nat).
    { destruct (Nat.lt_ge_cases i (nextMark s)) as [I | I]; [exact I|exfalso].
      destruct (nth_error (marks c) (nextMark s)) as [y|] eqn:Ey.
      - specialize (AM y Ey). destruct (Nat.eq_dec i (nextMark s)) as [-> | Ne]; [assert (x = y) by congruence; lia|].
        assert (B := places_mono _ H2 i (nextMark s) y x ltac:(lia) Ey E). lia.
      - apply nth_error_None in Ey. apply some_lt in E. lia. }
    assert (J : In i (marksOf os)) by (rewrite E1; apply in_seq; lia).
    unfold marksOf in J. apply in_flat_map in J. destruct J as (o & Ho & K).
    destruct o as [j p | j p]; [|destruct K]. destruct K as [-> | []].
    destruct (X _ Ho) as [Y _]. cbn [exact] in Y. assert (p = x) by congruence. subst p. exact Ho.
  - assert (I : (i < nextTimed s)%nat).
    { destruct (Nat.lt_ge_cases i (nextTimed s)) as [I | I]; [exact I|exfalso].
      destruct (nth_error (timed c) (nextTimed s)) as [y|] eqn:Ey.
      - specialize (AT y Ey). destruct (Nat.eq_dec i (nextTimed s)) as [-> | Ne]; [assert (x = y) by congruence; lia|].
        assert (B := places_mono _ H3 i (nextTimed s) y x ltac:(lia) Ey E). lia.
      - apply nth_error_None in Ey. apply some_lt in E. lia. }
    assert (J : In i (timedOf os)) by (rewrite E2; apply in_seq; lia).
    unfold timedOf in J. apply in_flat_map in J. destruct J as (o & Ho & K).
    destruct o as [j p | j p]; [destruct K|]. destruct K as [-> | []].
    destruct (X _ Ho) as [Y _]. cbn [exact] in Y. assert (p = x) by congruence. subst p. exact Ho.
Qed.
Print Assumptions C219_no_tag_missing.

(* Two listed tags on the first sample: the second one and all behind it are
   never published, however the calls go on. *)
Theorem C219_equal_places_refuted : forall m rest k ks, 0 < m < 2 ^ 31 -> 0 < k < 2 ^ 32 ->
  let c := mkK m (0 :: 0 :: rest) [] 0 in
  marksOf (snd (fst (calls c start (k :: ks)))) = [0%nat].
Proof.
  intros m rest k ks Hm Hk c. cbn [calls].
  assert (E : call c start k = (mkS 1 1 0, [Mark 0 0], 1, Ok)).
  { unfold call, c, renew, toMark, toTimed, start; cbn [nMax marks timed made nextMark nextTimed nth_error].
    replace (0 <? m) with true by (symmetry; apply Z.ltb_lt; lia). cbn [andb].
    replace (m <=? 0) with false by (symmetry; apply Z.leb_gt; lia).
    rewrite (wrap_id k) by lia. replace (Z.min (m - 0) k =? 0) with false by (symmetry; apply Z.eqb_neq; lia).
    change (wrap (0 - 0)) with 0. change (0 <? maxSize) with true. cbn match.
    replace (0 <=? Z.min (m - 0) k) with true by (symmetry; apply Z.leb_le; lia). reflexivity. }
  rewrite E. assert (S := calls_stuck c ks (mkS 1 1 0) 0 Hm eq_refl ltac:(cbn; lia) eq_refl ltac:(cbn; lia)).
  destruct (calls c (mkS 1 1 0) ks) as [[s os] n]. cbn [fst snd] in *. cbn [app marksOf flat_map]. fold (marksOf os). rewrite S. reflexivity.
Qed.
Print Assumptions C219_equal_places_refuted.

(* A listed tag and a timed tag on the first sample: the listed tag is lost,
   and so are those behind it. *)
Theorem C219_both_lists_refuted : exists c ks,
  0 < nMax c < 2 ^ 32 /\ places (marks c) /\ places (timed c) /\ later c
  /\ snd (calls c start ks) = nMax c /\ snd (fst (calls c start ks)) = [Timed 0 0; Timed 1 9] /\ marks c = [0; 5; 7].
Proof.
  exists (mkK 10 [0; 5; 7] [0; 9] 9000000), [4; 4; 4; 4]. split; [cbn; lia|]. split; [|split; [|split; [right; reflexivity|vm_compute; repeat split]]].
  - split.
    + intros [|[|[|i]]] x H; cbn in H; try (assert (x = 0 \/ x = 5 \/ x = 7) by (first [left; congruence|right; left; congruence|right; right; congruence]); lia).
      destruct i; discriminate.
    + intros [|[|i]] x y Hx Hy; cbn in Hx, Hy;
        [assert (x = 0) by congruence; assert (y = 5) by congruence; lia|assert (x = 5) by congruence; assert (y = 7) by congruence; lia|].
      destruct i; cbn in Hy; [discriminate|destruct i; discriminate].
  - split.
    + intros [|[|i]] x H; cbn in H; [assert (x = 0) by congruence; lia|assert (x = 9) by congruence; lia|destruct i; discriminate].
    + intros [|i] x y Hx Hy; cbn in Hx, Hy; [assert (x = 0) by congruence; assert (y = 9) by congruence; lia|destruct i; cbn in Hy; [discriminate|destruct i; discriminate]].
Qed.
Print Assumptions C219_both_lists_refuted.

Example C219_case :
  fst (calls demo start [4; 0; 4; 4; 4; 4; 4; 4; 4; 4])
  = (mkS 20 3 2, [Mark 0 0; Mark 1 3; Timed 0 5; Timed 1 8; Mark 2 12]).
Proof. vm_compute. reflexivity. Qed.
Example C219_hypotheses_case :
  0 < nMax demo < 2 ^ 32 /\ places (marks demo) /\ places (timed demo) /\ apart (marks demo) (timed demo) /\ later demo.
Proof.
  split; [cbn; lia|]. split; [|split; [|split; [|right; reflexivity]]].
  - split.
    + intros [|[|[|i]]] x H; cbn in H; try (assert (x = 0 \/ x = 3 \/ x = 12) by (first [left; congruence|right; left; congruence|right; right; congruence]); lia).
      destruct i; discriminate.
    + intros [|[|i]] x y Hx Hy; cbn in Hx, Hy;
        [assert (x = 0) by congruence; assert (y = 3) by congruence; lia|assert (x = 3) by congruence; assert (y = 12) by congruence; lia|].
      destruct i; cbn in Hy; [discriminate|destruct i; discriminate].
  - split.
    + intros [|[|i]] x H; cbn in H; [assert (x = 5) by congruence; lia|assert (x = 8) by congruence; lia|destruct i; discriminate].
    + intros [|i] x y Hx Hy; cbn in Hx, Hy; [assert (x = 5) by congruence; assert (y = 8) by congruence; lia|destruct i; cbn in Hy; [discriminate|destruct i; discriminate]].
  - intros x [<- | [<- | [<- | []]]] [H | [H | []]]; discriminate.
Qed.

(* ------------------------------------------------------------------ C220 *)

(* Never more samples than asked for, whatever tags there are; the source says
   it is done exactly when all were published; no call with a count publishes
   nothing before that. *)
Theorem C220_number_of_samples : forall c ks k,
  0 < nMax c < 2 ^ 32 -> places (marks c) -> places (timed c) -> apart (marks c) (timed c) -> later c -> 0 <= k < 2 ^ 32 ->
  let '(s, _, n) := calls c start ks in
  let '(_, _, more, st) := call c s k in
  n + more <= nMax c /\ (st = Done <-> n = nMax c) /\ (n < nMax c -> 0 < k -> 0 < more <= k).
Proof.
  intros c ks k H1 H2 H3 H4 H5 Hk. assert (Hc : okConf c) by exact (conj H1 (conj H2 (conj H3 (conj H4 H5)))).
  assert (D := calls_did c ks start Hc (start_good c Hc)). destruct (calls c start ks) as [[s os] n].
  destruct D as (G & M & N & _). cbn [start made] in M. rewrite Z.add_0_l in M.
  assert (C := call_did c s k Hc G).
  assert (St : let '(_, _, more, st) := call c s k in (st = Done <-> made s = nMax c) /\ (made s < nMax c -> 0 < k -> 0 < more <= k)).
  { destruct G as (G & _). unfold call. replace (0 <? nMax c) with true by (symmetry; apply Z.ltb_lt; lia). cbn [andb].
    destruct (Z.leb_spec (nMax c) (made s)); [split; [split; [lia|reflexivity]|lia]|].
    rewrite (renew_id c s H5). rewrite (wrap_id k Hk). set (m := Z.min (nMax c - made s) k).
    destruct (Z.eqb_spec m 0); [split; [split; [discriminate|lia]|lia]|].
    destruct (_ <? _).
    - destruct (nth_error _ _) as [i|]; [destruct (Z.leb_spec (toMark c s) m)|]; (split; [split; [discriminate|lia]|lia]).
    - destruct (nth_error _ _) as [i|]; [destruct (Z.leb_spec (toTimed c s) m)|]; (split; [split; [discriminate|lia]|lia]). }
  destruct (call c s k) as [[[s1 o] more] st]. destruct C as (C1 & C2 & (C3 & _) & _). destruct St as [S1 S2].
  rewrite M in *. split; [lia|]. split; [exact S1|exact S2].
Qed.
Print Assumptions C220_number_of_samples.

(* A tag listed for the sample after the last one is published though there is
   no such sample. *)
Theorem C220_tag_behind_the_end_refuted : forall m k, 0 < m < 2 ^ 32 - 1 -> m <= k < 2 ^ 32 ->
  calls (mkK m [m] [] 0) start [k] = (mkS m 1 0, [Mark 0 m], m).
Proof.
  intros m k Hm Hk. cbn [calls]. unfold call, renew, toMark, toTimed, start; cbn [nMax marks timed made nextMark nextTimed nth_error].
  replace (0 <? m) with true by (symmetry; apply Z.ltb_lt; lia). cbn [andb].
  replace (m <=? 0) with false by (symmetry; apply Z.leb_gt; lia).
  rewrite (wrap_id k) by lia. rewrite !Z.sub_0_r. rewrite (wrap_id m) by lia. rewrite Z.min_l by lia.
  replace (m =? 0) with false by (symmetry; apply Z.eqb_neq; lia).
  replace (m <? maxSize) with true by (symmetry; apply Z.ltb_lt; unfold maxSize; lia).
  rewrite Z.leb_refl. rewrite Z.max_l by lia. cbn [Z.add]. rewrite (wrap_id m) by lia. rewrite Z.mod_small by lia.
  cbn [app]. rewrite Z.add_0_r. reflexivity.
Qed.
Print Assumptions C220_tag_behind_the_end_refuted.

Example C220_case :
  snd (calls demo start [100; 100; 100; 100; 100; 100]) = 20 /\ snd (calls demo start [100; 100]) = 3
  /\ snd (call demo (mkS 20 3 2) 5) = Done.
Proof. vm_compute. repeat split. Qed.

(* ------------------------------------------------------------------ C221 *)

(* Times so close that they fall on the same sample: with no listed tags none
   is lost, none is early, and the i-th is at most i samples late. *)
Theorem C221_close_times : forall c ks,
  0 < nMax c < 2 ^ 32 -> marks c = [] -> later c ->
  (forall i x, nth_error (timed c) i = Some x -> 0 <= x < 2 ^ 32 - 1) ->
  (forall i j x y, (i <= j)%nat -> nth_error (timed c) i = Some x -> nth_error (timed c) j = Some y -> x <= y) ->
  let '(s, os, n) := calls c start ks in
  (forall o, In o os -> exists i p a, o = Timed i p /\ nth_error (timed c) i = Some a /\ a <= p <= a + Z.of_nat i)
  /\ (exists b, timedOf os = seq 0 b)
  /\ (forall i a, nth_error (timed c) i = Some a -> a + Z.of_nat i < n -> In i (timedOf os)).
Proof.
  intros c ks H1 H2 H0 H3 H4. assert (Hc : okTimed c) by exact (conj H1 (conj H2 (conj H0 (conj H3 H4)))).
  assert (G0 : late c start).
  { unfold late; cbn [start made nextTimed]. split; [lia|]. split; [lia|]. intros i x _ Hx. apply H3 in Hx. lia. }
  assert (D := calls_late c ks start Hc G0). destruct (calls c start ks) as [[s os] n].
  destruct D as (G & M & L & E & X). cbn [start made nextTimed] in *. rewrite Nat.sub_0_r in E.
  split; [exact X|]. split; [exists (nextTimed s); exact E|].
  intros i a Hi Ha. rewrite E. apply in_seq. split; [lia|].
  destruct (Nat.lt_ge_cases i (nextTimed s)) as [I | I]; [lia|exfalso].
  destruct G as (_ & _ & G). specialize (G i a I Hi). lia.
Qed.
Print Assumptions C221_close_times.

Example C221_case :
  fst (calls (mkK 20 [] [0; 0; 0; 6; 6] 6000000) start [4; 4; 4; 4; 4; 4; 4; 4; 4])
  = (mkS 20 0 5, [Timed 0 0; Timed 1 1; Timed 2 2; Timed 3 6; Timed 4 6]).
Proof. vm_compute. reflexivity. Qed.

(* A single time, 0, with repeat_period at its default: the tag is on every
   sample and every call publishes a single sample, however much room there is. *)
Theorem C221_time_zero_refuted : forall m ks, 0 < m < 2 ^ 32 -> (forall k, In k ks -> 0 < k < 2 ^ 32) ->
  Z.of_nat (length ks) <= m ->
  let '(_, os, n) := calls (mkK m [] [0] 0) start ks in
  os = map (fun i => Timed 0 (Z.of_nat i)) (seq 0 (length ks)) /\ n = Z.of_nat (length ks).
Proof.
  intros m ks Hm Hk HL. unfold start.
  rewrite (calls_zero (mkK m [] [0] 0) ks eq_refl eq_refl eq_refl 0%nat Hm Hk 0 0%nat) by (cbn [nMax]; lia).
  split; reflexivity.
Qed.
Print Assumptions C221_time_zero_refuted.

Example C221_time_zero_case :
  snd (fst (calls (mkK 1000 [] [0] 0) start [100; 100; 100])) = [Timed 0 0; Timed 0 1; Timed 0 2].
Proof. vm_compute. reflexivity. Qed.
