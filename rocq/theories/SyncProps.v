(* Properties of the synchronising block (C169-C174). *)

From Coq Require Import Arith NArith List Bool Sorted Lia.
From Coq Require Import ZifyBool ZifyNat ZifyN.
From Verif Require Import SyncModel SyncSpec SyncProofs SyncProofs2.
Import ListNotations.

Local Open Scope nat_scope.

(* ---------- C169: the outputs advance together ---------- *)

Theorem C169_equal_samples_per_call {A : Type} (c : scfg) (st : sst) (ins : list (sspan A)) (outs : list nat)
        (st' : sst) (rs : list (pres A)) :
  goodCall st ins outs -> syncBulk c st ins outs = (st', rs) ->
  length rs = length ins /\ exists k, (forall r, In r rs -> length (pOut r) = k) /\ (forall cap, In cap outs -> k <= cap).
Proof.
  intros H E. destruct (syncBulk_shape c st ins outs st' rs H E) as (S1 & _ & k & rep & S2 & S3).
  split; [exact S1|]. exists k. split; [|exact S2]. intros r Hr.
  apply In_nth_error in Hr. destruct Hr as (i & Hi).
  assert (Li : i < length rs) by (apply nth_error_Some; congruence).
  destruct (nth_error ins i) as [sp|] eqn:Es; [|apply nth_error_None in Es; lia].
  destruct H as (_ & _ & H & _).
  destruct (nth_error (nDrop st) i) as [p|] eqn:Ep; [|apply nth_error_None in Ep; lia].
  destruct (S3 i sp p Es Ep) as (r' & p' & d & R1 & _ & R3). rewrite Hi in R1. injection R1 as <-.
  apply (shape_out _ _ _ _ _ _ _ R3).
Qed.
Print Assumptions C169_equal_samples_per_call.

Theorem C169_equal_samples_over_a_run {A : Type} (c : scfg) (n : nat) (cs : list (list (sspan A) * list nat))
        (rss : list (list (pres A))) (st' : sst) (i j : nat) :
  goodRun n cs -> runSync c (freshSync n) cs = (rss, st') -> i < n -> j < n ->
  length (outStream (portRes i rss)) = length (outStream (portRes j rss)).
Proof.
  intros Hg Hr Hi Hj.
  assert (Hl : length (nDrop (freshSync n)) = n) by apply repeat_length.
  revert Hl Hr. generalize (freshSync n) as st. revert rss.
  destruct Hg as [Hn Hg]. induction Hg as [|[ins outs] cs (G1 & G2 & G3) Hg IH]; intros rss st Hl Hr.
  - cbn in Hr. injection Hr as <- <-. reflexivity.
  - cbn [runSync] in Hr. destruct (syncBulk c st ins outs) as [st1 rs] eqn:Eb.
    destruct (runSync c st1 cs) as [rss1 st2] eqn:Er. injection Hr as <- <-. cbn [fst snd] in *.
    assert (Hgc : goodCall st ins outs).
    { split; [intros ->; cbn in *; lia|]. split; [lia|]. split; [lia|exact G3]. }
    destruct (C169_equal_samples_per_call c st ins outs st1 rs Hgc Eb) as (L & k & K & _).
    destruct (syncBulk_shape c st ins outs st1 rs Hgc Eb) as (_ & L2 & _).
    unfold outStream in *. cbn [portRes map concat]. rewrite !app_length.
    rewrite (K (nth i rs noRes)), (K (nth j rs noRes)) by (apply nth_In; lia).
    f_equal. apply (IH rss1 st1); [lia|exact Er].
Qed.
Print Assumptions C169_equal_samples_over_a_run.

(* two inputs; the second starts three samples earlier, the common trigger has
   the times 100 and 102 *)
Definition exCfg : scfg := mkCfg None 5 4.
Definition trig (p : nat) (time id : N) : stag := mkTag p (Some 1%N) (Some time) id.
Definition exA : sspan nat := mkSp [12; 13; 14; 15] [trig 1 100 7].
Definition exB : sspan nat := mkSp [20; 21; 22; 23; 24; 25] [mkTag 0 None None 9; trig 4 102 8].
Definition exCalls : list (list (sspan nat) * list nat) :=
  [([mkSp [10; 11] []; mkSp [] []], [9; 9]); ([exA; exB], [9; 9])].

Example ex_sync_good : goodRun 2 exCalls /\ goodCall (freshSync 2) [exA; exB] [9; 9].
Proof.
  assert (O : Forall orderedTags [exA; exB]).
  { repeat constructor; cbn; lia. }
  split.
  - split; [lia|]. constructor; [|constructor; [|constructor]]; cbn; repeat split; auto; repeat constructor.
    all: cbn; lia.
  - split; [discriminate|]. split; [reflexivity|]. split; [reflexivity|exact O].
Qed.
Example ex_sync_run :
  map (map (fun r => (pCons r, pOut r, pTags r))) (fst (runSync exCfg (freshSync 2) exCalls))
  = [[(0, [], []); (0, [], [])];
     [(3, [12; 13; 14], [(1, Fwd 7)]); (6, [23; 24; 25], [(0, Dropped 3); (1, Fwd 8)])]].
Proof. vm_compute. reflexivity. Qed.

(* ---------- C170: alignment ---------- *)

(* If the inputs have a trigger time in common, then one call publishes blocks
   in which the tag found at that time has the same position on every output.
   [pos] is that position, and the output carries the very samples around
   it. *)
Theorem C170_aligned_on_the_earliest_common_time {A : Type} (c : scfg) (st : sst) (ins : list (sspan A))
        (outs : list nat) (T : N) :
  goodCall st ins outs -> earliestCommon c ins T -> T <> noTime ->
  exists st' rs k pos, syncBulk c st ins outs = (st', rs) /\ synced st' = true
    /\ forall i sp, nth_error ins i = Some sp ->
       exists r t, nth_error rs i = Some r /\ length (pOut r) = k
         /\ In t (stgs sp) /\ close c (getTime t) T
         /\ tRel t = skipped r + pos
         /\ forall p, p < k -> nth_error (pOut r) p = nth_error (ssmp sp) (skipped r + p).
Proof.
  intros H HT Hn.
  destruct (aligned_core c st ins outs T H HT Hn) as (st' & rs & k & pos & E & S & _ & _ & K).
  exists st', rs, k, pos. split; [exact E|]. split; [exact S|]. intros i sp Hsp.
  destruct (K i sp Hsp) as (r & t & R1 & R2 & _ & R3 & R4 & _ & R5 & _ & _ & R6).
  exists r, t. auto 10.
Qed.
Print Assumptions C170_aligned_on_the_earliest_common_time.

(* The claim is that the aligned tags are triggers that pass the filter.  This
   is proved where every tag close to the common time is such a trigger.
   Missing is a check in the search for the position. *)
Theorem C170_aligned_tag_is_a_trigger_partial {A : Type} (c : scfg) (st : sst) (ins : list (sspan A))
        (outs : list nat) (T : N) :
  goodCall st ins outs -> earliestCommon c ins T -> T <> noTime ->
  (forall sp t, In sp ins -> In t (stgs sp) -> close c (getTime t) T ->
     exists n u, tName t = Some n /\ tTime t = Some u /\ (filt c = None \/ filt c = Some n)) ->
  exists st' rs k pos, syncBulk c st ins outs = (st', rs)
    /\ forall i sp, nth_error ins i = Some sp ->
       exists r t u, nth_error rs i = Some r /\ length (pOut r) = k
         /\ syncTag c sp t u /\ close c u T /\ tRel t = skipped r + pos.
Proof.
  intros H HT Hn Hall.
  destruct (aligned_core c st ins outs T H HT Hn) as (st' & rs & k & pos & E & S & _ & _ & K).
  exists st', rs, k, pos. split; [exact E|]. intros i sp Hsp.
  destruct (K i sp Hsp) as (r & t & R1 & R2 & _ & R3 & R4 & R4' & R5 & _ & _ & R6).
  destruct (Hall sp t (nth_error_In _ _ Hsp) R3 R4) as (n & u & N1 & N2 & N3).
  exists r, t, u. split; [exact R1|]. split; [exact R2|].
  split; [split; [exact R3|]; split; [exact R4'|]; split; [exact N2|]; exists n; auto|].
  split; [|exact R5]. unfold getTime in R4. rewrite N2 in R4. exact R4.
Qed.
Print Assumptions C170_aligned_tag_is_a_trigger_partial.

Example ex_earliest : earliestCommon exCfg [exA; exB] 100 /\ 100%N <> noTime.
Proof.
  split; [|discriminate].
  apply (proj1 (findSyncTime_some exCfg [exA; exB] 100%N)). vm_compute. reflexivity.
Qed.

(* A tag that does not pass the filter is taken for the position, because its
   time is close: the triggers are published two samples apart. *)
Definition fltCfg : scfg := mkCfg (Some 1%N) 5 4.
Definition fltA : sspan nat := mkSp [10; 11; 12; 13] [trig 2 100 1].
Definition fltB : sspan nat := mkSp [20; 21; 22; 23] [mkTag 0 (Some 2%N) (Some 99%N) 2; trig 2 100 3].

Theorem C170_filter_ignored_refuted :
  goodCall (freshSync 2) [fltA; fltB] [9; 9]
  /\ syncTag fltCfg fltA (trig 2 100 1) 100 /\ syncTag fltCfg fltB (trig 2 100 3) 100
  /\ (forall t u, syncTag fltCfg fltA t u -> t = trig 2 100 1)
  /\ (forall t u, syncTag fltCfg fltB t u -> t = trig 2 100 3)
  /\ map (@pOut nat) (snd (syncBulk fltCfg (freshSync 2) [fltA; fltB] [9; 9])) = [[12; 13]; [20; 21]].
Proof.
  split; [split; [discriminate|]; split; [reflexivity|]; split; [reflexivity|]; repeat constructor; cbn; lia|].
  split; [split; [cbn; auto|]; split; [cbn; lia|]; split; [reflexivity|]; exists 1%N; cbn; auto|].
  split; [split; [cbn; auto|]; split; [cbn; lia|]; split; [reflexivity|]; exists 1%N; cbn; auto|].
  split; [|split].
  - intros t u ([ <- | []] & _). reflexivity.
  - intros t u ([ <- | [ <- | []]] & _ & _ & n & E1 & [E2|E2]); [discriminate| |reflexivity|reflexivity].
    cbn in E1, E2. congruence.
  - vm_compute. reflexivity.
Qed.
Print Assumptions C170_filter_ignored_refuted.

(* With a tolerance of zero nothing is ever published, even if the times of all
   triggers agree exactly. *)
Lemma zero_tolerance_call {A : Type} (c : scfg) (st : sst) (ins : list (sspan A)) (outs : list nat) st' rs :
  tol c = 0%N -> ins <> [] -> synced st = false -> syncBulk c st ins outs = (st', rs) ->
  synced st' = false /\ forall r, In r rs -> pOut r = [].
Proof.
  intros H Hne Hs E. unfold syncBulk in E. cbn zeta in E. rewrite not_synchronized in E; [|exact Hne|].
  - rewrite Hs in E. cbn [andb] in E. injection E as <- <-. split; [reflexivity|].
    intros r Hr. apply in_map_iff in Hr. destruct Hr as (sp & <- & _). reflexivity.
  - intros T (_ & Q). destruct ins as [|sp ins]; [congruence|]. destruct (Q sp (or_introl eq_refl)) as (t & u & _ & W).
    unfold close in W. rewrite H in W. lia.
Qed.

Theorem C170_zero_tolerance_refuted {A : Type} (c : scfg) (n : nat) (cs : list (list (sspan A) * list nat))
        (rss : list (list (pres A))) (st' : sst) (rs : list (pres A)) (r : pres A) :
  tol c = 0%N -> goodRun n cs -> runSync c (freshSync n) cs = (rss, st') -> In rs rss -> In r rs -> pOut r = [].
Proof.
  intros H [Hn Hg]. assert (S : synced (freshSync n) = false) by reflexivity.
  revert S. generalize (freshSync n) as st. revert rss.
  induction Hg as [|[ins outs] cs (G1 & _) Hg IH]; intros rss st S Hr Hin Hr'.
  - cbn in Hr. injection Hr as <- <-. destruct Hin.
  - cbn [runSync] in Hr. destruct (syncBulk c st ins outs) as [st1 rs1] eqn:Eb.
    destruct (runSync c st1 cs) as [rss1 st2] eqn:Er. injection Hr as <- <-. cbn [fst] in G1.
    destruct (zero_tolerance_call c st ins outs st1 rs1 H) as [S1 K]; [intros ->; cbn in G1; lia|exact S|exact Eb|].
    destruct Hin as [ <- | Hin]; [apply K; exact Hr'|]. exact (IH rss1 st1 S1 Er Hin Hr').
Qed.
Print Assumptions C170_zero_tolerance_refuted.

(* The largest time stands for "none": triggers at that time are not aligned. *)
Theorem C170_largest_time_refuted : exists (ins : list (sspan nat)) (outs : list nat),
  goodCall (freshSync 2) ins outs /\ earliestCommon exCfg ins noTime
  /\ forall r, In r (snd (syncBulk exCfg (freshSync 2) ins outs)) -> pOut r = [].
Proof.
  set (l := mkSp [1; 2; 3] [trig 1 noTime 1]).
  assert (Sy : syncTag exCfg l (trig 1 noTime 1) noTime).
  { split; [cbn; auto|]. split; [cbn; lia|]. split; [reflexivity|]. exists 1%N. cbn. auto. }
  exists [l; l], [9; 9]. split; [|split; [split; [split|]|]].
  - split; [discriminate|]. split; [reflexivity|]. split; [reflexivity|]. repeat constructor; cbn; lia.
  - exists l, (trig 1 noTime 1). split; [cbn; auto|exact Sy].
  - intros sp [ <- | [ <- | []]]; exists (trig 1 noTime 1), noTime; (split; [exact Sy|]); unfold close; cbn [tol exCfg]; lia.
  - intros T' ((sp & t & [ <- | [ <- | []]] & ([ <- | []] & _ & E & _)) & _); cbn in E; injection E as <-; reflexivity.
  - intros r Hr. vm_compute in Hr. destruct Hr as [ <- | [ <- | []]]; reflexivity.
Qed.
Print Assumptions C170_largest_time_refuted.

(* ---------- C171: the reports of dropped samples ---------- *)

(* The sample at position p of an output is the sample of the input at p plus
   what the reports up to there say; and all reports together with what is
   still pending are the skipped samples.  Missing is the case of 2^32 skipped
   samples and more: the reported number has 32 bits. *)
Theorem C171_reports_are_exact_and_in_place_partial {A : Type} (c : scfg) (n i : nat)
        (cs : list (list (sspan A) * list nat)) (rss : list (list (pres A))) (st' : sst) (stream : list A) :
  i < n -> goodRun n cs -> runSync c (freshSync n) cs = (rss, st') -> fedSync i stream cs (portRes i rss) ->
  (N.of_nat (totalSkipped (portRes i rss)) < 2 ^ 32)%N ->
  (forall p x, nth_error (outStream (portRes i rss)) p = Some x ->
     exists q, N.of_nat q = (N.of_nat p + reportedUpTo p (outReports 0 (portRes i rss)))%N
            /\ nth_error stream q = Some x)
  /\ exists pend, nth_error (nDrop st') i = Some pend
     /\ (reportedAll (outReports 0 (portRes i rss)) + pend = N.of_nat (totalSkipped (portRes i rss)))%N.
Proof.
  intros Hi Hg Hr Hf Hb.
  assert (Hp : nth_error (nDrop (freshSync n)) i = Some 0%N).
  { cbn. clear - Hi. revert i Hi. induction n as [|n IH]; intros [|i] H; cbn; try lia; [reflexivity|]. apply IH. lia. }
  destruct (run_account c n i cs (freshSync n) rss st' stream 0 0 Hi Hg (repeat_length _ _) Hp Hr Hf) as (_ & (pend & P1 & P2) & K).
  { exact Hb. }
  split.
  - intros p x E. destruct (K p x E) as (q & Q1 & _ & Q3). exists q. split; [|exact Q3].
    cbn [Nat.add] in Q1. lia.
  - exists pend. split; [exact P1|]. cbn [N.add] in P2. exact P2.
Qed.
Print Assumptions C171_reports_are_exact_and_in_place_partial.

Example ex_reports :
  let '(rss, st') := runSync exCfg (freshSync 2) exCalls in
  fedSync 0 [10; 11; 12; 13; 14; 15] [([mkSp [10; 11] []; mkSp [] []], [9; 9])] (portRes 0 rss)
  /\ fedSync 1 [20; 21; 22; 23; 24; 25] exCalls (portRes 1 rss)
  /\ outStream (portRes 1 rss) = [23; 24; 25] /\ outReports 0 (portRes 1 rss) = [(0, 3%N)]
  /\ reportedUpTo 0 (outReports 0 (portRes 1 rss)) = 3%N /\ totalSkipped (portRes 1 rss) = 3.
Proof.
  vm_compute. repeat split.
  - exists 2, (mkSp [10; 11] []). split; reflexivity.
  - exists 0, (mkSp [] []). split; reflexivity.
  - exists 6, exB. split; reflexivity.
Qed.

(* 2^32 samples are skipped before the first common trigger, and the report
   says nought. *)
Theorem C171_reported_number_wraps_refuted (n : nat) (x : nat) : N.of_nat n = (2 ^ 32)%N ->
  let c := mkCfg None 5 0 in
  let one := mkSp [x] [trig 0 100 1] in
  let cs := [([mkSp (repeat x n) []], [9]); ([one], [9])] in
  goodRun 1 cs
  /\ let rss := fst (runSync c (freshSync 1) cs) in
     totalSkipped (portRes 0 rss) = n /\ outReports 0 (portRes 0 rss) = [(0, 0%N)].
Proof.
  intros Hn c one cs.
  assert (P : n <> 0) by (intros ->; discriminate Hn).
  split.
  - split; [lia|]. repeat constructor.
  - unfold cs. cbn [runSync].
    assert (E1 : syncBulk c (freshSync 1) [mkSp (repeat x n) []] [9]
                 = (mkSt false [N.of_nat n], [mkPres n [] []])).
    { unfold syncBulk. cbn zeta. rewrite not_synchronized; [|discriminate|].
      2: { intros T ((sp & t & [ <- | []] & ([] & _)) & _). }
      cbn [freshSync synced andb map map2 nDrop repeat]. unfold dropPort, excess. cbn [ssmp hist c].
      rewrite repeat_length. cbn [Nat.ltb Nat.leb]. rewrite Nat.sub_0_r. reflexivity. }
    rewrite E1.
    assert (E2 : syncBulk c (mkSt false [N.of_nat n]) [one] [9]
                 = (mkSt true [0%N], [mkPres 1 [x] [(0, Dropped 0); (0, Fwd 1)]])).
    { unfold syncBulk. cbn zeta. change (length (synchronize c [one]) =? length [one]) with true. cbn [nDrop].
      change (synchronize c [one]) with [mkData 0 0 0]. cbn [map dPre dPost minl fold_left map3].
      unfold alignPort. cbn [dIdx Nat.sub Nat.add Nat.min firstn skipn ssmp one].
      rewrite Hn. reflexivity. }
    rewrite E2. cbn [fst portRes map nth totalSkipped fold_right skipped pCons pOut length].
    split; [unfold skipped; cbn [pCons pOut length]; lia|]. reflexivity.
Qed.
Print Assumptions C171_reported_number_wraps_refuted.

(* ---------- C172: tags travel with their samples ---------- *)

Theorem C172_tags_travel_with_their_samples {A : Type} (c : scfg) (st : sst) (ins : list (sspan A)) (outs : list nat)
        (st' : sst) (rs : list (pres A)) (i : nat) (sp : sspan A) :
  goodCall st ins outs -> syncBulk c st ins outs = (st', rs) -> nth_error ins i = Some sp ->
  exists r, nth_error rs i = Some r
    /\ pCons r <= length (ssmp sp)
    /\ (forall p, p < length (pOut r) ->
          nth_error (pOut r) p = nth_error (ssmp sp) (skipped r + p)
          /\ forwardedAt p (pTags r) = mapsAt (skipped r + p) sp)
    /\ (forall p, length (pOut r) <= p -> forwardedAt p (pTags r) = []).
Proof.
  intros H E Hsp. pose proof H as (_ & _ & Hln & _).
  destruct (syncBulk_shape c st ins outs st' rs H E) as (_ & _ & k & rep & _ & S3).
  assert (Li : i < length (nDrop st)) by (rewrite Hln; apply nth_error_Some; congruence).
  destruct (nth_error (nDrop st) i) as [p|] eqn:Ep; [|apply nth_error_None in Ep; lia].
  destruct (S3 i sp p Hsp Ep) as (r & p' & d & R1 & _ & R3).
  destruct (shape_out _ _ _ _ _ _ _ R3) as [Lo Sk]. destruct R3 as (Q1 & Q2 & Q3 & Q4).
  exists r. split; [exact R1|]. split; [lia|]. rewrite Lo, Sk. split.
  - intros q Hq. split.
    + rewrite Q3, nth_firstn_lt by exact Hq. apply nth_error_skipn_some.
    + destruct rep; [|lia]. destruct Q4 as [Q4 _]. rewrite Q4, forwardedAt_app, forwardedAt_drop.
      apply forwardedAt_input. exact Hq.
  - intros q Hq. destruct rep.
    + destruct Q4 as [Q4 _]. rewrite Q4, forwardedAt_app, forwardedAt_drop. apply forwardedAt_beyond. exact Hq.
    + destruct Q4 as (_ & -> & _). reflexivity.
Qed.
Print Assumptions C172_tags_travel_with_their_samples.

Example ex_tags : mapsAt (skipped (mkPres 6 [23; 24; 25] []) + 1) exB = [8%N].
Proof. vm_compute. reflexivity. Qed.

(* ---------- C173: what happens without a common time ---------- *)

(* Without a common trigger time and before the first one nothing is
   published, and what exceeds the history is given up, no more. *)
Theorem C173_nothing_before_the_first_common_time {A : Type} (c : scfg) (st : sst) (ins : list (sspan A))
        (outs : list nat) (st' : sst) (rs : list (pres A)) :
  goodCall st ins outs -> synced st = false -> (forall T, ~ common c ins T) -> syncBulk c st ins outs = (st', rs) ->
  synced st' = false
  /\ forall i sp, nth_error ins i = Some sp ->
     exists r, nth_error rs i = Some r /\ pOut r = [] /\ pTags r = []
       /\ length (ssmp sp) - pCons r = Nat.min (length (ssmp sp)) (hist c).
Proof.
  intros (Hne & _) Hs Hc E. unfold syncBulk in E. cbn zeta in E. rewrite not_synchronized in E; [|exact Hne|].
  - rewrite Hs in E. cbn [andb] in E. injection E as <- <-. split; [reflexivity|].
    intros i sp Hsp. exists (dropPort c sp). rewrite nth_error_map, Hsp. split; [reflexivity|]. split; [reflexivity|].
    split; [reflexivity|]. cbn [dropPort pCons]. unfold excess. destruct (Nat.ltb_spec (length (ssmp sp)) (hist c)); lia.
  - intros T HT. exfalso. exact (Hc T HT).
Qed.
Print Assumptions C173_nothing_before_the_first_common_time.

(* In a synchronised stream the samples in front of the next trigger of any
   input are passed on, as many as all inputs have and all outputs can take,
   and none is skipped. *)
Theorem C173_synchronised_streams_flow {A : Type} (c : scfg) (st : sst) (ins : list (sspan A))
        (outs : list nat) (st' : sst) (rs : list (pres A)) (m : nat) :
  goodCall st ins outs -> synced st = true -> (forall T, ~ common c ins T) -> syncBulk c st ins outs = (st', rs) ->
  0 < m -> (forall cap, In cap outs -> m <= cap) ->
  (forall sp, In sp ins -> m <= length (ssmp sp) /\ forall t u, syncTag c sp t u -> m <= tRel t) ->
  synced st' = true
  /\ forall i sp, nth_error ins i = Some sp ->
     exists r, nth_error rs i = Some r /\ m <= length (pOut r) /\ skipped r = 0
       /\ pOut r = firstn (length (pOut r)) (ssmp sp).
Proof.
  intros (Hne & Hlo & Hln & Ho) Hs Hc E Hm Hout Hin. unfold syncBulk in E. cbn zeta in E.
  rewrite not_synchronized in E; [|exact Hne|intros T HT; exfalso; exact (Hc T HT)].
  set (k := Nat.min (minl (map (beforeSync c) ins)) (minl outs)) in *.
  assert (Lk : m <= k).
  { apply Nat.min_glb.
    - assert (Q : map (beforeSync c) ins <> []) by (destruct ins; [congruence|discriminate]).
      apply minl_in, in_map_iff in Q. destruct Q as (sp & <- & Hsp). destruct (Hin sp Hsp) as [L1 L2].
      unfold beforeSync. destruct (find (isSync c) (stgs sp)) as [t|] eqn:F; [|exact L1].
      apply find_some in F. destruct F as [F1 F2]. apply isSync_iff in F2. destruct F2 as (nm & u & E1 & E2 & E3).
      destruct (Nat.lt_ge_cases (tRel t) (length (ssmp sp))) as [L|L]; [|lia].
      specialize (L2 t u). apply Nat.min_glb; [apply L2|exact L1].
      split; [exact F1|]. split; [exact L|]. split; [exact E2|]. exists nm. auto.
    - apply Hout, minl_in. intros ->. destruct ins; [congruence|discriminate]. }
  rewrite Hs in E. replace (0 <? k) with true in E by lia. cbn [andb] in E. injection E as <- <-.
  split; [reflexivity|]. intros i sp Hsp.
  assert (Li : i < length (nDrop st)) by (rewrite Hln; apply nth_error_Some; congruence).
  destruct (nth_error (nDrop st) i) as [p|] eqn:Ep; [|apply nth_error_None in Ep; lia].
  exists (copyPort k sp p). rewrite map2_nth, Hsp, Ep. split; [reflexivity|].
  assert (L : k <= length (ssmp sp)).
  { pose proof (minl_le (map (beforeSync c) ins) (beforeSync c sp)) as Q.
    assert (beforeSync c sp <= length (ssmp sp)) by (unfold beforeSync; destruct (find _ _); lia).
    specialize (Q (in_map _ _ _ (nth_error_In _ _ Hsp))). lia. }
  unfold skipped, copyPort. cbn [pOut pCons]. rewrite firstn_length, Nat.min_l by exact L.
  split; [exact Lk|]. split; [lia|reflexivity].
Qed.
Print Assumptions C173_synchronised_streams_flow.

Example ex_flow :
  let ins := [mkSp [1; 2; 3] []; mkSp [4; 5] []] in
  syncBulk exCfg (mkSt true [0%N; 0%N]) ins [9; 9]
  = (mkSt true [0%N; 0%N], [mkPres 2 [1; 2] []; mkPres 2 [4; 5] []])
  /\ (forall T, ~ common exCfg ins T) /\ goodCall (mkSt true [0%N; 0%N]) ins [9; 9].
Proof.
  cbn zeta. split; [vm_compute; reflexivity|]. split.
  - intros T ((sp & t & [ <- | [ <- | []]] & ([] & _)) & _).
  - split; [discriminate|]. split; [reflexivity|]. split; [reflexivity|]. repeat constructor.
Qed.

(* The claim is that samples of a synchronised stream are given up only if the
   inputs do not fit together.  They are also given up if an output has no
   room, and the streams then count as not synchronised. *)
Theorem C173_back_pressure_drops_samples_refuted {A : Type} (c : scfg) (n : nat) (l : list A) :
  0 < n -> hist c < length l ->
  let ins := repeat (mkSp l []) n in
  let '(st', rs) := syncBulk c (mkSt true (repeat 0%N n)) ins (repeat 0 n) in
  goodCall (mkSt true (repeat 0%N n)) ins (repeat 0 n)
  /\ synced st' = false
  /\ forall i, i < n -> exists r, nth_error rs i = Some r /\ pOut r = [] /\ pCons r = length l - hist c /\ 0 < pCons r.
Proof.
  intros Hn Hh. cbn zeta.
  set (ins := repeat (mkSp l []) n). destruct (syncBulk c (mkSt true (repeat 0%N n)) ins (repeat 0 n)) as [st' rs] eqn:E.
  assert (Hne : ins <> []) by (unfold ins; destruct n; [lia|discriminate]).
  assert (Hins : forall sp, In sp ins -> sp = mkSp l []) by (intros sp H; apply repeat_spec in H; exact H).
  split.
  - split; [exact Hne|]. unfold ins. cbn [nDrop]. rewrite !repeat_length. split; [reflexivity|]. split; [reflexivity|].
    apply Forall_forall. intros sp H. rewrite (Hins sp H). constructor.
  - unfold syncBulk in E. cbn zeta in E. rewrite not_synchronized in E; [|exact Hne|].
    2: { intros T ((sp & t & H & (H' & _)) & _). rewrite (Hins sp H) in H'. destruct H'. }
    replace (minl (repeat 0 n)) with 0 in E.
    2: { symmetry. assert (Q : repeat 0 n <> []) by (destruct n; [lia|discriminate]). apply minl_in in Q.
         apply repeat_spec in Q. exact Q. }
    rewrite Nat.min_0_r in E. cbn [synced Nat.ltb Nat.leb andb] in E. injection E as <- <-.
    assert (X : excess c (mkSp l []) = length l - hist c).
    { unfold excess. cbn [ssmp]. destruct (Nat.ltb_spec (length l) (hist c)); lia. }
    split.
    + cbn [synced]. apply not_true_iff_false. intros F. rewrite forallb_forall in F.
      assert (Hi : In (mkSp l []) ins) by (unfold ins; destruct n; [lia|left; reflexivity]).
      specialize (F _ Hi). apply Nat.eqb_eq in F. lia.
    + intros i Hi. exists (dropPort c (mkSp l [])). rewrite nth_error_map.
      assert (Ei : nth_error ins i = Some (mkSp l [])).
      { unfold ins. clear - Hi. revert i Hi. induction n as [|n IH]; intros [|i] H; cbn; try lia; [reflexivity|]. apply IH. lia. }
      rewrite Ei. split; [reflexivity|]. split; [reflexivity|]. cbn [dropPort pCons]. lia.
Qed.
Print Assumptions C173_back_pressure_drops_samples_refuted.

(* ---------- C174: extent of an aligned block ---------- *)

(* Behind the aligned tags no other trigger is published in the same call, and
   the block ends only at a full output, at the end of an input or in front of
   the next trigger of an input. *)
Theorem C174_block_ends_before_the_next_trigger {A : Type} (c : scfg) (st : sst) (ins : list (sspan A))
        (outs : list nat) (T : N) :
  goodCall st ins outs -> earliestCommon c ins T -> T <> noTime ->
  exists st' rs k pos, syncBulk c st ins outs = (st', rs)
    /\ (forall r, In r rs -> length (pOut r) = k)
    /\ (forall i sp r t u, nth_error ins i = Some sp -> nth_error rs i = Some r ->
          syncTag c sp t u -> skipped r + pos < tRel t -> skipped r + k <= tRel t)
    /\ (In k outs
        \/ exists i sp r, nth_error ins i = Some sp /\ nth_error rs i = Some r
             /\ (skipped r + k = length (ssmp sp)
                 \/ exists t u, syncTag c sp t u /\ tRel t = skipped r + k)).
Proof.
  intros H HT Hn. pose proof H as (Hne & Hlo & _ & Ho). rewrite Forall_forall in Ho.
  destruct (C169_equal_samples_per_call c st ins outs _ _ H (surjective_pairing _)) as (Lrs & _).
  destruct (aligned_core c st ins outs T H HT Hn) as (st' & rs & k & pos & E & S & _ & M & K).
  rewrite E in Lrs. cbn [snd] in Lrs.
  exists st', rs, k, pos. split; [exact E|]. split; [|split].
  - intros r Hr. apply In_nth_error in Hr. destruct Hr as (i & Hi).
    assert (Li : i < length rs) by (apply nth_error_Some; congruence).
    destruct (nth_error ins i) as [sp|] eqn:Es; [|apply nth_error_None in Es; lia].
    destruct (K i sp Es) as (r' & t & R1 & R2 & _). congruence.
  - intros i sp r t u Hsp Hr Hs Hlt.
    destruct (K i sp Hsp) as (r' & t' & R1 & R2 & _ & R3 & _ & R4 & R5 & _ & R7 & _). rewrite Hr in R1. injection R1 as <-.
    destruct Hs as (S1 & S2 & S3 & nm & S4).
    assert (Hi : isSync c t = true) by (apply isSync_iff; exists nm, u; tauto).
    destruct (postSamples_stops c sp (tRel t') t (Ho sp (nth_error_In _ _ Hsp)) S1 Hi); lia.
  - destruct M as [M|(sp & t & Hsp & F & pre & M1 & ->)].
    + left. rewrite M. apply minl_in. intros ->. destruct ins; [congruence|discriminate].
    + right. apply In_nth_error in Hsp. destruct Hsp as (i & Hsp).
      destruct (K i sp Hsp) as (r' & t' & R1 & R2 & F' & R3 & _ & R4 & R5 & _ & R7 & _).
      rewrite F in F'. injection F' as <-. exists i, sp, r'. split; [exact Hsp|]. split; [exact R1|].
      unfold postSamples in M1. destruct (find _ (stgs sp)) as [v|] eqn:G in M1.
      * right. apply find_some in G. destruct G as [G1 G2]. apply andb_true_iff in G2. destruct G2 as [G2 G3].
        apply isSync_iff in G3. destruct G3 as (nm & u & E1 & E2 & E3). exists v, u.
        split; [split; [exact G1|]; split; [lia|]; split; [exact E2|]; exists nm; auto|]. lia.
      * left. lia.
Qed.
Print Assumptions C174_block_ends_before_the_next_trigger.

(* In front of the aligned tags no other trigger is published, provided an
   input has at most one trigger in front of the aligned tag.  Missing is the
   case of several: the code stops at the first instead of the last. *)
Theorem C174_block_begins_behind_the_previous_trigger_partial {A : Type} (c : scfg) (st : sst) (ins : list (sspan A))
        (outs : list nat) (T : N) :
  goodCall st ins outs -> earliestCommon c ins T -> T <> noTime ->
  (forall sp t1 u1 t2 u2 t3, In sp ins -> syncTag c sp t1 u1 -> syncTag c sp t2 u2 -> In t3 (stgs sp) ->
     close c (getTime t3) T -> tRel t1 < tRel t3 -> tRel t2 < tRel t3 -> tRel t1 = tRel t2) ->
  exists st' rs pos, syncBulk c st ins outs = (st', rs)
    /\ forall i sp r t u, nth_error ins i = Some sp -> nth_error rs i = Some r ->
          syncTag c sp t u -> tRel t < skipped r + pos -> tRel t < skipped r.
Proof.
  intros H HT Hn Hone.
  destruct (aligned_core c st ins outs T H HT Hn) as (st' & rs & k & pos & E & S & _ & _ & K).
  exists st', rs, pos. split; [exact E|]. intros i sp r t u Hsp Hr Hs Hlt.
  destruct (K i sp Hsp) as (r' & t' & R1 & R2 & _ & R3 & R3' & R4 & R5 & R6 & R7 & _). rewrite Hr in R1. injection R1 as <-.
  assert (P : preSamples c sp (tRel t') = tRel t' - tRel t - 1).
  { destruct Hs as (S1 & S2 & S3 & nm & S4). apply preSamples_single; [exact S1|lia| |].
    - apply isSync_iff. exists nm, u. tauto.
    - intros v V1 V2 V3. apply isSync_iff in V3. destruct V3 as (nm' & u' & E1 & E2 & E3).
      apply (Hone sp v u' t u t' (nth_error_In _ _ Hsp)); try assumption; try lia.
      + split; [exact V1|]. split; [lia|]. split; [exact E2|]. exists nm'. auto.
      + split; [exact S1|]. split; [exact S2|]. split; [exact S3|]. exists nm. exact S4. }
  lia.
Qed.
Print Assumptions C174_block_begins_behind_the_previous_trigger_partial.

(* Two triggers without a partner in front of the common one: the second of
   them is published as part of the aligned block. *)
Definition preA : sspan nat := mkSp [10; 11; 12; 13; 14; 15; 16; 17; 18] [trig 2 20 1; trig 5 50 2; trig 8 100 3].
Definition preB : sspan nat := mkSp [30; 31; 32; 33; 34; 35; 36; 37; 38] [trig 8 100 4].

Theorem C174_unmatched_trigger_published_refuted :
  goodCall (freshSync 2) [preA; preB] [20; 20]
  /\ map (fun r => (pOut r, pTags r)) (snd (syncBulk exCfg (freshSync 2) [preA; preB] [20; 20]))
     = [([13; 14; 15; 16; 17; 18], [(0, Dropped 3); (2, Fwd 2); (5, Fwd 3)]);
        ([33; 34; 35; 36; 37; 38], [(0, Dropped 3); (5, Fwd 4)])].
Proof.
  split.
  - split; [discriminate|]. split; [reflexivity|]. split; [reflexivity|].
    constructor; [|constructor; [|constructor]]; repeat constructor; cbn; lia.
  - vm_compute. reflexivity.
Qed.
Print Assumptions C174_unmatched_trigger_published_refuted.

Example ex_one_before : goodCall (freshSync 2) [mkSp [1; 2; 3] [trig 0 20 1; trig 2 100 2]; mkSp [4; 5] [trig 1 100 3]] [9; 9]
  /\ map (@pOut nat) (snd (syncBulk exCfg (freshSync 2) [mkSp [1; 2; 3] [trig 0 20 1; trig 2 100 2]; mkSp [4; 5] [trig 1 100 3]] [9; 9]))
     = [[2; 3]; [4; 5]].
Proof.
  split; [|vm_compute; reflexivity].
  split; [discriminate|]. split; [reflexivity|]. split; [reflexivity|].
  constructor; [|constructor; [|constructor]]; repeat constructor; cbn; lia.
Qed.
