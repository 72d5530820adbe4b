(** Properties C53-C62: the work loop of a block. *)
From Coq Require Import List NArith ZArith Lia Bool.
From Coq Require Import ZifyBool ZifyNat ZifyN.
From Verif Require Import WorkModel WorkSpec WorkProofs WorkRun WorkInv WorkTags WorkStride.
Import ListNotations.
Local Open Scope N_scope.

(* ------------------------------------------------------------------ blocks used in the examples *)

(** A processing function that calls [chunk] on one chunk after the other. *)
Definition byChunks {A B S} (chunk : S -> list (list A) -> S * list (list B)) (c : cfg)
  (s : S) (xs : list (list A)) (n : N) : ures B S :=
  let m := N.to_nat (n / ocs c) in
  mkRes (fst (chunks chunk c m s xs)) OK None None (snd (chunks chunk c m s xs)).

Lemma byChunks_works {A B S} (chunk : S -> list (list A) -> S * list (list B)) c :
  1 <= ocs c -> worksByChunk chunk c (byChunks chunk c).
Proof.
  intros H m s xs _ _. unfold byChunks. rewrite N.div_mul by lia. rewrite Nat2N.id. reflexivity.
Qed.

Definition p1 : port := mkPort true false true 1 umax.            (* an ordinary stream port *)
Definition sumChunk (s : N) (xs : list (list N)) : N * list (list N) :=
  (s + 1, [[1000 * s + fold_right N.add 0 (concat xs)]]).
Definition cSum : cfg := mkCfg 2 1 0 true true [p1] [p1] PDefault. (* sums of two samples, decimation by two *)
(** State: a counter that tags overwrite; all tags are forwarded. *)
Definition uSum (c : cfg) : ublock N N N N := mkUb (byChunks sumChunk c) (fun _ t => t) (fun _ t => Some t) N.eqb.

Lemma cSum_ok : chunked cSum /\ chunkShape sumChunk cSum /\ strideActive cSum = false /\ pol cSum = PDefault
  /\ Forall plain (inP cSum) /\ minReq (inP cSum) <= 1 /\ minReq (outP cSum) <= ocs cSum /\ worksByChunk sumChunk cSum (proc (uSum cSum)).
Proof.
  split; [unfold chunked; cbn; repeat split; try lia; intros; discriminate|].
  split; [intros s xs; cbn; split; [reflexivity|repeat constructor]|].
  split; [reflexivity|]. split; [reflexivity|]. split; [repeat constructor|]. split; [cbn; lia|]. split; [cbn; lia|].
  apply byChunks_works. cbn. lia.
Qed.

(** The samples 1..7, a tag (77) at sample 1 and the end of stream after sample 6, in two pieces. *)
Definition evSum : list (event N N) :=
  [Feed 0 [1; 2; 3] [mkTag 1 false 77]; Work 0 [100] 9; Work 1 [100] 9;
   Feed 0 [4; 5; 6; 7] [mkTag 7 true 0]; Work 0 [1] 9; Work 0 [100] 9; Work 0 [100] 9].

Lemma evSum_good : goodEvents 1 (repeat [] 1) (repeat [] 1) evSum /\ fewTags cSum (fedT 1 evSum).
Proof.
  split; [|left; reflexivity]. unfold evSum, fedT.
  repeat (cbn [goodEvents addAt repeat nth length concat app]; repeat (split || constructor); cbn; try lia).
Qed.

(* ------------------------------------------------------------------ C53 *)

(** C53.  The decision of one call of work: whole chunks, within what every synchronous port asks for and has. *)
Theorem C53_limits_respect_ports :
  forall c cn avs sps nt ne req,
    chunked c -> length avs = length (inP c) -> length sps = length (outP c) ->
    let l := computeLimits c cn (availOf (inP c) avs) (availOf (outP c) sps) nt ne req in
    lEos l = false -> lIn l <> 0 ->
    (exists m, 1 <= m /\ lIn l = m * ics c /\ lOut l = m * ocs c)
    /\ lSkip l + lIn l <= ne
    /\ (forall i p n, nth_error (inP c) i = Some p -> nth_error avs i = Some n -> pSync p = true ->
          lSkip l <= effAvail p n /\ fits p (effAvail p n - lSkip l) (lIn l))
    /\ (forall i p n, nth_error (outP c) i = Some p -> nth_error sps i = Some n -> pSync p = true ->
          fits p (effAvail p n) (lOut l)).
Proof.
  intros c cn avs sps nt ne req Hch Ha Hs l He Hl.
  pose proof (limits_legal c cn (availOf (inP c) avs) (availOf (outP c) sps) nt ne req Hch) as HL. cbv zeta in HL. fold l in HL.
  destruct HL as ((m & Hm1 & Hm2) & Hmin & Hin & Hout & Hsk & _). destruct (Hmin Hl) as [Hm3 Hm4].
  pose proof (toProcess_le c (availOf (inP c) avs) (if isFwd (pol c) then umax else nt) ne (lSkip l)) as (T1 & T2 & T3 & T4).
  assert (HE : after ne (lSkip l) >= minReq (inP c)).
  { unfold l, computeLimits in He |- *. cbv zeta in He |- *. destruct (skipBefore c cn _) as [sk cn'].
    destruct (computeResampling c _ _ _ _ _) as [[a b] s]. cbn [lEos lSkip] in *. lia. }
  split; [exists m; repeat split; auto; nia|].
  split; [unfold after in T4; destruct (N.ltb_spec (lSkip l) ne); lia|]. split.
  - intros i p n Hp Hn Hsy.
    pose proof (availOf_ge (inP c) avs i p n Hp Hn Hsy) as Hav.
    pose proof (minReq_ge (inP c) p (nth_error_In _ _ Hp) Hsy). pose proof (maxReq_ge (inP c) p (nth_error_In _ _ Hp) Hsy).
    unfold fits, after in *. destruct (N.ltb_spec (lSkip l) ne); destruct (N.ltb_spec (lSkip l) (availOf (inP c) avs)); lia.
  - intros i p n Hp Hn Hsy.
    pose proof (availOf_ge (outP c) sps i p n Hp Hn Hsy) as Hav.
    pose proof (minReq_ge (outP c) p (nth_error_In _ _ Hp) Hsy). pose proof (maxReq_ge (outP c) p (nth_error_In _ _ Hp) Hsy).
    unfold fits in *. lia.
Qed.
Print Assumptions C53_limits_respect_ports.

(** Two inputs (at least 4 samples on the second), 3:2 chunks, a tag 14 samples ahead: 12 samples in, 8 out. *)
Definition c53 : cfg := mkCfg 3 2 0 true true [p1; mkPort true false true 4 100] [p1] PDefault.
Example C53_case : chunked c53 /\
  computeLimits c53 0 (availOf (inP c53) [50; 20]) (availOf (outP c53) [30]) 14 umax 0 = mkLim 12 8 0 0 OK false.
Proof. split; [unfold chunked; cbn; repeat split; try lia; intros; discriminate|vm_compute; reflexivity]. Qed.

(* ------------------------------------------------------------------ C54 *)

(** C54.  One more chunk on every input, room for its output: the next call of work processes it or ends the stream. *)
Theorem C54_progress_partial :
  forall {A B S T} (c : cfg) (u : ublock A B S T) chunk s0 es req space tr,
    chunked c -> chunkShape chunk c -> strideActive c = false -> pol c = PDefault -> Forall plain (inP c) ->
    minReq (inP c) <= 1 -> minReq (outP c) <= ocs c -> worksByChunk chunk c (proc u) ->
    ics c <= maxReq (inP c) -> ocs c <= maxReq (outP c) ->
    let n := length (inP c) in
    goodEvents (length (outP c)) (repeat [] n) (repeat [] n) es -> fewTags c (fedT n es) ->
    (length (concat (fedT n es)) <= tr)%nat ->
    let st := run c u (init c s0) es in
    let st' := run c u (init c s0) (es ++ [Work req space tr]) in
    stopped st = false -> Forall (fun f => pos st + ics c <= nlen f) (fedQ n es) -> Forall (fun x => ocs c <= x) space ->
    stopped st' = true \/ pos st + ics c <= pos st'.
Proof.
  intros A B S T c u chunk s0 es req space tr H1 H2 H3 H4 H5 H6 H7 H8 H9 H10 n Hg Hf Htr st st' Hst HF HS.
  destruct (inv_run c u chunk s0 es _ _ _ 0 (length (outP c)) H1 H2 H3 H4 H5 H6 (minO31 c H1 H7) H8 (inv_init c u chunk s0) Hg Hf) as (k & HI).
  fold st in HI. unfold st', run. rewrite fold_left_app. cbn [fold_left]. fold (run c u (init c s0) es). fold st.
  apply (work_progress c u chunk s0 H1 H2 H3 H4 H5 H6 H7 H8 _ _ st k req space tr HI Hf Htr Hst H9 H10).
  - change (fold_left feedQ es (repeat [] (length (inP c)))) with (fedQ n es).
    eapply Forall_impl; [|exact HF]. intros f Hfl. rewrite (iPos _ _ _ _ _ _ _ _ HI) in Hfl. lia.
  - exact HS.
Qed.
Print Assumptions C54_progress_partial.

Example C54_case : pos (run cSum (uSum cSum) (init cSum 0) (firstn 4 evSum)) = 2
  /\ pos (run cSum (uSum cSum) (init cSum 0) (firstn 4 evSum ++ [Work 1 [1] 9])) = 4
  /\ stopped (run cSum (uSum cSum) (init cSum 0) (firstn 4 evSum)) = false.
Proof. vm_compute. auto. Qed.

(** Not in general: a block that wants at least [m] output samples per call never runs again once a tag is less than
    [m] samples ahead, whatever arrives and however often work is called. *)
Theorem C54_tag_before_min_output_refuted :
  forall {A B S T} (c : cfg) (u : ublock A B S T) s0 xs x d es,
    strideActive c = false -> pol c = PDefault -> ics c = 1 -> ocs c = 1 -> length (inP c) = 1%nat ->
    minReq (inP c) <= 1 -> 1 <= d -> d < minReq (outP c) -> minReq (outP c) < 2 ^ 31 -> feedsNoEos es ->
    let st := run c u (init c s0) (Feed 0 xs [mkTag d false x] :: es) in
    stopped st = false /\ pos st = 0 /\ opos st = 0 /\ outs st = map (fun _ => []) (outP c) /\ otags st = [].
Proof.
  intros A B S T c u s0 xs x d es Hs Hp Hi Ho Hin Hmi H1 H2 H3 Hes st.
  assert (Hi1 : exists p, inP c = [p]). { destruct (inP c) as [|p [|q l]]; try discriminate. exists p. reflexivity. }
  destruct Hi1 as (p & Ep). set (s1 := step c u (init c s0) (Feed 0 xs [mkTag d false x])).
  pose proof (stall c u d Hs Hp ltac:(unfold umax; lia) (stall_out c d Hs Hp Hi Ho Hmi H1 H2 H3) es s1 [mkTag d false x]) as H.
  unfold st. cbn [run fold_left]. fold s1. fold (run c u s1 es).
  destruct H as (E1 & E2 & E3 & E4 & E5 & _); auto.
  - unfold s1. cbn [step init tgs]. rewrite Ep. reflexivity.
  - unfold s1, distTo. cbn [step init pos find tIdx]. destruct (N.leb_spec (0 + 1) d); [|lia]. cbn [andb tIdx]. apply N.sub_0_r.
Qed.
Print Assumptions C54_tag_before_min_output_refuted.

(** Two samples per output buffer of 64: the tag at sample 10 is never reached although 1000 samples are waiting. *)
Definition c64 : cfg := mkCfg 1 1 0 false false [p1] [mkPort true false true 64 umax] PDefault.
Example C54_stall_case : let st := run c64 (uSum c64) (init c64 0)
   [Feed 0 (repeat 1 1000) [mkTag 10 false 5]; Work 0 [10000] 9; Work 64 [10000] 9; Feed 0 (repeat 1 100) []; Work 0 [10000] 9] in
   pos st = 0 /\ nlen (concat (qs st)) = 1100.
Proof. vm_compute. auto. Qed.

(** Nor when the smallest input is no multiple of the chunk size: chunks of 4, at least 10 samples, a tag at sample 10. *)
Definition c10 : cfg := mkCfg 4 4 0 true false [mkPort true false true 10 umax] [p1] PDefault.
Theorem C54_min_not_multiple_refuted :
  forall {A B S T} (u : ublock A B S T) s0 xs x es, feedsNoEos es ->
    let st := run c10 u (init c10 s0) (Feed 0 xs [mkTag 10 false x] :: es) in
    stopped st = false /\ pos st = 0 /\ opos st = 0 /\ outs st = [[]] /\ otags st = [].
Proof.
  intros A B S T u s0 xs x es Hes st. set (s1 := step c10 u (init c10 s0) (Feed 0 xs [mkTag 10 false x])).
  assert (HL : forall cn avIn avOut req, avIn <= umax -> avOut <= umax ->
     let l := computeLimits c10 cn avIn avOut 10 umax req in lIn l = 0 /\ lOut l = 0 /\ lEos l = false).
  { intros cn avIn avOut req H1 H2 l.
    assert (HE : lEos l = false) by (unfold l; rewrite limits_eos by reflexivity; vm_compute; reflexivity).
    assert (Htp : toProcess c10 avIn 10 umax 0 <= 10).
    { unfold toProcess. rewrite !after_0. cbn [minReq maxReq c10 inP fold_right p1 pSync effMin pOpt pConn pMin pMax andb negb ics N.leb].
      change (N.max 10 0 <=? 10) with true. cbv iota. change (4 <=? 10) with true. cbv iota. lia. }
    assert (HR : computeResampling c10 (N.min (minReq (inP c10)) umax) (toProcess c10 avIn 10 umax 0) (minReq (outP c10))
                   (N.min (maxReq (outP c10)) avOut) req = (0, 0, INSUFFICIENT_INPUT_ITEMS)).
    { set (tp := toProcess c10 avIn 10 umax 0) in *. clearbody tp. set (mo := N.min (maxReq (outP c10)) avOut). clearbody mo.
      unfold computeResampling. change (strideActive c10) with false. cbn [resEn ics ocs c10 negb N.eqb Pos.eqb andb].
      set (k := N.min (tp / 4) (mo / 4)). assert (Hk : k <= 2).
      { unfold k. assert (tp / 4 <= 10 / 4) by (apply N.div_le_mono; lia). change (10 / 4) with 2 in H. lia. }
      clearbody k. change (N.min (minReq (inP c10)) umax) with 10.
      rewrite u64_id by (unfold umax; lia). destruct (N.ltb_spec (k * 4) 10); [reflexivity|lia]. }
    split; [|split; [|exact HE]]; unfold l, computeLimits, skipBefore; change (strideActive c10) with false; change (isFwd (pol c10)) with false;
      cbn [andb]; cbv iota; rewrite HR; reflexivity. }
  pose proof (stall c10 u 10 eq_refl eq_refl ltac:(unfold umax; lia) HL es s1 [mkTag 10 false x]) as H.
  unfold st. cbn [run fold_left]. fold s1. fold (run c10 u s1 es).
  destruct H as (E1 & E2 & E3 & E4 & E5 & _); auto.
Qed.
Print Assumptions C54_min_not_multiple_refuted.

Example C54_multiple_case : let st := run c10 (uSum c10) (init c10 0) [Feed 0 (repeat 1 1000) [mkTag 10 false 5]; Work 0 [10000] 9; Work 0 [10000] 9] in
   pos st = 0 /\ nlen (concat (qs st)) = 1000.
Proof. vm_compute. auto. Qed.

(* ------------------------------------------------------------------ C55 *)

(** C55.  Whatever the scheduler does (how input arrives, how often work is called, with which requested work and
    output space): the block has produced exactly what processing the first k chunks one by one produces. *)
Theorem C55_schedule_independent :
  forall {A B S T} (c : cfg) (u : ublock A B S T) chunk s0 es,
    chunked c -> chunkShape chunk c -> strideActive c = false -> pol c = PDefault -> Forall plain (inP c) ->
    minReq (inP c) <= 1 -> minReq (outP c) < 2 ^ 31 -> worksByChunk chunk c (proc u) ->
    let n := length (inP c) in
    goodEvents (length (outP c)) (repeat [] n) (repeat [] n) es -> fewTags c (fedT n es) ->
    let st := run c u (init c s0) es in
    exists k, pos st = N.of_nat k * ics c /\ opos st = N.of_nat k * ocs c
      /\ Forall (fun f => N.of_nat k * ics c <= nlen f) (fedQ n es)
      /\ qs st = map (dropN (N.of_nat k * ics c)) (fedQ n es)
      /\ reference chunk c u s0 (fedQ n es) (fedT n es) k
         = (us st, outs st, if stopped st then removelast (otags st) else otags st).
Proof.
  intros A B S T c u chunk s0 es H1 H2 H3 H4 H5 H6 H7 H8 n Hg Hf st.
  destruct (inv_run c u chunk s0 es _ _ _ 0 (length (outP c)) H1 H2 H3 H4 H5 H6 H7 H8 (inv_init c u chunk s0) Hg Hf) as (k & HI).
  fold st in HI. exists k. destruct HI. repeat split; auto.
  destruct iRef as (ot & HR & HT). unfold n, fedQ, fedT.
  change (fold_left (fun a e => match e with Feed i xs _ => addAt i xs a | Work _ _ _ => a end) es (repeat [] (length (inP c))))
    with (fold_left (@feedQ A T) es (repeat [] (length (inP c)))).
  change (fold_left (fun a e => match e with Feed i _ ts => addAt i ts a | Work _ _ _ => a end) es (repeat [] (length (inP c))))
    with (fold_left (@feedT A T) es (repeat [] (length (inP c)))).
  rewrite HR. f_equal. destruct (stopped st).
  - rewrite HT, removelast_last. reflexivity.
  - rewrite HT, app_nil_r. reflexivity.
Qed.
Print Assumptions C55_schedule_independent.

(** Two schedules of the same streams that have read equally far agree in everything they have produced. *)
Theorem C55_two_schedules :
  forall {A B S T} (c : cfg) (u : ublock A B S T) chunk s0 es1 es2,
    chunked c -> chunkShape chunk c -> strideActive c = false -> pol c = PDefault -> Forall plain (inP c) ->
    minReq (inP c) <= 1 -> minReq (outP c) < 2 ^ 31 -> worksByChunk chunk c (proc u) ->
    let n := length (inP c) in
    goodEvents (length (outP c)) (repeat [] n) (repeat [] n) es1 -> goodEvents (length (outP c)) (repeat [] n) (repeat [] n) es2 ->
    fedQ n es1 = fedQ n es2 -> fedT n es1 = fedT n es2 -> fewTags c (fedT n es1) ->
    let st1 := run c u (init c s0) es1 in let st2 := run c u (init c s0) es2 in
    pos st1 = pos st2 ->
    us st1 = us st2 /\ outs st1 = outs st2 /\ opos st1 = opos st2 /\ qs st1 = qs st2
    /\ (stopped st1 = stopped st2 -> stopped st1 = false -> otags st1 = otags st2).
Proof.
  intros A B S T c u chunk s0 es1 es2 H1 H2 H3 H4 H5 H6 H7 H8 n Hg1 Hg2 EQ ET Hf st1 st2 HP.
  destruct (C55_schedule_independent c u chunk s0 es1 H1 H2 H3 H4 H5 H6 H7 H8 Hg1 Hf) as (k1 & P1 & O1 & _ & Q1 & R1).
  fold n in Q1, R1. fold st1 in P1, O1, Q1, R1. fold n in Hf. rewrite ET in Hf.
  destruct (C55_schedule_independent c u chunk s0 es2 H1 H2 H3 H4 H5 H6 H7 H8 Hg2 Hf) as (k2 & P2 & O2 & _ & Q2 & R2).
  fold n in Q2, R2. fold st2 in P2, O2, Q2, R2. destruct H1 as ((Hc & _) & _). rewrite P1, P2 in HP.
  assert (k1 = k2) by nia. subst k2. rewrite EQ in Q1, R1. rewrite ET in R1. rewrite R1 in R2. injection R2 as E1 E2 E3.
  repeat split; auto; try congruence. intros Es Es1. rewrite <- Es, Es1 in E3. exact E3.
Qed.
Print Assumptions C55_two_schedules.

(** The example: three chunks, the tag at sample 1 sets the counter before the second chunk and is forwarded with it,
    and the end of stream comes after three output samples. *)
Example C55_case : let st := run cSum (uSum cSum) (init cSum 0) evSum in
  (us st, outs st, otags st, pos st, stopped st) = (79, [[3; 77007; 78011]], [(1, Some 77); (3, None)], 6, true).
Proof. vm_compute. reflexivity. Qed.
Example C55_case_reference : reference sumChunk cSum (uSum cSum) 0 (fedQ 1 evSum) (fedT 1 evSum) 3 = (79, [[3; 77007; 78011]], [(1, Some 77)]).
Proof. vm_compute. reflexivity. Qed.
Example C55_hypotheses : exists k, reference sumChunk cSum (uSum cSum) 0 (fedQ 1 evSum) (fedT 1 evSum) k = (79, [[3; 77007; 78011]], [(1, Some 77)]).
Proof.
  destruct cSum_ok as (H1 & H2 & H3 & H4 & H5 & H6 & H7 & H8). destruct evSum_good as [G1 G2].
  destruct (C55_schedule_independent cSum (uSum cSum) sumChunk 0 evSum H1 H2 H3 H4 H5 H6 ltac:(cbn; lia) H8 G1 G2) as (k & _ & _ & _ & _ & R).
  exists k. cbn [inP cSum length] in R. rewrite R. vm_compute. reflexivity.
Qed.

(* ------------------------------------------------------------------ C56 *)

(** C56.  One input: every tag of the processed chunks is forwarded exactly once, in stream order, with the first output
    sample of its chunk (1:1 blocks: at its own sample). *)
Theorem C56_tags_once_in_order_partial :
  forall {A B S T} (c : cfg) (u : ublock A B S T) chunk s0 es f,
    chunked c -> chunkShape chunk c -> strideActive c = false -> pol c = PDefault -> Forall plain (inP c) ->
    minReq (inP c) <= 1 -> minReq (outP c) < 2 ^ 31 -> worksByChunk chunk c (proc u) -> length (inP c) = 1%nat ->
    (forall s x, fwd u s x = f x) ->
    goodEvents (length (outP c)) [[]] [[]] es ->
    let st := run c u (init c s0) es in
    exists k g, pos st = N.of_nat k * ics c /\ fedT 1 es = [g]
      /\ otags st = expectTags c f (N.of_nat k) g ++ (if stopped st then [(opos st, None)] else []).
Proof.
  intros A B S T c u chunk s0 es f H1 H2 H3 H4 H5 H6 H7 H8 Hn Hfw Hg st.
  pose proof (inv_init c u chunk s0) as HI0. rewrite Hn in HI0. cbn [repeat] in HI0.
  destruct (inv_run c u chunk s0 es [[]] [[]] _ 0 (length (outP c)) H1 H2 H3 H4 H5 H6 H7 H8 HI0 Hg (or_introl Hn)) as (k & HI).
  fold st in HI. exists k. destruct HI. rewrite Hn in iGlen.
  destruct (fold_left feedT es [[]]) as [|g [|g2 l]] eqn:EG; try discriminate. exists g.
  split; [exact iPos|]. split; [exact EG|]. destruct iRef as (ot & HR & HT). rewrite HT. f_equal.
  rewrite <- (reference_tags c u chunk s0 (fold_left feedQ es [[]]) g k f).
  - rewrite HR. reflexivity.
  - destruct H1 as ((Hc & _) & _). exact Hc.
  - inversion iAsc; assumption.
  - exact Hfw.
Qed.
Print Assumptions C56_tags_once_in_order_partial.

Example C56_case : expectTags cSum (fun t => Some t) 3 [mkTag 1 false 77; mkTag 4 false 5; mkTag 6 false 9] = [(1, Some 77); (2, Some 5)].
Proof. vm_compute. reflexivity. Qed.

(** Not for every processBulk: consuming input without publishing loses the tags of that call. *)
Definition uDrop : ublock N N N N :=
  mkUb (fun s xs n => mkRes s OK (Some 1) (Some 0) [[]]) (fun _ t => t) (fun _ t => Some t) N.eqb.
Definition c11 : cfg := mkCfg 1 1 0 false false [p1] [p1] PDefault.
Theorem C56_consume_without_publish_refuted :
  exists es : list (event N N), goodEvents 1 [[]] [[]] es /\
    let st := run c11 uDrop (init c11 0) es in
    pos st = 1 /\ tgs st = [[]] /\ us st = 7 /\ fedT 1 es = [[mkTag 0 false 7]] /\ otags st = [].
Proof.
  exists [Feed 0 [1] [mkTag 0 false 7]; Work 0 [10] 9]. split; [|vm_compute; auto 10].
  repeat (cbn [goodEvents addAt repeat nth length concat app]; repeat (split || constructor); cbn; try lia).
Qed.
Print Assumptions C56_consume_without_publish_refuted.

(** Publishing without consuming repeats the tags of the waiting sample, at every call. *)
Definition uDup : ublock N N N N :=
  mkUb (fun s xs n => mkRes s OK (Some 0) (Some 1) [[5]]) (fun _ t => t) (fun _ t => Some t) N.eqb.
Theorem C56_publish_without_consume_refuted :
  exists es : list (event N N), goodEvents 1 [[]] [[]] es /\
    let st := run c11 uDup (init c11 0) es in
    fedT 1 es = [[mkTag 0 false 7]] /\ otags st = [(0, Some 7); (1, Some 7); (2, Some 7)].
Proof.
  exists [Feed 0 [1] [mkTag 0 false 7]; Work 0 [10] 9; Work 0 [10] 9; Work 0 [10] 9]. split; [|vm_compute; auto 10].
  repeat (cbn [goodEvents addAt repeat nth length concat app]; repeat (split || constructor); cbn; try lia).
Qed.
Print Assumptions C56_publish_without_consume_refuted.

(** A strided block never forwards a tag on the first sample it skips. *)
Definition cStr : cfg := mkCfg 2 2 5 true true [p1] [p1] PDefault.
Definition firstChunk (s : N) (xs : list (list N)) : N * list (list N) := (s, [takeN 2 (hd [] xs ++ [99; 99])]).
Definition uStr : ublock N N N N := mkUb (byChunks firstChunk cStr) (fun _ t => t) (fun _ t => Some t) N.eqb.
Theorem C56_tag_in_gap_refuted :
  exists es : list (event N N), goodEvents 1 [[]] [[]] es /\
    let st := run cStr uStr (init cStr 0) es in
    pos st = 7 /\ outs st = [[0; 1; 5; 6]] /\ tgs st = [[]] /\ fedT 1 es = [[mkTag 2 false 7]] /\ otags st = [].
Proof.
  exists [Feed 0 [0; 1; 2; 3; 4; 5; 6; 7] [mkTag 2 false 7]; Work 0 [10] 9; Work 0 [10] 9]. split; [|vm_compute; auto 10].
  repeat (cbn [goodEvents addAt repeat nth length concat app]; repeat (split || constructor); cbn; try lia).
Qed.
Print Assumptions C56_tag_in_gap_refuted.

(* ------------------------------------------------------------------ C57 *)

(** C57.  End of stream: nothing beyond the tag is consumed; a block stops only because of such a tag, with less than one
    chunk left in front of it; its own end-of-stream tag is one past its last sample; from then on nothing changes. *)
Theorem C57_end_of_stream :
  forall {A B S T} (c : cfg) (u : ublock A B S T) chunk s0 es later,
    chunked c -> chunkShape chunk c -> strideActive c = false -> pol c = PDefault -> Forall plain (inP c) ->
    minReq (inP c) <= 1 -> minReq (outP c) <= ocs c -> worksByChunk chunk c (proc u) ->
    let n := length (inP c) in
    goodEvents (length (outP c)) (repeat [] n) (repeat [] n) es -> fewTags c (fedT n es) ->
    let st := run c u (init c s0) es in
    (forall ts t, In ts (fedT n es) -> In t ts -> tEos t = true -> pos st <= tIdx t)
    /\ (stopped st = true ->
          (exists ts t, In ts (fedT n es) /\ In t ts /\ tEos t = true /\ (tIdx t < pos st + 2 ^ 33 -> tIdx t < pos st + ics c))
          /\ (exists ot, otags st = ot ++ [(opos st, None)])
          /\ (let st2 := run c u st later in
              stopped st2 = true /\ pos st2 = pos st /\ outs st2 = outs st /\ otags st2 = otags st /\ us st2 = us st)).
Proof.
  intros A B S T c u chunk s0 es later H1 H2 H3 H4 H5 H6 H7 H8 n Hg Hf st.
  destruct (inv_run c u chunk s0 es _ _ _ 0 (length (outP c)) H1 H2 H3 H4 H5 H6 (minO31 c H1 H7) H8 (inv_init c u chunk s0) Hg Hf) as (k & HI).
  fold st in HI. split.
  - intros ts t Hts Ht He. rewrite (iPos _ _ _ _ _ _ _ _ HI). exact (iEos _ _ _ _ _ _ _ _ HI ts t Hts Ht He).
  - intros Hs. split; [|split].
    + destruct (stop_rest c u chunk s0 H1 H7 _ _ st k HI Hs) as (ts & t & G1 & G2 & G3 & _ & G5). exists ts, t. auto.
    + destruct (iRef _ _ _ _ _ _ _ _ HI) as (ot & _ & HT). rewrite Hs in HT. exists ot. exact HT.
    + destruct (stopped_frozen c u later st Hs) as (E1 & E2 & E3 & E4 & E5 & E6). auto 10.
Qed.
Print Assumptions C57_end_of_stream.

(** And it does stop: an end-of-stream tag with less than one chunk in front of it ends the stream at the next call. *)
Theorem C57_stops_at_end :
  forall {A B S T} (c : cfg) (u : ublock A B S T) chunk s0 es req space tr ts t,
    chunked c -> chunkShape chunk c -> strideActive c = false -> pol c = PDefault -> Forall plain (inP c) ->
    minReq (inP c) <= 1 -> minReq (outP c) <= ocs c -> worksByChunk chunk c (proc u) ->
    let n := length (inP c) in
    goodEvents (length (outP c)) (repeat [] n) (repeat [] n) es -> fewTags c (fedT n es) ->
    (length (concat (fedT n es)) <= tr)%nat ->
    In ts (fedT n es) -> In t ts -> tEos t = true -> tIdx t < pos (run c u (init c s0) es) + ics c ->
    stopped (run c u (init c s0) (es ++ [Work req space tr])) = true.
Proof.
  intros A B S T c u chunk s0 es req space tr ts t H1 H2 H3 H4 H5 H6 H7 H8 n Hg Hf Htr Hts Ht He Hlt.
  destruct (inv_run c u chunk s0 es _ _ _ 0 (length (outP c)) H1 H2 H3 H4 H5 H6 (minO31 c H1 H7) H8 (inv_init c u chunk s0) Hg Hf) as (k & HI).
  unfold run. rewrite fold_left_app. cbn [fold_left]. fold (run c u (init c s0) es).
  apply (work_ends c u chunk s0 H1 H2 H3 H4 H5 H6 H7 H8 _ _ _ k req space tr ts t HI Hf Htr Hts Ht He Hlt).
Qed.
Print Assumptions C57_stops_at_end.

Example C57_case :
  stopped (run cSum (uSum cSum) (init cSum 0) (firstn 6 evSum)) = false
  /\ pos (run cSum (uSum cSum) (init cSum 0) (firstn 6 evSum)) = 6
  /\ stopped (run cSum (uSum cSum) (init cSum 0) evSum) = true
  /\ otags (run cSum (uSum cSum) (init cSum 0) evSum) = [(1, Some 77)] ++ [(3, None)].
Proof. vm_compute. auto. Qed.

(* ------------------------------------------------------------------ C58 *)

(** C58.  A strided block without tags (the end of stream aside) reads its chunks at the multiples of the stride, however it is scheduled. *)
Theorem C58_stride_grid_partial :
  forall {A B S T} (c : cfg) (u : ublock A B S T) chunk s0 es,
    chunked c -> chunkShape chunk c -> strided c -> Forall plain (inP c) -> worksByChunk chunk c (proc u) ->
    let n := length (inP c) in
    goodEvents (length (outP c)) (repeat [] n) (repeat [] n) es ->
    (forall i xs ts, In (Feed i xs ts) es -> Forall (fun t => tEos t = true) ts) ->
    let st := run c u (init c s0) es in
    exists k, gridRef chunk c s0 (fedQ n es) k = (us st, outs st)
      /\ opos st = N.of_nat k * ocs c /\ pos st <= N.of_nat k * stride c
      /\ (forall j, (j < k)%nat -> Forall (fun f => N.of_nat j * stride c + ics c <= nlen f) (fedQ n es))
      /\ otags st = (if stopped st then [(opos st, None)] else []).
Proof.
  intros A B S T c u chunk s0 es H1 H2 H3 H4 H5 n Hg He st.
  destruct (ginv_run c u chunk s0 H1 H2 H3 H4 H5 es _ _ _ 0 (length (outP c)) (ginv_init c chunk s0) Hg He) as (k & HI).
  fold st in HI. destruct HI. exists k. repeat split; auto. lia.
Qed.
Print Assumptions C58_stride_grid_partial.

Lemma cStr_ok : chunked cStr /\ chunkShape firstChunk cStr /\ strided cStr /\ Forall plain (inP cStr) /\ worksByChunk firstChunk cStr (proc uStr).
Proof.
  split; [unfold chunked; cbn; repeat split; try lia; intros; discriminate|].
  split; [intros s xs; split; [reflexivity|]|split; [repeat split; left; discriminate|split; [repeat constructor|apply byChunks_works; cbn; lia]]].
  constructor; [|constructor]. cbn [firstChunk snd]. rewrite nlen_takeN, nlen_app. cbn [ocs cStr]. change (nlen [99; 99]) with 2. lia.
Qed.

Definition evStr : list (event N N) :=
  [Feed 0 [0; 1; 2] []; Work 0 [10] 9; Work 0 [10] 9; Feed 0 [3; 4; 5; 6; 7; 8; 9; 10; 11] []; Work 0 [10] 9; Work 0 [10] 9; Work 0 [10] 9].
Example C58_case : let st := run cStr uStr (init cStr 0) evStr in outs st = [[0; 1; 5; 6; 10; 11]] /\ pos st = 12 /\ cnt st = 3.
Proof. vm_compute. auto. Qed.

(** A tag inside the gap moves the grid: a chunk is read at the tag, although no multiple of the stride is there. *)
Theorem C58_tag_moves_grid_refuted :
  exists es : list (event N N), goodEvents 1 [[]] [[]] es /\
    let st := run cStr uStr (init cStr 0) es in
    fedQ 1 es = [[0; 1; 2; 3; 4; 5; 6; 7; 8; 9; 10; 11]] /\ outs st <> snd (gridRef firstChunk cStr 0 (fedQ 1 es) 2)
    /\ outs st = [[0; 1; 3; 4]].
Proof.
  exists [Feed 0 [0; 1; 2; 3; 4; 5; 6; 7; 8; 9; 10; 11] [mkTag 3 false 7]; Work 0 [10] 9; Work 0 [10] 9]. split; [|vm_compute; repeat split; congruence].
  repeat (cbn [goodEvents addAt repeat nth length concat app]; repeat (split || constructor); cbn; try lia).
Qed.
Print Assumptions C58_tag_moves_grid_refuted.

(* ------------------------------------------------------------------ C59 *)

(** C59.  With chunk sizes 1 and a stride, the output depends on the schedule: the same ten samples, two results, neither of
    which continues the other. *)
Definition cStr1 : cfg := mkCfg 1 1 5 true true [p1] [p1] PDefault.
Definition uCopy : ublock N N N N :=
  mkUb (fun s xs n => mkRes s OK None None (firstn 1 xs)) (fun _ t => t) (fun _ t => Some t) N.eqb.
Theorem C59_stride_schedule_refuted :
  exists es1 es2 : list (event N N), goodEvents 1 [[]] [[]] es1 /\ goodEvents 1 [[]] [[]] es2
    /\ fedQ 1 es1 = fedQ 1 es2 /\ fedT 1 es1 = [[]] /\ fedT 1 es2 = [[]] /\
    let o1 := concat (outs (run cStr1 uCopy (init cStr1 0) es1)) in
    let o2 := concat (outs (run cStr1 uCopy (init cStr1 0) es2)) in
    pos (run cStr1 uCopy (init cStr1 0) es1) = pos (run cStr1 uCopy (init cStr1 0) es2)
    /\ nth 3 o1 0 = 3 /\ nth 3 o2 0 = 5 /\ (3 < length o1)%nat /\ (3 < length o2)%nat.
Proof.
  exists [Feed 0 [0; 1; 2; 3; 4; 5; 6; 7; 8; 9] []; Work 0 [100] 9; Work 0 [100] 9],
         [Feed 0 [0; 1; 2] []; Work 0 [100] 9; Feed 0 [3; 4; 5; 6; 7; 8; 9] []; Work 0 [100] 9].
  split; [|split; [|vm_compute; repeat split; lia]];
  repeat (cbn [goodEvents addAt repeat nth length concat app]; repeat (split || constructor); cbn; try lia).
Qed.
Print Assumptions C59_stride_schedule_refuted.

(* ------------------------------------------------------------------ C60 *)

(** C60.  A tag is moved forward by less than one chunk: it takes effect on the chunk that starts at or after its sample. *)
Theorem C60_tag_displacement_partial :
  forall {A B S T} (c : cfg) (u : ublock A B S T) chunk s0 es f,
    chunked c -> chunkShape chunk c -> strideActive c = false -> pol c = PDefault -> Forall plain (inP c) ->
    minReq (inP c) <= 1 -> minReq (outP c) < 2 ^ 31 -> worksByChunk chunk c (proc u) -> length (inP c) = 1%nat ->
    (forall s x, fwd u s x = f x) ->
    goodEvents (length (outP c)) [[]] [[]] es ->
    forall o x, In (o, Some x) (otags (run c u (init c s0) es)) ->
    exists g t j, fedT 1 es = [g] /\ In t g /\ f (tPay t) = Some x /\ o = j * ocs c /\ tIdx t <= j * ics c < tIdx t + ics c.
Proof.
  intros A B S T c u chunk s0 es f H1 H2 H3 H4 H5 H6 H7 H8 Hn Hfw Hg o x Hin.
  destruct (C56_tags_once_in_order_partial c u chunk s0 es f H1 H2 H3 H4 H5 H6 H7 H8 Hn Hfw Hg) as (k & g & _ & EG & ET).
  rewrite ET in Hin. apply in_app_or in Hin as [Hin|Hin].
  - unfold expectTags in Hin. apply in_flat_map in Hin as (t & Ht & Hx). apply filter_In in Ht as [Ht _].
    destruct (f (tPay t)) as [y|] eqn:Ef; [|destruct Hx]. destruct Hx as [Hx|[]]. injection Hx as <- <-.
    exists g, t, (chunkNo c (tIdx t)). repeat split; auto.
    + apply chunkNo_le; [|lia]. destruct H1 as ((Hc & _) & _). exact Hc.
    + apply chunkNo_ge; [|lia]. destruct H1 as ((Hc & _) & _). exact Hc.
  - destruct (stopped (run c u (init c s0) es)); [|destruct Hin]. destruct Hin as [Hin|[]]. discriminate.
Qed.
Print Assumptions C60_tag_displacement_partial.

Example C60_case : In (1, Some 77) (otags (run cSum (uSum cSum) (init cSum 0) evSum)) /\ 1 <= 1 * ics cSum < 1 + ics cSum.
Proof. split; [vm_compute; auto|cbn; lia]. Qed.

(** With a minimal input of several samples there is no such bound: the tag at sample 5 comes out at sample 100. *)
Definition cMin10 : cfg := mkCfg 1 1 0 false false [mkPort true false true 10 umax] [p1] PDefault.
Theorem C60_displacement_unbounded_refuted :
  forall n, 10 <= n -> n < 2 ^ 32 ->
    let l := computeLimits cMin10 0 n umax 5 umax 0 in lIn l = n /\ lOut l = n /\ lEos l = false.
Proof.
  intros n H1 H2 l. unfold l, computeLimits. change (skipBefore cMin10 0 _) with (0, 0). change (isFwd (pol cMin10)) with false. cbv iota zeta.
  assert (Etp : toProcess cMin10 n 5 umax 0 = n).
  { unfold toProcess. rewrite !after_0. change (minReq (inP cMin10)) with 10. change (maxReq (inP cMin10)) with umax. change (ics cMin10) with 1.
    change (10 <=? 5) with false. cbv iota. change (1 <=? umax) with true. cbv iota. unfold umax. lia. }
  rewrite Etp. change (N.min (minReq (inP cMin10)) umax) with 10. change (minReq (outP cMin10)) with 1. change (N.min (maxReq (outP cMin10)) umax) with umax.
  assert (ER : computeResampling cMin10 10 n 1 umax 0 = (n, n, OK)).
  { unfold computeResampling. cbn [resEn cMin10 negb]. change (0 =? 0) with true. cbv iota. unfold plainResampling.
    assert (En : N.min n umax = n) by (unfold umax; lia). rewrite En.
    destruct (N.ltb_spec n 10); [lia|]. destruct (N.ltb_spec n 1); [lia|]. unfold clamp. change (N.max 10 1) with 10.
    destruct (N.ltb_spec umax 10) as [Hb|_]; [unfold umax in Hb; lia|]. destruct (N.ltb_spec n umax); [reflexivity|unfold umax in *; lia]. }
  rewrite ER. cbn [lIn lOut lEos]. repeat split.
Qed.
Print Assumptions C60_displacement_unbounded_refuted.

Example C60_unbounded_case : let st := run cMin10 uCopy (init cMin10 0)
    [Feed 0 (repeat 1 100) [mkTag 5 false 7]; Work 0 [1000] 9; Feed 0 (repeat 1 10) []; Work 0 [1000] 9] in
  otags st = [(100, Some 7)] /\ pos st = 110.
Proof. vm_compute. auto. Qed.

(* ------------------------------------------------------------------ C61 *)

(** C61.  The vectorised loop touches every sample exactly once, in order, whatever the (power of two) vector width. *)
Theorem C61_simd_covers : forall e n,
  concat (map (fun r => seq (fst r) (snd r)) (simdRounds (2 ^ e)%nat n)) = seq 0 n.
Proof.
  intros e n. pose proof (simdRounds_cover e n) as H.
  assert (G : forall rs i j, covers rs i j -> (i <= j)%nat /\ concat (map (fun r => seq (fst r) (snd r)) rs) = seq i (j - i)).
  { induction rs as [|[a w] rs IH]; intros i j Hc; cbn [covers] in Hc.
    - subst. rewrite Nat.sub_diag. split; [lia|reflexivity].
    - destruct Hc as (-> & Hw & Hc). destruct (IH _ _ Hc) as [H1 H2]. split; [lia|]. cbn [map concat fst snd]. rewrite H2.
      replace (j - i)%nat with (w + (j - (i + w)))%nat by lia. rewrite seq_app. reflexivity. }
  destruct (G _ _ _ H) as [_ E]. rewrite Nat.sub_0_r in E. exact E.
Qed.
Print Assumptions C61_simd_covers.

Example C61_case : simdRounds 8 29 = [(0, 8); (8, 8); (16, 8); (24, 4); (28, 1)]%nat.
Proof. vm_compute. reflexivity. Qed.

(* ------------------------------------------------------------------ C62 *)

(** C62.  Several inputs: of the tags that arrive together (at most nine), each distinct one is forwarded once. *)
Theorem C62_forwarded_once_partial :
  forall {A B S T} (u : ublock A B S T) s (w : list (list (tag T))),
    length w <> 1%nat -> (length (concat w) <= 9)%nat ->
    forwarded u s w = flat_map (fun t => match fwd u s (tPay t) with Some x => [x] | None => [] end) (firstOcc (eqT u) [] (concat w)).
Proof.
  intros A B S T u s w Hw Hl. unfold forwarded. f_equal.
  destruct w as [|w1 [|w2 ws]]; [reflexivity|contradiction (Hw eq_refl)|].
  apply (dedup_firstOcc u []); cbn [length Nat.add]; [lia|exact Hl].
Qed.
Print Assumptions C62_forwarded_once_partial.

Example C62_case : forwarded (uSum cSum) 0 [[mkTag 0 false 1; mkTag 0 false 2]; [mkTag 0 false 2; mkTag 0 false 3]] = [1; 2; 3].
Proof. vm_compute. reflexivity. Qed.

(** With ten tags on each of two inputs the last two are forwarded twice. *)
Definition ten : list (tag N) := map (fun x => mkTag 0 false x) [0; 1; 2; 3; 4; 5; 6; 7; 8; 9].
Definition c2in : cfg := mkCfg 1 1 0 false false [p1; p1] [p1] PDefault.
Theorem C62_ten_tags_refuted :
  exists es : list (event N N), goodEvents 1 [[]; []] [[]; []] es /\ fedT 2 es = [ten; ten]
    /\ map snd (otags (run c2in uCopy (init c2in 0) es)) = map Some ([0; 1; 2; 3; 4; 5; 6; 7; 8; 9] ++ [8; 9]).
Proof.
  exists [Feed 0 [1] ten; Feed 1 [1] ten; Work 0 [10] 99]. split; [|vm_compute; auto].
  repeat (cbn [goodEvents addAt repeat nth length concat app ten map]; repeat (split || constructor); cbn; try lia).
Qed.
Print Assumptions C62_ten_tags_refuted.
