(* Theorems about the Schmitt trigger and its block. *)

From Coq Require Import ZArith List Bool Lia.
From Verif Require Import SchmittModel SchmittSpec SchmittProofs.
Import ListNotations.

Local Open Scope Z_scope.

(* ---------------- C203: detection ---------------- *)

(* Sample number k has an edge iff it changes the side of the newest sample at
   or outside the thresholds. *)
Theorem C203_edges : forall c xs k, 0 < thr c -> (k < length xs)%nat ->
  nth k (edges (step0 c) initT xs) ENone =
  between (side (lower c) (upper c) (rev (firstn k xs))) (side (lower c) (upper c) (rev (firstn (S k) xs))).
Proof.
  intros c xs k Ht Hk. destruct (nth_edges (step0 c) k xs initT Hk) as [A B]. rewrite A, moves0, <- B.
  rewrite (side0 c Ht (firstn k xs) initT [] eq_refl), (side0 c Ht (firstn (S k) xs) initT [] eq_refl), !app_nil_r. reflexivity.
Qed.
Print Assumptions C203_edges.

(* With every method, rising and falling edges alternate, a rising one first. *)
Theorem C203_alternate : forall fit c xs, alternate ERising (real (edges (step0 c) initT xs)) /\
  alternate ERising (real (edges (step1 c) initT xs)) /\ alternate ERising (real (edges (step2 fit c) initT xs)).
Proof.
  intros fit c xs. split; [|split].
  - apply (alternates _ (moves0 c) xs initT).
  - apply (alternates _ (moves1 c) xs initT).
  - apply (alternates _ (moves2 fit c) xs initT).
Qed.
Print Assumptions C203_alternate.

(* lastEdgeIdx is minus the number of samples since the last edge, 1 before the
   first. *)
Theorem C203_index : forall c xs, idx (after (step0 c) initT xs) = match since (rev (edges (step0 c) initT xs)) with None => 1 | Some n => - Z.of_nat n end.
Proof. exact index0. Qed.
Print Assumptions C203_index.

(* Samples between the thresholds give no edge, whatever came before. *)
Theorem C203_noise : forall c xs ys, Forall (fun y => lower c < y < upper c) ys ->
  edges (step0 c) (after (step0 c) initT xs) ys = repeat ENone (length ys).
Proof.
  intros c xs ys H. generalize (after (step0 c) initT xs). induction ys as [|y ys IH]; intros s; [reflexivity|].
  assert (H1 := Forall_inv H). cbv beta in H1. rewrite edges_cons. cbn [length repeat].
  assert (E : snd (step0 c s y) = ENone).
  { unfold step0. destruct (upper c <=? y) eqn:A; zb; [lia|]. destruct (y <=? lower c) eqn:B; zb; [lia|]. rewrite !andb_false_r. reflexivity. }
  rewrite E. f_equal. apply IH. exact (Forall_inv_tail H).
Qed.
Print Assumptions C203_noise.

(* A constant signal gives at most one edge if the threshold is positive. *)
Theorem C203_constant : forall c v n, 0 < thr c -> (length (real (edges (step0 c) initT (repeat v n))) <= 1)%nat.
Proof.
  intros c v n Ht.
  assert (A : forall m s, high s = side (lower c) (upper c) [v] \/ (lower c < v < upper c) -> real (edges (step0 c) s (repeat v m)) = []).
  { induction m as [|m IH]; intros s Hs; [reflexivity|]. cbn [repeat]. rewrite edges_cons, moves0. unfold real in *.
    assert (E : high (fst (step0 c s v)) = high s).
    { rewrite high0 by exact Ht. destruct Hs as [Hs|Hs].
      - rewrite Hs. cbn [side]. destruct (upper c <=? v); [reflexivity|]. destruct (v <=? lower c); reflexivity.
      - destruct (upper c <=? v) eqn:X; zb; [lia|]. destruct (v <=? lower c) eqn:Y; zb; [lia|]. reflexivity. }
    rewrite E. destruct (high s) eqn:G; cbn [between filter]; apply IH; rewrite E; (destruct Hs as [Hs|Hs]; [left; exact Hs|right; exact Hs]). }
  destruct n as [|n]; [cbn; lia|]. cbn [repeat]. rewrite edges_cons.
  assert (B : real (edges (step0 c) (fst (step0 c initT v)) (repeat v n)) = []).
  { apply A. rewrite high0 by exact Ht. cbn [side]. destruct (upper c <=? v) eqn:X; [left; reflexivity|]. destruct (v <=? lower c) eqn:Y; [left; reflexivity|]. zb. right. lia. }
  unfold real in *. cbn [filter]. destruct (snd (step0 c initT v)); rewrite B; cbn [length]; lia.
Qed.
Print Assumptions C203_constant.

(* With threshold 0, as the block's trigger is constructed, a signal constant
   at the offset gives an edge at every sample. *)
Theorem C203_threshold_zero_refuted : forall v n, length (real (edges (step0 (mkC 0 v)) initT (repeat v n))) = n.
Proof.
  intros v n. generalize initT. induction n as [|n IH]; intros s; [reflexivity|]. cbn [repeat]. rewrite edges_cons.
  assert (E : snd (step0 (mkC 0 v) s v) <> ENone).
  { unfold step0, upper, lower. cbn [offs thr]. destruct (v + 0 <=? v) eqn:A; zb; [|lia]. destruct (v <=? v - 0) eqn:B; zb; [|lia].
    destruct (high s); cbn; discriminate. }
  specialize (IH (fst (step0 (mkC 0 v) s v))). unfold real in *. cbn [filter].
  destruct (snd (step0 (mkC 0 v) s v)); [destruct (E eq_refl)| |]; cbn [length]; rewrite IH; reflexivity.
Qed.
Print Assumptions C203_threshold_zero_refuted.

Example C203_ex : edges (step0 (mkC 2 10)) initT [9; 11; 12; 9; 13; 8; 9; 11; 15] = [ENone; ENone; ERising; ENone; ENone; EFalling; ENone; ENone; ERising].
Proof. reflexivity. Qed.

(* ---------------- C204: the methods agree ---------------- *)

(* Basic interpolation gives the edges of the method without. *)
Theorem C204_basic : forall c xs, edges (step1 c) initT xs = edges (step0 c) initT xs.
Proof. intros. apply same1. reflexivity. Qed.
Print Assumptions C204_basic.

(* So do regression and smoothing, if they find a crossing and the signal (or
   the zeros the history begins with) starts at or below the lower threshold. *)
Theorem C204_fit : forall fit c x xs, 0 < thr c -> (forall h a, fit h a <> None) -> 0 <= lower c \/ x <= lower c ->
  edges (step2 fit c) initT (x :: xs) = edges (step0 c) initT (x :: xs).
Proof.
  intros fit c x xs Ht Hf H. destruct (Z_le_gt_dec 0 (lower c)) as [G|G].
  - apply same2; [exact Ht|exact Hf|reflexivity|]. intros _. exact G.
  - assert (Hx : x <= lower c) by lia.
    assert (Lu : lower c < upper c) by (unfold lower, upper; lia).
    assert (E2 : step2 fit c initT x = (mkT false ENone 1 (push x (hist initT)) 0, ENone)).
    { unfold step2. cbv zeta. change (hd 0 (hist initT)) with 0. change (acc initT) with 0%nat. change (high initT) with false. change (Nat.ltb 0 0) with false. cbn [negb andb].
      destruct (0 <=? lower c) eqn:A; zb; [lia|]. cbn [andb]. change (Nat.ltb 0 0) with false. reflexivity. }
    assert (E0 : step0 c initT x = (mkT false ENone 1 (hist initT) 0, ENone)).
    { unfold step0. change (high initT) with false. cbn [negb andb]. destruct (upper c <=? x) eqn:A; zb; [lia|]. reflexivity. }
    rewrite !edges_cons, E2, E0. cbn [fst snd]. f_equal. apply same2; [exact Ht|exact Hf|reflexivity|]. intros _. cbn. exact Hx.
Qed.
Print Assumptions C204_fit.

(* The regression over two or more samples does find a crossing. *)
Theorem C204_denominator : forall n, 2 <= n -> 0 < denominator12 n.
Proof.
  intros n Hn. unfold denominator12. replace (2 * (n * (n - 1) * (2 * n - 1)) - 3 * (n * (n - 1) * (n - 1))) with (n * ((n - 1) * (n + 1))) by ring.
  apply Z.mul_pos_pos; [lia|]. apply Z.mul_pos_pos; lia.
Qed.
Print Assumptions C204_denominator.

(* A signal that starts between the thresholds and rises: no edge. *)
Theorem C204_start_refuted : exists c x y, 0 < thr c /\ lower c < x < upper c /\
  edges (step0 c) initT [x; y] = [ENone; ERising] /\ forall fit n, edges (step2 fit c) initT ([x; y] ++ repeat y n) = repeat ENone (2 + n).
Proof.
  exists (mkC 1 0), 0, 5. split; [reflexivity|]. split; [split; reflexivity|]. split; [reflexivity|]. intros fit n.
  change (ENone :: ENone :: edges (step2 fit (mkC 1 0)) (after (step2 fit (mkC 1 0)) initT [0; 5]) (repeat 5 n) = repeat ENone (2 + n)).
  cbn [Nat.add repeat]. do 2 f_equal.
  assert (A : forall m s, high s = false -> acc s = 0%nat -> hd 0 (hist s) = 5 -> edges (step2 fit (mkC 1 0)) s (repeat 5 m) = repeat ENone m).
  { induction m as [|m IH]; intros s H1 H2 H3; [reflexivity|]. cbn [repeat]. rewrite edges_cons.
    assert (E : step2 fit (mkC 1 0) s 5 = (mkT false (lastE s) (idx s) (push 5 (hist s)) 0, ENone)).
    { unfold step2. cbv zeta. rewrite H1, H2, H3. reflexivity. }
    rewrite E. cbn [fst snd]. f_equal. apply IH; reflexivity. }
  apply A; reflexivity.
Qed.
Print Assumptions C204_start_refuted.

(* With regression, lastEdgeIdx does not grow older. *)
Theorem C204_index_refuted : exists c xs, forall n, idx (after (step2 (fun _ _ => Some 0) c) initT (xs ++ repeat 20 n)) = 0 /\
  edges (step2 (fun _ _ => Some 0) c) initT (xs ++ repeat 20 n) = [ENone; ERising] ++ repeat ENone n.
Proof.
  exists (mkC 1 10), [0; 20]. intros n. rewrite after_app, edges_app.
  assert (A : forall m s, high s = true -> acc s = 0%nat -> hd 0 (hist s) = 20 ->
     idx (after (step2 (fun _ _ => Some 0) (mkC 1 10)) s (repeat 20 m)) = idx s /\ edges (step2 (fun _ _ => Some 0) (mkC 1 10)) s (repeat 20 m) = repeat ENone m).
  { induction m as [|m IH]; intros s H1 H2 H3; [split; reflexivity|]. cbn [repeat after]. rewrite edges_cons.
    assert (E : step2 (fun _ _ => Some 0) (mkC 1 10) s 20 = (mkT true (lastE s) (idx s) (push 20 (hist s)) 0, ENone)).
    { unfold step2. cbv zeta. rewrite H1, H2, H3. reflexivity. }
    rewrite E. cbn [fst snd]. destruct (IH (mkT true (lastE s) (idx s) (push 20 (hist s)) 0)) as [I1 I2]; try reflexivity. rewrite I1, I2. split; reflexivity. }
  destruct (A n (after (step2 (fun _ _ => Some 0) (mkC 1 10)) initT [0; 20])) as [B1 B2]; try reflexivity. rewrite B1, B2. split; reflexivity.
Qed.
Print Assumptions C204_index_refuted.

Example C204_ex : edges (step2 (fun _ _ => Some 0) (mkC 2 10)) initT [9; 11; 12; 9; 13; 8; 9; 11; 15] = [ENone; ENone; ERising; ENone; ENone; EFalling; ENone; ENone; ERising].
Proof. reflexivity. Qed.

(* ---------------- C205: basic position ---------------- *)

(* The position is at most half a sample from where the line through the two
   samples meets the offset. *)
Theorem C205_nearest : forall c y1 y2, y1 <> y2 -> 2 * Z.abs ((offs c - y2) - basicPos c y1 y2 * (y2 - y1)) <= Z.abs (y2 - y1).
Proof.
  intros c y1 y2 H. unfold basicPos. destruct (Z.eqb_spec y1 y2) as [E|E]; [contradiction|]. apply round_near. lia.
Qed.
Print Assumptions C205_nearest.

(* If the offset lies between the two samples, the position is one of them. *)
Theorem C205_between : forall c y1 y2, (y1 <= offs c <= y2 \/ y2 <= offs c <= y1) -> basicPos c y1 y2 = -1 \/ basicPos c y1 y2 = 0.
Proof. exact basic_straddle. Qed.
Print Assumptions C205_between.

(* A signal that passes the offset earlier than it reaches the threshold: the
   position may be any distance before the stream's first sample. *)
Theorem C205_slow_refuted : forall m, 0 < m -> exists c xs, edges (step1 c) initT xs = [ENone; ENone; ERising] /\ idx (after (step1 c) initT xs) = - m - 3.
Proof.
  intros m Hm. exists (mkC (m + 3) 0), [- (m + 3); m + 2; m + 3].
  assert (S1 : step1 (mkC (m + 3) 0) initT (- (m + 3)) = (mkT false ENone 1 (push (- (m + 3)) (hist initT)) 0, ENone)).
  { unfold step1, upper. cbn [thr offs]. change (high initT) with false. cbn [negb andb]. destruct (0 + (m + 3) <=? - (m + 3)) eqn:A; zb; [lia|]. reflexivity. }
  set (s1 := mkT false ENone 1 (push (- (m + 3)) (hist initT)) 0) in *.
  assert (S2 : step1 (mkC (m + 3) 0) s1 (m + 2) = (mkT false ENone 1 (push (m + 2) (hist s1)) 0, ENone)).
  { unfold step1, upper. cbn [thr offs]. change (high s1) with false. cbn [negb andb]. destruct (0 + (m + 3) <=? m + 2) eqn:A; zb; [lia|]. reflexivity. }
  set (s2 := mkT false ENone 1 (push (m + 2) (hist s1)) 0) in *.
  assert (S3 : exists h, step1 (mkC (m + 3) 0) s2 (m + 3) = (mkT true ERising (- m - 3) h 0, ERising)).
  { unfold step1, upper. cbn [thr offs]. change (high s2) with false. cbn [negb andb]. destruct (0 + (m + 3) <=? m + 3) eqn:A; zb; [|lia].
    change (hd 0 (hist s2)) with (m + 2).
    assert (P : basicPos (mkC (m + 3) 0) (m + 2) (m + 3) = - m - 3).
    { unfold basicPos. cbn [offs]. destruct (Z.eqb_spec (m + 2) (m + 3)) as [E|E]; [lia|].
      pose proof (round_near (0 - (m + 3)) (m + 3 - (m + 2)) ltac:(lia)) as N. replace (m + 3 - (m + 2)) with 1 in * by lia. lia. }
    rewrite P. eexists. reflexivity. }
  destruct S3 as [h S3]. cbn [edges after]. rewrite S1. cbn [fst]. rewrite S2. cbn [fst]. rewrite S3. split; reflexivity.
Qed.
Print Assumptions C205_slow_refuted.

Example C205_ex : basicPos (mkC 1 0) (-3) 9 = -1 /\ basicPos (mkC 1 0) (-9) 3 = 0 /\ basicPos (mkC 1 0) 5 10 = -2.
Proof. repeat split. Qed.

(* ---------------- C206: the block ---------------- *)

(* Without interpolation, however the stream is cut into calls, the samples
   published are a prefix of it, every one has passed the trigger once, the tags
   are the named edges of that prefix at their samples, and the time counts its
   samples. *)
Theorem C206_any_cut : forall c names period t0 xs cs s d ts, calls (step0 c) names period (mkB initT t0) 0 xs cs = (s, d, ts) ->
  (d <= length xs)%nat /\ trg s = after (step0 c) initT (firstn d xs) /\ now s = t0 + period * Z.of_nat d /\
  ts = tagsOf names period 0 t0 (edges (step0 c) initT (firstn d xs)).
Proof.
  intros c names period t0 xs cs s d ts H.
  replace (mkB initT t0) with (mkB (after (step0 c) initT (firstn 0 xs)) (t0 + period * Z.of_nat 0)) in H.
  2:{ cbn [firstn after Z.of_nat]. f_equal. lia. }
  destruct (calls_spec (step0 c) names period initT t0 xs (onTime0 c) cs 0 s d ts ltac:(lia) H) as (A & B & C).
  rewrite B. cbn [trg now]. split; [lia|]. split; [reflexivity|]. split; [reflexivity|]. rewrite C. reflexivity.
Qed.
Print Assumptions C206_any_cut.

(* A call that has samples to spare and room makes progress. *)
Theorem C206_progress : forall c names period s span room (eos : bool), (0 < room)%nat -> (if eos then span <> [] else (32 < length span)%nat) ->
  exists s' k tg, processBulk (step0 c) names period s span room eos = Some (s', k, tg) /\ (0 < k <= length span)%nat /\ (k <= room)%nat.
Proof.
  intros c names period s span room eos Hr He. unfold processBulk.
  assert (Hn : (0 < nProcess span room eos <= length span)%nat /\ (nProcess span room eos <= room)%nat).
  { unfold nProcess. destruct eos; [destruct span; [contradiction|cbn [length]; lia]|lia]. }
  destruct (nProcess span room eos) as [|n] eqn:E; [lia|].
  assert (Ln : length (firstn (S n) span) = S n) by (rewrite firstn_length; lia).
  destruct (scan_spec (step0 c) names period (onTime0 c) (firstn (S n) span) 0 s (S n) ltac:(lia)) as (k & tg & K1 & K2 & K3 & _).
  rewrite K3. exists (mkB (after (step0 c) (trg s) (firstn k (firstn (S n) span))) (now s + period * Z.of_nat k)), (0 + k)%nat, tg.
  split; [reflexivity|]. assert (0 < k)%nat; [|lia]. apply K2. intros F. rewrite F in Ln. discriminate Ln.
Qed.
Print Assumptions C206_progress.

(* With basic interpolation the same stream has an edge tag or none depending on
   where it is cut. *)
Theorem C206_cut_refuted : exists c names xs cs1 cs2,
  (let '(_, d, ts) := calls (step1 c) names 1 (mkB initT 0) 0 xs cs1 in d = length xs /\ map (fun g : tag => fst (fst g)) ts = [0%nat]) /\
  (let '(_, d, ts) := calls (step1 c) names 1 (mkB initT 0) 0 xs cs2 in d = length xs /\ ts = []).
Proof.
  exists (mkC 5 0), (true, true), [-10; 10], [(2, 2, true); (2, 2, true)]%nat, [(1, 1, true); (1, 1, true)]%nat.
  split; cbn; split; reflexivity.
Qed.
Print Assumptions C206_cut_refuted.

(* And samples behind the edge pass the trigger again, so the time runs ahead of
   the samples. *)
Theorem C206_time_refuted : exists c names xs cs,
  let '(s, d, _) := calls (step1 c) names 1 (mkB initT 0) 0 xs cs in d = length xs /\ Z.of_nat d < now s.
Proof.
  exists (mkC 5 0), (true, true), [-10; 10], [(2, 2, true); (2, 2, true)]%nat. cbn. split; [reflexivity|reflexivity].
Qed.
Print Assumptions C206_time_refuted.

Example C206_ex : calls (step0 (mkC 5 0)) (true, false) 10 (mkB initT 1000) 0 [0; 6; 7; -8; 0; 9] [(3, 2, true); (1, 0, true); (6, 6, true); (6, 6, true)]%nat =
  (mkB (after (step0 (mkC 5 0)) initT [0; 6; 7; -8; 0; 9]) 1060, 6%nat, [(1%nat, ERising, 1020); (5%nat, ERising, 1060)]).
Proof. reflexivity. Qed.
