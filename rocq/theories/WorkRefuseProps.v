(** Property C112: what a work call leaves behind when the processing function refuses (reports an error or too few
    items), and what the reported amount of work means when it does not. *)
From Coq Require Import List NArith ZArith Lia Bool.
From Coq Require Import ZifyBool ZifyNat ZifyN.
From Verif Require Import WorkModel WorkSpec WorkProps.
Import ListNotations.
Local Open Scope N_scope.

(* ------------------------------------------------------------------ spec *)

(** A processing function that never calls consume() or publish() itself. *)
Definition plainCounts {A B S T} (u : ublock A B S T) : Prop :=
  forall s xs n, uCons (proc u s xs n) = None /\ uPub (proc u s xs n) = None.

(** The statuses that mean "this call did nothing". *)
Definition refusal (s : status) : Prop :=
  s = ERROR \/ s = INSUFFICIENT_INPUT_ITEMS \/ s = INSUFFICIENT_OUTPUT_ITEMS.

(** Nothing was published: same samples, same tags, same position. *)
Definition nothingOut {A B S T} (a b : state A B S T) : Prop :=
  outs b = outs a /\ opos b = opos a /\ otags b = otags a.

(** Nothing was consumed: samples, tags and position of the inputs, and the stride counter. *)
Definition nothingIn {A B S T} (a b : state A B S T) : Prop :=
  qs b = qs a /\ tgs b = tgs a /\ pos b = pos a /\ cnt b = cnt a.

(* ------------------------------------------------------------------ proofs *)

Lemma dropN_0 {X} (l : list X) : dropN 0 l = l.
Proof. reflexivity. Qed.

Lemma map_dropN_0 {X} (l : list (list X)) : map (dropN 0) l = l.
Proof. induction l as [|a l IH]; cbn [map]; [reflexivity|]. rewrite IH. reflexivity. Qed.

Lemma map_consume_0 {T} c p (l : list (list (tag T))) : map (consumeTagsOf c 0 0 p) l = l.
Proof. induction l as [|a l IH]; cbn [map]; [reflexivity|]. rewrite IH. reflexivity. Qed.

Lemma map_consume_n0 {T} c m p (l : list (list (tag T))) : map (consumeTagsOf c m 0 p) l = l.
Proof.
  induction l as [|a l IH]; cbn [map]; [reflexivity|]. rewrite IH. unfold consumeTagsOf.
  rewrite N.eqb_refl, orb_true_r. reflexivity.
Qed.

Lemma zipApp_nothing {X} (a b : list (list X)) : zipApp a (map (takeN 0) b) = a.
Proof.
  revert b. induction a as [|x a IH]; intros [|y b]; cbn [zipApp map]; try reflexivity.
  rewrite IH. change (takeN 0 y) with (@nil X). rewrite app_nil_r. reflexivity.
Qed.

Lemma skip_bound c cnt0 a b d e req :
  let l := computeLimits c cnt0 a b d e req in
  lSkip l + lCnt l = cnt0 /\ (strideActive c = false -> lSkip l = 0).
Proof.
  unfold computeLimits.
  destruct (skipBefore c cnt0 _) as [k n] eqn:E.
  destruct (computeResampling _ _ _ _ _ _) as [[ri ro] st]. cbn [lSkip lCnt].
  unfold skipBefore in E. destruct (strideActive c) eqn:Es; cbn [andb] in E.
  - destruct (0 <? cnt0); injection E as <- <-; split; try discriminate; lia.
  - injection E as <- <-. split; [lia|reflexivity].
Qed.

Lemma zeroed_refusal s : zeroed s = true <-> refusal s.
Proof. unfold refusal. destruct s; cbn; split; intros; try discriminate; auto; destruct H as [H|[H|H]]; discriminate H. Qed.

(** The three ways a call can end, with the counts spelled out. *)
Lemma work_refused {A B S T} c (u : ublock A B S T) st req space tr st' s n :
  plainCounts u -> work c u st req space tr = (st', s, n) -> refusal s ->
  n = 0 /\ stopped st' = false /\ nothingOut st st'
  /\ exists k, cnt st' + k = cnt st /\ pos st' = pos st + k /\ qs st' = map (dropN k) (qs st)
               /\ (strideActive c = false -> k = 0) /\ (k = 0 -> tgs st' = tgs st).
Proof.
  intros Hp Hw Hr. unfold work in Hw.
  destruct (stopped st) eqn:Est.
  { injection Hw as _ <- _. destruct Hr as [H|[H|H]]; discriminate H. }
  set (l := computeLimits c (cnt st) (availOf (inP c) (map nlen (qs st))) (availOf (outP c) space)
              (nextTagOf (pos st) (tgs st)) (nextEosOf (pos st) (tgs st)) req) in *.
  assert (Hs : lSkip l + lCnt l = cnt st /\ (strideActive c = false -> lSkip l = 0)) by (apply skip_bound).
  destruct Hs as [Hs1 Hs2].
  destruct (lEos l) eqn:Ee.
  { injection Hw as _ <- _. destruct Hr as [H|[H|H]]; discriminate H. }
  destruct ((lIn l =? 0) && (lOut l =? 0)) eqn:Ez.
  { injection Hw as <- <- <-. cbn [stopped cnt pos qs tgs]. split; [reflexivity|]. split; [reflexivity|].
    split; [repeat split|]. exists (lSkip l). split; [lia|]. split; [reflexivity|]. split; [reflexivity|].
    split; [exact Hs2|]. intros E. rewrite E. apply map_consume_0. }
  match type of Hw with context [proc u ?a ?b ?d] => destruct (Hp a b d) as [Hc Hb]; set (r := proc u a b d) in * end.
  rewrite Hc, Hb in Hw.
  assert (Hst : uStat r = s).
  { destruct (zeroed (uStat r)).
    - rewrite (N.eqb_refl 0) in Hw. injection Hw as _ H _. exact H.
    - destruct (lIn l =? 0); [injection Hw as _ H _; exact H|].
      destruct (strideConsume c (lCnt l) (lIn l)) as [a cn]. injection Hw as _ H _. exact H. }
  assert (Hz : zeroed (uStat r) = true) by (rewrite Hst; apply zeroed_refusal; exact Hr).
  rewrite Hz in Hw. rewrite (N.eqb_refl 0) in Hw. injection Hw as <- _ <-.
  assert (Hd : isDone (uStat r) = false) by (destruct (uStat r); try reflexivity; discriminate Hz).
  assert (Ho : isOK (uStat r) = false) by (destruct (uStat r); try reflexivity; discriminate Hz).
  split; [unfold performed; rewrite Ho; reflexivity|].
  cbn [stopped cnt pos qs tgs outs opos otags]. split; [exact Hd|].
  split. { unfold nothingOut. cbn [outs opos otags]. rewrite Hd. split; [apply zipApp_nothing|]. split; [lia|]. apply app_nil_r. }
  exists (lSkip l). split; [lia|]. split; [lia|]. split; [apply map_dropN_0|]. split; [exact Hs2|].
  intros E. rewrite map_consume_n0, E. apply map_consume_0.
Qed.

(* ------------------------------------------------------------------ C112 *)

(** C112.  If a call of work reports an error or too few items, and the processing function did not call consume or
    publish itself, then nothing was published (no sample, no tag), no work is reported, and the only samples taken from
    the inputs are the [k] samples between two strides that had been owed since the previous call. *)
Theorem C112_refused_call :
  forall {A B S T} c (u : ublock A B S T) st req space tr st' s n,
    plainCounts u -> work c u st req space tr = (st', s, n) -> refusal s ->
    n = 0 /\ stopped st' = false /\ nothingOut st st'
    /\ exists k, cnt st' + k = cnt st /\ pos st' = pos st + k /\ qs st' = map (dropN k) (qs st).
Proof.
  intros A B S T c u st req space tr st' s n Hp Hw Hr.
  destruct (work_refused c u st req space tr st' s n Hp Hw Hr) as (H1 & H2 & H3 & k & H4 & H5 & H6 & _ & _).
  split; [exact H1|]. split; [exact H2|]. split; [exact H3|]. exists k. auto.
Qed.
Print Assumptions C112_refused_call.

(** C112.  Without a stride the same data and the same tags are offered again, however often the block refuses: over any
    number of refused calls, with any requested amounts and any free space, inputs and outputs stay as they were. *)
Theorem C112_refused_calls_keep_data :
  forall {A B S T} c (u : ublock A B S T) calls st,
    plainCounts u -> strideActive c = false ->
    (forall pre x post, calls = pre ++ x :: post ->
       refusal (snd (fst (let '(r, sp, tr) := x in
         work c u (run c u st (map (fun '(r, sp, tr) => Work r sp tr) pre)) r sp tr)))) ->
    let st' := run c u st (map (fun '(r, sp, tr) => Work r sp tr) calls) in
    nothingOut st st' /\ nothingIn st st'.
Proof.
  intros A B S T c u calls st Hp Hs. revert st. induction calls as [|[[r sp] tr] calls IH]; intros st H.
  - cbn. repeat split.
  - cbn [map]. unfold run. cbn [fold_left]. cbn [step].
    pose proof (H [] (r, sp, tr) calls eq_refl) as H0. cbn [map] in H0. unfold run in H0. cbn [fold_left] in H0.
    destruct (work c u st r sp tr) as [[st1 s] n] eqn:Ew. cbn [fst snd] in H0 |- *.
    destruct (work_refused c u st r sp tr st1 s n Hp Ew H0) as (_ & _ & (O1 & O2 & O3) & k & K1 & K2 & K3 & K4 & K5).
    specialize (K4 Hs). specialize (K5 K4). subst k.
    destruct (IH st1) as [(P1 & P2 & P3) (I1 & I2 & I3 & I4)].
    { intros pre [[r' sp'] tr'] post E. specialize (H ((r, sp, tr) :: pre) (r', sp', tr') post).
      cbn [map] in H. unfold run in H. cbn [fold_left step] in H. rewrite Ew in H. cbn [fst] in H. apply H. rewrite E. reflexivity. }
    fold (run c u st1 (map (fun '(r, sp, tr) => Work r sp tr) calls)).
    split; [unfold nothingOut|unfold nothingIn].
    + rewrite P1, P2, P3. auto.
    + rewrite I1, I2, I3, I4. split; [rewrite K3; apply map_dropN_0|]. split; [exact K5|]. split; lia.
Qed.
Print Assumptions C112_refused_calls_keep_data.

(** A block that needs four samples at once and asks for more otherwise. *)
Definition uFour : ublock N N N N :=
  mkUb (fun s xs n => if 4 <=? n then mkRes (s + 1) OK None None xs else mkRes s INSUFFICIENT_INPUT_ITEMS None None xs)
       (fun s t => s + t) (fun _ t => Some t) N.eqb.
Definition cOne : cfg := mkCfg 1 1 0 false false [p1] [p1] PDefault.

Example C112_case :
  plainCounts uFour
  /\ let st := run cOne uFour (init cOne 0) [Feed 0 [7; 8] [mkTag 0 false 100]] in
     map (fun x => snd (fst (work cOne uFour st x [10] 9))) [0; 1; 2] = [INSUFFICIENT_INPUT_ITEMS; INSUFFICIENT_INPUT_ITEMS; INSUFFICIENT_INPUT_ITEMS]
  /\ let st' := run cOne uFour (init cOne 0) [Feed 0 [7; 8] [mkTag 0 false 100]; Work 0 [10] 9; Feed 0 [9; 6] []; Work 0 [10] 9] in
     outs st' = [[7; 8; 9; 6]] /\ otags st' = [(0, Some 100)].
Proof.
  split; [intros s xs n; unfold uFour; cbn [proc]; destruct (4 <=? n); split; reflexivity|].
  vm_compute. auto.
Qed.

(** C112.  When the call reports OK, the reported amount of work is the number of samples consumed (for a source:
    published), provided no stride is set. *)
Theorem C112_ok_counts :
  forall {A B S T} c (u : ublock A B S T) st req space tr st' n,
    plainCounts u -> strideActive c = false -> work c u st req space tr = (st', OK, n) ->
    stopped st' = false
    /\ (inP c <> [] -> pos st' = pos st + n /\ qs st' = map (dropN n) (qs st))
    /\ (inP c = [] -> opos st' = opos st + n).
Proof.
  intros A B S T c u st req space tr st' n Hp Hs Hw. unfold work in Hw.
  destruct (stopped st) eqn:Est; [injection Hw as _ H _; discriminate H|].
  set (l := computeLimits c (cnt st) (availOf (inP c) (map nlen (qs st))) (availOf (outP c) space)
              (nextTagOf (pos st) (tgs st)) (nextEosOf (pos st) (tgs st)) req) in *.
  assert (Hl : lSkip l + lCnt l = cnt st /\ (strideActive c = false -> lSkip l = 0)) by (apply skip_bound).
  destruct Hl as [Hs1 Hs2]. specialize (Hs2 Hs). rewrite Hs2 in Hw.
  destruct (lEos l) eqn:Ee; [injection Hw as _ H _; discriminate H|].
  destruct ((lIn l =? 0) && (lOut l =? 0)) eqn:Ez.
  { injection Hw as <- _ <-. cbn [stopped pos qs opos]. split; [reflexivity|].
    split; intros _; [split; [lia|reflexivity]|lia]. }
  match type of Hw with context [proc u ?a ?b ?d] => destruct (Hp a b d) as [Hc Hb]; set (r := proc u a b d) in * end.
  rewrite Hc, Hb in Hw.
  assert (Hst : uStat r = OK).
  { destruct (zeroed (uStat r)).
    - rewrite (N.eqb_refl 0) in Hw. injection Hw as _ H _. exact H.
    - destruct (lIn l =? 0); [injection Hw as _ H _; exact H|].
      destruct (strideConsume c (lCnt l) (lIn l)) as [a cn]. injection Hw as _ H _. exact H. }
  rewrite Hst in Hw. cbn [zeroed isDone performed isOK] in Hw. rewrite map_dropN_0 in Hw.
  assert (Hsc : strideConsume c (lCnt l) (lIn l) = (0, lCnt l)) by (unfold strideConsume; rewrite Hs; reflexivity).
  rewrite Hsc in Hw. change (0 <? 0) with false in Hw. cbv iota in Hw.
  destruct (N.eqb_spec (lIn l) 0) as [E0|E0]; injection Hw as <- <-; cbn [stopped pos qs opos];
    (split; [reflexivity|split; intros Hi]).
  - destruct (inP c); [contradiction (Hi eq_refl)|]. rewrite E0. split; [lia|reflexivity].
  - rewrite Hi. reflexivity.
  - destruct (inP c); [contradiction (Hi eq_refl)|]. split; [lia|reflexivity].
  - rewrite Hi. reflexivity.
Qed.
Print Assumptions C112_ok_counts.

Example C112_ok_case : let st := run cOne uFour (init cOne 0) [Feed 0 [7; 8; 9; 6; 5] []] in
  let '(st', s, n) := work cOne uFour st 4 [10] 9 in s = OK /\ n = 4 /\ pos st' = 4 /\ qs st' = [[5]].
Proof. vm_compute. auto. Qed.

(** A processing function that calls consume itself and then reports an error: the samples are gone, although the call
    reports no work and nothing was published (sanitiseProcessStatus zeroes the reported counts only). *)
Definition uTake : ublock N N N N :=
  mkUb (fun s xs n => mkRes s ERROR (Some 2) None xs) (fun s t => s + t) (fun _ t => Some t) N.eqb.
Theorem C112_explicit_consume_refuted :
  exists (u : ublock N N N N) st, forall req, exists st' n,
    work cOne u st req [10] 9 = (st', ERROR, n) /\ n = 0 /\ nothingOut st st'
    /\ qs st = [[7; 8; 9]] /\ qs st' = [[9]] /\ tgs st = [[mkTag 0 false 100]] /\ tgs st' = [[]].
Proof.
  exists uTake, (run cOne uTake (init cOne 0) [Feed 0 [7; 8; 9] [mkTag 0 false 100]]). intros req.
  set (st := run cOne uTake (init cOne 0) [Feed 0 [7; 8; 9] [mkTag 0 false 100]]).
  assert (E : exists k, 1 <= k <= 3 /\ computeLimits cOne (cnt st) (availOf (inP cOne) (map nlen (qs st))) (availOf (outP cOne) [10])
                (nextTagOf (pos st) (tgs st)) (nextEosOf (pos st) (tgs st)) req = mkLim k k 0 0 OK false).
  { exists (clamp (if req =? 0 then umax else req) 1 3). split.
    - unfold clamp. destruct (_ <? 1) eqn:E1; [lia|]. destruct (3 <? _) eqn:E2; lia.
    - reflexivity. }
  destruct E as (k & Hk & E). unfold work. change (stopped st) with false. cbv iota. rewrite E. clear E.
  assert (Hk' : k = 1 \/ k = 2 \/ k = 3) by lia.
  destruct Hk' as [ -> | [ -> | -> ] ]; eexists; eexists; (split; [vm_compute; reflexivity|]); vm_compute; auto 10.
Qed.
Print Assumptions C112_explicit_consume_refuted.

(** "A refused call leaves the block as it was" is false for the settings: the tags in the window stay unread and are
    applied again by every further call, so one tag acts on the block as often as the block refuses. *)
Theorem C112_tag_reapplied_refuted :
  forall m : nat, let es := Feed 0 [7] [mkTag 0 false 100] :: repeat (Work 0 [10] 9) m in
    us (run cOne uFour (init cOne 0) es) = 100 * N.of_nat m
    /\ tgs (run cOne uFour (init cOne 0) es) = [[mkTag 0 false 100]]
    /\ otags (run cOne uFour (init cOne 0) es) = [].
Proof.
  intros m es. subst es. unfold run. cbn [fold_left].
  set (mk := fun a => @mkSt N N N N a 0 false 0 0 [[7]] [[mkTag 0 false 100]] [[]] []).
  change (step cOne uFour (init cOne 0) (Feed 0 [7] [mkTag 0 false 100])) with (mk 0).
  assert (G : forall m a, fold_left (step cOne uFour) (repeat (Work 0 [10] 9) m) (mk a) = mk (a + 100 * N.of_nat m)).
  { clear m. intros m. induction m as [|m IH]; intros a; cbn [repeat fold_left].
    - f_equal. lia.
    - change (step cOne uFour (mk a) (Work 0 [10] 9)) with (mk (a + 100)). rewrite IH. f_equal. lia. }
  rewrite G. cbn [us tgs otags mk]. repeat split; lia.
Qed.
Print Assumptions C112_tag_reapplied_refuted.

Example C112_reapplied_case :
  us (run cOne uFour (init cOne 0) [Feed 0 [7] [mkTag 0 false 100]; Work 0 [10] 9; Work 0 [10] 9; Work 0 [10] 9]) = 300.
Proof. vm_compute. reflexivity. Qed.
