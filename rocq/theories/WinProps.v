(* Ranges cut out of a stream: data sets as output. *)
From Coq Require Import Arith ZArith Lia Bool String Ascii.
From Verif Require Import TriggerModel TriggerSpec TriggerProofs WinMatch.
From Verif Require Import WinModel WinSpec WinProofs WinProofs2.
From Coq Require Import List.
Import ListNotations.

Local Open Scope nat_scope.

(* Examples: a filter with two sides and one with one. *)
Definition onOff : str := list_ascii_of_string "[on, off]".
Definition onOnly : str := list_ascii_of_string "on".
Definition named (s : string) : tag := [(LongName, Some (list_ascii_of_string s))].
Definition on : tag := named "on".
Definition off : tag := named "off".
Definition mark : tag := named "mark".
Definition pOf (s : string) : part := {| pname := list_ascii_of_string s; pctx := []; pnameEnds := false; pctxEnds := false |}.
Definition cl (ts : list tag) (smp : list nat) (room : nat) : call nat tag := mkCall ts smp room.
Definition runD (c : wcfg) (ks : list (call nat tag)) : dtrace nat tag state := drun (detect onOff) fresh c ks.
Definition cfg213 : wcfg := mkW 2 1 0.
Definition calls1 : list (call nat tag) :=
  [cl [] [10; 11; 12] 4; cl [mark] [13] 4; cl [on] [14; 15] 4; cl [on] [16] 4; cl [mark] [17] 4; cl [off] [18] 0; cl [off] [19; 20] 3; cl [] [21] 3].

Lemma disj_names p1 p2 : pname p1 <> [] -> pname p2 <> [] -> pname p1 <> pname p2 -> forall t, startsB p1 t = true -> startsB p2 t = false.
Proof.
  intros N1 N2 N t. unfold startsB, satb, nameOk. destruct (isNil t); [discriminate|]. cbn [negb andb].
  destruct (isNil (pname p1)) eqn:E1; [apply isNil_iff in E1; contradiction|]. destruct (isNil (pname p2)) eqn:E2; [apply isNil_iff in E2; contradiction|]. cbn [orb].
  intros H. apply andb_true_iff in H. destruct H as [H _]. apply str_eqb_iff in H. destruct (str_eqb (readTagString t LongName ShortName) (pname p2)) eqn:E; [|reflexivity].
  apply str_eqb_iff in E. congruence.
Qed.

Lemma Forall2_cons_iff {X Y} (P : X -> Y -> Prop) x l y k : Forall2 P (x :: l) (y :: k) -> P x y /\ Forall2 P l k.
Proof. intros H. inversion H. split; assumption. Qed.

(* ---------- C175: the data sets are the ranges ---------- *)

(* Whatever the spans, the tags and the room, the published data sets are
   those of the first ranges of the stream consumed so far, in the order of
   their starts, each with exactly the samples of its range, and only ranges
   that have ended. *)
Theorem C175_data_sets : forall (A T F : Type) (mt : F -> option T -> F * verdict) f0 single SS EE idle open,
  matcher mt f0 single SS EE idle open -> (forall t, SS t = true -> EE t = false) ->
  forall (c : wcfg) (ks : list (call A T)), dcfgOk c = true -> Forall (fun k => cSmp k <> []) ks ->
  let x := drun mt f0 c ks in
  exists n, n <= List.length (ranges single SS EE (trIn x)) /\
    trOut x = map (dataSet c (trIn x)) (firstn n (ranges single SS EE (trIn x))) /\
    Forall (ended c (List.length (trIn x))) (firstn n (ranges single SS EE (trIn x))).
Proof.
  intros A T F mt f0 single SS EE idle open M D c ks Hc Hk x.
  destruct (drun_inv mt f0 single SS EE idle open M D c ks Hc Hk) as (pubs & rs & I1 & I2 & I3 & _). fold x in I1, I2, I3.
  exists (List.length pubs). rewrite I1. rewrite firstn_app, Nat.sub_diag, firstn_all. cbn [firstn]. rewrite app_nil_r.
  split; [rewrite app_length; lia|]. split; [exact I3|]. eapply Forall_impl; [|exact I2]. cbn beta. intros r [_ H]. exact H.
Qed.
Print Assumptions C175_data_sets.

(* The same for the filter of the settings: two sides with different names,
   brackets and spaces as the user likes. *)
Theorem C175_pair_filter : forall (A : Type) m s1 s2 p1 p2 SS EE (c : wcfg) (ks : list (call A tag)),
  TriggerSpec.content m (s1 ++ RANGE_OP :: s2) -> rendered p1 s1 -> rendered p2 s2 ->
  clean (pname p1) -> clean (pctx p1) -> clean (pname p2) -> clean (pctx p2) ->
  pname p1 <> [] -> pname p2 <> [] -> pname p1 <> pname p2 -> noMarks p1 -> noMarks p2 ->
  (forall t, SS t = true <-> t <> [] /\ satisfies p1 t) -> (forall t, EE t = true <-> t <> [] /\ satisfies p2 t) ->
  dcfgOk c = true -> Forall (fun k => cSmp k <> []) ks ->
  let x := drun (detect m) fresh c ks in
  exists n, n <= List.length (ranges false SS EE (trIn x)) /\
    trOut x = map (dataSet c (trIn x)) (firstn n (ranges false SS EE (trIn x))) /\
    Forall (ended c (List.length (trIn x))) (firstn n (ranges false SS EE (trIn x))).
Proof.
  intros A m s1 s2 p1 p2 SS EE c ks Hc R1 R2 A1 A2 B1 B2 N1 N2 N M1 M2 HS HE Hok Hk.
  assert (ext : forall p (P : tag -> bool), (forall t, P t = true <-> t <> [] /\ satisfies p t) -> forall t, P t = startsB p t).
  { intros p P H t. specialize (H t). unfold startsB. pose proof (satb_iff p t) as Q. pose proof (isNil_iff t) as Q2.
    destruct (P t), (isNil t), (satb p t); cbn [negb andb]; try reflexivity; exfalso; intuition congruence. }
  pose proof (pair_matcher m s1 s2 p1 p2 Hc R1 R2 A1 A2 B1 B2 (or_introl N1) (or_introl N2) (fun h => N (proj1 h)) M1 M2) as M.
  assert (M' : matcher (detect m) fresh false SS EE (pairIdle m p1 p2) (pairOpen m p1 p2)).
  { destruct M as [m1 m2 m3 m4 m5 m6 m7]. constructor; try assumption; intros f t Hf Ht; rewrite (ext p1 SS HS) in Ht || rewrite (ext p2 EE HE) in Ht; auto. }
  apply (C175_data_sets A tag state _ _ _ SS EE _ _ M'); [|exact Hok|exact Hk].
  intros t. rewrite (ext p1 SS HS), (ext p2 EE HE). apply disj_names; assumption.
Qed.
Print Assumptions C175_pair_filter.

(* One name: every trigger is a range of its own, of n_pre samples in front of
   it and n_post from it on. *)
Theorem C175_single_filter : forall (A : Type) m s1 p SS (c : wcfg) (ks : list (call A tag)),
  TriggerSpec.content m s1 -> rendered p s1 -> clean (pname p) -> clean (pctx p) -> pname p <> [] -> pctx p = [] ->
  (forall t, SS t = true <-> t <> [] /\ satisfies p t) ->
  dcfgOk c = true -> Forall (fun k => cSmp k <> []) ks ->
  let x := drun (detect m) fresh c ks in
  exists n, n <= List.length (ranges true SS (fun _ => false) (trIn x)) /\
    trOut x = map (dataSet c (trIn x)) (firstn n (ranges true SS (fun _ => false) (trIn x))) /\
    Forall (ended c (List.length (trIn x))) (firstn n (ranges true SS (fun _ => false) (trIn x))).
Proof.
  intros A m s1 p SS c ks Hc R A1 A2 N P HS Hok Hk.
  pose proof (single_matcher m s1 p Hc R A1 A2 (or_introl N)) as M.
  assert (ext : forall t, SS t = singleB p t).
  { intros t. specialize (HS t). unfold singleB. pose proof (singleMatch_iff p t) as Q. pose proof (isNil_iff t) as Q2. unfold satisfies in HS.
    destruct (SS t), (isNil t), (singleMatch p t); cbn [negb andb]; try reflexivity; exfalso; intuition congruence. }
  assert (M' : matcher (detect m) fresh true SS (fun _ => false) (singleIdle m p) (fun _ => False)).
  { destruct M as [m1 m2 m3 m4 m5 m6 m7]. constructor; try assumption; intros f t Hf Ht; try rewrite ext in Ht; auto. }
  apply (C175_data_sets A tag state _ _ _ SS _ _ _ M'); [reflexivity|exact Hok|exact Hk].
Qed.
Print Assumptions C175_single_filter.

(* Every single-sided range starts and stops at its trigger. *)
Theorem C175_single_ranges : forall (A T : Type) (SS EE : T -> bool) (xs : stream A T), Forall (fun r => snd r = Some (fst r)) (ranges true SS EE xs).
Proof.
  intros A T SS EE xs.  unfold ranges. assert (G : forall (xs : stream A T) i rs, Forall (fun r : range => snd r = Some (fst r)) rs -> Forall (fun r => snd r = Some (fst r)) (rangesFrom true SS EE i rs xs)).
  { clear xs. induction xs as [|[x ts] xs IH]; intros i rs H; [exact H|]. cbn [rangesFrom]. apply IH. unfold event.
    assert (He : existsb isOpen rs = false). { clear -H. induction H as [|[b e] l H _ IH]; [reflexivity|]. cbn [fst snd] in H. subst e. cbn [existsb isOpen snd orb]. exact IH. }
    rewrite He. destruct (find _ ts) as [t|] eqn:Ef; [|exact H]. apply find_some in Ef. destruct Ef as [_ Ef]. cbn [andb] in Ef. rewrite orb_false_r in Ef. rewrite Ef.
    apply Forall_app. split; [exact H|]. constructor; [reflexivity|constructor]. }
  apply G. constructor.
Qed.
Print Assumptions C175_single_ranges.

(* What the data set of an ended range holds: sample after sample of the
   stream from n_pre in front of the start (as far as there are any), each
   with the tags that sat on it, at a time counted from the start. *)
Theorem C175_contents : forall (A T : Type) (c : wcfg) (xs : stream A T) b e,
  b <= e -> ended c (List.length xs) (b, Some e) ->
  let d := dataSet c xs (b, Some e) in
  let from := b - nPre c in
  let n := if nMax c =? 0 then e + nPost c - from else min (nMax c) (e + nPost c - from) in
  List.length (vals d) = n /\ List.length (axis d) = n /\
  forall i, i < n -> exists a ts,
    nth_error xs (from + i) = Some (a, ts) /\ nth_error (vals d) i = Some a /\
    nth_error (axis d) i = Some (Z.of_nat (from + i) - Z.of_nat b)%Z /\
    (forall t, In (i, t) (evs d) <-> In t ts).
Proof.
  intros A T c xs b e Hbe Hend d from n.
  assert (Hct : content c xs (b, Some e) = firstn n (skipn from xs)).
  { unfold content, cap, n. cbn [fst snd]. fold from. destruct (nMax c =? 0); [reflexivity|]. apply firstn_firstn. }
  assert (Hl : n <= List.length xs - from). { unfold ended in Hend. cbn [fst snd] in Hend. unfold n, from. destruct (nMax c =? 0) eqn:E; [apply Nat.eqb_eq in E|apply Nat.eqb_neq in E]; lia. }
  assert (Hlc : List.length (content c xs (b, Some e)) = n) by (rewrite Hct, firstn_length, skipn_length; lia).
  unfold d, dataSet, dsOf. cbn [vals axis evs fst]. rewrite !map_length, seq_length, Hlc. split; [reflexivity|]. split; [reflexivity|].
  intros i Hi. assert (Hn : nth_error (content c xs (b, Some e)) i = nth_error xs (from + i)).
  { rewrite Hct. clear -Hi. revert xs i Hi. generalize n as q. intros q xs. revert q. induction from as [|f IH]; intros q i Hi.
    - cbn [skipn plus]. revert xs q Hi. induction i as [|i IHi]; intros [|x xs] [|q] Hi; try lia; try reflexivity. cbn [firstn nth_error]. apply IHi. lia.
    - destruct xs as [|x xs]; [cbn; destruct q; destruct i; reflexivity|]. cbn [skipn plus nth_error].
      clear IH. revert xs q i Hi. induction f as [|f IH]; intros xs q i Hi.
      + cbn [skipn plus]. revert xs q Hi. induction i as [|i IHi]; intros [|y xs] [|q] Hi; try lia; try reflexivity. cbn [firstn nth_error]. apply IHi. lia.
      + destruct xs as [|y xs]; [cbn; destruct q; destruct i; reflexivity|]. cbn [skipn plus nth_error]. apply IH. exact Hi. }
  destruct (nth_error (content c xs (b, Some e)) i) as [[a ts]|] eqn:En; [|apply nth_error_None in En; lia].
  exists a, ts. split; [symmetry; exact Hn|]. split; [rewrite (map_nth_error fst _ _ En); reflexivity|]. split.
  - rewrite (map_nth_error _ i (seq 0 n) (d := i)).
    + f_equal. unfold from. lia.
    + rewrite (nth_error_nth' (seq 0 n) 0) by (rewrite seq_length; exact Hi). rewrite seq_nth by exact Hi. reflexivity.
  - intros t. clear -En. revert En. generalize (content c xs (b, Some e)) as l. intros l.
    assert (G : forall l i k, nth_error l i = Some (a, ts) -> (In (k + i, t) (eventsOf k l) <-> In t ts)).
    { clear. assert (Lo : forall (l : stream A T) k j u, In (j, u) (eventsOf k l) -> k <= j).
      { induction l as [|[y us] l IH]; intros k j u0 H; [contradiction|]. cbn [eventsOf] in H. apply in_app_iff in H. destruct H as [H|H].
        - apply in_map_iff in H. destruct H as (u & H & _). injection H as <- _. lia.
        - apply IH in H. lia. }
      induction l as [|[y us] l IH]; intros [|i] k H; try discriminate.
      - cbn [nth_error] in H. injection H as -> ->. cbn [eventsOf]. rewrite in_app_iff, in_map_iff. rewrite Nat.add_0_r. split.
        + intros [(u & H & Hu)|H]; [injection H as ->; exact Hu|]. apply Lo in H. lia.
        + intros H. left. exists t. split; [reflexivity|exact H].
      - cbn [nth_error] in H. cbn [eventsOf]. rewrite in_app_iff, in_map_iff. specialize (IH i (1 + k) H). replace (k + S i) with (1 + k + i) by lia. rewrite <- IH. split.
        + intros [(u & Hu & _)|H']; [injection Hu as Hu _; lia|exact H'].
        + intros H'. right. exact H'. }
    intros En. apply (G l i 0 En).
Qed.
Print Assumptions C175_contents.

(* How the stream was cut into calls and how much room there was does not
   matter: of two runs over the same samples one has published what the other
   has, and possibly more. *)
Theorem C175_any_calls : forall (A T F : Type) (mt : F -> option T -> F * verdict) f0 single SS EE idle open,
  matcher mt f0 single SS EE idle open -> (forall t, SS t = true -> EE t = false) ->
  forall (c : wcfg) (ks ks' : list (call A T)), dcfgOk c = true -> Forall (fun k => cSmp k <> []) ks -> Forall (fun k => cSmp k <> []) ks' ->
  let x := drun mt f0 c ks in let y := drun mt f0 c ks' in
  trIn x = trIn y -> exists more, trOut x = trOut y ++ more \/ trOut y = trOut x ++ more.
Proof.
  intros A T F mt f0 single SS EE idle open M D c ks ks' Hc H1 H2 x y E.
  destruct (C175_data_sets A T F mt f0 single SS EE idle open M D c ks Hc H1) as (n & _ & N & _). fold x in N.
  destruct (C175_data_sets A T F mt f0 single SS EE idle open M D c ks' Hc H2) as (m & _ & N' & _). fold y in N'. rewrite <- E in N'. rewrite N, N'.
  generalize (ranges single SS EE (trIn x)) as rs. intros rs. destruct (Nat.le_ge_cases n m) as [L|L].
  - exists (map (dataSet c (trIn x)) (firstn (m - n) (skipn n rs))). right. rewrite <- map_app. f_equal. replace m with (n + (m - n)) at 1 by lia.
    rewrite <- (firstn_skipn n rs) at 1. rewrite firstn_app, firstn_length. rewrite firstn_firstn, Nat.min_r by lia.
    destruct (Nat.le_gt_cases n (List.length rs)); [f_equal; f_equal; lia|]. rewrite (skipn_all2 rs) by lia. rewrite !firstn_nil. reflexivity.
  - exists (map (dataSet c (trIn x)) (firstn (n - m) (skipn m rs))). left. rewrite <- map_app. f_equal. replace n with (m + (n - m)) at 1 by lia.
    rewrite <- (firstn_skipn m rs) at 1. rewrite firstn_app, firstn_length. rewrite firstn_firstn, Nat.min_r by lia.
    destruct (Nat.le_gt_cases m (List.length rs)); [f_equal; f_equal; lia|]. rewrite (skipn_all2 rs) by lia. rewrite !firstn_nil. reflexivity.
Qed.
Print Assumptions C175_any_calls.

(* Two ranges that overlap, one call without room. *)
Example C175_ex :
  TriggerSpec.content onOff (list_ascii_of_string "on" ++ RANGE_OP :: list_ascii_of_string " off") /\
  rendered (pOf "on") (list_ascii_of_string "on") /\ rendered (pOf "off") (list_ascii_of_string " off") /\
  clean (pname (pOf "on")) /\ clean (pname (pOf "off")) /\ clean (pctx (pOf "on")) /\
  dcfgOk cfg213 = true /\ Forall (fun k => cSmp k <> []) calls1 /\
  trIn (runD cfg213 calls1) = [(10, []); (11, []); (12, []); (13, [mark]); (14, [on]); (15, []); (16, [on]); (17, [mark]); (18, [off]); (19, [off]); (20, []); (21, [])] /\
  ranges false (startsB (pOf "on")) (startsB (pOf "off")) (trIn (runD cfg213 calls1)) = [(4, Some 8); (6, Some 9)] /\
  trOut (runD cfg213 calls1) =
    [mkDs [12; 13; 14; 15; 16; 17; 18] [-2; -1; 0; 1; 2; 3; 4]%Z [(1, mark); (2, on); (4, on); (5, mark); (6, off)];
     mkDs [14; 15; 16; 17; 18; 19] [-2; -1; 0; 1; 2; 3]%Z [(0, on); (2, on); (3, mark); (4, off); (5, off)]].
Proof.
  split; [left; reflexivity|].
  split. { apply (rendered_name (pOf "on") [] [] []); try reflexivity; intros x []. }
  split. { apply (rendered_name (pOf "off") [" "%char] [] []); try reflexivity; intros x Hx; first [contradiction|destruct Hx as [E|[]]; subst; reflexivity]. }
  assert (CL : forall l a z m, l = a :: m ++ [z] -> ~ In SEPARATOR l -> ~ In RANGE_OP l -> ~ In "["%char l -> ~ In "]"%char l -> starts_with l [CARET] = false -> isSpace a = false -> isSpace z = false -> clean l).
  { intros l a z m -> H1 H2 H3 H4 H5 H6 H7. repeat split; try assumption.
    - intros x r E. injection E as <- _. exact H6.
    - intros x r E. rewrite app_comm_cons in E. apply app_inj_tail in E. destruct E as [_ <-]. exact H7. }
  split. { apply (CL _ "o"%char "n"%char []); try reflexivity; cbn; intuition discriminate. }
  split. { apply (CL _ "o"%char "f"%char ["f"%char]); try reflexivity; cbn; intuition discriminate. }
  split. { repeat split; try (intros []; fail); try reflexivity; try (intros x r E; destruct r; discriminate). }
  split; [reflexivity|]. split; [repeat constructor; discriminate|].
  split; [vm_compute; reflexivity|]. split; vm_compute; reflexivity.
Qed.
Example C175_ex_single :
  let x := drun (detect onOnly) fresh (mkW 1 2 0) [cl [] [1; 2] 1; cl [on] [3; 4; 5] 1; cl [on] [6] 1; cl [] [7; 8] 1] in
  trOut x = [mkDs [2; 3; 4] [-1; 0; 1]%Z [(1, on)]; mkDs [5; 6; 7] [-1; 0; 1]%Z [(1, on)]].
Proof. vm_compute. reflexivity. Qed.

(* ---------- C176: nothing is held back ---------- *)

(* A call consumes its whole span, or nothing at all, and that only if there
   is no room and a finished data set waits.  After a call with room the next
   data set in line is not due: its range is open, or its last sample had not
   been consumed before the call (without n_max: after it), or the room is
   used up. *)
Theorem C176_prompt : forall (A T F : Type) (mt : F -> option T -> F * verdict) f0 single SS EE idle open,
  matcher mt f0 single SS EE idle open -> (forall t, SS t = true -> EE t = false) ->
  forall (c : wcfg) (ks : list (call A T)) (k : call A T), dcfgOk c = true -> Forall (fun k => cSmp k <> []) (ks ++ [k]) ->
  let x := drun mt f0 c ks in let y := drun mt f0 c (ks ++ [k]) in
  (y = x /\ cRoom k = 0 /\
     exists r, nth_error (ranges single SS EE (trIn x)) (List.length (trOut x)) = Some r /\ ended c (List.length (trIn x)) r) \/
  (trIn y = trIn x ++ spanOf (cTags k) (cSmp k) /\
   (List.length (trOut y) = List.length (trOut x) + cRoom k \/
    (List.length (trOut y) < List.length (trOut x) + cRoom k /\
     forall s e, nth_error (ranges single SS EE (trIn y)) (List.length (trOut y)) = Some (s, Some e) ->
      List.length (trIn x) < e + nPost c /\ (nMax c = 0 -> List.length (trIn y) < e + nPost c)))).
Proof.
  intros A T F mt f0 single SS EE idle open M D c ks k Hc Hk x y. apply Forall_app in Hk. destruct Hk as [Hk H1]. apply Forall_cons_iff in H1. destruct H1 as [H1 _].
  destruct (drun_inv mt f0 single SS EE idle open M D c ks Hc Hk) as (pubs & rs & HI). fold x in HI.
  assert (Hy : y = dstep mt f0 c x k). { unfold y, x, drun. rewrite fold_left_app. reflexivity. }
  destruct (blocked (cRoom k) (trSt x)) eqn:Eb.
  - left. rewrite Hy, dstep_blocked by exact Eb. split; [reflexivity|]. unfold blocked in Eb. destruct (slots (trSt x)) as [|s sl] eqn:Es; [discriminate|].
    apply andb_true_iff in Eb. destruct Eb as [E1 E2]. apply Nat.eqb_eq in E2. split; [exact E2|]. apply negb_true_iff in E1.
    destruct HI as (I1 & I2 & I3 & I4 & _). rewrite Es in I4. destruct rs as [|r rs]; [inversion I4|]. apply Forall2_cons_iff in I4. destruct I4 as [[HR _] _].
    exists r. rewrite I1, I3, map_length, nth_error_app2, Nat.sub_diag by lia. split; [reflexivity|].
    destruct HR as (_ & _ & _ & _ & HR). unfold ended. destruct (snd r) as [e|] eqn:Er; [|destruct HR as (HR & _); congruence].
    destruct HR as (_ & _ & _ & _ & HR). specialize (HR E1). unfold done in HR. rewrite Er in HR. exact HR.
  - right. destruct (dstep_ok mt f0 single SS EE idle open M D c x k pubs rs Hc H1 HI Eb) as (Hin & new & rs' & HI' & Hlen & Hn). rewrite <- Hy in Hin, HI'.
    split; [exact Hin|]. destruct HI as (_ & _ & I3 & _). destruct HI' as (J1 & _ & J3 & _). rewrite J1, J3, I3, !map_length, !app_length.
    destruct (Nat.eq_dec (List.length new) (cRoom k)) as [En|En]; [left; lia|]. right. split; [lia|]. intros s e Hs. rewrite nth_error_app2 in Hs by (rewrite app_length; lia). rewrite app_length, Nat.sub_diag in Hs.
    destruct rs' as [|r rs']; [discriminate|]. cbn [nth_error] in Hs. injection Hs as ->. destruct Hn as [Hn|Hn]; [lia|]. unfold notDue in Hn. cbn [snd] in Hn.
    rewrite Hin, app_length, spanOf_length. exact Hn.
Qed.
Print Assumptions C176_prompt.

Example C176_ex :
  let ks := [cl [on] [1; 2] 1; cl [off] [3; 4] 0; cl [] [5] 0; cl [] [6] 2] in
  map (fun n => List.length (trIn (runD cfg213 (firstn n ks)))) [1; 2; 3; 4] = [2; 4; 4; 5] /\
  map (fun n => List.length (trOut (runD cfg213 (firstn n ks)))) [1; 2; 3; 4] = [0; 0; 0; 1].
Proof. split; vm_compute; reflexivity. Qed.

(* With n_max the data set that is full is finished only by a later call: the
   call that consumes the last sample of the range does not publish it. *)
Theorem C176_full_is_late_refuted : exists (c : wcfg) (ks : list (call nat tag)),
  dcfgOk c = true /\ Forall (fun k => cSmp k <> [] /\ 0 < cRoom k) ks /\
  let x := runD c ks in
  exists r, nth_error (ranges false (startsB (pOf "on")) (startsB (pOf "off")) (trIn x)) 0 = Some r /\
    ended c (List.length (trIn x)) r /\ trOut x = [] /\ trOut (runD c (ks ++ [cl [] [99] 1])) = [dataSet c (trIn x) r].
Proof.
  exists (mkW 0 3 3), [cl [on] [1; 2] 1; cl [off] [3; 4; 5; 6; 7] 1]. split; [reflexivity|]. split; [repeat constructor; discriminate|].
  exists (0, Some 2). split; [vm_compute; reflexivity|]. split.
  { match goal with |- ended _ ?n _ => replace n with 7 by (vm_compute; reflexivity) end. unfold ended. cbn [snd fst nPost nMax nPre]. lia. }
  split; vm_compute; reflexivity.
Qed.
Print Assumptions C176_full_is_late_refuted.

(* ---------- C177: the merged tag ---------- *)

(* Every tag of every consumed sample goes into exactly one merged tag, in the
   order of the stream: what was published and what is pending are all of
   them. *)
Theorem C177_merged : forall (A T F : Type) (mt : F -> option T -> F * verdict) f0 single SS EE idle open,
  matcher mt f0 single SS EE idle open -> (forall t, SS t = true -> EE t = false) ->
  forall (c : wcfg) (ks : list (call A T)), dcfgOk c = true -> Forall (fun k => cSmp k <> []) ks ->
  let x := drun mt f0 c ks in trTags x ++ dmerged (trSt x) = allTags (trIn x).
Proof.
  intros A T F mt f0 single SS EE idle open M D c ks Hc Hk x.
  destruct (drun_inv mt f0 single SS EE idle open M D c ks Hc Hk) as (pubs & rs & _ & _ & _ & _ & _ & _ & I). exact I.
Qed.
Print Assumptions C177_merged.

(* It goes out with the next data set that is published. *)
Theorem C177_with_data_set : forall (A T F : Type) (mt : F -> option T -> F * verdict) f0 (c : wcfg) (ts : list T) (smp : list A) room st,
  smp <> [] ->
  let '(st', o) := dcall mt f0 c ts smp room st in
  (dOut o <> [] -> dTag o = dmerged st ++ ts /\ dmerged st' = []) /\
  (dOut o = [] -> dTag o = [] /\ (dmerged st' = dmerged st ++ ts \/ (dCons o = 0 /\ st' = st))).
Proof.
  intros A T F mt f0 c ts smp room st Hs. unfold dcall.
  destruct (match slots st with [] => false | s :: _ => negb (act (sacc s)) && (room =? 0) end).
  - cbn [dOut dTag dCons]. split; [congruence|]. intros _. split; [reflexivity|]. right. split; reflexivity.
  - assert (Hl : (0 <? List.length smp) = true) by (destruct smp; [congruence|reflexivity]).
    unfold updateHistoryD. rewrite Hl. cbn [slots dhist dhtags dmerged]. destruct (stopFirst _ _ _ _) as [|s sl].
    + cbn [dOut dTag dCons dmerged]. split; [congruence|]. auto.
    + destruct (publish _ _) as [[|d p] q]; cbn [dOut dTag dCons dmerged]; split; intros; try congruence; auto.
Qed.
Print Assumptions C177_with_data_set.

Example C177_ex :
  let x := runD cfg213 calls1 in trTags x ++ dmerged (trSt x) = [mark; on; on; mark; off; off] /\ trTags x = [mark; on; on; mark; off; off] /\
  trTags (runD cfg213 (firstn 6 calls1)) = [].
Proof. repeat split; vm_compute; reflexivity. Qed.

(* ---------- C178: calls without samples ---------- *)

(* Claimed: the data sets depend on the stream only.  The output port is
   asynchronous, so the block is called whenever the output has room, with an
   empty span if no sample is there.  Such a call ends every data set that
   waits for samples behind its range: it is published without them. *)
Theorem C178_empty_call_refuted : forall (A T F : Type) (mt : F -> option T -> F * verdict) f0 single SS EE idle open,
  matcher mt f0 single SS EE idle open ->
  forall (c : wcfg) (st : dst A T F) s room, slots st = [s] ->
  act (sacc s) = true -> postA (sacc s) = true -> preA (sacc s) = false -> 0 < rem (sacc s) -> 0 < room ->
  dOut (snd (dcall mt f0 c [] [] room st)) = [sds s] /\ dCons (snd (dcall mt f0 c [] [] room st)) = 0.
Proof.
  intros A T F mt f0 single SS EE idle open M c st s room Hs Ha Hp Hpre Hr Hroom.
  unfold dcall. rewrite Hs, Ha. cbn [negb andb]. unfold firstTrigger. cbn [find hd_error].
  assert (Ho : openNew mt f0 c None = @nil (slot A T F)).
  { unfold openNew. destruct (m_idle_none _ _ _ _ _ _ _ M f0 (m_f0 _ _ _ _ _ _ _ M)) as [Q _]. destruct (mt f0 None) as [f v]. cbn [snd] in Q. subst v. reflexivity. }
  rewrite Ho. cbn [app stopFirst]. rewrite Ha, Hp. cbn [negb orb map]. unfold updateHistoryD. cbn [List.length Nat.ltb Nat.leb].
  unfold copySlot. rewrite Ha. rewrite copyPre_id by exact Hpre. unfold copyBody. rewrite Hp. cbn [negb].
  replace (min (if nMax c =? 0 then List.length (@nil A) else min (nMax c - List.length (vals (sds s))) (List.length (@nil A))) (rem (sacc s))) with 0 by (cbn [List.length]; destruct (nMax c =? 0); lia).
  cbn [Nat.ltb Nat.leb]. destruct room as [|room]; [lia|]. cbn [publish sacc act]. destruct room; cbn; split; reflexivity.
Qed.
Print Assumptions C178_empty_call_refuted.

(* The same stream with and without such a call. *)
Theorem C178_same_stream_refuted : exists (c : wcfg) (ks : list (call nat tag)) (empty : call nat tag) (k : call nat tag),
  dcfgOk c = true /\ Forall (fun k => cSmp k <> []) (ks ++ [k]) /\ cSmp empty = [] /\ cTags empty = [] /\
  trIn (runD c (ks ++ [empty; k])) = trIn (runD c (ks ++ [k])) /\
  map vals (trOut (runD c (ks ++ [k]))) = [[1; 2; 3; 4; 5]] /\
  map vals (trOut (runD c (ks ++ [empty; k]))) = [[1; 2; 3]].
Proof.
  exists (mkW 0 3 0), [cl [on] [1; 2] 1; cl [off] [3] 1], (cl [] [] 1), (cl [] [4; 5; 6] 1).
  split; [reflexivity|]. split; [repeat constructor; discriminate|]. repeat (split; [vm_compute; reflexivity|]). vm_compute. reflexivity.
Qed.
Print Assumptions C178_same_stream_refuted.

(* Outside the samples behind a range a call without samples changes nothing. *)
Theorem C178_harmless_partial : forall (A T F : Type) (mt : F -> option T -> F * verdict) f0 single SS EE idle open,
  matcher mt f0 single SS EE idle open -> (forall t, SS t = true -> EE t = false) ->
  forall (c : wcfg) (ks : list (call A T)) room, dcfgOk c = true -> Forall (fun k => cSmp k <> []) ks ->
  let x := drun mt f0 c ks in
  Forall (fun s => act (sacc s) = true /\ postA (sacc s) = false) (slots (trSt x)) ->
  let st' := fst (dcall mt f0 c [] [] room (trSt x)) in let o := snd (dcall mt f0 c [] [] room (trSt x)) in
  dCons o = 0 /\ dOut o = [] /\ dTag o = [] /\ dhist st' = dhist (trSt x) /\ dhtags st' = dhtags (trSt x) /\ dmerged st' = dmerged (trSt x) /\
  map sds (slots st') = map sds (slots (trSt x)) /\ map sacc (slots st') = map sacc (slots (trSt x)).
Proof.
  intros A T F mt f0 single SS EE idle open M D c ks room Hc Hk x Hall.
  destruct (drun_inv mt f0 single SS EE idle open M D c ks Hc Hk) as (pubs & rs & _ & _ & _ & HR & _). fold x in HR.
  set (st := trSt x) in *. unfold dcall. unfold firstTrigger. cbn [find hd_error].
  assert (Ho : openNew mt f0 c None = @nil (slot A T F)).
  { unfold openNew. destruct (m_idle_none _ _ _ _ _ _ _ M f0 (m_f0 _ _ _ _ _ _ _ M)) as [Q _]. destruct (mt f0 None) as [f v]. cbn [snd] in Q. subst v. reflexivity. }
  rewrite Ho, app_nil_r. destruct st as [sl h ht mg] eqn:Est. cbn [slots dhist dhtags dmerged] in *.
  assert (Hb : match sl with [] => false | s :: _ => negb (act (sacc s)) && (room =? 0) end = false).
  { destruct sl as [|s sl]; [reflexivity|]. apply Forall_cons_iff in Hall. destruct Hall as [[-> _] _]. reflexivity. }
  rewrite Hb. destruct sl as [|s sl]; [cbn; repeat split; reflexivity|].
  apply Forall_cons_iff in Hall. destruct Hall as [[Ha Hp] Hall]. cbn [stopFirst]. rewrite Ha, Hp. cbn [negb orb].
  assert (Hq : snd (mt (sfl s) None) = silent).
  { destruct rs as [|r rs]; [inversion HR|]. apply Forall2_cons_iff in HR. destruct HR as [[(_ & _ & _ & _ & HW) _] _]. destruct (snd r).
    - destruct HW as (_ & _ & Hi & _). apply (m_idle_none _ _ _ _ _ _ _ M _ Hi).
    - destruct HW as (_ & _ & Hi & _). apply (m_open_none _ _ _ _ _ _ _ M _ Hi). }
  destruct (mt (sfl s) None) as [f v]. cbn [snd] in Hq. subst v. cbn [vEnd silent]. unfold updateHistoryD. cbn [List.length Nat.ltb Nat.leb].
  assert (Hcp : forall q : slot A T F, act (sacc q) = true -> postA (sacc q) = false -> preA (sacc q) = false -> copySlot c h ht [] [] q = q).
  { intros [d a g] Q1 Q2 Q3. cbn [sacc] in *. unfold copySlot. cbn [sacc]. rewrite Q1. rewrite copyPre_id by exact Q3. unfold copyBody. cbn [sacc sds sfl]. rewrite Q2. cbn [negb].
    replace (if nMax c =? 0 then List.length (@nil A) else min (nMax c - List.length (vals d)) (List.length (@nil A))) with 0 by (cbn [List.length]; destruct (nMax c =? 0); lia).
    cbn [takeSamples Nat.ltb Nat.leb]. destruct a. cbn in *. subst. rewrite Nat.add_0_r. reflexivity. }
  assert (Hpre : Forall (fun q => preA (sacc q) = false) (s :: sl)).
  { clear -HR. induction HR as [|r q rs l [(_ & HW & _) _] _ IH]; constructor; assumption. }
  apply Forall_cons_iff in Hpre. destruct Hpre as [Hp0 Hpre]. cbn [map].
  rewrite (Hcp (mkSlot (sds s) (sacc s) f)) by assumption.
  assert (Hm : map (copySlot c h ht [] []) sl = sl).
  { clear -Hcp Hall Hpre. induction sl as [|q sl IH]; [reflexivity|]. apply Forall_cons_iff in Hall. destruct Hall as [[A1 A2] Hall]. apply Forall_cons_iff in Hpre. destruct Hpre as [P1 Hpre].
    cbn [map]. rewrite Hcp by assumption. f_equal. apply IH; assumption. }
  rewrite Hm. assert (Hpb : publish room (mkSlot (sds s) (sacc s) f :: sl) = ([], mkSlot (sds s) (sacc s) f :: sl)).
  { destruct room; [reflexivity|]. cbn [publish sacc]. rewrite Ha. reflexivity. }
  rewrite Hpb. cbn. repeat split; reflexivity.
Qed.
Print Assumptions C178_harmless_partial.

Example C178_ex :
  let x := runD cfg213 [cl [on] [1; 2] 1] in
  Forall (fun s => act (sacc s) = true /\ postA (sacc s) = false) (slots (trSt x)) /\ List.length (slots (trSt x)) = 1.
Proof. vm_compute. repeat constructor. Qed.
