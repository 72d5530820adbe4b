(* Ranges cut out of a stream: a stream as output. *)
From Coq Require Import Arith Lia Bool String Ascii.
From Verif Require Import TriggerModel TriggerSpec TriggerProofs WinMatch.
From Verif Require Import WinModel WinSpec WinStrSpec WinStrProofs WinStrProofs2 WinStrProofs3 WinStrProofs4 WinStrProofs5.
From Verif Require WinProofs WinProps.
From Coq Require Import List Sorted.
Import ListNotations.

Local Open Scope nat_scope.

Definition on := WinProps.on.
Definition off := WinProps.off.
Definition mark := WinProps.mark.
Definition runS (c : wcfg) (ps : list (nat * nat)) (zs : stream nat tag) : strace nat tag state * stream nat tag :=
  play (detect WinProps.onOff) c ps (str0 fresh) zs.
Definition runS1 (c : wcfg) (ps : list (nat * nat)) (zs : stream nat tag) : strace nat tag state * stream nat tag :=
  play (detect WinProps.onOnly) c ps (str0 fresh) zs.
Definition isOn : tag -> bool := startsB (WinProps.pOf "on").
Definition isOff : tag -> bool := startsB (WinProps.pOf "off").

(* ---------- C180: the samples passed on ---------- *)

(* For every stream and every way of cutting it into calls with any room, the
   samples and tags published are those of the machine that looks at one sample
   after the other, run over what was consumed; at most the samples in front of
   the next sample are published in addition. *)
Theorem C180_stream : forall (A T F : Type) (mt : F -> option T -> F * verdict) f0 single SS EE idle open,
  matcher mt f0 single SS EE idle open ->
  forall (c : wcfg) (ps : list (nat * nat)) (zs : stream A T),
  (single = true -> 0 < nPost c \/ nPre c = 0) -> Forall (oneSided SS EE) zs ->
  let '(x, todo) := play mt c ps (str0 f0) zs in
  zs = stIn x ++ todo /\
  let r := rrun c single SS EE (stIn x) in
  (stOut x = rout r /\ stTags x = rtags r) \/
  exists z rest, todo = z :: rest /\ let q := flush c (ev c single SS EE (snd z) r) in stOut x = rout q /\ stTags x = rtags q.
Proof.
  intros A T F mt f0 single SS EE idle open M c ps zs CF Hone.
  pose proof (play_ok mt f0 single SS EE idle open M c CF ps (str0 f0) zs (init_ok mt f0 single SS EE idle open M c zs) Hone) as H.
  destruct (play mt c ps (str0 f0) zs) as [x todo]. destruct H as ((r' & H1 & H2 & H3 & H4 & H5) & ys & H6 & H7). cbn [stIn str0 app] in H7. subst ys. split; [exact H6|].
  cbn zeta. destruct H5 as [-> |(z & rest & H5 & [-> | ->])]; [left; auto|left|right; exists z, rest; auto].
  destruct (ev_same c single SS EE (snd z) (rrun c single SS EE (stIn x))) as (_ & _ & E1 & E2). rewrite H3, H4, E1, E2. auto.
Qed.
Print Assumptions C180_stream.

(* In particular two runs that consume the whole stream publish the same. *)
Theorem C180_any_calls : forall (A T F : Type) (mt : F -> option T -> F * verdict) f0 single SS EE idle open,
  matcher mt f0 single SS EE idle open ->
  forall (c : wcfg) (ps ps' : list (nat * nat)) (zs : stream A T),
  (single = true -> 0 < nPost c \/ nPre c = 0) -> Forall (oneSided SS EE) zs ->
  let '(x, todo) := play mt c ps (str0 f0) zs in let '(x', todo') := play mt c ps' (str0 f0) zs in
  todo = [] -> todo' = [] -> stOut x = stOut x' /\ stTags x = stTags x'.
Proof.
  intros A T F mt f0 single SS EE idle open M c ps ps' zs CF Hone.
  pose proof (C180_stream A T F mt f0 single SS EE idle open M c ps zs CF Hone) as H. pose proof (C180_stream A T F mt f0 single SS EE idle open M c ps' zs CF Hone) as H'.
  destruct (play mt c ps (str0 f0) zs) as [x todo]. destruct (play mt c ps' (str0 f0) zs) as [x' todo']. intros -> ->.
  destruct H as (Hz & H). destruct H' as (Hz' & H'). rewrite app_nil_r in Hz, Hz'. rewrite <- Hz in H. rewrite <- Hz' in H'. cbn zeta in *.
  destruct H as [[-> ->]|(z & rest & H & _)]; [|discriminate]. destruct H' as [[-> ->]|(z & rest & H' & _)]; [|discriminate]. auto.
Qed.
Print Assumptions C180_any_calls.

(* Every call with more room than n_pre consumes something, and all it is
   offered if there is room for that too. *)
Theorem C180_progress : forall (A T F : Type) (mt : F -> option T -> F * verdict) f0 single SS EE idle open,
  matcher mt f0 single SS EE idle open ->
  forall (c : wcfg) (ps : list (nat * nat)) n room (zs : stream A T),
  (single = true -> 0 < nPost c \/ nPre c = 0) -> Forall (oneSided SS EE) zs ->
  let '(x, todo) := play mt c ps (str0 f0) zs in
  let x' := sstep mt c x (offer n room todo) in
  let m := List.length (stIn x') - List.length (stIn x) in
  stIn x' = stIn x ++ firstn m todo /\
  (0 < n -> todo <> [] -> nPre c < room -> 0 < m) /\
  (nPre c + List.length (cSmp (offer n room todo)) <= room -> m = List.length (cSmp (offer n room todo))).
Proof.
  intros A T F mt f0 single SS EE idle open M c ps n room zs CF Hone.
  pose proof (play_ok mt f0 single SS EE idle open M c CF ps (str0 f0) zs (init_ok mt f0 single SS EE idle open M c zs) Hone) as H.
  destruct (play mt c ps (str0 f0) zs) as [x todo]. destruct H as (HI & ys & H6 & _). rewrite H6 in Hone. apply Forall_app in Hone. destruct Hone as [_ Hone].
  destruct (step_ok mt f0 single SS EE idle open M c CF x todo n room HI Hone) as (m & M1 & M2 & M3 & M4 & M5 & M6). cbn zeta in *.
  assert (E : List.length (stIn (sstep mt c x (offer n room todo))) - List.length (stIn x) = m) by (rewrite M2, app_length, firstn_length; lia).
  rewrite E. auto.
Qed.
Print Assumptions C180_progress.

(* Ranges far enough apart: for each the n_pre samples in front of the start,
   the samples up to the stop and n_post more, and nothing else. *)
Theorem C180_ranges : forall (A T F : Type) (mt : F -> option T -> F * verdict) f0 SS EE idle open,
  matcher mt f0 false SS EE idle open ->
  forall (c : wcfg) (calls : list (nat * nat)) (ps : list (piece A T)) (final : stream A T),
  Forall (pieceOk c SS EE) ps -> quietOf SS final ->
  let '(x, todo) := play mt c calls (str0 f0) (flat_map whole ps ++ final) in
  todo = [] -> stOut x = passed c [] ps.
Proof.
  intros A T F mt f0 SS EE idle open M c calls ps final Hps Hfin.
  assert (Hone : Forall (oneSided SS EE) (flat_map whole ps ++ final)).
  { assert (Q1 : forall l : stream A T, quietOf SS l -> Forall (oneSided SS EE) l) by (intros l H; eapply Forall_impl; [|exact H]; intros z Hz Hc; congruence).
    assert (Q2 : forall l : stream A T, quietOf EE l -> Forall (oneSided SS EE) l) by (intros l H; eapply Forall_impl; [|exact H]; intros z Hz Hc; congruence).
    apply Forall_app. split; [|apply Q1; exact Hfin]. clear -Hps Q1 Q2. induction Hps as [|p ps (P1 & _ & P3 & _ & P5 & _) _ IH]; [constructor|]. cbn [flat_map]. apply Forall_app. split; [|exact IH].
    unfold whole. apply Forall_app. split; [auto|]. apply Forall_app. auto. }
  pose proof (C180_stream A T F mt f0 false SS EE idle open M c calls _ ltac:(discriminate) Hone) as H.
  destruct (play mt c calls (str0 f0) (flat_map whole ps ++ final)) as [x todo]. intros ->. destruct H as (Hz & H). rewrite app_nil_r in Hz. rewrite <- Hz in H. cbn zeta in H.
  destruct H as [[-> _]|(z & rest & H & _)]; [|discriminate]. clear -Hps Hfin. unfold rrun.
  assert (G : forall r, calm r -> rout (fold_left (rstep c false SS EE) (flat_map whole ps ++ final) r) = rout r ++ passed c (past r) ps).
  { revert Hps. induction ps as [|p ps IH]; intros Hps r Hc.
    - cbn [flat_map app passed]. rewrite app_nil_r. apply (gap_run c false SS EE final r Hc Hfin).
    - apply Forall_cons_iff in Hps. destruct Hps as [(P1 & P2 & P3 & P4 & P5 & P6) Hps]. destruct p as [g b q]. cbn [gap body rear] in *. cbn [flat_map passed whole gap body rear].
      unfold whole at 1. cbn [gap body rear]. rewrite <- !app_assoc. rewrite !fold_left_app. destruct (gap_run c false SS EE g r Hc P1) as (C1 & C2 & C3).
      set (r1 := fold_left (rstep c false SS EE) g r) in *. destruct b as [|z b]; [contradiction|]. cbn [headOf] in P2. apply Forall_cons_iff in P3. destruct P3 as [P3 P3'].
      cbn [fold_left]. destruct C1 as (D1 & D2 & D3).
      assert (E1 : rstep c false SS EE r1 z = take z (flush c (mkRef (past r1) (pend r1) true Body true (rout r1) (rtags r1)))) by (unfold rstep, ev; rewrite D2, P2, D1; reflexivity).
      destruct (flush_out c (mkRef (past r1) (pend r1) true Body true (rout r1) (rtags r1)) eq_refl) as (F1 & F2 & F3 & F4). cbn [rout past md opened] in F1, F2, F3, F4.
      set (r2 := flush c _) in *. assert (F5 : due r2 = false) by apply flush_due. clearbody r2.
      rewrite E1. destruct (body_run c SS EE b (take z r2)) as (B1 & B2 & B3 & B4 & B5); [unfold take; rewrite F3; cbn; auto ..|exact P3'|].
      set (r3 := fold_left (rstep c false SS EE) b (take z r2)) in *. assert (R3 : rout r3 = rout r ++ skipn (List.length (past r1) - nPre c) (past r1) ++ map fst (z :: b) /\ past r3 = past r1 ++ map fst (z :: b)).
      { rewrite B4, B5. unfold take. rewrite F3. cbn [rout past]. rewrite F1, F2, C2. cbn [map]. rewrite <- !app_assoc. auto. }
      clearbody r3. clear B4 B5 E1.
      (* the tail *)
      assert (TL : let r4 := fold_left (rstep c false SS EE) q r3 in calm r4 /\ rout r4 = rout r3 ++ firstn (nPost c) (map fst q) /\ past r4 = past r3 ++ map fst q).
      { destruct q as [|t q]; [contradiction|]. cbn [headOf] in P4. cbn [List.length] in P6.
        assert (E2 : rstep c false SS EE r3 t = take t (mkRef (past r3) (pend r3) false (Post (nPost c)) (due r3) (rout r3) (rtags r3))).
        { unfold rstep, ev. rewrite B2, P4, B1. rewrite flush_not by exact B3. reflexivity. }
        destruct (Nat.eq_dec (nPost c) 0) as [Z|Z].
        - rewrite Z in *. destruct q; [|cbn in P6; lia]. cbn [fold_left map firstn]. rewrite E2. unfold take. cbn [md rout past]. rewrite app_nil_r. repeat split; auto.
        - assert (Lq : List.length (t :: q) = nPost c) by (clear -P6 Z; cbn [List.length]; lia). assert (Lz : 0 < nPost c) by (clear -Z; lia). pose proof (tail_run c SS EE false (t :: q) (mkRef (past r3) (pend r3) false (Post (nPost c)) (due r3) (rout r3) (rtags r3)) (nPost c)) as TR. cbn [fold_left] in TR |- *. rewrite E2.
          cbn [md opened due rout past] in TR. specialize (TR eq_refl eq_refl B3 Lq Lz (or_intror P5)).
          assert (E3 : rstep c false SS EE (mkRef (past r3) (pend r3) false (Post (nPost c)) (due r3) (rout r3) (rtags r3)) t = take t (mkRef (past r3) (pend r3) false (Post (nPost c)) (due r3) (rout r3) (rtags r3))).
          { unfold rstep, ev. cbn [opened]. apply Forall_cons_iff in P5. destruct P5 as [P5 _]. rewrite P5. rewrite flush_not by exact B3. reflexivity. }
          rewrite E3 in TR. destruct TR as (T1 & T2 & T3). split; [exact T1|]. rewrite T2, T3. rewrite (firstn_all2 (map fst (t :: q))) by (rewrite map_length, Lq; apply le_n). auto. }
      cbn zeta in TL. set (r4 := fold_left (rstep c false SS EE) q r3) in *. destruct TL as (T1 & T2 & T3).
      rewrite <- fold_left_app. rewrite IH; [|exact Hps|exact T1]. rewrite T2, T3. destruct R3 as [R3 R3']. rewrite R3, R3', C3. unfold whole. cbn [gap body rear]. rewrite !map_app. rewrite <- !app_assoc. reflexivity. }
  apply (G ref0). repeat split.
Qed.
Print Assumptions C180_ranges.

(* One name: n_pre samples in front of the trigger and n_post from it on. *)
Theorem C180_triggers : forall (A T F : Type) (mt : F -> option T -> F * verdict) f0 SS EE idle open,
  matcher mt f0 true SS EE idle open ->
  forall (c : wcfg) (calls : list (nat * nat)) (ps : list (piece A T)) (final : stream A T),
  (0 < nPost c \/ nPre c = 0) -> Forall (oneSided SS EE) (flat_map whole ps ++ final) ->
  Forall (pieceOk1 c SS) ps -> quietOf SS final ->
  let '(x, todo) := play mt c calls (str0 f0) (flat_map whole ps ++ final) in
  todo = [] -> stOut x = passed c [] ps.
Proof.
  intros A T F mt f0 SS EE idle open M c calls ps final CF Hone Hps Hfin.
  pose proof (C180_stream A T F mt f0 true SS EE idle open M c calls _ (fun _ => CF) Hone) as H.
  destruct (play mt c calls (str0 f0) (flat_map whole ps ++ final)) as [x todo]. intros ->. destruct H as (Hz & H). rewrite app_nil_r in Hz. rewrite <- Hz in H. cbn zeta in H.
  destruct H as [[-> _]|(z & rest & H & _)]; [|discriminate]. clear -Hps Hfin. unfold rrun.
  assert (G : forall r, calm r -> rout (fold_left (rstep c true SS EE) (flat_map whole ps ++ final) r) = rout r ++ passed c (past r) ps).
  { revert Hps. induction ps as [|p ps IH]; intros Hps r Hc.
    - cbn [flat_map app passed]. rewrite app_nil_r. apply (gap_run c true SS EE final r Hc Hfin).
    - apply Forall_cons_iff in Hps. destruct Hps as [(P1 & P2 & P4 & P6) Hps]. destruct p as [g b q]. cbn [gap body rear] in *. subst b. cbn [flat_map passed gap body rear map app].
      unfold whole at 1. cbn [gap body rear app]. rewrite <- !app_assoc. rewrite !fold_left_app. destruct (gap_run c true SS EE g r Hc P1) as (C1 & C2 & C3).
      set (r1 := fold_left (rstep c true SS EE) g r) in *. destruct C1 as (D1 & D2 & D3).
      assert (TL : let r4 := fold_left (rstep c true SS EE) q r1 in calm r4 /\ rout r4 = rout r1 ++ skipn (List.length (past r1) - nPre c) (past r1) ++ firstn (nPost c) (map fst q) /\ past r4 = past r1 ++ map fst q).
      { destruct q as [|t q]; [contradiction|]. cbn [headOf] in P4. cbn [List.length] in P6. clearbody r1.
        assert (E2 : rstep c true SS EE r1 t = take t (flush c (mkRef (past r1) (pend r1) (opened r1) (Post (nPost c)) true (rout r1) (rtags r1)))).
        { unfold rstep, ev. rewrite P4, D1. reflexivity. }
        destruct (flush_out c (mkRef (past r1) (pend r1) (opened r1) (Post (nPost c)) true (rout r1) (rtags r1)) eq_refl) as (F1 & F2 & F3 & F4). cbn [rout past md opened] in F1, F2, F3, F4.
        set (r2 := flush c _) in *. assert (F5 : due r2 = false) by apply flush_due. clearbody r2.
        destruct (Nat.eq_dec (nPost c) 0) as [Z|Z].
        - rewrite Z in *. destruct q; [|cbn in P6; lia]. cbn [fold_left map firstn]. rewrite E2. unfold take. rewrite F3. cbn [md rout past]. rewrite F1, F2, app_nil_r. repeat split; auto. cbn. congruence.
        - assert (Lq : List.length (t :: q) = nPost c) by (clear -P6 Z; cbn [List.length]; lia). assert (Lz : 0 < nPost c) by (clear -Z; lia). pose proof (tail_run c SS EE true (t :: q) r2 (nPost c)) as TR. cbn [fold_left] in TR |- *. rewrite E2.
          specialize (TR F3 ltac:(congruence) F5 Lq Lz (or_introl eq_refl)).
          assert (E3 : rstep c true SS EE r2 t = take t r2). { unfold rstep, ev. rewrite P4, F3. rewrite flush_not by exact F5. reflexivity. }
          rewrite E3 in TR. destruct TR as (T1 & T2 & T3). split; [exact T1|]. rewrite T2, T3, F1, F2. rewrite (firstn_all2 (map fst (t :: q))) by (rewrite map_length, Lq; apply le_n). rewrite <- app_assoc. auto. }
      cbn zeta in TL. set (r4 := fold_left (rstep c true SS EE) q r1) in *. destruct TL as (T1 & T2 & T3).
      rewrite <- fold_left_app. rewrite IH; [|exact Hps|exact T1]. rewrite T2, T3, C2, C3. unfold whole. cbn [gap body rear app]. rewrite !map_app. rewrite <- !app_assoc. reflexivity. }
  apply (G ref0). repeat split.
Qed.
Print Assumptions C180_triggers.

(* The filter [on, off] of the examples. *)
Lemma onOff_matcher : matcher (detect WinProps.onOff) fresh false isOn isOff
  (pairIdle WinProps.onOff (WinProps.pOf "on") (WinProps.pOf "off")) (pairOpen WinProps.onOff (WinProps.pOf "on") (WinProps.pOf "off")).
Proof.
  destruct WinProps.C175_ex as (H1 & H2 & H3 & H4 & H5 & H6 & _).
  refine (pair_matcher WinProps.onOff _ _ (WinProps.pOf "on") (WinProps.pOf "off") H1 H2 H3 H4 H6 H5 H6 _ _ _ _ _).
  - left. discriminate.
  - left. discriminate.
  - intros [H _]. discriminate H.
  - split; reflexivity.
  - split; reflexivity.
Qed.

Definition cfg22 : wcfg := mkW 2 2 0.
Definition pieces1 : list (piece nat tag) :=
  [mkPiece [(1, []); (2, [mark]); (3, [])] [(4, [on]); (5, [])] [(6, [off]); (7, [])];
   mkPiece [(8, []); (9, [mark])] [(10, [on])] [(11, [off]); (12, [])]].
Definition calls1 : list (nat * nat) := [(2, 0); (5, 1); (5, 1); (3, 2); (2, 1); (0, 4); (1, 3); (4, 1)] ++ repeat (9, 9) 9.
Example C180_ex :
  Forall (pieceOk cfg22 isOn isOff) pieces1 /\ quietOf isOn [(13, @nil tag)] /\
  Forall (oneSided isOn isOff) (flat_map whole pieces1 ++ [(13, [])]) /\
  (let '(x, todo) := runS cfg22 calls1 (flat_map whole pieces1 ++ [(13, [])]) in
   todo = [] /\ stOut x = [2; 3; 4; 5; 6; 7; 8; 9; 10; 11; 12] /\
   stTags x = [(0, Own mark); (2, Own on); (4, Own off); (7, Own mark); (8, Own on); (9, Own off)]) /\
  passed cfg22 [] pieces1 = [2; 3; 4; 5; 6; 7; 8; 9; 10; 11; 12].
Proof.
  split. { repeat constructor. }
  split. { repeat constructor. }
  split. { repeat constructor; intros H; vm_compute in H |- *; congruence. }
  vm_compute. repeat split; reflexivity.
Qed.
Example C180_ex_single :
  let ps := [mkPiece [(1, @nil tag); (2, [])] [] [(3, [on]); (4, [on]); (5, [])]; mkPiece [(6, [])] [] [(7, [on]); (8, []); (9, [])]] in
  Forall (pieceOk1 (mkW 1 3 0) isOn) ps /\
  (let '(x, todo) := runS1 (mkW 1 3 0) (repeat (2, 3) 20) (flat_map whole ps) in todo = [] /\ stOut x = [2; 3; 4; 5; 6; 7; 8; 9]) /\
  passed (mkW 1 3 0) [] ps = [2; 3; 4; 5; 6; 7; 8; 9].
Proof. split; [repeat constructor|]. vm_compute. repeat split; reflexivity. Qed.

(* ---------- C181: the tags passed on ---------- *)

Lemma final_T (A T F : Type) (mt : F -> option T -> F * verdict) f0 single SS EE idle open :
  matcher mt f0 single SS EE idle open ->
  forall (c : wcfg) (ps : list (nat * nat)) (zs : stream A T),
  (single = true -> 0 < nPost c \/ nPre c = 0) -> Forall (oneSided SS EE) zs ->
  let x := fst (play mt c ps (str0 f0) zs) in
  exists r, TInv (stIn x) r /\ stOut x = rout r /\ stTags x = rtags r /\
    smerged (stSt x) ++ map snd (shtags (stSt x)) = map snd (pend r).
Proof.
  intros M c ps zs CF Hone.
  pose proof (play_ok mt f0 single SS EE idle open M c CF ps (str0 f0) zs (init_ok mt f0 single SS EE idle open M c zs) Hone) as H.
  destruct (play mt c ps (str0 f0) zs) as [x todo]. destruct H as ((r' & H1 & H2 & H3 & H4 & H5) & _). cbn [fst]. exists r'. split; [|split; [exact H3|split; [exact H4|]]].
  - pose proof (rrun_T c single SS EE (stIn x)) as HT. destruct H5 as [-> |(z & rest & _ & [-> | ->])]; [exact HT|apply ev_T; exact HT|apply (flush_T c SS EE); apply ev_T; exact HT].
  - destruct H1 as (_ & _ & [_ Q2 Q3 _ Q5] & _). rewrite Q2, Q3, map_map. cbn [snd]. rewrite <- map_app, old_split by exact Q5. reflexivity.
Qed.

(* No tag is lost or repeated: those carried by the output, alone or in a
   merged tag, and those that wait are the tags of the samples consumed, in
   order. *)
Theorem C181_none_lost : forall (A T F : Type) (mt : F -> option T -> F * verdict) f0 single SS EE idle open,
  matcher mt f0 single SS EE idle open ->
  forall (c : wcfg) (ps : list (nat * nat)) (zs : stream A T),
  (single = true -> 0 < nPost c \/ nPre c = 0) -> Forall (oneSided SS EE) zs ->
  let x := fst (play mt c ps (str0 f0) zs) in
  flat_map (fun e => match snd e with Merged l => l | Own t => [t] end) (stTags x) ++ smerged (stSt x) ++ map snd (shtags (stSt x)) = allTags (stIn x).
Proof.
  intros A T F mt f0 single SS EE idle open M c ps zs CF Hone x.
  destruct (final_T A T F mt f0 single SS EE idle open M c ps zs CF Hone) as (r & HT & _ & H3 & H4). fold x in HT, H3, H4. rewrite H4, H3. apply (t_all _ _ HT).
Qed.
Print Assumptions C181_none_lost.

(* A tag of its own is on a copy of the sample it sat on; merged tags are on
   samples of the output too. *)
Theorem C181_in_place : forall (A T F : Type) (mt : F -> option T -> F * verdict) f0 single SS EE idle open,
  matcher mt f0 single SS EE idle open ->
  forall (c : wcfg) (ps : list (nat * nat)) (zs : stream A T),
  (single = true -> 0 < nPost c \/ nPre c = 0) -> Forall (oneSided SS EE) zs ->
  let x := fst (play mt c ps (str0 f0) zs) in
  (forall p t, In (p, Own t) (stTags x) -> exists i a ts, nth_error (stIn x) i = Some (a, ts) /\ In t ts /\ nth_error (stOut x) p = Some a) /\
  (forall p l, In (p, Merged l) (stTags x) -> p < List.length (stOut x)).
Proof.
  intros A T F mt f0 single SS EE idle open M c ps zs CF Hone x.
  destruct (final_T A T F mt f0 single SS EE idle open M c ps zs CF Hone) as (r & HT & H2 & H3 & _). fold x in HT, H2, H3. rewrite H2, H3. split; [apply (t_own _ _ HT)|apply (t_in _ _ HT)].
Qed.
Print Assumptions C181_in_place.

Example C181_ex :
  let zs := [(1, [mark]); (2, []); (3, [mark]); (4, [on]); (5, [mark]); (6, [off]); (7, [mark])] in
  let '(x, todo) := runS (mkW 1 0 0) (repeat (3, 2) 12) zs in
  Forall (oneSided isOn isOff) zs /\ todo = [] /\ stOut x = [3; 4; 5] /\
  stTags x = [(0, Merged [mark]); (0, Own mark); (1, Own on); (2, Own mark)] /\ smerged (stSt x) ++ map snd (shtags (stSt x)) = [off; mark].
Proof.
  vm_compute. split; [|repeat split; reflexivity]. repeat constructor; intros H; vm_compute in H |- *; congruence.
Qed.

(* ---------- C182: what the stream depends on ---------- *)

(* Claimed: every range from a start to the next stop is passed on.  A start
   among the n_post samples of the former range is heard by the filter but has
   no effect, so the whole range behind it is lost: its stop comes without a
   start. *)
Theorem C182_start_in_tail_refuted : exists (c : wcfg) (zs : stream nat tag) (ps : list (nat * nat)),
  Forall (oneSided isOn isOff) zs /\
  ranges false isOn isOff zs = [(0, Some 1); (2, Some 6)] /\
  let '(x, todo) := runS c ps zs in todo = [] /\ nth_error zs 4 = Some (5, []) /\ ~ In 5 (stOut x) /\ stOut x = [1; 2; 3; 4].
Proof.
  exists (mkW 0 3 0), [(1, [on]); (2, [off]); (3, [on]); (4, []); (5, []); (6, []); (7, [off]); (8, []); (9, [])], (repeat (9, 9) 12).
  split. { repeat constructor; intros H; vm_compute in H |- *; congruence. }
  split; [vm_compute; reflexivity|]. vm_compute. repeat split. intros H. repeat destruct H as [H|H]; discriminate || contradiction.
Qed.
Print Assumptions C182_start_in_tail_refuted.

(* Claimed: the room of the output does not matter.  A sample with a start and
   a stop is looked at again after a call without room, and then the stop
   counts. *)
Theorem C182_both_tags_refuted : exists (c : wcfg) (zs : stream nat tag) (ps ps' : list (nat * nat)),
  let '(x, todo) := runS c ps zs in let '(x', todo') := runS c ps' zs in
  todo = [] /\ todo' = [] /\ stOut x = [1; 2; 3; 4; 5] /\ stOut x' = [1; 2].
Proof.
  exists (mkW 1 1 0), [(1, []); (2, [on; off]); (3, []); (4, []); (5, [off]); (6, [])], (repeat (9, 9) 12), ((9, 9) :: (9, 0) :: repeat (9, 9) 12).
  vm_compute. repeat split; reflexivity.
Qed.
Print Assumptions C182_both_tags_refuted.

(* One name and n_post = 0, the samples in front of a trigger: the tag of the
   trigger is lost, and a call without samples at the wrong time repeats the
   samples. *)
Theorem C182_no_post_refuted : exists (c : wcfg) (zs : stream nat tag) (ps ps' : list (nat * nat)),
  Forall (oneSided isOn isOff) zs /\ allTags zs = [on] /\
  let '(x, todo) := runS1 c ps zs in let '(x', todo') := runS1 c ps' zs in
  todo = [] /\ stOut x = [1] /\ stTags x = [] /\ smerged (stSt x) = [] /\ shtags (stSt x) = [] /\
  todo' = [] /\ stOut x' = [1; 1].
Proof.
  exists (mkW 1 0 0), [(1, []); (2, [on]); (3, []); (4, [])], (repeat (9, 9) 4), ((9, 9) :: (9, 0) :: (0, 9) :: repeat (9, 9) 4).
  split. { repeat constructor; intros H; vm_compute in H |- *; congruence. }
  vm_compute. repeat split; reflexivity.
Qed.
Print Assumptions C182_no_post_refuted.
