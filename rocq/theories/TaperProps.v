(* Theorems about the envelope of bursts. *)

From Coq Require Import ZArith Bool Lia List.
From Verif Require Import TaperModel TaperSpec TaperProofs.
Import ListNotations.

Local Open Scope nat_scope.

Definition demo : cfg := mkC [0; 20; 80; 100]%Z [100; 80; 20; 0]%Z 100%Z.

(* ------------------------------------------------------------------ C215 *)

(* As long as no ramp is reversed by force, asking for the gain sample by
   sample gives what handling the samples as one span gives, and leaves the
   same state. *)
Theorem C215_single_samples : forall c os n,
  mirrored c -> (forall o, In o os -> unforced o) ->
  let s := fst (exec c reset os) in
  exec c s (ones n) = apply c s n.
Proof.
  intros c os n M U s. assert (Hok := mirrored_ok c M).
  assert (W : wf c s) by (apply exec_wf; [exact Hok|reflexivity]).
  assert (L : low c s).
  { apply exec_low; [exact Hok|reflexivity| |exact U]. unfold low; cbn [reset ph]. intros [X | X]; discriminate. }
  rewrite (apply_run c s n Hok W). apply exec_ones; [exact W|exact (low_good c s L)].
Qed.
Print Assumptions C215_single_samples.

(* With force it does not: at full level, a fall that is taken back by force
   before its first sample and then asked for again makes the next single
   sample silent, whatever the ramp is, where a span starts the fall at its
   first coefficient. *)
Theorem C215_forced_refuted : forall c os, mirrored c -> 0 < len c ->
  ph (fst (exec c reset os)) = On ->
  let s := fst (exec c reset (os ++ [Target false false; Target true true; Target false false])) in
  snd (processOne c s) = 0%Z /\ snd (apply c s 1) = [nth 0 (fall c) 0%Z].
Proof.
  intros c os M L P s. assert (Hok := mirrored_ok c M).
  assert (E : s = mkT Up (len c) false).
  { unfold s. rewrite exec_app. destruct (exec c reset os) as [s0 g]; cbn [fst] in P. destruct s0 as [p k t]; cbn [ph] in P; subst p.
    cbn [exec step]. unfold setTarget at 3; cbn [ph]. unfold startRamp.
    replace (len c =? 0) with false by (symmetry; apply Nat.eqb_neq; lia). cbn [fst].
    unfold setTarget; cbn [ph pos tgt andb negb fst]. rewrite Nat.min_0_l, Nat.sub_0_r. reflexivity. }
  rewrite E. split.
  - unfold processOne; cbn [ph pos tgt]. rewrite Nat.leb_refl, orb_true_r. reflexivity.
  - rewrite apply_run; [|exact Hok|unfold wf; cbn [ph pos]; lia].
    cbn [run]. unfold one, norm; cbn [ph pos]. rewrite Nat.leb_refl. unfold transition; cbn [ph tgt]. unfold processOne; cbn [ph pos tgt].
    replace (len c =? 0) with false by (symmetry; apply Nat.eqb_neq; lia).
    replace (len c <=? 0) with false by (symmetry; apply Nat.leb_gt; lia). reflexivity.
Qed.
Print Assumptions C215_forced_refuted.

Example C215_case :
  mirrored demo /\ snd (exec demo reset [Target true false; Apply 6]) = [0; 20; 80; 100; 100; 100]%Z
  /\ snd (exec demo reset (Target true false :: ones 6)) = [0; 20; 80; 100; 100; 100]%Z
  /\ ph (fst (exec demo reset [Target true false; Apply 6])) = On.
Proof. vm_compute. repeat split; reflexivity. Qed.
Example C215_forced_case :
  snd (exec demo reset [Target true false; Apply 6; Target false false; Target true true; Target false false; One; One])
  = [0; 20; 80; 100; 100; 100; 0; 100]%Z.
Proof. reflexivity. Qed.

(* ------------------------------------------------------------------ C216 *)

(* How the samples are cut into spans does not show, in whatever state. *)
Theorem C216_cuts : forall c os ns, mirrored c ->
  exec c reset (os ++ map Apply ns) = exec c reset (os ++ [Apply (list_sum ns)]).
Proof.
  intros c os ns M. assert (Hok := mirrored_ok c M). rewrite !exec_app.
  assert (W : wf c (fst (exec c reset os))) by (apply exec_wf; [exact Hok|reflexivity]).
  destruct (exec c reset os) as [s g]; cbn [fst] in W.
  assert (E : exec c s (map Apply ns) = exec c s [Apply (list_sum ns)]); [|rewrite E; reflexivity].
  clear g os. revert s W. induction ns as [|n ns IH]; intros s W.
  - reflexivity.
  - cbn [map exec step list_sum fold_right]. rewrite (apply_run c s n Hok W).
    change (fold_right Nat.add 0 ns) with (list_sum ns).
    rewrite (apply_run c s (n + list_sum ns) Hok W), run_app.
    assert (W1 := run_wf c n s W). destruct (run c s n) as [s1 g1]; cbn [fst] in W1.
    rewrite (IH s1 W1). cbn [exec step]. rewrite (apply_run c s1 _ Hok W1).
    destruct (run c s1 (list_sum ns)) as [s2 g2]. rewrite !app_nil_r. reflexivity.
Qed.
Print Assumptions C216_cuts.

(* Every sample of a span gets a gain. *)
Theorem C216_every_sample : forall c os n, mirrored c ->
  length (snd (apply c (fst (exec c reset os)) n)) = n.
Proof.
  intros c os n M. assert (Hok := mirrored_ok c M).
  rewrite apply_run; [apply run_length|exact Hok|apply exec_wf; [exact Hok|reflexivity]].
Qed.
Print Assumptions C216_every_sample.

Example C216_case :
  snd (exec demo reset ([Target true false; Apply 2; Target false true] ++ map Apply [1; 0; 3]))
  = [0; 20; 20; 0; 0; 0]%Z
  /\ snd (exec demo reset ([Target true false; Apply 2; Target false true] ++ [Apply 4])) = [0; 20; 20; 0; 0; 0]%Z.
Proof. split; reflexivity. Qed.

(* ------------------------------------------------------------------ C217 *)

(* Whatever targets are set, with or without force and at whatever moments,
   the gains of samples handled in spans never move faster than the ramp
   itself, counted from silence before and unity after it. *)
Theorem C217_no_clicks : forall c d os, mirrored c -> (0 <= d)%Z ->
  smooth d (0%Z :: rise c ++ [unity c]) -> spans os ->
  smooth d (0%Z :: snd (exec c reset os)).
Proof.
  intros c d os M D S Sp.
  destruct (exec_walk c os reset 0 M (reset_wf c)) as (k & W & _); [unfold at_; cbn [reset ph]; lia|exact Sp|].
  change 0%Z with (level c 0). apply (walk_smooth c d 0 _ k); [exact S|exact D|lia|exact W].
Qed.
Print Assumptions C217_no_clicks.

(* Every gain is one of the ramp, silence or unity. *)
Theorem C217_known_gains : forall c os g, mirrored c -> spans os ->
  In g (snd (exec c reset os)) -> g = 0%Z \/ g = unity c \/ In g (rise c).
Proof.
  intros c os g M Sp I.
  destruct (exec_walk c os reset 0 M (reset_wf c)) as (k & W & _); [unfold at_; cbn [reset ph]; lia|exact Sp|].
  revert I. generalize (snd (exec c reset os)) as gs, 0 as i, W. clear W. intros gs i W.
  revert i W. induction gs as [|x gs IH]; intros i W I; [destruct I|].
  remember (x :: gs) as l eqn:El. destruct W as [i|i j hs k N1 N2 Hj W]; [discriminate|].
  assert (level c j = x) by congruence. assert (hs = gs) by congruence. subst hs.
  destruct I as [I | I].
  - subst x. subst g. unfold level, ramp. destruct j as [|j]; [left; reflexivity|]. cbn [nth].
    destruct (Nat.eq_dec j (len c)) as [E | E].
    + right; left. subst j. unfold len. rewrite app_nth2, Nat.sub_diag by lia. reflexivity.
    + right; right. rewrite app_nth1 by (unfold len in *; lia). apply nth_In. unfold len in *; lia.
  - exact (IH j W I).
Qed.
Print Assumptions C217_known_gains.

(* Samples asked for one at a time do click. *)
Theorem C217_single_samples_refuted : exists c d os, mirrored c /\ (0 <= d)%Z /\
  smooth d (0%Z :: rise c ++ [unity c]) /\ ~ smooth d (0%Z :: snd (exec c reset os)).
Proof.
  exists demo, 60%Z, [Target true false; Apply 6; Target false false; Target true true; Target false false; One].
  split; [reflexivity|]. split; [lia|]. split.
  - intros i x y Hx Hy. cbn in Hx, Hy.
    do 5 (destruct i as [|i];
      [cbn in Hx, Hy; match type of Hx with Some ?a = _ => match type of Hy with Some ?b = _ =>
         assert (a = x) by congruence; assert (b = y) by congruence; subst x y; vm_compute; congruence end end|]).
    cbn in Hy. destruct i; discriminate.
  - intros S. specialize (S 6 100%Z 0%Z eq_refl eq_refl). vm_compute in S. congruence.
Qed.
Print Assumptions C217_single_samples_refuted.

Example C217_case :
  spans [Target true false; Apply 2; Target false true; Apply 1; Target true true; Apply 5]
  /\ snd (exec demo reset [Target true false; Apply 2; Target false true; Apply 1; Target true true; Apply 5])
     = [0; 20; 20; 20; 80; 100; 100; 100]%Z.
Proof. split; [|reflexivity]. intros o H. cbn in H. repeat (destruct H as [<- | H]; [discriminate|]). destruct H. Qed.

(* ------------------------------------------------------------------ C218 *)

(* Twice the length of the ramp after a target was set, in whatever state, the
   envelope is there and stays there. *)
Theorem C218_settles : forall c os on force n m, mirrored c -> 2 * len c <= n ->
  let s := fst (exec c reset (os ++ [Target on force; Apply n])) in
  ph s = (if on then On else Off) /\ apply c s m = (s, repeat (if on then unity c else 0%Z) m).
Proof.
  intros c os on force n m M H s. assert (Hok := mirrored_ok c M).
  assert (Ws : wf c s) by (apply exec_wf; [exact Hok|reflexivity]).
  assert (X : todo c s = 0 /\ tgt s = on).
  { unfold s. rewrite exec_app. assert (W := exec_wf c os reset Hok (reset_wf c)).
    destruct (exec c reset os) as [s0 g]; cbn [fst] in W. cbn [exec step].
    assert (W1 := setTarget_wf c on force s0 W).
    assert (T : tgt (fst (setTarget c on force s0)) = on).
    { unfold setTarget, startRamp. destruct (ph s0), on, force; cbn [andb negb fst]; try destruct (len c =? 0); reflexivity. }
    destruct (setTarget c on force s0) as [s1 b]; cbn [fst] in *.
    rewrite (apply_run c s1 n Hok W1).
    assert (B := todo_bound c s1 W1).
    destruct (run_settles c n s1 W1 ltac:(lia)) as [A1 A2]. destruct (run c s1 n) as [s2 h]; cbn [fst] in *.
    split; [exact A1|congruence]. }
  destruct X as [X T]. rewrite (apply_run c s m Hok Ws).
  destruct s as [p k t]; cbn [tgt] in T; subst t. unfold todo, wf in *; cbn [ph pos tgt] in *.
  destruct p.
  - subst on. split; [reflexivity|apply run_off].
  - exfalso. destruct on; lia.
  - subst on. split; [reflexivity|apply run_on].
  - exfalso. destruct on; lia.
Qed.
Print Assumptions C218_settles.

(* setTarget answers whether the envelope has to turn. *)
Theorem C218_answer : forall c os on force,
  let s := fst (exec c reset os) in
  snd (setTarget c on force s) = false <-> heading s on.
Proof.
  intros c os on force s; unfold setTarget, heading. destruct (ph s), on, force; cbn [andb negb snd]; split; congruence.
Qed.
Print Assumptions C218_answer.

Example C218_case :
  let s := fst (exec demo reset ([Target true false; Apply 1] ++ [Target false false; Apply 8])) in
  ph s = Off /\ 2 * len demo <= 8 /\ ph (fst (exec demo reset ([Target true false; Apply 1] ++ [Target false false; Apply 6]))) = Down.
Proof. vm_compute. repeat split; repeat constructor. Qed.
