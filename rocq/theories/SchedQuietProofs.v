(** Proofs about work quiescence. *)
From Coq Require Import NArith ZArith Bool Arith Lia List.
From Coq Require Import ZifyBool ZifyNat ZifyN.
From Verif Require Import Base LifecycleModel TopoModel SchedModel.
Import ListNotations.
Local Open Scope nat_scope.

(** Inside the window between increment and decrement. *)
Definition counted (p : WPc) : bool := match p with WAdded | WIn | WLeaving => true | _ => false end.

Fixpoint countW (l : list WPc) : nat := match l with [] => 0 | p :: r => (if counted p then 1 else 0) + countW r end.

Lemma countW_upd l i p q : nth_error l i = Some p ->
  countW (upd l i q) + (if counted p then 1 else 0) = countW l + (if counted q then 1 else 0).
Proof.
  revert i; induction l as [|x l IH]; intros [|i] H; cbn [nth_error] in H; try discriminate.
  - injection H as ->. cbn [upd countW]. lia.
  - cbn [upd countW]. specialize (IH i H). lia.
Qed.

Lemma countW_le l : countW l <= length l.
Proof. induction l as [|x l IH]; cbn; [lia|]. destruct (counted x); lia. Qed.

Lemma countW_repeat n : countW (repeat WOut n) = 0.
Proof. induction n; cbn; auto. Qed.

Lemma countW_in l i p : nth_error l i = Some p -> counted p = true -> 1 <= countW l.
Proof.
  revert i; induction l as [|x l IH]; intros [|i] H Hc; cbn [nth_error] in H; try discriminate.
  - injection H as ->. cbn [countW]. rewrite Hc. lia.
  - cbn [countW]. specialize (IH i H Hc). lia.
Qed.

Lemma inc64_small n : n + 1 < N.to_nat two64 -> N.to_nat (inc64 (N.of_nat n)) = n + 1.
Proof. intros H. unfold inc64. rewrite N.mod_small; lia. Qed.

Lemma dec64_small n : 1 <= n -> (N.of_nat n < two64)%N -> dec64 (N.of_nat n) = N.of_nat (n - 1).
Proof.
  intros H1 H2. unfold dec64.
  replace (N.of_nat n + (two64 - 1))%N with (N.of_nat (n - 1) + 1 * two64)%N by (unfold two64 in *; lia).
  rewrite N.mod_add by (unfold two64; lia). apply N.mod_small. lia.
Qed.

Lemma inc64_small' n : (N.of_nat n + 1 < two64)%N -> inc64 (N.of_nat n) = N.of_nat (n + 1).
Proof. intros H. unfold inc64. rewrite N.mod_small; lia. Qed.

(** The count is the number of workers inside the window. *)
Definition qinv (s : QState) : Prop := qcount s = N.of_nat (countW (qwork s)) /\ (N.of_nat (length (qwork s)) < two64)%N.

Lemma qinv_step s a : qinv s -> qinv (qstep s a).
Proof.
  intros [Hc Hl]. destruct a as [i|j]; cbn [qstep].
  - unfold workStep. destruct (nth_error (qwork s) i) as [p|] eqn:E; [|split; assumption].
    pose proof (countW_le (qwork s)) as Hle.
    assert (Hi : i < length (qwork s)) by (apply nth_error_Some; congruence).
    destruct p.
    + destruct (qflag s); [split; assumption|]. split; cbn [qcount qwork]; [|rewrite length_upd; exact Hl].
      pose proof (countW_upd _ _ _ WSeen E) as X. cbn [counted] in X. rewrite Hc. f_equal. lia.
    + pose proof (countW_upd _ _ _ WAdded E) as X. cbn [counted] in X.
      pose proof (countW_le (upd (qwork s) i WAdded)) as Y. rewrite length_upd in Y.
      split; cbn [qcount qwork]; [|rewrite length_upd; exact Hl]. rewrite Hc, inc64_small' by lia. f_equal. lia.
    + split; cbn [qcount qwork]; [|rewrite length_upd; exact Hl]. rewrite Hc. f_equal.
      destruct (qflag s).
      * pose proof (countW_upd _ _ _ WLeaving E) as X. cbn [counted] in X. lia.
      * pose proof (countW_upd _ _ _ WIn E) as X. cbn [counted] in X. lia.
    + split; cbn [qcount qwork]; [|rewrite length_upd; exact Hl]. rewrite Hc. f_equal.
      pose proof (countW_upd _ _ _ WLeaving E) as X. cbn [counted] in X. lia.
    + pose proof (countW_upd _ _ _ WOut E) as X. cbn [counted] in X.
      pose proof (countW_in _ _ _ E eq_refl) as Y.
      split; cbn [qcount qwork]; [|rewrite length_upd; exact Hl]. rewrite Hc, dec64_small by lia. f_equal. lia.
  - unfold reqStep. destruct (nth_error (qreq s) j) as [[| |]|]; try (split; assumption).
    destruct (0 <? qcount s)%N; split; assumption.
Qed.

Lemma qinv_run l s : qinv s -> qinv (qrun s l).
Proof. revert s; induction l as [|a l IH]; intros s H; [exact H|]. apply IH. apply qinv_step. exact H. Qed.

Lemma qinv_init w r : (N.of_nat w < two64)%N -> qinv (qinit w r).
Proof. intros H. split; cbn [qinit qcount qwork]; [rewrite countW_repeat; reflexivity|rewrite repeat_length; exact H]. Qed.

(** ** Exclusion *)

Definition qidle (s : QState) : Prop := forall j p, nth_error (qreq s) j = Some p -> p = RIdle.

(** Only thread [j] may be asking. *)
Definition soleAsker (s : QState) (j : nat) : Prop := forall k p, nth_error (qreq s) k = Some p -> k <> j -> p = RIdle.

(** The flag tells that somebody asks, and while quiescence is held nobody is inside. *)
Definition qsafe (s : QState) : Prop :=
  (qflag s = true <-> exists j p, nth_error (qreq s) j = Some p /\ p <> RIdle) /\
  (forall j, nth_error (qreq s) j = Some RHeld -> forall i p, nth_error (qwork s) i = Some p -> p <> WIn).

(** At most one asks. *)
Definition oneAsker (s : QState) : Prop :=
  forall j k p q, nth_error (qreq s) j = Some p -> nth_error (qreq s) k = Some q -> p <> RIdle -> q <> RIdle -> j = k.

Lemma qsafe_step s a : qinv s -> qsafe s -> oneAsker s -> oneAsker (qstep s a) -> qsafe (qstep s a).
Proof.
  intros [Hc Hl] [Hf Hs] H1 H2. destruct a as [i|j]; cbn [qstep] in *.
  - unfold workStep in *. destruct (nth_error (qwork s) i) as [p|] eqn:E; [|split; assumption].
    assert (HF : forall q, (q = WIn -> qflag s = false) ->
      forall c, qsafe (mkQ (qflag s) c (upd (qwork s) i q) (qreq s))).
    { intros q Hq c. split; cbn [qflag qreq qwork]; [exact Hf|]. intros j Hj k p' Hk.
      destruct (nth_upd_inv _ _ _ _ _ Hk) as [[-> ->]|[_ Hk']].
      - intros ->. specialize (Hq eq_refl). assert (qflag s = true) by (apply Hf; exists j, RHeld; split; [exact Hj|discriminate]). congruence.
      - exact (Hs j Hj k p' Hk'). }
    destruct p; try (apply HF; discriminate).
    + destruct (qflag s) eqn:Ef; [split; [rewrite Ef; exact Hf|exact Hs]|]. apply HF. discriminate.
    + apply HF. destruct (qflag s); [discriminate|reflexivity].
  - unfold reqStep in *. destruct (nth_error (qreq s) j) as [[| |]|] eqn:E; try (split; assumption).
    + split; cbn [qflag qreq qwork].
      * split; [intros _|reflexivity]. exists j, RStored. split; [apply (nth_upd_same _ _ _ _ E)|discriminate].
      * intros k Hk. destruct (nth_upd_inv _ _ _ _ _ Hk) as [[_ X]|[_ Hk']]; [discriminate|]. exact (Hs k Hk').
    + destruct (0 <? qcount s)%N eqn:Ez; [split; assumption|].
      split; cbn [qflag qreq qwork].
      * split.
        -- intros _. exists j, RHeld. split; [apply (nth_upd_same _ _ _ _ E)|discriminate].
        -- intros _. apply Hf. exists j, RStored. split; [exact E|discriminate].
      * intros k _ i p Hi ->. pose proof (countW_in _ _ _ Hi eq_refl). lia.
    + split; cbn [qflag qreq qwork].
      * split; [discriminate|]. intros (k & p & Hk & Hp). cbn [qreq] in H2.
        destruct (nth_upd_inv _ _ _ _ _ Hk) as [[_ X]|[Hn Hk']]; [congruence|]. exfalso. apply Hn.
        apply (H1 j k RHeld p E Hk'); [discriminate|exact Hp].
      * intros k Hk. destruct (nth_upd_inv _ _ _ _ _ Hk) as [[_ X]|[Hn Hk']]; [discriminate|]. exact (Hs k Hk').
Qed.

Lemma nth_repeat_inv {A} (x y : A) n i : nth_error (repeat x n) i = Some y -> y = x.
Proof. intros H. apply nth_error_In in H. apply (repeat_spec n x y H). Qed.

Lemma qsafe_init w r : qsafe (qinit w r).
Proof.
  split; cbn [qinit qflag qreq qwork].
  - split; [discriminate|]. intros (j & p & H & Hp). apply nth_repeat_inv in H. congruence.
  - intros j H. apply nth_repeat_inv in H. discriminate.
Qed.

Lemma qsafe_run l : forall s, qinv s -> qsafe s -> (forall p, exists q, p ++ q = l -> True) ->
  (forall p q, l = p ++ q -> oneAsker (qrun s p)) -> qsafe (qrun s l).
Proof.
  induction l as [|a l IH]; intros s Hi Hs _ Ho; [exact Hs|]. cbn [qrun fold_left].
  apply (IH (qstep s a)).
  - apply qinv_step. exact Hi.
  - apply qsafe_step; [exact Hi|exact Hs|exact (Ho [] (a :: l) eq_refl)|exact (Ho [a] l eq_refl)].
  - intros p. exists []. trivial.
  - intros p q E. exact (Ho (a :: p) q (f_equal (cons a) E)).
Qed.

(** ** The request is granted *)

(** Steps a worker needs to be outside again once the flag is set. *)
Definition left_ (p : WPc) : nat := match p with WOut => 0 | WSeen => 3 | WAdded => 2 | WIn => 2 | WLeaving => 1 end.

Definition occurs (i : nat) (l : list QAct) : nat := length (filter (fun a => match a with QWork k => Nat.eqb k i | QReq _ => false end) l).

Lemma workStep_flag s k : qflag (workStep s k) = qflag s.
Proof. unfold workStep. destruct (nth_error (qwork s) k) as [[]|]; try reflexivity. destruct (qflag s) eqn:E; [exact E|reflexivity]. Qed.

Lemma workStep_req s k : qreq (workStep s k) = qreq s.
Proof. unfold workStep. destruct (nth_error (qwork s) k) as [[]|]; try reflexivity. destruct (qflag s); reflexivity. Qed.

Lemma workStep_left s k i p : qflag s = true -> nth_error (qwork s) i = Some p ->
  exists q, nth_error (qwork (workStep s k)) i = Some q /\ left_ q <= left_ p - (if k =? i then 1 else 0).
Proof.
  intros Hf Hi. unfold workStep. destruct (Nat.eqb_spec k i) as [->|Hk].
  - rewrite Hi. destruct p; rewrite ?Hf; cbn [qwork].
    + exists WOut. split; [exact Hi|cbn; lia].
    + exists WAdded. split; [apply (nth_upd_same _ _ _ _ Hi)|cbn; lia].
    + exists WLeaving. split; [apply (nth_upd_same _ _ _ _ Hi)|cbn; lia].
    + exists WLeaving. split; [apply (nth_upd_same _ _ _ _ Hi)|cbn; lia].
    + exists WOut. split; [apply (nth_upd_same _ _ _ _ Hi)|cbn; lia].
  - assert (X : nth_error (qwork (match nth_error (qwork s) k with
        | Some WOut => if qflag s then s else mkQ (qflag s) (qcount s) (upd (qwork s) k WSeen) (qreq s)
        | Some WSeen => mkQ (qflag s) (inc64 (qcount s)) (upd (qwork s) k WAdded) (qreq s)
        | Some WAdded => mkQ (qflag s) (qcount s) (upd (qwork s) k (if qflag s then WLeaving else WIn)) (qreq s)
        | Some WIn => mkQ (qflag s) (qcount s) (upd (qwork s) k WLeaving) (qreq s)
        | Some WLeaving => mkQ (qflag s) (dec64 (qcount s)) (upd (qwork s) k WOut) (qreq s)
        | None => s end)) i = Some p).
    { destruct (nth_error (qwork s) k) as [[]|]; rewrite ?Hf; cbn [qwork]; rewrite ?nth_upd_other by exact Hk; exact Hi. }
    exists p. split; [exact X|lia].
Qed.

Definition workOnly (l : list QAct) : Prop := forall a, In a l -> exists i, a = QWork i.

Lemma quiet_run l : forall s, qflag s = true -> workOnly l ->
  qflag (qrun s l) = true /\ qreq (qrun s l) = qreq s /\
  forall i p, nth_error (qwork s) i = Some p -> exists q, nth_error (qwork (qrun s l)) i = Some q /\ left_ q <= left_ p - occurs i l.
Proof.
  induction l as [|a l IH]; intros s Hf Hw.
  - split; [exact Hf|]. split; [reflexivity|]. intros i p H. exists p. split; [exact H|]. cbn. lia.
  - destruct (Hw a (or_introl eq_refl)) as [k ->]. cbn [qrun fold_left qstep].
    destruct (IH (workStep s k)) as (F & R & L).
    { rewrite workStep_flag. exact Hf. }
    { intros b Hb. apply Hw. right. exact Hb. }
    split; [exact F|]. split; [etransitivity; [exact R|apply workStep_req]|].
    intros i p Hi. destruct (workStep_left s k i p Hf Hi) as (q & Hq & Hl).
    destruct (L i q Hq) as (q' & Hq' & Hl'). exists q'. split; [exact Hq'|].
    unfold occurs in *. cbn [filter]. destruct (Nat.eqb k i); cbn [length]; lia.
Qed.

Lemma left_zero p : left_ p = 0 -> counted p = false.
Proof. destruct p; cbn; intros; congruence. Qed.

Lemma countW_zero l : (forall i p, nth_error l i = Some p -> counted p = false) -> countW l = 0.
Proof.
  induction l as [|x l IH]; intros H; [reflexivity|]. cbn [countW]. rewrite (H 0 x eq_refl).
  rewrite IH; [reflexivity|]. intros i p Hp. exact (H (S i) p Hp).
Qed.

Lemma workStep_len s k : length (qwork (workStep s k)) = length (qwork s).
Proof. unfold workStep. destruct (nth_error (qwork s) k) as [[]|]; try destruct (qflag s); cbn [qwork]; rewrite ?length_upd; reflexivity. Qed.

Lemma qrun_len l : forall s, length (qwork (qrun s l)) = length (qwork s).
Proof.
  induction l as [|a l IH]; intros s; [reflexivity|]. cbn [qrun fold_left]. etransitivity; [apply IH|].
  destruct a as [k|j]; cbn [qstep]; [apply workStep_len|]. unfold reqStep. destruct (nth_error (qreq s) j) as [[]|]; try reflexivity.
  destruct (0 <? qcount s)%N; reflexivity.
Qed.

Lemma granted_after s l j : qinv s -> qflag s = true -> nth_error (qreq s) j = Some RStored -> workOnly l ->
  (forall i, i < length (qwork s) -> 3 <= occurs i l) -> nth_error (qreq (qrun s (l ++ [QReq j]))) j = Some RHeld.
Proof.
  intros Hi Hf Hj Hw Ho. unfold qrun. rewrite fold_left_app. fold (qrun s l). cbn [fold_left qstep].
  destruct (quiet_run l s Hf Hw) as (F & R & L).
  assert (Hz : qcount (qrun s l) = 0%N).
  { destruct (qinv_run l s Hi) as [Hc _]. rewrite Hc. rewrite countW_zero; [reflexivity|].
    intros i q Hq. assert (Hl : i < length (qwork s)).
    { rewrite <- (qrun_len l s). apply nth_error_Some. congruence. }
    destruct (nth_error (qwork s) i) as [p|] eqn:E; [|apply nth_error_None in E; lia].
    destruct (L i p E) as (q' & Hq' & Hle). specialize (Ho i Hl). apply left_zero.
    assert (q' = q) by congruence. subst q'. assert (left_ p <= 3) by (destruct p; cbn; lia). lia. }
  unfold reqStep. rewrite R, Hj, Hz. cbn [N.ltb N.compare]. cbn [qreq]. apply nth_upd_same with (x := RStored). exact Hj.
Qed.
