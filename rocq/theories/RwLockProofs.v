From Coq Require Import List ZArith Bool Lia.
From Verif Require Import Base RwLockModel.
Import ListNotations.
Local Open Scope Z_scope.

Definition is_r (p : pc) : Z := match p with Holding READ => 1 | _ => 0 end.
Definition is_w (p : pc) : Z := match p with Holding WRITE => 1 | _ => 0 end.

Definition exp_ok (p : pc) : Prop :=
  match p with
  | TryCas READ e | LockCas READ e => 0 <= e
  | TryCas WRITE e | LockCas WRITE e => e <= 0
  | _ => True
  end.

Definition inv (s : lockst) : Prop :=
  cnt s = sumZ is_r (users s) - sumZ is_w (users s) /\
  (sumZ is_r (users s) = 0 \/ sumZ is_w (users s) = 0) /\
  (forall i p, nth_error (users s) i = Some p -> exp_ok p).

Lemma is_r_nn p : 0 <= is_r p. Proof. destruct p as [| | |[]]; simpl; lia. Qed.
Lemma is_w_nn p : 0 <= is_w p. Proof. destruct p as [| | |[]]; simpl; lia. Qed.

Lemma clamp_ok k e : match k with READ => 0 <= clamp k e | WRITE => clamp k e <= 0 end.
Proof. destruct k; simpl; [destruct (Z.ltb_spec e 0)|rewrite Z.gtb_ltb; destruct (Z.ltb_spec 0 e)]; lia. Qed.

Lemma inv_start n : inv (start n).
Proof.
  assert (Hz : forall f : pc -> Z, f Idle = 0 -> sumZ f (repeat Idle n) = 0).
  { intros f Hf; apply sumZ_zero; intros x Hx; apply repeat_spec in Hx; subst; exact Hf. }
  split; [|split]; simpl.
  - rewrite !Hz by reflexivity; lia.
  - left; apply Hz; reflexivity.
  - intros i p H. apply nth_error_In, repeat_spec in H; subst; exact I.
Qed.

Lemma exp_upd l i v : (forall j p, nth_error l j = Some p -> exp_ok p) -> exp_ok v ->
  forall j p, nth_error (upd l i v) j = Some p -> exp_ok p.
Proof. intros H Hv j p Hj. destruct (nth_upd_inv _ _ _ _ _ Hj) as [[_ ->]|[_ Hj']]; [exact Hv|exact (H _ _ Hj')]. Qed.

Lemma inv_step s ia : inv s -> inv (step s ia).
Proof.
  destruct ia as [i a]. intros (Hc & Hx & He). unfold step.
  destruct (nth_error (users s) i) as [p|] eqn:Ei; [|split; auto].
  pose proof (sumZ_nonneg is_r (users s) is_r_nn) as Hr. pose proof (sumZ_nonneg is_w (users s) is_w_nn) as Hw.
  pose proof (sumZ_ge is_r (users s) i p is_r_nn Ei) as Gr. pose proof (sumZ_ge is_w (users s) i p is_w_nn Ei) as Gw.
  assert (U : forall v c', (cnt s = sumZ is_r (users s) - sumZ is_w (users s) ->
               c' = (sumZ is_r (users s) - is_r p + is_r v) - (sumZ is_w (users s) - is_w p + is_w v)) ->
             (sumZ is_r (users s) - is_r p + is_r v = 0 \/ sumZ is_w (users s) - is_w p + is_w v = 0) -> exp_ok v ->
             inv {| cnt := c'; users := upd (users s) i v |}).
  { intros v c' H1 H2 H3. unfold inv; cbn. rewrite !(sumZ_upd _ _ _ _ _ Ei). split; [apply H1, Hc|]. split; [exact H2|].
    apply exp_upd; assumption. }
  pose proof (He _ _ Ei) as Hp.
  assert (Hinv : inv s) by (split; auto).
  destruct p as [|k e|k e|k]; destruct a as [k'|k'| |]; try exact Hinv.
  - apply U; cbn; try lia. pose proof (clamp_ok k' (cnt s)); destruct k'; assumption.
  - apply U; cbn; try lia. pose proof (clamp_ok k' (cnt s)); destruct k'; assumption.
  - destruct (Z.eqb_spec (cnt s) e) as [Hce|Hce]; [|apply U; cbn; auto; lia].
    apply U; destruct k; cbn in *; auto; lia.
  - destruct (Z.eqb_spec (cnt s) e) as [Hce|Hce].
    + apply U; destruct k; cbn in *; auto; lia.
    + apply U; cbn; try lia. pose proof (clamp_ok k (cnt s)); destruct k; assumption.
  - destruct k; exact Hinv.
  - destruct k; exact Hinv.
  - destruct k; exact Hinv.
  - destruct k; cbn in *; apply U; cbn; auto; lia.
Qed.

Lemma inv_run n sched : inv (run n sched).
Proof.
  unfold run. assert (G : forall sched s, inv s -> inv (fold_left step sched s)).
  { clear; induction sched as [|a l IH]; intros s H; [exact H|]. apply IH, inv_step, H. }
  apply G, inv_start.
Qed.

Lemma no_reader_with_writer n sched i j :
  nth_error (users (run n sched)) i = Some (Holding READ) ->
  nth_error (users (run n sched)) j = Some (Holding WRITE) -> False.
Proof.
  intros Hi Hj. destruct (inv_run n sched) as (_ & Hx & _).
  pose proof (sumZ_ge is_r _ _ _ is_r_nn Hi) as A. pose proof (sumZ_ge is_w _ _ _ is_w_nn Hj) as B.
  cbn in A, B. lia.
Qed.

Lemma counter_value n sched :
  cnt (run n sched) = sumZ is_r (users (run n sched)) - sumZ is_w (users (run n sched)).
Proof. apply inv_run. Qed.

Lemma free_when_released n sched :
  (forall i k, nth_error (users (run n sched)) i <> Some (Holding k)) -> cnt (run n sched) = 0.
Proof.
  intros H. destruct (inv_run n sched) as (Hc & _ & _). rewrite Hc.
  assert (forall f : pc -> Z, (forall p, (forall k, p <> Holding k) -> f p = 0) -> sumZ f (users (run n sched)) = 0) as Z0.
  { intros f Hf. apply sumZ_zero. intros x Hx. apply Hf. intros k ->. destruct (In_nth_error _ _ Hx) as [i Hi]. exact (H _ _ Hi). }
  rewrite !Z0; [lia| |]; intros [| | |[]] Hp; try reflexivity; exfalso; eapply Hp; reflexivity.
Qed.

Lemma two_steps s i k : nth_error (users s) i = Some Idle -> cnt s = 0 ->
  nth_error (users (step (step s (i, A_try k)) (i, A_cas))) i = Some (Holding k) /\
  nth_error (users (step (step s (i, A_lock k)) (i, A_cas))) i = Some (Holding k).
Proof.
  intros Hi Hc. unfold step at 2 4. rewrite Hi, Hc.
  assert (Hcl : clamp k 0 = 0) by (destruct k; reflexivity). rewrite Hcl.
  split; unfold step; cbn [users cnt]; rewrite (nth_upd_same _ _ _ _ Hi), Z.eqb_refl; cbn [users];
    eapply nth_upd_same; eapply nth_upd_same; exact Hi.
Qed.

Lemma acquirable n sched :
  (forall i k, nth_error (users (run n sched)) i <> Some (Holding k)) ->
  forall i k, nth_error (users (run n sched)) i = Some Idle ->
  nth_error (users (run n (sched ++ [(i, A_try k); (i, A_cas)]))) i = Some (Holding k) /\
  nth_error (users (run n (sched ++ [(i, A_lock k); (i, A_cas)]))) i = Some (Holding k).
Proof.
  intros H i k Hi. unfold run. rewrite !fold_left_app. cbn [fold_left]. fold (run n sched).
  apply two_steps; [exact Hi|]. apply free_when_released, H.
Qed.

Lemma failed_try_no_effect s i k e :
  nth_error (users s) i = Some (TryCas k e) ->
  nth_error (users (step s (i, A_cas))) i = Some Idle ->
  cnt (step s (i, A_cas)) = cnt s /\ forall j, j <> i -> nth_error (users (step s (i, A_cas))) j = nth_error (users s) j.
Proof.
  intros Hi. unfold step. rewrite Hi. destruct (cnt s =? e); cbn [users cnt].
  - rewrite (nth_upd_same _ _ _ _ Hi). discriminate.
  - intros _. split; [reflexivity|]. intros j Hj. apply nth_upd_other. congruence.
Qed.

(** A tryLock that runs without interference succeeds exactly when no opposite holder exists. *)
Lemma try_outcome n sched i k :
  nth_error (users (run n sched)) i = Some Idle ->
  (nth_error (users (run n (sched ++ [(i, A_try k); (i, A_cas)]))) i = Some (Holding k) <->
   forall j, nth_error (users (run n sched)) j <> Some (Holding (match k with READ => WRITE | WRITE => READ end))).
Proof.
  intros Hi. unfold run. rewrite fold_left_app. cbn [fold_left]. fold (run n sched).
  set (s := run n sched) in *. destruct (inv_run n sched) as (Hc & Hx & _). fold s in Hc, Hx.
  unfold step at 2. rewrite Hi. unfold step. cbn [users cnt]. rewrite (nth_upd_same _ _ _ _ Hi).
  pose proof (sumZ_nonneg is_r (users s) is_r_nn). pose proof (sumZ_nonneg is_w (users s) is_w_nn).
  assert (Hrz : forall (f : pc -> Z) kk, (forall p, p <> Holding kk -> f p = 0) -> f (Holding kk) = 1 -> (forall p, 0 <= f p) ->
            (sumZ f (users s) = 0 <-> forall j, nth_error (users s) j <> Some (Holding kk))).
  { intros f kk F0 F1 Fn. split.
    - intros Z j Hj. pose proof (sumZ_ge f _ _ _ Fn Hj). lia.
    - intros HH. apply sumZ_zero. intros x Hxx. apply F0. intros ->. destruct (In_nth_error _ _ Hxx) as [j Hj]. exact (HH _ Hj). }
  assert (Hw := Hrz is_w WRITE). assert (Hr := Hrz is_r READ).
  destruct k; cbn [clamp] in *.
  - destruct (Z.ltb_spec (cnt s) 0) as [L|L].
    + destruct (Z.eqb_spec (cnt s) 0) as [E|E]; [lia|]. cbn [users]. rewrite (nth_upd_same (upd _ _ _) i _ _ (nth_upd_same _ _ _ _ Hi)).
      split; [discriminate|]. intros HH. exfalso. apply Hw in HH; [lia| |reflexivity|exact is_w_nn].
      intros [| | |[]] Hp; try reflexivity; congruence.
    + rewrite Z.eqb_refl. cbn [users]. rewrite (nth_upd_same (upd _ _ _) i _ _ (nth_upd_same _ _ _ _ Hi)).
      split; [intros _|reflexivity]. apply Hw; [|reflexivity|exact is_w_nn|lia].
      intros [| | |[]] Hp; try reflexivity; congruence.
  - rewrite Z.gtb_ltb. destruct (Z.ltb_spec 0 (cnt s)) as [L|L].
    + destruct (Z.eqb_spec (cnt s) 0) as [E|E]; [lia|]. cbn [users]. rewrite (nth_upd_same (upd _ _ _) i _ _ (nth_upd_same _ _ _ _ Hi)).
      split; [discriminate|]. intros HH. exfalso. apply Hr in HH; [lia| |reflexivity|exact is_r_nn].
      intros [| | |[]] Hp; try reflexivity; congruence.
    + rewrite Z.eqb_refl. cbn [users]. rewrite (nth_upd_same (upd _ _ _) i _ _ (nth_upd_same _ _ _ _ Hi)).
      split; [intros _|reflexivity]. apply Hr; [|reflexivity|exact is_r_nn|lia].
      intros [| | |[]] Hp; try reflexivity; congruence.
Qed.

(** Two writers may hold the lock together. *)
Lemma two_writers : exists n sched, nth_error (users (run n sched)) 0 = Some (Holding WRITE) /\
                                    nth_error (users (run n sched)) 1 = Some (Holding WRITE).
Proof. exists 2%nat, [(0%nat, A_lock WRITE); (0%nat, A_cas); (1%nat, A_lock WRITE); (1%nat, A_cas)]. split; reflexivity. Qed.
