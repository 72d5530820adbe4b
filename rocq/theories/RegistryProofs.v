From Coq Require Import List ZArith Bool Lia.
From Verif Require Import Base RegistryModel.
Import ListNotations.
Local Open Scope Z_scope.
Require Import ZifyBool ZifyNat.
Ltac Zify.zify_post_hook ::= idtac.

(** Registered: addSequences has returned (or is past its exchange) and removal has not taken effect. *)
Definition registered (p : pc) : bool := match p with In | DelCas _ _ => true | _ => false end.

Definition fresh (s : st) (p : pc) : Prop :=
  match p with
  | AddCas l v | DelCas l v => v <= ident s /\ (v = ident s -> l = cont s)
  | Again => True
  | _ => True end.

Record Inv (s : st) : Prop := {
  J_nodup : NoDup (cont s);
  J_mem : forall i, List.In i (cont s) <-> exists p, nth_error (thr s) i = Some p /\ registered p = true;
  J_thr : forall i p, nth_error (thr s) i = Some p -> fresh s p }.

Lemma In_existsb i l : existsb (Nat.eqb i) l = true <-> List.In i l.
Proof. rewrite existsb_exists. split; [intros (x & Hx & E); apply Nat.eqb_eq in E; subst; exact Hx|intros H; exists i; split; [exact H|apply Nat.eqb_refl]]. Qed.

Lemma NoDup_snoc {A} (l : list A) x : NoDup l -> ~ List.In x l -> NoDup (l ++ [x]).
Proof.
  intros H Hn. induction H as [|y l Hy Hl IH]; cbn; [constructor; [intros []|constructor]|].
  constructor; [|apply IH; intros E; apply Hn; right; exact E]. rewrite in_app_iff. intros [E|[E|[]]]; [contradiction|]. subst. apply Hn. left. reflexivity.
Qed.

Lemma Inv_step s a : Inv s -> Inv (step s a).
Proof.
  intros H. destruct a as [i weak]. unfold step. destruct (nth_error (thr s) i) as [p|] eqn:Hp; [|exact H].
  destruct H as [H1 H2 H3]. pose proof (H3 i p Hp) as F.
  assert (Keep : forall p', registered p' = registered p -> fresh s p' -> Inv {| cont := cont s; ident := ident s; thr := upd (thr s) i p' |}).
  { intros p' Er Fr. constructor; cbn; [exact H1| |].
    - intros k. rewrite (H2 k). destruct (Nat.eq_dec k i) as [->|Hn].
      + rewrite (nth_upd_same _ _ _ _ Hp). split; intros (q & E & R); [exists p'|exists p]; (split; [first [reflexivity|exact Hp]|]).
        * rewrite Hp in E; inversion E; subst; congruence.
        * inversion E; subst; congruence.
      + rewrite nth_upd_other by (intros E; apply Hn; symmetry; exact E). reflexivity.
    - intros k q Hk. apply nth_upd_inv in Hk. destruct Hk as [[_ ->]|[_ Hk]]; [exact Fr|apply (H3 k q Hk)]. }
  assert (Change : forall c p', NoDup c -> (forall k, k <> i -> (List.In k c <-> List.In k (cont s))) -> (List.In i c <-> registered p' = true) -> fresh {| cont := c; ident := ident s + 1; thr := [] |} p' ->
            Inv {| cont := c; ident := ident s + 1; thr := upd (thr s) i p' |}).
  { intros c p' Nd Ho Hi Fr. constructor; cbn; [exact Nd| |].
    - intros k. destruct (Nat.eq_dec k i) as [->|Hn].
      + rewrite Hi, (nth_upd_same _ _ _ _ Hp). split; [intros R; exists p'; auto|intros (q & E & R); inversion E; subst; exact R].
      + rewrite (Ho k Hn), (H2 k). rewrite nth_upd_other by (intros E; apply Hn; symmetry; exact E). reflexivity.
    - intros k q Hk. apply nth_upd_inv in Hk. destruct Hk as [[_ ->]|[_ Hk]].
      + destruct p'; exact Fr.
      + pose proof (H3 k q Hk) as Fq. destruct q; cbn in *; auto; split; try lia; intros; lia. }
  assert (Me : List.In i (cont s) <-> registered p = true).
  { rewrite (H2 i). split; [intros (q & E & R); rewrite Hp in E; inversion E; subst; exact R|intros R; exists p; auto]. }
  destruct p as [|l v| |l v| |]; cbn [registered] in *.
  - apply Keep; [reflexivity|cbn; split; [lia|reflexivity]].
  - destruct (negb weak && (ident s =? v)) eqn:E; [|apply Keep; [reflexivity|exact I]].
    cbn in F. destruct F as [F1 F2]. assert (v = ident s) as Ev by lia. rewrite (F2 Ev). apply Change; cbn; auto.
    + apply NoDup_snoc; [exact H1|]. intros X. apply Me in X. discriminate.
    + intros k Hk. rewrite in_app_iff. cbn. split; [intros [?|[E2|[]]]; [assumption|subst; contradiction]|auto].
    + rewrite in_app_iff. cbn. tauto.
  - destruct (existsb (Nat.eqb i) (cont s)) eqn:E; [apply Keep; [reflexivity|cbn; split; [lia|reflexivity]]|].
    exfalso. assert (List.In i (cont s)) as X by (apply Me; reflexivity). apply In_existsb in X. congruence.
  - destruct (negb weak && (ident s =? v)) eqn:E; [|apply Keep; [reflexivity|exact I]].
    cbn in F. destruct F as [F1 F2]. assert (v = ident s) as Ev by lia. rewrite (F2 Ev). apply Change; cbn; auto.
    + apply NoDup_filter, H1.
    + intros k Hk. unfold without. rewrite filter_In. apply Nat.eqb_neq in Hk. rewrite Hk. cbn. tauto.
    + unfold without. rewrite filter_In, Nat.eqb_refl. cbn. split; [intros [_ ?]; discriminate|discriminate].
  - destruct (existsb (Nat.eqb i) (cont s)) eqn:E; [|apply Keep; [reflexivity|exact I]].
    exfalso. apply In_existsb in E. apply Me in E. discriminate.
  - constructor; assumption.
Qed.

Lemma Inv_init n : Inv (init n).
Proof.
  constructor; cbn; [constructor| |].
  - intros i. split; [intros []|]. intros (p & Hp & R). apply nth_error_In, repeat_spec in Hp. subst. discriminate.
  - intros i p Hp. apply nth_error_In, repeat_spec in Hp. subst. exact I.
Qed.

Lemma reachable n sched : Inv (exec (init n) sched).
Proof.
  unfold exec. generalize (init n) (Inv_init n). induction sched as [|a l IH]; intros s H; [exact H|]. cbn [fold_left]. apply IH, Inv_step, H.
Qed.

Lemma exact_set n sched : let s := exec (init n) sched in
  NoDup (cont s) /\ forall i, List.In i (cont s) <-> exists p, nth_error (thr s) i = Some p /\ registered p = true.
Proof. intros s. destruct (reachable n sched) as [H1 H2 _]. split; assumption. Qed.

(** Solo progress: from any reachable state, a thread that runs alone without spurious failures finishes in two steps. *)
Lemma solo_add n sched i : let s := exec (init n) sched in nth_error (thr s) i = Some Out ->
  nth_error (thr (exec s [(i, false); (i, false)])) i = Some In /\ List.In i (cont (exec s [(i, false); (i, false)])).
Proof.
  intros s Hp. unfold exec. cbn [fold_left]. unfold step at 2 4. rewrite Hp. unfold step. cbn [thr ident cont].
  rewrite (nth_upd_same _ _ _ _ Hp). rewrite Z.eqb_refl. cbn [negb andb thr cont].
  split; [|apply in_or_app; right; left; reflexivity].
  eapply nth_upd_same. apply (nth_upd_same _ _ _ _ Hp).
Qed.
