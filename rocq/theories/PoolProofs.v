(** Facts about the queue and the invariants of the pool. *)
From Coq Require Import ZArith Bool Arith Lia List Permutation.
From Verif Require Import Base PoolModel PoolSpec.
Import ListNotations.
Local Open Scope nat_scope.

(** * The queue *)

Lemma insertBefore_In t x q : In x (insertBefore t q) <-> x = t \/ In x q.
Proof.
  induction q as [|y r IH]; cbn [insertBefore In]; [intuition congruence|]. destruct (tprio y <? tprio t)%Z; cbn [In]; [|rewrite IH]; intuition congruence.
Qed.

Lemma push_In t x q : In x (push t q) <-> x = t \/ In x q.
Proof. unfold push. destruct (tprio t =? 0)%Z; [|apply insertBefore_In]. rewrite in_app_iff. cbn [In]. intuition congruence. Qed.

Lemma insertBefore_desc t q : descending q -> descending (insertBefore t q).
Proof.
  induction q as [|y r IH]; intros H; cbn [insertBefore]; [split; [intros x []|exact I]|]. destruct H as [H1 H2].
  destruct (Z.ltb_spec (tprio y) (tprio t)) as [L|L].
  - split; [|split; [exact H1|exact H2]]. intros x [<-|Hx]; [lia|]. specialize (H1 x Hx). lia.
  - split; [|exact (IH H2)]. intros x Hx. apply insertBefore_In in Hx as [->|Hx]; [exact L|exact (H1 x Hx)].
Qed.

Lemma app_desc q t : descending q -> (forall x, In x q -> (tprio t <= tprio x)%Z) -> descending (q ++ [t]).
Proof.
  induction q as [|y r IH]; intros H Hl; cbn [app]; [split; [intros x []|exact I]|]. destruct H as [H1 H2]. split.
  - intros x Hx. apply in_app_iff in Hx as [Hx|[<-|[]]]; [exact (H1 x Hx)|apply Hl; left; reflexivity].
  - apply IH; [exact H2|]. intros x Hx. apply Hl. right. exact Hx.
Qed.

Lemma push_desc t q : (0 <= tprio t)%Z -> (forall x, In x q -> (0 <= tprio x)%Z) -> descending q -> descending (push t q).
Proof.
  intros Ht Hq Hd. unfold push. destruct (Z.eqb_spec (tprio t) 0) as [E|E]; [|apply insertBefore_desc; exact Hd].
  apply app_desc; [exact Hd|]. intros x Hx. rewrite E. apply Hq. exact Hx.
Qed.

Lemma ofPriority_none p q : (forall x, In x q -> (tprio x < p)%Z) -> ofPriority p q = [].
Proof.
  induction q as [|y r IH]; intros H; cbn [ofPriority filter]; [reflexivity|]. pose proof (H y (or_introl eq_refl)).
  destruct (Z.eqb_spec (tprio y) p); [lia|]. apply IH. intros x Hx. apply H. right. exact Hx.
Qed.

Lemma insertBefore_same t q : descending q -> ofPriority (tprio t) (insertBefore t q) = ofPriority (tprio t) q ++ [t].
Proof.
  induction q as [|y r IH]; intros H; cbn [insertBefore]; [cbn [ofPriority filter app]; rewrite Z.eqb_refl; reflexivity|]. destruct H as [H1 H2].
  destruct (Z.ltb_spec (tprio y) (tprio t)) as [L|L].
  - assert (E : ofPriority (tprio t) (y :: r) = []). { apply ofPriority_none. intros x [<-|Hx]; [exact L|]. specialize (H1 x Hx). lia. }
    rewrite E. unfold ofPriority in *. cbn [filter] in *. rewrite Z.eqb_refl. rewrite E. reflexivity.
  - unfold ofPriority in *. cbn [filter]. destruct (tprio y =? tprio t)%Z; cbn [app]; rewrite (IH H2); reflexivity.
Qed.

Lemma insertBefore_other p t q : p <> tprio t -> ofPriority p (insertBefore t q) = ofPriority p q.
Proof.
  intros Hp. assert (E : (tprio t =? p)%Z = false) by (apply Z.eqb_neq; congruence). unfold ofPriority.
  induction q as [|y r IH]; cbn [insertBefore filter]; [rewrite E; reflexivity|]. destruct (tprio y <? tprio t)%Z; cbn [filter]; [rewrite E; reflexivity|].
  rewrite IH. reflexivity.
Qed.

Lemma push_prio p t q : descending q -> ofPriority p (push t q) = ofPriority p (q ++ [t]).
Proof.
  intros Hd. unfold push. destruct (tprio t =? 0)%Z; [reflexivity|]. unfold ofPriority at 2. rewrite filter_app. fold (ofPriority p q). cbn [filter].
  destruct (Z.eqb_spec (tprio t) p) as [<-|N]; [apply insertBefore_same; exact Hd|]. rewrite app_nil_r. apply insertBefore_other. congruence.
Qed.

Lemma ofPriority_app p a b : ofPriority p (a ++ b) = ofPriority p a ++ ofPriority p b.
Proof. apply filter_app. Qed.

Lemma createTask_plain i p : (0 <= p < 2 ^ 31)%Z -> createTask i p = mkTask i p.
Proof. intros H. unfold createTask, toInt32. destruct (Z.ltb_spec p (2 ^ 31)); [reflexivity|lia]. Qed.

Lemma serve_spec l : forall q s e, (forall i p, In (QPush i p) l -> (0 <= p < 2 ^ 31)%Z) -> descending q -> (forall x, In x q -> (0 <= tprio x)%Z) ->
  serve q l = (s, e) -> descending e /\ forall p, ofPriority p (s ++ e) = ofPriority p (q ++ given l).
Proof.
  induction l as [|a r IH]; intros q s e HP Hd H0 H; cbn [serve] in H.
  - injection H as <- <-. split; [exact Hd|]. intros p. cbn [given flat_map]. rewrite app_nil_r. reflexivity.
  - assert (HP' : forall i p, In (QPush i p) r -> (0 <= p < 2 ^ 31)%Z) by (intros i p X; exact (HP i p (or_intror X))). destruct a as [i p|].
    + pose proof (HP i p (or_introl eq_refl)) as Hp. rewrite (createTask_plain i p Hp) in H.
      destruct (IH (push (mkTask i p) q) s e HP') as [A B]; [apply push_desc; [cbn; lia|exact H0|exact Hd]| |exact H|].
      { intros x Hx. apply push_In in Hx as [->|Hx]; [cbn; lia|exact (H0 x Hx)]. }
      split; [exact A|]. intros z. rewrite (B z). unfold given. cbn [flat_map]. rewrite (ofPriority_app z (push _ _)), (push_prio z _ q Hd), <- ofPriority_app, <- app_assoc. reflexivity.
    + destruct q as [|t q']; cbn [pop] in H.
      * destruct (IH [] s e HP' Hd H0 H) as [A B]. split; [exact A|exact B].
      * destruct (serve q' r) as [s' e'] eqn:E. injection H as <- <-. destruct Hd as [D1 D2].
        destruct (IH q' s' e' HP' D2) as [A B]; [intros x Hx; apply H0; right; exact Hx|exact E|]. split; [exact A|].
        intros p. change ((t :: s') ++ e') with ([t] ++ (s' ++ e')). rewrite ofPriority_app, (B p), <- ofPriority_app. reflexivity.
Qed.

(** * Counting *)

Lemma number_upd {A} (f : A -> bool) l i x y : nth_error l i = Some x ->
  number f (upd l i y) + (if f x then 1 else 0) = number f l + (if f y then 1 else 0).
Proof.
  unfold number. revert i. induction l as [|z l IH]; intros [|i] H; try discriminate; cbn [upd filter].
  - injection H as ->. destruct (f x), (f y); cbn [length]; lia.
  - specialize (IH i H). destruct (f z); cbn [length]; lia.
Qed.

Lemma number_app {A} (f : A -> bool) a b : number f (a ++ b) = number f a + number f b.
Proof. unfold number. rewrite filter_app, app_length. reflexivity. Qed.

Lemma number_pos {A} (f : A -> bool) l : 0 < number f l -> exists i x, nth_error l i = Some x /\ f x = true.
Proof.
  unfold number. induction l as [|z l IH]; cbn [filter length]; [lia|]. destruct (f z) eqn:E; [intros _; exists 0, z; split; [reflexivity|exact E]|].
  intros H. destruct (IH H) as (i & x & P1 & P2). exists (S i), x. split; assumption.
Qed.

Lemma number_le {A} (f : A -> bool) l : number f l <= length l.
Proof. unfold number. induction l as [|z l IH]; cbn [filter length]; [lia|]. destruct (f z); cbn [length]; lia. Qed.

Lemma number_repeat {A} (f : A -> bool) x n : number f (repeat x n) = if f x then n else 0.
Proof. unfold number. induction n as [|n IH]; cbn [repeat filter]; [destruct (f x); reflexivity|]. destruct (f x); cbn [length]; lia. Qed.

Lemma number_map {A} (f : A -> bool) g l : (forall x, f (g x) = f x) -> number f (map g l) = number f l.
Proof. intros H. unfold number. induction l as [|z l IH]; cbn [map filter]; [reflexivity|]. rewrite H. destruct (f z); cbn [length]; lia. Qed.

Lemma flat_upd {A B} (h : A -> list B) l i x y : nth_error l i = Some x ->
  Permutation (flat_map h (upd l i y) ++ h x) (flat_map h l ++ h y).
Proof.
  revert i. induction l as [|z l IH]; intros [|i] H; try discriminate; cbn [upd flat_map].
  - injection H as ->. rewrite <- !app_assoc. rewrite (Permutation_app_comm (h y)), (Permutation_app_comm (h x)), <- !app_assoc.
    apply Permutation_app_head. apply Permutation_app_comm.
  - rewrite <- !app_assoc. apply Permutation_app_head. apply IH. exact H.
Qed.
