(** What the pool's own threads can still do. *)
From Coq Require Import ZArith Bool Arith Lia List Permutation.
From Verif Require Import Base PoolModel PoolSpec PoolProofs PoolInvProofs.
Import ListNotations.
Local Open Scope nat_scope.

Lemma run_app l1 : forall p p1 l2 p2, run p l1 = Some p1 -> run p1 l2 = Some p2 -> run p (l1 ++ l2) = Some p2.
Proof.
  induction l1 as [|a r IH]; intros p p1 l2 p2 H1 H2; cbn [run app] in *; [injection H1 as ->; exact H2|]. destruct (step p a) as [q|]; [|discriminate]. exact (IH q p1 l2 p2 H1 H2).
Qed.

Lemma ofWorkers_app a b : ofWorkers a -> ofWorkers b -> ofWorkers (a ++ b).
Proof. intros A B x Hx. apply in_app_iff in Hx as [Hx|Hx]; [exact (A x Hx)|exact (B x Hx)]. Qed.

(** How far a worker is from taking a task. *)
Definition rank (n : nat) (w : WPhase) : nat :=
  match w with
  | WPop => 0 | WCheck => 1 | WOut => 2 | WIn _ => 3 | WBegin _ => 4 | WTook _ => 5 | WIdle => 2 | WAsleep => 2 | WDozing => 3 | WLook => 4
  | WShrink m => if m =? n then 1 else 2
  | _ => 0
  end.

Lemma to_pop n : forall p i w, Inv p -> pshut p = false -> 1 <= pmin p -> nth_error (pwork p) i = Some w -> alive w = true -> rank (pthreads p) w <= n ->
  exists l p' mid, ofWorkers l /\ run p l = Some p' /\ pqueue p' = pqueue p /\ pstarted p' = pstarted p ++ mid /\ pshut p' = false /\ pmin p' = pmin p /\
    (nth_error (pwork p') i = Some WPop \/ (pthreads p' < pthreads p /\ 1 <= pthreads p')).
Proof.
  induction n as [|n IH]; intros p i w HI HS HM Hw Ha Hr.
  - destruct w as [|t|t|t| | | | | | |m| | |]; cbn [rank] in Hr; try lia; try discriminate.
    + exists [], p, []. rewrite app_nil_r. repeat split; try assumption; try reflexivity; [intros a []|left; exact Hw].
    + destruct (m =? pthreads p); lia.
  - assert (GO : forall c q w' mid, step p (AWork i c) = Some q -> nth_error (pwork q) i = Some w' -> alive w' = true -> pshut q = false -> pmin q = pmin p -> pqueue q = pqueue p ->
      pstarted q = pstarted p ++ mid -> pthreads q = pthreads p -> rank (pthreads p) w' <= n ->
      exists l p' mid, ofWorkers l /\ run p l = Some p' /\ pqueue p' = pqueue p /\ pstarted p' = pstarted p ++ mid /\ pshut p' = false /\ pmin p' = pmin p /\
        (nth_error (pwork p') i = Some WPop \/ (pthreads p' < pthreads p /\ 1 <= pthreads p'))).
    { intros c q w' mid Hq Hw' Ha' S1 S2 S3 S4 S5 R. destruct (IH q i w' (step_inv p _ q HI Hq) S1) as (l & p' & mid' & A & B & C & D & E & F & G); [lia|exact Hw'|exact Ha'|rewrite S5; exact R|].
      exists (AWork i c :: l), p', (mid ++ mid'). split; [intros a [<-|X]; [exists i, c; reflexivity|exact (A a X)]|]. split; [cbn [run]; rewrite Hq; exact B|].
      split; [congruence|]. split; [rewrite D, S4, app_assoc; reflexivity|]. split; [exact E|]. split; [congruence|]. rewrite S5 in G. exact G. }
    assert (NU : forall v, nth_error (upd (pwork p) i v) i = Some v) by (intros v; exact (nth_upd_same _ i v _ Hw)).
    destruct w as [|t|t|t| | | | | | |m| | |]; try discriminate; cbn [rank] in Hr.
    + exists [], p, []. rewrite app_nil_r. repeat split; try assumption; try reflexivity; [intros a []|left; exact Hw].
    + apply (GO false (setW (setQueued p (pqueued p - 1)) i (WBegin t)) (WBegin t) []); try assumption; try reflexivity; cbn [step]; unfold workerStep; rewrite ?Hw; try reflexivity; [apply NU|symmetry; apply app_nil_r|cbn [rank]; lia].
    + apply (GO false (setW (started (setRunning p (S (prunning p))) t) i (WIn t)) (WIn t) [t]); try assumption; try reflexivity; cbn [step]; unfold workerStep; rewrite ?Hw; try reflexivity; [apply NU|cbn [rank]; lia].
    + apply (GO false (setW p i WOut) WOut []); try assumption; try reflexivity; cbn [step]; unfold workerStep; rewrite ?Hw; try reflexivity; [apply NU|symmetry; apply app_nil_r|cbn [rank]; lia].
    + apply (GO false (setW (setRunning p (prunning p - 1)) i WCheck) WCheck []); try assumption; try reflexivity; cbn [step]; unfold workerStep; rewrite ?Hw; try reflexivity; [apply NU|symmetry; apply app_nil_r|cbn [rank]; lia].
    + apply (GO false (setW p i WCheck) WCheck []); try assumption; try reflexivity; cbn [step]; unfold workerStep; rewrite ?Hw; try reflexivity; [apply NU|symmetry; apply app_nil_r|cbn [rank]; lia].
    + set (v := if (0 <? pqueued p) || pshut p then WCheck else WDozing). assert (Hv : alive v = true /\ rank (pthreads p) v <= 3) by (unfold v; destruct ((0 <? pqueued p) || pshut p); cbn; split; (reflexivity || lia)). destruct Hv as [V1 V2].
      apply (GO false (setW p i v) v []); try assumption; try reflexivity; cbn [step]; unfold workerStep; rewrite ?Hw; try reflexivity; [apply NU|symmetry; apply app_nil_r|lia].
    + apply (GO false (setW p i WAsleep) WAsleep []); try assumption; try reflexivity; cbn [step]; unfold workerStep; rewrite ?Hw; try reflexivity; [apply NU|symmetry; apply app_nil_r|cbn [rank]; lia].
    + apply (GO true (setW p i WCheck) WCheck []); try assumption; try reflexivity; cbn [step]; unfold workerStep; rewrite ?Hw; try reflexivity; [apply NU|symmetry; apply app_nil_r|cbn [rank]; lia].
    + apply (GO false (setW p i WPop) WPop []); try assumption; try reflexivity; cbn [step]; unfold workerStep; rewrite ?Hw, ?HS; try reflexivity; [apply NU|symmetry; apply app_nil_r|cbn [rank]; lia].
    + destruct (Nat.leb_spec m (pmin p)) as [L|L].
      * apply (GO false (setW p i WPop) WPop []); try assumption; try reflexivity; cbn [step]; unfold workerStep; rewrite ?Hw; try reflexivity; [|apply NU|symmetry; apply app_nil_r|cbn [rank]; lia].
        apply Nat.leb_le in L. rewrite L. reflexivity.
      * destruct (Nat.eqb_spec m (pthreads p)) as [E|E].
        -- exists [AWork i false], (setW (setThreads p (m - 1)) i (if m =? 1 then WClear1 else WGone)), []. split; [intros a [<-|[]]; exists i, false; reflexivity|].
           split. { cbn [run step]. unfold workerStep. rewrite Hw. destruct (Nat.leb_spec m (pmin p)); [lia|]. rewrite (proj2 (Nat.eqb_eq (pthreads p) m) (eq_sym E)). reflexivity. }
           split; [reflexivity|]. split; [symmetry; apply app_nil_r|]. split; [exact HS|]. split; [reflexivity|]. right. cbn [setW setThreads pthreads]. lia.
        -- apply (GO false (setW p i (WShrink (pthreads p))) (WShrink (pthreads p)) []); try assumption; try reflexivity; cbn [step]; unfold workerStep; rewrite ?Hw; try reflexivity; [|apply NU|symmetry; apply app_nil_r|cbn [rank]; rewrite Nat.eqb_refl; lia].
           destruct (Nat.leb_spec m (pmin p)); [lia|]. destruct (Nat.eqb_spec (pthreads p) m); [congruence|]. reflexivity.
Qed.

(** From every such state the first task of the queue can still be started by the pool's own threads. *)
Lemma never_stuck n : forall p t q, Inv p -> pshut p = false -> 1 <= pmin p -> 1 <= pthreads p <= n -> pqueue p = t :: q ->
  exists l p' mid, ofWorkers l /\ run p l = Some p' /\ pstarted p' = pstarted p ++ mid ++ [t].
Proof.
  induction n as [|n IH]; intros p t q HI HS HM HT HQ; [lia|].
  assert (HP : 0 < number alive (pwork p)) by (rewrite <- (iv_threads p HI); lia).
  destruct (number_pos alive (pwork p) HP) as (i & w & Hw & Ha).
  destruct (to_pop (rank (pthreads p) w) p i w HI HS HM Hw Ha (le_n _)) as (l & p1 & mid & A & B & C & D & E & F & [G|[G1 G2]]).
  - rewrite HQ in C. set (p2 := setW (setQueue p1 q) i (WTook t)). set (p3 := setW (setQueued p2 (pqueued p2 - 1)) i (WBegin t)). set (p4 := setW (started (setRunning p3 (S (prunning p3))) t) i (WIn t)).
    assert (S1 : step p1 (AWork i false) = Some p2) by (cbn [step]; unfold workerStep; rewrite G, C; reflexivity).
    assert (N2 : nth_error (pwork p2) i = Some (WTook t)) by (unfold p2; cbn [setW setQueue pwork]; exact (nth_upd_same _ i _ _ G)).
    assert (S2 : step p2 (AWork i false) = Some p3) by (cbn [step]; unfold workerStep; rewrite N2; reflexivity).
    assert (N3 : nth_error (pwork p3) i = Some (WBegin t)) by (unfold p3; cbn [setW setQueued pwork]; exact (nth_upd_same _ i _ _ N2)).
    assert (S3 : step p3 (AWork i false) = Some p4) by (cbn [step]; unfold workerStep; rewrite N3; reflexivity).
    exists (l ++ [AWork i false; AWork i false; AWork i false]), p4, mid. split; [|split].
    + apply ofWorkers_app; [exact A|]. intros a [<-|[<-|[<-|[]]]]; exists i, false; reflexivity.
    + apply (run_app l p p1 _ p4 B). cbn [run]. rewrite S1, S2, S3. reflexivity.
    + transitivity (pstarted p1 ++ [t]); [reflexivity|]. rewrite D, app_assoc. reflexivity.
  - destruct (IH p1 t q) as (l2 & p2 & mid2 & A2 & B2 & C2).
    + exact (run_inv l p p1 HI B).
    + exact E.
    + lia.
    + lia.
    + congruence.
    + exists (l ++ l2), p2, (mid ++ mid2). split; [apply ofWorkers_app; assumption|]. split; [exact (run_app l p p1 l2 p2 B B2)|]. rewrite C2, D, <- !app_assoc. reflexivity.
Qed.

(** ** Leaving after a shutdown *)

Definition left (w : WPhase) : nat :=
  match w with
  | WPop => 8 | WTook _ => 7 | WBegin _ => 6 | WIn _ => 5 | WOut => 4 | WCheck => 3 | WClear1 => 2 | WClear2 => 1 | WGone => 0
  | WIdle => 5 | WLook => 4 | WAsleep => 5 | WDozing => 6 | WShrink _ => 0
  end.

Definition shrinking (w : WPhase) : bool := match w with WShrink _ => true | _ => false end.

Lemma shut_step p a p' i w : step p a = Some p' -> pshut p = true -> nth_error (pwork p) i = Some w -> shrinking w = false ->
  exists w', nth_error (pwork p') i = Some w' /\ shrinking w' = false /\ pshut p' = true /\ left w' <= left w /\ (forall c, a = AWork i c -> left w' < left w).
Proof.
  intros H HS Hw Hn. destruct a as [k c|j t k| | |mn mx]; cbn [step] in H.
  - unfold workerStep in H. destruct (Nat.eq_dec k i) as [->|Hk].
    + rewrite Hw in H. assert (NU : forall v, nth_error (upd (pwork p) i v) i = Some v) by (intros v; exact (nth_upd_same _ i v _ Hw)).
      destruct w as [|t|t|t| | | | | | |m| | |]; try discriminate; rewrite ?HS in H.
      * destruct (pqueue p) as [|t q]; cbn [pop] in H; injection H as <-; eexists; (split; [apply NU|]; split; [reflexivity|]; split; [exact HS|]; cbn [left]; split; [lia|intros; lia]).
      * injection H as <-; eexists; (split; [apply NU|]; split; [reflexivity|]; split; [exact HS|]; cbn [left]; split; [lia|intros; lia]).
      * injection H as <-; eexists; (split; [apply NU|]; split; [reflexivity|]; split; [exact HS|]; cbn [left]; split; [lia|intros; lia]).
      * injection H as <-; eexists; (split; [apply NU|]; split; [reflexivity|]; split; [exact HS|]; cbn [left]; split; [lia|intros; lia]).
      * injection H as <-; eexists; (split; [apply NU|]; split; [reflexivity|]; split; [exact HS|]; cbn [left]; split; [lia|intros; lia]).
      * destruct c; injection H as <-; eexists; (split; [apply NU|]; split; [reflexivity|]; split; [exact HS|]; cbn [left]; split; [lia|intros; lia]).
      * rewrite orb_true_r in H. injection H as <-; eexists; (split; [apply NU|]; split; [reflexivity|]; split; [exact HS|]; cbn [left]; split; [lia|intros; lia]).
      * injection H as <-; eexists; (split; [apply NU|]; split; [reflexivity|]; split; [exact HS|]; cbn [left]; split; [lia|intros; lia]).
      * destruct c; injection H as <-; eexists; (split; [apply NU|]; split; [reflexivity|]; split; [exact HS|]; cbn [left]; split; [lia|intros; lia]).
      * destruct (pthreads p =? 1); injection H as <-; eexists; (split; [apply NU|]; split; [reflexivity|]; split; [exact HS|]; cbn [left]; split; [lia|intros; lia]).
      * injection H as <-; eexists; (split; [apply NU|]; split; [reflexivity|]; split; [exact HS|]; cbn [left]; split; [lia|intros; lia]).
      * injection H as <-; eexists; (split; [apply NU|]; split; [reflexivity|]; split; [exact HS|]; cbn [left]; split; [lia|intros; lia]).
    + exists w. assert (NO : forall v, nth_error (upd (pwork p) k v) i = Some w) by (intros v; rewrite nth_upd_other by exact Hk; exact Hw).
      assert (Q : nth_error (pwork p') i = Some w /\ pshut p' = true).
      { destruct (nth_error (pwork p) k) as [u|]; [|discriminate]. destruct u as [|t|t|t| | | | | | |m| | |]; try discriminate; try (injection H as <-; split; [apply NO|exact HS]).
        - destruct (pop (pqueue p)) as [[t q]|]; injection H as <-; (split; [apply NO|exact HS]).
        - destruct (pshut p) eqn:Z; [|discriminate]. injection H as <-. split; [apply NO|exact Z].
        - destruct (m <=? pmin p); [injection H as <-; split; [apply NO|exact HS]|]. destruct ((pthreads p =? m) && negb c); injection H as <-; (split; [apply NO|exact HS]). }
      destruct Q as [Q1 Q2]. split; [exact Q1|]. split; [exact Hn|]. split; [exact Q2|]. split; [lia|]. intros c' X. congruence.
  - unfold submitStep in H. destruct (nth_error (psub p) j) as [x|]; [|discriminate].
    assert (SAME : pwork p' = pwork p -> pshut p' = true -> exists w', nth_error (pwork p') i = Some w' /\ shrinking w' = false /\ pshut p' = true /\ left w' <= left w /\ (forall c, ASubmit j t k = AWork i c -> left w' < left w)).
    { intros E1 E2. exists w. rewrite E1. repeat split; try assumption; try lia. discriminate. }
    destruct x as [|u| | | | |n|]; try (injection H as <-; apply SAME; [reflexivity|exact HS]).
    + unfold notifyOne in H. destruct (nth_error (pwork p) k) as [v|] eqn:Ek; [destruct v|];
        try (destruct (existsb asleep (pwork p)); [discriminate|]; injection H as <-; apply SAME; [reflexivity|exact HS]).
      injection H as <-. destruct (Nat.eq_dec k i) as [->|Hk].
      * exists WLook. cbn [setS setW pwork pshut]. split; [exact (nth_upd_same _ i _ _ Hw)|]. split; [reflexivity|]. split; [exact HS|]. assert (w = WAsleep) as -> by congruence. cbn [left]. split; [lia|discriminate].
      * exists w. cbn [setS setW pwork pshut]. rewrite nth_upd_other by exact Hk. repeat split; try assumption; try lia. discriminate.
    + injection H as <-. exists w. cbn [setS createWorker pwork pshut]. rewrite nth_error_app1 by (apply nth_error_Some; congruence). repeat split; try assumption; try lia. discriminate.
  - injection H as <-. exists w. cbn [pwork pshut]. repeat split; try assumption; try lia. discriminate.
  - injection H as <-. cbn [notifyAll pwork pshut]. exists (if asleep w then WLook else w). rewrite nth_error_map, Hw. split; [reflexivity|]. destruct w; cbn [asleep shrinking left] in *; repeat split; try assumption; try lia; try discriminate.
  - destruct ((mn =? 0) || (mx <? mn)); [discriminate|]. injection H as <-. exists w. cbn [pwork pshut]. repeat split; try assumption; try lia. discriminate.
Qed.

Lemma shut_run l : forall p p' i w, run p l = Some p' -> pshut p = true -> nth_error (pwork p) i = Some w -> shrinking w = false ->
  exists w', nth_error (pwork p') i = Some w' /\ shrinking w' = false /\ left w' + turnsOf i l <= left w.
Proof.
  induction l as [|a r IH]; intros p p' i w H HS Hw Hn; cbn [run] in H; [injection H as <-; exists w; cbn; repeat split; try assumption; lia|].
  destruct (step p a) as [q|] eqn:E; [|discriminate]. destruct (shut_step p a q i w E HS Hw Hn) as (v & A & B & C & D & F).
  destruct (IH q p' i v H C A B) as (w' & A' & B' & C'). exists w'. split; [exact A'|]. split; [exact B'|]. unfold turnsOf in *. cbn [filter].
  destruct a as [k c| | | |]; try lia. destruct (Nat.eqb_spec k i) as [->|Hk]; [|lia]. cbn [length]. specialize (F c eq_refl). lia.
Qed.

(** ** Joining *)

Lemma joinAll_ok n : joinAll (repeat true n) = Some (repeat false n).
Proof. induction n as [|n IH]; [reflexivity|]. cbn [repeat joinAll]. rewrite IH. reflexivity. Qed.

(** ** Affinity *)

Lemma distributeFrom_spec st mask : forall i n c, st <> 0 -> i < st ->
  nth_error (distributeFrom st i n mask) c = Some true <-> (nth_error mask c = Some true /\ (n + number (fun b => b) (firstn c mask)) mod st = i).
Proof.
  induction mask as [|b r IH]; intros i n c Hs Hi; cbn [distributeFrom]; [destruct c; cbn; intuition discriminate|].
  destruct b, c as [|c]; cbn [nth_error firstn].
  - change (number (fun b => b) []) with 0. rewrite Nat.add_0_r. destruct (Nat.eqb_spec (n mod st) i); intuition congruence.
  - rewrite (IH i (S n) c Hs Hi). unfold number. cbn [filter length]. rewrite Nat.add_succ_r. reflexivity.
  - intuition discriminate.
  - rewrite (IH i n c Hs Hi). reflexivity.
Qed.

Lemma distributeFrom_len st mask : forall i n, length (distributeFrom st i n mask) = length mask.
Proof. induction mask as [|b r IH]; intros i n; [reflexivity|]. destruct b; cbn [distributeFrom length]; rewrite IH; reflexivity. Qed.

Lemma distributeFrom_none st mask : forall i n, st <> 0 -> st <= i -> forall c, nth_error (distributeFrom st i n mask) c <> Some true.
Proof.
  induction mask as [|b r IH]; intros i n Hs Hi c; cbn [distributeFrom]; [destruct c; discriminate|]. destruct b, c as [|c]; cbn [nth_error]; try (apply IH; assumption); try discriminate.
  pose proof (Nat.mod_upper_bound n st Hs). destruct (Nat.eqb_spec (n mod st) i); [lia|discriminate].
Qed.

(** ** At least one thread *)

Lemma one_step p a p' : step p a = Some p' -> Kept p -> a <> AShutdown -> 1 <= pthreads p -> 1 <= pthreads p'.
Proof.
  intros H [K1 K2 K3 K4] Ha HT. destruct a as [i c|j t k| | |mn mx]; cbn [step] in H; [| |congruence| |].
  - unfold workerStep in H. destruct (nth_error (pwork p) i) as [w|] eqn:E; [|discriminate]. destruct w as [|t|t|t| | | | | | |n| | |]; try discriminate; try (injection H as <-; exact HT).
    + destruct (pop (pqueue p)) as [[t q]|]; injection H as <-; exact HT.
    + rewrite K1 in H. injection H as <-. exact HT.
    + destruct (Nat.leb_spec n (pmin p)); [injection H as <-; exact HT|]. destruct ((pthreads p =? n) && negb c); injection H as <-; [|exact HT]. cbn [setW setThreads pthreads]. lia.
  - unfold submitStep in H. destruct (nth_error (psub p) j) as [x|] eqn:E; [|discriminate]. destruct x; try (injection H as <-; exact HT).
    + unfold notifyOne in H. destruct (nth_error (pwork p) k) as [w|]; [destruct w|]; try (destruct (existsb asleep (pwork p)); [discriminate|]); injection H as <-; exact HT.
    + injection H as <-. cbn [setS createWorker pthreads]. lia.
  - injection H as <-. exact HT.
  - destruct ((mn =? 0) || (mx <? mn)); [discriminate|]. injection H as <-. exact HT.
Qed.

Lemma one_run l : forall p p', run p l = Some p' -> Kept p -> noShutdown l -> 1 <= pthreads p -> 1 <= pthreads p'.
Proof.
  induction l as [|a r IH]; intros p p' H HK HN HT; cbn [run] in H; [injection H as <-; exact HT|]. destruct (step p a) as [q|] eqn:E; [|discriminate].
  assert (Ha : a <> AShutdown) by (intros ->; apply HN; left; reflexivity).
  apply (IH q p' H); [exact (kept_step p a q HK Ha E)|intros X; apply HN; right; exact X|exact (one_step p a q E HK Ha HT)].
Qed.

(** A worker that looks at the counter goes to sleep only if it reads zero. *)
Lemma doze_step p a p' i : step p a = Some p' -> nth_error (pwork p') i = Some WDozing -> nth_error (pwork p) i = Some WDozing \/ pqueued p = 0.
Proof.
  intros H Hd. destruct a as [k c|j t k| | |mn mx]; cbn [step] in H.
  - unfold workerStep in H. destruct (nth_error (pwork p) k) as [w|] eqn:E; [|discriminate].
    assert (G : forall v, nth_error (upd (pwork p) k v) i = Some WDozing -> nth_error (pwork p) i = Some WDozing \/ v = WDozing) by (intros v X; apply nth_upd_inv in X as [[_ X]|[_ X]]; [right; congruence|left; exact X]).
    destruct w as [|t|t|t| | | | | | |n| | |]; try discriminate.
    + destruct (pop (pqueue p)) as [[t q]|]; injection H as <-; (destruct (G _ Hd) as [X|X]; [left; exact X|discriminate]).
    + injection H as <-; (destruct (G _ Hd) as [X|X]; [left; exact X|discriminate]).
    + injection H as <-; (destruct (G _ Hd) as [X|X]; [left; exact X|discriminate]).
    + injection H as <-; (destruct (G _ Hd) as [X|X]; [left; exact X|discriminate]).
    + injection H as <-; (destruct (G _ Hd) as [X|X]; [left; exact X|discriminate]).
    + injection H as <-; (destruct (G _ Hd) as [X|X]; [left; exact X|destruct c; discriminate]).
    + injection H as <-. destruct (G _ Hd) as [X|X]; [left; exact X|]. right. destruct (Nat.ltb_spec 0 (pqueued p)); [discriminate|lia].
    + injection H as <-; (destruct (G _ Hd) as [X|X]; [left; exact X|discriminate]).
    + injection H as <-; (destruct (G _ Hd) as [X|X]; [left; exact X|destruct c; discriminate]).
    + destruct (pshut p); injection H as <-; (destruct (G _ Hd) as [X|X]; [left; exact X|]); [destruct (pthreads p =? 1)|destruct c]; discriminate.
    + destruct (n <=? pmin p); [injection H as <-; (destruct (G _ Hd) as [X|X]; [left; exact X|discriminate])|]. destruct ((pthreads p =? n) && negb c); injection H as <-; (destruct (G _ Hd) as [X|X]; [left; exact X|]); [destruct (n =? 1)|]; discriminate.
    + injection H as <-; (destruct (G _ Hd) as [X|X]; [left; exact X|discriminate]).
    + injection H as <-; (destruct (G _ Hd) as [X|X]; [left; exact X|discriminate]).
  - unfold submitStep in H. destruct (nth_error (psub p) j) as [x|]; [|discriminate]. destruct x; try (injection H as <-; left; exact Hd).
    + unfold notifyOne in H. destruct (nth_error (pwork p) k) as [w|]; [destruct w|]; try (destruct (existsb asleep (pwork p)); [discriminate|]; injection H as <-; left; exact Hd).
      injection H as <-. cbn [setS setW pwork] in Hd. apply nth_upd_inv in Hd as [[_ X]|[_ X]]; [discriminate|left; exact X].
    + injection H as <-. cbn [setS createWorker pwork] in Hd. left. destruct (Nat.lt_ge_cases i (length (pwork p))) as [L|L]; [rewrite nth_error_app1 in Hd by exact L; exact Hd|].
      rewrite nth_error_app2 in Hd by exact L. destruct (i - length (pwork p)) as [|[|z]]; discriminate.
  - injection H as <-. left. exact Hd.
  - injection H as <-. cbn [notifyAll pwork] in Hd. rewrite nth_error_map in Hd. destruct (nth_error (pwork p) i) as [v|]; [|discriminate]. destruct v; cbn in Hd; try discriminate. left. reflexivity.
  - destruct ((mn =? 0) || (mx <? mn)); [discriminate|]. injection H as <-. left. exact Hd.
Qed.

Lemma doze_run l : forall p p' i, run p l = Some p' -> Inv p -> pdropped p <> [] -> nth_error (pwork p') i = Some WDozing -> nth_error (pwork p) i = Some WDozing.
Proof.
  induction l as [|a r IH]; intros p p' i H HI HD Hd; cbn [run] in H; [injection H as <-; exact Hd|]. destruct (step p a) as [q|] eqn:E; [|discriminate].
  assert (L : 0 < length (pdropped p)) by (destruct (pdropped p); [congruence|cbn; lia]).
  assert (X : nth_error (pwork q) i = Some WDozing).
  { apply (IH q p' i H (step_inv p a q HI E)); [|exact Hd]. pose proof (dropped_step p a q E). intros Z. rewrite Z in *. cbn in *. lia. }
  destruct (doze_step p a q i E X) as [Y|Y]; [exact Y|]. rewrite (iv_queued p HI) in Y. lia.
Qed.
