From Coq Require Import List ZArith Bool Lia.
From Verif Require Import Base RingModel RingArithProofs MpmcModel.
Import ListNotations.
Local Open Scope Z_scope.
Require Import ZifyBool ZifyNat.
Ltac Zify.zify_post_hook ::= idtac.

Section Proofs.
Context {V : Type}.
Implicit Types (s : st V).
Variable N : Z.
Hypothesis HN : 0 < N <= limit.

Lemma mod_inj' a b : a mod N = b mod N -> -N < a - b < N -> a = b.
Proof.
  intros E H. pose proof (Z.div_mod a N ltac:(lia)) as A1. pose proof (Z.div_mod b N ltac:(lia)) as A2. rewrite E in A1.
  assert (a / N = b / N) by (clear E; nia). congruence.
Qed.
Lemma mod_gap a b : a mod N = b mod N -> a < b -> a + N <= b.
Proof. intros E H. destruct (Z.le_gt_cases (a + N) b); [assumption|]. exfalso. apply mod_inj' in E; lia. Qed.

Lemma setf_same {B} (f : Z -> B) i v : setf f i v i = v.
Proof. unfold setf. rewrite Z.eqb_refl. reflexivity. Qed.
Lemma setf_other {B} (f : Z -> B) i v j : j <> i -> setf f i v j = f j.
Proof. unfold setf. intros H. apply Z.eqb_neq in H. rewrite H. reflexivity. Qed.

(** Positions a producer may still write or mark. *)
Definition owns (p : pst) (q : Z) : Prop :=
  match p with
  | PWrite base n _ => base <= q < base + n
  | PMark base k j => base + j <= q < base + k
  | _ => False
  end.

(** A producer that is certain to look at the head of the unpublished region again. *)
Definition resp (av : Z -> Z) (p : pst) : Prop :=
  match p with
  | PMark _ _ _ | PLoadPub | PCasPub _ _ => True
  | PWalk c nx => c < nx \/ av (c mod N) = c
  | _ => False
  end.

Definition pinv s (p : pst) : Prop :=
  match p with
  | PIdle | PLoadPub => True
  | PLoadRes n => 1 <= n <= N
  | PCheck n cur => 1 <= n <= N /\ 0 <= cur <= limit
  | PScan n cur j m => 1 <= n <= N /\ 0 <= cur <= limit /\
      match m with Some x => (0 < j)%nat /\ 0 <= x <= limit /\ forall k r, (k < j)%nat -> nth_error (rds s) k = Some r -> x <= rcur r | None => j = 0%nat end
  | PStoreMin n cur m => 1 <= n <= N /\ 0 <= cur <= limit /\ 0 <= m <= limit /\ forall r, In r (rds s) -> m <= rcur r
  | PCas n cur => 1 <= n <= N /\ 0 <= cur <= limit /\ forall r, In r (rds s) -> cur + n - rcur r <= N
  | PWrite base n j => 0 <= j <= n /\ 1 <= n /\ 0 <= base /\ base + n <= resv s /\
      (forall q, base <= q < base + n -> marked s q = false) /\ (forall q, base <= q < base + j -> val s q <> None)
  | PMark base k j => 0 <= j < k /\ 0 <= base /\ base + k <= resv s /\
      (forall q, base + j <= q < base + k -> marked s q = false) /\ (forall q, base + j <= q < base + k -> val s q <> None)
  | PWalk c nx => 0 <= c <= pubc s /\ c <= nx <= c + N /\ forall q, c <= q < nx -> marked s q = true
  | PCasPub c nx => 0 <= c <= pubc s /\ c < nx <= c + N /\ forall q, c <= q < nx -> marked s q = true
  end.

Fixpoint chain (top : Z) (l : list (Z * Z)) : Prop :=
  match l with [] => top = 0 | (b, n) :: t => b + n = top /\ 1 <= n <= N /\ chain b t end.

Record Inv s : Prop := {
  I_cur : 0 <= pubc s <= resv s /\ resv s <= limit;
  I_rd : rds s <> [];
  I_rds : forall r, In r (rds s) -> 0 <= rcur r <= rseen r /\ rseen r <= pubc s /\ 0 <= rspan r <= rseen r - rcur r /\ resv s - rcur r <= N;
  I_cmin : 0 <= cmin s <= limit /\ forall r, In r (rds s) -> cmin s <= rcur r;
  I_pub : forall q, 0 <= q < pubc s -> marked s q = true;
  I_marked : forall q, marked s q = true -> 0 <= q < resv s /\ q <= avail s (q mod N) < resv s /\ val s q <> None;
  I_avail : forall i, 0 <= i < N -> avail s i = slotInit \/ (marked s (avail s i) = true /\ avail s i mod N = i);
  I_prods : forall i p, nth_error (prods s) i = Some p -> pinv s p;
  I_disj : forall i j p1 p2 q, i <> j -> nth_error (prods s) i = Some p1 -> nth_error (prods s) j = Some p2 -> owns p1 q -> owns p2 q -> False;
  I_own : holes s = false -> forall q, 0 <= q < resv s -> marked s q = true \/ exists i p, nth_error (prods s) i = Some p /\ owns p q;
  I_val : forall q, resv s <= q -> val s q = None;
  I_mem : forall r q, In r (rds s) -> rcur r <= q < resv s -> val s q <> None -> mem s (q mod N) = val s q;
  I_resp : avail s (pubc s mod N) = pubc s -> exists i p, nth_error (prods s) i = Some p /\ resp (avail s) p;
  I_cas : forall i c nx, nth_error (prods s) i = Some (PCasPub c nx) -> c = pubc s -> avail s (nx mod N) = nx ->
          exists j p, j <> i /\ nth_error (prods s) j = Some p /\ resp (avail s) p;
  I_claims : chain (resv s) (claims s);
  I_log : forall r q v, In (r, q, v) (log s) -> marked s q = true /\ v = val s q /\ v <> None /\ 0 <= q < pubc s }.

Lemma rds_nonempty s : Inv s -> exists r, In r (rds s).
Proof. intros H. pose proof (I_rd s H). destruct (rds s); [contradiction|]. eexists; left; reflexivity. Qed.

Lemma room s : Inv s -> resv s <= pubc s + N.
Proof. intros H. destruct (rds_nonempty s H) as [r Hr]. destruct (I_rds s H r Hr) as (A1 & A2 & A3 & A4). lia. Qed.

Lemma avail_head s q : Inv s -> pubc s <= q -> marked s q = true -> avail s (q mod N) = q.
Proof.
  intros H L M. destruct (I_marked s H q M) as (B1 & B2 & _). pose proof (room s H) as R.
  destruct (Z.eq_dec (avail s (q mod N)) q) as [E|E]; [exact E|].
  destruct (I_avail s H (q mod N)) as [E2|[M2 E2]]; [apply Z.mod_pos_bound; lia| |].
  - exfalso. unfold slotInit, limit in *. destruct (I_cur s H) as [_ C]. unfold limit in C. lia.
  - pose proof (mod_gap q (avail s (q mod N)) (eq_sym E2)). lia.
Qed.

Lemma avail_lt s q : Inv s -> 0 <= q < slotInit -> avail s (q mod N) = q -> marked s q = true.
Proof.
  intros H L E. destruct (I_avail s H (q mod N)) as [E2|[M2 _]]; [apply Z.mod_pos_bound; lia|lia|congruence].
Qed.

(** Changing one producer's program counter (and possibly admitting holes). *)
Lemma Inv_setp s i p p' hl : Inv s -> nth_error (prods s) i = Some p ->
  pinv s p' -> (forall q, owns p' q -> owns p q) -> (holes s = true -> hl = true) ->
  (hl = false -> forall q, owns p q -> owns p' q \/ marked s q = true) ->
  (resp (avail s) p -> avail s (pubc s mod N) = pubc s -> resp (avail s) p') ->
  (forall c nx, p' = PCasPub c nx -> c = pubc s -> avail s (nx mod N) <> nx) ->
  Inv {| mem := mem s; avail := avail s; resv := resv s; pubc := pubc s; cmin := cmin s; rds := rds s; prods := upd (prods s) i p';
         val := val s; marked := marked s; log := log s; claims := claims s; holes := hl |}.
Proof.
  intros H Hp Hi Ho Hh Hl Hr Hc.
  assert (Same : forall j x, nth_error (upd (prods s) i p') j = Some x -> (j = i /\ x = p') \/ (j <> i /\ nth_error (prods s) j = Some x)).
  { intros j x Hj. apply nth_upd_inv in Hj. destruct Hj as [[E ->]|[E Hj]]; [left; auto|right; split; [intros E2; apply E; symmetry; exact E2|exact Hj]]. }
  destruct H. constructor; cbn [mem avail resv pubc cmin rds prods val marked log claims holes]; auto.
  - intros j x Hj. destruct (Same j x Hj) as [[-> ->]|[Hn Hj']]; [exact Hi|apply (I_prods0 j x Hj')].
  - intros j k p1 p2 q Hn H1 H2 O1 O2. destruct (Same _ _ H1) as [[-> ->]|[N1 H1']]; destruct (Same _ _ H2) as [[-> ->]|[N2 H2']].
    + contradiction.
    + eapply (I_disj0 i k p p2 q); eauto.
    + eapply (I_disj0 j i p1 p q); eauto.
    + eapply (I_disj0 j k p1 p2 q); eauto.
  - intros E q Hq. assert (E2 : holes s = false) by (destruct (holes s); [specialize (Hh eq_refl); congruence|reflexivity]).
    destruct (I_own0 E2 q Hq) as [M|(j & x & Hj & O)]; [left; exact M|].
    destruct (Nat.eq_dec j i) as [->|Hn].
    + rewrite Hp in Hj; inversion Hj; subst x. destruct (Hl E q O) as [O'|M]; [|left; exact M].
      right. exists i, p'. split; [apply (nth_upd_same _ _ _ _ Hp)|exact O'].
    + right. exists j, x. split; [rewrite nth_upd_other by (intros E3; apply Hn; symmetry; exact E3); exact Hj|exact O].
  - intros E. destruct (I_resp0 E) as (j & x & Hj & R). destruct (Nat.eq_dec j i) as [->|Hn].
    + rewrite Hp in Hj; inversion Hj; subst x. exists i, p'. split; [apply (nth_upd_same _ _ _ _ Hp)|apply Hr; assumption].
    + exists j, x. split; [rewrite nth_upd_other by (intros E3; apply Hn; symmetry; exact E3); exact Hj|exact R].
  - intros j c nx Hj Ec Ea. destruct (Same _ _ Hj) as [[-> Ep]|[Hn Hj']].
    + exfalso. apply (Hc c nx (eq_sym Ep) Ec Ea).
    + destruct (I_cas0 j c nx Hj' Ec Ea) as (k & x & Hk & Hx & R).
      destruct (Nat.eq_dec k i) as [->|Hki].
      * rewrite Hp in Hx; inversion Hx; subst x. exists i, p'. split; [exact Hk|]. split; [apply (nth_upd_same _ _ _ _ Hp)|].
        apply Hr; [exact R|].
        (* the head is marked because the stalled publisher walked over it *)
        pose proof (I_prods0 j _ Hj') as (W1 & W2 & W3). subst c.
        assert (Hh2 : Inv s) by (constructor; auto).
        apply (avail_head s (pubc s) Hh2); [lia|]. apply W3. lia.
      * exists k, x. split; [exact Hk|]. split; [rewrite nth_upd_other by (intros E3; apply Hki; symmetry; exact E3); exact Hx|exact R].
Qed.

Lemma Inv_setp' s i p p' : Inv s -> nth_error (prods s) i = Some p ->
  pinv s p' -> (forall q, owns p' q <-> owns p q) ->
  (resp (avail s) p -> avail s (pubc s mod N) = pubc s -> resp (avail s) p') ->
  (forall c nx, p' = PCasPub c nx -> c = pubc s -> avail s (nx mod N) <> nx) -> Inv (setp s i p').
Proof.
  intros H Hp Hi Ho Hr Hc. unfold setp. eapply Inv_setp; eauto.
  - intros q. apply Ho.
  - intros _ q O. left. apply Ho, O.
Qed.

(** Producer-independent view of [pinv]: stable under reader progress and cursor growth. *)
Lemma pinv_mono s s' p : pinv s p ->
  (forall k r', nth_error (rds s') k = Some r' -> exists r, nth_error (rds s) k = Some r /\ rcur r <= rcur r') ->
  pubc s <= pubc s' -> resv s <= resv s' ->
  (forall q, marked s q = true -> marked s' q = true) -> (forall q, owns p q -> marked s' q = marked s q) ->
  (forall q, val s q <> None -> val s' q <> None) -> pinv s' p.
Proof.
  intros H Hr Hp Hre Hm Hm2 Hv.
  assert (Hin : forall r', In r' (rds s') -> exists r, In r (rds s) /\ rcur r <= rcur r').
  { intros r' Hr'. destruct (In_nth_error _ _ Hr') as [k Hk]. destruct (Hr k r' Hk) as (r & E & L). exists r. split; [eapply nth_error_In; exact E|exact L]. }
  destruct p; cbn [pinv owns] in *; auto.
  - destruct H as (H1 & H2 & H3). split; [exact H1|]. split; [exact H2|]. destruct m as [x|]; [|exact H3]. destruct H3 as (H3 & H4 & H5).
    split; [exact H3|]. split; [exact H4|]. intros k r' Hk Hr'. destruct (Hr k r' Hr') as (r & E & L). specialize (H5 k r Hk E). lia.
  - destruct H as (H1 & H2 & H3 & H4). repeat (split; [assumption|]). intros r' Hr'. destruct (Hin r' Hr') as (r & E & L). specialize (H4 r E). lia.
  - destruct H as (H1 & H2 & H4). repeat (split; [assumption|]). intros r' Hr'. destruct (Hin r' Hr') as (r & E & L). specialize (H4 r E). lia.
  - destruct H as (H1 & H2 & H3 & H4 & H5 & H6). repeat (split; [first [assumption|lia]|]). split.
    + intros q Hq. rewrite Hm2 by exact Hq. apply H5, Hq.
    + intros q Hq. apply Hv, H6, Hq.
  - destruct H as (H1 & H2 & H3 & H4 & H5). repeat (split; [first [assumption|lia]|]). split.
    + intros q Hq. rewrite Hm2 by exact Hq. apply H4, Hq.
    + intros q Hq. apply Hv, H5, Hq.
  - destruct H as (H1 & H2 & H3). split; [lia|]. split; [lia|]. auto.
  - destruct H as (H1 & H2 & H3). split; [lia|]. split; [lia|]. auto.
Qed.

Lemma wsub_bound a b : 0 <= a <= 2 * limit -> 0 <= b <= limit -> wsub a b <= N -> a - b <= N.
Proof.
  intros Ha Hb H. unfold wsub, limit in *. destruct (Z.lt_ge_cases (a - b) 0) as [L|L]; [lia|].
  rewrite Z.mod_small in H by lia. exact H.
Qed.

(** Reader steps. *)
Lemma Inv_reader s r x x' : Inv s -> nth_error (rds s) r = Some x ->
  rcur x <= rcur x' -> rcur x' <= rseen x' -> rseen x' <= pubc s -> 0 <= rspan x' <= rseen x' - rcur x' -> Inv (setrd s r x').
Proof.
  intros H Hx L1 L2 L3 L4. pose proof H as H0. destruct H.
  assert (Hin : forall y, In y (upd (rds s) r x') -> exists z, In z (rds s) /\ rcur z <= rcur y /\ (y = x' \/ y = z)).
  { intros y Hy. destruct (In_nth_error _ _ Hy) as [k Hk]. apply nth_upd_inv in Hk. destruct Hk as [[_ ->]|[_ Hk]].
    - exists x. split; [eapply nth_error_In; exact Hx|]. split; [exact L1|left; reflexivity].
    - exists y. split; [eapply nth_error_In; exact Hk|]. split; [lia|right; reflexivity]. }
  constructor; unfold setrd; cbn [mem avail resv pubc cmin rds prods val marked log claims holes] in *; auto.
  - destruct (rds s); [contradiction|]. destruct r; discriminate.
  - intros y Hy. destruct (Hin y Hy) as (z & Hz & L & [-> | ->]); [|apply I_rds0, Hz].
    pose proof (I_rds0 _ Hz). pose proof (I_rds0 _ (nth_error_In _ _ Hx)). lia.
  - split; [apply I_cmin0|]. intros y Hy. destruct (Hin y Hy) as (z & Hz & L & _). destruct I_cmin0 as [_ C]. specialize (C z Hz). lia.
  - intros i p Hp. eapply pinv_mono; [apply (I_prods0 i p Hp)| | | | | |]; cbn [pubc resv marked val rds]; auto; try lia.
    intros k r' Hk. apply nth_upd_inv in Hk. destruct Hk as [[-> ->]|[_ Hk]]; [exists x; auto|exists r'; split; [exact Hk|lia]].
  - intros y q Hy Hq Hv. destruct (Hin y Hy) as (z & Hz & L & _). apply (I_mem0 z q Hz); [lia|exact Hv].
Qed.

Lemma slotInit_big : limit < slotInit. Proof. unfold limit, slotInit. lia. Qed.

Lemma Inv_pstep s i p : Inv s -> nth_error (prods s) i = Some p -> Inv (pstep N s i p).
Proof.
  intros H Hp. pose proof (I_prods s H i p Hp) as Pi. pose proof (I_cur s H) as Cu. pose proof (room s H) as Rm.
  destruct p as [|n|n cur|n cur j m|n cur m|n cur|base n j|base k j| |c nx|c nx]; cbn [pstep]; try exact H.
  - (* PLoadRes *) eapply Inv_setp'; eauto; cbn [pinv owns resp] in *; try tauto; try lia; intros; discriminate.
  - (* PCheck *)
    destruct Pi as [Pn Pc]. destruct (Z.ltb_spec N (wsub (cur + n) (cmin s))) as [L|L].
    + eapply Inv_setp'; eauto; cbn [pinv owns resp] in *; try tauto; intros; discriminate.
    + eapply Inv_setp'; eauto; cbn [pinv owns resp] in *; try tauto; try (intros; discriminate).
      split; [exact Pn|]. split; [exact Pc|]. destruct (I_cmin s H) as [C1 C2].
      assert (B : cur + n - cmin s <= N) by (apply wsub_bound; [unfold limit in *; lia|lia|exact L]).
      intros r Hr. specialize (C2 r Hr). lia.
  - (* PScan *)
    destruct Pi as (Pn & Pc & Pm). destruct (nth_error (rds s) j) as [r|] eqn:Er.
    + eapply Inv_setp'; eauto; cbn [pinv owns resp] in *; try tauto; try (intros; discriminate).
      split; [exact Pn|]. split; [exact Pc|]. pose proof (I_rds s H r (nth_error_In _ _ Er)) as Rr.
      destruct m as [x|].
      * destruct Pm as (P1 & P2 & P3). split; [lia|]. split; [lia|]. intros k r' Hk Hr'.
        destruct (Nat.eq_dec k j) as [->|Hne]; [rewrite Er in Hr'; inversion Hr'; subst; lia|].
        assert (Hkj : (k < j)%nat) by lia. specialize (P3 k r' Hkj Hr'). lia.
      * subst j. split; [lia|]. split; [lia|]. intros k r' Hk Hr'. assert (k = 0%nat) as -> by lia. rewrite Er in Hr'; inversion Hr'; subst; lia.
    + eapply Inv_setp'; eauto; cbn [pinv owns resp] in *; try tauto; try (intros; discriminate).
      split; [exact Pn|]. split; [exact Pc|]. apply nth_error_None in Er. destruct m as [x|].
      * destruct Pm as (P1 & P2 & P3). split; [exact P2|]. intros r Hr. destruct (In_nth_error _ _ Hr) as [k Hk].
        apply (P3 k r); [|exact Hk]. assert (k < length (rds s))%nat by (apply nth_error_Some; congruence). lia.
      * subst j. pose proof (I_rd s H). destruct (rds s); [contradiction|]. cbn in Er. lia.
  - (* PStoreMin *)
    destruct Pi as (Pn & Pc & Pm & Pr).
    assert (H1 : Inv {| mem := mem s; avail := avail s; resv := resv s; pubc := pubc s; cmin := m; rds := rds s; prods := prods s;
                   val := val s; marked := marked s; log := log s; claims := claims s; holes := holes s |}).
    { destruct H. constructor; cbn [mem avail resv pubc cmin rds prods val marked log claims holes]; auto. }
    destruct (Z.ltb_spec N (wsub (cur + n) m)) as [L|L]; (eapply Inv_setp'; [exact H1|exact Hp| | | |]); cbn [pinv owns resp] in *; try tauto; try (intros; discriminate).
    split; [exact Pn|]. split; [exact Pc|]. assert (B : cur + n - m <= N) by (apply wsub_bound; [unfold limit in *; lia|lia|exact L]).
    cbn [rds]. intros r Hr. specialize (Pr r Hr). lia.
  - (* PCas *)
    destruct Pi as (Pn & Pc & Pr). destruct ((resv s =? cur) && (cur + n <=? limit)) eqn:E.
    + assert (E1 : resv s = cur) by lia. assert (E2 : cur + n <= limit) by lia. clear E.
      assert (Fresh : forall q, cur <= q -> marked s q = false).
      { intros q Hq. destruct (marked s q) eqn:M; [|reflexivity]. destruct (I_marked s H q M). lia. }
      pose proof H as H0. destruct H.
      assert (Same : forall k x, nth_error (upd (prods s) i (PWrite cur n 0)) k = Some x -> (k = i /\ x = PWrite cur n 0) \/ (k <> i /\ nth_error (prods s) k = Some x)).
      { intros k x Hk. apply nth_upd_inv in Hk. destruct Hk as [[E ->]|[E Hk]]; [left; auto|right; split; [intros E3; apply E; symmetry; exact E3|exact Hk]]. }
      assert (OwnLt : forall k x q, nth_error (prods s) k = Some x -> owns x q -> q < cur).
      { intros k x q Hk O. pose proof (I_prods0 k x Hk) as P. destruct x; cbn [owns pinv] in *; try contradiction; lia. }
      constructor; cbn [mem avail resv pubc cmin rds prods val marked log claims holes]; auto.
      * lia.
      * intros r Hr. pose proof (I_rds0 r Hr) as (A1 & A2 & A3 & A4). specialize (Pr r Hr). repeat split; lia.
      * intros q M. pose proof (I_marked0 q M) as (M1 & M2 & M3). repeat split; try lia. exact M3.
      * intros k x Hk. destruct (Same k x Hk) as [[-> ->]|[Hn Hk']].
        -- cbn [pinv resv marked val]. repeat split; try lia. intros q Hq. apply Fresh; lia.
        -- eapply pinv_mono; [apply (I_prods0 k x Hk')| | | | | |]; cbn [rds pubc resv marked val]; auto; try lia.
           intros k0 r' Hr'. exists r'. split; [exact Hr'|lia].
      * intros a b p1 p2 q Hab H1 H2 O1 O2. destruct (Same _ _ H1) as [[-> ->]|[N1 H1']]; destruct (Same _ _ H2) as [[-> ->]|[N2 H2']].
        -- contradiction.
        -- pose proof (OwnLt _ _ _ H2' O2). cbn [owns] in O1. lia.
        -- pose proof (OwnLt _ _ _ H1' O1). cbn [owns] in O2. lia.
        -- eapply (I_disj0 a b); eauto.
      * intros Eh q Hq. destruct (Z.lt_ge_cases q cur) as [L|L].
        -- destruct (I_own0 Eh q) as [M|(k & x & Hk & O)]; [lia|left; exact M|].
           right. exists k, x. split; [|exact O]. rewrite nth_upd_other; [exact Hk|]. intros <-. rewrite Hp in Hk. inversion Hk; subst x. destruct O.
        -- right. exists i, (PWrite cur n 0). split; [apply (nth_upd_same _ _ _ _ Hp)|]. cbn [owns]. lia.
      * intros q Hq. apply I_val0. lia.
      * intros r q Hr Hq Hv. apply (I_mem0 r q Hr); [|exact Hv]. split; [lia|]. destruct (Z.lt_ge_cases q (resv s)); [assumption|]. exfalso. apply Hv, I_val0. lia.
      * intros Ea. destruct (I_resp0 Ea) as (k & x & Hk & R). exists k, x. split; [|exact R].
        rewrite nth_upd_other; [exact Hk|]. intros <-. rewrite Hp in Hk. inversion Hk; subst x. destruct R.
      * intros k c nx Hk Ec Ea. destruct (Same _ _ Hk) as [[_ Ep]|[Hn Hk']]; [discriminate|].
        destruct (I_cas0 k c nx Hk' Ec Ea) as (k2 & x & Hk2 & Hx & R). exists k2, x. split; [exact Hk2|]. split; [|exact R].
        rewrite nth_upd_other; [exact Hx|]. intros <-. rewrite Hp in Hx. inversion Hx; subst x. destruct R.
      * cbn [chain]. split; [reflexivity|]. split; [lia|]. rewrite <- E1. exact I_claims0.
    + eapply Inv_setp'; eauto; cbn [pinv owns resp] in *; try tauto; intros; discriminate.
  - (* PMark *)
    destruct Pi as (Pj & Pb & Pr & Pm & Pv). rewrite !calcIndex_mod. set (q0 := base + j).
    assert (U0 : marked s q0 = false) by (apply Pm; lia).
    assert (Q0 : 0 <= q0 < resv s) by lia.
    assert (Qp : pubc s <= q0).
    { destruct (Z.lt_ge_cases q0 (pubc s)); [|assumption]. rewrite (I_pub s H q0) in U0 by lia. discriminate. }
    set (p' := if j + 1 <? k then PMark base k (j + 1) else PLoadPub).
    assert (Rp : forall av, resp av p') by (intros av; unfold p'; destruct (j + 1 <? k); exact I).
    assert (Op : forall q, owns p' q <-> owns (PMark base k j) q /\ q <> q0).
    { intros q. unfold p', q0. destruct (Z.ltb_spec (j + 1) k); cbn [owns]; lia. }
    assert (Mono : forall q, marked s q = true -> setf (marked s) q0 true q = true).
    { intros q M. destruct (Z.eq_dec q q0) as [->|Hne]; [apply setf_same|rewrite setf_other by exact Hne; exact M]. }
    pose proof H as H0. destruct H.
    assert (Same : forall a x, nth_error (upd (prods s) i p') a = Some x -> (a = i /\ x = p') \/ (a <> i /\ nth_error (prods s) a = Some x)).
    { intros a x Hk. apply nth_upd_inv in Hk. destruct Hk as [[E ->]|[E Hk]]; [left; auto|right; split; [intros E3; apply E; symmetry; exact E3|exact Hk]]. }
    constructor; cbn [mem avail resv pubc cmin rds prods val marked log claims holes]; auto.
    + intros q M. destruct (Z.eq_dec q q0) as [->|Hne].
      * rewrite setf_same. repeat split; try lia. apply Pv. lia.
      * rewrite setf_other in M by exact Hne. pose proof (I_marked0 q M) as (M1 & M2 & M3). split; [exact M1|]. split; [|exact M3].
        destruct (Z.eq_dec (q mod N) (q0 mod N)) as [E|E]; [|rewrite setf_other by exact E; exact M2].
        rewrite E, setf_same. destruct (Z.lt_ge_cases q q0); [lia|]. pose proof (mod_gap q0 q (eq_sym E) ltac:(lia)). lia.
    + intros a Ha. destruct (Z.eq_dec a (q0 mod N)) as [->|E].
      * right. rewrite setf_same. split; [apply setf_same|reflexivity].
      * rewrite setf_other by exact E. destruct (I_avail0 a Ha) as [A1|[A1 A2]]; [left; exact A1|right; split; [apply Mono, A1|exact A2]].
    + intros a x Ha. destruct (Same a x Ha) as [[-> ->]|[Hn Ha']].
      * unfold p'. destruct (Z.ltb_spec (j + 1) k); cbn [pinv marked val resv]; [|exact I].
        repeat split; try lia. { intros q Hq. rewrite setf_other by lia. apply Pm; lia. } intros q Hq. apply Pv; lia.
      * eapply pinv_mono; [apply (I_prods0 a x Ha')| | | | | |]; cbn [rds pubc resv marked val]; auto; try lia.
        -- intros k0 r' Hr'. exists r'. split; [exact Hr'|lia].
        -- intros q O. apply setf_other. intros ->. eapply (I_disj0 a i x (PMark base k j) q0); eauto. cbn [owns]. lia.
    + intros a b p1 p2 q Hab H1 H2 O1 O2. destruct (Same _ _ H1) as [[-> ->]|[N1 H1']]; destruct (Same _ _ H2) as [[-> ->]|[N2 H2']].
      * contradiction.
      * apply Op in O1. eapply (I_disj0 i b); eauto. apply O1.
      * apply Op in O2. eapply (I_disj0 a i); eauto. apply O2.
      * eapply (I_disj0 a b); eauto.
    + intros Eh q Hq. destruct (I_own0 Eh q Hq) as [M|(a & x & Ha & O)]; [left; apply Mono, M|].
      destruct (Z.eq_dec q q0) as [->|Hne]; [left; apply setf_same|]. right. destruct (Nat.eq_dec a i) as [->|Hai].
      * rewrite Hp in Ha; inversion Ha; subst x. exists i, p'. split; [apply (nth_upd_same _ _ _ _ Hp)|]. apply Op. auto.
      * exists a, x. split; [|exact O]. rewrite nth_upd_other; [exact Ha|]. intros E; apply Hai; symmetry; exact E.
    + intros _. exists i, p'. split; [apply (nth_upd_same _ _ _ _ Hp)|apply Rp].
    + intros a c nx Ha _ _. destruct (Same _ _ Ha) as [[-> Ep]|[Hn _]].
      * exfalso. unfold p' in Ep. destruct (j + 1 <? k); discriminate.
      * exists i, p'. split; [intros E; apply Hn; symmetry; exact E|]. split; [apply (nth_upd_same _ _ _ _ Hp)|apply Rp].
    + intros r q v Hl. destruct (I_log0 r q v Hl) as (L1 & L2 & L3 & L4). auto.
  - (* PLoadPub *)
    eapply Inv_setp'; eauto; cbn [pinv owns resp] in *; try tauto; try (intros; discriminate). repeat split; try lia.
  - (* PWalk *)
    destruct Pi as (Pc & Pn & Pm). rewrite calcIndex_mod. destruct ((nx - c <? N) && (avail s (nx mod N) =? nx)) eqn:E.
    + assert (E1 : nx - c < N) by lia. assert (E2 : avail s (nx mod N) = nx) by lia.
      eapply Inv_setp'; eauto; cbn [pinv owns resp] in *; try tauto; try (intros; discriminate).
      * repeat split; try lia. intros q Hq. destruct (Z.eq_dec q nx) as [->|]; [|apply Pm; lia].
        apply (avail_lt s nx H); [|exact E2]. pose proof slotInit_big. pose proof (proj2 Cu).
        destruct (Z.lt_ge_cases nx slotInit); [lia|]. exfalso. unfold limit, slotInit in *. lia.
      * lia.
    + destruct (Z.eqb_spec nx c) as [->|Hne].
      * assert (E2 : avail s (c mod N) <> c) by lia.
        eapply Inv_setp'; eauto; cbn [pinv owns resp] in *; try tauto; try (intros; discriminate). lia.
      * eapply Inv_setp'; eauto; cbn [pinv owns resp] in *; try tauto.
        -- repeat split; try lia. exact Pm.
        -- intros c' nx' Ep Ec Ea. inversion Ep; subst c' nx'. assert (nx = c + N) by lia.
           assert (M : marked s nx = true).
           { apply (avail_lt s nx H); [|exact Ea]. pose proof (proj2 Cu). unfold limit, slotInit in *. lia. }
           destruct (I_marked s H nx M). lia.
  - (* PCasPub *)
    destruct Pi as (Pc & Pn & Pm). destruct (Z.eqb_spec (pubc s) c) as [E|E].
    + pose proof H as H0. destruct H.
      assert (Same : forall a x, nth_error (upd (prods s) i PIdle) a = Some x -> (a = i /\ x = PIdle) \/ (a <> i /\ nth_error (prods s) a = Some x)).
      { intros a x Hk. apply nth_upd_inv in Hk. destruct Hk as [[E3 ->]|[E3 Hk]]; [left; auto|right; split; [intros E4; apply E3; symmetry; exact E4|exact Hk]]. }
      assert (Nr : nx <= resv s).
      { assert (marked s (nx - 1) = true) by (apply Pm; lia). pose proof (I_marked0 (nx - 1) H). lia. }
      constructor; cbn [mem avail resv pubc cmin rds prods val marked log claims holes]; auto.
      * lia.
      * intros r Hr. pose proof (I_rds0 r Hr) as (A1 & A2 & A3 & A4). repeat split; lia.
      * intros q Hq. destruct (Z.lt_ge_cases q (pubc s)); [apply I_pub0; lia|apply Pm; lia].
      * intros a x Ha. destruct (Same a x Ha) as [[-> ->]|[Hn Ha']]; [exact I|].
        eapply pinv_mono; [apply (I_prods0 a x Ha')| | | | | |]; cbn [rds pubc resv marked val]; auto; try lia.
        intros k0 r' Hr'. exists r'. split; [exact Hr'|lia].
      * intros a b p1 p2 q Hab H1 H2 O1 O2. destruct (Same _ _ H1) as [[-> ->]|[N1 H1']]; destruct (Same _ _ H2) as [[-> ->]|[N2 H2']]; try contradiction.
        eapply (I_disj0 a b); eauto.
      * intros Eh q Hq. destruct (I_own0 Eh q Hq) as [M|(a & x & Ha & O)]; [left; exact M|]. right. exists a, x. split; [|exact O].
        rewrite nth_upd_other; [exact Ha|]. intros <-. rewrite Hp in Ha; inversion Ha; subst x. destruct O.
      * intros Ea. destruct (I_cas0 i c nx Hp (eq_sym E) Ea) as (a & x & Hai & Ha & R). exists a, x. split; [|exact R].
        rewrite nth_upd_other; [exact Ha|]. intros E4; apply Hai; symmetry; exact E4.
      * intros a c' nx' Ha Ec Ea. destruct (Same _ _ Ha) as [[_ Ep]|[Hn Ha']]; [discriminate|].
        pose proof (I_prods0 a _ Ha') as (W1 & _). lia.
      * intros r q v Hl. destruct (I_log0 r q v Hl) as (L1 & L2 & L3 & L4). repeat split; auto; lia.
    + eapply Inv_setp'; eauto; cbn [pinv owns resp] in *; try tauto; intros; discriminate.
Qed.

Theorem Inv_step s a : Inv s -> Inv (step N s a).
Proof.
  intros H. destruct a as [i n|i|i v|i k|r|r n|r j|r k]; cbn [step].
  - destruct (nth_error (prods s) i) as [[]|] eqn:Hp; try exact H. destruct ((0 <? n) && (n <=? N)) eqn:E; [|exact H].
    eapply Inv_setp'; eauto; cbn [pinv owns resp] in *; try tauto; try lia; intros; discriminate.
  - destruct (nth_error (prods s) i) as [p|] eqn:Hp; [|exact H]. apply Inv_pstep; assumption.
  - (* write *)
    destruct (nth_error (prods s) i) as [[| | | | | |base n j| | | |]|] eqn:Hp; try exact H.
    destruct (Z.ltb_spec j n) as [L|L]; [|exact H].
    pose proof (I_prods s H i _ Hp) as (P1 & P2 & P3 & P4 & P5 & P6). rewrite calcIndex_mod. set (q0 := base + j).
    assert (U0 : marked s q0 = false) by (apply P5; lia).
    pose proof H as H0. destruct H.
    assert (Same : forall a x, nth_error (upd (prods s) i (PWrite base n (j + 1))) a = Some x -> (a = i /\ x = PWrite base n (j + 1)) \/ (a <> i /\ nth_error (prods s) a = Some x)).
    { intros a x Hk. apply nth_upd_inv in Hk. destruct Hk as [[E3 ->]|[E3 Hk]]; [left; auto|right; split; [intros E4; apply E3; symmetry; exact E4|exact Hk]]. }
    assert (Vmono : forall q, val s q <> None -> setf (val s) q0 (Some v) q <> None).
    { intros q Hv. destruct (Z.eq_dec q q0) as [->|Hne]; [rewrite setf_same; discriminate|rewrite setf_other by exact Hne; exact Hv]. }
    constructor; cbn [mem avail resv pubc cmin rds prods val marked log claims holes]; auto.
    + intros q M. pose proof (I_marked0 q M) as (M1 & M2 & M3). repeat split; try lia. apply Vmono, M3.
    + intros a x Ha. destruct (Same a x Ha) as [[-> ->]|[Hn Ha']].
      * cbn [pinv marked val resv]. repeat split; try lia; [exact P5|]. intros q Hq. destruct (Z.eq_dec q q0) as [->|Hne]; [rewrite setf_same; discriminate|].
        rewrite setf_other by exact Hne. apply P6. unfold q0 in *. lia.
      * eapply pinv_mono; [apply (I_prods0 a x Ha')| | | | | |]; cbn [rds pubc resv marked val]; auto; try lia.
        intros k0 r' Hr'. exists r'. split; [exact Hr'|lia].
    + intros a b p1 p2 q Hab H1 H2 O1 O2. destruct (Same _ _ H1) as [[-> ->]|[N1 H1']]; destruct (Same _ _ H2) as [[-> ->]|[N2 H2']].
      * contradiction.
      * eapply (I_disj0 i b); eauto.
      * eapply (I_disj0 a i); eauto.
      * eapply (I_disj0 a b); eauto.
    + intros Eh q Hq. destruct (I_own0 Eh q Hq) as [M|(a & x & Ha & O)]; [left; exact M|]. right.
      destruct (Nat.eq_dec a i) as [->|Hai].
      * rewrite Hp in Ha; inversion Ha; subst x. exists i, (PWrite base n (j + 1)). split; [apply (nth_upd_same _ _ _ _ Hp)|exact O].
      * exists a, x. split; [|exact O]. rewrite nth_upd_other; [exact Ha|]. intros E4; apply Hai; symmetry; exact E4.
    + intros q Hq. rewrite setf_other by lia. apply I_val0, Hq.
    + intros r q Hr Hq Hv. destruct (Z.eq_dec q q0) as [->|Hne]; [rewrite !setf_same; reflexivity|].
      rewrite (setf_other (val s)) in * by exact Hne. rewrite setf_other.
      * apply (I_mem0 r q Hr Hq Hv).
      * intros E. apply Hne. apply mod_inj'; [exact E|]. pose proof (I_rds0 r Hr) as (A1 & A2 & A3 & A4).
        assert (rcur r <= q0); [|lia]. destruct (Z.lt_ge_cases q0 (pubc s)) as [Lp|Lp]; [|lia]. rewrite (I_pub0 q0) in U0 by lia. discriminate.
    + intros Ea. destruct (I_resp0 Ea) as (a & x & Ha & R). exists a, x. split; [|exact R].
      rewrite nth_upd_other; [exact Ha|]. intros <-. rewrite Hp in Ha. inversion Ha; subst x. destruct R.
    + intros a c nx Ha Ec Ea. destruct (Same _ _ Ha) as [[_ Ep]|[Hn Ha']]; [discriminate|].
      destruct (I_cas0 a c nx Ha' Ec Ea) as (b & x & Hb & Hx & R). exists b, x. split; [exact Hb|]. split; [|exact R].
      rewrite nth_upd_other; [exact Hx|]. intros <-. rewrite Hp in Hx. inversion Hx; subst x. destruct R.
    + intros r q w Hl. destruct (I_log0 r q w Hl) as (L1 & L2 & L3 & L4). rewrite setf_other; auto. intros ->. congruence.
  - (* publish *)
    destruct (nth_error (prods s) i) as [[| | | | | |base n j| | | |]|] eqn:Hp; try exact H.
    destruct ((j =? n) && (0 <=? k) && (k <=? n)) eqn:E; [|exact H].
    pose proof (I_prods s H i _ Hp) as (P1 & P2 & P3 & P4 & P5 & P6).
    eapply (Inv_setp s i (PWrite base n j)); auto.
    + destruct (Z.eqb_spec k 0); cbn [pinv]; [exact I|]. repeat split; try lia; intros q Hq; [apply P5|apply P6]; lia.
    + intros q. destruct (k =? 0); cbn [owns]; [tauto|lia].
    + intros ->. reflexivity.
    + intros Eh q O. cbn [owns] in O. left. assert (k = n) by lia. subst k. destruct (Z.eqb_spec n 0); cbn [owns]; lia.
    + intros [].
    + intros c nx Ep. destruct (k =? 0); discriminate.
  - destruct (nth_error (rds s) r) as [x|] eqn:Hx; [|exact H]. pose proof (I_rds s H x (nth_error_In _ _ Hx)). pose proof (I_cur s H).
    eapply Inv_reader; eauto; cbn [rcur rseen rspan]; lia.
  - destruct (nth_error (rds s) r) as [x|] eqn:Hx; [|exact H]. destruct ((0 <=? n) && (n <=? rseen x - rcur x)) eqn:E; [|exact H].
    pose proof (I_rds s H x (nth_error_In _ _ Hx)). eapply Inv_reader; eauto; cbn [rcur rseen rspan]; lia.
  - destruct (nth_error (rds s) r) as [x|] eqn:Hx; [|exact H]. destruct ((0 <=? j) && (j <? rspan x)) eqn:E; [|exact H].
    pose proof H as H0. pose proof (I_rds s H x (nth_error_In _ _ Hx)) as (A1 & A2 & A3 & A4). pose proof (I_cur s H) as Cu.
    rewrite calcIndex_mod. set (q := rcur x + j).
    assert (M : marked s q = true) by (apply (I_pub s H); lia).
    destruct (I_marked s H q M) as (M1 & M2 & M3).
    destruct H. constructor; cbn [mem avail resv pubc cmin rds prods val marked log claims holes]; auto.
    + intros r0 q0 v0 [E0|Hl]; [|apply (I_log0 _ _ _ Hl)]. inversion E0; subst r0 q0 v0.
      assert (Em : mem s (q mod N) = val s q) by (apply (I_mem0 x q (nth_error_In _ _ Hx)); [lia|exact M3]).
      split; [exact M|]. split; [exact Em|]. split; [rewrite Em; exact M3|lia].
  - destruct (nth_error (rds s) r) as [x|] eqn:Hx; [|exact H]. destruct ((0 <=? k) && (k <=? rseen x - rcur x)) eqn:E; [|exact H].
    pose proof (I_rds s H x (nth_error_In _ _ Hx)). eapply Inv_reader; eauto; cbn [rcur rseen rspan]; lia.
Qed.

Lemma Inv_init nr np : (0 < nr)%nat -> Inv (init nr np).
Proof.
  intros Hn. assert (L0 : 0 <= limit) by (unfold limit; lia).
  constructor; cbn [init mem avail resv pubc cmin rds prods val marked log claims holes chain].
  - lia.
  - destruct nr; [lia|discriminate].
  - intros r Hr. apply repeat_spec in Hr. subst. cbn [rcur rseen rspan]. lia.
  - split; [lia|]. intros r Hr. apply repeat_spec in Hr. subst. cbn [rcur]. lia.
  - intros q Hq. lia.
  - intros q Hq. discriminate.
  - intros i Hi. left. reflexivity.
  - intros i p Hp. apply nth_error_In, repeat_spec in Hp. subst. exact I.
  - intros i j p1 p2 q _ H1 _ O _. apply nth_error_In, repeat_spec in H1. subst. destruct O.
  - intros _ q Hq. lia.
  - reflexivity.
  - intros r q _ _ Hv. contradiction.
  - intros E. unfold slotInit in E. lia.
  - intros i c nx Hp. apply nth_error_In, repeat_spec in Hp. discriminate.
  - reflexivity.
  - intros r q v [].
Qed.

Lemma exec_Inv sched : forall s, Inv s -> Inv (exec N s sched).
Proof. induction sched as [|a l IH]; intros s H; [exact H|]. apply IH, Inv_step, H. Qed.

Lemma reachable nr np sched : (0 < nr)%nat -> Inv (exec N (init (V:=V) nr np) sched).
Proof. intros. apply exec_Inv, Inv_init; assumption. Qed.

(** *** Monotonicity: publish cursor grows, finished positions keep their value. *)
Definition le s s' : Prop := pubc s <= pubc s' /\ resv s <= resv s' /\ (forall q, marked s q = true -> marked s' q = true /\ val s' q = val s q) /\
  (exists l, log s' = l ++ log s) /\ (exists l, claims s' = l ++ claims s).
Lemma le_refl s : le s s.
Proof. repeat split; try lia; auto; exists []; reflexivity. Qed.
Lemma le_trans a b c : le a b -> le b c -> le a c.
Proof.
  intros (A1 & A2 & A3 & (l1 & A4) & (k1 & A5)) (B1 & B2 & B3 & (l2 & B4) & (k2 & B5)).
  split; [lia|]. split; [lia|]. split.
  - intros q M. destruct (A3 q M) as [M1 V1]. destruct (B3 q M1) as [M2 V2]. split; [exact M2|congruence].
  - split; [exists (l2 ++ l1); rewrite B4, A4, app_assoc; reflexivity|exists (k2 ++ k1); rewrite B5, A5, app_assoc; reflexivity].
Qed.

Lemma le_step s a : Inv s -> le s (step N s a).
Proof.
  intros H.
  assert (Triv : forall s', pubc s' = pubc s -> resv s' = resv s -> marked s' = marked s -> val s' = val s -> log s' = log s -> claims s' = claims s -> le s s').
  { intros s' E1 E2 E3 E4 E5 E6. unfold le. rewrite E1, E2, E3, E4, E5, E6. repeat split; try lia; auto; exists []; reflexivity. }
  destruct a as [i n|i|i v|i k|r|r n|r j|r k]; cbn [step].
  - destruct (nth_error (prods s) i) as [[]|]; try apply le_refl. destruct (_ && _); [apply Triv; reflexivity|apply le_refl].
  - destruct (nth_error (prods s) i) as [p|] eqn:Hp; [|apply le_refl]. pose proof (I_prods s H i p Hp) as Pi.
    destruct p as [|n|n cur|n cur j m|n cur m|n cur|base n j|base k j| |c nx|c nx]; cbn [pstep]; try apply le_refl.
    + apply Triv; reflexivity.
    + destruct (N <? _); apply Triv; reflexivity.
    + destruct (nth_error (rds s) j); apply Triv; reflexivity.
    + destruct (N <? _); apply Triv; reflexivity.
    + destruct ((resv s =? cur) && (cur + n <=? limit)) eqn:E; [|apply Triv; reflexivity]. cbn [pinv] in Pi.
      unfold le; cbn. repeat split; try lia; auto; [exists []; reflexivity|exists [(cur, n)]; reflexivity].
    + unfold le; cbn. repeat split; try lia; [|exists []; reflexivity|exists []; reflexivity].
      destruct (Z.eq_dec q (base + j)) as [->|Hne]; [apply setf_same|rewrite setf_other by exact Hne; assumption].
    + apply Triv; reflexivity.
    + destruct (_ && _); [apply Triv; reflexivity|]. destruct (nx =? c); apply Triv; reflexivity.
    + destruct (Z.eqb_spec (pubc s) c); [|apply Triv; reflexivity]. cbn [pinv] in Pi.
      unfold le; cbn. repeat split; try lia; auto; exists []; reflexivity.
  - destruct (nth_error (prods s) i) as [[| | | | | |base n j| | | |]|] eqn:Hp; try apply le_refl.
    destruct (Z.ltb_spec j n) as [L|L]; [|apply le_refl]. pose proof (I_prods s H i _ Hp) as (P1 & P2 & P3 & P4 & P5 & P6).
    unfold le; cbn. repeat split; try lia; [assumption| |exists []; reflexivity|exists []; reflexivity].
    apply setf_other. intros ->. rewrite P5 in H0 by lia. discriminate.
  - destruct (nth_error (prods s) i) as [[| | | | | |base n j| | | |]|]; try apply le_refl. destruct (_ && _ && _); [apply Triv; reflexivity|apply le_refl].
  - destruct (nth_error (rds s) r); [apply Triv; reflexivity|apply le_refl].
  - destruct (nth_error (rds s) r); [|apply le_refl]. destruct (_ && _); [apply Triv; reflexivity|apply le_refl].
  - destruct (nth_error (rds s) r) as [x|]; [|apply le_refl]. destruct (_ && _); [|apply le_refl].
    unfold le; cbn. repeat split; try lia; auto; [eexists [_]; reflexivity|exists []; reflexivity].
  - destruct (nth_error (rds s) r); [|apply le_refl]. destruct (_ && _); [apply Triv; reflexivity|apply le_refl].
Qed.

Lemma le_exec sched : forall s, Inv s -> le s (exec N s sched).
Proof.
  induction sched as [|a l IH]; intros s H; [apply le_refl|]. cbn [exec fold_left].
  eapply le_trans; [apply le_step, H|apply IH, Inv_step, H].
Qed.

Lemma exec_app s l1 l2 : exec N s (l1 ++ l2) = exec N (exec N s l1) l2.
Proof. unfold exec. apply fold_left_app. Qed.

(** *** Statements *)
Lemma chain_disjoint : forall l top, chain top l -> (forall b n, In (b, n) l -> 0 <= b /\ 1 <= n <= N /\ b + n <= top) /\
  forall i j b1 n1 b2 n2, (i < j)%nat -> nth_error l i = Some (b1, n1) -> nth_error l j = Some (b2, n2) -> b2 + n2 <= b1.
Proof.
  induction l as [|[b n] l IH]; intros top C; cbn [chain] in C.
  - split; [intros b n []|]. intros [|i] j; discriminate.
  - destruct C as (C1 & C2 & C3). destruct (IH b C3) as [I1 I2].
    assert (B0 : 0 <= b).
    { destruct l as [|[b' n'] l']; cbn [chain] in C3; [lia|]. destruct (I1 b' n') as (Q1 & Q2 & Q3); [left; reflexivity|]. lia. }
    split.
    + intros b' n' [E|Hin]; [inversion E; subst; lia|]. destruct (I1 b' n' Hin) as (Q1 & Q2 & Q3). lia.
    + intros [|i] [|j] b1 n1 b2 n2 Hij H1 H2; cbn in *; try lia.
      * inversion H1; subst. destruct (I1 b2 n2 (nth_error_In _ _ H2)) as (Q1 & Q2 & Q3). lia.
      * apply (I2 i j b1 n1 b2 n2); [lia|assumption|assumption].
Qed.

Lemma claims_disjoint nr np sched i j b1 n1 b2 n2 : (0 < nr)%nat -> i <> j ->
  let s := exec N (init (V:=V) nr np) sched in
  nth_error (claims s) i = Some (b1, n1) -> nth_error (claims s) j = Some (b2, n2) -> b1 + n1 <= b2 \/ b2 + n2 <= b1.
Proof.
  intros Hr Hij s H1 H2. pose proof (I_claims s (reachable nr np sched Hr)) as C. destruct (chain_disjoint _ _ C) as [_ D].
  destruct (Nat.lt_ge_cases i j); [right; eapply D; eassumption|left; eapply (D j i); [lia|eassumption|eassumption]].
Qed.

(** At the moment of every claim the claimed positions are within one capacity of every reader. *)
Lemma claim_safe nr np sched i : (0 < nr)%nat -> let s := exec N (init (V:=V) nr np) sched in
  forall b n, claims (step N s (AStep i)) = (b, n) :: claims s -> forall r, In r (rds s) ->
    b = resv s /\ forall q p, rcur r <= q < resv s -> b <= p < b + n -> q mod N <> p mod N.
Proof.
  intros Hr s b n E r Hin. pose proof (reachable nr np sched Hr) as H. fold s in H. cbn [step] in E.
  assert (NoCons : forall l : list (Z * Z), l = (b, n) :: l -> False) by (intros l El; apply (f_equal (@length _)) in El; cbn in El; lia).
  destruct (nth_error (prods s) i) as [p|] eqn:Hp; [|exfalso; apply (NoCons _ E)].
  pose proof (I_prods s H i p Hp) as Pi.
  destruct p as [|n0|n0 cur|n0 cur j m|n0 cur m|n0 cur|base n0 j|base k j| |c nx|c nx]; cbn [pstep] in E; cbn [setp claims] in E; try (exfalso; apply (NoCons _ E)).
  - destruct (N <? _); exfalso; apply (NoCons _ E).
  - destruct (nth_error (rds s) j); exfalso; apply (NoCons _ E).
  - destruct (N <? _); exfalso; apply (NoCons _ E).
  - destruct ((resv s =? cur) && (cur + n0 <=? limit)) eqn:E2; [|exfalso; apply (NoCons _ E)]. cbn [claims] in E. inversion E; subst b n.
    destruct Pi as (P1 & P2 & P3). specialize (P3 r Hin). split; [lia|]. intros q q2 Hq Hq2 Em. apply mod_inj' in Em; lia.
  - destruct (_ && _); [exfalso; apply (NoCons _ E)|]. destruct (nx =? c); exfalso; apply (NoCons _ E).
  - destruct (pubc s =? c); exfalso; apply (NoCons _ E).
Qed.

Lemma reads_right nr np sched sched2 r q v : (0 < nr)%nat ->
  let s := exec N (init (V:=V) nr np) sched in let s2 := exec N s sched2 in
  In (r, q, v) (log s) -> v <> None /\ v = val s2 q /\ 0 <= q < pubc s /\ marked s q = true.
Proof.
  intros Hr s s2 Hl. pose proof (reachable nr np sched Hr) as H. fold s in H. destruct (I_log s H r q v Hl) as (L1 & L2 & L3 & L4).
  destruct (le_exec sched2 s H) as (_ & _ & M & _). destruct (M q L1) as [_ E]. split; [exact L3|]. split; [unfold s2; rewrite E; exact L2|]. auto.
Qed.

Lemma published_finished nr np sched q : (0 < nr)%nat -> let s := exec N (init (V:=V) nr np) sched in
  0 <= q < pubc s -> marked s q = true /\ val s q <> None /\ forall i p, nth_error (prods s) i = Some p -> ~ owns p q.
Proof.
  intros Hr s Hq. pose proof (reachable nr np sched Hr) as H. fold s in H. pose proof (I_pub s H q Hq) as M. destruct (I_marked s H q M) as (M1 & M2 & M3).
  split; [exact M|]. split; [exact M3|]. intros i p Hp O. pose proof (I_prods s H i p Hp) as Pi.
  destruct p; cbn [owns pinv] in *; try contradiction.
  - destruct Pi as (_ & _ & _ & _ & P5 & _). rewrite P5 in M by exact O. discriminate.
  - destruct Pi as (_ & _ & _ & P5 & _). rewrite P5 in M by exact O. discriminate.
Qed.

Lemma pub_monotone nr np sched sched2 : (0 < nr)%nat -> let s := exec N (init (V:=V) nr np) sched in pubc s <= pubc (exec N s sched2).
Proof. intros Hr s. apply (le_exec sched2 s (reachable nr np sched Hr)). Qed.

(** When every producer is idle and nobody abandoned slots, everything reserved is published. *)
Lemma quiescent nr np sched : (0 < nr)%nat -> let s := exec N (init (V:=V) nr np) sched in
  (forall i p, nth_error (prods s) i = Some p -> p = PIdle) -> holes s = false -> pubc s = resv s.
Proof.
  intros Hr s Hi Hh. pose proof (reachable nr np sched Hr) as H. fold s in H. pose proof (I_cur s H) as Cu.
  destruct (Z.eq_dec (pubc s) (resv s)) as [E|E]; [exact E|exfalso].
  destruct (I_own s H Hh (pubc s)) as [M|(i & p & Hp & O)]; [lia| |].
  - destruct (I_resp s H (avail_head s _ H (Z.le_refl _) M)) as (i & p & Hp & R). rewrite (Hi i p Hp) in R. exact R.
  - rewrite (Hi i p Hp) in O. exact O.
Qed.

(** Every claimed position was reserved by exactly one claim; the claims tile [0, resv). *)
Lemma claims_tile nr np sched q : (0 < nr)%nat -> let s := exec N (init (V:=V) nr np) sched in
  0 <= q < resv s -> exists b n, In (b, n) (claims s) /\ b <= q < b + n.
Proof.
  intros Hr s Hq. pose proof (I_claims s (reachable nr np sched Hr)) as C.
  remember (resv s) as top eqn:Et. clear Et. generalize dependent (claims s). revert q top Hq. clear.
  intros q top Hq l. revert top Hq. induction l as [|[b n] l IH]; intros top Hq C; cbn [chain] in C; [lia|].
  destruct C as (C1 & C2 & C3). destruct (Z.lt_ge_cases q b) as [L|L].
  - destruct (IH b) as (b' & n' & Hin & Hb); [lia|exact C3|]. exists b', n'. split; [right; exact Hin|exact Hb].
  - exists b, n. split; [left; reflexivity|lia].
Qed.

(** A reserved position nobody will ever mark. *)
Definition dead s (q : Z) : Prop := 0 <= q < resv s /\ marked s q = false /\ forall i p, nth_error (prods s) i = Some p -> ~ owns p q.

Lemma dead_step s a q : Inv s -> dead s q -> dead (step N s a) q.
Proof.
  intros H (D1 & D2 & D3).
  assert (Sp : forall i p p', nth_error (prods s) i = Some p -> (forall x, owns p' x -> owns p x \/ resv s <= x) ->
            forall k y, nth_error (upd (prods s) i p') k = Some y -> ~ owns y q).
  { intros i p p' Hp Ho k y Hk O. apply nth_upd_inv in Hk. destruct Hk as [[-> ->]|[_ Hk]]; [|apply (D3 k y Hk O)].
    destruct (Ho q O) as [O'|L]; [apply (D3 _ p Hp O')|lia]. }
  unfold dead. destruct a as [i n|i|i v|i k|r|r n|r j|r k]; cbn [step].
  - destruct (nth_error (prods s) i) as [[]|] eqn:Hp; auto. destruct (_ && _); cbn [setp resv marked prods]; auto.
    split; [auto|]. split; [auto|]. eapply Sp; [exact Hp|]. cbn [owns]. tauto.
  - destruct (nth_error (prods s) i) as [p|] eqn:Hp; auto. pose proof (I_prods s H i p Hp) as Pi.
    destruct p as [|n|n cur|n cur j m|n cur m|n cur|base n j|base k j| |c nx|c nx]; cbn [pstep]; auto.
    + cbn [setp resv marked prods]. split; [auto|]. split; [auto|]. eapply Sp; [exact Hp|]. cbn [owns]. tauto.
    + destruct (N <? _); cbn [setp resv marked prods]; (split; [auto|]; split; [auto|]; eapply Sp; [exact Hp|]; cbn [owns]; tauto).
    + destruct (nth_error (rds s) j); cbn [setp resv marked prods]; (split; [auto|]; split; [auto|]; eapply Sp; [exact Hp|]; cbn [owns]; tauto).
    + destruct (N <? _); cbn [setp resv marked prods]; (split; [auto|]; split; [auto|]; eapply Sp; [exact Hp|]; cbn [owns]; tauto).
    + destruct ((resv s =? cur) && (cur + n <=? limit)) eqn:E; cbn [setp resv marked prods].
      * cbn [pinv] in Pi. split; [lia|]. split; [auto|]. eapply Sp; [exact Hp|]. cbn [owns]. lia.
      * split; [auto|]. split; [auto|]. eapply Sp; [exact Hp|]. cbn [owns]. tauto.
    + cbn [resv marked prods]. split; [auto|]. cbn [pinv] in Pi. split.
      * rewrite setf_other; [exact D2|]. intros ->. apply (D3 i _ Hp). cbn [owns]. lia.
      * eapply Sp; [exact Hp|]. intros x. destruct (j + 1 <? k); cbn [owns]; lia.
    + cbn [setp resv marked prods]. split; [auto|]. split; [auto|]. eapply Sp; [exact Hp|]. cbn [owns]. tauto.
    + destruct (_ && _); [|destruct (nx =? c)]; cbn [setp resv marked prods]; (split; [auto|]; split; [auto|]; eapply Sp; [exact Hp|]; cbn [owns]; tauto).
    + destruct (pubc s =? c); cbn [setp resv marked prods]; (split; [auto|]; split; [auto|]; eapply Sp; [exact Hp|]; cbn [owns]; tauto).
  - destruct (nth_error (prods s) i) as [[| | | | | |base n j| | | |]|] eqn:Hp; auto. destruct (j <? n); cbn [resv marked prods]; auto.
    split; [auto|]. split; [auto|]. eapply Sp; [exact Hp|]. cbn [owns]. tauto.
  - destruct (nth_error (prods s) i) as [[| | | | | |base n j| | | |]|] eqn:Hp; auto. destruct ((j =? n) && (0 <=? k) && (k <=? n)) eqn:E; cbn [resv marked prods]; auto.
    split; [auto|]. split; [auto|]. eapply Sp; [exact Hp|]. intros x. destruct (k =? 0); cbn [owns]; [tauto|lia].
  - destruct (nth_error (rds s) r); cbn [setrd resv marked prods]; auto.
  - destruct (nth_error (rds s) r); auto. destruct (_ && _); cbn [setrd resv marked prods]; auto.
  - destruct (nth_error (rds s) r); auto. destruct (_ && _); cbn [setrd resv marked prods]; auto.
  - destruct (nth_error (rds s) r); auto. destruct (_ && _); cbn [setrd resv marked prods]; auto.
Qed.

Lemma dead_blocks sched2 : forall s q, Inv s -> dead s q -> pubc (exec N s sched2) <= q.
Proof.
  induction sched2 as [|a l IH]; intros s q H D.
  - cbn. destruct D as (D1 & D2 & _). destruct (Z.le_gt_cases (pubc s) q); [assumption|]. rewrite (I_pub s H q) in D2 by lia. discriminate.
  - cbn [exec fold_left]. apply IH; [apply Inv_step, H|apply dead_step; assumption].
Qed.

Lemma idle_hole_blocks nr np sched sched2 q : (0 < nr)%nat -> let s := exec N (init (V:=V) nr np) sched in
  (forall i p, nth_error (prods s) i = Some p -> p = PIdle) -> 0 <= q < resv s -> marked s q = false ->
  pubc (exec N s sched2) <= q.
Proof.
  intros Hr s Hi Hq M. apply dead_blocks; [apply reachable, Hr|]. split; [exact Hq|]. split; [exact M|].
  intros i p Hp. rewrite (Hi i p Hp). exact (fun x => x).
Qed.

End Proofs.
