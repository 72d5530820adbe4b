(* Proofs about the counting source. *)

From Coq Require Import ZArith Bool Lia List.
From Verif Require Import TickModel TickSpec.
Import ListNotations.

Local Open Scope Z_scope.

Lemma wrap_id : forall z, 0 <= z < 2 ^ 32 -> wrap z = z.
Proof. intros z H; unfold wrap. apply Z.mod_small. exact H. Qed.
Lemma wrap_range : forall z, 0 <= wrap z < 2 ^ 32.
Proof. intros z; unfold wrap. apply Z.mod_pos_bound. reflexivity. Qed.

Lemma places_mono : forall l, places l -> forall j i x y, (i < j)%nat -> nth_error l i = Some x -> nth_error l j = Some y -> x < y.
Proof.
  intros l [_ P] j; induction j as [|j IH]; intros i x y H Hx Hy; [lia|].
  destruct (nth_error l j) as [z|] eqn:Hz.
  - assert (B := P j z y Hz Hy). destruct (Nat.eq_dec i j) as [-> | N]; [congruence|].
    specialize (IH i x z ltac:(lia) Hx eq_refl). lia.
  - apply nth_error_None in Hz. assert (X : nth_error l (S j) <> None) by congruence. apply nth_error_Some in X. lia.
Qed.

(* the tags not yet published are not behind *)
Definition ahead (l : list Z) (k : nat) (n : Z) : Prop := forall x, nth_error l k = Some x -> n <= x.
Definition good (c : conf) (s : clk) : Prop :=
  0 <= made s <= nMax c /\ ahead (marks c) (nextMark s) (made s) /\ ahead (timed c) (nextTimed s) (made s)
  /\ (nextMark s <= length (marks c))%nat /\ (nextTimed s <= length (timed c))%nat.
Definition okConf (c : conf) : Prop :=
  0 < nMax c < 2 ^ 32 /\ places (marks c) /\ places (timed c) /\ apart (marks c) (timed c) /\ later c.
Lemma renew_id : forall c s, later c -> renew c s = s.
Proof.
  intros c s [H | H]; unfold renew; [rewrite H; reflexivity|].
  destruct (timed c); [reflexivity|]. replace (lastTime c <=? 0) with false by (symmetry; apply Z.leb_gt; exact H).
  rewrite andb_false_r. reflexivity.
Qed.

(* what one call does *)
Definition did (c : conf) (s s' : clk) (o : list out) (n : Z) : Prop :=
  made s' = made s + n /\ 0 <= n /\ good c s' /\
  ((o = [] /\ nextMark s' = nextMark s /\ nextTimed s' = nextTimed s)
   \/ (exists p, o = [Mark (nextMark s) p] /\ nth_error (marks c) (nextMark s) = Some p
                 /\ nextMark s' = S (nextMark s) /\ nextTimed s' = nextTimed s /\ made s <= p <= made s')
   \/ (exists p, o = [Timed (nextTimed s) p] /\ nth_error (timed c) (nextTimed s) = Some p
                 /\ nextMark s' = nextMark s /\ nextTimed s' = S (nextTimed s) /\ made s <= p <= made s')).

Lemma some_lt : forall (l : list Z) k x, nth_error l k = Some x -> (k < length l)%nat.
Proof. intros l k x H. apply nth_error_Some. congruence. Qed.

Lemma ahead_next : forall l k x n, places l -> nth_error l k = Some x -> n <= x + 1 -> ahead l (S k) n.
Proof. intros l k x n [_ P] H N y Hy. specialize (P k x y H Hy). lia. Qed.

Lemma call_did : forall c s k, okConf c -> good c s ->
  let '(s', o, n, _) := call c s k in did c s s' o n.
Proof.
  intros c s k (HM & PM & PT & AP & LR) (HN & AM & AT & LM & LT).
  unfold call. replace (0 <? nMax c) with true by (symmetry; apply Z.ltb_lt; lia). cbn [andb].
  assert (same : did c s s [] 0).
  { split; [lia|]. split; [lia|]. split; [repeat split; try assumption; lia|]. left. auto. }
  destruct (Z.leb_spec (nMax c) (made s)) as [D | D]; [exact same|].
  assert (Rk := wrap_range k). set (n := Z.min (nMax c - made s) (wrap k)).
  destruct (Z.eqb_spec n 0) as [N0 | N0]; [exact same|].
  rewrite (renew_id c s LR). cbv zeta. assert (Nn : 0 < n <= nMax c - made s) by lia. clearbody n.
  assert (wn : wrap (made s + n) = made s + n) by (apply wrap_id; lia).
  (* distances *)
  assert (DM : match nth_error (marks c) (nextMark s) with
               | Some i => toMark c s = i - made s /\ 0 <= toMark c s < maxSize
               | None => toMark c s = maxSize end).
  { unfold toMark. destruct (nth_error (marks c) (nextMark s)) as [i|] eqn:E; [|reflexivity].
    assert (B := proj1 PM _ _ E). assert (A := AM _ E). rewrite wrap_id by lia. unfold maxSize. lia. }
  assert (DT : match nth_error (timed c) (nextTimed s) with
               | Some i => toTimed c s = i - made s /\ 0 <= toTimed c s < maxSize
               | None => toTimed c s = maxSize end).
  { unfold toTimed. destruct (nth_error (timed c) (nextTimed s)) as [i|] eqn:E; [|reflexivity].
    assert (B := proj1 PT _ _ E). assert (A := AT _ E).
    destruct (Z.leb_spec (made s) i); [|lia]. unfold maxSize. lia. }
  destruct (Z.ltb_spec (toMark c s) (toTimed c s)) as [L | L].
  - destruct (nth_error (marks c) (nextMark s)) as [i|] eqn:EM.
    + destruct DM as [DM DMr].
      assert (HT : forall a, nth_error (timed c) (nextTimed s) = Some a -> i < a).
      { intros a Ha. rewrite Ha in DT. destruct DT as [DT _]. lia. }
      destruct (Z.leb_spec (toMark c s) n) as [K | K].
      * assert (w1 : wrap (made s + Z.max (toMark c s) 1) = made s + Z.max (toMark c s) 1) by (apply wrap_id; lia).
        rewrite w1. rewrite Z.mod_small by (unfold maxSize in DMr; lia).
        split; [reflexivity|]. split; [lia|]. split.
        { split; [cbn [made]; lia|]. cbn [made nextMark nextTimed]. split; [|split; [|split]].
          - apply (ahead_next _ _ i); [exact PM|exact EM|lia].
          - intros a Ha. specialize (HT a Ha). lia.
          - apply some_lt in EM. lia.
          - exact LT. }
        right; left. exists i. replace (made s + (i - made s)) with i by lia.
        split; [reflexivity|]. split; [exact EM|]. split; [reflexivity|]. split; [reflexivity|]. cbn [made]. lia.
      * rewrite wn. split; [reflexivity|]. split; [lia|]. split; [|left; auto].
        split; [cbn [made]; lia|]. cbn [made nextMark nextTimed]. split; [|split; [|split]]; try assumption.
        { intros x Hx. assert (x = i) by congruence. lia. }
        { intros a Ha. specialize (HT a Ha). lia. }
    + rewrite wn. rewrite DM in L. exfalso.
      destruct (nth_error (timed c) (nextTimed s)); [destruct DT as [_ DT]; lia|lia].
  - destruct (nth_error (timed c) (nextTimed s)) as [a|] eqn:ET.
    + destruct DT as [DT DTr].
      assert (HMk : forall i, nth_error (marks c) (nextMark s) = Some i -> a < i).
      { intros i Hi. rewrite Hi in DM. destruct DM as [DM _].
        assert (a <> i); [|lia]. intros ->. apply (AP i); eapply nth_error_In; eassumption. }
      destruct (Z.leb_spec (toTimed c s) n) as [K | K].
      * assert (w1 : wrap (made s + Z.max (toTimed c s) 1) = made s + Z.max (toTimed c s) 1) by (apply wrap_id; lia).
        rewrite w1. split; [reflexivity|]. split; [lia|]. split.
        { split; [cbn [made]; lia|]. cbn [made nextMark nextTimed]. split; [|split; [|split]].
          - intros i Hi. specialize (HMk i Hi). lia.
          - apply (ahead_next _ _ a); [exact PT|exact ET|lia].
          - exact LM.
          - apply some_lt in ET. lia. }
        right; right. exists a. replace (made s + toTimed c s) with a by lia.
        split; [reflexivity|]. split; [exact ET|]. split; [reflexivity|]. split; [reflexivity|]. cbn [made]. lia.
      * rewrite wn. split; [reflexivity|]. split; [lia|]. split; [|left; auto].
        split; [cbn [made]; lia|]. cbn [made nextMark nextTimed]. split; [|split; [|split]]; try assumption.
        { intros i Hi. specialize (HMk i Hi). lia. }
        { intros x Hx. assert (x = a) by congruence. lia. }
    + rewrite wn. split; [reflexivity|]. split; [lia|]. split; [|left; auto].
      split; [cbn [made]; lia|]. cbn [made nextMark nextTimed]. split; [|split; [|split]]; try assumption.
      { intros i Hi. rewrite Hi in DM. destruct DM as [DM DMr]. lia. }
      { intros x Hx. congruence. }
Qed.

Lemma start_good : forall c, okConf c -> good c start.
Proof.
  intros c (HM & PM & PT & AP & LR). split; [cbn; lia|]. cbn [start made nextMark nextTimed]. repeat split; try lia.
  - intros x H. apply PM in H. lia.
  - intros x H. apply PT in H. lia.
Qed.

Lemma calls_did : forall c ks s, okConf c -> good c s ->
  let '(s', os, n) := calls c s ks in
  good c s' /\ made s' = made s + n /\ 0 <= n
  /\ marksOf os = seq (nextMark s) (nextMark s' - nextMark s) /\ timedOf os = seq (nextTimed s) (nextTimed s' - nextTimed s)
  /\ (nextMark s <= nextMark s')%nat /\ (nextTimed s <= nextTimed s')%nat
  /\ (forall o, In o os -> exact c o /\ made s <= place o <= made s')
  /\ (forall i x y, nth_error (map place os) i = Some x -> nth_error (map place os) (S i) = Some y -> x <= y).
Proof.
  intros c ks; induction ks as [|k ks IH]; intros s Hc Hg; cbn [calls].
  - split; [exact Hg|]. split; [lia|]. split; [lia|]. rewrite !Nat.sub_diag. cbn.
    repeat split; try lia; try contradiction. intros [|i] x y H; discriminate.
  - assert (D := call_did c s k Hc Hg). destruct (call c s k) as [[[s1 o] n1] st].
    destruct D as (M1 & N1 & G1 & D). specialize (IH s1 Hc G1). destruct (calls c s1 ks) as [[s2 os] n2].
    destruct IH as (G2 & M2 & N2 & E1 & E2 & L1 & L2 & X & O).
    split; [exact G2|]. split; [lia|]. split; [lia|].
    destruct D as [(-> & Q1 & Q2) | [(p & -> & EP & Q1 & Q2 & B) | (p & -> & EP & Q1 & Q2 & B)]].
    + rewrite Q1 in *. rewrite Q2 in *. cbn [app]. repeat split; try assumption.
      * apply X; assumption.
      * destruct (X o H) as [_ Y]. lia.
      * destruct (X o H) as [_ Y]. lia.
    + rewrite Q1 in *. rewrite Q2 in *. cbn [app marksOf timedOf flat_map]. fold (marksOf os). fold (timedOf os).
      split; [|split; [exact E2|]].
      { rewrite E1. replace (nextMark s2 - nextMark s)%nat with (S (nextMark s2 - S (nextMark s))) by lia. reflexivity. }
      split; [lia|]. split; [lia|]. split.
      { intros o [<- | H]; [cbn [exact place]; split; [exact EP|lia]|]. destruct (X o H) as [Y Z]. split; [exact Y|lia]. }
      { intros [|i] x y Hx Hy; cbn [map nth_error place] in Hx, Hy.
        - assert (x = p) by congruence. subst x. destruct os as [|o os]; cbn [map nth_error] in Hy; [discriminate|].
          assert (y = place o) by congruence. destruct (X o (or_introl eq_refl)) as [_ Z]. lia.
        - exact (O i x y Hx Hy). }
    + rewrite Q1 in *. rewrite Q2 in *. cbn [app marksOf timedOf flat_map]. fold (marksOf os). fold (timedOf os).
      split; [exact E1|split].
      { rewrite E2. replace (nextTimed s2 - nextTimed s)%nat with (S (nextTimed s2 - S (nextTimed s))) by lia. reflexivity. }
      split; [lia|]. split; [lia|]. split.
      { intros o [<- | H]; [cbn [exact place]; split; [exact EP|lia]|]. destruct (X o H) as [Y Z]. split; [exact Y|lia]. }
      { intros [|i] x y Hx Hy; cbn [map nth_error place] in Hx, Hy.
        - assert (x = p) by congruence. subst x. destruct os as [|o os]; cbn [map nth_error] in Hy; [discriminate|].
          assert (y = place o) by congruence. destruct (X o (or_introl eq_refl)) as [_ Z]. lia.
        - exact (O i x y Hx Hy). }
Qed.

(* behind: a listed tag that was passed is never reached again *)
Lemma calls_stuck : forall c ks s i, 0 < nMax c < 2 ^ 31 -> timed c = [] -> 0 <= made s <= nMax c ->
  nth_error (marks c) (nextMark s) = Some i -> 0 <= i < made s ->
  marksOf (snd (fst (calls c s ks))) = [].
Proof.
  intros c ks; induction ks as [|k ks IH]; intros s i HM T HN E B; cbn [calls]; [reflexivity|].
  assert (W : toMark c s = 2 ^ 32 + i - made s).
  { unfold toMark. rewrite E. unfold wrap. replace (i - made s) with ((2 ^ 32 + i - made s) + (-1) * 2 ^ 32) by lia.
    rewrite Z.mod_add by lia. apply Z.mod_small. lia. }
  assert (X : exists s1 n st, call c s k = (s1, [], n, st) /\ nextMark s1 = nextMark s /\ made s <= made s1 <= nMax c).
  { unfold call. replace (0 <? nMax c) with true by (symmetry; apply Z.ltb_lt; lia). cbn [andb].
    destruct (Z.leb_spec (nMax c) (made s)); [exists s, 0, Done; auto with zarith|].
    assert (R := wrap_range k). set (n := Z.min (nMax c - made s) (wrap k)).
    destruct (Z.eqb_spec n 0); [exists s, 0, Waiting; auto with zarith|].
    rewrite (renew_id c s (or_introl T)). cbv zeta. rewrite E, T. replace (nth_error [] (nextTimed s)) with (@None Z) by (destruct (nextTimed s); reflexivity).
    assert (w : wrap (made s + n) = made s + n) by (apply wrap_id; lia).
    rewrite W. replace (2 ^ 32 + i - made s <=? n) with false by (symmetry; apply Z.leb_gt; lia).
    rewrite w. destruct (_ <? _); eexists _, n, Ok; (split; [reflexivity|]); cbn [nextMark made]; (split; [reflexivity|lia]). }
  destruct X as (s1 & n & st & -> & Q & R). rewrite <- Q in E.
  specialize (IH s1 i HM T ltac:(lia) E ltac:(lia)). destruct (calls c s1 ks) as [[s2 os] n2]. cbn [fst snd app] in *. exact IH.
Qed.

(* timed tags only, places may be equal *)
Definition late (c : conf) (s : clk) : Prop :=
  0 <= made s <= nMax c /\ (nextTimed s <= length (timed c))%nat /\
  forall i x, (nextTimed s <= i)%nat -> nth_error (timed c) i = Some x -> made s <= x + Z.of_nat (nextTimed s).
Definition okTimed (c : conf) : Prop :=
  0 < nMax c < 2 ^ 32 /\ marks c = [] /\ later c /\
  (forall i x, nth_error (timed c) i = Some x -> 0 <= x < 2 ^ 32 - 1) /\
  (forall i j x y, (i <= j)%nat -> nth_error (timed c) i = Some x -> nth_error (timed c) j = Some y -> x <= y).

Lemma call_late : forall c s k, okTimed c -> late c s ->
  let '(s', o, n, _) := call c s k in
  made s' = made s + n /\ 0 <= n /\ late c s' /\
  ((o = [] /\ nextTimed s' = nextTimed s)
   \/ (exists p a, o = [Timed (nextTimed s) p] /\ nth_error (timed c) (nextTimed s) = Some a
         /\ nextTimed s' = S (nextTimed s) /\ a <= p <= a + Z.of_nat (nextTimed s))).
Proof.
  intros c s k (HM & MK & LR & PT & AS) (HN & LT & LA).
  unfold call. replace (0 <? nMax c) with true by (symmetry; apply Z.ltb_lt; lia). cbn [andb].
  assert (same : made s = made s + 0 /\ 0 <= 0 /\ late c s /\
    ((@nil out = [] /\ nextTimed s = nextTimed s)
     \/ (exists p a, @nil out = [Timed (nextTimed s) p] /\ nth_error (timed c) (nextTimed s) = Some a
         /\ nextTimed s = S (nextTimed s) /\ a <= p <= a + Z.of_nat (nextTimed s)))).
  { split; [lia|]. split; [lia|]. split; [exact (conj HN (conj LT LA))|]. left; auto. }
  destruct (Z.leb_spec (nMax c) (made s)) as [D | D]; [exact same|].
  assert (Rk := wrap_range k). set (n := Z.min (nMax c - made s) (wrap k)).
  destruct (Z.eqb_spec n 0) as [N0 | N0]; [exact same|].
  rewrite (renew_id c s LR). cbv zeta. assert (Nn : 0 < n <= nMax c - made s) by lia. clearbody n. clear same.
  assert (wn : wrap (made s + n) = made s + n) by (apply wrap_id; lia).
  assert (DM : toMark c s = maxSize).
  { unfold toMark. rewrite MK. destruct (nextMark s); reflexivity. }
  assert (DT : match nth_error (timed c) (nextTimed s) with
               | Some a => toTimed c s = Z.max 0 (a - made s) /\ toTimed c s < maxSize
               | None => toTimed c s = maxSize end).
  { unfold toTimed. destruct (nth_error (timed c) (nextTimed s)) as [a|] eqn:E; [|reflexivity].
    assert (B := PT _ _ E). unfold maxSize. destruct (Z.leb_spec (made s) a); lia. }
  rewrite DM. replace (maxSize <? toTimed c s) with false
    by (symmetry; apply Z.ltb_ge; destruct (nth_error (timed c) (nextTimed s)); lia).
  destruct (nth_error (timed c) (nextTimed s)) as [a|] eqn:ET.
  - destruct DT as [DT DTr]. assert (A0 := LA _ _ (le_n _) ET).
    destruct (Z.leb_spec (toTimed c s) n) as [K | K].
    + assert (w1 : wrap (made s + Z.max (toTimed c s) 1) = made s + Z.max (toTimed c s) 1) by (apply wrap_id; lia).
      rewrite w1. split; [reflexivity|]. split; [lia|]. split.
      { unfold late; cbn [made nextTimed]. split; [lia|]. split; [apply some_lt in ET; lia|].
        intros i x Hi Hx. assert (B := AS _ _ _ _ (Nat.le_trans _ _ _ (Nat.le_succ_diag_r _) Hi) ET Hx).
        assert (A1 := LA i x ltac:(lia) Hx). lia. }
      right. exists (made s + toTimed c s), a. split; [reflexivity|]. split; [reflexivity|]. split; [reflexivity|]. lia.
    + rewrite wn. split; [reflexivity|]. split; [lia|]. split; [|left; auto].
      unfold late; cbn [made nextTimed]. split; [lia|]. split; [exact LT|].
      intros i x Hi Hx. assert (B := AS _ _ _ _ Hi ET Hx). lia.
  - rewrite wn. split; [reflexivity|]. split; [lia|]. split; [|left; auto].
    unfold late; cbn [made nextTimed]. split; [lia|]. split; [exact LT|].
    intros i x Hi Hx. apply nth_error_None in ET. apply some_lt in Hx. lia.
Qed.

Lemma calls_late : forall c ks s, okTimed c -> late c s ->
  let '(s', os, n) := calls c s ks in
  late c s' /\ made s' = made s + n /\ (nextTimed s <= nextTimed s')%nat /\ timedOf os = seq (nextTimed s) (nextTimed s' - nextTimed s)
  /\ (forall o, In o os -> exists i p a, o = Timed i p /\ nth_error (timed c) i = Some a /\ a <= p <= a + Z.of_nat i).
Proof.
  intros c ks; induction ks as [|k ks IH]; intros s Hc Hg; cbn [calls].
  - split; [exact Hg|]. split; [lia|]. rewrite Nat.sub_diag. split; [lia|]. split; [reflexivity|]. intros o [].
  - assert (D := call_late c s k Hc Hg). destruct (call c s k) as [[[s1 o] n1] st].
    destruct D as (M1 & N1 & G1 & D). specialize (IH s1 Hc G1). destruct (calls c s1 ks) as [[s2 os] n2].
    destruct IH as (G2 & M2 & L & E & X).
    split; [exact G2|]. split; [lia|].
    destruct D as [(-> & Q) | (p & a & -> & EP & Q & B)].
    + rewrite Q in *. cbn [app]. auto.
    + rewrite Q in *. split; [lia|]. cbn [app timedOf flat_map]. fold (timedOf os). split.
      { rewrite E. replace (nextTimed s2 - nextTimed s)%nat with (S (nextTimed s2 - S (nextTimed s))) by lia. reflexivity. }
      intros o [<- | H]; [|exact (X o H)]. exists (nextTimed s), p, a. auto.
Qed.

(* one time, 0: it comes back on every sample *)
Lemma calls_zero : forall c ks, marks c = [] -> timed c = [0] -> lastTime c = 0 -> forall b,
  0 < nMax c < 2 ^ 32 -> (forall k, In k ks -> 0 < k < 2 ^ 32) -> forall m j, 0 <= m -> m + Z.of_nat (length ks) <= nMax c ->
  (j <= 1)%nat ->
  calls c (mkS m b j) ks =
  (mkS (m + Z.of_nat (length ks)) b (match ks with [] => j | _ => 1%nat end),
   map (fun i => Timed 0 (m + Z.of_nat i)) (seq 0 (length ks)), Z.of_nat (length ks)).
Proof.
  intros c ks MK T LZ b HM; induction ks as [|k ks IH]; intros Hk m j H0 HL Hj.
  - cbn [calls length map seq]. rewrite Z.add_0_r. reflexivity.
  - cbn [length] in HL. cbn [calls].
    assert (K := Hk k (or_introl eq_refl)).
    assert (E : call c (mkS m b j) k = (mkS (m + 1) b 1, [Timed 0 m], 1, Ok)).
    { unfold call; cbn [made].
      replace (0 <? nMax c) with true by (symmetry; apply Z.ltb_lt; lia). cbn [andb].
      replace (nMax c <=? m) with false by (symmetry; apply Z.leb_gt; lia).
      rewrite (wrap_id k) by lia. set (n := Z.min (nMax c - m) k).
      replace (n =? 0) with false by (symmetry; apply Z.eqb_neq; lia).
      assert (R : renew c (mkS m b j) = mkS m b 0).
      { unfold renew. rewrite T, LZ; cbn [length nextTimed made nextMark]. destruct j as [|[|j]]; [reflexivity|reflexivity|lia]. }
      rewrite R. cbv zeta. unfold toMark, toTimed; cbn [made nextMark nextTimed]. rewrite MK, T. cbn [nth_error].
      replace (nth_error [] b) with (@None Z) by (destruct b; reflexivity).
      assert (D : (if m <=? 0 then 0 - m else 0) = 0) by (destruct (Z.leb_spec m 0); lia). rewrite D.
      change (maxSize <? 0) with false. cbn match.
      replace (0 <=? n) with true by (symmetry; apply Z.leb_le; lia).
      change (Z.max 0 1) with 1. rewrite wrap_id by lia. rewrite Z.add_0_r. reflexivity. }
    rewrite E. rewrite (IH (fun x Hx => Hk x (or_intror Hx)) (m + 1) 1%nat) by lia.
    cbn [length seq map app]. rewrite <- seq_shift, map_map.
    f_equal; [f_equal|lia].
    + f_equal; [lia|destruct ks; reflexivity].
    + f_equal; [f_equal; lia|]. apply map_ext. intros i. f_equal. lia.
Qed.
