(** Proofs about the worker's loop and the traversal. *)
From Coq Require Import NArith ZArith Bool Arith Lia List.
From Coq Require Import ZifyBool ZifyNat ZifyN.
From Verif Require Import Base LifecycleModel TopoModel SchedModel.
Import ListNotations.
Local Open Scope nat_scope.

(** ** The traversal *)

Lemma traverseFrom_shift reports : forall n p u,
  fst (fst (traverseFrom n p u reports)) = n + fst (fst (traverseFrom 0 p u reports)) /\
  snd (fst (traverseFrom n p u reports)) = snd (fst (traverseFrom 0 p u reports)) /\
  snd (traverseFrom n p u reports) = snd (traverseFrom 0 p u reports).
Proof.
  induction reports as [|[w st] r IH]; intros n p u; cbn [traverseFrom].
  - cbn [fst snd]. split; [lia|split; reflexivity].
  - destruct st; cbn [fst snd].
    + destruct (IH (S n) ((p + w) mod two64)%N u) as (A & B & C).
      destruct (IH 1 ((p + w) mod two64)%N u) as (A' & B' & C'). rewrite A, A', B, B', C, C'. split; [lia|split; reflexivity].
    + split; [lia|split; reflexivity].
    + destruct (IH (S n) ((p + w) mod two64)%N true) as (A & B & C).
      destruct (IH 1 ((p + w) mod two64)%N true) as (A' & B' & C'). rewrite A, A', B, B', C, C'. split; [lia|split; reflexivity].
Qed.

Fixpoint sumN (l : list N) : N := match l with [] => 0%N | x :: r => (x + sumN r)%N end.

Lemma traverse_spec reports : forall p u, (p < two64)%N ->
  let '(n, w, st) := traverseFrom 0 p u reports in
  n <= length reports /\
  w = ((p + sumN (map fst (firstn n reports))) mod two64)%N /\
  (st = SError -> exists r, nth_error (map snd reports) (n - 1) = Some SError /\ 1 <= n /\ r = n) /\
  (st <> SError -> n = length reports) /\
  (forall k, k < n -> st = SError -> k <> n - 1 -> nth_error (map snd reports) k <> Some SError) /\
  (st <> SError -> forall k, nth_error (map snd reports) k <> Some SError) /\
  (st = SDone <-> u = false /\ forall s, In s (map snd reports) -> s = SDone).
Proof.
  induction reports as [|[w0 st0] r IH]; intros p u Hp; cbn [traverseFrom].
  - split; [cbn; lia|]. split. { cbn. rewrite N.add_0_r, N.mod_small by exact Hp. reflexivity. }
    split. { destruct u; discriminate. } split; [reflexivity|]. split; [intros k Hk; lia|].
    split. { intros _ k H. destruct k; discriminate. }
    destruct u; split; try discriminate; try (intros [X _]; discriminate).
    + intros _. split; [reflexivity|]. intros s [].
    + reflexivity.
  - assert (Hm : ((p + w0) mod two64 < two64)%N) by (apply N.mod_lt; unfold two64; lia).
    assert (Hsum : forall n, (((p + w0) mod two64 + sumN (map fst (firstn n r))) mod two64)%N
      = ((p + sumN (map fst (firstn (S n) ((w0, st0) :: r)))) mod two64)%N).
    { intros n. cbn [firstn map fst sumN]. rewrite N.add_mod_idemp_l by (unfold two64; lia). f_equal. lia. }
    assert (REC : forall v, st0 <> SError ->
      (v = u \/ v = true) -> (v = u <-> st0 = SDone \/ u = true) ->
      let '(n, w, st) := traverseFrom 1 ((p + w0) mod two64)%N v r in
      n <= length ((w0, st0) :: r) /\
      w = ((p + sumN (map fst (firstn n ((w0, st0) :: r)))) mod two64)%N /\
      (st = SError -> exists m, nth_error (map snd ((w0, st0) :: r)) (n - 1) = Some SError /\ 1 <= n /\ m = n) /\
      (st <> SError -> n = length ((w0, st0) :: r)) /\
      (forall k, k < n -> st = SError -> k <> n - 1 -> nth_error (map snd ((w0, st0) :: r)) k <> Some SError) /\
      (st <> SError -> forall k, nth_error (map snd ((w0, st0) :: r)) k <> Some SError) /\
      (st = SDone <-> u = false /\ forall s, In s (map snd ((w0, st0) :: r)) -> s = SDone)).
    { intros v Hne Hv Hvu. specialize (IH ((p + w0) mod two64)%N v Hm).
      destruct (traverseFrom_shift r 1 ((p + w0) mod two64)%N v) as (A & B & C).
      destruct (traverseFrom 1 ((p + w0) mod two64)%N v r) as [[n w] st].
      destruct (traverseFrom 0 ((p + w0) mod two64)%N v r) as [[n' w'] st']. cbn [fst snd] in A, B, C. subst n w st.
      destruct IH as (I1 & I2 & I3 & I4 & I5 & I6 & I7).
      split; [cbn [length]; lia|]. split. { rewrite I2. rewrite Hsum. reflexivity. }
      split. { intros E. destruct (I3 E) as (m & X & Y & Z). exists (1 + n'). split; [|split; [lia|reflexivity]].
               replace (1 + n' - 1) with (S (n' - 1)) by lia. cbn [map nth_error]. exact X. }
      split. { intros E. rewrite (I4 E). reflexivity. }
      split. { intros [|k] Hk E Hk'; cbn [map nth_error snd]; [congruence|]. apply I5; [lia|exact E|lia]. }
      split. { intros E [|k]; cbn [map nth_error snd]; [congruence|]. apply I6. exact E. }
      rewrite I7. cbn [map snd]. split.
      - intros [Ev Ha]. destruct Hv as [Hv|Hv]; [|congruence]. split; [congruence|]. intros s [<-|Hs]; [|auto].
        destruct (proj1 Hvu Hv) as [X|X]; [exact X|congruence].
      - intros [Eu Ha]. split; [|intros s Hs; apply Ha; right; exact Hs].
        assert (Hd : st0 = SDone) by (apply Ha; left; reflexivity).
        assert (v = u) by (apply Hvu; left; exact Hd). congruence. }
    destruct st0.
    + apply (REC u); [discriminate|left; reflexivity|]. split; auto.
    + clear REC. split; [cbn; lia|]. split. { rewrite <- (Hsum 0). cbn [firstn map sumN]. rewrite N.add_0_r, N.mod_mod by (unfold two64; lia). reflexivity. }
      split. { intros _. exists 1. split; [reflexivity|lia]. } split; [congruence|].
      split. { intros k Hk _ Hk'. lia. } split; [congruence|].
      split; [discriminate|]. intros [_ Ha]. specialize (Ha SError (or_introl eq_refl)). discriminate.
    + apply (REC true); [discriminate|right; reflexivity|]. split.
      * intros <-. right. reflexivity.
      * intros [X|X]; [discriminate|congruence].
Qed.

(** ** The message gate *)

Lemma single_bit_ones r : hasSingleBit r = true -> exists k, r = (2 ^ k)%N.
Proof.
  unfold hasSingleBit. intros H. apply andb_prop in H as [H1 H2].
  assert (Hr : r <> 0%N) by (apply negb_true_iff, N.eqb_neq in H1; exact H1).
  apply N.eqb_eq in H2. exists (N.log2 r).
  destruct (N.eq_dec r (2 ^ N.log2 r)) as [E|E]; [exact E|exfalso].
  pose proof (N.log2_spec r ltac:(lia)) as [L1 L2].
  assert (Hb1 : N.testbit r (N.log2 r) = true) by (apply N.bit_log2; exact Hr).
  assert (Hl : N.log2 (r - 1) = N.log2 r).
  { apply N.log2_unique; [lia|]. split; lia. }
  assert (Hb2 : N.testbit (r - 1) (N.log2 r) = true).
  { rewrite <- Hl. apply N.bit_log2. assert (0 < 2 ^ N.log2 r)%N by (apply N.neq_0_lt_0, N.pow_nonzero; lia). lia. }
  assert (X : N.testbit (N.land r (r - 1)) (N.log2 r) = true) by (rewrite N.land_spec, Hb1, Hb2; reflexivity).
  rewrite H2, N.bits_0 in X. discriminate.
Qed.

Lemma nextCount_mod r c : r <> 0%N -> nextCount r c = Some (inc64 c mod r)%N.
Proof.
  intros Hr. unfold nextCount. destruct (hasSingleBit r) eqn:E.
  - destruct (single_bit_ones r E) as [k ->]. f_equal. rewrite N.sub_1_r, <- N.ones_equiv. apply N.land_ones.
  - destruct (r =? 0)%N eqn:E0; [apply N.eqb_eq in E0; congruence|reflexivity].
Qed.

Lemma loop_app ratio first ts ts' : forall w,
  loop ratio first w (ts ++ ts') =
  match loop ratio first w ts with
  | (ds, inl w') => let (ds', o) := loop ratio first w' ts' in (ds ++ ds', o)
  | (ds, inr e) => (ds, inr e)
  end.
Proof.
  induction ts as [|t ts IH]; intros w; cbn [app loop].
  - destruct (loop ratio first w ts') as [ds o]. reflexivity.
  - destruct (turn ratio first w t) as [d [w'|e]]; [|reflexivity]. rewrite IH.
    destruct (loop ratio first w' ts) as [ds [w''|e]]; [|reflexivity].
    destruct (loop ratio first w'' ts') as [ds' o]. reflexivity.
Qed.

(** A turn without messages continues with a counter below the ratio, one more than before or 0. *)
Lemma turn_quiet ratio first w t d w' : ratio <> 0%N -> turn ratio first w t = (d, inl w') -> handled d = false ->
  (msgToCount w <> 0)%N /\ activeState w' = activeState w /\
  (msgToCount w' = 0 \/ msgToCount w' = inc64 (msgToCount w) mod ratio)%N.
Proof.
  intros Hr H Hh. unfold turn in H.
  destruct ((msgToCount w =? 0)%N || (first && pending t)) eqn:Em.
  { exfalso. destruct (true && first && exchanged t); [injection H as <- ?; discriminate|].
    destruct (lstate_eqb (stateNow t) RUNNING && granted t && negb (noBlocks t)), (result t);
      injection H as <- ?; discriminate. }
  cbn [andb] in H. rewrite (nextCount_mod _ _ Hr) in H.
  assert (Hm : (msgToCount w <> 0)%N). { apply orb_false_elim in Em as [E _]. apply N.eqb_neq in E. exact E. }
  assert (HX : forall b : bool, (if isActive (activeState w) then inl (mkWorker (if b then 0%N else (inc64 (msgToCount w) mod ratio)%N) (activeState w)) else inr ExInactive) = inl w' ->
    activeState w' = activeState w /\ (msgToCount w' = 0 \/ msgToCount w' = inc64 (msgToCount w) mod ratio)%N).
  { intros b E. destruct (isActive (activeState w)); [|discriminate]. injection E as <-. cbn [activeState msgToCount].
    split; [reflexivity|]. destruct b; auto. }
  destruct (lstate_eqb (activeState w) RUNNING && granted t && negb (noBlocks t)), (result t);
    injection H as _ HE; try discriminate HE; (split; [exact Hm|]); apply (HX _ HE).
Qed.

Definition quietRun (ds : list Did) : Prop := forall d, In d ds -> handled d = false.

(** Counter [c]: how many more quiet turns there can be. *)
Lemma quiet_bound ratio first : ratio <> 0%N -> (ratio < two64)%N -> forall ts w ds w',
  loop ratio first w ts = (ds, inl w') -> quietRun ds -> (msgToCount w < ratio)%N -> (N.of_nat (length ts) <= ratio - msgToCount w)%N /\ (msgToCount w = 0%N -> ts = []).
Proof.
  intros Hr Hr2. induction ts as [|t ts IH]; intros w ds w' H Hq Hc.
  - cbn. split; [lia|reflexivity].
  - cbn [loop] in H. destruct (turn ratio first w t) as [d [w1|e]] eqn:Et; [|discriminate].
    destruct (loop ratio first w1 ts) as [ds1 o] eqn:El. injection H as <- ->.
    assert (Hd : handled d = false) by (apply Hq; left; reflexivity).
    destruct (turn_quiet _ _ _ _ _ _ Hr Et Hd) as (Hm & _ & Hn).
    assert (Hi : (inc64 (msgToCount w) mod ratio < ratio)%N) by (apply N.mod_lt; exact Hr).
    assert (Hc1 : (msgToCount w1 < ratio)%N) by (destruct Hn as [->| ->]; lia).
    destruct (IH w1 ds1 w' El ltac:(intros x Hx; apply Hq; right; exact Hx) Hc1) as [I1 I2].
    split; [|congruence]. cbn [length].
    destruct (N.eq_dec (msgToCount w1) 0) as [E0|E0]; [rewrite (I2 E0); cbn; lia|].
    destruct Hn as [Hn|Hn]; [congruence|]. unfold inc64 in Hn. rewrite (N.mod_small _ two64) in Hn by lia.
    destruct (N.eq_dec (msgToCount w + 1) ratio) as [E1|E1].
    + rewrite E1, N.mod_same in Hn by exact Hr. congruence.
    + rewrite N.mod_small in Hn by lia. lia.
Qed.

Lemma quiet_bound_any ratio first : ratio <> 0%N -> (ratio < two64)%N -> forall ts w ds w',
  loop ratio first w ts = (ds, inl w') -> quietRun ds -> (N.of_nat (length ts) <= ratio)%N.
Proof.
  intros Hr Hr2 [|t ts] w ds w' H Hq; [cbn; lia|].
  cbn [loop] in H. destruct (turn ratio first w t) as [d [w1|e]] eqn:Et; [|discriminate].
  destruct (loop ratio first w1 ts) as [ds1 o] eqn:El. injection H as <- ->.
  assert (Hd : handled d = false) by (apply Hq; left; reflexivity).
  destruct (turn_quiet _ _ _ _ _ _ Hr Et Hd) as (Hm & _ & Hn).
  assert (Hi : (inc64 (msgToCount w) mod ratio < ratio)%N) by (apply N.mod_lt; exact Hr).
  assert (Hc1 : (msgToCount w1 < ratio)%N) by (destruct Hn as [->| ->]; lia).
  destruct (quiet_bound ratio first Hr Hr2 ts w1 ds1 w' El ltac:(intros x Hx; apply Hq; right; exact Hx) Hc1) as [I1 I2].
  cbn [length]. destruct (N.eq_dec (msgToCount w1) 0) as [E0|E0]; [rewrite (I2 E0); cbn; lia|]. lia.
Qed.

(** ** Leaving *)

Definition gone (o : Worker + Exit) : Prop := exists e, o = inr e.

(** A turn that handles messages while the state is not active ends the loop without a traversal. *)
Lemma turn_inactive ratio first w t d o : turn ratio first w t = (d, o) -> handled d = true -> isActive (stateNow t) = false ->
  worked d = false /\ gone o.
Proof.
  intros H Hh Ha. unfold turn in H.
  destruct ((msgToCount w =? 0)%N || (first && pending t)) eqn:Em.
  - destruct (true && first && exchanged t); [injection H as <- <-; split; [reflexivity|exists ExExchanged; reflexivity]|].
    assert (Hn : lstate_eqb (stateNow t) RUNNING = false) by (destruct (stateNow t); try reflexivity; discriminate).
    rewrite Hn, Ha in H. cbn [andb] in H. destruct (result t); injection H as <- <-; (split; [reflexivity|eexists; reflexivity]).
  - exfalso. cbn [andb] in H. destruct (nextCount ratio (msgToCount w)); [|injection H as <- <-; discriminate].
    destruct (lstate_eqb (activeState w) RUNNING && granted t && negb (noBlocks t)), (result t); injection H as <- _; discriminate.
Qed.

Definition workedIn (ds : list Did) : nat := length (filter worked ds).

Lemma workedIn_le ds : workedIn ds <= length ds.
Proof. unfold workedIn. induction ds as [|d ds IH]; cbn [filter]; [cbn; lia|]. destruct (worked d); cbn [length]; lia. Qed.

(** All turns quiet, or one of them handled messages and the loop ended there. *)
Lemma inactive_run ratio first : forall ts w ds o,
  loop ratio first w ts = (ds, o) -> (forall t, In t ts -> isActive (stateNow t) = false) ->
  (quietRun ds) \/ (exists ds' d, ds = ds' ++ [d] /\ quietRun ds' /\ worked d = false /\ gone o).
Proof.
  induction ts as [|t ts IH]; intros w ds o H Ha; cbn [loop] in H.
  - injection H as <- <-. left. intros d [].
  - destruct (turn ratio first w t) as [d [w1|e]] eqn:Et.
    + destruct (loop ratio first w1 ts) as [ds1 o1] eqn:El. injection H as <- <-.
      destruct (handled d) eqn:Eh.
      { destruct (turn_inactive _ _ _ _ _ _ Et Eh (Ha t (or_introl eq_refl))) as [_ [e E]]. discriminate. }
      destruct (IH w1 ds1 o1 El ltac:(intros x Hx; apply Ha; right; exact Hx)) as [Hq|(ds' & d' & -> & Hq & Hw & Hg)].
      * left. intros x [<-|Hx]; [exact Eh|exact (Hq x Hx)].
      * right. exists (d :: ds'), d'. split; [reflexivity|]. split; [|split; assumption].
        intros x [<-|Hx]; [exact Eh|exact (Hq x Hx)].
    + injection H as <- <-. destruct (handled d) eqn:Eh.
      * destruct (turn_inactive _ _ _ _ _ _ Et Eh (Ha t (or_introl eq_refl))) as [Hw Hg].
        right. exists [], d. split; [reflexivity|]. split; [intros x []|]. split; assumption.
      * left. intros x [<-|[]]. exact Eh.
Qed.

Lemma loop_len ratio first : forall ts w ds w', loop ratio first w ts = (ds, inl w') -> length ds = length ts.
Proof.
  induction ts as [|t ts IH]; intros w ds w' H; cbn [loop] in H.
  - injection H as <- <-. reflexivity.
  - destruct (turn ratio first w t) as [d [w1|e]]; [|discriminate]. destruct (loop ratio first w1 ts) as [ds1 o] eqn:El.
    injection H as <- ->. cbn [length]. f_equal. exact (IH _ _ _ El).
Qed.

(** The quiet prefix of a run that ends is itself a run that goes on up to its last turn. *)
Lemma loop_snoc ratio first : forall ts w ds e, loop ratio first w ts = (ds, inr e) ->
  exists ts' t ds' d w' rest, ts = ts' ++ t :: rest /\ ds = ds' ++ [d] /\ loop ratio first w ts' = (ds', inl w') /\ turn ratio first w' t = (d, inr e).
Proof.
  induction ts as [|t ts IH]; intros w ds e H; cbn [loop] in H; [discriminate|].
  destruct (turn ratio first w t) as [d [w1|e1]] eqn:Et.
  - destruct (loop ratio first w1 ts) as [ds1 o] eqn:El. injection H as <- ->.
    destruct (IH w1 ds1 e El) as (ts' & t' & ds' & d' & w' & rest & -> & -> & L & T).
    exists (t :: ts'), t', (d :: ds'), d', w', rest. split; [reflexivity|]. split; [reflexivity|]. split; [|exact T].
    cbn [loop]. rewrite Et, L. reflexivity.
  - injection H as <- <-. exists [], t, [], d, w, ts. split; [reflexivity|]. split; [reflexivity|]. split; [reflexivity|exact Et].
Qed.
