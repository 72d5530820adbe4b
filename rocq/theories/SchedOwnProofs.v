(** Proofs about who runs which block: the invariant of well timed histories. *)
From Coq Require Import NArith Bool Arith Lia List.
From Verif Require Import Base LifecycleModel.
From Verif Require TopoModel TopoSpec TopoSearch TopoMoreProofs TopoNameProofs.
From Verif Require Import SchedModel SchedSpec.
Import ListNotations.
Local Open Scope nat_scope.

Definition at_ (ls : list (list nat)) (i : nat) : list nat := nth i ls [].

Lemma memb_In b l : memb b l = true <-> In b l.
Proof.
  unfold memb. rewrite existsb_exists. split.
  - intros (x & H & E). apply Nat.eqb_eq in E. subst. exact H.
  - intros H. exists b. split; [exact H|apply Nat.eqb_refl].
Qed.

Lemma memb_not b l : memb b l = false <-> ~ In b l.
Proof. rewrite <- memb_In. destruct (memb b l); split; congruence. Qed.

Lemma without_In x rm l : In x (without rm l) <-> In x l /\ ~ In x rm.
Proof. unfold without. rewrite filter_In, negb_true_iff, memb_not. tauto. Qed.

Lemma within_In x rm l : In x (within rm l) <-> In x l /\ In x rm.
Proof. unfold within. rewrite filter_In, memb_In. tauto. Qed.

Lemma NoDup_without rm l : NoDup l -> NoDup (without rm l).
Proof. apply NoDup_filter. Qed.

Lemma without_nil rm : without rm [] = [].
Proof. reflexivity. Qed.

Lemma without_none l : without [] l = l.
Proof. unfold without. induction l as [|x l IH]; cbn; [reflexivity|]. f_equal. exact IH. Qed.

Lemma without_without rm z m : without rm (without [z] m) = without (z :: rm) m.
Proof.
  unfold without, memb. induction m as [|a m IHm]; [reflexivity|]. cbn [filter existsb].
  rewrite orb_false_r. destruct (a =? z); cbn [orb negb]; [exact IHm|]. cbn [filter existsb] in *. rewrite <- IHm. reflexivity.
Qed.

Lemma removeOne_In x b l : NoDup l -> (In x (removeOne b l) <-> In x l /\ x <> b).
Proof.
  induction l as [|y l IH]; intros HN; cbn [removeOne In]; [tauto|]. inversion HN as [|? ? Hy Hl]; subst.
  destruct (Nat.eqb_spec y b) as [->|Hyb].
  - split; [intros H; split; [tauto|]|]; [intros ->; tauto|]. intros [[->|H] Hn]; [congruence|exact H].
  - cbn [In]. rewrite (IH Hl). split; [intros [->|[A B]]; [split; [tauto|congruence]|tauto]|tauto].
Qed.

Lemma removeOne_sub x b l : In x (removeOne b l) -> In x l.
Proof. induction l as [|y l IH]; cbn [removeOne In]; [tauto|]. destruct (y =? b); cbn [In]; tauto. Qed.

Lemma removeOne_NoDup b l : NoDup l -> NoDup (removeOne b l).
Proof.
  induction l as [|y l IH]; intros HN; cbn [removeOne]; [constructor|]. inversion HN as [|? ? Hy Hl]; subst.
  destruct (y =? b); [exact Hl|]. constructor; [intros H; apply Hy; exact (removeOne_sub _ _ _ H)|exact (IH Hl)].
Qed.

Lemma removeOne_without b l : NoDup l -> removeOne b l = without [b] l.
Proof.
  induction l as [|y l IH]; intros HN; [reflexivity|]. inversion HN as [|? ? Hy Hl]; subst.
  unfold without. cbn [removeOne filter]. unfold memb. cbn [existsb]. rewrite orb_false_r.
  destruct (Nat.eqb_spec y b) as [->|Hyb]; cbn [negb].
  - rewrite <- (without_none l) at 1. unfold without. apply filter_ext_in. intros a Ha. cbn [memb existsb].
    unfold memb. cbn [existsb]. rewrite orb_false_r. destruct (Nat.eqb_spec a b) as [->|]; [contradiction|reflexivity].
  - f_equal. rewrite (IH Hl). reflexivity.
Qed.

(** ** Lists of lists *)

Lemma at_out ls i : length ls <= i -> at_ ls i = [].
Proof. apply nth_overflow. Qed.

Lemma at_upd ls i j v : at_ (upd ls i v) j = if (i =? j) && (i <? length ls) then v else at_ ls j.
Proof.
  unfold at_. revert i j; induction ls as [|x ls IH]; intros [|i] [|j]; cbn [upd nth length]; try reflexivity.
  - destruct (S i =? S j) eqn:E; cbn; reflexivity || (destruct j; reflexivity).
  - rewrite IH. cbn [Nat.eqb]. destruct (i =? j); cbn [andb]; [|reflexivity].
    replace (S i <? S (length ls)) with (i <? length ls) by reflexivity. reflexivity.
Qed.

Lemma at_upd_in ls i j v : i < length ls -> at_ (upd ls i v) j = if i =? j then v else at_ ls j.
Proof. intros H. rewrite at_upd. apply Nat.ltb_lt in H. rewrite H, andb_true_r. reflexivity. Qed.

Lemma at_some ls i l : nth_error ls i = Some l -> at_ ls i = l.
Proof. intros H. unfold at_. apply nth_error_nth with (d := []) in H. exact H. Qed.

Lemma nth_some {A} (ls : list A) i : i < length ls -> exists l, nth_error ls i = Some l.
Proof. intros H. destruct (nth_error ls i) eqn:E; [eauto|]. apply nth_error_None in E. lia. Qed.

Lemma nth_lt {A} (ls : list A) i l : nth_error ls i = Some l -> i < length ls.
Proof. intros H. apply nth_error_Some. congruence. Qed.

Lemma at_in_concat ls i b : In b (at_ ls i) -> In b (concat ls).
Proof.
  intros H. destruct (lt_dec i (length ls)) as [L|L]; [|rewrite at_out in H by lia; destruct H].
  apply in_concat. exists (at_ ls i). split; [apply nth_In; exact L|exact H].
Qed.

Lemma concat_in_at ls b : In b (concat ls) -> exists i, In b (at_ ls i) /\ i < length ls.
Proof.
  intros H. apply in_concat in H as (l & Hl & Hb). apply In_nth_error in Hl as (i & Hi). exists i.
  split; [rewrite (at_some _ _ _ Hi); exact Hb|exact (nth_lt _ _ _ Hi)].
Qed.

Lemma at_map_without rm ls i : at_ (map (without rm) ls) i = without rm (at_ ls i).
Proof. unfold at_. rewrite <- (without_nil rm) at 1. apply map_nth. Qed.

(** ** Each block in one place *)

Definition single (ls : list (list nat)) : Prop :=
  (forall i, NoDup (at_ ls i)) /\ forall i j b, In b (at_ ls i) -> In b (at_ ls j) -> i = j.

Definition apart (ls ms : list (list nat)) : Prop := forall i j b, In b (at_ ls i) -> In b (at_ ms j) -> False.

Lemma single_sub ls ms : single ls -> (forall i, NoDup (at_ ms i)) -> (forall i b, In b (at_ ms i) -> In b (at_ ls i)) -> single ms.
Proof. intros [_ H] HN HS. split; [exact HN|]. intros i j b Hi Hj. apply (H i j b); apply HS; assumption. Qed.

Lemma eraseJob_len b ls : length (eraseJob b ls) = length ls.
Proof. induction ls as [|l r IH]; cbn [eraseJob]; [reflexivity|]. destruct (memb b l); cbn [length]; congruence. Qed.

(** With every block in one place, erasing the first occurrence erases every occurrence. *)
Lemma eraseJob_at b ls i : single ls -> at_ (eraseJob b ls) i = without [b] (at_ ls i).
Proof.
  intros [HN HS]. revert i. induction ls as [|l r IH]; intros i; cbn [eraseJob].
  - rewrite at_out by (cbn; lia). reflexivity.
  - destruct (memb b l) eqn:E.
    + destruct i as [|i]; [reflexivity|]. cbn [at_ nth]. symmetry. unfold at_. cbn [nth].
      apply memb_In in E. transitivity (without [] (nth i r [])); [|apply without_none].
      unfold without. apply filter_ext_in. intros a Ha. f_equal. apply eq_true_iff_eq. rewrite !memb_In. cbn [In].
      split; [intros [->|[]]|intros []]. specialize (HS 0 (S i) a E Ha). discriminate.
    + destruct i as [|i].
      * cbn [at_ nth]. unfold at_. cbn [nth]. symmetry. transitivity (without [] l); [|apply without_none].
        unfold without. apply filter_ext_in. intros a Ha. f_equal. apply eq_true_iff_eq. rewrite !memb_In. cbn [In].
        split; [intros [->|[]]|intros []]. apply memb_not in E. contradiction.
      * unfold at_. cbn [nth]. apply IH.
        -- intros j. exact (HN (S j)).
        -- intros j k x Hj Hk. specialize (HS (S j) (S k) x Hj Hk). lia.
Qed.

Lemma eraseAdoption_spec b ls ls' : eraseAdoption b ls = Some ls' ->
  length ls' = length ls /\ (forall i x, In x (at_ ls' i) -> In x (at_ ls i)) /\
  ((forall i, NoDup (at_ ls i)) -> forall i, NoDup (at_ ls' i)).
Proof.
  revert ls'; induction ls as [|l r IH]; intros ls' H; cbn [eraseAdoption] in H; [discriminate|].
  destruct (memb b l) eqn:E.
  - injection H as <-. split; [reflexivity|]. split.
    + intros [|i] x Hx; [exact (removeOne_sub _ _ _ Hx)|exact Hx].
    + intros HN [|i]; [exact (removeOne_NoDup _ _ (HN 0))|exact (HN (S i))].
  - destruct (eraseAdoption b r) as [r'|]; [|discriminate]. injection H as <-.
    destruct (IH r' eq_refl) as (A & B & C). split; [cbn; congruence|]. split.
    + intros [|i] x Hx; [exact Hx|exact (B i x Hx)].
    + intros HN [|i]; [exact (HN 0)|exact (C (fun j => HN (S j)) i)].
Qed.

Lemma eraseAdoption_none b ls : eraseAdoption b ls = None -> forall i, ~ In b (at_ ls i).
Proof.
  induction ls as [|l r IH]; intros H i; cbn [eraseAdoption] in H.
  - rewrite at_out by (cbn; lia). tauto.
  - destruct (memb b l) eqn:E; [discriminate|]. destruct (eraseAdoption b r) eqn:E2; [discriminate|].
    destruct i as [|i]; [apply memb_not; exact E|exact (IH eq_refl i)].
Qed.

(** With every block in one place, the block is nowhere any more. *)
Lemma eraseAdoption_gone b ls ls' : eraseAdoption b ls = Some ls' -> single ls -> forall i, ~ In b (at_ ls' i).
Proof.
  revert ls'; induction ls as [|l r IH]; intros ls' H [HN HS] i; cbn [eraseAdoption] in H; [discriminate|].
  destruct (memb b l) eqn:E.
  - injection H as <-. apply memb_In in E. destruct i as [|i].
    + cbn. unfold at_. cbn [nth]. rewrite (removeOne_In b b l (HN 0)). tauto.
    + intros X. specialize (HS 0 (S i) b E X). discriminate.
  - destruct (eraseAdoption b r) as [r'|] eqn:E2; [|discriminate]. injection H as <-.
    destruct i as [|i]; [apply memb_not; exact E|]. apply (IH r' eq_refl).
    split; [intros j; exact (HN (S j))|]. intros j k x Hj Hk. specialize (HS (S j) (S k) x Hj Hk). lia.
Qed.

(** ** Zombies *)

Lemma cleanZ_spec zs : forall l ex f, NoDup l -> single ex ->
  let '(zs', l', ex', f') := cleanZ zs l ex f in
  exists rm, (forall b, In b rm -> In b l /\ In b zs /\ stopped (f b) = true) /\
    l' = without rm l /\ length ex' = length ex /\ (forall i, at_ ex' i = without rm (at_ ex i)) /\
    (forall z, In z zs' -> In z zs) /\ (NoDup zs -> NoDup zs' /\ forall z, In z zs -> (In z zs' <-> ~ In z rm)) /\
    (NoDup zs -> forall z, In z zs -> In z l -> stopped (f z) = true -> In z rm) /\
    (NoDup zs -> forall b, f' b = f b \/ (In b zs' /\ In b l /\ f b = PAUSED /\ f' b = REQUESTED_STOP)).
Proof.
  induction zs as [|z r IH]; intros l ex f HN HS; cbn [cleanZ].
  - exists []. split; [intros b []|]. split; [symmetry; apply without_none|]. split; [reflexivity|].
    split; [intros i; symmetry; apply without_none|]. split; [tauto|]. split; [intros _; split; [constructor|intros z []]|].
    split; [intros _ z []|]. intros _ b. left. reflexivity.
  - assert (KEEP : forall f1, (f1 = f /\ (In z l -> stopped (f z) = false)) \/ (f1 = setSt f z REQUESTED_STOP /\ f z = PAUSED /\ In z l) ->
      let '(zs', l', ex', f') := (let '(zs', l', ex', f') := cleanZ r l ex f1 in (z :: zs', l', ex', f')) in
      exists rm, (forall b, In b rm -> In b l /\ In b (z :: r) /\ stopped (f b) = true) /\
        l' = without rm l /\ length ex' = length ex /\ (forall i, at_ ex' i = without rm (at_ ex i)) /\
        (forall x, In x zs' -> In x (z :: r)) /\ (NoDup (z :: r) -> NoDup zs' /\ forall x, In x (z :: r) -> (In x zs' <-> ~ In x rm)) /\
        (NoDup (z :: r) -> forall x, In x (z :: r) -> In x l -> stopped (f x) = true -> In x rm) /\
        (NoDup (z :: r) -> forall b, f' b = f b \/ (In b zs' /\ In b l /\ f b = PAUSED /\ f' b = REQUESTED_STOP))).
    { intros f1 Hf1. specialize (IH l ex f1 HN HS). destruct (cleanZ r l ex f1) as [[[zs' l'] ex'] f'].
      destruct IH as (rm & R1 & R2 & R3 & R4 & R5 & R6 & R7 & R8).
      assert (Hst : forall b, stopped (f1 b) = true -> stopped (f b) = true).
      { intros b Hb. destruct Hf1 as [[-> _]|(-> & _ & _)]; [exact Hb|]. unfold setSt in Hb. destruct (b =? z); [discriminate|exact Hb]. }
      assert (Hst' : forall b, b <> z -> f1 b = f b).
      { intros b Hb. destruct Hf1 as [[-> _]|(-> & _ & _)]; [reflexivity|]. unfold setSt. apply Nat.eqb_neq in Hb. rewrite Hb. reflexivity. }
      assert (Hz : forall b, In b rm -> NoDup (z :: r) -> b <> z).
      { intros b Hb HNz ->. inversion HNz; subst. destruct (R1 z Hb) as (_ & A & _). contradiction. }
      exists rm. split. { intros b Hb. destruct (R1 b Hb) as (A & B & C). split; [exact A|]. split; [right; exact B|exact (Hst b C)]. }
      split; [exact R2|]. split; [exact R3|]. split; [exact R4|].
      split. { intros x [->|Hx]; [left; reflexivity|right; exact (R5 x Hx)]. }
      split. { intros HNz. pose proof HNz as HNz'. inversion HNz' as [|? ? Hzr HNr]; subst. destruct (R6 HNr) as [N1 N2]. split.
               - constructor; [intros H; apply Hzr; exact (R5 z H)|exact N1].
               - intros x Hx. cbn [In]. split.
                 + intros [->|Hx'] Hrm; [exact (Hz x Hrm HNz eq_refl)|]. destruct Hx as [->|Hx]; [exact (Hz x Hrm HNz eq_refl)|].
                   exact (proj1 (N2 x Hx) Hx' Hrm).
                 + intros Hrm. destruct Hx as [->|Hx]; [left; reflexivity|right; exact (proj2 (N2 x Hx) Hrm)]. }
      split. { intros HNz x Hx Hxl Hs. pose proof HNz as HNz'. inversion HNz' as [|? ? Hzr HNr]; subst. destruct Hx as [<-|Hx].
               - exfalso. destruct Hf1 as [[_ Hk]|(_ & Hp & _)]; [rewrite (Hk Hxl) in Hs; discriminate|rewrite Hp in Hs; discriminate].
               - apply (R7 HNr x Hx Hxl). rewrite (Hst' x); [exact Hs|]. intros ->. contradiction. }
      intros HNz b. pose proof HNz as HNz'. inversion HNz' as [|? ? Hzr HNr]; subst. destruct (Nat.eq_dec b z) as [->|Hb].
      - destruct (R8 HNr z) as [E|(A & _)]; [|exfalso; apply Hzr; exact (R5 z A)]. rewrite E.
        destruct Hf1 as [[-> _]|(-> & Hp & Hl)]; [left; reflexivity|]. right.
        split; [left; reflexivity|]. split; [exact Hl|]. split; [exact Hp|]. unfold setSt. rewrite Nat.eqb_refl. reflexivity.
      - destruct (R8 HNr b) as [E|(A & B & C & D)]; [left; rewrite E; apply Hst'; exact Hb|].
        right. split; [right; exact A|]. split; [exact B|]. split; [rewrite <- (Hst' b Hb); exact C|exact D]. }
    destruct (memb z l) eqn:E.
    + apply memb_In in E.
      assert (DROP : stopped (f z) = true ->
        let '(zs', l', ex', f') := cleanZ r (removeOne z l) (eraseJob z ex) f in
        exists rm, (forall b, In b rm -> In b l /\ In b (z :: r) /\ stopped (f b) = true) /\
          l' = without rm l /\ length ex' = length ex /\ (forall i, at_ ex' i = without rm (at_ ex i)) /\
          (forall x, In x zs' -> In x (z :: r)) /\ (NoDup (z :: r) -> NoDup zs' /\ forall x, In x (z :: r) -> (In x zs' <-> ~ In x rm)) /\
          (NoDup (z :: r) -> forall x, In x (z :: r) -> In x l -> stopped (f x) = true -> In x rm) /\
          (NoDup (z :: r) -> forall b, f' b = f b \/ (In b zs' /\ In b l /\ f b = PAUSED /\ f' b = REQUESTED_STOP))).
      { intros Hst.
        assert (HS' : single (eraseJob z ex)).
        { apply (single_sub ex); [exact HS| |]; intros i; rewrite (eraseJob_at z ex i HS).
          - apply NoDup_without. apply HS.
          - intros b Hb. apply without_In in Hb. tauto. }
        specialize (IH (removeOne z l) (eraseJob z ex) f (removeOne_NoDup z l HN) HS').
        destruct (cleanZ r (removeOne z l) (eraseJob z ex) f) as [[[zs' l'] ex'] f'].
        destruct IH as (rm & R1 & R2 & R3 & R4 & R5 & R6 & R7 & R8).
        assert (WW : forall m, without rm (without [z] m) = without (z :: rm) m) by (intros m; apply without_without).
        exists (z :: rm). split.
        { intros b [<-|Hb]; [split; [exact E|split; [left; reflexivity|exact Hst]]|].
          destruct (R1 b Hb) as (A & B & C). split; [exact (removeOne_sub _ _ _ A)|]. split; [right; exact B|exact C]. }
        split. { rewrite R2, (removeOne_without z l HN). apply WW. }
        split. { rewrite R3. apply eraseJob_len. }
        split. { intros i. rewrite R4, (eraseJob_at z ex i HS). apply WW. }
        split. { intros x Hx. right. exact (R5 x Hx). }
        split. { intros HNz. inversion HNz as [|? ? Hzr HNr]; subst. destruct (R6 HNr) as [N1 N2]. split; [exact N1|].
                 intros x Hx. cbn [In]. split.
                 - intros Hx' [<-|Hrm]; [apply Hzr; exact (R5 _ Hx')|]. destruct Hx as [<-|Hx]; [apply Hzr; exact (R5 _ Hx')|]. exact (proj1 (N2 x Hx) Hx' Hrm).
                 - intros Hn. destruct Hx as [<-|Hx]; [exfalso; apply Hn; left; reflexivity|]. apply (N2 x Hx). tauto. }
        split. { intros HNz x Hx Hxl Hs. inversion HNz as [|? ? Hzr HNr]; subst. destruct Hx as [<-|Hx]; [left; reflexivity|]. right.
                 apply (R7 HNr x Hx); [|exact Hs]. apply (removeOne_In x z l HN). split; [exact Hxl|]. intros ->. contradiction. }
        intros HNz b. inversion HNz as [|? ? Hzr HNr]; subst. destruct (R8 HNr b) as [X|(A & B & C & D)]; [left; exact X|].
        right. split; [exact A|]. split; [exact (removeOne_sub _ _ _ B)|]. split; assumption. }
      destruct (f z) eqn:Ez; try (apply DROP; reflexivity).
      * apply KEEP. left. split; [reflexivity|]. intros _. reflexivity.
      * apply KEEP. left. split; [reflexivity|]. intros _. reflexivity.
      * apply KEEP. right. split; [reflexivity|]. split; [reflexivity|exact E].
      * apply KEEP. left. split; [reflexivity|]. intros _. reflexivity.
    + apply memb_not in E. apply KEEP. left. split; [reflexivity|]. intros X. contradiction.
Qed.
