(** Sources are sorted by name; job lists of any block list. *)
From Coq Require Import Ascii String ZArith NArith Bool Arith Permutation Sorted Lia ZifyBool ZifyNat ZifyN List.
From Verif Require Import Base TopoModel TopoSpec TopoProofs TopoSearch TopoMoreProofs.
Import ListNotations.
Local Open Scope nat_scope.

Lemma ascii_cmp x y : Ascii.compare x y = Nat.compare (nat_of_ascii x) (nat_of_ascii y).
Proof. unfold Ascii.compare, nat_of_ascii. rewrite N2Nat.inj_compare. reflexivity. Qed.

Lemma ltb_notAfter a : forall b, String.ltb a b = true -> notAfter a b.
Proof.
  unfold String.ltb. induction a as [|x a IH]; intros [|y b]; cbn; try congruence; try trivial; intros H.
  rewrite ascii_cmp in H. destruct (Nat.compare_spec (nat_of_ascii x) (nat_of_ascii y)) as [E|L|L]; try discriminate.
  - right. split; [rewrite <- (ascii_nat_embedding x), <- (ascii_nat_embedding y), E; reflexivity|apply IH; exact H].
  - left. exact L.
Qed.

Lemma nltb_notAfter a : forall b, String.ltb a b = false -> notAfter b a.
Proof.
  unfold String.ltb. induction a as [|x a IH]; intros [|y b]; cbn; try congruence; try trivial; intros H.
  rewrite ascii_cmp in H. destruct (Nat.compare_spec (nat_of_ascii x) (nat_of_ascii y)) as [E|L|L]; try discriminate.
  - right. split; [rewrite <- (ascii_nat_embedding x), <- (ascii_nat_embedding y), E; reflexivity|apply IH; exact H].
  - left. exact L.
Qed.

Lemma notAfter_trans a : forall b c, notAfter a b -> notAfter b c -> notAfter a c.
Proof.
  induction a as [|x a IH]; intros [|y b] [|z c]; cbn; try tauto.
  intros [L|[-> H]] [L'|[<- H']]; [left; lia|left; exact L|left; exact L'|right; split; [reflexivity|apply (IH b c H H')]].
Qed.

Definition before (name : nat -> string) (x y : nat) : Prop := notAfter (name x) (name y).

Lemma insert_sorted name b l : StronglySorted (before name) l -> StronglySorted (before name) (insertByName name b l).
Proof.
  induction l as [|c l IH]; intros H; cbn; [constructor; constructor|].
  inversion H as [|? ? Hs Hf]; subst. destruct (String.ltb (name c) (name b)) eqn:E.
  - constructor; [apply IH; exact Hs|]. apply Forall_forall. intros x Hx.
    assert (X : x = b \/ In x l).
    { clear - Hx. induction l as [|d l IH]; cbn in Hx; [destruct Hx as [<-|[]]; left; reflexivity|].
      destruct (String.ltb (name d) (name b)).
      - destruct Hx as [<-|Hx]; [right; left; reflexivity|]. destruct (IH Hx) as [->|Y]; [left; reflexivity|right; right; exact Y].
      - destruct Hx as [<-|Hx]; [left; reflexivity|right; exact Hx]. }
    destruct X as [->|X]; [apply ltb_notAfter; exact E|]. rewrite Forall_forall in Hf. apply Hf. exact X.
  - assert (B : before name b c) by (apply nltb_notAfter; exact E).
    constructor; [exact H|]. constructor; [exact B|]. apply Forall_forall. intros x Hx.
    rewrite Forall_forall in Hf. apply (notAfter_trans _ (name c)); [exact B|apply Hf; exact Hx].
Qed.

Lemma sort_sorted name l : StronglySorted (before name) (sortByName name l).
Proof. induction l as [|b l IH]; cbn; [constructor|apply insert_sorted; exact IH]. Qed.

Lemma sorted_byName name l : StronglySorted (before name) l -> byName name l.
Proof.
  induction l as [|b l IH]; intros H i j x y L Hx Hy; [destruct i; discriminate|].
  inversion H as [|? ? Hs Hf]; subst. destruct j as [|j]; [lia|]. cbn in Hy. destruct i as [|i]; cbn in Hx.
  - injection Hx as ->. rewrite Forall_forall in Hf. apply Hf. eapply nth_error_In; exact Hy.
  - apply (IH Hs i j x y); [lia|exact Hx|exact Hy].
Qed.

Lemma sources_byName name a : byName name (findSourceBlocks name a).
Proof. apply sorted_byName. apply sort_sorted. Qed.

(** ** Job lists of a given list of blocks *)
Lemma nBatches_pos p threads n : 1 <= threads -> 1 <= n -> 0 < nBatches p threads n.
Proof. intros H1 H2. destruct p; cbn; lia. Qed.

Lemma jobs_empty p threads : concat (batchBlocks [] (nBatches p threads 0)) = [].
Proof. destruct p; cbn; try reflexivity. rewrite Nat.min_0_r. reflexivity. Qed.

Lemma jobs_In p threads bs b : 1 <= threads ->
  (In b (concat (batchBlocks bs (nBatches p threads (length bs)))) <-> In b bs).
Proof.
  intros H. destruct bs as [|x bs]; [cbn [length]; rewrite jobs_empty; tauto|].
  apply (roundRobin_In _ (nBatches p threads (length (x :: bs)))); [|apply batch_roundRobin]; apply nBatches_pos; cbn; lia.
Qed.

Lemma jobs_once p threads bs : 1 <= threads -> NoDup bs -> once (batchBlocks bs (nBatches p threads (length bs))).
Proof.
  intros H HN. destruct bs as [|x bs].
  - intros b k l j j' m m' Ek Em. exfalso. pose proof (jobs_empty p threads) as E. cbn [length] in Ek.
    assert (X : In b (concat (batchBlocks [] (nBatches p threads 0)))).
    { apply in_concat. exists j. split; eapply nth_error_In; eassumption. }
    rewrite E in X. exact X.
  - intros b k l j j' m m'. apply (roundRobin_unique (x :: bs) (nBatches p threads (length (x :: bs)))).
    + apply nBatches_pos; cbn; lia.
    + apply batch_roundRobin. apply nBatches_pos; cbn; lia.
    + exact HN.
Qed.
