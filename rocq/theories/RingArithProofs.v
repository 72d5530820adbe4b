From Coq Require Import ZArith Lia Znumtheory Bool.
From Verif Require Import RingModel RingArithModel.
Local Open Scope Z_scope.

Lemma pow2b_spec n : pow2b n = true -> exists k, 0 <= k /\ n = 2 ^ k.
Proof.
  unfold pow2b. intros H. apply andb_prop in H. destruct H as [H1 H2].
  apply Z.ltb_lt in H1. apply Z.eqb_eq in H2.
  exists (Z.log2 n). split; [apply Z.log2_nonneg|].
  destruct (Z.log2_spec n H1) as [L U].
  destruct (Z.eq_dec n (2 ^ Z.log2 n)) as [E|E]; [exact E|exfalso].
  assert (Hlt : 2 ^ Z.log2 n <= n - 1) by lia.
  assert (Hl : Z.log2 (n - 1) = Z.log2 n).
  { apply Z.log2_unique; [apply Z.log2_nonneg|]. split; lia. }
  assert (Hp : 0 < n - 1) by (pose proof (Z.pow_pos_nonneg 2 (Z.log2 n) ltac:(lia) (Z.log2_nonneg n)); lia).
  assert (T1 : Z.testbit n (Z.log2 n) = true) by (apply Z.bit_log2; exact H1).
  assert (T2 : Z.testbit (n - 1) (Z.log2 n) = true) by (rewrite <- Hl; apply Z.bit_log2; exact Hp).
  assert (T : Z.testbit (Z.land n (n - 1)) (Z.log2 n) = true) by (rewrite Z.land_spec, T1, T2; reflexivity).
  rewrite H2, Z.bits_0 in T. discriminate.
Qed.

Lemma calcIndex_mod N p : calcIndex N p = p mod N.
Proof.
  unfold calcIndex. destruct (pow2b N) eqn:E; [|reflexivity].
  destruct (pow2b_spec N E) as (k & Hk & ->).
  replace (2 ^ k - 1) with (Z.ones k) by (rewrite Z.ones_equiv; lia).
  apply Z.land_ones, Hk.
Qed.

Lemma pow2b_complete k : 0 <= k -> pow2b (2 ^ k) = true.
Proof.
  intros Hk. unfold pow2b. pose proof (Z.pow_pos_nonneg 2 k ltac:(lia) Hk) as Hp.
  apply andb_true_intro. split; [apply Z.ltb_lt; lia|]. apply Z.eqb_eq.
  replace (2 ^ k - 1) with (Z.ones k) by (rewrite Z.ones_equiv; lia).
  rewrite Z.land_ones by exact Hk. apply Z_mod_same_full.
Qed.

Lemma gcd_pos page elem : 0 < page -> 0 < elem -> 0 < Z.gcd page elem.
Proof. intros. pose proof (Z.gcd_nonneg page elem). destruct (Z.eq_dec (Z.gcd page elem) 0) as [E|]; [apply Z.gcd_eq_0_l in E|]; lia. Qed.

(** Number of elements per page-aligned group. *)
Definition group (page elem : Z) : Z := page / Z.gcd page elem.

Lemma group_pos page elem : 0 < page -> 0 < elem -> 0 < group page elem.
Proof.
  intros Hp He. unfold group. pose proof (gcd_pos page elem Hp He) as Hg.
  destruct (Z.gcd_divide_l page elem) as [q Hq].
  rewrite Hq at 1. rewrite Z.div_mul by lia. nia.
Qed.

Lemma page_multiple_iff page elem r : 0 < page -> 0 < elem -> ((r * elem) mod page = 0 <-> (group page elem | r)).
Proof.
  intros Hp He. pose proof (gcd_pos page elem Hp He) as Hg.
  rewrite Z.mod_divide by lia. unfold group.
  destruct (Z.gcd_divide_l page elem) as [q Hq]. destruct (Z.gcd_divide_r page elem) as [t Ht].
  set (g := Z.gcd page elem) in *.
  assert (Eq : page / g = q) by (rewrite Hq; apply Z.div_mul; lia). rewrite Eq.
  split.
  - intros [k Hk].
    assert (Hrq : r * t = k * q) by nia.
    assert (Hco : Z.gcd q t = 1).
    { assert (Hgg : g * Z.gcd q t = g) .
      { transitivity (Z.gcd (g * q) (g * t)); [rewrite Z.gcd_mul_mono_l_nonneg by lia; reflexivity|].
        unfold g at 3. f_equal; lia. }
      nia. }
    apply Z.gauss with (m := t); [exists k; lia|exact Hco].
  - intros [k Hk]. exists (k * t). nia.
Qed.

Lemma align_result page elem m : 0 < page -> 0 < elem -> 0 < m ->
  let r := align_with_page_size page elem m true in
  m <= r /\ (r * elem) mod page = 0 /\ (forall r', m <= r' -> (r' * elem) mod page = 0 -> r <= r').
Proof.
  intros Hp He Hm. cbv zeta. unfold align_with_page_size.
  assert (Hgr : (page / Z.gcd page elem) * elem / elem = group page elem) by (unfold group; apply Z.div_mul; lia).
  rewrite Hgr. pose proof (group_pos page elem Hp He) as Hg. set (g := group page elem) in *.
  pose proof (Z.div_mod (m + g - 1) g ltac:(lia)) as D. pose proof (Z.mod_pos_bound (m + g - 1) g Hg) as B.
  split; [|split].
  - lia.
  - apply page_multiple_iff; [exact Hp|exact He|]. fold g. exists ((m + g - 1) / g). reflexivity.
  - intros r' H1 H2. apply page_multiple_iff in H2; [|exact Hp|exact He]. fold g in H2. destruct H2 as [k ->].
    assert ((m + g - 1) / g <= k); [|nia].
    apply Z.lt_succ_r. apply Z.div_lt_upper_bound; [exact Hg|]. nia.
Qed.

Lemma align_linear page elem m : align_with_page_size page elem m false = m.
Proof. reflexivity. Qed.
