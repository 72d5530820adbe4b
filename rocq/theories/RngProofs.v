(* Proofs about the generator. *)

From Coq Require Import NArith ZArith Bool Lia List.
From Verif Require Import RngModel RngSpec.
Import ListNotations.

Local Open Scope N_scope.

Lemma w64_mod : forall x, w64 x = x mod 2 ^ 64.
Proof. intros x; unfold w64. apply N.land_ones. Qed.
Lemma w64_lt : forall x, w64 x < 2 ^ 64.
Proof. intros x; rewrite w64_mod. apply N.mod_lt. discriminate. Qed.
Lemma w64_bit : forall x i, N.testbit (w64 x) i = N.testbit x i && (i <? 64).
Proof.
  intros x i; unfold w64. rewrite N.land_spec. f_equal. destruct (N.ltb_spec i 64).
  - apply N.ones_spec_low. exact H.
  - apply N.ones_spec_high. exact H.
Qed.
Lemma high : forall x i, x < 2 ^ 64 -> 64 <= i -> N.testbit x i = false.
Proof. intros x i H L. rewrite <- (N.mod_small x (2 ^ 64) H). apply N.mod_pow2_bits_high. exact L. Qed.
Lemma bounded : forall x, (forall i, 64 <= i -> N.testbit x i = false) -> x < 2 ^ 64.
Proof.
  intros x H. assert (E : x = w64 x).
  { apply N.bits_inj. intros i. rewrite w64_bit. destruct (N.ltb_spec i 64) as [L | L].
    - rewrite andb_true_r. reflexivity.
    - rewrite (H i L). reflexivity. }
  rewrite E. apply w64_lt.
Qed.
Lemma lxor_lt : forall a b, a < 2 ^ 64 -> b < 2 ^ 64 -> N.lxor a b < 2 ^ 64.
Proof. intros a b Ha Hb. apply bounded. intros i L. rewrite N.lxor_spec, (high a), (high b) by assumption. reflexivity. Qed.
Lemma shiftr_lt : forall a k, a < 2 ^ 64 -> N.shiftr a k < 2 ^ 64.
Proof. intros a k Ha. apply bounded. intros i L. rewrite N.shiftr_spec by apply N.le_0_l. apply high; [exact Ha|lia]. Qed.
Lemma rotl_lt : forall a k, a < 2 ^ 64 -> rotl a k < 2 ^ 64.
Proof.
  intros a k Ha. apply bounded. intros i L. unfold rotl. rewrite N.lor_spec.
  rewrite (high (shl a k)) by (unfold shl; solve [apply w64_lt | exact L]).
  rewrite (high (N.shiftr a (64 - k))) by (solve [apply shiftr_lt; exact Ha | exact L]). reflexivity.
Qed.

(* shifted exclusive or *)
Lemma shiftr_fix : forall d k, 0 < k -> d = N.shiftr d k -> d = 0.
Proof.
  intros d k Hk H. rewrite N.shiftr_div_pow2 in H. destruct (N.eq_dec d 0) as [E | E]; [exact E|exfalso].
  assert (1 < 2 ^ k) by (apply N.pow_gt_1; lia).
  assert (d / 2 ^ k < d) by (apply N.div_lt; lia). lia.
Qed.
Lemma xor_swap : forall a b c d, N.lxor a b = N.lxor c d -> N.lxor a c = N.lxor b d.
Proof.
  intros a b c d H. apply N.bits_inj. intros i. assert (E : N.testbit (N.lxor a b) i = N.testbit (N.lxor c d) i) by (rewrite H; reflexivity).
  rewrite !N.lxor_spec in *. destruct (N.testbit a i), (N.testbit b i), (N.testbit c i), (N.testbit d i); cbn in *; congruence.
Qed.
Lemma xs_inj : forall k a b, 0 < k -> N.lxor a (N.shiftr a k) = N.lxor b (N.shiftr b k) -> a = b.
Proof.
  intros k a b Hk H. apply xor_swap in H. rewrite <- N.shiftr_lxor in H.
  apply N.lxor_eq. exact (shiftr_fix _ k Hk H).
Qed.
Lemma mul_inj : forall c ci a b, (c * ci) mod 2 ^ 64 = 1 -> a < 2 ^ 64 -> b < 2 ^ 64 -> mul a c = mul b c -> a = b.
Proof.
  intros c ci a b Hc Ha Hb H. unfold mul in H. rewrite !w64_mod in H.
  assert (P : 2 ^ 64 <> 0) by discriminate.
  assert (E : forall x, x < 2 ^ 64 -> ((x * c) mod 2 ^ 64 * ci) mod 2 ^ 64 = x).
  { intros x Hx. rewrite N.mul_mod_idemp_l by exact P. rewrite <- N.mul_assoc.
    rewrite <- N.mul_mod_idemp_r by exact P. rewrite Hc, N.mul_1_r. apply N.mod_small. exact Hx. }
  rewrite <- (E a Ha), <- (E b Hb), H. reflexivity.
Qed.

Lemma mix_lt : forall x, mix x < 2 ^ 64.
Proof. intros x. unfold mix. apply lxor_lt; [apply w64_lt|]. apply shiftr_lt, w64_lt. Qed.
Lemma mix_inj : forall a b, a < 2 ^ 64 -> b < 2 ^ 64 -> mix a = mix b -> a = b.
Proof.
  intros a b Ha Hb H. unfold mix in H.
  apply xs_inj in H; [|reflexivity].
  apply (mul_inj _ 3573116690164977347) in H; [|vm_compute; reflexivity| |].
  - apply xs_inj in H; [|reflexivity].
    apply (mul_inj _ 10871156337175269513) in H; [|vm_compute; reflexivity| |].
    + apply xs_inj in H; [|reflexivity]. exact H.
    + apply lxor_lt; [exact Ha|apply shiftr_lt; exact Ha].
    + apply lxor_lt; [exact Hb|apply shiftr_lt; exact Hb].
  - apply lxor_lt; [apply w64_lt|apply shiftr_lt, w64_lt].
  - apply lxor_lt; [apply w64_lt|apply shiftr_lt, w64_lt].
Qed.

Lemma add_inj : forall a b c, a < 2 ^ 64 -> b < 2 ^ 64 -> add a c = add b c -> a = b.
Proof.
  intros a b c Ha Hb H. unfold add in H. rewrite !w64_mod in H.
  assert (P : 2 ^ 64 <> 0) by discriminate.
  assert (E1 := N.div_mod (a + c) (2 ^ 64) P). assert (E2 := N.div_mod (b + c) (2 ^ 64) P). rewrite H in E1.
  set (q := (a + c) / 2 ^ 64) in *. set (r := (b + c) / 2 ^ 64) in *. clearbody q r. nia.
Qed.
Lemma add_gamma : forall a, a < 2 ^ 64 -> add a gamma <> a.
Proof.
  intros a Ha H. unfold add in H. rewrite w64_mod in H.
  assert (P : 2 ^ 64 <> 0) by discriminate. assert (E := N.div_mod (a + gamma) (2 ^ 64) P). rewrite H in E.
  set (q := (a + gamma) / 2 ^ 64) in *. clearbody q. unfold gamma in E. change (2 ^ 64) with 18446744073709551616 in E. lia.
Qed.

Lemma seed_words : forall v, words (seed v).
Proof. intros v; unfold seed, splitMix, words; cbn [a0 a1 a2 a3]. repeat split; apply mix_lt. Qed.
Lemma seed_not_zero : forall v, seed v <> zero.
Proof.
  intros v H. unfold seed, splitMix, zero in H.
  assert (H0 : mix (add v gamma) = 0) by congruence. assert (H1 : mix (add (add v gamma) gamma) = 0) by congruence.
  rewrite <- H0 in H1. apply mix_inj in H1; [|apply w64_lt|apply w64_lt]. revert H1. apply add_gamma. apply w64_lt.
Qed.
Lemma seed_inj : forall v w, v < 2 ^ 64 -> w < 2 ^ 64 -> seed v = seed w -> v = w.
Proof.
  intros v w Hv Hw H. unfold seed, splitMix in H. assert (H0 : mix (add v gamma) = mix (add w gamma)) by congruence.
  apply mix_inj in H0; [|apply w64_lt|apply w64_lt]. exact (add_inj v w gamma Hv Hw H0).
Qed.

(* the step *)
Lemma shl_bit : forall x k i, N.testbit (shl x k) i = (k <=? i) && N.testbit x (i - k) && (i <? 64).
Proof.
  intros x k i; unfold shl. rewrite w64_bit. f_equal. destruct (N.leb_spec k i) as [L | L].
  - rewrite N.shiftl_spec_high' by exact L. reflexivity.
  - rewrite N.shiftl_spec_low by exact L. reflexivity.
Qed.
Lemma shl_lxor : forall a b k, shl (N.lxor a b) k = N.lxor (shl a k) (shl b k).
Proof.
  intros a b k. apply N.bits_inj. intros i. rewrite N.lxor_spec, !shl_bit, N.lxor_spec.
  destruct (k <=? i), (i <? 64), (N.testbit a (i - k)), (N.testbit b (i - k)); reflexivity.
Qed.
Lemma shl_fix : forall d k, 0 < k -> d = shl d k -> d = 0.
Proof.
  intros d k Hk H. apply N.bits_inj. intros i. rewrite N.bits_0.
  induction i as [i IH] using (well_founded_induction N.lt_wf_0).
  rewrite H, shl_bit. destruct (N.leb_spec k i) as [L | L]; [|reflexivity]. rewrite IH by lia. reflexivity.
Qed.
Lemma rotl_inj : forall x y k, 0 < k < 64 -> x < 2 ^ 64 -> y < 2 ^ 64 -> rotl x k = rotl y k -> x = y.
Proof.
  intros x y k Hk Hx Hy H. apply N.bits_inj. intros i.
  destruct (N.lt_ge_cases i 64) as [L | L]; [|rewrite (high x), (high y) by assumption; reflexivity].
  assert (E : forall z, z < 2 ^ 64 -> N.testbit (rotl z k) (if i + k <? 64 then i + k else i + k - 64) = N.testbit z i).
  { intros z Hz. unfold rotl. rewrite N.lor_spec, shl_bit, N.shiftr_spec by apply N.le_0_l.
    destruct (N.ltb_spec (i + k) 64) as [A | A].
    - replace (k <=? i + k) with true by (symmetry; apply N.leb_le; lia).
      replace (i + k <? 64) with true by (symmetry; apply N.ltb_lt; lia).
      replace (i + k - k) with i by lia. replace (i + k + (64 - k)) with (i + 64) by lia.
      rewrite (high z (i + 64)) by (assumption || lia). cbn [andb]. rewrite andb_true_r, orb_false_r. reflexivity.
    - replace (k <=? i + k - 64) with false by (symmetry; apply N.leb_gt; lia).
      replace (i + k - 64 + (64 - k)) with i by lia. reflexivity. }
  rewrite <- (E x Hx), <- (E y Hy), H. reflexivity.
Qed.
Lemma lxor_inj_l : forall a b c, N.lxor a b = N.lxor a c -> b = c.
Proof.
  intros a b c H. apply N.bits_inj. intros i. assert (E : N.testbit (N.lxor a b) i = N.testbit (N.lxor a c) i) by (rewrite H; reflexivity).
  rewrite !N.lxor_spec in E. destruct (N.testbit a i), (N.testbit b i), (N.testbit c i); cbn in E; congruence.
Qed.

Lemma next_words : forall s, words s -> words (fst (next s)) /\ snd (next s) < 2 ^ 64.
Proof.
  intros s (H0 & H1 & H2 & H3). unfold next, words; cbn [fst snd a0 a1 a2 a3].
  repeat split; repeat apply lxor_lt; try assumption; try apply w64_lt. apply rotl_lt, lxor_lt; assumption.
Qed.

Lemma next_inj : forall s t, words s -> words t -> fst (next s) = fst (next t) -> s = t.
Proof.
  intros [s0 s1 s2 s3] [t0 t1 t2 t3] (S0 & S1 & S2 & S3) (T0 & T1 & T2 & T3) H. unfold next in H; cbn [fst a0 a1 a2 a3] in *.
  assert (E0 : N.lxor s0 (N.lxor s3 s1) = N.lxor t0 (N.lxor t3 t1)) by congruence.
  assert (E1 : N.lxor s1 (N.lxor s2 s0) = N.lxor t1 (N.lxor t2 t0)) by congruence.
  assert (E2 : N.lxor (N.lxor s2 s0) (shl s1 17) = N.lxor (N.lxor t2 t0) (shl t1 17)) by congruence.
  assert (E3 : rotl (N.lxor s3 s1) 45 = rotl (N.lxor t3 t1) 45) by congruence.
  apply rotl_inj in E3; [|lia|apply lxor_lt; assumption|apply lxor_lt; assumption].
  rewrite E3 in E0. assert (s0 = t0) by (rewrite (N.lxor_comm s0), (N.lxor_comm t0) in E0; exact (lxor_inj_l _ _ _ E0)). subst t0.
  set (u := N.lxor s2 s0) in *. set (v := N.lxor t2 s0) in *.
  assert (F1 := xor_swap _ _ _ _ E1).
  rewrite (N.lxor_comm u), (N.lxor_comm v) in E2. assert (F2 := xor_swap _ _ _ _ E2).
  rewrite <- shl_lxor, <- F1 in F2.
  assert (D : N.lxor s1 t1 = 0) by (apply (shl_fix _ 17); [reflexivity|symmetry; exact F2]).
  apply N.lxor_eq in D. subst t1. rewrite N.lxor_nilpotent in F1. symmetry in F1. apply N.lxor_eq in F1.
  unfold u, v in F1. rewrite (N.lxor_comm s2), (N.lxor_comm t2) in F1. apply lxor_inj_l in F1. subst t2.
  rewrite (N.lxor_comm s3), (N.lxor_comm t3) in E3. apply lxor_inj_l in E3. subst t3. reflexivity.
Qed.

Lemma next_zero : fst (next zero) = zero. Proof. vm_compute. reflexivity. Qed.

Lemma fill_words : forall n s, words s -> words (fst (fill s n)) /\ (forall r, In r (snd (fill s n)) -> r < 2 ^ 64).
Proof.
  induction n as [|n IH]; intros s W; cbn [fill]; [split; [exact W|intros r []]|].
  destruct (next_words s W) as [W1 R]. destruct (next s) as [s1 r]; cbn [fst snd] in *.
  destruct (IH s1 W1) as [W2 R2]. destruct (fill s1 n) as [s2 rs]; cbn [fst snd] in *.
  split; [exact W2|]. intros x [<- | Hx]; [exact R|exact (R2 x Hx)].
Qed.
Lemma fill_inj : forall n s t, words s -> words t -> fst (fill s n) = fst (fill t n) -> s = t.
Proof.
  induction n as [|n IH]; intros s t Ws Wt H; cbn [fill] in H; [exact H|].
  destruct (next_words s Ws) as [W1 _]. destruct (next_words t Wt) as [W2 _]. assert (I := next_inj s t Ws Wt).
  destruct (next s) as [s1 r]. destruct (next t) as [t1 q]. cbn [fst] in *.
  specialize (IH s1 t1 W1 W2). destruct (fill s1 n) as [s2 rs]. destruct (fill t1 n) as [t2 qs]. cbn [fst] in *. auto.
Qed.
Lemma fill_zero : forall n, fst (fill zero n) = zero.
Proof.
  induction n as [|n IH]; [reflexivity|]. cbn [fill]. assert (Z := next_zero). destruct (next zero) as [s1 r]. cbn [fst] in Z. subst s1.
  destruct (fill zero n). exact IH.
Qed.
Lemma fill_app : forall a b s, fill s (a + b) = let '(s1, r) := fill s a in let '(s2, q) := fill s1 b in (s2, r ++ q).
Proof.
  induction a as [|a IH]; intros b s; cbn [Nat.add fill]; [destruct (fill s b); reflexivity|].
  destruct (next s) as [s1 r]. rewrite IH. destruct (fill s1 a) as [s2 rs]. destruct (fill s2 b) as [s3 qs]. reflexivity.
Qed.

Lemma rotl_turned : forall x k, k <= 64 -> x < 2 ^ 64 -> rotl x k = turned x k.
Proof.
  intros x k Hk Hx. unfold rotl, turned. rewrite <- N.shiftl_mul_pow2, <- N.shiftr_div_pow2, <- w64_mod. fold (shl x k).
  assert (D : N.land (shl x k) (N.shiftr x (64 - k)) = 0).
  { apply N.bits_inj. intros i. rewrite N.land_spec, N.bits_0, shl_bit, N.shiftr_spec by apply N.le_0_l.
    destruct (N.leb_spec k i) as [L | L]; [|reflexivity]. rewrite (high x (i + (64 - k))) by (assumption || lia). apply andb_false_r. }
  rewrite (N.add_nocarry_lxor _ _ D). apply N.bits_inj. intros i. rewrite N.lor_spec, N.lxor_spec.
  assert (E : N.testbit (N.land (shl x k) (N.shiftr x (64 - k))) i = false) by (rewrite D; apply N.bits_0).
  rewrite N.land_spec in E. destruct (N.testbit (shl x k) i), (N.testbit (N.shiftr x (64 - k)) i); cbn in *; congruence.
Qed.

Ltac bits := apply N.bits_inj; intros i; rewrite ?N.lxor_spec;
  repeat match goal with |- context [N.testbit ?a i] => destruct (N.testbit a i) end; reflexivity.

Lemma next_published : forall s, words s -> published_state s (fst (next s)) /\ snd (next s) = published_number s.
Proof.
  intros s (H0 & H1 & H2 & H3). unfold next, published_state, published_number; cbn [fst snd a0 a1 a2 a3].
  rewrite <- N.shiftl_mul_pow2, <- w64_mod. fold (shl (a1 s) 17).
  split; [split; [bits|split; [bits|split; [bits|]]]|].
  - rewrite <- rotl_turned; [rewrite (N.lxor_comm (a3 s)); reflexivity|discriminate|apply lxor_lt; assumption].
  - unfold add at 1. rewrite w64_mod. rewrite rotl_turned; [|discriminate|apply w64_lt].
    unfold add. rewrite w64_mod. reflexivity.
Qed.

Lemma fill_draws : forall n s, words s -> draws s (snd (fill s n)) (fst (fill s n)) /\ length (snd (fill s n)) = n.
Proof.
  induction n as [|n IH]; intros s W; cbn [fill]; [split; [constructor|reflexivity]|].
  destruct (next_published s W) as [P R]. destruct (next_words s W) as [W1 _].
  destruct (next s) as [s1 r]; cbn [fst snd] in *. subst r.
  destruct (IH s1 W1) as [D L]. destruct (fill s1 n) as [s2 rs]; cbn [fst snd length] in *.
  split; [econstructor; eassumption|congruence].
Qed.

Lemma uniform_bucket : forall raw k u, N.shiftr raw k = u <-> u * 2 ^ k <= raw < (u + 1) * 2 ^ k.
Proof.
  intros raw k u. rewrite N.shiftr_div_pow2. assert (P : 2 ^ k <> 0) by (apply N.pow_nonzero; discriminate).
  assert (E := N.div_mod raw (2 ^ k) P). assert (L := N.mod_lt raw (2 ^ k) P).
  set (q := raw / 2 ^ k) in *. set (m := raw mod 2 ^ k) in *. set (p := 2 ^ k) in *. clearbody q m p.
  split; [intros <-; nia|intros [A B]]. nia.
Qed.

Lemma mix_published : forall x, mix x = published_mix x.
Proof.
  intros x. unfold mix, published_mix, stirred, mul. rewrite <- !N.shiftr_div_pow2, <- !w64_mod. reflexivity.
Qed.
Lemma add_times : forall v k, add ((v + k * gamma) mod 2 ^ 64) gamma = (v + (k + 1) * golden) mod 2 ^ 64.
Proof.
  intros v k. unfold add. rewrite w64_mod, N.add_mod_idemp_l by discriminate. change golden with gamma. f_equal. lia.
Qed.
Lemma seed_published : forall v,
  seed v = mkX (published_mix ((v + 1 * golden) mod 2 ^ 64)) (published_mix ((v + 2 * golden) mod 2 ^ 64))
               (published_mix ((v + 3 * golden) mod 2 ^ 64)) (published_mix ((v + 4 * golden) mod 2 ^ 64)).
Proof.
  intros v. unfold seed, splitMix.
  assert (E1 : add v gamma = (v + 1 * golden) mod 2 ^ 64).
  { unfold add. rewrite w64_mod, N.mul_1_l. reflexivity. }
  rewrite E1. change golden with gamma. rewrite (add_times v 1), <- !mix_published. change golden with gamma. change (1 + 1) with 2.
  rewrite (add_times v 2). change golden with gamma. change (2 + 1) with 3. rewrite (add_times v 3). reflexivity.
Qed.
