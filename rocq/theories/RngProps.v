(* Theorems about the generator of random numbers. *)

From Coq Require Import NArith ZArith Bool Lia List.
From Verif Require Import RngModel RngSpec RngProofs.
Import ListNotations.

Local Open Scope N_scope.

(* C224. Whatever the seed, the generator never gets stuck: the four words are
   not all zero after seeding and after any number of draws. *)
Theorem C224_never_stuck : forall v n, fst (fill (seed v) n) <> zero.
Proof.
  intros v n H. apply (seed_not_zero v). apply (fill_inj n); [apply seed_words|vm_compute; repeat split; reflexivity|].
  rewrite H, fill_zero. reflexivity.
Qed.
Print Assumptions C224_never_stuck.

(* The state of all zeros, which seeding avoids, would be stuck for ever. *)
Theorem C224_zero_is_stuck : forall n, fst (fill zero n) = zero /\ (forall r, In r (snd (fill zero n)) -> r = 0).
Proof.
  intros n. split; [apply fill_zero|]. induction n as [|n IH]; intros r H; [destruct H|].
  cbn [fill] in H. assert (Z : next zero = (zero, 0)) by (vm_compute; reflexivity). rewrite Z in H.
  destruct (fill zero n) as [s rs]. cbn [snd] in *. destruct H as [<- | H]; [reflexivity|exact (IH r H)].
Qed.
Print Assumptions C224_zero_is_stuck.

(* C225. Generators of different seeds differ from the start and never fall
   together: equal after the same number of draws means the same seed. *)
Theorem C225_seeds_apart : forall v w n, v < 2 ^ 64 -> w < 2 ^ 64 ->
  fst (fill (seed v) n) = fst (fill (seed w) n) -> v = w.
Proof.
  intros v w n Hv Hw H. apply seed_inj; [exact Hv|exact Hw|]. apply (fill_inj n); [apply seed_words|apply seed_words|exact H].
Qed.
Print Assumptions C225_seeds_apart.

Theorem C225_states_apart : forall s t n, words s -> words t ->
  fst (fill s n) = fst (fill t n) -> s = t.
Proof. intros s t n Hs Ht H. exact (fill_inj n s t Hs Ht H). Qed.
Print Assumptions C225_states_apart.

(* C226. A span is filled with the numbers the published generator gives, one by
   one, and filling it in parts makes no difference. *)
Theorem C226_published : forall v n,
  draws (seed v) (snd (fill (seed v) n)) (fst (fill (seed v) n)) /\ length (snd (fill (seed v) n)) = n.
Proof. intros v n. apply fill_draws, seed_words. Qed.
Print Assumptions C226_published.

Theorem C226_published_any : forall s n, words s ->
  draws s (snd (fill s n)) (fst (fill s n)) /\ length (snd (fill s n)) = n /\ words (fst (fill s n)) /\
  (forall r, In r (snd (fill s n)) -> r < 2 ^ 64).
Proof.
  intros s n W. destruct (fill_draws n s W) as [D L]. destruct (fill_words n s W) as [W1 R].
  exact (conj D (conj L (conj W1 R))).
Qed.
Print Assumptions C226_published_any.

(* The seed goes through the published splitmix64, one word after the other. *)
Theorem C226_seeded : forall v,
  seed v = mkX (published_mix ((v + 1 * golden) mod 2 ^ 64)) (published_mix ((v + 2 * golden) mod 2 ^ 64))
               (published_mix ((v + 3 * golden) mod 2 ^ 64)) (published_mix ((v + 4 * golden) mod 2 ^ 64)).
Proof. exact seed_published. Qed.
Print Assumptions C226_seeded.

Theorem C226_in_parts : forall a b s,
  fill s (a + b) = (fst (fill (fst (fill s a)) b), snd (fill s a) ++ snd (fill (fst (fill s a)) b)).
Proof.
  intros a b s. rewrite fill_app. destruct (fill s a) as [s1 r]. cbn [fst snd]. destruct (fill s1 b) as [s2 q]. reflexivity.
Qed.
Print Assumptions C226_in_parts.

(* C227. Numbers drawn for [0, 1) lie in it, one excluded, and every one of the
   2^53 (2^24 for float) comes from equally many words. *)
Theorem C227_uniform_double : forall raw, raw < 2 ^ 64 ->
  uniform64 raw < 2 ^ 53 /\ (forall u, uniform64 raw = u <-> u * 2 ^ 11 <= raw < u * 2 ^ 11 + 2 ^ 11) /\
  (- 2 ^ 53 <= uniformM64 raw < 2 ^ 53)%Z.
Proof.
  intros raw H. assert (B : uniform64 raw < 2 ^ 53).
  { unfold uniform64. rewrite N.shiftr_div_pow2. apply N.div_lt_upper_bound; [discriminate|].
    change (2 ^ 11 * 2 ^ 53) with (2 ^ 64). exact H. }
  split; [exact B|split].
  - intros u. unfold uniform64. rewrite uniform_bucket. replace ((u + 1) * 2 ^ 11) with (u * 2 ^ 11 + 2 ^ 11) by lia. reflexivity.
  - unfold uniformM64. change (2 ^ 53) with 9007199254740992 in B. change (2 ^ 53)%Z with 9007199254740992%Z. lia.
Qed.
Print Assumptions C227_uniform_double.

Theorem C227_uniform_float : forall raw, raw < 2 ^ 64 ->
  uniform32 raw < 2 ^ 24 /\ (forall u, uniform32 raw = u <-> u * 2 ^ 40 <= raw < u * 2 ^ 40 + 2 ^ 40) /\
  (- 2 ^ 24 <= uniformM32 raw < 2 ^ 24)%Z.
Proof.
  intros raw H. assert (B : uniform32 raw < 2 ^ 24).
  { unfold uniform32. rewrite N.shiftr_div_pow2. apply N.div_lt_upper_bound; [discriminate|].
    change (2 ^ 40 * 2 ^ 24) with (2 ^ 64). exact H. }
  split; [exact B|split].
  - intros u. unfold uniform32. rewrite uniform_bucket. replace ((u + 1) * 2 ^ 40) with (u * 2 ^ 40 + 2 ^ 40) by lia. reflexivity.
  - unfold uniformM32. change (2 ^ 24) with 16777216 in B. change (2 ^ 24)%Z with 16777216%Z. lia.
Qed.
Print Assumptions C227_uniform_float.

(* The range [-1, 1) takes twice the number minus one. *)
Theorem C227_twice_minus_one : forall raw,
  (uniformM64 raw + 2 ^ 53 = 2 * Z.of_N (uniform64 raw))%Z /\ (uniformM32 raw + 2 ^ 24 = 2 * Z.of_N (uniform32 raw))%Z.
Proof. intros raw. unfold uniformM64, uniformM32. split; ring. Qed.
Print Assumptions C227_twice_minus_one.

(* The lower end is reached, the upper is not. *)
Theorem C227_half_open :
  uniformM64 0 = (- 2 ^ 53)%Z /\ (forall raw, raw < 2 ^ 64 -> uniformM64 raw <> (2 ^ 53)%Z).
Proof.
  split; [vm_compute; reflexivity|]. intros raw H E. destruct (C227_uniform_double raw H) as (_ & _ & B). lia.
Qed.
Print Assumptions C227_half_open.

(* The seed 0 gives the published words of splitmix64. *)
Example C224_example :
  seed 0 = mkX 16294208416658607535 7960286522194355700 487617019471545679 17909611376780542444 /\
  length (snd (fill (seed 0) 5)) = 5%nat /\ seed 1 <> seed 0 /\ words (seed 7).
Proof. split; [vm_compute; reflexivity|split; [vm_compute; reflexivity|split; [vm_compute; discriminate|apply seed_words]]]. Qed.
(* The published example of xoshiro256++: the words 1, 2, 3, 4 give first
   41943041, then 58720359. *)
Example C226_example :
  words (mkX 1 2 3 4) /\ firstn 3 (snd (fill (mkX 1 2 3 4) 4)) = [41943041; 58720359; 3588806011781223].
Proof. split; [vm_compute; repeat split; reflexivity|vm_compute; reflexivity]. Qed.
Example C227_example : uniform64 (2 ^ 64 - 1) = 2 ^ 53 - 1 /\ uniform32 (2 ^ 63) = 2 ^ 23 /\ uniformM64 (2 ^ 63) = 0%Z.
Proof. vm_compute. repeat split; reflexivity. Qed.
