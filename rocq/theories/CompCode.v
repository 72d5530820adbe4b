(** * Canonical codes and the transmission of code lengths, encoder side. *)
From Coq Require Import List NArith Bool Lia Arith.
From Coq Require Import ZifyBool ZifyNat ZifyN.
From Verif Require Import Base CompModel CompSpec CompBits CompHuff CompDec CompBlk CompTok CompLens.
Import ListNotations.
Local Open Scope N_scope.

(** * Reversed codes *)
Lemma msb_S_low c v : msb (S c) v = msb c (N.shiftr v 1) ++ [N.testbit v 0].
Proof. unfold msb. rewrite lsb_S. reflexivity. Qed.
Lemma land1_bit v : N.land v 1 = bit (N.testbit v 0).
Proof.
  change 1 with (N.ones 1). rewrite N.land_ones. change (2 ^ 1) with 2. rewrite N.bit0_odd.
  rewrite (N.div_mod v 2) at 2 by lia. pose proof (N.mod_lt v 2 ltac:(discriminate)). destruct (N.eq_dec (v mod 2) 0) as [E|E].
  - rewrite E, N.add_0_r. rewrite N.odd_mul. reflexivity.
  - assert (E1 : v mod 2 = 1) by lia. rewrite E1. rewrite N.odd_add, N.odd_mul. reflexivity.
Qed.
Lemma reverseBits_spec : forall count v result k, (k + count <= 16)%nat -> result < 2 ^ N.of_nat k ->
  let r := reverseBits v count result in r < 2 ^ N.of_nat (count + k) /\ lsb (count + k) r = msb count v ++ lsb k result.
Proof.
  induction count as [|c IH]; intros v result k Hk Hr; cbn [reverseBits].
  - split; [exact Hr|]. reflexivity.
  - rewrite land1_bit, lor_bit.
    assert (Hb : 2 * result + bit (N.testbit v 0) < 2 ^ N.of_nat (S k)) by (rewrite pow2_S; destruct (N.testbit v 0); cbn [bit]; lia).
    rewrite (tr_small 16) by (eapply N.lt_le_trans; [exact Hb|]; change 16 with (N.of_nat 16); apply pow2_le; lia).
    destruct (IH (N.shiftr v 1) _ (S k) ltac:(lia) Hb) as [I1 I2]. cbn zeta in *. replace (S c + k)%nat with (c + S k)%nat by lia. split; [exact I1|].
    rewrite I2, msb_S_low, <- app_assoc. f_equal. rewrite lsb_S. cbn [app]. f_equal.
    + destruct (N.testbit v 0); cbn [bit]; [|rewrite N.add_0_r; apply N.testbit_even_0]. apply N.testbit_odd_0.
    + f_equal. rewrite N.shiftr_div_pow2. change (2 ^ 1) with 2. rewrite N.mul_comm, N.div_add_l by lia. destruct (N.testbit v 0); cbn [bit]; [change (1 / 2) with 0|change (0 / 2) with 0]; lia.
Qed.
Lemma reverse_code v n : (n <= 16)%nat -> reverseBits v n 0 < 2 ^ N.of_nat n /\ lsb n (reverseBits v n 0) = msb n v.
Proof.
  intros H. destruct (reverseBits_spec n v 0 0 ltac:(lia) ltac:(reflexivity)) as [H1 H2]. cbn zeta in *. rewrite Nat.add_0_r in *. split; [exact H1|]. rewrite H2. apply app_nil_r.
Qed.

(** * Canonical codes *)
Lemma lengthCount_cnt lens w : w <> 0%nat -> lengthCount lens w = N.of_nat (cnt w lens).
Proof.
  intros Hw. unfold lengthCount, cnt. do 2 f_equal. apply filter_ext. intros l. destruct (Nat.eqb_spec l w), (Nat.eqb_spec w l), (Nat.eqb_spec l 0); cbn; congruence || lia.
Qed.
Lemma lengthCount_0 lens : lengthCount lens 0 = 0.
Proof. unfold lengthCount. induction lens as [|l r IH]; [reflexivity|]. cbn [filter]. destruct (Nat.eqb_spec l 0); cbn [negb andb]; exact IH. Qed.
Lemma firstCode_firstOf M lens : (M <= 15)%nat -> space M lens <= 2 ^ N.of_nat M -> forall w, (w <= M)%nat -> firstCode lens w = firstOf w lens.
Proof.
  intros HM Hs. induction w as [|w IH]; intros Hw; [reflexivity|]. cbn [firstCode firstOf]. rewrite IH by lia.
  assert (E : firstOf w lens + lengthCount lens w = space w lens).
  { destruct w as [|w']; [rewrite lengthCount_0, space_0; reflexivity|]. rewrite lengthCount_cnt by lia. symmetry. apply space_first. lia. }
  rewrite E, N.shiftl_mul_pow2. change (2 ^ 1) with 2. rewrite N.mul_comm. apply tr_small.
  pose proof (space_le_pow M lens w ltac:(lia) Hs) as Hw2. eapply N.le_lt_trans with (m := 2 ^ N.of_nat (S w)); [rewrite pow2_S; lia|].
  change (2 ^ 16) with (2 ^ N.of_nat 16). apply N.pow_lt_mono_r; lia.
Qed.
Lemma assignCodes_nth : forall lens next s, hasCode lens s -> next (nth s lens 0%nat) + N.of_nat (cnt (nth s lens 0%nat) lens) < 2 ^ 16 ->
  nth s (assignCodes lens next) 0 = reverseBits (next (nth s lens 0%nat) + N.of_nat (rank lens s)) (nth s lens 0%nat) 0.
Proof.
  induction lens as [|l r IH]; intros next [|s] Hc Hb; unfold hasCode in *; cbn [nth assignCodes] in *; try congruence.
  - destruct (Nat.eqb_spec l 0) as [|_]; [congruence|]. cbn [nth]. unfold rank. cbn [nth firstn]. unfold cnt. cbn [filter length]. rewrite N.add_0_r. reflexivity.
  - set (w := nth s r 0%nat) in *. rewrite cnt_cons in Hb.
    assert (Er : rank (l :: r) (S s) = ((if (w =? l)%nat then 1 else 0) + rank r s)%nat) by (unfold rank; cbn [nth firstn]; rewrite cnt_cons; reflexivity).
    rewrite Er. destruct (Nat.eqb_spec l 0) as [E0|N0]; cbn [nth].
    + destruct (Nat.eqb_spec w l) as [|_]; [lia|]. rewrite IH; [|exact Hc|fold w; lia]. fold w. reflexivity.
    + rewrite IH; [|exact Hc|]; fold w; unfold updn; destruct (Nat.eqb_spec w l) as [E|E].
      * rewrite <- E, tr_small by lia. f_equal. lia.
      * reflexivity.
      * rewrite <- E, tr_small by lia. lia.
      * lia.
Qed.
(** What a symbol writes. *)
Definition writes (o : op) (bs : list bool) : Prop := isBits o /\ opBits o = bs.
Lemma writeCode_spec M lens s : (M <= 15)%nat -> Forall (fun l => (l <= M)%nat) lens -> kraft M lens <= 2 ^ N.of_nat M -> hasCode lens s ->
  writes (writeCode (makeCanonicalCodes lens) s) (codeword lens s).
Proof.
  intros HM Hle Hk Hc. rewrite kraft_space in Hk by exact Hle. pose proof (proj1 (Forall_nth_le _ _) Hle s) as Hl. unfold writeCode. cbn [cbits clengths makeCanonicalCodes].
  assert (Hf : firstCode lens (nth s lens 0%nat) = firstOf (nth s lens 0%nat) lens) by (apply (firstCode_firstOf M); assumption).
  assert (Hsp : space (nth s lens 0%nat) lens <= 2 ^ N.of_nat (nth s lens 0%nat)) by (apply (space_le_pow M); assumption).
  assert (Hp : 2 ^ N.of_nat (nth s lens 0%nat) < 2 ^ 16) by (change 16 with (N.of_nat 16); apply N.pow_lt_mono_r; lia).
  rewrite assignCodes_nth; [|exact Hc|].
  - rewrite Hf, <- codeValue_eq by exact Hc. destruct (reverse_code (codeValue lens s) (nth s lens 0%nat) ltac:(lia)) as [R1 R2].
    split; [split; [lia|exact R1]|]. exact R2.
  - rewrite Hf. rewrite <- space_first by (unfold hasCode in Hc; lia). lia.
Qed.

(** * Trailing symbols without a code *)
Lemma trimCount_spec least at_ : forall k, (least <= k)%nat -> (least <= trimCount k least at_ <= k)%nat /\ forall i, (trimCount k least at_ <= i < k)%nat -> at_ i = 0%nat.
Proof.
  induction k as [|j IH]; intros H; cbn [trimCount]; [split; [lia|intros; lia]|].
  destruct (Nat.ltb_spec least (S j)) as [Hl|Hl]; cbn [andb]; [|split; [lia|intros; lia]].
  destruct (Nat.eqb_spec (at_ j) 0) as [E|E]; [|split; [lia|intros; lia]]. destruct (IH ltac:(lia)) as [I1 I2]. split; [lia|].
  intros i Hi. destruct (Nat.eq_dec i j) as [->|]; [exact E|]. apply I2. lia.
Qed.
Lemma cut_zeros (l : list nat) k : (forall i, (k <= i < length l)%nat -> nth i l 0%nat = 0%nat) -> l = firstn k l ++ repeat 0%nat (length l - k).
Proof.
  revert k; induction l as [|x l IH]; intros k H; [destruct k; reflexivity|]. destruct k as [|k]; cbn [firstn app length Nat.sub repeat].
  - pose proof (H 0%nat ltac:(cbn; lia)) as H0. cbn in H0. subst x. f_equal. rewrite (IH 0%nat) at 1; [cbn [firstn app]; rewrite Nat.sub_0_r; reflexivity|].
    intros i Hi. apply (H (S i)). cbn [length]. lia.
  - f_equal. apply IH. intros i Hi. apply (H (S i)). cbn [length]. lia.
Qed.
Lemma space_zeros w a m : space w (a ++ repeat 0%nat m) = space w a.
Proof.
  induction a as [|x a IH]; cbn [app space]; [|rewrite IH; reflexivity]. induction m as [|m IHm]; [reflexivity|]. cbn [repeat space]. rewrite IHm. reflexivity.
Qed.
Lemma kraft_zeros_app M a m : kraft M (a ++ repeat 0%nat m) = kraft M a.
Proof. rewrite kraft_app, kraft_zeros. lia. Qed.
Lemma nth_zeros_app (a : list nat) m s : nth s (a ++ repeat 0%nat m) 0%nat = nth s a 0%nat.
Proof.
  destruct (le_lt_dec (length a) s) as [H|H]; [|apply app_nth1, H]. rewrite app_nth2 by exact H. rewrite nth_zeros, nth_overflow by exact H. reflexivity.
Qed.
Lemma codeword_zeros a m s : hasCode a s -> codeword (a ++ repeat 0%nat m) s = codeword a s.
Proof.
  intros H. unfold codeword. rewrite nth_zeros_app. f_equal. rewrite !codeValue_eq by (unfold hasCode in *; rewrite ?nth_zeros_app; exact H). rewrite nth_zeros_app.
  assert (Hs : (s < length a)%nat). { destruct (le_lt_dec (length a) s) as [L|L]; [|exact L]. unfold hasCode in H. rewrite nth_overflow in H by exact L. congruence. }
  f_equal; [|unfold rank; rewrite nth_zeros_app, firstn_app; replace (s - length a)%nat with 0%nat by lia; rewrite app_nil_r; reflexivity].
  destruct (nth s a 0%nat); [reflexivity|]. cbn [firstOf]. rewrite space_zeros. reflexivity.
Qed.

(** * Frequencies *)
Lemma bump_length f s : length (bump f s) = length f.
Proof. apply length_upd. Qed.
Lemma nth_updN_eq (l : list N) i v : (i < length l)%nat -> nth i (upd l i v) 0 = v.
Proof. intros H. apply nth_error_nth with (d := 0). apply nth_upd_same'. exact H. Qed.
Lemma nth_updN_ne (l : list N) i j v : i <> j -> nth j (upd l i v) 0 = nth j l 0.
Proof.
  intros H. pose proof (nth_upd_other l i j v H) as E. destruct (nth_error l j) as [x|] eqn:E1.
  - rewrite (nth_error_nth _ _ 0 E), (nth_error_nth _ _ 0 E1). reflexivity.
  - apply nth_error_None in E1. rewrite !nth_overflow by (rewrite ?length_upd; exact E1). reflexivity.
Qed.
Lemma bump_nth f s i : nth s f 0 < 2 ^ 32 - 1 -> nth i (bump f s) 0 = nth i f 0 + (if (i =? s)%nat && (s <? length f)%nat then 1 else 0).
Proof.
  intros H. unfold bump. destruct (Nat.eqb_spec i s) as [->|Hne]; cbn [andb].
  - destruct (Nat.ltb_spec s (length f)) as [L|L]; [rewrite nth_updN_eq by exact L; apply tr_small; lia|]. rewrite nth_overflow by (rewrite length_upd; exact L). rewrite nth_overflow by exact L. reflexivity.
  - rewrite nth_updN_ne by congruence. lia.
Qed.
Lemma bumps_spec : forall syms f, (forall i, nth i f 0 + N.of_nat (length syms) < 2 ^ 32) ->
  let r := fold_left bump syms f in
  length r = length f /\ (forall i, nth i f 0 <= nth i r 0 <= nth i f 0 + N.of_nat (length syms)) /\ (forall s, In s syms -> (s < length f)%nat -> nth s r 0 <> 0).
Proof.
  induction syms as [|s syms IH]; intros f H; cbn [fold_left]; [split; [reflexivity|split; [intros; cbn; lia|intros ? []]]|].
  cbn [length] in H. assert (Hb : forall i, nth i (bump f s) 0 = nth i f 0 + (if (i =? s)%nat && (s <? length f)%nat then 1 else 0)).
  { intros i. apply bump_nth. specialize (H s). lia. }
  destruct (IH (bump f s)) as (I1 & I2 & I3).
  { intros i. rewrite Hb. specialize (H i). destruct ((i =? s)%nat && (s <? length f)%nat); lia. }
  cbn zeta in *. rewrite bump_length in *. split; [exact I1|]. split.
  - intros i. specialize (I2 i). rewrite Hb in I2. cbn [length]. destruct ((i =? s)%nat && (s <? length f)%nat); lia.
  - intros x [->|Hx] Hl; [|apply I3; assumption]. specialize (I2 x). rewrite Hb, Nat.eqb_refl in I2. destruct (Nat.ltb_spec x (length f)); cbn [andb] in I2; lia.
Qed.

(** * Sending code lengths *)
Definition clTokenBits (cl : list nat) (t : CodeLengthToken) : list bool := codeword cl (ksym t) ++ lsb (kbits t) (kextra t).
Definition clBits (cl : list nat) (ts : list CodeLengthToken) : list bool := flat_map (clTokenBits cl) ts.
Lemma clBits_app cl a b : clBits cl (a ++ b) = clBits cl a ++ clBits cl b.
Proof. apply flat_map_app. Qed.
Definition clOk (t : CodeLengthToken) : Prop := (ksym t < 19)%nat /\ (kbits t <= 7)%nat /\ kextra t < 2 ^ N.of_nat (kbits t).
Lemma runLength_spec v : forall l, let n := runLength v l in (n <= length l)%nat /\ firstn n l = repeat v n.
Proof.
  induction l as [|x l IH]; cbn [runLength]; [split; [lia|reflexivity]|]. destruct (Nat.eqb_spec x v) as [->|]; cbn [length firstn repeat]; [|split; [lia|reflexivity]].
  destruct IH as [I1 I2]. cbn zeta in *. split; [lia|]. rewrite I2. reflexivity.
Qed.
Lemma Forall_skip {A} (P : A -> Prop) : forall n (l : list A), Forall P l -> Forall P (skipn n l).
Proof. induction n as [|n IH]; intros l H; [exact H|]. destruct H as [|x l Hx Hl]; cbn [skipn]; auto. Qed.
Section Send.
Variables (cl : list nat) (tot : nat).
Lemma plains_bits x : (x <= 15)%nat -> forall n sofar all more, (length sofar + n <= tot)%nat -> (n <> 0%nat -> hasCode cl x) ->
  lengthsBits cl tot (sofar ++ repeat x n) all more -> lengthsBits cl tot sofar all (clBits cl (repeat (plain x) n) ++ more).
Proof.
  intros Hx. induction n as [|n IH]; intros sofar all more Hl Hc H; cbn [repeat] in *; [rewrite app_nil_r in H; exact H|].
  unfold clBits. cbn [flat_map]. fold (clBits cl (repeat (plain x) n)). unfold clTokenBits, plain at 1 2 3. cbn [ksym kbits kextra]. cbn [lsb seq map]. change (lsb 0 0) with (@nil bool). rewrite app_nil_r, <- app_assoc.
  apply lb_len; [lia|exact Hx|apply Hc; lia|]. apply IH; [rewrite app_length; cbn [length]; lia|intros _; apply Hc; lia|]. rewrite <- app_assoc. exact H.
Qed.
Lemma zeroRuns_bits : forall fuel run, (run <= fuel)%nat -> let r := zeroRuns fuel run in
  (snd r <= run)%nat /\ (snd r < 11)%nat /\ Forall clOk (fst r) /\
  forall sofar all more, (length sofar + run <= tot)%nat -> Forall (fun t => hasCode cl (ksym t)) (fst r) ->
    lengthsBits cl tot (sofar ++ repeat 0%nat (run - snd r)) all more -> lengthsBits cl tot sofar all (clBits cl (fst r) ++ more).
Proof.
  induction fuel as [|k IH]; intros run Hf; cbn [zeroRuns].
  - cbn [fst snd]. split; [lia|]. split; [lia|]. split; [constructor|]. intros sofar all more _ _ H. rewrite Nat.sub_diag, app_nil_r in H. exact H.
  - destruct (Nat.leb_spec 11 run) as [H11|H11]; cbn [fst snd].
    + set (count := Nat.min run 138). assert (Hcount : (11 <= count <= run)%nat /\ (count <= 138)%nat) by (unfold count; lia).
      destruct (IH (run - count)%nat ltac:(lia)) as (I1 & I2 & I3 & I4). cbn zeta in *. set (r := zeroRuns k (run - count)) in *.
      split; [lia|]. split; [exact I2|]. split; [constructor; [unfold clOk; cbn [ksym kbits kextra]; change (2 ^ N.of_nat 7) with 128; lia|exact I3]|].
      intros sofar all more Hl Hc H. inversion Hc as [|? ? Hc1 Hc2]; subst. cbn [ksym] in Hc1. unfold clBits. cbn [flat_map]. fold (clBits cl (fst r)). unfold clTokenBits at 1. cbn [ksym kbits kextra].
      rewrite <- !app_assoc. apply lb_zero11; [exact Hc1|lia|lia|]. replace (11 + N.to_nat (N.of_nat (count - 11)))%nat with count by lia.
      apply I4; [rewrite app_length, repeat_length; lia|exact Hc2|]. rewrite <- app_assoc, <- repeat_app. replace (count + (run - count - snd r))%nat with (run - snd r)%nat by lia. exact H.
    + split; [lia|]. split; [lia|]. split; [constructor|]. intros sofar all more _ _ H. rewrite Nat.sub_diag, app_nil_r in H. exact H.
Qed.
Lemma copyRuns_bits x : forall fuel run, (run <= fuel)%nat -> let r := copyRuns fuel run in
  (snd r <= run)%nat /\ Forall clOk (fst r) /\
  forall sofar all more, (length sofar + 1 + run <= tot)%nat -> Forall (fun t => hasCode cl (ksym t)) (fst r) ->
    lengthsBits cl tot ((sofar ++ [x]) ++ repeat x (run - snd r)) all more -> lengthsBits cl tot (sofar ++ [x]) all (clBits cl (fst r) ++ more).
Proof.
  induction fuel as [|k IH]; intros run Hf; cbn [copyRuns].
  - cbn [fst snd]. split; [lia|]. split; [constructor|]. intros sofar all more _ _ H. rewrite Nat.sub_diag, app_nil_r in H. exact H.
  - destruct (Nat.leb_spec 3 run) as [H3|H3]; cbn [fst snd].
    + set (count := Nat.min run 6). assert (Hcount : (3 <= count <= run)%nat /\ (count <= 6)%nat) by (unfold count; lia).
      destruct (IH (run - count)%nat ltac:(lia)) as (I1 & I3 & I4). cbn zeta in *. set (r := copyRuns k (run - count)) in *.
      split; [lia|]. split; [constructor; [unfold clOk; cbn [ksym kbits kextra]; change (2 ^ N.of_nat 2) with 4; lia|exact I3]|].
      intros sofar all more Hl Hc H. inversion Hc as [|? ? Hc1 Hc2]; subst. cbn [ksym] in Hc1. unfold clBits. cbn [flat_map]. fold (clBits cl (fst r)). unfold clTokenBits at 1. cbn [ksym kbits kextra].
      rewrite <- !app_assoc. apply lb_prev; [exact Hc1|lia|lia|]. replace (3 + N.to_nat (N.of_nat (count - 3)))%nat with count by lia.
      assert (Ex : exists s0, (sofar ++ [x]) ++ repeat x count = s0 ++ [x] /\ length s0 = (length sofar + count)%nat).
      { exists (sofar ++ repeat x count). split; [|rewrite app_length, repeat_length; reflexivity]. rewrite <- !app_assoc. f_equal. change ([x] ++ repeat x count) with (repeat x (S count)). apply (repeat_app x count 1) || (replace (S count) with (count + 1)%nat by lia; apply (repeat_app x count 1)). }
      destruct Ex as (s0 & E0 & L0). rewrite E0. apply I4; [lia|exact Hc2|]. rewrite <- E0, <- app_assoc, <- repeat_app. replace (count + (run - count - snd r))%nat with (run - snd r)%nat by lia. exact H.
    + split; [lia|]. split; [constructor|]. intros sofar all more _ _ H. rewrite Nat.sub_diag, app_nil_r in H. exact H.
Qed.
Lemma clOk_plain x : (x < 19)%nat -> clOk (plain x).
Proof. intros H. unfold clOk, plain. cbn [ksym kbits kextra]. split; [exact H|]. split; [lia|]. reflexivity. Qed.
Lemma Forall_repeat {A} (P : A -> Prop) x n : P x -> Forall P (repeat x n).
Proof. intros H. induction n; cbn; constructor; auto. Qed.
Lemma repeat_forall {A} (P : A -> Prop) x n : Forall P (repeat x n) -> n <> 0%nat -> P x.
Proof. destruct n; [congruence|]. intros H _. inversion H; assumption. Qed.
Lemma runTokens_bits x run : (x <= 15)%nat -> (1 <= run)%nat ->
  Forall clOk (runTokens x run) /\
  forall sofar all more, (length sofar + run <= tot)%nat -> Forall (fun t => hasCode cl (ksym t)) (runTokens x run) ->
    lengthsBits cl tot (sofar ++ repeat x run) all more -> lengthsBits cl tot sofar all (clBits cl (runTokens x run) ++ more).
Proof.
  intros Hx Hrun. unfold runTokens. destruct (Nat.eqb_spec x 0) as [->|Hx0].
  - destruct (zeroRuns_bits run run (le_n _)) as (Z1 & Z2 & Z3 & Z4). cbn zeta in *. set (r := zeroRuns run run) in *. destruct (Nat.leb_spec 3 (snd r)) as [H3|H3].
    + split.
      * apply Forall_app. split; [exact Z3|]. constructor; [|constructor]. unfold clOk. cbn [ksym kbits kextra]. change (2 ^ N.of_nat 3) with 8. lia.
      * intros sofar all more Hl Hc H. apply Forall_app in Hc. destruct Hc as [Hc1 Hc2]. inversion Hc2 as [|? ? Hc3 _]; subst. cbn [ksym] in Hc3. rewrite clBits_app, <- app_assoc.
        apply Z4; [exact Hl|exact Hc1|]. unfold clBits, clTokenBits. cbn [flat_map ksym kbits kextra]. rewrite app_nil_r, <- app_assoc.
        apply lb_zero3; [exact Hc3|lia|rewrite app_length, repeat_length; lia|]. rewrite <- app_assoc, <- repeat_app. replace (run - snd r + (3 + N.to_nat (N.of_nat (snd r - 3))))%nat with run by lia. exact H.
    + split.
      * apply Forall_app. split; [exact Z3|]. apply Forall_repeat, clOk_plain. lia.
      * intros sofar all more Hl Hc H. apply Forall_app in Hc. destruct Hc as [Hc1 Hc2]. rewrite clBits_app, <- app_assoc.
        apply Z4; [exact Hl|exact Hc1|]. apply plains_bits; [lia|rewrite app_length, repeat_length; lia|intros Hn; apply (repeat_forall _ _ _ Hc2 Hn)|].
        rewrite <- app_assoc, <- repeat_app. replace (run - snd r + snd r)%nat with run by lia. exact H.
  - destruct (copyRuns_bits x run (run - 1) ltac:(lia)) as (Z1 & Z3 & Z4). cbn zeta in *. set (r := copyRuns run (run - 1)) in *. split.
    + constructor; [apply clOk_plain; lia|]. apply Forall_app. split; [exact Z3|]. apply Forall_repeat, clOk_plain. lia.
    + intros sofar all more Hl Hc H. inversion Hc as [|? ? Hc0 Hc']; subst. cbn [ksym plain] in Hc0. apply Forall_app in Hc'. destruct Hc' as [Hc1 Hc2].
      change (plain x :: fst r ++ repeat (plain x) (snd r)) with (repeat (plain x) 1 ++ (fst r ++ repeat (plain x) (snd r))).
      rewrite clBits_app, <- app_assoc. apply plains_bits; [exact Hx|lia|auto|]. cbn [repeat]. rewrite clBits_app, <- app_assoc.
      apply Z4; [lia|exact Hc1|]. apply plains_bits; [exact Hx|rewrite !app_length, repeat_length; cbn [length]; lia|intros Hn; apply (repeat_forall _ _ _ Hc2 Hn)|].
      rewrite <- !app_assoc. rewrite <- repeat_app. change ([x] ++ repeat x (run - 1 - snd r + snd r)) with (repeat x (S (run - 1 - snd r + snd r))). replace (S (run - 1 - snd r + snd r)) with run by lia. exact H.
Qed.
Lemma encodeCodeLengths_bits : forall fuel lens, (length lens <= fuel)%nat -> Forall (fun l => (l <= 15)%nat) lens ->
  let ts := encodeCodeLengths fuel lens in Forall clOk ts /\ (length ts <= length lens)%nat /\
  forall sofar, (length sofar + length lens = tot)%nat -> Forall (fun t => hasCode cl (ksym t)) ts -> lengthsBits cl tot sofar (sofar ++ lens) (clBits cl ts).
Proof.
  assert (HZ : forall fuel run, (run <= fuel)%nat -> (length (fst (zeroRuns fuel run)) + snd (zeroRuns fuel run) <= run)%nat).
  { induction fuel as [|k IH]; intros run H; cbn [zeroRuns]; [cbn; lia|]. destruct (Nat.leb_spec 11 run); cbn [fst snd length]; [|lia]. specialize (IH (run - Nat.min run 138)%nat ltac:(lia)). lia. }
  assert (HC : forall fuel run, (run <= fuel)%nat -> (length (fst (copyRuns fuel run)) + snd (copyRuns fuel run) <= run)%nat).
  { induction fuel as [|k IH]; intros run H; cbn [copyRuns]; [cbn; lia|]. destruct (Nat.leb_spec 3 run); cbn [fst snd length]; [|lia]. specialize (IH (run - Nat.min run 6)%nat ltac:(lia)). lia. }
  assert (HR : forall x run, (1 <= run)%nat -> (length (runTokens x run) <= run)%nat).
  { intros x run H. unfold runTokens. destruct (x =? 0)%nat.
    - specialize (HZ run run (le_n _)). destruct (Nat.leb_spec 3 (snd (zeroRuns run run))); rewrite app_length, ?repeat_length; cbn [length]; lia.
    - specialize (HC run (run - 1)%nat ltac:(lia)). cbn [length]. rewrite app_length, repeat_length. lia. }
  induction fuel as [|k IH]; intros lens Hf Hle.
  - destruct lens; [|cbn in Hf; lia]. cbn [encodeCodeLengths]. split; [constructor|]. split; [cbn; lia|]. intros sofar Hl _. rewrite app_nil_r. apply lb_end. cbn in Hl. lia.
  - cbn [encodeCodeLengths]. destruct lens as [|x r].
    + split; [constructor|]. split; [cbn; lia|]. intros sofar Hl _. rewrite app_nil_r. apply lb_end. cbn in Hl. lia.
    + destruct (runLength_spec x r) as [R1 R2]. cbn zeta in *. set (n := runLength x r) in *. inversion Hle as [|? ? Hx Hr]; subst.
      cbn [skipn]. cbn [length] in Hf.
      assert (Er : x :: r = repeat x (S n) ++ skipn n r) by (cbn [repeat app]; f_equal; rewrite <- R2; symmetry; apply firstn_skipn).
      destruct (IH (skipn n r)) as (I1 & I2 & I3); [rewrite skipn_length; lia|apply Forall_skip; exact Hr|]. cbn zeta in *.
      destruct (runTokens_bits x (S n) Hx ltac:(lia)) as [T1 T2]. specialize (HR x (S n) ltac:(lia)). rewrite skipn_length in I2. split; [apply Forall_app; auto|].
      split; [rewrite app_length; cbn [length]; lia|]. intros sofar Hl Hc. apply Forall_app in Hc. destruct Hc as [Hc1 Hc2]. rewrite clBits_app. cbn [length] in Hl.
      apply T2; [lia|exact Hc1|]. rewrite Er, app_assoc. apply I3; [rewrite app_length, repeat_length, skipn_length; lia|exact Hc2].
Qed.
End Send.
