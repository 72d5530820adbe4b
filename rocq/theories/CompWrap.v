(** The containers: raw, zlib and gzip data against their formats. *)
From Coq Require Import List NArith ZArith Arith Bool Lia ZifyBool ZifyNat ZifyN.
From Verif Require Import Base CompModel CompSpec CompBits CompHuff CompDec CompBlk CrcSpec.
From Verif Require CrcModel CrcProofs CrcProps.
Import ListNotations.
Local Open Scope N_scope.

(** * Checksums *)
Lemma crc_iff W l c : octets l -> (crc32Of l c <-> c = computeCrc32 W l).
Proof.
  intros Hl. destruct (CrcProps.C27_equals_long_division CrcModel.IEEE 0x04C11DB7 W l ltac:(left; reflexivity) Hl) as (H1 & _ & H2).
  change (CrcProps.w_of CrcModel.IEEE) with 32%nat in H1. change (CrcModel.width CrcModel.IEEE) with 32 in H2.
  change (CrcModel.xorOut CrcModel.IEEE) with 0xFFFFFFFF in H1. change (CrcModel.init CrcModel.IEEE) with 0xFFFFFFFF in H1.
  unfold computeCrc32. split.
  - intros [Hc Hb]. rewrite <- H1 in Hb. apply (lsb_inj 32); [exact Hc|exact H2|exact Hb].
  - intros ->. split; [exact H2|exact H1].
Qed.

Definition asum (l : list N) : N := fold_right N.add 0 l.
Lemma adlerRun_spec run : forall a b, octets run -> a + bytesN run * 255 < 2 ^ 32 -> b + bytesN run * a + 255 * bytesN run * (bytesN run + 1) / 2 < 2 ^ 32 ->
  adlerRun a b run = fold_left (fun s x => (fst s + x, snd s + (fst s + x))) run (a, b).
Proof.
  unfold adlerRun. induction run as [|x run IH]; intros a b Ho Ha Hb; [reflexivity|]. inversion Ho as [|? ? Hx Ho']; subst.
  cbn [fold_left fst snd]. assert (El : bytesN (x :: run) = bytesN run + 1) by (unfold bytesN; cbn [length]; lia). rewrite El in *.
  set (n := bytesN run) in *.
  assert (Hdiv : 255 * (n + 1) * (n + 1 + 1) / 2 = 255 * n * (n + 1) / 2 + 255 * (n + 1)).
  { rewrite <- N.div_add by lia. f_equal. lia. }
  rewrite Hdiv in Hb.
  assert (Hm : (n + 1) * a = n * a + a) by lia.
  assert (Hm2 : n * (a + x) <= n * a + n * 255) by (rewrite N.mul_add_distr_l; apply N.add_le_mono_l, N.mul_le_mono_l; lia).
  rewrite (tr_small 32 (a + x)) by (unfold tr; lia). rewrite (tr_small 32 (b + (a + x))) by lia.
  apply IH; [exact Ho'|lia|]. lia.
Qed.
Lemma adlerSum_mod l : forall a b,
  fold_left (fun s x => ((fst s + x) mod 65521, (snd s + (fst s + x)) mod 65521)) l (a mod 65521, b mod 65521)
  = (let s := fold_left (fun s x => (fst s + x, snd s + (fst s + x))) l (a, b) in (fst s mod 65521, snd s mod 65521)).
Proof.
  induction l as [|x l IH]; intros a b; [reflexivity|]. cbn [fold_left fst snd]. cbn zeta. rewrite <- IH. f_equal.
  assert (E1 : (a mod 65521 + x) mod 65521 = (a + x) mod 65521) by (rewrite N.add_mod_idemp_l by discriminate; reflexivity).
  rewrite E1. f_equal.
  rewrite N.add_mod_idemp_l by discriminate. rewrite <- N.add_mod_idemp_r by discriminate. rewrite E1, N.add_mod_idemp_r by discriminate. reflexivity.
Qed.
Lemma octets_firstn n l : octets l -> octets (firstn n l).
Proof. intros H. apply Forall_forall. intros x Hx. apply (proj1 (Forall_forall _ _) H). rewrite <- (firstn_skipn n l). apply in_or_app. left; exact Hx. Qed.
Lemma octets_skipn n l : octets l -> octets (skipn n l).
Proof. intros H. apply Forall_forall. intros x Hx. apply (proj1 (Forall_forall _ _) H). rewrite <- (firstn_skipn n l). apply in_or_app. right; exact Hx. Qed.
Lemma updateAdler_spec fuel : forall a b input, octets input -> (length input <= fuel)%nat -> a < 65521 -> b < 65521 ->
  updateAdler fuel a b input = fold_left (fun s x => ((fst s + x) mod 65521, (snd s + (fst s + x)) mod 65521)) input (a, b).
Proof.
  induction fuel as [|fuel IH]; intros a b input Ho Hf Ha Hb; cbn [updateAdler].
  - destruct input; [reflexivity|cbn in Hf; lia].
  - destruct input as [|x rest] eqn:E; [reflexivity|]. rewrite <- E in *.
    assert (Hpos : (1 <= length input)%nat) by (rewrite E; cbn; lia).
    set (run := firstn (N.to_nat kMaxRun) input).
    assert (Hk : N.of_nat (length run) <= 5552) by (unfold run; rewrite firstn_length, Nat2N.inj_min, N2Nat.id; unfold kMaxRun; lia).
    assert (Hk1 : (1 <= N.to_nat kMaxRun)%nat) by (unfold kMaxRun; lia).
    assert (Hrpos : (1 <= length run)%nat) by (unfold run; rewrite firstn_length; lia).
    assert (Er : skipn (length run) input = skipn (N.to_nat kMaxRun) input).
    { unfold run. rewrite firstn_length. destruct (Nat.min_spec (N.to_nat kMaxRun) (length input)) as [(H & ->)|(H & ->)]; [reflexivity|].
      rewrite !skipn_all2 by lia. reflexivity. }
    rewrite adlerRun_spec.
    + pose proof (adlerSum_mod run a b) as Hm. rewrite (N.mod_small a), (N.mod_small b) in Hm by assumption. cbn zeta in Hm.
      assert (Es : input = run ++ skipn (length run) input) by (rewrite Er; symmetry; apply firstn_skipn).
      transitivity (fold_left (fun s x => ((fst s + x) mod 65521, (snd s + (fst s + x)) mod 65521)) (run ++ skipn (length run) input) (a, b)); [|rewrite <- Es; reflexivity].
      rewrite fold_left_app, Hm. unfold kModAdler.
      apply IH; [apply octets_skipn, Ho|rewrite skipn_length; lia| |]; apply N.mod_lt; discriminate.
    + apply octets_firstn, Ho.
    + unfold bytesN. change (2 ^ 32) with 4294967296. lia.
    + unfold bytesN. set (n := N.of_nat (length run)). assert (Hn : n <= 5552) by lia.
      assert (n * a <= 5552 * 65520) by (apply N.mul_le_mono; lia).
      assert (255 * n * (n + 1) / 2 <= 255 * 5552 * 5553 / 2) by (apply N.div_le_mono; [discriminate|]; apply N.mul_le_mono; lia).
      change (255 * 5552 * 5553 / 2) with 3930857640 in *. change (2 ^ 32) with 4294967296. lia.
Qed.
Lemma adlerSums_lt l : fst (adlerSums l) < 65521 /\ snd (adlerSums l) < 65521.
Proof.
  unfold adlerSums. assert (H : forall a b, a < 65521 -> b < 65521 -> let s := fold_left (fun s x => ((fst s + x) mod 65521, (snd s + (fst s + x)) mod 65521)) l (a, b) in fst s < 65521 /\ snd s < 65521).
  { induction l as [|x l IH]; intros a b Ha Hb; cbn zeta; [auto|]. cbn [fold_left fst snd]. apply IH; apply N.mod_lt; discriminate. }
  apply H; lia.
Qed.
Theorem adler32_spec input : octets input -> adler32 input = adlerSpec input.
Proof.
  intros Ho. unfold adler32, adlerSpec. rewrite updateAdler_spec by (try exact Ho; lia). fold (adlerSums input).
  destruct (adlerSums_lt input) as [H1 H2]. cbn zeta.
  rewrite tr_small by (rewrite N.shiftl_mul_pow2; change (2 ^ 16) with 65536; change (2 ^ 32) with 4294967296; lia).
  rewrite N.lor_comm, lor_shiftl_add by (change (2 ^ 16) with 65536; lia). change (2 ^ 16) with 65536. lia.
Qed.
Lemma adlerSpec_lt l : adlerSpec l < 2 ^ 32.
Proof. unfold adlerSpec. destruct (adlerSums_lt l). change (2 ^ 32) with 4294967296. cbn zeta. lia. Qed.

(** * Numbers in bytes *)
Lemma length_le n v : length (le n v) = n.
Proof. revert v; induction n as [|n IH]; intros v; cbn [le length]; [reflexivity|]. rewrite IH. reflexivity. Qed.
Lemma octets_le n v : octets (le n v).
Proof. revert v; induction n as [|n IH]; intros v; cbn [le]; constructor; [apply N.mod_lt; discriminate|apply IH]. Qed.
Lemma le_step n a v : a < 256 -> le (S n) (a + 256 * v) = a :: le n v.
Proof.
  intros H. cbn [le]. rewrite (N.mul_comm 256), N.mod_add, N.mod_small, N.div_add, (N.div_small a), N.add_0_l by (try discriminate; exact H). reflexivity.
Qed.
Lemma le2_eq a b : a < 256 -> b < 256 -> le 2 (N.lor a (N.shiftl b 8)) = [a; b] /\ N.lor a (N.shiftl b 8) < 65536.
Proof.
  intros Ha Hb. rewrite lor_shiftl_add by exact Ha. change (2 ^ 8) with 256. split; [|lia].
  replace (a + b * 256) with (a + 256 * (b + 256 * 0)) by lia. rewrite !le_step by assumption. reflexivity.
Qed.
Lemma le4_eq a b c d : a < 256 -> b < 256 -> c < 256 -> d < 256 ->
  let v := N.lor (N.lor (N.lor a (N.shiftl b 8)) (N.shiftl c 16)) (N.shiftl d 24) in le 4 v = [a; b; c; d] /\ v < 2 ^ 32.
Proof.
  intros Ha Hb Hc Hd. cbn zeta.
  rewrite (lor_shiftl_add a b 8) by exact Ha. change (2 ^ 8) with 256.
  rewrite (lor_shiftl_add _ c 16) by (change (2 ^ 16) with 65536; lia). change (2 ^ 16) with 65536.
  rewrite (lor_shiftl_add _ d 24) by (change (2 ^ 24) with 16777216; lia). change (2 ^ 24) with 16777216. change (2 ^ 32) with 4294967296. split; [|lia].
  replace (a + b * 256 + c * 65536 + d * 16777216) with (a + 256 * (b + 256 * (c + 256 * (d + 256 * 0)))) by lia.
  rewrite !le_step by assumption. reflexivity.
Qed.
Lemma le_inj n : forall u v, u < 256 ^ N.of_nat n -> v < 256 ^ N.of_nat n -> le n u = le n v -> u = v.
Proof.
  induction n as [|n IH]; intros u v Hu Hv E.
  - change (256 ^ N.of_nat 0) with 1 in *. lia.
  - cbn [le] in E. injection E as E1 E2. rewrite Nat2N.inj_succ, N.pow_succ_r' in Hu, Hv.
    apply IH in E2; [|apply N.div_lt_upper_bound; lia|apply N.div_lt_upper_bound; lia].
    rewrite (N.div_mod u 256), (N.div_mod v 256) by discriminate. congruence.
Qed.
Lemma list4 (l : list N) : length l = 4%nat -> exists a b c d, l = [a; b; c; d].
Proof. destruct l as [|a [|b [|c [|d [|]]]]]; cbn; try discriminate. eauto 6. Qed.
Lemma list2 (l : list N) : length l = 2%nat -> exists a b, l = [a; b].
Proof. destruct l as [|a [|b [|]]]; cbn; try discriminate. eauto 6. Qed.
Lemma aget_app {A} (pre l : list A) i : aget (pre ++ l) (length pre + i) = aget l i.
Proof. unfold aget. rewrite nth_error_app2 by lia. replace (length pre + i - length pre)%nat with i by lia. reflexivity. Qed.
Lemma aget_app0 {A} (pre l : list A) : aget (pre ++ l) (length pre) = aget l 0.
Proof. rewrite <- (aget_app pre l 0), Nat.add_0_r. reflexivity. Qed.

(** The segment [i, j) of a list. *)
Definition seg (l : list N) (i j : nat) : list N := firstn (j - i) (skipn i l).
Lemma skipn_add {A} (l : list A) a b : skipn a (skipn b l) = skipn (a + b) l.
Proof. revert l; induction b as [|b IH]; intros l; [rewrite Nat.add_0_r; reflexivity|]. rewrite Nat.add_succ_r. destruct l as [|x l]; [rewrite skipn_nil; reflexivity|]. cbn [skipn]. apply IH. Qed.
Lemma seg_app l i j k : (i <= j <= k)%nat -> seg l i k = seg l i j ++ seg l j k.
Proof.
  intros H. unfold seg. assert (E : skipn j l = skipn (j - i) (skipn i l)) by (rewrite skipn_add; f_equal; lia). rewrite E. clear E.
  replace (k - i)%nat with ((j - i) + (k - j))%nat by lia.
  generalize (skipn i l). generalize (j - i)%nat. generalize (k - j)%nat. clear. intros b a l. revert l; induction a as [|a IH]; intros l; [reflexivity|].
  destruct l as [|x l]; [rewrite ?firstn_nil, ?skipn_nil, ?firstn_nil; reflexivity|]. cbn [Nat.add skipn]. rewrite !firstn_cons, IH. reflexivity.
Qed.
Lemma length_seg l i j : (i <= j <= length l)%nat -> length (seg l i j) = (j - i)%nat.
Proof. intros H. unfold seg. rewrite firstn_length, skipn_length. lia. Qed.
Lemma octets_seg l i j : octets l -> octets (seg l i j).
Proof. intros H. apply octets_firstn, octets_skipn, H. Qed.
Lemma seg_all l : seg l 0 (length l) = l.
Proof. unfold seg. cbn [skipn]. rewrite Nat.sub_0_r. apply firstn_all. Qed.
Lemma seg_nil l i : seg l i i = [].
Proof. unfold seg. rewrite Nat.sub_diag. reflexivity. Qed.
Lemma seg_split l i j : (i <= j <= length l)%nat -> l = firstn i l ++ seg l i j ++ skipn j l.
Proof.
  intros H. unfold seg. rewrite <- (firstn_skipn i l) at 1. f_equal. rewrite <- (firstn_skipn (j - i) (skipn i l)) at 1. f_equal.
  rewrite skipn_add. f_equal. lia.
Qed.
Lemma read16_spec input pos : octets input -> (pos + 2 <= length input)%nat ->
  exists v, readLittle16 input pos = Ok v /\ seg input pos (pos + 2) = le 2 v /\ v < 65536.
Proof.
  intros Ho Hp. pose proof (octets_seg input pos (pos + 2) Ho) as Hs. pose proof (length_seg input pos (pos + 2) ltac:(lia)) as Hl.
  replace (pos + 2 - pos)%nat with 2%nat in Hl by lia. destruct (list2 _ Hl) as (a & b & E). rewrite E in *.
  inversion Hs as [|? ? Ha Hs']; subst. inversion Hs' as [|? ? Hb Hs'']; subst.
  pose proof (seg_split input pos (pos + 2) ltac:(lia)) as Ei. rewrite E in Ei.
  assert (Ep : length (firstn pos input) = pos) by (rewrite firstn_length; lia).
  exists (N.lor a (N.shiftl b 8)). destruct (le2_eq a b Ha Hb) as [E1 E2]. split; [|split; [congruence|exact E2]].
  assert (G : forall i, (i < 2)%nat -> aget input (pos + i) = aget [a; b] i).
  { intros i Hi. rewrite Ei. rewrite <- Ep at 3. rewrite aget_app. unfold aget. rewrite nth_error_app1 by exact Hi. reflexivity. }
  unfold readLittle16. rewrite G by lia. rewrite <- (Nat.add_0_r pos) at 1. rewrite G by lia. reflexivity.
Qed.
Lemma read32_spec input pos : octets input -> (pos + 4 <= length input)%nat ->
  exists v, readLittle32 input pos = Ok v /\ seg input pos (pos + 4) = le 4 v /\ v < 2 ^ 32.
Proof.
  intros Ho Hp. pose proof (octets_seg input pos (pos + 4) Ho) as Hs. pose proof (length_seg input pos (pos + 4) ltac:(lia)) as Hl.
  replace (pos + 4 - pos)%nat with 4%nat in Hl by lia. destruct (list4 _ Hl) as (a & b & c & d & E). rewrite E in *.
  inversion Hs as [|? ? Ha Hs1]; subst. inversion Hs1 as [|? ? Hb Hs2]; subst. inversion Hs2 as [|? ? Hc Hs3]; subst. inversion Hs3 as [|? ? Hd Hs4]; subst.
  pose proof (seg_split input pos (pos + 4) ltac:(lia)) as Ei. rewrite E in Ei.
  assert (Ep : length (firstn pos input) = pos) by (rewrite firstn_length; lia).
  destruct (le4_eq a b c d Ha Hb Hc Hd) as [E1 E2]. eexists. split; [|split; [symmetry; exact E1|exact E2]].
  assert (G : forall i, (i < 4)%nat -> aget input (pos + i) = aget [a; b; c; d] i).
  { intros i Hi. rewrite Ei. rewrite <- Ep at 3. rewrite aget_app. unfold aget. rewrite nth_error_app1 by exact Hi. reflexivity. }
  unfold readLittle32. rewrite !G by lia. rewrite <- (Nat.add_0_r pos) at 1. rewrite G by lia. reflexivity.
Qed.
Lemma readBig_spec input pos : octets input -> (pos + 4 <= length input)%nat ->
  exists v, readBig32 input pos = Ok v /\ seg input pos (pos + 4) = rev (le 4 v) /\ v < 2 ^ 32.
Proof.
  intros Ho Hp. pose proof (octets_seg input pos (pos + 4) Ho) as Hs. pose proof (length_seg input pos (pos + 4) ltac:(lia)) as Hl.
  replace (pos + 4 - pos)%nat with 4%nat in Hl by lia. destruct (list4 _ Hl) as (a & b & c & d & E). rewrite E in *.
  inversion Hs as [|? ? Ha Hs1]; subst. inversion Hs1 as [|? ? Hb Hs2]; subst. inversion Hs2 as [|? ? Hc Hs3]; subst. inversion Hs3 as [|? ? Hd Hs4]; subst.
  pose proof (seg_split input pos (pos + 4) ltac:(lia)) as Ei. rewrite E in Ei.
  assert (Ep : length (firstn pos input) = pos) by (rewrite firstn_length; lia).
  destruct (le4_eq d c b a Hd Hc Hb Ha) as [E1 E2]. exists (N.lor (N.lor (N.lor d (N.shiftl c 8)) (N.shiftl b 16)) (N.shiftl a 24)).
  split; [|split; [rewrite E1; reflexivity|exact E2]].
  assert (G : forall i, (i < 4)%nat -> aget input (pos + i) = aget [a; b; c; d] i).
  { intros i Hi. rewrite Ei. rewrite <- Ep at 3. rewrite aget_app. unfold aget. rewrite nth_error_app1 by exact Hi. reflexivity. }
  unfold readBig32. rewrite !G by lia. rewrite <- (Nat.add_0_r pos) at 1. rewrite G by lia. cbn [aget nth_error bind]. f_equal.
  apply N.bits_inj. intros i. rewrite !N.lor_spec. destruct (N.testbit d i), (N.testbit (N.shiftl c 8) i), (N.testbit (N.shiftl b 16) i), (N.testbit (N.shiftl a 24) i); reflexivity.
Qed.

Lemma seg_mid a b c : seg (a ++ b ++ c) (length a) (length a + length b) = b.
Proof.
  unfold seg. replace (length a + length b - length a)%nat with (length b) by lia.
  rewrite skipn_app, skipn_all, Nat.sub_diag. cbn [skipn app]. rewrite firstn_app, Nat.sub_diag, firstn_all. cbn [firstn]. apply app_nil_r.
Qed.
Lemma read16_at a v c : octets (a ++ le 2 v ++ c) -> v < 65536 -> readLittle16 (a ++ le 2 v ++ c) (length a) = Ok v.
Proof.
  intros Ho Hv. destruct (read16_spec (a ++ le 2 v ++ c) (length a) Ho) as (w & E & Hs & Hw).
  { rewrite !app_length, length_le. lia. }
  rewrite E. f_equal. pose proof (seg_mid a (le 2 v) c) as Hm. rewrite length_le in Hm. rewrite Hm in Hs.
  symmetry. apply (le_inj 2); [exact Hv|exact Hw|exact Hs].
Qed.
Lemma read32_at a v c : octets (a ++ le 4 v ++ c) -> v < 2 ^ 32 -> readLittle32 (a ++ le 4 v ++ c) (length a) = Ok v.
Proof.
  intros Ho Hv. destruct (read32_spec (a ++ le 4 v ++ c) (length a) Ho) as (w & E & Hs & Hw).
  { rewrite !app_length, length_le. lia. }
  rewrite E. f_equal. pose proof (seg_mid a (le 4 v) c) as Hm. rewrite length_le in Hm. rewrite Hm in Hs.
  symmetry. apply (le_inj 4); [exact Hv|exact Hw|exact Hs].
Qed.
Lemma readBig_at a v c : octets (a ++ rev (le 4 v) ++ c) -> v < 2 ^ 32 -> readBig32 (a ++ rev (le 4 v) ++ c) (length a) = Ok v.
Proof.
  intros Ho Hv. destruct (readBig_spec (a ++ rev (le 4 v) ++ c) (length a) Ho) as (w & E & Hs & Hw).
  { rewrite !app_length, rev_length, length_le. lia. }
  rewrite E. f_equal. pose proof (seg_mid a (rev (le 4 v)) c) as Hm. rewrite rev_length, length_le in Hm. rewrite Hm in Hs.
  apply (f_equal (@rev N)) in Hs. rewrite !rev_involutive in Hs. symmetry. apply (le_inj 4); [exact Hv|exact Hw|exact Hs].
Qed.

(** * Bytes left by the outputs *)
Definition isSpan (o : Output) : Prop := match o with Span _ _ _ => True | _ => False end.
Lemma sameKind_span o o' : sameKind o o' -> (isSpan o <-> isSpan o').
Proof. intros [_ H]. destruct o, o'; cbn in *; tauto. Qed.
Lemma orange_spec o pre out : rep o pre out ->
  match orange o (bytesN pre) with None => ~ isSpan o | Some bytes => isSpan o /\ bytes = out end.
Proof.
  destruct o as [c hb l|b p hb]; cbn [rep orange isSpan]; intros H; [tauto|]. split; [exact I|]. destruct H as (_ & H1 & H2).
  unfold bytesN. rewrite Nat2N.id. rewrite firstn_skipn_comm.
  assert (Hp : p = (length pre + length out)%nat) by (rewrite <- app_length, <- H2, firstn_length; lia).
  replace (length pre + (p - length pre))%nat with p by lia. rewrite H2, skipn_app, skipn_all, Nat.sub_diag. reflexivity.
Qed.
(** [out] of a DEFLATE stream is made of bytes. *)
Lemma octets_lzCopy n d out : octets out -> octets (lzCopy n d out).
Proof.
  revert out; induction n as [|n IH]; intros out H; cbn [lzCopy]; [exact H|]. apply IH, octets_app. split; [exact H|]. constructor; [|constructor].
  destruct (nth_in_or_default (length out - d) out 0) as [Hi| ->]; [|reflexivity]. apply (proj1 (Forall_forall _ _) H), Hi.
Qed.
Lemma octets_expand lit dist ts bs : bodyBits lit dist ts bs -> forall out out', expand out ts out' -> octets out -> octets out'.
Proof.
  induction 1 as [|t ts b bs Ht Hb IH]; intros out out' Hx Ho; inversion Hx as [|? ? ? ? Hx'|? ? ? ? ? ? ? Hx']; subst; [exact Ho| |].
  - eapply IH; [exact Hx'|]. apply octets_app. split; [exact Ho|]. inversion Ht; subst. constructor; [assumption|constructor].
  - eapply IH; [exact Hx'|]. apply octets_lzCopy, Ho.
Qed.
Lemma octets_blocks off out bs out' : blocks off out bs out' -> octets out -> octets out'.
Proof.
  assert (Hb : forall off out bs k out', block off out bs k out' -> octets out -> octets out').
  { intros ? ? ? ? ? H Ho. inversion H; subst; [apply octets_app; split; assumption|eapply octets_expand; eassumption|eapply octets_expand; eassumption]. }
  induction 1 as [? ? ? ? ? H|? ? ? ? ? ? ? H1 H2 IH]; intros Ho; [eapply Hb; eassumption|]. apply IH. eapply Hb; eassumption.
Qed.
Lemma octets_deflate bytes out : Deflate bytes out -> octets out.
Proof. intros (bs & pad & _ & _ & H). eapply octets_blocks; [exact H|constructor]. Qed.

(** * Raw data *)
Theorem raw_sound input o pre out : octets input -> rep o pre out ->
  match decodeRaw input o with
  | Ok (n, o') => exists data, Deflate input data /\ rep o' (pre ++ out) data /\ sameKind o o' /\ n = bytesN (pre ++ out ++ data)
  | Err _ => True | _ => False end.
Proof.
  intros Hi Ho. unfold decodeRaw. pose proof (decodeDeflate_sound input o pre out Hi Ho) as H.
  destruct (decodeDeflate input o) as [[n o']|e| |]; cbn [bind]; try exact H. destruct H as (Hn & data & Hd & Hp & Hk).
  destruct (Nat.eqb_spec n (length input)) as [E|]; cbn [negb]; [|exact I]. exists data. rewrite E, firstn_all in Hd.
  split; [exact Hd|]. split; [exact Hp|]. split; [exact Hk|]. rewrite app_assoc. apply (rep_size _ _ _ Hp).
Qed.
Theorem raw_complete input data o pre out : octets input -> Deflate input data -> rep o pre out -> bytesN (pre ++ out ++ data) <= cap o ->
  exists o', decodeRaw input o = Ok (bytesN (pre ++ out ++ data), o') /\ rep o' (pre ++ out) data /\ sameKind o o'.
Proof.
  intros Hi Hd Ho Hroom. unfold decodeRaw.
  destruct (decodeDeflate_complete input (length input) data o pre out Hi ltac:(lia) ltac:(rewrite firstn_all; exact Hd) Ho Hroom) as (o' & E & Hp & Hk).
  rewrite E. cbn [bind]. rewrite Nat.eqb_refl. cbn [negb]. exists o'. split; [|auto]. do 2 f_equal. rewrite app_assoc. apply (rep_size _ _ _ Hp).
Qed.

(** * zlib *)
Lemma land15 x : N.land x 15 = x mod 16.
Proof. change 15 with (N.ones 4). rewrite N.land_ones. reflexivity. Qed.
Lemma land_pow f k : negb (N.land f (2 ^ k) =? 0) = N.testbit f k.
Proof.
  destruct (N.testbit f k) eqn:E.
  - destruct (N.eqb_spec (N.land f (2 ^ k)) 0) as [H|H]; [|reflexivity]. apply (f_equal (fun x => N.testbit x k)) in H.
    rewrite N.land_spec, N.pow2_bits_true, E, N.bits_0 in H. discriminate.
  - destruct (N.eqb_spec (N.land f (2 ^ k)) 0) as [H|H]; [reflexivity|]. exfalso. apply H. apply N.bits_inj. intros i. rewrite N.land_spec, N.bits_0.
    destruct (N.eq_dec k i) as [<-|Hne]; [rewrite E; reflexivity|]. rewrite N.pow2_bits_false by exact Hne. apply andb_false_r.
Qed.
Lemma zlib_octets ok input data : Zlib ok input data -> octets input -> octets data.
Proof. intros (cmf & flg & body & c & _ & _ & _ & _ & _ & _ & Hd & _) _. eapply octets_deflate, Hd. Qed.
Definition zlibChecked (o : Output) : list N -> N -> Prop := match o with Span _ _ _ => adlerRight | Counting _ _ _ => anything end.
Definition crcChecked (o : Output) : list N -> N -> Prop := match o with Span _ _ _ => crc32Of | Counting _ _ _ => anything end.
Lemma list2plus (l : list N) : (2 <= length l)%nat -> exists a b r, l = a :: b :: r.
Proof. destruct l as [|a [|b r]]; cbn; try lia. eauto. Qed.
Theorem zlib_sound input o pre out : octets input -> rep o pre out ->
  match decodeZlib input o with
  | Ok (n, o') => exists data, Zlib (zlibChecked o) input data /\ rep o' (pre ++ out) data /\ sameKind o o' /\ n = bytesN (pre ++ out ++ data)
  | Err _ => True | _ => False end.
Proof.
  intros Hi Ho. unfold decodeZlib. destruct (Nat.ltb_spec (length input) 2) as [|H2]; [exact I|].
  destruct (list2plus input H2) as (cmf & flg & body & Ei). assert (Hc : cmf < 256 /\ flg < 256 /\ octets body).
  { rewrite Ei in Hi. inversion Hi as [|? ? Ha Hi1]; subst. inversion Hi1; subst. auto. }
  destruct Hc as (Hc & Hg & Hb). rewrite Ei. cbn [aget nth_error bind]. rewrite <- Ei.
  rewrite land15. change 32 with (2 ^ 5). rewrite land_pow. rewrite N.shiftr_div_pow2, N.shiftl_mul_pow2. change (2 ^ 4) with 16. change (2 ^ 8) with 256.
  destruct (N.eqb_spec (cmf mod 16) 8) as [H8|]; cbn [negb orb]; [|exact I].
  destruct (N.ltb_spec 7 (cmf / 16)) as [|H7]; cbn [orb]; [exact I|].
  destruct (N.eqb_spec ((cmf * 256 + flg) mod 31) 0) as [H31|]; cbn [negb]; [|exact I].
  destruct (N.testbit flg 5) eqn:Hf5; [destruct (length input <? 6)%nat; exact I|].
  replace (skipn 2 input) with body by (rewrite Ei; reflexivity).
  pose proof (decodeDeflate_sound body o pre out Hb Ho) as H. destruct (decodeDeflate body o) as [[n o']|e| |]; cbn [bind]; try exact H.
  destruct H as (Hn & data & Hd & Hp & Hk).
  destruct (Nat.ltb_spec (length input) (2 + n + 4)) as [|Hl]; [exact I|].
  destruct (Nat.eqb_spec (length input) (2 + n + 4)) as [El|]; cbn [negb]; [|exact I].
  destruct (readBig_spec input (2 + n) Hi ltac:(lia)) as (sum & Es & Hs & Hs32).
  assert (Hz : forall ok : list N -> N -> Prop, ok data sum -> Zlib ok input data).
  { intros ok Hok. exists cmf, flg, (firstn n body), sum. split; [|auto 10]. rewrite <- Hs. rewrite Ei at 1. cbn [app]. do 2 f_equal.
    rewrite <- (firstn_skipn n body) at 1. f_equal. unfold seg. rewrite Ei. cbn [Nat.add skipn]. symmetry. apply firstn_all2. rewrite Ei in El. cbn [length] in El.
    rewrite skipn_length. lia. }
  assert (Esz : osize o' = bytesN (pre ++ out ++ data)) by (rewrite app_assoc; apply (rep_size _ _ _ Hp)).
  pose proof (rep_size _ _ _ Ho) as [Eb _]. rewrite Eb. pose proof (orange_spec _ _ _ Hp) as Hr.
  destruct (orange o' (bytesN (pre ++ out))) as [bytes|].
  - destruct Hr as [Hsp ->]. rewrite Es. cbn [bind]. rewrite adler32_spec by (eapply octets_deflate, Hd).
    destruct (N.eqb_spec (adlerSpec data) sum) as [Ea|]; cbn [negb]; [|exact I]. exists data. split; [|auto].
    apply Hz. destruct o; cbn [zlibChecked]; [exact I|]. symmetry. exact Ea.
  - exists data. split; [|auto]. apply Hz. rewrite <- (sameKind_span _ _ Hk) in Hr. destruct o; cbn [zlibChecked isSpan] in *; [exact I|tauto].
Qed.
Theorem zlib_complete ok input data o pre out : octets input -> Zlib ok input data -> rep o pre out -> bytesN (pre ++ out ++ data) <= cap o ->
  (exists o', decodeZlib input o = Ok (bytesN (pre ++ out ++ data), o') /\ rep o' (pre ++ out) data /\ sameKind o o') \/
  (isSpan o /\ ~ (forall x c, ok x c -> adlerRight x c) /\ decodeZlib input o = Err checksumMismatch).
Proof.
  intros Hi (cmf & flg & body & c & Ei & Hc32 & H8 & H7 & H31 & Hf5 & Hd & Hok) Ho Hroom.
  assert (L5 : negb (N.land flg 32 =? 0) = false) by (change 32 with (2 ^ 5); rewrite land_pow; exact Hf5). unfold decodeZlib.
  assert (Ll : length input = (2 + length body + 4)%nat) by (rewrite Ei, !app_length, rev_length, length_le; cbn; lia).
  destruct (Nat.ltb_spec (length input) 2) as [|_]; [lia|]. rewrite Ei. cbn [app aget nth_error bind].
  rewrite land15. rewrite L5. rewrite N.shiftr_div_pow2, N.shiftl_mul_pow2. change (2 ^ 4) with 16. change (2 ^ 8) with 256.
  rewrite H8, H31, !N.eqb_refl. cbn [negb orb]. destruct (N.ltb_spec 7 (cmf / 16)) as [|_]; [lia|]. cbn [orb]. cbn [skipn].
  change (cmf :: flg :: body ++ rev (le 4 c)) with ([cmf; flg] ++ body ++ rev (le 4 c)). rewrite <- Ei.
  assert (Hib : octets (body ++ rev (le 4 c))) by (rewrite Ei in Hi; apply octets_app in Hi; apply Hi).
  destruct (decodeDeflate_complete (body ++ rev (le 4 c)) (length body) data o pre out Hib) as (o' & E & Hp & Hk); try assumption.
  { rewrite app_length. lia. }
  { rewrite firstn_app, Nat.sub_diag, firstn_all. cbn [firstn]. rewrite app_nil_r. exact Hd. }
  rewrite E. cbn [bind]. rewrite Ll. destruct (Nat.ltb_spec (2 + length body + 4) (2 + length body + 4)) as [|_]; [lia|].
  rewrite Nat.eqb_refl. cbn [negb].
  assert (Esz : osize o' = bytesN (pre ++ out ++ data)) by (rewrite app_assoc; apply (rep_size _ _ _ Hp)).
  pose proof (rep_size _ _ _ Ho) as [Eb _]. rewrite Eb, Esz. pose proof (orange_spec _ _ _ Hp) as Hr.
  destruct (orange o' (bytesN (pre ++ out))) as [bytes|].
  - destruct Hr as [Hsp ->].
    assert (Es : readBig32 input (2 + length body) = Ok c).
    { assert (Ei' : input = ([cmf; flg] ++ body) ++ rev (le 4 c) ++ []) by (rewrite app_nil_r, <- app_assoc; exact Ei).
      change (2 + length body)%nat with (length ([cmf; flg] ++ body)). rewrite Ei'. apply readBig_at; [rewrite <- Ei'; exact Hi|exact Hc32]. }
    rewrite Es. cbn [bind]. rewrite adler32_spec by (eapply octets_deflate, Hd).
    destruct (N.eqb_spec (adlerSpec data) c) as [Ea|Ea]; cbn [negb].
    + left. exists o'. auto.
    + right. split; [apply (sameKind_span _ _ Hk), Hsp|]. split; [|reflexivity]. intros Hall. apply Ea. symmetry. apply Hall, Hok.
  - left. exists o'. auto.
Qed.

(** * gzip *)
Lemma afterZero_sound l : forall pos p, afterZero l pos = Some p -> exists s rest, l = s ++ [0] ++ rest /\ ~ In 0 s /\ p = (pos + length s + 1)%nat.
Proof.
  induction l as [|x l IH]; intros pos p H; cbn [afterZero] in H; [discriminate|]. destruct (N.eqb_spec x 0) as [->|Hx].
  - injection H as <-. exists [], l. cbn. split; [reflexivity|]. split; [tauto|lia].
  - destruct (IH _ _ H) as (s & rest & -> & Hs & ->). exists (x :: s), rest. split; [reflexivity|]. split; [|cbn; lia]. intros [E|E]; [congruence|tauto].
Qed.
Lemma afterZero_complete s rest pos : ~ In 0 s -> afterZero (s ++ [0] ++ rest) pos = Some (pos + length s + 1)%nat.
Proof.
  revert pos; induction s as [|x s IH]; intros pos H; cbn [afterZero app].
  - rewrite N.eqb_refl. f_equal. cbn. lia.
  - destruct (N.eqb_spec x 0) as [E|E]; [exfalso; apply H; left; exact E|]. cbn [app] in IH. rewrite IH by (intros Hi; apply H; right; exact Hi). f_equal. cbn [length]. lia.
Qed.
Lemma skipString_sound input b pos p : (pos <= length input)%nat -> skipString input b pos = Ok p ->
  (pos <= p <= length input)%nat /\ opt b zeroEnded (seg input pos p).
Proof.
  intros Hp H. unfold skipString in H. destruct b.
  - destruct (afterZero (skipn pos input) pos) as [q|] eqn:E; [|discriminate]. injection H as <-.
    apply afterZero_sound in E. destruct E as (s & rest & E & Hs & Hq).
    assert (Hl : (length input - pos = length s + 1 + length rest)%nat) by (apply (f_equal (@length N)) in E; rewrite skipn_length, !app_length in E; cbn [length] in E; lia).
    split; [lia|]. cbn [opt]. exists s. split; [exact Hs|]. unfold seg. rewrite E, Hq. replace (pos + length s + 1 - pos)%nat with (length (s ++ [0])) by (rewrite app_length; cbn; lia).
    rewrite app_assoc, firstn_app, Nat.sub_diag, firstn_all. cbn [firstn]. apply app_nil_r.
  - injection H as <-. split; [lia|]. cbn [opt]. apply seg_nil.
Qed.
Lemma skipString_complete a l c b : opt b zeroEnded l -> skipString (a ++ l ++ c) b (length a) = Ok (length a + length l)%nat.
Proof.
  intros H. unfold skipString. destruct b; cbn [opt] in H.
  - destruct H as (s & Hs & ->). rewrite skipn_app, skipn_all, Nat.sub_diag. cbn [skipn app]. rewrite <- app_assoc.
    rewrite afterZero_complete by exact Hs. f_equal. rewrite app_length. cbn. lia.
  - subst l. f_equal. cbn. lia.
Qed.
Lemma skipString_total input b pos : totalRes (skipString input b pos).
Proof. unfold skipString. destruct b; [destruct (afterZero (skipn pos input) pos); exact I|exact I]. Qed.

Definition gzipExtra (input : list N) (b : bool) (pos1 : nat) : res nat :=
  if b then
    (if (length input - pos1 <? 2)%nat then Err truncatedInput
     else let* n := readLittle16 input pos1 in
          let p := (pos1 + 2)%nat in
          if (length input - p <? N.to_nat n)%nat then Err truncatedInput else Ok (p + N.to_nat n)%nat)
  else Ok pos1.
Definition gzipHcrc (W : nat) (input : list N) (b : bool) (start pos4 : nat) : res nat :=
  if b then
    (if (length input - pos4 <? 2)%nat then Err truncatedInput
     else let* expected := readLittle16 input pos4 in
          let actual := N.land (computeCrc32 W (firstn (pos4 - start) (skipn start input))) 0xffff in
          if negb (expected =? actual) then Err checksumMismatch else Ok (pos4 + 2)%nat)
  else Ok pos4.
Lemma gzipExtra_sound input b pos : octets input -> (pos <= length input)%nat ->
  match gzipExtra input b pos with
  | Ok p => (pos <= p <= length input)%nat /\ opt b extraField (seg input pos p) | Err _ => True | _ => False end.
Proof.
  intros Hi Hp. unfold gzipExtra. destruct b; [|split; [lia|apply seg_nil]].
  destruct (Nat.ltb_spec (length input - pos) 2) as [|H2]; [exact I|].
  destruct (read16_spec input pos Hi ltac:(lia)) as (v & E & Hs & Hv). rewrite E. cbn [bind].
  destruct (Nat.ltb_spec (length input - (pos + 2)) (N.to_nat v)) as [|H3]; [exact I|]. split; [lia|]. cbn [opt].
  exists (seg input (pos + 2) (pos + 2 + N.to_nat v)). rewrite length_seg by lia. replace (N.of_nat (pos + 2 + N.to_nat v - (pos + 2))) with v by lia.
  split; [exact Hv|]. rewrite <- Hs. apply seg_app. lia.
Qed.
Lemma gzipExtra_complete a l c b : octets (a ++ l ++ c) -> opt b extraField l -> gzipExtra (a ++ l ++ c) b (length a) = Ok (length a + length l)%nat.
Proof.
  intros Ho H. unfold gzipExtra. destruct b; cbn [opt] in H; [|subst l; f_equal; cbn; lia].
  destruct H as (d & Hd & ->). rewrite <- app_assoc in *. rewrite !app_length, length_le.
  destruct (Nat.ltb_spec (length a + (2 + (length d + length c)) - length a) 2) as [|_]; [lia|].
  rewrite read16_at by assumption. cbn [bind]. rewrite Nat2N.id.
  destruct (Nat.ltb_spec (length a + (2 + (length d + length c)) - (length a + 2)) (length d)) as [|_]; [lia|]. f_equal. lia.
Qed.
Lemma land_ffff x : N.land x 0xffff = x mod 65536.
Proof. change 0xffff with (N.ones 16). rewrite N.land_ones. reflexivity. Qed.
Lemma gzipHcrc_sound W input b start pos : octets input -> (start <= pos <= length input)%nat ->
  match gzipHcrc W input b start pos with
  | Ok p => (pos <= p <= length input)%nat /\ opt b (fun l => exists c, crc32Of (seg input start pos) c /\ l = le 2 (c mod 65536)) (seg input pos p)
  | Err _ => True | _ => False end.
Proof.
  intros Hi Hp. unfold gzipHcrc. destruct b; [|split; [lia|apply seg_nil]].
  destruct (Nat.ltb_spec (length input - pos) 2) as [|H2]; [exact I|].
  destruct (read16_spec input pos Hi ltac:(lia)) as (v & E & Hs & Hv). rewrite E. cbn [bind]. rewrite land_ffff. fold (seg input start pos).
  destruct (N.eqb_spec v (computeCrc32 W (seg input start pos) mod 65536)) as [Ev|]; cbn [negb]; [|exact I].
  split; [lia|]. cbn [opt]. exists (computeCrc32 W (seg input start pos)). split; [|congruence].
  apply (crc_iff W); [apply octets_seg, Hi|reflexivity].
Qed.
Lemma gzipHcrc_complete W pre h l c b : octets (pre ++ h ++ l ++ c) ->
  opt b (fun l => exists c, crc32Of h c /\ l = le 2 (c mod 65536)) l ->
  gzipHcrc W (pre ++ h ++ l ++ c) b (length pre) (length pre + length h) = Ok (length pre + length h + length l)%nat.
Proof.
  intros Ho H. unfold gzipHcrc. destruct b; cbn [opt] in H; [|subst l; f_equal; cbn; lia].
  destruct H as (v & Hv & ->). fold (seg (pre ++ h ++ le 2 (v mod 65536) ++ c) (length pre) (length pre + length h)). rewrite seg_mid.
  rewrite (crc_iff W) in Hv by (apply octets_app in Ho; destruct Ho as [_ Ho]; apply octets_app in Ho; apply Ho). rewrite land_ffff, <- Hv.
  rewrite app_assoc in Ho. rewrite app_assoc, <- (app_length pre h). rewrite read16_at; [|exact Ho|apply N.mod_lt; discriminate]. cbn [bind].
  rewrite N.eqb_refl. cbn [negb]. rewrite !app_length, length_le.
  destruct (Nat.ltb_spec (length pre + length h + (2 + length c) - (length pre + length h)) 2) as [|_]; [lia|reflexivity].
Qed.
Lemma land_e0 f : (N.land f 0xe0 =? 0) = negb (N.testbit f 5) && negb (N.testbit f 6) && negb (N.testbit f 7).
Proof.
  destruct (N.eqb_spec (N.land f 0xe0) 0) as [H|H].
  - assert (G : forall i, N.testbit 0xe0 i = true -> N.testbit f i = false).
    { intros i Hi. apply (f_equal (fun x => N.testbit x i)) in H. rewrite N.land_spec, Hi, andb_true_r, N.bits_0 in H. exact H. }
    rewrite !G by reflexivity. reflexivity.
  - destruct (N.testbit f 5) eqn:E5; [reflexivity|]. destruct (N.testbit f 6) eqn:E6; [reflexivity|]. destruct (N.testbit f 7) eqn:E7; [reflexivity|].
    exfalso. apply H. apply N.bits_inj. intros i. rewrite N.land_spec, N.bits_0.
    destruct (N.lt_ge_cases i 8) as [Hi|Hi]; [|rewrite (testbit_small 0xe0 8) by (try reflexivity; exact Hi); apply andb_false_r].
    assert (Hc : i = 0 \/ i = 1 \/ i = 2 \/ i = 3 \/ i = 4 \/ i = 5 \/ i = 6 \/ i = 7) by lia.
    destruct Hc as [ -> |[ -> |[ -> |[ -> |[ -> |[ -> |[ -> | -> ]]]]]]]; rewrite ?E5, ?E6, ?E7; try reflexivity; apply andb_false_r.
Qed.
Lemma list10 (l : list N) : (10 <= length l)%nat -> exists a b c d six r, l = a :: b :: c :: d :: six ++ r /\ length six = 6%nat.
Proof.
  intros H. destruct l as [|a [|b [|c [|d r]]]]; cbn [length] in H; try lia. exists a, b, c, d, (firstn 6 r), (skipn 6 r).
  rewrite firstn_skipn. split; [reflexivity|]. rewrite firstn_length. lia.
Qed.
(** The header function in terms of its parts. *)
Lemma gzipMemberHeader_unfold W input start : gzipMemberHeader W input start =
  (let size := length input in
  if (size - start <? 2)%nat then
    let* b := aget input start in
    (if (start =? 0)%nat || (b =? 0x1f) then Err truncatedInput else Err trailingData)
  else
    let* b0 := aget input start in
    let* b1 := aget input (start + 1) in
    if negb (b0 =? 0x1f) || negb (b1 =? 0x8b) then (if (start =? 0)%nat then Err invalidHeader else Err trailingData)
    else if (size - start <? 10)%nat then Err truncatedInput
    else
      let* b2 := aget input (start + 2) in
      if negb (b2 =? 0x08) then Err unsupportedCompressionMethod
      else
        let* flags := aget input (start + 3) in
        if negb (N.land flags 0xe0 =? 0) then Err reservedFlags
        else
          let* pos2 := gzipExtra input (N.testbit flags 2) (start + 10) in
          let* pos3 := skipString input (N.testbit flags 3) pos2 in
          let* pos4 := skipString input (N.testbit flags 4) pos3 in
          gzipHcrc W input (N.testbit flags 1) start pos4).
Proof.
  unfold gzipMemberHeader. cbn zeta. destruct (length input - start <? 2)%nat; [reflexivity|].
  destruct (aget input start); cbn [bind]; try reflexivity. destruct (aget input (start + 1)); cbn [bind]; try reflexivity.
  destruct (negb (a =? 31) || negb (a0 =? 139)); [reflexivity|]. destruct (length input - start <? 10)%nat; [reflexivity|].
  destruct (aget input (start + 2)); cbn [bind]; try reflexivity. destruct (negb (a1 =? 8)); [reflexivity|].
  destruct (aget input (start + 3)) as [f|e| |]; cbn [bind]; try reflexivity. destruct (negb (N.land f 224 =? 0)); [reflexivity|].
  rewrite <- (land_pow f 2), <- (land_pow f 3), <- (land_pow f 4), <- (land_pow f 1). reflexivity.
Qed.
Lemma gzipHeader_sound W input start : octets input -> (start < length input)%nat ->
  match gzipMemberHeader W input start with
  | Ok p => (start + 10 <= p <= length input)%nat /\ gzipHead (seg input start p) | Err _ => True | _ => False end.
Proof.
  intros Hi Hs. rewrite gzipMemberHeader_unfold. cbn zeta.
  assert (G : forall i, (start + i < length input)%nat -> aget input (start + i) = Ok (nth (start + i) input 0)).
  { intros i H. unfold aget. rewrite (nth_error_nth' input 0 H). reflexivity. }
  assert (G0 : aget input start = Ok (nth (start + 0) input 0)) by (transitivity (aget input (start + 0)); [f_equal; lia|apply G; lia]).
  destruct (Nat.ltb_spec (length input - start) 2) as [H2|H2].
  { rewrite G0. cbn [bind]. destruct ((start =? 0)%nat || (nth (start + 0) input 0 =? 31)); exact I. }
  rewrite G0, (G 1%nat) by lia. cbn [bind].
  destruct (N.eqb_spec (nth (start + 0) input 0) 31) as [B0|]; cbn [negb orb]; [|destruct (start =? 0)%nat; exact I].
  destruct (N.eqb_spec (nth (start + 1) input 0) 139) as [B1|]; cbn [negb orb]; [|destruct (start =? 0)%nat; exact I].
  destruct (Nat.ltb_spec (length input - start) 10) as [|H10]; [exact I|]. rewrite (G 2%nat), (G 3%nat) by lia. cbn [bind].
  destruct (N.eqb_spec (nth (start + 2) input 0) 8) as [B2|]; cbn [negb]; [|exact I].
  set (flg := nth (start + 3) input 0). rewrite land_e0.
  destruct (N.testbit flg 5) eqn:E5; [exact I|]. destruct (N.testbit flg 6) eqn:E6; [exact I|]. destruct (N.testbit flg 7) eqn:E7; [exact I|]. cbn [negb andb].
  pose proof (gzipExtra_sound input (N.testbit flg 2) (start + 10) Hi ltac:(lia)) as H. destruct (gzipExtra input (N.testbit flg 2) (start + 10)) as [pos2|e| |]; cbn [bind]; try exact H.
  destruct H as (P2 & O2).
  pose proof (skipString_total input (N.testbit flg 3) pos2) as T3. destruct (skipString input (N.testbit flg 3) pos2) as [pos3|e| |] eqn:E3; cbn [bind]; try exact T3.
  apply skipString_sound in E3; [|lia]. destruct E3 as (P3 & O3).
  pose proof (skipString_total input (N.testbit flg 4) pos3) as T4. destruct (skipString input (N.testbit flg 4) pos3) as [pos4|e| |] eqn:E4; cbn [bind]; try exact T4.
  apply skipString_sound in E4; [|lia]. destruct E4 as (P4 & O4).
  pose proof (gzipHcrc_sound W input (N.testbit flg 1) start pos4 Hi ltac:(lia)) as H. destruct (gzipHcrc W input (N.testbit flg 1) start pos4) as [p|e| |]; try exact H.
  destruct H as (P5 & O5). split; [lia|].
  assert (E10 : seg input start (start + 10) = [31; 139; 8; flg] ++ seg input (start + 4) (start + 10)).
  { rewrite (seg_app input start (start + 4) (start + 10)) by lia. f_equal.
    pose proof (length_seg input start (start + 4) ltac:(lia)) as Hl. replace (start + 4 - start)%nat with 4%nat in Hl by lia. destruct (list4 _ Hl) as (a & b & c & d & E).
    assert (Gs : forall i, (i < 4)%nat -> nth (start + i) input 0 = nth i (seg input start (start + 4)) 0).
    { intros i Hlt. rewrite (seg_split input start (start + 4)) at 1 by lia. rewrite app_nth2 by (rewrite firstn_length; lia).
      rewrite firstn_length, Nat.min_l by lia. replace (start + i - start)%nat with i by lia. rewrite app_nth1 by lia. reflexivity. }
    rewrite (Gs 0%nat), E in B0 by lia. rewrite (Gs 1%nat), E in B1 by lia. rewrite (Gs 2%nat), E in B2 by lia.
    assert (B3 : flg = d) by (unfold flg; rewrite (Gs 3%nat), E by lia; reflexivity). cbn [nth] in B0, B1, B2. rewrite E, B0, B1, B2, B3. reflexivity. }
  assert (E4' : seg input start pos4 = [31; 139; 8; flg] ++ seg input (start + 4) (start + 10) ++ seg input (start + 10) pos2 ++ seg input pos2 pos3 ++ seg input pos3 pos4).
  { rewrite (seg_app input start (start + 10) pos4), E10 by lia. rewrite <- app_assoc. do 2 f_equal.
    rewrite (seg_app input (start + 10) pos2 pos4) by lia. f_equal. apply seg_app. lia. }
  exists flg, (seg input (start + 4) (start + 10)), (seg input (start + 10) pos2), (seg input pos2 pos3), (seg input pos3 pos4), (seg input pos4 p).
  rewrite <- E4'. split; [apply seg_app; lia|]. split; [rewrite length_seg; lia|]. auto 10.
Qed.
Lemma gzipHeader_complete W pre hdr post : octets (pre ++ hdr ++ post) -> gzipHead hdr ->
  gzipMemberHeader W (pre ++ hdr ++ post) (length pre) = Ok (length pre + length hdr)%nat /\ (10 <= length hdr)%nat.
Proof.
  intros Ho (flg & six & ex & name & comment & hc & Eh & Hsix & F5 & F6 & F7 & O2 & O3 & O4 & O5).
  set (h := [31; 139; 8; flg] ++ six ++ ex ++ name ++ comment) in *.
  assert (Lh : length h = (10 + length ex + length name + length comment)%nat) by (unfold h; rewrite !app_length, Hsix; cbn; lia).
  assert (L10 : (10 <= length hdr)%nat) by (rewrite Eh, app_length; lia).
  split; [|exact L10]. set (input := pre ++ hdr ++ post) in *.
  assert (Ll : length input = (length pre + length hdr + length post)%nat) by (unfold input; rewrite !app_length; lia).
  rewrite gzipMemberHeader_unfold. cbn zeta. destruct (Nat.ltb_spec (length input - length pre) 2) as [|_]; [lia|].
  assert (G : forall i, (i < 4)%nat -> aget input (length pre + i) = aget [31; 139; 8; flg] i).
  { intros i Hlt. unfold input. rewrite aget_app, Eh. unfold h. unfold aget. rewrite <- !app_assoc. rewrite nth_error_app1 by exact Hlt. reflexivity. }
  assert (G0 : aget input (length pre) = Ok 31) by (transitivity (aget input (length pre + 0)); [f_equal; lia|rewrite G by lia; reflexivity]).
  rewrite G0, !G by lia. cbn [aget nth_error bind]. change (31 =? 31) with true. change (139 =? 139) with true. cbn [negb orb].
  destruct (Nat.ltb_spec (length input - length pre) 10) as [|_]; [lia|]. change (8 =? 8) with true. cbn [negb].
  rewrite land_e0, F5, F6, F7. cbn [negb andb].
  assert (I1 : input = (pre ++ [31; 139; 8; flg] ++ six) ++ ex ++ (name ++ comment ++ hc ++ post)) by (unfold input; rewrite Eh; unfold h; rewrite <- !app_assoc; reflexivity).
  assert (I2 : input = (pre ++ [31; 139; 8; flg] ++ six ++ ex) ++ name ++ (comment ++ hc ++ post)) by (unfold input; rewrite Eh; unfold h; rewrite <- !app_assoc; reflexivity).
  assert (I3 : input = (pre ++ [31; 139; 8; flg] ++ six ++ ex ++ name) ++ comment ++ (hc ++ post)) by (unfold input; rewrite Eh; unfold h; rewrite <- !app_assoc; reflexivity).
  assert (I4 : input = pre ++ h ++ hc ++ post) by (unfold input; rewrite Eh, <- app_assoc; reflexivity).
  assert (X1 : gzipExtra input (N.testbit flg 2) (length pre + 10) = Ok (length pre + 10 + length ex)%nat).
  { pose proof (gzipExtra_complete (pre ++ [31; 139; 8; flg] ++ six) ex (name ++ comment ++ hc ++ post) (N.testbit flg 2)) as H. rewrite <- I1 in H.
    specialize (H Ho O2). rewrite !app_length, Hsix in H. exact H. }
  rewrite X1. cbn [bind].
  assert (X2 : skipString input (N.testbit flg 3) (length pre + 10 + length ex) = Ok (length pre + 10 + length ex + length name)%nat).
  { pose proof (skipString_complete (pre ++ [31; 139; 8; flg] ++ six ++ ex) name (comment ++ hc ++ post) (N.testbit flg 3) O3) as H. rewrite <- I2 in H.
    rewrite !app_length, Hsix in H. cbn [length] in H. replace (length pre + 10 + length ex)%nat with (length pre + (4 + (6 + length ex)))%nat by lia. rewrite H. reflexivity. }
  rewrite X2. cbn [bind].
  assert (X3 : skipString input (N.testbit flg 4) (length pre + 10 + length ex + length name) = Ok (length pre + length h)%nat).
  { pose proof (skipString_complete (pre ++ [31; 139; 8; flg] ++ six ++ ex ++ name) comment (hc ++ post) (N.testbit flg 4) O4) as H. rewrite <- I3 in H.
    rewrite !app_length, Hsix in H. cbn [length] in H. replace (length pre + 10 + length ex + length name)%nat with (length pre + (4 + (6 + (length ex + length name))))%nat by lia. rewrite H. f_equal. lia. }
  rewrite X3. cbn [bind]. rewrite I4. rewrite gzipHcrc_complete; [|rewrite <- I4; exact Ho|exact O5]. f_equal. rewrite Eh, app_length. lia.
Qed.

Lemma tr32_len (out data pre : list N) : tr 32 (bytesN (pre ++ out ++ data) - bytesN (pre ++ out)) = N.of_nat (length data) mod 2 ^ 32.
Proof.
  replace (bytesN (pre ++ out ++ data) - bytesN (pre ++ out)) with (N.of_nat (length data)) by (rewrite !bytesN_app; unfold bytesN; lia). reflexivity.
Qed.
Lemma gzipMembers_sound W input : octets input -> forall fuel pos o pre out, (pos <= length input)%nat -> (length input - pos < fuel)%nat -> rep o pre out ->
  match gzipMembers fuel W input pos o with
  | Ok (n, o') => (pos = length input /\ n = bytesN (pre ++ out) /\ o' = o) \/
      exists data, Gzip (crcChecked o) (skipn pos input) data /\ n = bytesN (pre ++ out ++ data) /\ sameKind o o' /\ exists pre' out', rep o' pre' out' /\ pre' ++ out' = pre ++ out ++ data
  | Err _ => True | _ => False end.
Proof.
  intros Hi. induction fuel as [|k IH]; intros pos o pre out Hp Hf Ho; [lia|]. cbn [gzipMembers].
  destruct (Nat.leb_spec (length input) pos) as [H0|H0]; [left; split; [lia|]; split; [apply (rep_size _ _ _ Ho)|reflexivity]|].
  pose proof (gzipHeader_sound W input pos Hi H0) as H. destruct (gzipMemberHeader W input pos) as [p|e| |]; cbn [bind]; try exact H. destruct H as (Pp & Hh).
  assert (Hsk : octets (skipn p input)) by (apply octets_skipn, Hi).
  pose proof (decodeDeflate_sound (skipn p input) o pre out Hsk Ho) as H. destruct (decodeDeflate (skipn p input) o) as [[n o']|e| |]; cbn [bind]; try exact H.
  destruct H as (Hn & data & Hd & Hr & Hk). rewrite skipn_length in Hn.
  destruct (Nat.ltb_spec (length input - (p + n)) 8) as [|H8]; [exact I|].
  destruct (read32_spec input (p + n) Hi ltac:(lia)) as (sum & Es & Hs & Hs32).
  destruct (read32_spec input (p + n + 4) Hi ltac:(lia)) as (isz & Ez & Hz & Hz32).
  pose proof (rep_size _ _ _ Ho) as [Eb _]. rewrite Eb. pose proof (orange_spec _ _ _ Hr) as Hrange.
  pose proof (rep_size _ _ _ Hr) as [Eb' _]. rewrite <- app_assoc in Eb'.
  assert (Hchk : forall X : res (N * Output), match X with Ok _ => crcChecked o data sum -> match X with Ok (n0, o'0) => 
      (pos = length input /\ n0 = bytesN (pre ++ out) /\ o'0 = o) \/
      exists data, Gzip (crcChecked o) (skipn pos input) data /\ n0 = bytesN (pre ++ out ++ data) /\ sameKind o o'0 /\ exists pre' out', rep o'0 pre' out' /\ pre' ++ out' = pre ++ out ++ data
      | _ => True end | Err _ => True | _ => False end ->
    match (let* _u := match orange o' (bytesN (pre ++ out)) with None => Ok tt | Some bytes => let* sum := readLittle32 input (p + n) in if negb (computeCrc32 W bytes =? sum) then Err checksumMismatch else Ok tt end in X) with
    | Ok (n0, o'0) => (pos = length input /\ n0 = bytesN (pre ++ out) /\ o'0 = o) \/
      exists data, Gzip (crcChecked o) (skipn pos input) data /\ n0 = bytesN (pre ++ out ++ data) /\ sameKind o o'0 /\ exists pre' out', rep o'0 pre' out' /\ pre' ++ out' = pre ++ out ++ data
    | Err _ => True | _ => False end).
  { intros X HX. destruct (orange o' (bytesN (pre ++ out))) as [bytes|].
    - destruct Hrange as [Hsp ->]. rewrite Es. cbn [bind]. destruct (N.eqb_spec (computeCrc32 W data) sum) as [Ec|]; cbn [negb bind]; [|exact I].
      destruct X as [[n0 o'0]|e| |]; try exact HX. apply HX. destruct o; cbn [crcChecked]; [exact I|]. apply (crc_iff W); [eapply octets_deflate, Hd|]. symmetry. exact Ec.
    - cbn [bind]. destruct X as [[n0 o'0]|e| |]; try exact HX. apply HX. rewrite <- (sameKind_span _ _ Hk) in Hrange. destruct o; cbn [crcChecked isSpan] in *; [exact I|tauto]. }
  apply Hchk. clear Hchk. rewrite Ez. cbn [bind]. rewrite Eb', tr32_len.
  destruct (N.eqb_spec (N.of_nat (length data) mod 2 ^ 32) isz) as [Eisz|]; cbn [negb]; [|exact I].
  pose proof (IH (p + n + 8)%nat o' (pre ++ out) data ltac:(lia) ltac:(lia) Hr) as H.
  destruct (gzipMembers k W input (p + n + 8) o') as [[m o2]|e| |]; try exact H. intros Hck. right.
  assert (HM : Member (crcChecked o) (seg input pos (p + n + 8)) data).
  { exists (seg input pos p), (firstn n (skipn p input)), sum. split; [|auto]. rewrite (seg_app input pos p (p + n + 8)) by lia. f_equal.
    rewrite (seg_app input p (p + n) (p + n + 8)) by lia. f_equal; [unfold seg; f_equal; lia|].
    rewrite (seg_app input (p + n) (p + n + 4) (p + n + 8)) by lia. rewrite Hs. f_equal. rewrite Eisz. rewrite <- Hz. f_equal. lia. }
  assert (Hck' : crcChecked o' = crcChecked o) by (destruct Hk as [_ Hk]; destruct o, o'; cbn in Hk |- *; tauto).
  assert (Esp : skipn pos input = seg input pos (p + n + 8) ++ skipn (p + n + 8) input).
  { rewrite <- (firstn_skipn (p + n + 8 - pos) (skipn pos input)). unfold seg. f_equal. rewrite skipn_add. f_equal. lia. }
  destruct H as [(E1 & E2 & ->)|(data2 & Hg & Em & Hk2 & pre' & out' & Hr2 & Ep2)].
  - exists data. split; [rewrite Esp; rewrite (skipn_all2 input) by lia; rewrite app_nil_r; apply gz_one, HM|]. rewrite <- app_assoc in E2. split; [exact E2|]. split; [exact Hk|].
    exists (pre ++ out), data. split; [exact Hr|]. symmetry. apply app_assoc.
  - exists (data ++ data2). split; [rewrite Esp; apply gz_more; [exact HM|rewrite <- Hck'; exact Hg]|].
    split; [rewrite Em; f_equal; rewrite <- !app_assoc; reflexivity|]. split; [eapply sameKind_trans; eassumption|].
    exists pre', out'. split; [exact Hr2|]. rewrite Ep2, <- !app_assoc. reflexivity.
Qed.
Lemma gzip_nonempty ok b out : Gzip ok b out -> b <> [].
Proof.
  assert (H : forall b out, Member ok b out -> b <> []).
  { intros b0 out0 (hdr & body & c & -> & _) E. apply (f_equal (@length N)) in E. rewrite !app_length, !length_le in E. cbn in E. lia. }
  intros Hg. inversion Hg; subst; [eapply H; eassumption|]. intros E. apply app_eq_nil in E. eapply H; [eassumption|apply E].
Qed.
Lemma gzipMembers_end fuel W input o : (0 < fuel)%nat -> gzipMembers fuel W input (length input) o = Ok (osize o, o).
Proof. destruct fuel; [lia|]. cbn [gzipMembers]. rewrite Nat.leb_refl. reflexivity. Qed.
(** One member. *)
Lemma member_run ok W a b z data o pre out k : octets (a ++ b ++ z) -> Member ok b data -> rep o pre out -> bytesN (pre ++ out ++ data) <= cap o ->
  (exists o', gzipMembers (S k) W (a ++ b ++ z) (length a) o = gzipMembers k W (a ++ b ++ z) (length a + length b) o' /\ rep o' (pre ++ out) data /\ sameKind o o') \/
  (isSpan o /\ ~ (forall x c, octets x -> ok x c -> crc32Of x c) /\ gzipMembers (S k) W (a ++ b ++ z) (length a) o = Err checksumMismatch).
Proof.
  intros Hi (hdr & body & c & Eb & Hc & Hh & Hd & Hok) Ho Hroom. set (input := a ++ b ++ z) in *.
  set (isz := N.of_nat (length data) mod 2 ^ 32) in *. assert (Hisz : isz < 2 ^ 32) by (apply N.mod_lt; discriminate).
  assert (Lb : length b = (length hdr + length body + 8)%nat) by (rewrite Eb, !app_length, !length_le; lia).
  assert (Ll : length input = (length a + length b + length z)%nat) by (unfold input; rewrite !app_length; lia).
  assert (I1 : input = a ++ hdr ++ (body ++ le 4 c ++ le 4 isz ++ z)) by (unfold input; rewrite Eb, <- !app_assoc; reflexivity).
  assert (I2 : input = (a ++ hdr) ++ (body ++ le 4 c ++ le 4 isz ++ z)) by (rewrite <- app_assoc; exact I1).
  assert (I3 : input = (a ++ hdr ++ body) ++ le 4 c ++ (le 4 isz ++ z)) by (rewrite I1, <- !app_assoc; reflexivity).
  assert (I4 : input = (a ++ hdr ++ body ++ le 4 c) ++ le 4 isz ++ z) by (rewrite I1, <- !app_assoc; reflexivity).
  destruct (gzipHeader_complete W a hdr (body ++ le 4 c ++ le 4 isz ++ z)) as [Eh L10]; [rewrite <- I1; exact Hi|exact Hh|]. rewrite <- I1 in Eh.
  cbn [gzipMembers]. destruct (Nat.leb_spec (length input) (length a)) as [|_]; [lia|]. rewrite Eh. cbn [bind].
  assert (Esk : skipn (length a + length hdr) input = body ++ le 4 c ++ le 4 isz ++ z).
  { rewrite I2, <- (app_length a hdr), skipn_app, skipn_all, Nat.sub_diag. reflexivity. }
  rewrite Esk. assert (Hob : octets (body ++ le 4 c ++ le 4 isz ++ z)) by (rewrite <- Esk; apply octets_skipn, Hi).
  destruct (decodeDeflate_complete (body ++ le 4 c ++ le 4 isz ++ z) (length body) data o pre out Hob) as (o' & E & Hp & Hk); try assumption.
  { rewrite app_length. lia. }
  { rewrite firstn_app, Nat.sub_diag, firstn_all. cbn [firstn]. rewrite app_nil_r. exact Hd. }
  rewrite E. cbn [bind]. destruct (Nat.ltb_spec (length input - (length a + length hdr + length body)) 8) as [|_]; [lia|].
  pose proof (rep_size _ _ _ Ho) as [Ebg _]. rewrite Ebg. pose proof (orange_spec _ _ _ Hp) as Hr.
  pose proof (rep_size _ _ _ Hp) as [Eb' _]. rewrite <- app_assoc in Eb'. rewrite Eb', tr32_len.
  assert (Es : readLittle32 input (length a + length hdr + length body) = Ok c).
  { replace (length a + length hdr + length body)%nat with (length (a ++ hdr ++ body)) by (rewrite !app_length; lia). rewrite I3. apply read32_at; [rewrite <- I3; exact Hi|exact Hc]. }
  assert (Ez : readLittle32 input (length a + length hdr + length body + 4) = Ok isz).
  { replace (length a + length hdr + length body + 4)%nat with (length (a ++ hdr ++ body ++ le 4 c)) by (rewrite !app_length, length_le; lia). rewrite I4. apply read32_at; [rewrite <- I4; exact Hi|exact Hisz]. }
  rewrite Es, Ez. assert (Hgo : forall X, (if negb (N.of_nat (length data) mod 2 ^ 32 =? isz) then Err sizeMismatch else X) = X :> res (N * Output)) by (intros X; fold isz; rewrite N.eqb_refl; reflexivity).
  destruct (orange o' (bytesN (pre ++ out))) as [bytes|].
  - destruct Hr as [Hsp ->]. cbn [bind]. destruct (N.eqb_spec (computeCrc32 W data) c) as [Ec|Ec]; cbn [negb bind].
    + left. exists o'. split; [|auto]. rewrite Hgo. f_equal. lia.
    + right. split; [apply (sameKind_span _ _ Hk), Hsp|]. split; [|reflexivity]. intros Hall. apply Ec. symmetry. apply (crc_iff W); [eapply octets_deflate, Hd|].
      apply Hall; [eapply octets_deflate, Hd|exact Hok].
  - cbn [bind]. left. exists o'. split; [|auto]. rewrite Hgo. f_equal. lia.
Qed.
Lemma gzipMembers_complete ok W : forall b data, Gzip ok b data -> forall a o pre out fuel, octets (a ++ b) -> (length b < fuel)%nat -> rep o pre out -> bytesN (pre ++ out ++ data) <= cap o ->
  (exists o', gzipMembers fuel W (a ++ b) (length a) o = Ok (bytesN (pre ++ out ++ data), o') /\ sameKind o o' /\ exists pre' out', rep o' pre' out' /\ pre' ++ out' = pre ++ out ++ data) \/
  (isSpan o /\ ~ (forall x c, octets x -> ok x c -> crc32Of x c) /\ gzipMembers fuel W (a ++ b) (length a) o = Err checksumMismatch).
Proof.
  assert (Hne : forall b out, Member ok b out -> (0 < length b)%nat).
  { intros b0 out0 (hdr & body & c & -> & _). rewrite !app_length, !length_le. lia. }
  induction 1 as [b data HM|b d1 b2 d2 HM Hg IH]; intros a o pre out fuel Hi Hf Ho Hroom.
  - destruct fuel as [|k]; [lia|]. pose proof (Hne _ _ HM) as Lb.
    destruct (member_run ok W a b [] data o pre out k) as [(o' & E & Hp & Hk)|H]; try assumption; [rewrite app_nil_r; exact Hi| |]; rewrite app_nil_r in *.
    + left. exists o'. rewrite E, <- app_length, gzipMembers_end by lia. pose proof (rep_size _ _ _ Hp) as [Es _]. rewrite <- app_assoc in Es. rewrite Es. split; [reflexivity|].
      split; [exact Hk|]. exists (pre ++ out), data. split; [exact Hp|]. symmetry. apply app_assoc.
    + right. exact H.
  - destruct fuel as [|k]; [lia|]. pose proof (Hne _ _ HM) as Lb. rewrite app_length in Hf.
    destruct (member_run ok W a b b2 d1 o pre out k) as [(o' & E & Hp & Hk)|H]; try assumption; [|
      |right; exact H].
    + rewrite !bytesN_app in *. lia.
    + rewrite E. rewrite app_assoc in Hi |- *. rewrite <- app_length.
      destruct (IH (a ++ b) o' (pre ++ out) d1 k) as [(o2 & E2 & Hk2 & pre' & out' & Hp2 & Eo)|(Hs & Hn & E2)]; try assumption; [lia| | |].
      * destruct Hk as [Hk _]. rewrite Hk. rewrite !bytesN_app in *. lia.
      * left. exists o2. rewrite E2. split; [do 2 f_equal; rewrite <- !app_assoc; reflexivity|]. split; [eapply sameKind_trans; eassumption|]. exists pre', out'. split; [exact Hp2|]. rewrite Eo, <- !app_assoc. reflexivity.
      * right. rewrite (sameKind_span _ _ Hk). auto.
Qed.
Theorem gzip_sound W input o pre out : octets input -> rep o pre out ->
  match decodeGzip W input o with
  | Ok (n, o') => exists data, Gzip (crcChecked o) input data /\ n = bytesN (pre ++ out ++ data) /\ sameKind o o' /\ exists pre' out', rep o' pre' out' /\ pre' ++ out' = pre ++ out ++ data
  | Err _ => True | _ => False end.
Proof.
  intros Hi Ho. unfold decodeGzip. destruct input as [|x l]; [exact I|]. set (input := x :: l) in *.
  pose proof (gzipMembers_sound W input Hi (S (length input)) 0 o pre out ltac:(lia) ltac:(lia) Ho) as H.
  destruct (gzipMembers (S (length input)) W input 0 o) as [[n o']|e| |]; try exact H. destruct H as [(E & _)|H]; [unfold input in E; discriminate|exact H].
Qed.
Theorem gzip_complete ok W input data o pre out : octets input -> Gzip ok input data -> rep o pre out -> bytesN (pre ++ out ++ data) <= cap o ->
  (exists o', decodeGzip W input o = Ok (bytesN (pre ++ out ++ data), o') /\ sameKind o o' /\ exists pre' out', rep o' pre' out' /\ pre' ++ out' = pre ++ out ++ data) \/
  (isSpan o /\ ~ (forall x c, octets x -> ok x c -> crc32Of x c) /\ decodeGzip W input o = Err checksumMismatch).
Proof.
  intros Hi Hg Ho Hroom. pose proof (gzip_nonempty _ _ _ Hg) as Hne.
  pose proof (gzipMembers_complete ok W input data Hg [] o pre out (S (length input)) Hi ltac:(lia) Ho Hroom) as H. cbn [app length] in H.
  destruct input as [|x l]; [congruence|]. exact H.
Qed.
