(** * The encoder's output as bytes: blocks, containers, sizes. *)
From Coq Require Import List NArith ZArith Bool Lia Arith.
From Coq Require Import ZifyBool ZifyNat ZifyN.
From Verif Require Import Base CompModel CompSpec CompBits CompHuff CompDec CompBlk CompWrap CompTop CompTok CompLens CompCode CompEnc.
Import ListNotations.
Local Open Scope N_scope.

(** * What a list of writer calls puts out at bit offset [off] *)
Definition sem (off : nat) (o : op) : list bool :=
  match o with WBits v n => lsb n v | WAlign => repeat false (padOf off) | WBytes l => bitsOf l end.
Definition fit (off : nat) (o : op) : Prop :=
  match o with WBits v n => (n <= 32)%nat /\ v < 2 ^ N.of_nat n | WAlign => True | WBytes l => octets l /\ (off mod 8 = 0)%nat end.
Fixpoint sbits (off : nat) (ops : list op) : list bool :=
  match ops with [] => [] | o :: r => sem off o ++ sbits (off + length (sem off o)) r end.
Fixpoint fits (off : nat) (ops : list op) : Prop :=
  match ops with [] => True | o :: r => fit off o /\ fits (off + length (sem off o)) r end.
Lemma sbits_app a b : forall off, sbits off (a ++ b) = sbits off a ++ sbits (off + length (sbits off a)) b.
Proof.
  induction a as [|o a IH]; intros off; cbn [app sbits length]; [rewrite Nat.add_0_r; reflexivity|]. rewrite IH, <- app_assoc, app_length, Nat.add_assoc. reflexivity.
Qed.
Lemma fits_app a b : forall off, fits off a -> fits (off + length (sbits off a)) b -> fits off (a ++ b).
Proof.
  induction a as [|o a IH]; intros off H1 H2; cbn [app sbits length fits] in *; [rewrite Nat.add_0_r in H2; exact H2|]. destruct H1 as [H1 H3]. split; [exact H1|]. apply IH; [exact H3|].
  rewrite app_length, Nat.add_assoc in H2. exact H2.
Qed.
Lemma wr_sbits ops bs : wr ops bs -> forall off, fits off ops /\ sbits off ops = bs.
Proof.
  intros [H <-]. induction H as [|o ops Ho H IH]; intros off; cbn [fits sbits flat_map]; [auto|]. destruct o as [v n| |l]; cbn [isBits] in Ho; try contradiction.
  destruct (IH (off + length (sem off (WBits v n)))%nat) as [I1 I2]. split; [split; [exact Ho|exact I1]|]. rewrite I2. reflexivity.
Qed.
Lemma exec_sem ops : forall w, wok w -> fits (length (wbitsOf w)) ops -> wok (exec w ops) /\ wbitsOf (exec w ops) = wbitsOf w ++ sbits (length (wbitsOf w)) ops.
Proof.
  induction ops as [|o ops IH]; intros w Hw Hf; cbn [sbits fits] in *.
  - unfold exec. cbn [fold_left]. rewrite app_nil_r. auto.
  - destruct Hf as [Ho Hf]. rewrite exec_cons.
    assert (Hs : wok (execOp w o) /\ wbitsOf (execOp w o) = wbitsOf w ++ sem (length (wbitsOf w)) o).
    { destruct o as [v n| |l]; cbn [fit sem] in *.
      - apply exec_bits; [exact Hw|apply Ho|apply Ho].
      - destruct (exec_align w Hw) as (A & _ & B). auto.
      - destruct Ho as [Ho Hm]. rewrite length_wbits in Hm. assert (Hc : wcount w = 0%nat).
        { destruct Hw as (Hc & _ & _). rewrite Nat.add_comm, Nat.mul_comm, Nat.mod_add in Hm by lia. rewrite Nat.mod_small in Hm by exact Hc. exact Hm. }
        destruct (exec_bytes w l Hw Hc Ho) as (A & _ & B). auto. }
    destruct Hs as [S1 S2]. destruct (IH _ S1) as [I1 I2]; [rewrite S2, app_length; exact Hf|]. split; [exact I1|]. rewrite I2, S2, app_length, <- app_assoc. reflexivity.
Qed.
Definition empty : BitWriter := {| wout := []; wbits := 0; wcount := 0 |}.
Lemma empty_ok : wok empty.
Proof. split; [cbn; lia|]. split; [reflexivity|constructor]. Qed.
Lemma exec_whole ops : fits 0 ops -> (length (sbits 0 ops) mod 8 = 0)%nat ->
  octets (wout (exec empty ops)) /\ bitsOf (wout (exec empty ops)) = sbits 0 ops.
Proof.
  intros Hf Hm. destruct (exec_sem ops empty empty_ok Hf) as [(Hc & Hb & Ho) H2]. change (wbitsOf empty) with (@nil bool) in H2. cbn [app length] in H2. split; [exact Ho|].
  assert (Hc0 : wcount (exec empty ops) = 0%nat).
  { rewrite <- H2, length_wbits, Nat.add_comm, Nat.mul_comm, Nat.mod_add, Nat.mod_small in Hm by lia. exact Hm. }
  rewrite <- H2. unfold wbitsOf. rewrite Hc0. symmetry. apply app_nil_r.
Qed.
Lemma padOf_spec off : (padOf off < 8)%nat /\ ((off + padOf off) mod 8 = 0)%nat.
Proof.
  unfold padOf. pose proof (Nat.mod_upper_bound off 8 ltac:(lia)) as H. split; [apply Nat.mod_upper_bound; lia|].
  rewrite Nat.add_mod_idemp_r by lia. rewrite (Nat.div_mod off 8) at 1 by lia. replace (8 * (off / 8) + off mod 8 + (8 - off mod 8))%nat with ((1 + off / 8) * 8)%nat by lia. apply Nat.mod_mul. lia.
Qed.
Lemma padOf_mod a b : (a mod 8 = b mod 8)%nat -> padOf a = padOf b.
Proof. intros H. unfold padOf. rewrite H. reflexivity. Qed.
Lemma mod_shift a b n : (a mod 8 = b mod 8)%nat -> ((a + n) mod 8 = (b + n) mod 8)%nat.
Proof. intros H. rewrite Nat.add_mod, H, <- Nat.add_mod by lia. reflexivity. Qed.
Lemma sbits_mod ops : forall a b, (a mod 8 = b mod 8)%nat -> sbits a ops = sbits b ops /\ (fits a ops -> fits b ops).
Proof.
  induction ops as [|o ops IH]; intros a b H; cbn [sbits fits]; [auto|]. assert (Es : sem a o = sem b o) by (destruct o; cbn [sem]; try reflexivity; rewrite (padOf_mod _ _ H); reflexivity).
  rewrite Es. destruct (IH _ _ (mod_shift a b (length (sem b o)) H)) as [I1 I2]. split; [rewrite I1; reflexivity|]. intros [F1 F2]. split; [|apply I2, F2].
  destruct o; cbn [fit] in *; [exact F1|exact F1|]. rewrite <- H. exact F1.
Qed.
Lemma count_sem ops : forall b off, b mod 8 = N.of_nat (off mod 8) -> fold_left countOp ops b = b + N.of_nat (length (sbits off ops)).
Proof.
  induction ops as [|o ops IH]; intros b off H; cbn [fold_left sbits length]; [lia|].
  assert (Hc : countOp b o = b + N.of_nat (length (sem off o))).
  { destruct o as [v n| |l]; cbn [countOp sem]; [rewrite length_lsb; reflexivity| |rewrite length_bitsOf; unfold bytesN; lia].
    rewrite repeat_length. unfold padOf. pose proof (N.mod_lt b 8 ltac:(discriminate)). pose proof (N.div_mod b 8 ltac:(discriminate)) as D. set (r := (off mod 8)%nat) in *.
    assert (Hr : (r < 8)%nat) by lia. rewrite H in D. set (q := b / 8) in *. clearbody q r. subst b. clear -Hr.
    destruct r as [|r]; [change ((8 - 0) mod 8)%nat with 0%nat; change (N.of_nat 0) with 0; rewrite !N.add_0_r; replace (8 * q + 7) with (7 + q * 8) by lia; rewrite N.div_add by lia; change (7 / 8) with 0; lia|].
    rewrite Nat.mod_small by lia. replace (8 * q + N.of_nat (S r) + 7) with (N.of_nat r + (q + 1) * 8) by lia. rewrite N.div_add by lia. rewrite N.div_small by lia. lia. }
  rewrite Hc, (IH _ (off + length (sem off o))%nat), app_length; [lia|].
  rewrite N.add_mod, H by lia. rewrite Nat.add_mod by lia. rewrite !Nat2N.inj_mod, Nat2N.inj_add, !Nat2N.inj_mod. reflexivity.
Qed.
Lemma countedSize_sem ops : countedSize ops = N.of_nat (length (sbits 0 ops)) / 8.
Proof. unfold countedSize. rewrite (count_sem ops 0 0) by reflexivity. reflexivity. Qed.

(** * Stored blocks *)
Lemma storedCount_step n : 65535 < n -> storedBlockCount n = 1 + storedBlockCount (n - 65535).
Proof.
  intros H. unfold storedBlockCount, kMaxStoredBlock. destruct (N.eqb_spec n 0); [lia|]. destruct (N.eqb_spec (n - 65535) 0); [lia|].
  replace (n + 65535 - 1) with (1 * 65535 + (n - 65535 + 65535 - 1)) by lia. rewrite N.div_add_l by lia. reflexivity.
Qed.
Lemma storedCount_one n : n <= 65535 -> storedBlockCount n = 1.
Proof.
  intros H. unfold storedBlockCount, kMaxStoredBlock. destruct (N.eqb_spec n 0); [reflexivity|]. replace (n + 65535 - 1) with (1 * 65535 + (n - 1)) by lia. rewrite N.div_add_l by lia. rewrite N.div_small by lia. reflexivity.
Qed.
Definition storedHead (fin : bool) (size : N) (chunk : list N) : list op :=
  [WBits (b2n fin) 1; WBits 0 2; WAlign; WBits size 16; WBits (65535 - size) 16; WBytes chunk].
Lemma storedHead_spec fin chunk off : octets chunk -> bytesN chunk < 65536 ->
  exists pad, (length pad < 8)%nat /\ ((off + 3 + length pad) mod 8 = 0)%nat /\ fits off (storedHead fin (bytesN chunk) chunk) /\
    sbits off (storedHead fin (bytesN chunk) chunk) = lsb 1 (b2n fin) ++ lsb 2 0 ++ pad ++ lsb 16 (bytesN chunk) ++ lsb 16 (65535 - bytesN chunk) ++ bitsOf chunk.
Proof.
  intros Ho Hs. destruct (padOf_spec (off + 3)) as [P1 P2]. exists (repeat false (padOf (off + 3))). rewrite repeat_length. split; [exact P1|]. split; [exact P2|].
  unfold storedHead. cbn [fits sbits sem fit]. rewrite !length_lsb. replace (off + 1 + 2)%nat with (off + 3)%nat by lia. rewrite repeat_length. rewrite app_nil_r. split; [|reflexivity].
  change (2 ^ N.of_nat 1) with 2. change (2 ^ N.of_nat 2) with 4. change (2 ^ N.of_nat 16) with 65536. 
  assert (Hb : b2n fin < 2) by (destruct fin; cbn; lia). assert (Hm : ((off + 3 + padOf (off + 3) + 16 + 16) mod 8 = 0)%nat).
  { replace (off + 3 + padOf (off + 3) + 16 + 16)%nat with (off + 3 + padOf (off + 3) + 4 * 8)%nat by lia. rewrite Nat.mod_add by lia. exact P2. }
  split; [split; [lia|exact Hb]|]. split; [split; [lia|lia]|]. split; [exact I|]. split; [split; lia|]. split; [split; lia|]. split; [split; assumption|exact I].
Qed.
Definition continues (off : nat) (out : list N) (sb : list bool) (out' : list N) : Prop :=
  forall rest out2, blocks (off + length sb) out' rest out2 -> blocks off out (sb ++ rest) out2.
Lemma stored_spec : forall fuel data off out final, (length data < fuel)%nat -> octets data -> let ops := emitStored fuel data final in let sb := sbits off ops in
  fits off ops /\ ((off + length sb) mod 8 = 0)%nat /\
  (final = true -> blocks off out sb (out ++ data)) /\ (final = false -> continues off out sb (out ++ data)) /\
  ((off mod 8 = 0)%nat -> N.of_nat (length sb) = 8 * (bytesN data + 5 * storedBlockCount (bytesN data))).
Proof.
  induction fuel as [|k IH]; intros data off out final Hf Ho; [lia|]. cbn [emitStored]. cbn zeta. unfold kMaxStoredBlock.
  set (size := N.min (bytesN data) 65535). assert (Hsz : size <= 65535) by (unfold size; lia). rewrite (tr_small 16 size) by (change (2 ^ 16) with 65536; lia).
  set (chunk := firstn (N.to_nat size) data). assert (Hchunk : bytesN chunk = size) by (unfold chunk, bytesN, size; rewrite firstn_length; unfold bytesN; lia).
  assert (Hoc : octets chunk) by (apply octets_firstn, Ho).
  set (lastc := size =? bytesN data). assert (HL : lastc = (size =? bytesN data)) by reflexivity. clearbody lastc. set (rest := if lastc then [] else emitStored k (skipn (N.to_nat size) data) final).
  change ([WBits (b2n (final && lastc)) 1; WBits 0 2; WAlign] ++ putLittle16 size ++ putLittle16 (65535 - size) ++ [WBytes chunk] ++ rest) with (storedHead (final && lastc) size chunk ++ rest).
  destruct (storedHead_spec (final && lastc) chunk off Hoc ltac:(lia)) as (pad & P1 & P2 & P3 & P4). rewrite Hchunk in P3, P4.
  assert (Hlen : length (sbits off (storedHead (final && lastc) size chunk)) = (3 + length pad + 32 + 8 * length chunk)%nat).
  { rewrite P4, !app_length, !length_lsb, length_bitsOf. lia. }
  assert (Hal : ((off + length (sbits off (storedHead (final && lastc) size chunk))) mod 8 = 0)%nat).
  { rewrite Hlen. replace (off + (3 + length pad + 32 + 8 * length chunk))%nat with (off + 3 + length pad + (4 + length chunk) * 8)%nat by lia. rewrite Nat.mod_add by lia. exact P2. }
  assert (Hpad0 : (off mod 8 = 0)%nat -> length pad = 5%nat).
  { intros H0. assert (Hq : ((3 + length pad) mod 8 = 0)%nat) by (rewrite <- Nat.add_assoc, Nat.add_mod, H0, Nat.add_0_l, Nat.mod_mod in P2 by lia; exact P2).
    destruct (length pad) as [|[|[|[|[|[|[|[|?]]]]]]]]; cbn in Hq; try discriminate; [reflexivity|lia]. }
  assert (Hblk : forall o2, block (off + 3) o2 (pad ++ lsb 16 size ++ lsb 16 (65535 - size) ++ bitsOf chunk) 0 (o2 ++ chunk)).
  { intros o2. rewrite <- Hchunk. apply bl_stored; [exact P1|exact P2|exact Hoc|]. unfold bytesN in Hchunk. lia. }
  rewrite sbits_app. destruct (N.eq_dec size (bytesN data)) as [El|El].
  - assert (lastc = true) as El2 by (rewrite HL; apply N.eqb_eq; exact El). clear HL. unfold rest. clear rest. subst lastc. cbn [sbits]. rewrite !app_nil_r, andb_true_r in *.
    assert (Ec : chunk = data) by (unfold chunk; apply firstn_all2; unfold bytesN in El; lia).
    split; [exact P3|]. split; [exact Hal|]. rewrite <- Ec. split; [|split].
    + intros ->. rewrite P4. cbn [b2n]. apply bs_last. apply Hblk.
    + intros -> r2 out2 Hr. rewrite P4 in *. cbn [b2n] in *. repeat rewrite <- app_assoc.
      replace (pad ++ lsb 16 size ++ lsb 16 (65535 - size) ++ bitsOf chunk ++ r2) with ((pad ++ lsb 16 size ++ lsb 16 (65535 - size) ++ bitsOf chunk) ++ r2) by (repeat rewrite <- app_assoc; reflexivity).
      eapply bs_more; [apply Hblk|]. rewrite !app_length, !length_lsb in *. replace (off + 3 + (length pad + (16 + (16 + length (bitsOf chunk)))))%nat with (off + (1 + (2 + (length pad + (16 + (16 + length (bitsOf chunk)))))))%nat by lia. exact Hr.
    + intros H0. rewrite Hlen, (Hpad0 H0), Ec. rewrite storedCount_one by lia. unfold bytesN. lia.
  - assert (lastc = false) as El2 by (rewrite HL; apply N.eqb_neq; exact El). clear HL. unfold rest. clear rest. subst lastc. rewrite andb_false_r in *.
    assert (Hs2 : size = 65535) by (unfold size in *; lia). set (d2 := skipn (N.to_nat size) data).
    assert (Hd2 : bytesN d2 = bytesN data - size /\ (length d2 < k)%nat) by (unfold d2, bytesN in *; rewrite skipn_length; lia). destruct Hd2 as [Hd2 Hk].
    assert (Edata : chunk ++ d2 = data) by apply firstn_skipn.
    destruct (IH d2 (off + length (sbits off (storedHead false size chunk)))%nat (out ++ chunk) final Hk (octets_skipn _ _ Ho)) as (I1 & I2 & I3 & I4 & I5).
    cbn zeta in *. set (off2 := (off + length (sbits off (storedHead false size chunk)))%nat) in *. set (sb2 := sbits off2 (emitStored k d2 final)) in *.
    split; [apply fits_app; assumption|]. split; [rewrite app_length, Nat.add_assoc; exact I2|].
    assert (Hoff2 : (off + 3 + length (pad ++ lsb 16 size ++ lsb 16 (65535 - size) ++ bitsOf chunk))%nat = off2).
    { unfold off2. rewrite Hlen, !app_length, !length_lsb, length_bitsOf. lia. }
    split; [|split].
    + intros Hfin. specialize (I3 Hfin). rewrite <- app_assoc, Edata in I3. rewrite P4. cbn [b2n]. repeat rewrite <- app_assoc.
      replace (pad ++ lsb 16 size ++ lsb 16 (65535 - size) ++ bitsOf chunk ++ sb2) with ((pad ++ lsb 16 size ++ lsb 16 (65535 - size) ++ bitsOf chunk) ++ sb2) by (repeat rewrite <- app_assoc; reflexivity).
      eapply bs_more; [apply Hblk|]. rewrite Hoff2. exact I3.
    + intros Hfin r2 out2 Hr. specialize (I4 Hfin). rewrite app_length, Nat.add_assoc in Hr. fold off2 in Hr. rewrite <- Edata, app_assoc in Hr. specialize (I4 _ _ Hr).
      rewrite P4. cbn [b2n]. repeat rewrite <- app_assoc.
      replace (pad ++ lsb 16 size ++ lsb 16 (65535 - size) ++ bitsOf chunk ++ sb2 ++ r2) with ((pad ++ lsb 16 size ++ lsb 16 (65535 - size) ++ bitsOf chunk) ++ sb2 ++ r2) by (repeat rewrite <- app_assoc; reflexivity).
      eapply bs_more; [apply Hblk|]. rewrite Hoff2. exact I4.
    + intros H0. specialize (I5 Hal). rewrite app_length, Nat2N.inj_add, I5, Hlen, (Hpad0 H0). rewrite Hs2 in Hd2. rewrite Hd2. rewrite (storedCount_step (bytesN data)) by lia. assert (Hq : N.of_nat (length chunk) = 65535) by (change (N.of_nat (length chunk)) with (bytesN chunk); lia). assert (Hq2 : 65535 <= bytesN data) by lia. clear -Hq Hq2. lia.
Qed.

(** * One block of tokens *)
Definition headOps (final : bool) (kind : N) : list op := [WBits (b2n final) 1; WBits kind 2].
Lemma token_block final kind body bs off out out' : kind < 4 -> wr body bs -> block (off + 3) out bs kind out' ->
  let ops := headOps final kind ++ body ++ (if final then [WAlign] else []) in let sb := sbits off ops in
  fits off ops /\ (final = true -> exists b pad, sb = b ++ pad /\ (length pad < 8)%nat /\ blocks off out b out' /\ ((off + length sb) mod 8 = 0)%nat) /\
  (final = false -> continues off out sb out').
Proof.
  intros Hk Hw Hb. cbn zeta. assert (Hh : wr (headOps final kind) (lsb 1 (b2n final) ++ lsb 2 kind)).
  { apply wr_cons; [apply writes_bits; [lia|destruct final; reflexivity]|]. apply wr_one, writes_bits; [lia|exact Hk]. }
  pose proof (wr_app _ _ _ _ Hh Hw) as Hhb. destruct (wr_sbits _ _ Hhb off) as [F1 F2]. rewrite app_assoc. rewrite sbits_app, F2. destruct final.
  - destruct (padOf_spec (off + length ((lsb 1 (b2n true) ++ lsb 2 kind) ++ bs))) as [P1 P2].
    split; [apply fits_app; [exact F1|cbn [fits fit]; auto]|]. split; [|discriminate]. intros _. cbn [sbits sem]. rewrite app_nil_r. do 2 eexists. split; [reflexivity|]. rewrite repeat_length.
    split; [exact P1|]. split; [rewrite <- app_assoc; apply bs_last; exact Hb|]. rewrite (app_length _ (repeat _ _)), repeat_length, Nat.add_assoc. exact P2.
  - rewrite !app_nil_r. cbn [sbits]. split; [exact F1|]. split; [discriminate|]. intros _ rest out2 Hr. rewrite <- !app_assoc. eapply bs_more; [exact Hb|].
    rewrite !app_length, !length_lsb in Hr. replace (off + 3 + length bs)%nat with (off + (1 + 2 + length bs))%nat by lia. exact Hr.
Qed.
Section Emit.
Variables (data out full : list N) (ts : list Token).
Hypothesis Hdata : octets data.
Hypothesis Hts : Forall tokOk ts.
Hypothesis Hcount : N.of_nat (length ts) + 1 < 2 ^ 32.
Hypothesis Hexp : expand out (map tok ts) full.
Hypothesis Hfull : full = out ++ data.
Lemma emit_spec e final off : let ops := emitDeflate data ts (makeDynamicCoding ts) e final in let sb := sbits off ops in
  fits off ops /\ (final = true -> exists b pad, sb = b ++ pad /\ (length pad < 8)%nat /\ blocks off out b full /\ ((off + length sb) mod 8 = 0)%nat) /\
  (final = false -> continues off out sb full).
Proof.
  destruct e; cbn [emitDeflate].
  - unfold emitStoredDeflate. destruct (stored_spec (S (length data)) data off out final ltac:(lia) Hdata) as (S1 & S2 & S3 & S4 & _). cbn zeta in *. rewrite Hfull.
    split; [exact S1|]. split; [|exact S4]. intros Hf. eexists. exists []. rewrite app_nil_r. split; [reflexivity|]. split; [cbn; lia|]. split; [apply S3, Hf|exact S2].
  - destruct (fixed_body ts Hts) as (bs & B1 & B2). unfold emitFixedDeflate. apply (token_block final 1 _ bs off out full); [reflexivity|exact B1|]. apply bl_fixed with (ts := map tok ts); assumption.
  - destruct (dynamic_block ts (off + 3) out full Hts Hcount Hexp) as (bs & B1 & B2). cbn zeta in *.
    assert (E : emitDynamicDeflate ts (makeDynamicCoding ts) final = headOps final 2 ++ (dynBits (makeDynamicCoding ts) ++ emitTokensDynamic ts (makeDynamicCoding ts)) ++ (if final then [WAlign] else [])).
    { generalize (makeDynamicCoding ts). intros c. unfold emitDynamicDeflate, dynBits, headOps. rewrite <- !app_assoc. cbn [app]. reflexivity. }
    rewrite E. apply (token_block final 2 _ bs off out full); [reflexivity|exact B1|exact B2].
Qed.
End Emit.

(** * A whole stream *)
Definition deflateOps (data : list N) (ts : list Token) (e : Encoding) : list op := emitDeflate data ts (makeDynamicCoding ts) e true.
Definition okTokens (data : list N) (ts : list Token) : Prop :=
  Forall tokOk ts /\ N.of_nat (length ts) + 1 < 2 ^ 32 /\ expand [] (map tok ts) data.
Lemma deflate_spec data ts e : octets data -> okTokens data ts -> let ops := deflateOps data ts e in
  fits 0 ops /\ (length (sbits 0 ops) mod 8 = 0)%nat /\ octets (wout (exec empty ops)) /\ bitsOf (wout (exec empty ops)) = sbits 0 ops /\
  Deflate (wout (exec empty ops)) data /\ countedSize ops = bytesN (wout (exec empty ops)).
Proof.
  intros Ho (T1 & T2 & T3). cbn zeta. destruct (emit_spec data [] data ts Ho T1 T2 T3 eq_refl e true 0) as (E1 & E2 & _). cbn zeta in *. destruct (E2 eq_refl) as (b & pad & B1 & B2 & B3 & B4).
  rewrite Nat.add_0_l in B4. unfold deflateOps. destruct (exec_whole _ E1 B4) as [W1 W2]. split; [exact E1|]. split; [exact B4|]. split; [exact W1|]. split; [exact W2|]. split.
  - exists b, pad. split; [rewrite W2; exact B1|]. auto.
  - rewrite countedSize_sem, <- W2, length_bitsOf. unfold bytesN. rewrite Nat2N.inj_mul. change (N.of_nat 8) with 8. rewrite N.mul_comm, N.div_mul by lia. reflexivity.
Qed.
Lemma stored_size data ts : octets data -> okTokens data ts -> bytesN (wout (exec empty (deflateOps data ts stored))) = bytesN data + 5 * storedBlockCount (bytesN data).
Proof.
  intros Ho Ht. destruct (deflate_spec data ts stored Ho Ht) as (_ & _ & _ & W2 & _). cbn zeta in *. apply (f_equal (@length bool)) in W2. rewrite length_bitsOf in W2.
  unfold deflateOps in *. cbn [emitDeflate] in *. unfold emitStoredDeflate in *. destruct (stored_spec (S (length data)) data 0 [] true ltac:(lia) Ho) as (_ & _ & _ & _ & S5). cbn zeta in *. specialize (S5 eq_refl).
  rewrite <- W2 in S5. unfold bytesN in *. lia.
Qed.
Lemma select_smallest data ts : octets data -> okTokens data ts -> let e := selectEncoding (bytesN data) ts (makeDynamicCoding ts) true in
  forall e', bytesN (wout (exec empty (deflateOps data ts e))) <= bytesN (wout (exec empty (deflateOps data ts e'))).
Proof.
  intros Ho Ht. cbn zeta. pose proof (stored_size data ts Ho Ht) as Hs.
  destruct (deflate_spec data ts fixed Ho Ht) as (_ & _ & _ & _ & _ & Hf). destruct (deflate_spec data ts dynamic Ho Ht) as (_ & _ & _ & _ & _ & Hd). cbn zeta in *.
  unfold selectEncoding. change (emitFixedDeflate ts true) with (deflateOps data ts fixed). change (emitDynamicDeflate ts (makeDynamicCoding ts) true) with (deflateOps data ts dynamic). rewrite Hf, Hd, <- Hs.
  set (s := bytesN (wout (exec empty (deflateOps data ts stored)))) in *. set (f := bytesN (wout (exec empty (deflateOps data ts fixed)))) in *. set (d := bytesN (wout (exec empty (deflateOps data ts dynamic)))) in *.
  intros e'. destruct (N.ltb_spec s (N.min f d)) as [H1|H1]; [fold s|destruct (N.ltb_spec d f) as [H2|H2]; [fold d|fold f]]; destruct e'; fold s; fold f; fold d; lia.
Qed.

(** * Numbers and headers *)
Lemma lsb_mod8 v : lsb 8 (v mod 256) = lsb 8 v.
Proof. change 256 with (2 ^ N.of_nat 8). rewrite <- N.land_ones. apply lsb_land. Qed.
Lemma bits_le n : forall v, bitsOf (le n v) = lsb (8 * n) v.
Proof.
  induction n as [|n IH]; intros v; [reflexivity|]. cbn [le]. unfold bitsOf. cbn [flat_map]. fold (bitsOf (le n (v / 256))). rewrite IH, lsb_mod8. replace (8 * S n)%nat with (8 + 8 * n)%nat by lia.
  rewrite lsb_app. f_equal. f_equal. rewrite N.shiftr_div_pow2. reflexivity.
Qed.
Lemma wr_bytes l : octets l -> wr (map (fun b => WBits b 8) l) (bitsOf l).
Proof. induction 1 as [|b l Hb H IH]; [apply wr_nil|]. cbn [map]. apply (wr_cons (WBits b 8) _ (lsb 8 b) (bitsOf l)); [apply writes_bits; [lia|exact Hb]|exact IH]. Qed.
Lemma wr_little32 v : v < 2 ^ 32 -> wr (putLittle32 v) (bitsOf (le 4 v)).
Proof. intros H. rewrite bits_le. apply wr_one, writes_bits; [lia|exact H]. Qed.
Lemma wr_big32 v : wr (putBig32 v) (bitsOf (rev (le 4 v))).
Proof.
  assert (E : putBig32 v = map (fun b => WBits b 8) (rev (le 4 v))).
  { unfold putBig32. cbn [map le rev app]. assert (Hb : forall k, N.land (N.shiftr v k) 255 = v / 2 ^ k mod 256) by (intros k; change 255 with (N.ones 8); rewrite N.land_ones, N.shiftr_div_pow2; reflexivity).
    rewrite !Hb. rewrite !N.div_div by discriminate. rewrite N.div_1_r. reflexivity. }
  rewrite E. apply wr_bytes. apply Forall_rev. apply octets_le.
Qed.
Lemma framed pre body post preB postB : fits 0 body -> (length (sbits 0 body) mod 8 = 0)%nat -> wr pre (bitsOf preB) -> wr post (bitsOf postB) -> octets preB -> octets postB ->
  wout (exec empty (pre ++ body ++ post)) = preB ++ wout (exec empty body) ++ postB.
Proof.
  intros F M Wp Wq Op Oq. destruct (exec_whole body F M) as [B1 B2]. destruct (wr_sbits _ _ Wp 0) as [P1 P2].
  assert (Hmod : (length (bitsOf preB) mod 8 = 0 mod 8)%nat) by (rewrite length_bitsOf, Nat.mul_comm, Nat.mod_mul by lia; reflexivity).
  destruct (sbits_mod body 0 (length (bitsOf preB)) (eq_sym Hmod)) as [S1 S2]. destruct (wr_sbits _ _ Wq (length (bitsOf preB) + length (sbits 0 body))) as [Q1 Q2].
  assert (Es : sbits 0 (pre ++ body ++ post) = bitsOf preB ++ sbits 0 body ++ bitsOf postB).
  { rewrite !sbits_app, P2. cbn [Nat.add]. rewrite <- S1, Q2. reflexivity. }
  assert (Hf : fits 0 (pre ++ body ++ post)).
  { apply fits_app; [exact P1|]. rewrite P2. cbn [Nat.add]. apply fits_app; [apply S2, F|]. rewrite <- S1. exact Q1. }
  destruct (exec_whole (pre ++ body ++ post) Hf) as [E1 E2].
  { rewrite Es, !app_length, !length_bitsOf. rewrite <- B2, length_bitsOf. replace (8 * length preB + (8 * length (wout (exec empty body)) + 8 * length postB))%nat with ((length preB + (length (wout (exec empty body)) + length postB)) * 8)%nat by lia. apply Nat.mod_mul. lia. }
  apply bitsOf_inj; [exact E1|apply Forall_app; split; [exact Op|apply Forall_app; split; assumption]|]. rewrite E2, Es, !bitsOf_app, B2. reflexivity.
Qed.
Definition overhead (f : Format) : N := match f with rawDeflate => 0 | zlib => 6 | gzip => 18 end.
Definition framing (W : nat) (data : list N) (f : Format) (level : Level) : list N * list N :=
  match f with
  | rawDeflate => ([], [])
  | zlib => ([N.shiftr (zlibHeader level) 8; N.land (zlibHeader level) 0xff], rev (le 4 (adler32 data)))
  | gzip => (gzipHeader level, le 4 (computeCrc32 W data) ++ le 4 (tr 32 (bytesN data)))
  end.
Lemma framing_ok W data f level : octets (fst (framing W data f level)) /\ octets (snd (framing W data f level)) /\
  bytesN (fst (framing W data f level)) + bytesN (snd (framing W data f level)) = overhead f.
Proof.
  destruct f; cbn [framing fst snd overhead].
  - split; [constructor|]. split; [constructor|reflexivity].
  - split; [destruct level; repeat constructor|]. split; [apply Forall_rev, octets_le|]. unfold bytesN. rewrite rev_length, length_le. reflexivity.
  - split; [destruct level; repeat constructor|]. split; [apply Forall_app; split; apply octets_le|]. unfold bytesN. rewrite app_length, !length_le. destruct level; reflexivity.
Qed.
Lemma crc_lt W data : octets data -> computeCrc32 W data < 2 ^ 32.
Proof. intros Ho. apply (proj2 (crc_iff W data _ Ho) eq_refl). Qed.
Lemma wrapped_bytes W data ts e f level : octets data -> okTokens data ts ->
  wout (exec empty (emitWrapped W data ts (makeDynamicCoding ts) e f level)) = fst (framing W data f level) ++ wout (exec empty (deflateOps data ts e)) ++ snd (framing W data f level).
Proof.
  intros Ho Ht. destruct (deflate_spec data ts e Ho Ht) as (D1 & D2 & _). cbn zeta in *. destruct (framing_ok W data f level) as (O1 & O2 & _).
  destruct f; cbn [emitWrapped].
  - cbn [framing fst snd app]. rewrite app_nil_r. reflexivity.
  - apply framed; try assumption; [|apply wr_big32]. apply (wr_bytes (fst (framing W data zlib level))). exact O1.
  - apply framed; try assumption; [apply wr_bytes; exact O1|]. cbn [framing snd]. rewrite bitsOf_app. apply wr_app; [apply wr_little32, crc_lt, Ho|]. apply wr_little32. apply N.mod_lt. discriminate.
Qed.
Lemma wrapped_encodes W data ts e f level : octets data -> okTokens data ts ->
  let o := wout (exec empty (emitWrapped W data ts (makeDynamicCoding ts) e f level)) in octets o /\ Encodes f o data /\ bytesN o = overhead f + bytesN (wout (exec empty (deflateOps data ts e))).
Proof.
  intros Ho Ht. cbn zeta. rewrite (wrapped_bytes _ _ _ _ _ _ Ho Ht). destruct (deflate_spec data ts e Ho Ht) as (_ & _ & D3 & _ & D5 & _). cbn zeta in *. destruct (framing_ok W data f level) as (O1 & O2 & O3).
  split; [apply Forall_app; split; [exact O1|apply Forall_app; split; assumption]|]. split; [|unfold bytesN in *; rewrite !app_length; lia].
  destruct f; cbn [framing fst snd Encodes app] in *.
  - rewrite app_nil_r. exact D5.
  - assert (Ha : adler32 data < 2 ^ 32) by (rewrite adler32_spec by exact Ho; apply adlerSpec_lt).
    unfold Encodes. exists (N.shiftr (zlibHeader level) 8), (N.land (zlibHeader level) 0xff), (wout (exec empty (deflateOps data ts e))), (adler32 data). split; [reflexivity|]. split; [exact Ha|].
    split; [destruct level; reflexivity|]. split; [destruct level; vm_compute; discriminate|]. split; [destruct level; reflexivity|]. split; [destruct level; reflexivity|]. split; [exact D5|]. unfold adlerRight. apply adler32_spec, Ho.
  - apply gz_one. exists (gzipHeader level), (wout (exec empty (deflateOps data ts e))), (computeCrc32 W data). split; [reflexivity|]. split; [apply crc_lt, Ho|]. split; [|split; [exact D5|apply (crc_iff W); [exact Ho|reflexivity]]].
    exists 0, [0; 0; 0; 0; match level with fast => 4 | best => 2 | balanced => 0 end; 255], [], [], [], []. split; [destruct level; reflexivity|]. split; [reflexivity|]. repeat split; reflexivity.
Qed.

(** * compress *)
Lemma tokens_ok level data : octets data -> bytesN data + 1 < 2 ^ 32 -> okTokens data (fst (tokenize level data 0 0 0 (historyBound (bytesN data)) emptyChains)).
Proof.
  intros Ho Hs. destruct (tokenize_spec level data 0 0 0 (historyBound (bytesN data)) emptyChains Ho ltac:(unfold bytesN; lia)) as (T1 & T2 & T3). cbn zeta in *. split; [exact T2|]. split; [lia|]. exact T1.
Qed.
Lemma bound_eq size f : compressBound size f = overhead f + (size + 5 * storedBlockCount size).
Proof. unfold compressBound, overhead. destruct f; lia. Qed.
Theorem compress_spec W data f level : octets data -> bytesN data + 1 < 2 ^ 32 ->
  exists out, compress W data f level = Ok out /\ octets out /\ Encodes f out data /\ bytesN out <= compressBound (bytesN data) f.
Proof.
  intros Ho Hs. pose proof (tokens_ok level data Ho Hs) as Ht. unfold compress, compressOps. set (ts := fst (tokenize level data 0 0 0 (historyBound (bytesN data)) emptyChains)) in *.
  fold empty. set (e := selectEncoding (bytesN data) ts (makeDynamicCoding ts) true).
  destruct (wrapped_encodes W data ts e f level Ho Ht) as (E1 & E2 & E3). cbn zeta in *. set (o := wout (exec empty (emitWrapped W data ts (makeDynamicCoding ts) e f level))) in *.
  pose proof (select_smallest data ts Ho Ht stored) as Hm. cbn zeta in Hm. fold e in Hm. rewrite (stored_size data ts Ho Ht) in Hm.
  assert (Hb : bytesN o <= compressBound (bytesN data) f) by (rewrite bound_eq; lia).
  exists o. destruct (N.ltb_spec (compressBound (bytesN data) f) (bytesN o)) as [H|H]; [lia|]. auto.
Qed.
