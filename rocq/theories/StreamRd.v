(** The reader of the streaming decoder: fuel of the block decoders, split reads, and reading a piece of the input. *)
From Coq Require Import List NArith ZArith Arith Bool Lia ZifyBool ZifyNat ZifyN.
From Verif Require Import Base CompModel CompSpec CompBits CompHuff CompDec CompBlk StreamModel.
Import ListNotations.
Local Open Scope N_scope.

(** * What is left of the input *)
Lemma fill_available fuel w : forall r r', fill fuel w r = Some r' -> available r' = available r /\ rinput r' = rinput r /\ (w <= rcount r')%nat.
Proof.
  induction fuel as [|k IH]; intros r r' H; cbn [fill] in H; destruct (Nat.leb_spec w (rcount r)) as [Hw|Hw]; try discriminate.
  - injection H as <-. auto.
  - injection H as <-. auto.
  - destruct (nth_error (rinput r) (rpos r)) as [b|] eqn:E; [|discriminate]. apply IH in H. destruct H as (H1 & H2 & H3). cbn [rinput] in *.
    split; [|auto]. rewrite H1. unfold available. cbn [rinput rpos rcount].
    assert (rpos r < length (rinput r))%nat by (apply nth_error_Some; congruence). lia.
Qed.
Lemma read_available n r v r' : readBits n r = Ok (v, r') -> available r = (available r' + n)%nat /\ rinput r' = rinput r.
Proof.
  unfold readBits. destruct (32 <? n)%nat; [discriminate|]. destruct (fill n n r) as [q|] eqn:E; [|discriminate].
  intros H. injection H as <- <-. apply fill_available in E. destruct E as (E1 & E2 & E3). unfold available in *. cbn [rinput rpos rcount]. split; [lia|auto].
Qed.
Lemma next_available r b r' : nextBit r = Some (b, r') -> available r = S (available r') /\ rinput r' = rinput r.
Proof.
  unfold nextBit. destruct (fill 1 1 r) as [q|] eqn:E; [|discriminate].
  intros H. injection H as <- <-. apply fill_available in E. destruct E as (E1 & E2 & E3). unfold available in *. cbn [rinput rpos rcount]. split; [lia|auto].
Qed.
Lemma loop_available d : forall k w code first index r s r', decodeSymbolLoop k w code first index d r = Ok (s, r') ->
  (available r' < available r)%nat /\ rinput r' = rinput r.
Proof.
  induction k as [|k IH]; intros w code first index r s r' H; cbn [decodeSymbolLoop] in H; [discriminate|].
  destruct (nextBit r) as [[b r1]|] eqn:E; [|discriminate]. apply next_available in E. destruct E as [E Ei].
  destruct (aget (hcounts d) w) as [count| | |]; cbn [bind] in H; try discriminate.
  destruct (_ && _).
  - destruct (aget (hsymbols d) _) as [x| | |]; cbn [bind] in H; try discriminate. injection H as <- <-. split; [lia|auto].
  - apply IH in H. destruct H as [H1 H2]. split; [lia|congruence].
Qed.
Lemma sym_available d r s r' : decodeSymbol d r = Ok (s, r') -> (available r' < available r)%nat /\ rinput r' = rinput r.
Proof. apply loop_available. Qed.
Lemma extra_available base n r v r' : readExtra base n r = Ok (v, r') -> (available r' <= available r)%nat.
Proof.
  unfold readExtra. destruct (n =? 0)%nat; [intros H; injection H as <- <-; lia|].
  destruct (readBits n r) as [[x q]| | |] eqn:E; cbn [bind]; try discriminate. intros H; injection H as <- <-. apply read_available in E. lia.
Qed.
Lemma align_available r : (available (alignReader r) <= available r)%nat.
Proof. unfold available, alignReader. cbn [rinput rpos rcount]. lia. Qed.

(** * The fuel of the block decoders does not matter *)
Lemma dcb_fuel ld dd : forall k1 k2 r o, (available r < k1)%nat -> (available r < k2)%nat ->
  decodeCompressedBlock k1 ld dd r o = decodeCompressedBlock k2 ld dd r o.
Proof.
  induction k1 as [|k1 IH]; intros k2 r o H1 H2; [lia|]. destruct k2 as [|k2]; [lia|]. cbn [decodeCompressedBlock].
  destruct (decodeSymbol ld r) as [[s r1]| | |] eqn:E; cbn [bind]; try reflexivity. apply sym_available in E. destruct E as [E _].
  destruct (s <? 256)%nat; [destruct (append o (N.of_nat s)); cbn [bind]; try reflexivity; apply IH; lia|].
  destruct (s =? 256)%nat; [reflexivity|]. destruct (285 <? s)%nat; [reflexivity|].
  destruct (aget kLengthBase (s - 257)) as [lb| | |]; cbn [bind]; try reflexivity.
  destruct (aget kLengthExtra (s - 257)) as [le| | |]; cbn [bind]; try reflexivity.
  destruct (readExtra lb le r1) as [[len r2]| | |] eqn:E2; cbn [bind]; try reflexivity. apply extra_available in E2.
  destruct (decodeSymbol dd r2) as [[ds r3]| | |] eqn:E3; cbn [bind]; try reflexivity. apply sym_available in E3. destruct E3 as [E3 _].
  destruct (length kDistanceBase <=? ds)%nat; [reflexivity|].
  destruct (aget kDistanceBase ds) as [db| | |]; cbn [bind]; try reflexivity.
  destruct (aget kDistanceExtra ds) as [de| | |]; cbn [bind]; try reflexivity.
  destruct (readExtra db de r3) as [[x r4]| | |] eqn:E4; cbn [bind]; try reflexivity. apply extra_available in E4.
  destruct (ocopy o x len); cbn [bind]; try reflexivity. apply IH; lia.
Qed.
Lemma rl_fuel d total : forall k1 k2 lengths index r, (available r < k1)%nat -> (available r < k2)%nat ->
  readLengths k1 d total lengths index r = readLengths k2 d total lengths index r.
Proof.
  induction k1 as [|k1 IH]; intros k2 lengths index r H1 H2; [lia|]. destruct k2 as [|k2]; [lia|]. cbn [readLengths].
  destruct (total <=? index)%nat; [reflexivity|].
  destruct (decodeSymbol d r) as [[s r1]| | |] eqn:E; cbn [bind]; try reflexivity. apply sym_available in E. destruct E as [E _].
  destruct (s <=? 15)%nat; [destruct (aset lengths index s); cbn [bind]; try reflexivity; apply IH; lia|].
  match goal with |- bind ?x _ = _ => destruct x as [[[value base] bits]| | |] end; cbn [bind]; try reflexivity.
  destruct (readBits bits r1) as [[extra r2]| | |] eqn:E2; cbn [bind]; try reflexivity. apply read_available in E2. destruct E2 as [E2 _].
  destruct (_ <? _)%nat; [reflexivity|]. destruct (fillLengths _ lengths index value); cbn [bind]; try reflexivity. apply IH; lia.
Qed.
Lemma dcb_available ld dd : forall k r o r' o', decodeCompressedBlock k ld dd r o = Ok (r', o') -> (available r' < available r)%nat.
Proof.
  induction k as [|k IH]; intros r o r' o' H; [discriminate|]. cbn [decodeCompressedBlock] in H.
  destruct (decodeSymbol ld r) as [[s r1]| | |] eqn:E; cbn [bind] in H; try discriminate. apply sym_available in E. destruct E as [E _].
  destruct (s <? 256)%nat; [destruct (append o (N.of_nat s)); cbn [bind] in H; try discriminate; apply IH in H; lia|].
  destruct (s =? 256)%nat; [injection H as <- <-; lia|]. destruct (285 <? s)%nat; [discriminate|].
  destruct (aget kLengthBase (s - 257)) as [lb| | |]; cbn [bind] in H; try discriminate.
  destruct (aget kLengthExtra (s - 257)) as [le| | |]; cbn [bind] in H; try discriminate.
  destruct (readExtra lb le r1) as [[len r2]| | |] eqn:E2; cbn [bind] in H; try discriminate. apply extra_available in E2.
  destruct (decodeSymbol dd r2) as [[ds r3]| | |] eqn:E3; cbn [bind] in H; try discriminate. apply sym_available in E3. destruct E3 as [E3 _].
  destruct (length kDistanceBase <=? ds)%nat; [discriminate|].
  destruct (aget kDistanceBase ds) as [db| | |]; cbn [bind] in H; try discriminate.
  destruct (aget kDistanceExtra ds) as [de| | |]; cbn [bind] in H; try discriminate.
  destruct (readExtra db de r3) as [[x r4]| | |] eqn:E4; cbn [bind] in H; try discriminate. apply extra_available in E4.
  destruct (ocopy o x len); cbn [bind] in H; try discriminate. apply IH in H. lia.
Qed.
Lemma stored_available n : forall r o r' o', readStored n r o = Ok (r', o') -> (available r' <= available r)%nat.
Proof.
  induction n as [|n IH]; intros r o r' o' H; cbn [readStored] in H; [injection H as <- <-; lia|].
  destruct (readBits 8 r) as [[v r1]| | |] eqn:E; cbn [bind] in H; try discriminate. apply read_available in E.
  destruct (append o v); cbn [bind] in H; try discriminate. apply IH in H. lia.
Qed.
Lemma rcl_available is_ : forall cl r x, readCodeLengths is_ cl r = Ok x -> (available (snd x) <= available r)%nat.
Proof.
  induction is_ as [|i is_ IH]; intros cl r x H; cbn [readCodeLengths] in H; [injection H as <-; cbn [snd]; lia|].
  destruct (readBits 3 r) as [[v r1]| | |] eqn:E; cbn [bind] in H; try discriminate. apply read_available in E.
  destruct (aget kCodeLengthOrder i) as [slot| | |]; cbn [bind] in H; try discriminate.
  destruct (aset cl slot (N.to_nat v)); cbn [bind] in H; try discriminate. apply IH in H. lia.
Qed.
Lemma rl_available d total : forall k lengths index r x, readLengths k d total lengths index r = Ok x -> (available (snd x) <= available r)%nat.
Proof.
  induction k as [|k IH]; intros lengths index r x H; [discriminate|]. cbn [readLengths] in H.
  destruct (total <=? index)%nat; [injection H as <-; cbn [snd]; lia|].
  destruct (decodeSymbol d r) as [[s r1]| | |] eqn:E; cbn [bind] in H; try discriminate. apply sym_available in E. destruct E as [E _].
  destruct (s <=? 15)%nat; [destruct (aset lengths index s); cbn [bind] in H; try discriminate; apply IH in H; lia|].
  match type of H with bind ?x _ = _ => destruct x as [[[value base] bits]| | |] end; cbn [bind] in H; try discriminate.
  destruct (readBits bits r1) as [[extra r2]| | |] eqn:E2; cbn [bind] in H; try discriminate. apply read_available in E2. destruct E2 as [E2 _].
  destruct (_ <? _)%nat; [discriminate|]. destruct (fillLengths _ lengths index value); cbn [bind] in H; try discriminate. apply IH in H. lia.
Qed.
(** The rest of a dynamic block, by where its header is. *)
Definition DCB (ld dd : HuffmanDecoder) (r : BitReader) (o : Output) := decodeCompressedBlock (S (available r)) ld dd r o.
Definition afterLengths (nl nd : nat) (o : Output) (x : res (list nat * BitReader)) : res (BitReader * Output) :=
  let* (lengths, r5) := x in let* (ld, dd) := dynamicDecoders lengths nl nd in DCB ld dd r5 o.
Definition RL (d : HuffmanDecoder) (total : nat) (lengths : list nat) (index : nat) (r : BitReader) := readLengths (S (available r)) d total lengths index r.
Definition afterCodeLengths (nl nd : nat) (o : Output) (x : res (list nat * BitReader)) : res (BitReader * Output) :=
  let* (cl, r4) := x in let* d := makeDecoder 19 7 cl 19 codeLengthPolicy in
  afterLengths nl nd o (RL d (nl + nd) (repeat 0%nat 320) 0 r4).
Lemma afterLengths_available nl nd o x r : match x with Ok y => (available (snd y) <= available r)%nat | _ => True end ->
  match afterLengths nl nd o x with Ok (r', _) => (available r' <= available r)%nat | _ => True end.
Proof.
  destruct x as [[lens r5]| | |]; cbn [afterLengths bind snd]; auto. intros H.
  destruct (dynamicDecoders lens nl nd) as [[ld dd]| | |]; cbn [bind]; auto.
  destruct (DCB ld dd r5 o) as [[r' o']| | |] eqn:E; auto. apply dcb_available in E. lia.
Qed.
Lemma dyn_available r o r' o' : decodeDynamicBlock r o = Ok (r', o') -> (available r' <= available r)%nat.
Proof.
  unfold decodeDynamicBlock. destruct (readBits 5 r) as [[lb r1]| | |] eqn:E1; cbn [bind]; try discriminate. apply read_available in E1.
  destruct (readBits 5 r1) as [[db r2]| | |] eqn:E2; cbn [bind]; try discriminate. apply read_available in E2.
  destruct (readBits 4 r2) as [[cb r3]| | |] eqn:E3; cbn [bind]; try discriminate. apply read_available in E3.
  destruct (_ || _); [discriminate|].
  destruct (readCodeLengths _ _ r3) as [[cl r4]| | |] eqn:E4; cbn [bind]; try discriminate. apply rcl_available in E4. cbn [snd] in E4.
  destruct (makeDecoder 19 7 cl 19 codeLengthPolicy) as [d| | |]; cbn [bind]; try discriminate.
  destruct (readLengths _ d _ _ 0 r4) as [[lens r5]| | |] eqn:E5; cbn [bind]; try discriminate. apply rl_available in E5. cbn [snd] in E5.
  destruct (dynamicDecoders lens _ _) as [[ld dd]| | |]; cbn [bind]; try discriminate. intros H. apply dcb_available in H. lia.
Qed.
Lemma storedBlock_available r o r' o' : decodeStoredBlock r o = Ok (r', o') -> (available r' <= available r)%nat.
Proof.
  unfold decodeStoredBlock. destruct (readBits 16 (alignReader r)) as [[a r1]| | |] eqn:E1; cbn [bind]; try discriminate. apply read_available in E1.
  destruct (readBits 16 r1) as [[b r2]| | |] eqn:E2; cbn [bind]; try discriminate. apply read_available in E2.
  destruct (negb _); [discriminate|]. intros H. apply stored_available in H. pose proof (align_available r). lia.
Qed.
Definition oneBlock (kind : N) (r2 : BitReader) (o : Output) : res (BitReader * Output) :=
  if kind =? 0 then decodeStoredBlock r2 o
  else if kind =? 1 then let* ld := kFixedLiteralDecoder in let* dd := kFixedDistanceDecoder in DCB ld dd r2 o
  else if kind =? 2 then decodeDynamicBlock r2 o
  else Err invalidBlockType.
Lemma oneBlock_available kind r o r' o' : oneBlock kind r o = Ok (r', o') -> (available r' <= available r)%nat.
Proof.
  unfold oneBlock. destruct (kind =? 0); [apply storedBlock_available|]. destruct (kind =? 1).
  - destruct kFixedLiteralDecoder as [ld| | |]; cbn [bind]; try discriminate. destruct kFixedDistanceDecoder as [dd| | |]; cbn [bind]; try discriminate.
    intros H. apply dcb_available in H. lia.
  - destruct (kind =? 2); [apply dyn_available|discriminate].
Qed.
Lemma blocks_fuel : forall k1 k2 r o, (available r < k1)%nat -> (available r < k2)%nat -> decodeBlocks k1 r o = decodeBlocks k2 r o.
Proof.
  induction k1 as [|k1 IH]; intros k2 r o H1 H2; [lia|]. destruct k2 as [|k2]; [lia|]. cbn [decodeBlocks].
  destruct (readBits 1 r) as [[f r1]| | |] eqn:E1; cbn [bind]; try reflexivity. apply read_available in E1.
  destruct (readBits 2 r1) as [[kind r2]| | |] eqn:E2; cbn [bind]; try reflexivity. apply read_available in E2.
  match goal with |- bind ?x _ = _ => change x with (oneBlock kind r2 o) end.
  match goal with |- _ = bind ?x _ => change x with (oneBlock kind r2 o) end.
  destruct (oneBlock kind r2 o) as [[r3 o']| | |] eqn:E3; cbn [bind]; try reflexivity. apply oneBlock_available in E3.
  destruct (f =? 0); [apply IH; lia|reflexivity].
Qed.
Definition DB (r : BitReader) (o : Output) := decodeBlocks (S (available r)) r o.
Lemma DB_unfold r o : DB r o =
  (let* (f, r1) := readBits 1 r in let* (kind, r2) := readBits 2 r1 in
   let* (r3, o') := oneBlock kind r2 o in if f =? 0 then DB r3 o' else Ok (r3, o')).
Proof.
  unfold DB at 1. cbn [decodeBlocks].
  destruct (readBits 1 r) as [[f r1]| | |] eqn:E1; cbn [bind]; try reflexivity. apply read_available in E1.
  destruct (readBits 2 r1) as [[kind r2]| | |] eqn:E2; cbn [bind]; try reflexivity. apply read_available in E2.
  match goal with |- bind ?x _ = _ => change x with (oneBlock kind r2 o) end.
  destruct (oneBlock kind r2 o) as [[r3 o']| | |] eqn:E3; cbn [bind]; try reflexivity. apply oneBlock_available in E3.
  destruct (f =? 0); [apply blocks_fuel; lia|reflexivity].
Qed.
Lemma DCB_unfold ld dd r o : DCB ld dd r o =
  (let* (s, r1) := decodeSymbol ld r in
   if (s <? 256)%nat then let* o' := append o (N.of_nat s) in DCB ld dd r1 o'
   else if (s =? 256)%nat then Ok (r1, o)
   else if (285 <? s)%nat then Err invalidLength
   else
     let* lb := aget kLengthBase (s - 257) in let* le := aget kLengthExtra (s - 257) in
     let* (len, r2) := readExtra lb le r1 in let* (ds, r3) := decodeSymbol dd r2 in
     if (length kDistanceBase <=? ds)%nat then Err invalidDistance
     else
       let* db := aget kDistanceBase ds in let* de := aget kDistanceExtra ds in
       let* (d, r4) := readExtra db de r3 in let* o' := ocopy o d len in DCB ld dd r4 o').
Proof.
  unfold DCB at 1. cbn [decodeCompressedBlock].
  destruct (decodeSymbol ld r) as [[s r1]| | |] eqn:E; cbn [bind]; try reflexivity. apply sym_available in E. destruct E as [E _].
  destruct (s <? 256)%nat; [destruct (append o (N.of_nat s)); cbn [bind]; try reflexivity; apply dcb_fuel; lia|].
  destruct (s =? 256)%nat; [reflexivity|]. destruct (285 <? s)%nat; [reflexivity|].
  destruct (aget kLengthBase (s - 257)) as [lb| | |]; cbn [bind]; try reflexivity.
  destruct (aget kLengthExtra (s - 257)) as [le| | |]; cbn [bind]; try reflexivity.
  destruct (readExtra lb le r1) as [[len r2]| | |] eqn:E2; cbn [bind]; try reflexivity. apply extra_available in E2.
  destruct (decodeSymbol dd r2) as [[ds r3]| | |] eqn:E3; cbn [bind]; try reflexivity. apply sym_available in E3. destruct E3 as [E3 _].
  destruct (length kDistanceBase <=? ds)%nat; [reflexivity|].
  destruct (aget kDistanceBase ds) as [db| | |]; cbn [bind]; try reflexivity.
  destruct (aget kDistanceExtra ds) as [de| | |]; cbn [bind]; try reflexivity.
  destruct (readExtra db de r3) as [[x r4]| | |] eqn:E4; cbn [bind]; try reflexivity. apply extra_available in E4.
  destruct (ocopy o x len); cbn [bind]; try reflexivity. apply dcb_fuel; lia.
Qed.
Lemma RL_unfold d total lengths index r : RL d total lengths index r =
  (if (total <=? index)%nat then Ok (lengths, r)
   else
     let* (s, r1) := decodeSymbol d r in
     if (s <=? 15)%nat then let* l' := aset lengths index s in RL d total l' (S index) r1
     else
       let* (value, base, bits) :=
         (if (s =? 16)%nat then
            (if (index =? 0)%nat then Err invalidHuffmanTree else let* v := aget lengths (index - 1) in Ok (v, 3%nat, 2%nat))
          else if (s =? 17)%nat then Ok (0%nat, 3%nat, 3%nat)
          else if (s =? 18)%nat then Ok (0%nat, 11%nat, 7%nat)
          else Err invalidCode) in
       let* (extra, r2) := readBits bits r1 in
       let repeat := (base + N.to_nat extra)%nat in
       if (total - index <? repeat)%nat then Err invalidHuffmanTree
       else let* l' := fillLengths repeat lengths index value in RL d total l' (index + repeat) r2).
Proof.
  unfold RL at 1. cbn [readLengths]. destruct (total <=? index)%nat; [reflexivity|].
  destruct (decodeSymbol d r) as [[s r1]| | |] eqn:E; cbn [bind]; try reflexivity. apply sym_available in E. destruct E as [E _].
  destruct (s <=? 15)%nat; [destruct (aset lengths index s); cbn [bind]; try reflexivity; apply rl_fuel; lia|].
  match goal with |- bind ?x _ = _ => destruct x as [[[value base] bits]| | |] end; cbn [bind]; try reflexivity.
  destruct (readBits bits r1) as [[extra r2]| | |] eqn:E2; cbn [bind]; try reflexivity. apply read_available in E2. destruct E2 as [E2 _].
  cbn zeta. destruct (_ <? _)%nat; [reflexivity|]. destruct (fillLengths _ lengths index value); cbn [bind]; try reflexivity. apply rl_fuel; lia.
Qed.

(** * Reads of several fields at once *)
Lemma reader_unique r1 r2 : rok r1 -> rok r2 -> rinput r1 = rinput r2 -> offset r1 = offset r2 -> rbitsOf r1 = rbitsOf r2 -> r1 = r2.
Proof.
  intros (_ & Hp1 & Hc1 & Hb1 & Hq1) (_ & Hp2 & Hc2 & Hb2 & Hq2) Hi Ho Hb. unfold offset in Ho.
  assert (rpos r1 = rpos r2) by lia. assert (Hc : rcount r1 = rcount r2) by lia.
  unfold rbitsOf in Hb. apply app_eq_len in Hb; [|rewrite !length_lsb; exact Hc]. destruct Hb as [Hb _]. rewrite <- Hc in Hb.
  apply lsb_inj in Hb; [|exact Hb1|rewrite Hc; exact Hb2]. destruct r1, r2; cbn in *; subst; reflexivity.
Qed.
Lemma read_split a b r : rok r -> (a + b <= 32)%nat ->
  readBits (a + b) r = (let* (x, r1) := readBits a r in let* (y, r2) := readBits b r1 in Ok (x + 2 ^ N.of_nat a * y, r2)).
Proof.
  intros Hr Hn. destruct (le_lt_dec (a + b) (length (rbitsOf r))) as [Hl|Hl].
  - destruct (readBits_ok a r Hr ltac:(lia) ltac:(lia)) as (x & r1 & E1 & R1 & B1 & Bits1 & I1 & O1).
    assert (L1 : (b <= length (rbitsOf r1))%nat) by (rewrite Bits1, app_length, length_lsb in Hl; lia).
    destruct (readBits_ok b r1 R1 ltac:(lia) L1) as (y & r2 & E2 & R2 & B2 & Bits2 & I2 & O2).
    rewrite E1. cbn [bind]. rewrite E2. cbn [bind].
    assert (Hv : x + 2 ^ N.of_nat a * y < 2 ^ N.of_nat (a + b)).
    { rewrite Nat2N.inj_add, N.pow_add_r. nia. }
    assert (Eb : rbitsOf r = lsb (a + b) (x + 2 ^ N.of_nat a * y) ++ rbitsOf r2).
    { rewrite Bits1, Bits2, app_assoc. f_equal. replace (x + 2 ^ N.of_nat a * y) with (N.lor x (N.shiftl y (N.of_nat a))).
      - symmetry. apply lsb_lor, B1.
      - rewrite lor_shiftl_add by exact B1. lia. }
    destruct (readBits_eq (a + b) r _ _ Hr Hn Hv Eb) as (r3 & E3 & R3 & Bits3 & I3 & O3). rewrite E3. do 2 f_equal.
    apply reader_unique; [exact R3|exact R2|congruence|lia|congruence].
  - rewrite readBits_short by assumption. destruct (le_lt_dec a (length (rbitsOf r))) as [Ha|Ha].
    + destruct (readBits_ok a r Hr ltac:(lia) Ha) as (x & r1 & E1 & R1 & B1 & Bits1 & I1 & O1). rewrite E1. cbn [bind].
      rewrite readBits_short; [reflexivity|exact R1|lia|rewrite Bits1, app_length, length_lsb in Hl; lia].
    + rewrite readBits_short by (assumption || lia). reflexivity.
Qed.

(** * Reading a piece of the input *)
(** [r] reads [n] bytes of [inp] from [cur] on, [g] reads [inp] from [org] on, and they are at the same place. *)
Definition rrel (inp : list N) (cur org n : nat) (r g : BitReader) : Prop :=
  (rinput g = skipn org inp /\ rinput r = firstn n (skipn cur inp)) /\ (cur + rpos r)%nat = (org + rpos g)%nat /\ rbits r = rbits g /\ rcount r = rcount g /\ (rpos r <= length (rinput r))%nat.
(** The piece reaches the end of the input. *)
Definition reaches (inp : list N) (cur n : nat) : Prop := (length inp <= cur + n)%nat.
Lemma nth_error_skipn {A} (l : list A) a i : nth_error (skipn a l) i = nth_error l (a + i).
Proof. revert l; induction a as [|a IH]; intros l; [reflexivity|]. destruct l; [rewrite skipn_nil; destruct i; reflexivity|]. apply IH. Qed.
Lemma nth_error_firstn {A} (l : list A) n i : (i < n)%nat -> nth_error (firstn n l) i = nth_error l i.
Proof. revert l i; induction n as [|n IH]; intros l i H; [lia|]. destruct l; [reflexivity|]. destruct i; [reflexivity|]. cbn. apply IH. lia. Qed.
Lemma fill_piece inp cur org n w : forall fuel r g, rrel inp cur org n r g ->
  match fill fuel w r with
  | Some r' => exists g', fill fuel w g = Some g' /\ rrel inp cur org n r' g'
  | None => reaches inp cur n -> fill fuel w g = None
  end.
Proof.
  induction fuel as [|k IH]; intros r g ((H0 & H1) & H2 & H3 & H4 & H5); cbn [fill]; rewrite <- H4.
  - destruct (Nat.leb_spec w (rcount r)); [|auto]. exists g. split; [reflexivity|]. repeat split; assumption.
  - destruct (Nat.leb_spec w (rcount r)); [exists g; split; [reflexivity|]; repeat split; assumption|].
    destruct (nth_error (rinput r) (rpos r)) as [b|] eqn:E.
    + assert (Hlt : (rpos r < length (rinput r))%nat) by (apply nth_error_Some; congruence).
      assert (Eg : nth_error (rinput g) (rpos g) = Some b).
      { rewrite H0, nth_error_skipn, <- H2, <- nth_error_skipn. rewrite H1 in E, Hlt. rewrite firstn_length in Hlt. rewrite nth_error_firstn in E by lia. exact E. }
      rewrite Eg. specialize (IH {| rinput := rinput r; rpos := S (rpos r); rbits := N.lor (rbits r) (N.shiftl b (N.of_nat (rcount r))); rcount := rcount r + 8 |}
        {| rinput := rinput g; rpos := S (rpos g); rbits := N.lor (rbits g) (N.shiftl b (N.of_nat (rcount r))); rcount := rcount r + 8 |}).
      apply IH. unfold rrel. cbn [rinput rpos rbits rcount]. rewrite H3. repeat split; [exact H0|exact H1|lia|lia].
    + intros Hr. apply nth_error_None in E. rewrite H1, firstn_length, skipn_length in E. unfold reaches in Hr.
      destruct (nth_error (rinput g) (rpos g)) eqn:Eg; [|reflexivity]. exfalso.
      assert (rpos g < length (rinput g))%nat by (apply nth_error_Some; congruence). rewrite H0, skipn_length in *. rewrite H1, firstn_length, skipn_length in H5. lia.
Qed.
Lemma read_piece inp cur org n w r g : rrel inp cur org n r g ->
  match readBits w r with
  | Ok (v, r') => exists g', readBits w g = Ok (v, g') /\ rrel inp cur org n r' g'
  | Err e => (32 < w)%nat \/ (e = truncatedInput /\ (reaches inp cur n -> readBits w g = Err truncatedInput))
  | _ => False
  end.
Proof.
  intros H. unfold readBits. destruct (Nat.ltb_spec 32 w) as [Hw|Hw]; [auto|]. pose proof (fill_piece inp cur org n w w r g H) as F.
  destruct (fill w w r) as [r'|].
  - destruct F as (g' & E & (H1 & H2 & H3 & H4 & H5)). rewrite E. eexists. split; [rewrite H3; reflexivity|]. unfold rrel. cbn [rinput rpos rbits rcount].
    rewrite H3, H4. auto.
  - right. split; [reflexivity|]. intros Hr. rewrite (F Hr). reflexivity.
Qed.
Lemma next_piece inp cur org n r g : rrel inp cur org n r g ->
  match nextBit r with
  | Some (b, r') => exists g', nextBit g = Some (b, g') /\ rrel inp cur org n r' g'
  | None => reaches inp cur n -> nextBit g = None
  end.
Proof.
  intros H. unfold nextBit. pose proof (fill_piece inp cur org n 1 1 r g H) as F. destruct (fill 1 1 r) as [r'|].
  - destruct F as (g' & E & (H1 & H2 & H3 & H4 & H5)). rewrite E. eexists. split; [rewrite H3; reflexivity|]. unfold rrel. cbn [rinput rpos rbits rcount].
    rewrite H3, H4. auto.
  - intros Hr. rewrite (F Hr). reflexivity.
Qed.
Definition symPiece (inp : list N) (cur org n : nat) (x y : res (nat * BitReader)) : Prop :=
  match x with
  | Ok (s, r') => exists g', y = Ok (s, g') /\ rrel inp cur org n r' g'
  | Err e => (e = truncatedInput /\ (reaches inp cur n -> y = Err truncatedInput)) \/ (e = invalidCode /\ y = Err invalidCode)
  | Fault => y = Fault
  | Hang => False
  end.
Lemma loop_piece inp cur org n d : forall k w code first index r g, rrel inp cur org n r g ->
  symPiece inp cur org n (decodeSymbolLoop k w code first index d r) (decodeSymbolLoop k w code first index d g).
Proof.
  induction k as [|k IH]; intros w code first index r g H; cbn [decodeSymbolLoop]; [right; split; reflexivity|].
  pose proof (next_piece inp cur org n r g H) as F. destruct (nextBit r) as [[b r']|].
  - destruct F as (g' & E & H'). rewrite E. destruct (aget (hcounts d) w) as [count| | |] eqn:Ec; cbn [bind]; try (unfold aget in Ec; destruct (nth_error _ _); discriminate); try reflexivity.
    destruct (_ && _).
    + destruct (aget (hsymbols d) _) as [x| | |] eqn:Es; cbn [bind]; try (unfold aget in Es; destruct (nth_error _ _); discriminate); try reflexivity.
      exists g'. auto.
    + specialize (IH (S w) (N.lor (N.shiftl code 1) b) (N.shiftl (first + N.of_nat count) 1) (index + count)%nat r' g' H').
      exact IH.
  - left. split; [reflexivity|]. intros Hr. rewrite (F Hr). reflexivity.
Qed.
Lemma sym_piece inp cur org n d r g : rrel inp cur org n r g -> symPiece inp cur org n (decodeSymbol d r) (decodeSymbol d g).
Proof. apply loop_piece. Qed.
Lemma align_piece inp cur org n r g : rrel inp cur org n r g -> rrel inp cur org n (alignReader r) (alignReader g).
Proof. intros (H1 & H2 & H3 & H4 & H5). unfold rrel, alignReader. cbn [rinput rpos rbits rcount]. rewrite H3, H4. auto. Qed.
