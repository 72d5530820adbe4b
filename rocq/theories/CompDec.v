(** The inflate functions against the DEFLATE format: what they accept is a DEFLATE stream for what they write, every
    DEFLATE stream is accepted if the output has room, and no input makes them read or write out of bounds. *)
From Coq Require Import List NArith ZArith Arith Bool Lia ZifyBool ZifyNat ZifyN.
From Verif Require Import Base CompModel CompSpec CompBits CompHuff.
Import ListNotations.
Local Open Scope N_scope.

(** * Moving a reader over some bits *)
Definition adv (r r' : BitReader) (bs : list bool) : Prop :=
  rok r' /\ rbitsOf r = bs ++ rbitsOf r' /\ rinput r' = rinput r /\ offset r' = (offset r + length bs)%nat.
Lemma adv_refl r : rok r -> adv r r [].
Proof. intros H. split; [exact H|]. split; [reflexivity|]. split; [reflexivity|cbn; lia]. Qed.
Lemma adv_trans r r1 r2 a b : adv r r1 a -> adv r1 r2 b -> adv r r2 (a ++ b).
Proof.
  intros (H1 & H2 & H3 & H4) (G1 & G2 & G3 & G4). split; [exact G1|]. split; [rewrite H2, G2, app_assoc; reflexivity|].
  split; [congruence|]. rewrite app_length. lia.
Qed.
Lemma adv_rest r r' bs rest : adv r r' bs -> rbitsOf r = bs ++ rest -> rbitsOf r' = rest.
Proof. intros (_ & H & _) E. rewrite H in E. apply app_inv_head in E. exact E. Qed.
Lemma adv_len r r' bs : adv r r' bs -> length (rbitsOf r) = (length bs + length (rbitsOf r'))%nat.
Proof. intros (_ & H & _). rewrite H, app_length. reflexivity. Qed.
Lemma adv_rok r r' bs : adv r r' bs -> rok r'.
Proof. intros H. apply H. Qed.

Definition totalRes {A} (x : res A) : Prop := match x with Ok _ | Err _ => True | _ => False end.

Lemma read_sound n r : rok r -> (n <= 32)%nat ->
  match readBits n r with Ok (v, r') => v < 2 ^ N.of_nat n /\ adv r r' (lsb n v) | Err e => e = truncatedInput | _ => False end.
Proof.
  intros Hr Hn. destruct (le_lt_dec n (length (rbitsOf r))) as [H|H].
  - destruct (readBits_ok n r Hr Hn H) as (v & r' & E & H1 & H2 & H3 & H4 & H5). rewrite E. split; [exact H2|].
    split; [exact H1|]. split; [exact H3|]. split; [exact H4|rewrite length_lsb; exact H5].
  - rewrite readBits_short by assumption. reflexivity.
Qed.
Lemma read_complete n r v rest : rok r -> (n <= 32)%nat -> v < 2 ^ N.of_nat n -> rbitsOf r = lsb n v ++ rest ->
  exists r', readBits n r = Ok (v, r') /\ adv r r' (lsb n v).
Proof.
  intros Hr Hn Hv E. destruct (readBits_eq n r v rest Hr Hn Hv E) as (r' & E' & H1 & H2 & H3 & H4). exists r'. split; [exact E'|].
  split; [exact H1|]. split; [congruence|]. split; [exact H3|rewrite length_lsb; exact H4].
Qed.
Lemma sym_sound lens d r : decOk lens d -> rok r ->
  match decodeSymbol d r with
  | Ok (s, r') => hasCode lens s /\ adv r r' (codeword lens s)
  | Err e => e = truncatedInput \/ e = invalidCode | _ => False end.
Proof.
  intros Hd Hr. pose proof (decodeSymbol_sound lens d r Hd Hr) as H. destruct (decodeSymbol d r) as [[s r']| | |]; cbn [decodeResult] in H; try exact H.
  destruct H as (H1 & H2 & H3 & H4 & H5). split; [exact H1|]. split; [exact H2|]. split; [exact H3|]. split; [exact H4|].
  unfold codeword. rewrite length_msb. exact H5.
Qed.
Lemma sym_complete lens d s r rest : decOk lens d -> hasCode lens s -> rok r -> rbitsOf r = codeword lens s ++ rest ->
  exists r', decodeSymbol d r = Ok (s, r') /\ adv r r' (codeword lens s).
Proof.
  intros Hd Hc Hr E. destruct (decodeSymbol_complete lens d s r rest Hd Hc Hr E) as (r' & E' & H1 & H2 & H3 & H4). exists r'. split; [exact E'|].
  split; [exact H1|]. split; [congruence|]. split; [exact H3|]. unfold codeword. rewrite length_msb. exact H4.
Qed.
Lemma codeword_nonempty lens s : hasCode lens s -> (1 <= length (codeword lens s))%nat.
Proof. unfold hasCode, codeword. rewrite length_msb. lia. Qed.

(** * Outputs *)
Definition cap (o : Output) : N := match o with Counting _ _ l => N.min l SIZE_MAX | Span b _ _ => N.of_nat (length b) end.
(** [o] holds [pre ++ out], of which back references reach [out]. *)
Definition rep (o : Output) (pre out : list N) : Prop :=
  match o with
  | Counting c hb l => hb = bytesN pre /\ c = bytesN (pre ++ out) /\ c <= cap o
  | Span b p hb => hb = length pre /\ (p <= length b)%nat /\ firstn p b = pre ++ out
  end.
Definition roomErr (o : Output) (e : Error) : Prop :=
  match o with Counting _ _ _ => e = integerOverflow \/ e = sizeLimitExceeded | Span _ _ _ => e = outputTooSmall end.
Definition sameKind (o o' : Output) : Prop :=
  cap o' = cap o /\ match o, o' with Counting _ _ l, Counting _ _ l' => l' = l | Span b _ _, Span b' _ _ => length b' = length b | _, _ => False end.
Lemma sameKind_refl o : sameKind o o.
Proof. destruct o; split; reflexivity. Qed.
Lemma sameKind_trans a b c : sameKind a b -> sameKind b c -> sameKind a c.
Proof. intros [H1 H2] [H3 H4]. split; [congruence|]. destruct a, b, c; try contradiction; congruence. Qed.
Lemma rep_size o pre out : rep o pre out -> osize o = bytesN (pre ++ out) /\ osize o <= cap o.
Proof.
  destruct o as [c hb l|b p hb]; cbn [rep osize]; intros H.
  - destruct H as (_ & H1 & H2). auto.
  - destruct H as (_ & H1 & H2). cbn [cap]. unfold bytesN. rewrite <- H2, firstn_length. lia.
Qed.
Lemma rep_reset o pre out : rep o pre out -> rep (resetHistory o) (pre ++ out) [] /\ sameKind o (resetHistory o).
Proof.
  destruct o as [c hb l|b p hb]; cbn [rep resetHistory]; intros H.
  - destruct H as (H0 & H1 & H2). split; [|split; reflexivity]. rewrite app_nil_r. auto.
  - destruct H as (H0 & H1 & H2). split; [|split; reflexivity]. rewrite app_nil_r. split; [|auto]. rewrite <- H2, firstn_length. lia.
Qed.
Lemma bytesN_app a b : bytesN (a ++ b) = bytesN a + bytesN b.
Proof. unfold bytesN. rewrite app_length. lia. Qed.
Lemma bytesN_one x : bytesN [x] = 1.
Proof. reflexivity. Qed.

Lemma grow_spec c hb l n : c <= N.min l SIZE_MAX ->
  (c + n <= N.min l SIZE_MAX /\ grow c hb l n = Ok (Counting (c + n) hb l)) \/
  (N.min l SIZE_MAX < c + n /\ exists e, grow c hb l n = Err e /\ (e = integerOverflow \/ e = sizeLimitExceeded)).
Proof.
  intros H. unfold grow. destruct (N.ltb_spec (SIZE_MAX - c) n) as [H1|H1].
  - right. split; [lia|]. eauto.
  - destruct (N.ltb_spec l (c + n)) as [H2|H2]; [right; split; [lia|eauto]|left; split; [lia|reflexivity]].
Qed.
Lemma firstn_upd_snoc {A} (b : list A) p v : (p < length b)%nat -> firstn (S p) (upd b p v) = firstn p b ++ [v].
Proof.
  revert p; induction b as [|x b IH]; intros [|p] H; cbn [length] in H; try lia; [reflexivity|].
  cbn [upd]. rewrite !firstn_cons, IH by lia. reflexivity.
Qed.
Lemma append_spec o pre out v : rep o pre out ->
  (bytesN (pre ++ out ++ [v]) <= cap o /\ exists o', append o v = Ok o' /\ rep o' pre (out ++ [v]) /\ sameKind o o') \/
  (cap o < bytesN (pre ++ out ++ [v]) /\ exists e, append o v = Err e /\ roomErr o e).
Proof.
  intros H. destruct o as [c hb l|b p hb]; cbn [rep append roomErr] in *.
  - destruct H as (H0 & H1 & H2). cbn [cap] in *.
    assert (E : bytesN (pre ++ out ++ [v]) = c + 1) by (rewrite app_assoc, bytesN_app, bytesN_one; lia).
    destruct (grow_spec c hb l 1 H2) as [(H3 & E3)|(H3 & e & E3 & H4)]; rewrite E3, E.
    + left. split; [exact H3|]. eexists. split; [reflexivity|]. split; [|split; reflexivity]. cbn [rep cap]. rewrite E. auto.
    + right. split; [exact H3|]. eauto.
  - destruct H as (H0 & H1 & H2). cbn [cap] in *.
    assert (El : length (pre ++ out) = p) by (rewrite <- H2, firstn_length; lia).
    assert (E : bytesN (pre ++ out ++ [v]) = N.of_nat p + 1) by (rewrite app_assoc, bytesN_app, bytesN_one; unfold bytesN; lia).
    destruct (Nat.eqb_spec p (length b)) as [Hp|Hp]; rewrite E.
    + right. split; [lia|]. eauto.
    + left. split; [lia|]. unfold aset. destruct (Nat.ltb_spec p (length b)) as [Hl|Hl]; [|lia]. cbn [bind]. eexists. split; [reflexivity|].
      split; [|split; cbn [cap]; rewrite length_upd; reflexivity]. cbn [rep]. rewrite length_upd. split; [exact H0|]. split; [lia|].
      rewrite firstn_upd_snoc, H2, app_assoc by exact Hl. reflexivity.
Qed.

Lemma length_lzCopy n d out : length (lzCopy n d out) = (length out + n)%nat.
Proof. revert out; induction n as [|n IH]; intros out; cbn [lzCopy]; [lia|]. rewrite IH, app_length. cbn [length]. lia. Qed.
Lemma copyBytes_spec n d pre : forall b out p, (1 <= d <= length out)%nat -> (p + n <= length b)%nat -> firstn p b = pre ++ out -> (p <= length b)%nat ->
  exists b', copyBytes n d b p = Ok b' /\ length b' = length b /\ firstn (p + n) b' = pre ++ lzCopy n d out.
Proof.
  induction n as [|n IH]; intros b out p Hd Hn Hf Hp; cbn [copyBytes lzCopy].
  - exists b. rewrite Nat.add_0_r. auto.
  - assert (El : p = (length pre + length out)%nat) by (rewrite <- app_length, <- Hf, firstn_length; lia).
    destruct (Nat.ltb_spec p d) as [H|_]; [lia|].
    assert (Eg : nth_error b (p - d) = Some (nth (length out - d) out 0)).
    { rewrite <- (firstn_skipn p b), nth_error_app1 by (rewrite firstn_length; lia). rewrite Hf.
      rewrite nth_error_app2 by lia. replace (p - d - length pre)%nat with (length out - d)%nat by lia.
      apply nth_error_nth'. lia. }
    unfold aget, aset. rewrite Eg. cbn [bind]. destruct (Nat.ltb_spec p (length b)) as [Hl|Hl]; [|lia]. cbn [bind].
    destruct (IH (upd b p (nth (length out - d) out 0)) (out ++ [nth (length out - d) out 0]) (S p)) as (b' & E' & H1 & H2).
    + rewrite app_length. cbn [length]. lia.
    + rewrite length_upd. lia.
    + rewrite firstn_upd_snoc, Hf, app_assoc by exact Hl. reflexivity.
    + rewrite length_upd. lia.
    + exists b'. rewrite length_upd in H1. replace (p + S n)%nat with (S p + n)%nat by lia. auto.
Qed.
Lemma ocopy_spec o pre out d n : rep o pre out ->
  (1 <= d <= bytesN out /\ bytesN (pre ++ out) + n <= cap o /\
   exists o', ocopy o d n = Ok o' /\ rep o' pre (lzCopy (N.to_nat n) (N.to_nat d) out) /\ sameKind o o') \/
  (1 <= d <= bytesN out /\ cap o < bytesN (pre ++ out) + n /\ exists e, ocopy o d n = Err e /\ roomErr o e) \/
  (~ 1 <= d <= bytesN out /\ ocopy o d n = Err invalidBackReference).
Proof.
  intros H. destruct o as [c hb l|b p hb]; cbn [rep ocopy roomErr] in *.
  - destruct H as (H0 & H1 & H2). rewrite bytesN_app in H1. cbn [cap] in *.
    destruct (N.eqb_spec d 0) as [Hd|Hd]; cbn [orb]; [right; right; split; [lia|reflexivity]|].
    destruct (N.ltb_spec (c - hb) d) as [Hd2|Hd2]; [right; right; split; [lia|reflexivity]|].
    destruct (grow_spec c hb l n H2) as [(H3 & E3)|(H3 & e & E3 & H4)]; rewrite E3, bytesN_app.
    + left. split; [lia|]. split; [lia|]. eexists. split; [reflexivity|]. split; [|split; reflexivity]. cbn [rep cap]. split; [exact H0|].
      rewrite bytesN_app. unfold bytesN at 2. rewrite length_lzCopy. unfold bytesN in *. split; lia.
    + right; left. split; [lia|]. split; [lia|]. eauto.
  - destruct H as (H0 & H1 & H2). cbn [cap] in *.
    assert (El : p = (length pre + length out)%nat) by (rewrite <- app_length, <- H2, firstn_length; lia). rewrite bytesN_app. unfold bytesN.
    destruct (N.eqb_spec d 0) as [Hd|Hd]; cbn [orb]; [right; right; split; [lia|reflexivity]|].
    destruct (N.ltb_spec (N.of_nat (p - hb)) d) as [Hd2|Hd2]; [right; right; split; [lia|reflexivity]|].
    destruct (N.ltb_spec (N.of_nat (length b - p)) n) as [Hn|Hn].
    + right; left. split; [lia|]. split; [lia|]. eauto.
    + left. split; [lia|]. split; [lia|].
      destruct (copyBytes_spec (N.to_nat n) (N.to_nat d) pre b out p ltac:(lia) ltac:(lia) H2 H1) as (b' & E & Hl & Hf).
      rewrite E. cbn [bind]. eexists. split; [reflexivity|]. split; [|split; cbn [cap]; rewrite Hl; reflexivity].
      cbn [rep]. split; [exact H0|]. split; [lia|exact Hf].
Qed.

(** * Tables *)
Lemma lengthTable i : (i < 29)%nat -> nth_error kLengthBase i = Some (lengthBase i) /\ nth_error kLengthExtra i = Some (lengthExtra i).
Proof.
  intros H. assert (E : forallb (fun i => match nth_error kLengthBase i, nth_error kLengthExtra i with
    | Some a, Some b => (a =? lengthBase i) && (b =? lengthExtra i)%nat | _, _ => false end) (seq 0 29) = true) by (vm_compute; reflexivity).
  rewrite forallb_forall in E. specialize (E i ltac:(apply in_seq; lia)).
  destruct (nth_error kLengthBase i), (nth_error kLengthExtra i); try discriminate.
  apply andb_true_iff in E. destruct E as [E1 E2]. apply N.eqb_eq in E1. apply Nat.eqb_eq in E2. subst. auto.
Qed.
Lemma distTable i : (i < 30)%nat -> nth_error kDistanceBase i = Some (distBase i) /\ nth_error kDistanceExtra i = Some (distExtra i).
Proof.
  intros H. assert (E : forallb (fun i => match nth_error kDistanceBase i, nth_error kDistanceExtra i with
    | Some a, Some b => (a =? distBase i) && (b =? distExtra i)%nat | _, _ => false end) (seq 0 30) = true) by (vm_compute; reflexivity).
  rewrite forallb_forall in E. specialize (E i ltac:(apply in_seq; lia)).
  destruct (nth_error kDistanceBase i), (nth_error kDistanceExtra i); try discriminate.
  apply andb_true_iff in E. destruct E as [E1 E2]. apply N.eqb_eq in E1. apply Nat.eqb_eq in E2. subst. auto.
Qed.
Lemma extra_le : (forall i, (i < 29)%nat -> (lengthExtra i <= 5)%nat) /\ (forall i, (i < 30)%nat -> (distExtra i <= 13)%nat).
Proof.
  split; intros i H.
  - assert (E : forallb (fun i => (lengthExtra i <=? 5)%nat) (seq 0 29) = true) by (vm_compute; reflexivity).
    rewrite forallb_forall in E. specialize (E i ltac:(apply in_seq; lia)). apply Nat.leb_le in E. exact E.
  - assert (E : forallb (fun i => (distExtra i <=? 13)%nat) (seq 0 30) = true) by (vm_compute; reflexivity).
    rewrite forallb_forall in E. specialize (E i ltac:(apply in_seq; lia)). apply Nat.leb_le in E. exact E.
Qed.

Lemma extra_sound base n r : rok r -> (n <= 32)%nat ->
  match readExtra base n r with Ok (v, r') => exists e, v = base + e /\ e < 2 ^ N.of_nat n /\ adv r r' (lsb n e) | Err e => e = truncatedInput | _ => False end.
Proof.
  intros Hr Hn. unfold readExtra. destruct (Nat.eqb_spec n 0) as [->|H].
  - exists 0. split; [lia|]. split; [reflexivity|]. apply adv_refl, Hr.
  - pose proof (read_sound n r Hr Hn) as Hs. destruct (readBits n r) as [[v r']| | |]; cbn [bind]; try exact Hs. exists v. split; [reflexivity|exact Hs].
Qed.
Lemma extra_complete base n e r rest : rok r -> (n <= 32)%nat -> e < 2 ^ N.of_nat n -> rbitsOf r = lsb n e ++ rest ->
  exists r', readExtra base n r = Ok (base + e, r') /\ adv r r' (lsb n e).
Proof.
  intros Hr Hn He E. unfold readExtra. destruct (Nat.eqb_spec n 0) as [->|H].
  - change (2 ^ N.of_nat 0) with 1 in He. replace e with 0 by lia. exists r. rewrite N.add_0_r. split; [reflexivity|]. apply adv_refl, Hr.
  - destruct (read_complete n r e rest Hr Hn He E) as (r' & E' & Ha). rewrite E'. cbn [bind]. eauto.
Qed.

(** * Blocks of codes *)
Lemma dcb_sound lit dist ld dd : decOk lit ld -> decOk dist dd -> forall fuel r o pre out, rok r -> rep o pre out -> (length (rbitsOf r) < fuel)%nat ->
  match decodeCompressedBlock fuel ld dd r o with
  | Ok (r', o') => exists ts bs out', bodyBits lit dist ts bs /\ expand out ts out' /\ adv r r' bs /\ rep o' pre out' /\ sameKind o o'
  | Err _ => True | _ => False end.
Proof.
  intros Hl Hd fuel. induction fuel as [|fuel IH]; intros r o pre out Hr Ho Hf; [lia|]. cbn [decodeCompressedBlock].
  pose proof (sym_sound lit ld r Hl Hr) as H1. destruct (decodeSymbol ld r) as [[s r1]|e| |]; cbn [bind]; try contradiction; [|exact I].
  destruct H1 as [Hc Ha]. pose proof (adv_len _ _ _ Ha) as Hlen. pose proof (codeword_nonempty _ _ Hc) as Hne.
  destruct (Nat.ltb_spec s 256) as [Hs|Hs].
  - destruct (append_spec o pre out (N.of_nat s) Ho) as [(_ & o' & E & Ho' & Hk)|(_ & e & E & _)]; rewrite E; cbn [bind]; [|exact I].
    specialize (IH r1 o' pre _ (adv_rok _ _ _ Ha) Ho' ltac:(lia)).
    destruct (decodeCompressedBlock fuel ld dd r1 o') as [[r' o'']|e| |]; try exact IH.
    destruct IH as (ts & bs & out' & Hb & He & Ha' & Hp & Hk'). exists (Lit (N.of_nat s) :: ts), (codeword lit s ++ bs), out'.
    split; [|split; [constructor; exact He|split; [eapply adv_trans; eassumption|split; [exact Hp|eapply sameKind_trans; eassumption]]]].
    constructor; [|exact Hb]. replace (codeword lit s) with (codeword lit (N.to_nat (N.of_nat s))) by (rewrite Nat2N.id; reflexivity).
    constructor; [lia|rewrite Nat2N.id; exact Hc].
  - destruct (Nat.eqb_spec s 256) as [->|Hs2].
    + exists [], (codeword lit 256), out. split; [constructor; exact Hc|]. split; [constructor|]. split; [exact Ha|]. split; [exact Ho|apply sameKind_refl].
    + destruct (Nat.ltb_spec 285 s) as [Hs3|Hs3]; [exact I|].
      destruct (lengthTable (s - 257) ltac:(lia)) as [E1 E2]. unfold aget. rewrite E1, E2. cbn [bind].
      pose proof (proj1 extra_le (s - 257)%nat ltac:(lia)) as Hle.
      pose proof (extra_sound (lengthBase (s - 257)) (lengthExtra (s - 257)) r1 (adv_rok _ _ _ Ha) ltac:(lia)) as H2.
      destruct (readExtra (lengthBase (s - 257)) (lengthExtra (s - 257)) r1) as [[len r2]|e| |]; cbn [bind]; try contradiction; [|exact I].
      destruct H2 as (e & El & He & Ha2).
      pose proof (sym_sound dist dd r2 Hd (adv_rok _ _ _ Ha2)) as H3. destruct (decodeSymbol dd r2) as [[ds r3]|e'| |]; cbn [bind]; try contradiction; [|exact I].
      destruct H3 as [Hc3 Ha3]. change (length kDistanceBase) with 30%nat. destruct (Nat.leb_spec 30 ds) as [Hds|Hds]; [exact I|].
      destruct (distTable ds Hds) as [E3 E4]. rewrite E3, E4. cbn [bind].
      pose proof (proj2 extra_le ds Hds) as Hde.
      pose proof (extra_sound (distBase ds) (distExtra ds) r3 (adv_rok _ _ _ Ha3) ltac:(lia)) as H4.
      destruct (readExtra (distBase ds) (distExtra ds) r3) as [[dval r4]|e'| |]; cbn [bind]; try contradiction; [|exact I].
      destruct H4 as (f & Ed & Hfb & Ha4).
      pose proof (adv_len _ _ _ Ha2). pose proof (adv_len _ _ _ Ha3). pose proof (adv_len _ _ _ Ha4).
      destruct (ocopy_spec o pre out dval len Ho) as [(Hd1 & _ & o' & E & Ho' & Hk)|[(_ & _ & e' & E & _)|(_ & E)]]; rewrite E; cbn [bind]; try exact I.
      specialize (IH r4 o' pre _ (adv_rok _ _ _ Ha4) Ho' ltac:(lia)).
      destruct (decodeCompressedBlock fuel ld dd r4 o') as [[r' o'']|e'| |]; try exact IH.
      destruct IH as (ts & bs & out' & Hb & Hx & Ha' & Hp & Hk').
      exists (Ref len dval :: ts), ((codeword lit s ++ lsb (lengthExtra (s - 257)) e ++ codeword dist ds ++ lsb (distExtra ds) f) ++ bs), out'.
      split; [|split; [constructor; [lia|unfold bytesN in Hd1; lia|exact Hx]|split; [|split; [exact Hp|eapply sameKind_trans; eassumption]]]].
      * constructor; [|exact Hb]. rewrite El, Ed. replace s with (257 + (s - 257))%nat at 2 by lia. constructor; try assumption; try lia.
        replace (257 + (s - 257))%nat with s by lia. exact Hc.
      * eapply adv_trans; [|exact Ha']. repeat (eapply adv_trans; [eassumption|]). exact Ha4.
Qed.

Lemma expand_len ts : forall out out', expand out ts out' -> (length out <= length out')%nat.
Proof.
  induction ts as [|t ts IH]; intros out out' H; inversion H as [|? ? ? ? Hx|? ? ? ? ? ? ? Hx]; subst; [lia| |]; apply IH in Hx.
  - rewrite app_length in Hx. cbn [length] in Hx. lia.
  - rewrite length_lzCopy in Hx. lia.
Qed.

Lemma dcb_complete lit dist ld dd : decOk lit ld -> decOk dist dd -> forall ts bs, bodyBits lit dist ts bs ->
  forall fuel r o pre out out' rest, expand out ts out' -> rok r -> rep o pre out -> bytesN (pre ++ out') <= cap o -> rbitsOf r = bs ++ rest ->
  (length (rbitsOf r) < fuel)%nat ->
  exists r' o', decodeCompressedBlock fuel ld dd r o = Ok (r', o') /\ adv r r' bs /\ rep o' pre out' /\ sameKind o o'.
Proof.
  intros Hl Hd ts bs Hb. induction Hb as [Hc|t ts b bs Ht Hb IH]; intros fuel r o pre out out' rest Hx Hr Ho Hroom E Hf;
    (destruct fuel as [|fuel]; [lia|]); cbn [decodeCompressedBlock].
  - inversion Hx; subst. destruct (sym_complete lit ld 256 r rest Hl Hc Hr E) as (r1 & E1 & Ha). rewrite E1. cbn [bind].
    change (256 <? 256)%nat with false. change (256 =? 256)%nat with true. cbn iota. exists r1, o.
    split; [reflexivity|]. split; [exact Ha|]. split; [exact Ho|apply sameKind_refl].
  - destruct Ht as [v Hv Hc|i e j f Hi Hc He Hj Hcj Hfj].
    + rewrite <- app_assoc in E. destruct (sym_complete lit ld (N.to_nat v) r _ Hl Hc Hr E) as (r1 & E1 & Ha). rewrite E1. cbn [bind].
      destruct (Nat.ltb_spec (N.to_nat v) 256) as [_|]; [|lia]. rewrite N2Nat.id.
      inversion Hx as [|? ? ? ? Hx'|]; subst. pose proof (expand_len _ _ _ Hx') as Hlen.
      destruct (append_spec o pre out v Ho) as [(_ & o' & Eo & Ho' & Hk)|(Hbad & _)].
      2:{ unfold bytesN in *. rewrite !app_length in *. cbn [length] in *. lia. }
      rewrite Eo. cbn [bind]. pose proof (adv_len _ _ _ Ha). pose proof (codeword_nonempty _ _ Hc).
      destruct (IH fuel r1 o' pre _ out' rest Hx' (adv_rok _ _ _ Ha) Ho') as (r' & o'' & E' & Ha' & Hp & Hk').
      * rewrite (proj1 Hk). exact Hroom.
      * eapply adv_rest; eassumption.
      * lia.
      * exists r', o''. split; [exact E'|]. split; [eapply adv_trans; eassumption|]. split; [exact Hp|eapply sameKind_trans; eassumption].
    + rewrite <- !app_assoc in E. destruct (sym_complete lit ld _ r _ Hl Hc Hr E) as (r1 & E1 & Ha). rewrite E1. cbn [bind].
      pose proof (adv_rest _ _ _ _ Ha E) as F1. pose proof (adv_len _ _ _ Ha). pose proof (codeword_nonempty _ _ Hc).
      destruct (Nat.ltb_spec (257 + i) 256) as [|_]; [lia|]. destruct (Nat.eqb_spec (257 + i) 256) as [|_]; [lia|].
      destruct (Nat.ltb_spec 285 (257 + i)) as [|_]; [lia|]. replace (257 + i - 257)%nat with i by lia.
      destruct (lengthTable i Hi) as [T1 T2]. unfold aget. rewrite T1, T2. cbn [bind].
      pose proof (proj1 extra_le i Hi) as Hle. pose proof (proj2 extra_le j Hj) as Hde.
      destruct (extra_complete (lengthBase i) (lengthExtra i) e r1 _ (adv_rok _ _ _ Ha) ltac:(lia) He F1) as (r2 & E2 & Ha2). rewrite E2. cbn [bind].
      pose proof (adv_rest _ _ _ _ Ha2 F1) as F2.
      destruct (sym_complete dist dd j r2 _ Hd Hcj (adv_rok _ _ _ Ha2) F2) as (r3 & E3 & Ha3). rewrite E3. cbn [bind].
      pose proof (adv_rest _ _ _ _ Ha3 F2) as F3. change (length kDistanceBase) with 30%nat. destruct (Nat.leb_spec 30 j) as [|_]; [lia|].
      destruct (distTable j Hj) as [T3 T4]. rewrite T3, T4. cbn [bind].
      destruct (extra_complete (distBase j) (distExtra j) f r3 _ (adv_rok _ _ _ Ha3) ltac:(lia) Hfj F3) as (r4 & E4 & Ha4). rewrite E4. cbn [bind].
      pose proof (adv_rest _ _ _ _ Ha4 F3) as F4. pose proof (adv_len _ _ _ Ha2). pose proof (adv_len _ _ _ Ha3). pose proof (adv_len _ _ _ Ha4).
      inversion Hx as [| |? ? ? ? ? Hd1 Hd2 Hx']; subst. pose proof (expand_len _ _ _ Hx') as Hlen. rewrite length_lzCopy in Hlen.
      destruct (ocopy_spec o pre out (distBase j + f) (lengthBase i + e) Ho) as [(_ & _ & o' & Eo & Ho' & Hk)|[(_ & Hbad & _)|(Hbad & _)]].
      2:{ unfold bytesN in *. rewrite !app_length in *. lia. }
      2:{ exfalso. apply Hbad. unfold bytesN. lia. }
      rewrite Eo. cbn [bind].
      destruct (IH fuel r4 o' pre _ out' rest Hx' (adv_rok _ _ _ Ha4) Ho') as (r' & o'' & E' & Ha' & Hp & Hk').
      * rewrite (proj1 Hk). exact Hroom.
      * exact F4.
      * lia.
      * exists r', o''. split; [exact E'|]. split; [|split; [exact Hp|eapply sameKind_trans; eassumption]].
        eapply adv_trans; [|exact Ha']. repeat (eapply adv_trans; [eassumption|]). exact Ha4.
Qed.
