(** The streaming decompressor against the whole-buffer one: containers, one pass of the loop, one call. *)
From Coq Require Import List NArith ZArith Arith Bool Lia ZifyBool ZifyNat ZifyN.
From Verif Require Import Base CompModel CompSpec CompBits CompHuff CompDec CompBlk CompWrap StreamModel StreamRd StreamOut StreamInf.
Import ListNotations.
Local Open Scope N_scope.

Definition aligned (r : BitReader) : Prop := rcount r = 0%nat /\ rbits r = 0.
Lemma fill_S k w r : fill (S k) w r =
  if (w <=? rcount r)%nat then Some r
  else match nth_error (rinput r) (rpos r) with
       | None => None
       | Some b => fill k w {| rinput := rinput r; rpos := S (rpos r); rbits := N.lor (rbits r) (N.shiftl b (N.of_nat (rcount r))); rcount := rcount r + 8 |} end.
Proof. reflexivity. Qed.
Lemma fill_done k w r : (w <= rcount r)%nat -> fill k w r = Some r.
Proof. intros H. apply Nat.leb_le in H. destruct k; cbn [fill]; rewrite H; reflexivity. Qed.
Lemma read_byte r : aligned r -> octets (rinput r) ->
  readBits 8 r = match nth_error (rinput r) (rpos r) with
                 | None => Err truncatedInput
                 | Some b => Ok (b, {| rinput := rinput r; rpos := S (rpos r); rbits := 0; rcount := 0 |}) end.
Proof.
  intros [Hc Hb] Ho. unfold readBits. change (32 <? 8)%nat with false. cbn iota.
  assert (E1 : forall k, fill (S k) 8 r = match nth_error (rinput r) (rpos r) with None => None
    | Some b => Some {| rinput := rinput r; rpos := S (rpos r); rbits := b; rcount := 8 |} end).
  { intros k. rewrite fill_S. rewrite Hc, Hb. change (8 <=? 0)%nat with false. cbn iota. destruct (nth_error (rinput r) (rpos r)) as [b|]; [|reflexivity].
    rewrite N.lor_0_l, N.shiftl_0_r. apply fill_done. cbn [rcount]. lia. }
  rewrite E1. destruct (nth_error (rinput r) (rpos r)) as [b|] eqn:E; [|reflexivity].
  assert (Hlt : b < 256) by (apply (proj1 (Forall_forall _ _) Ho), (nth_error_In _ _ E)).
  cbn [rcount rinput rpos rbits]. change (N.of_nat 8) with 8. change (8 - 8)%nat with 0%nat.
  rewrite N.land_ones, N.shiftr_div_pow2. change (2 ^ 8) with 256. rewrite N.mod_small, N.div_small by exact Hlt. reflexivity.
Qed.
Lemma seg_snoc l s a b : (s <= a)%nat -> nth_error l a = Some b -> seg l s (S a) = seg l s a ++ [b].
Proof.
  intros Hs E. assert (Hl : (a < length l)%nat) by (apply nth_error_Some; congruence). rewrite (seg_app l s a (S a)) by lia. f_equal.
  unfold seg. replace (S a - a)%nat with 1%nat by lia. rewrite (skipn_nth _ _ _ E). reflexivity.
Qed.
Lemma nth_seg l s a i : (s + i < a)%nat -> (a <= length l)%nat -> nth_error (seg l s a) i = nth_error l (s + i).
Proof. intros H1 H2. unfold seg. rewrite nth_error_firstn by lia. apply nth_error_skipn. Qed.
Lemma aget_seg l s a i : (s + i < a)%nat -> (a <= length l)%nat -> aget (seg l s a) i = aget l (s + i).
Proof. intros H1 H2. unfold aget. rewrite nth_seg by assumption. reflexivity. Qed.
Lemma aget_nth (l : list N) i : (i < length l)%nat -> aget l i = Ok (nth i l 0).
Proof. intros H. unfold aget. rewrite (nth_error_nth' l 0 H). reflexivity. Qed.
Lemma nth_seg' l s a i : (s + i < a)%nat -> (a <= length l)%nat -> nth i (seg l s a) 0 = nth (s + i) l 0.
Proof.
  intros H1 H2. pose proof (nth_seg l s a i H1 H2) as H. rewrite (nth_error_nth' l 0) in H by lia. apply nth_error_nth with (d := 0) in H. exact H.
Qed.

Section Dec.
Variables (inp : list N) (W : nat) (f : Format) (limit : N).
Hypothesis Hinp : octets inp.
Let size := length inp.
Definition oneShot : res (N * Output) := decompressInto W inp (Span (repeat 0 (N.to_nat limit)) 0 0) f.
Definition Kraw (q : nat) (o : Output) : res (N * Output) := if negb (q =? size)%nat then Err trailingData else Ok (osize o, o).
Definition Kz (q : nat) (o : Output) : res (N * Output) :=
  if (size <? q + 4)%nat then Err truncatedInput
  else if negb (size =? q + 4)%nat then Err trailingData
  else match orange o 0 with
       | None => Ok (osize o, o)
       | Some bytes => let* sum := readBig32 inp q in if negb (adler32 bytes =? sum) then Err checksumMismatch else Ok (osize o, o)
       end.
Definition gz (s : nat) (o : Output) : res (N * Output) := gzipMembers (S (size - s)) W inp s o.
Definition Kg (begin : N) (q : nat) (o : Output) : res (N * Output) :=
  if (size - q <? 8)%nat then Err truncatedInput
  else
    let* _u := match orange o begin with
               | None => Ok tt
               | Some bytes => let* sum := readLittle32 inp q in if negb (computeCrc32 W bytes =? sum) then Err checksumMismatch else Ok tt
               end in
    let* isize := readLittle32 inp (q + 4) in
    if negb (tr 32 (osize o - begin) =? isize) then Err sizeMismatch else gz (q + 8) o.
Definition gzBody (p : nat) (o : Output) : res (N * Output) :=
  let* (consumed, o') := decodeDeflate (skipn p inp) o in Kg (osize o) (p + consumed) o'.
Lemma gm_fuel : forall k1 k2 s o, (size - s < k1)%nat -> (size - s < k2)%nat -> gzipMembers k1 W inp s o = gzipMembers k2 W inp s o.
Proof.
  induction k1 as [|k1 IH]; intros k2 s o H1 H2; [lia|]. destruct k2 as [|k2]; [lia|]. cbn [gzipMembers]. fold size.
  destruct (Nat.leb_spec size s) as [|Hs]; [reflexivity|].
  pose proof (gzipHeader_sound W inp s Hinp Hs) as Hh. destruct (gzipMemberHeader W inp s) as [p| | |]; cbn [bind]; try reflexivity. destruct Hh as [Hp _].
  destruct (decodeDeflate (skipn p inp) o) as [[cs o']| | |]; cbn [bind]; try reflexivity. cbn zeta.
  destruct (Nat.ltb_spec (size - (p + cs)) 8) as [|H8]; [reflexivity|].
  match goal with |- bind ?x _ = _ => destruct x end; cbn [bind]; try reflexivity.
  destruct (readLittle32 inp (p + cs + 4)); cbn [bind]; try reflexivity. destruct (negb _); [reflexivity|]. apply IH; lia.
Qed.
Lemma gz_unfold s o : gz s o = if (size <=? s)%nat then Ok (osize o, o) else let* p := gzipMemberHeader W inp s in gzBody p o.
Proof.
  unfold gz. cbn [gzipMembers]. fold size. destruct (Nat.leb_spec size s) as [|Hs]; [reflexivity|].
  pose proof (gzipHeader_sound W inp s Hinp Hs) as Hh. destruct (gzipMemberHeader W inp s) as [p| | |]; cbn [bind]; try reflexivity. destruct Hh as [Hp _].
  unfold gzBody, Kg. destruct (decodeDeflate (skipn p inp) o) as [[cs o']| | |]; cbn [bind]; try reflexivity. cbn zeta.
  destruct (Nat.ltb_spec (size - (p + cs)) 8) as [|H8]; [reflexivity|].
  match goal with |- bind ?x _ = _ => destruct x end; cbn [bind]; try reflexivity.
  destruct (readLittle32 inp (p + cs + 4)); cbn [bind]; try reflexivity. destruct (negb _); [reflexivity|]. unfold gz. apply gm_fuel; lia.
Qed.
(** The optional parts of a gzip header. *)
Definition hC (s : nat) (fl : N) (q : nat) : res nat := gzipHcrc W inp (N.testbit fl 1) s q.
Definition hB (s : nat) (fl : N) (q : nat) : res nat := let* p := skipString inp (N.testbit fl 4) q in hC s fl p.
Definition hA (s : nat) (fl : N) (q : nat) : res nat := let* p := skipString inp (N.testbit fl 3) q in hB s fl p.
Definition hX (s : nat) (fl : N) (q : nat) : res nat := let* p := gzipExtra inp (N.testbit fl 2) q in hA s fl p.
Definition gzRest (x : res nat) (o : Output) : res (N * Output) := let* p := x in gzBody p o.
Lemma gzRest_err x o : isErr x -> isErr (gzRest x o).
Proof. apply err_bind. Qed.

(** * The invariant *)
Definition bodyInv (cur n : nat) (d : Dec) (o : Output) (K : nat -> Output -> res (N * Output)) : Prop :=
  exists org g, rrel inp cur org n (drd d) g /\ rok g /\ iwf (dinf d) g /\
    eqv oneShot (let* (r', o') := irest (dinf d) g o in K (org + rpos (alignReader r'))%nat o').
Definition magic (h : list N) : Prop := ((1 <= length h)%nat -> nth 0 h 0 = 0x1f) /\ ((2 <= length h)%nat -> nth 1 h 0 = 0x8b).
Definition stInv (cur n : nat) (d : Dec) (pre m : list N) (o : Output) : Prop :=
  let a := (cur + rpos (drd d))%nat in
  let hdr s := (s <= a)%nat /\ dhcrc d = crcOf (seg inp s a) in
  match dst d with
  | SRaw => pre = [] /\ bodyInv cur n d o Kraw
  | SZlibHeader h => aligned (drd d) /\ pre = [] /\ m = [] /\ a = length h /\ h = seg inp 0 a /\ (length h <= 2)%nat /\ eqv oneShot (decodeZlib inp o)
  | SZlibDictionary t => aligned (drd d) /\ isErr oneShot
  | SZlibDeflate => pre = [] /\ bodyInv cur n d o Kz
  | SZlibTrailer t => aligned (drd d) /\ pre = [] /\ exists q, a = (q + length t)%nat /\ t = seg inp q a /\ (length t <= 4)%nat /\ eqv oneShot (Kz q o)
  | SGzipHeader h => aligned (drd d) /\ exists s, a = (s + length h)%nat /\ h = seg inp s a /\ (length h <= 10)%nat /\ magic h /\ hdr s /\
      ((s < size)%nat -> eqv oneShot (gz s o)) /\ ((size <= s)%nat -> isErr oneShot)
  | SGzipExtraLength t => aligned (drd d) /\ exists s q, a = (q + length t)%nat /\ t = seg inp q a /\ (length t <= 2)%nat /\ hdr s /\
      N.testbit (dflags d) 2 = true /\ eqv oneShot (gzRest (hX s (dflags d) q) o)
  | SGzipExtra k => aligned (drd d) /\ exists s, hdr s /\
      eqv oneShot (gzRest (if (size - a <? N.to_nat k)%nat then Err truncatedInput else hA s (dflags d) (a + N.to_nat k)) o)
  | SGzipName => aligned (drd d) /\ exists s, hdr s /\ N.testbit (dflags d) 3 = true /\ eqv oneShot (gzRest (hA s (dflags d) a) o)
  | SGzipComment => aligned (drd d) /\ exists s, hdr s /\ N.testbit (dflags d) 4 = true /\ eqv oneShot (gzRest (hB s (dflags d) a) o)
  | SGzipHeaderCrc t => aligned (drd d) /\ exists s q, a = (q + length t)%nat /\ t = seg inp q a /\ (length t <= 2)%nat /\
      (s <= q)%nat /\ dhcrc d = crcOf (seg inp s q) /\ N.testbit (dflags d) 1 = true /\ eqv oneShot (gzRest (hC s (dflags d) q) o)
  | SGzipDeflate => bodyInv cur n d o (Kg (bytesN pre))
  | SGzipTrailer t => aligned (drd d) /\ exists q, a = (q + length t)%nat /\ t = seg inp q a /\ (length t <= 8)%nat /\ eqv oneShot (Kg (bytesN pre) q o)
  | SGzipBetween => aligned (drd d) /\ eqv oneShot (gz a o)
  | SDone => eqv oneShot (if (a =? size)%nat then Ok (osize o, o) else Err trailingData)
  end.
Definition inv (cur n : nat) (p0 : list N) (d : Dec) : Prop :=
  exists pre m o, sok p0 (dout d) pre m /\ orel (dout d) o pre m /\ slimit (dout d) = limit /\
    rinput (drd d) = firstn n (skipn cur inp) /\ (rpos (drd d) <= length (rinput (drd d)))%nat /\ stInv cur n d pre m o.
Definition drank (d : Dec) : nat :=
  match dst d with
  | SRaw | SZlibDeflate | SGzipDeflate => S (irank (dinf d))
  | SZlibHeader h => if (length h <? 2)%nat then 0 else 10
  | SZlibTrailer t => if (length t <? 4)%nat then 0 else 1
  | SGzipHeader h => if (length h <? 10)%nat then 0 else 10
  | SGzipExtraLength t => if (length t <? 2)%nat then 0 else 9
  | SGzipExtra k => if (k =? 0)%N then 8 else 0
  | SGzipHeaderCrc t => if (length t <? 2)%nat then 0 else 7
  | SGzipTrailer t => if (length t <? 8)%nat then 0 else 12
  | SGzipBetween => 11
  | _ => 0
  end%nat.
Lemma drank_le d : (drank d <= 12)%nat.
Proof. unfold drank. pose proof (irank_le (dinf d)). destruct (dst d); try lia; first [destruct (_ <? _)%nat; lia | destruct (_ =? _); lia]. Qed.
Definition dmeas (d : Dec) : nat := (64 * work (drd d) (dout d) + drank d)%nat.
Definition dstepOk (cur n : nat) (p0 : list N) (fin : bool) (d : Dec) (x : Dec * Prog) : Prop :=
  let (d', pr) := x in
  match pr with
  | Advanced => inv cur n p0 d' /\ (dmeas d' < dmeas d)%nat /\ scap (dout d') = scap (dout d)
  | NeedInput => d' = d /\ fin = false /\ (length (rinput (drd d)) - rpos (drd d) <= 5)%nat /\ dst d <> SDone
  | NeedOutput => d' = d /\ sfull (dout d) = true /\ dst d <> SDone
  | Finished => d' = d /\ dst d = SDone /\ rpos (drd d) = length (rinput (drd d))
  | Failed _ => isErr oneShot
  | Bad => False
  end.

Section Pass.
Variables (cur n : nat) (p0 : list N) (fin : bool) (d : Dec) (pre m : list N) (o : Output).
Hypothesis Hcur : (cur <= size)%nat.
Hypothesis Hfin : fin = true -> reaches inp cur n.
Hypothesis Hso : sok p0 (dout d) pre m.
Hypothesis Ho : orel (dout d) o pre m.
Hypothesis Hlim : slimit (dout d) = limit.
Hypothesis Hin : rinput (drd d) = firstn n (skipn cur inp).
Hypothesis Hpos : (rpos (drd d) <= length (rinput (drd d)))%nat.
Let a := (cur + rpos (drd d))%nat.
Let ok := dstepOk cur n p0 fin d.

Lemma input_octets : octets (rinput (drd d)).
Proof. rewrite Hin. apply octets_firstn, octets_skipn, Hinp. Qed.
Lemma a_le : (a <= size)%nat.
Proof. unfold a. rewrite Hin, firstn_length, skipn_length in Hpos. fold size in Hpos. lia. Qed.
Lemma here : rpos (drd d) <> length (rinput (drd d)) <-> exists b, nth_error (rinput (drd d)) (rpos (drd d)) = Some b.
Proof.
  split.
  - intros H. destruct (nth_error (rinput (drd d)) (rpos (drd d))) as [b|] eqn:E; [eauto|]. apply nth_error_None in E. lia.
  - intros (b & E). assert (rpos (drd d) < length (rinput (drd d)))%nat by (apply nth_error_Some; congruence). lia.
Qed.
Lemma here_abs b : nth_error (rinput (drd d)) (rpos (drd d)) = Some b -> nth_error inp a = Some b.
Proof.
  intros E. assert (Hlt : (rpos (drd d) < length (rinput (drd d)))%nat) by (apply nth_error_Some; congruence).
  rewrite Hin in *. rewrite firstn_length in Hlt. rewrite nth_error_firstn, nth_error_skipn in E by lia. exact E.
Qed.
Lemma end_abs : fin = true -> rpos (drd d) = length (rinput (drd d)) -> a = size.
Proof.
  intros Hf E. specialize (Hfin Hf). unfold reaches in Hfin. fold size in Hfin. unfold a. rewrite E, Hin, firstn_length, skipn_length. fold size. lia.
Qed.
Lemma setRd_same : setRd d (drd d) = d. Proof. destruct d; reflexivity. Qed.
Definition nextRd : BitReader := {| rinput := rinput (drd d); rpos := S (rpos (drd d)); rbits := 0; rcount := 0 |}.
(** One byte of a container. *)
Lemma byte_ok (k : N -> Dec -> Dec * Prog) : aligned (drd d) -> dst d <> SDone ->
  (forall b, nth_error inp a = Some b -> rpos (drd d) <> length (rinput (drd d)) -> ok (k b (setRd d nextRd))) ->
  (a = size -> isErr oneShot) -> ok (withByte fin d k).
Proof.
  intros Ha Hd Hk He. assert (Hx : rpos (drd d) = length (rinput (drd d)) -> fin = true -> isErr oneShot) by (intros; apply He, end_abs; assumption). unfold withByte, sread. rewrite read_byte by (first [exact Ha|exact input_octets]).
  destruct (nth_error (rinput (drd d)) (rpos (drd d))) as [b|] eqn:E.
  - apply Hk; [apply here_abs, E|apply here; eauto].
  - apply nth_error_None in E. rewrite setRd_same. unfold ok. destruct fin; cbn [stop dstepOk].
    + apply Hx; [lia|reflexivity].
    + split; [reflexivity|]. split; [reflexivity|]. split; [lia|exact Hd].
Qed.
Lemma next_work : rpos (drd d) <> length (rinput (drd d)) -> aligned (drd d) -> (work nextRd (dout d) < work (drd d) (dout d))%nat.
Proof. intros H [Hc _]. unfold work, available, nextRd. cbn [rcount rinput rpos]. rewrite Hc. lia. Qed.
Lemma next_in b : nth_error inp a = Some b -> aligned (drd d) -> nth_error (rinput (drd d)) (rpos (drd d)) = Some b ->
  (rpos nextRd <= length (rinput nextRd))%nat.
Proof. intros _ _ E. assert (rpos (drd d) < length (rinput (drd d)))%nat by (apply nth_error_Some; congruence). cbn [nextRd rpos rinput]. lia. Qed.
(** Arriving somewhere with the output as it was. *)
Lemma arrive d' pre' m' o' : sok p0 (dout d') pre' m' -> orel (dout d') o' pre' m' -> slimit (dout d') = limit -> scap (dout d') = scap (dout d) ->
  length (sout (dout d')) = length (sout (dout d)) -> rinput (drd d') = rinput (drd d) -> (rpos (drd d') <= length (rinput (drd d')))%nat ->
  stInv cur n d' pre' m' o' ->
  (available (drd d') < available (drd d) \/ (available (drd d') = available (drd d) /\ drank d' < drank d))%nat -> ok (d', Advanced).
Proof.
  clear Hfin. intros H1 H2 H3 H4 H5 H6 H7 H8 H9. unfold ok. cbn [dstepOk]. split; [|split; [|exact H4]].
  - exists pre', m', o'. rewrite H6 at 1. auto 8.
  - unfold dmeas, work. rewrite H4, H5. pose proof (drank_le d'). pose proof (drank_le d). lia.
Qed.
(** The same after one byte. *)
Lemma arrive_byte b d' : aligned (drd d) -> nth_error inp a = Some b -> drd d' = nextRd -> dout d' = dout d -> stInv cur n d' pre m o ->
  rpos (drd d) <> length (rinput (drd d)) -> ok (d', Advanced).
Proof.
  intros Ha E Hr Hd Hs Hne. apply arrive with (pre' := pre) (m' := m) (o' := o); rewrite ?Hr, ?Hd; try assumption; try reflexivity.
  - cbn [nextRd rpos rinput]. lia.
  - left. unfold available, nextRd. cbn [rcount rinput rpos]. destruct Ha as [-> _]. lia.
Qed.

Lemma body_start d' org K : a = org -> aligned (drd d) -> drd d' = drd d -> dinf d' = inflateReset ->
  eqv (oneShot) (let* (consumed, o') := decodeDeflate (skipn org inp) o in K (org + consumed)%nat o') -> bodyInv cur n d' (resetHistory o) K.
Proof.
  intros Ea [Hc Hb] Er Ei He. exists org, {| rinput := skipn org inp; rpos := 0; rbits := 0; rcount := 0 |}. rewrite Er, Ei. split; [|split; [|split]].
  - unfold rrel. cbn [rinput rpos rbits rcount]. repeat split; try assumption; lia.
  - unfold rok. cbn [rinput rpos rbits rcount]. repeat split; try lia. apply octets_skipn, Hinp.
  - split; [exact I|]. cbn [inflateReset ilen]. congruence.
  - eapply eqv_trans; [exact He|]. unfold decodeDeflate.
    change (irest inflateReset {| rinput := skipn org inp; rpos := 0; rbits := 0; rcount := 0 |} (resetHistory o)) with (DB {| rinput := skipn org inp; rpos := 0; rbits := 0; rcount := 0 |} (resetHistory o)).
    unfold DB. match goal with |- eqv (bind (bind ?x _) _) _ => generalize x end. intros x. destruct x as [[r' o']|e| |]; cbn [bind]; apply eqv_refl.
Qed.
Lemma seg_next s b : (s <= a)%nat -> nth_error inp a = Some b -> seg inp s (cur + S (rpos (drd d))) = seg inp s a ++ [b].
Proof. intros H E. replace (cur + S (rpos (drd d)))%nat with (S a) by (unfold a; lia). apply seg_snoc; assumption. Qed.
Lemma octets_seg' s q : octets (seg inp s q). Proof. apply octets_seg, Hinp. Qed.
Lemma crc_next s b : (s <= a)%nat -> nth_error inp a = Some b -> dhcrc d = crcOf (seg inp s a) ->
  CrcModel.updateScalar CrcModel.IEEE (dhcrc d) [b] = crcOf (seg inp s (cur + S (rpos (drd d)))).
Proof.
  intros Hs E Hd. rewrite (seg_next s b Hs E), Hd. apply crc_app; [apply octets_seg'|]. constructor; [|constructor].
  apply (proj1 (Forall_forall _ _) Hinp), (nth_error_In _ _ E).
Qed.

(** * zlib *)
Lemma reset_ok so p pr : sok p so pr [] -> sok p (sResetHistory so) pr [].
Proof.
  intros [H1 H2 H3 H4 H5 H6 H7]. constructor; cbn [sResetHistory sout stotal slimit scap]; try assumption.
  unfold histOk. cbn [sResetHistory shsize shpos shist]. unfold bytesN. cbn [length]. split; [reflexivity|]. split; [reflexivity|]. intros k Hk. lia.
Qed.
Lemma member_ok so p pr mm : sok p so pr mm -> sok p (resetGzipMember so) (pr ++ mm) [] /\ slimit (resetGzipMember so) = slimit so /\
  scap (resetGzipMember so) = scap so /\ sout (resetGzipMember so) = sout so.
Proof.
  intros H. destruct (flush_spec _ _ _ _ H) as ([H1 H2 H3 H4 H5 H6 H7] & E1 & E2 & E3 & E4 & E5 & E6 & E7).
  split; [|unfold resetGzipMember; cbn [slimit scap sout sResetHistory]; auto].
  constructor; unfold resetGzipMember; cbn [sResetHistory sout stotal slimit scap]; rewrite ?app_nil_r; try assumption.
  - unfold histOk. cbn [shsize shpos shist sResetHistory]. unfold bytesN. cbn [length]. split; [reflexivity|]. split; [reflexivity|]. intros k Hk. lia.
  - unfold chkOk. cbn [schk sout scrc smember sadler sResetHistory]. rewrite E7, E2, skipn_all. split; [lia|]. split; [exists []|exists (pr ++ mm)]; rewrite ?app_nil_r; auto.
Qed.
Lemma orel_reset so0 so oo pr mm : orel so0 oo pr mm -> slimit so = slimit so0 -> orel so (resetHistory oo) (pr ++ mm) [].
Proof.
  intros (H1 & H2 & H3) E. destruct (rep_reset _ _ _ H1) as [R1 R2]. split; [exact R1|]. split; [apply (sameKind_span _ _ R2), H2|].
  destruct R2 as [R2 _]. congruence.
Qed.
Lemma orel_same so0 so oo pr mm : orel so0 oo pr mm -> slimit so = slimit so0 -> orel so oo pr mm.
Proof. intros (H1 & H2 & H3) E. split; [exact H1|]. split; [exact H2|]. congruence. Qed.

Lemma st_zlibHeader h : dst d = SZlibHeader h -> stInv cur n d pre m o -> ok (stepZlibHeader fin h d).
Proof.
  intros Es Hi. pose proof a_le as Hle. unfold stInv in Hi. rewrite Es in Hi. cbn zeta in Hi. fold a in Hi.
  destruct Hi as (Ha & Ep & Em & El & Eh & Hl & He). unfold stepZlibHeader. destruct (Nat.ltb_spec (length h) 2) as [Hs|Hs].
  - apply byte_ok; [exact Ha|congruence| |].
    + intros b Eb Hne. apply (arrive_byte b); try assumption; try reflexivity. unfold stInv. cbn [setSt setRd dst drd dinf nextRd rpos].
      split; [split; reflexivity|]. split; [exact Ep|]. split; [exact Em|]. rewrite app_length. cbn [length]. split; [unfold a in El; lia|].
      split; [rewrite (seg_next 0 b) by (try assumption; lia); congruence|]. split; [lia|exact He].
    + intros E. eapply eqv_err; [apply eqv_sym, He|]. unfold decodeZlib. fold size. destruct (Nat.ltb_spec size 2); [apply err_intro|lia].
  - assert (E2 : a = 2%nat) by lia. rewrite E2 in *. clear Hs Hl.
    assert (E0 : nth 0 h 0 = nth 0 inp 0) by (rewrite Eh; apply nth_seg'; [lia|exact Hle]).
    assert (E1 : nth 1 h 0 = nth 1 inp 0) by (rewrite Eh; apply nth_seg'; [lia|exact Hle]).
    rewrite E0, E1. unfold decodeZlib in He. fold size in He. destruct (Nat.ltb_spec size 2) as [|_]; [lia|].
    rewrite (aget_nth inp 0), (aget_nth inp 1) in He by (fold size; lia). cbn [bind] in He.
    destruct (_ || _).
    { unfold ok. cbn [dstepOk]. eapply eqv_err; [apply eqv_sym, He|apply err_intro]. }
    destruct (negb (N.land (nth 1 inp 0) 32 =? 0)).
    + apply arrive with (pre' := pre) (m' := m) (o' := o); try assumption; try reflexivity.
      * unfold stInv. cbn [setSt dst drd]. split; [exact Ha|]. eapply eqv_err; [apply eqv_sym, He|]. destruct (_ <? _)%nat; apply err_intro.
      * right. split; [reflexivity|]. unfold drank. cbn [setSt dst]. rewrite Es, <- El. cbn. lia.
    + subst pre m. apply arrive with (pre' := []) (m' := []) (o' := resetHistory o); cbn [setSt setInf setOut dout drd]; try assumption; try reflexivity.
      * apply reset_ok, Hso.
      * apply (orel_reset (dout d) _ o [] []); [exact Ho|reflexivity].
      * unfold stInv. cbn [setSt setInf setOut dst]. split; [reflexivity|].
        apply body_start with (org := 2%nat); try assumption; try reflexivity.
        destruct (rep_size _ _ _ (proj1 Ho)) as [Hsz _]. rewrite Hsz in He. exact He.
      * right. split; [reflexivity|]. unfold drank. cbn [setSt setInf setOut dst dinf]. rewrite Es, <- El. cbn. lia.
Qed.
Lemma st_zlibDictionary t : dst d = SZlibDictionary t -> stInv cur n d pre m o -> ok (stepZlibDictionary fin t d).
Proof.
  intros Es Hi. unfold stInv in Hi. rewrite Es in Hi. cbn zeta in Hi. destruct Hi as (Ha & He). unfold stepZlibDictionary. destruct (length t <? 4)%nat.
  - apply byte_ok; [exact Ha|congruence| |].
    + intros b Eb Hne. apply (arrive_byte b); try assumption; try reflexivity. unfold stInv. cbn [setSt setRd dst drd]. split; [split; reflexivity|exact He].
    + intros _. exact He.
  - exact He.
Qed.
Lemma read4 t q : a = (q + length t)%nat -> t = seg inp q a -> forall i, (i < length t)%nat -> aget t i = aget inp (q + i).
Proof. intros Ea Et i Hi. pose proof a_le. rewrite Et. apply aget_seg; lia. Qed.
Lemma st_zlibTrailer t : dst d = SZlibTrailer t -> stInv cur n d pre m o -> ok (stepZlibTrailer fin t d).
Proof.
  intros Es Hi. pose proof a_le as Hle. unfold stInv in Hi. rewrite Es in Hi. cbn zeta in Hi. fold a in Hi.
  destruct Hi as (Ha & Ep & q & El & Et & Hl & He). unfold stepZlibTrailer. destruct (Nat.ltb_spec (length t) 4) as [Hs|Hs].
  - apply byte_ok; [exact Ha|congruence| |].
    + intros b Eb Hne. apply (arrive_byte b); try assumption; try reflexivity. unfold stInv. cbn [setSt setRd dst drd dinf nextRd rpos].
      split; [split; reflexivity|]. split; [exact Ep|]. exists q. rewrite app_length. cbn [length]. split; [unfold a in El; lia|].
      split; [rewrite (seg_next q b) by (try assumption; lia); congruence|]. split; [lia|exact He].
    + intros E. eapply eqv_err; [apply eqv_sym, He|]. unfold Kz. destruct (Nat.ltb_spec size (q + 4)); [apply err_intro|lia].
  - cbn zeta. assert (E4 : length t = 4%nat) by lia. pose proof (read4 t q El Et) as Hr. rewrite E4 in *.
    assert (Eb : readBig32 t 0 = readBig32 inp q).
    { unfold readBig32. rewrite !Hr by lia. rewrite !Nat.add_0_r, !Nat.add_0_l. reflexivity. }
    rewrite Eb. assert (Hov : exists v, readBig32 inp q = Ok v).
    { unfold readBig32. rewrite !aget_nth by (fold size; lia). cbn [bind]. eauto. }
    destruct Hov as (v & Ev). rewrite Ev. destruct (flush_spec _ _ _ _ Hso) as (F1 & F2 & F3 & F4 & F5 & F6 & F7 & F8).
    cbn [setOut dout]. rewrite (sadler_value (pre ++ m)); [|apply (so_oct _ _ _ _ Hso)|exact F7].
    pose proof (orange_spec _ _ _ (proj1 Ho)) as Hor. subst pre. change (bytesN []) with 0 in Hor. cbn [app].
    unfold Kz in He. destruct (Nat.ltb_spec size (q + 4)) as [|_]; [lia|]. destruct (orange o 0) as [bs|]; [|exfalso; apply Hor, Ho].
    destruct Hor as [_ ->]. rewrite Ev in He. cbn [bind] in He. rewrite adler32_spec in He by (apply (so_oct _ _ _ _ Hso)).
    destruct (negb (adlerSpec m =? v)).
    + unfold ok. cbn [dstepOk]. eapply eqv_err; [apply eqv_sym, He|]. destruct (negb _); apply err_intro.
    + apply arrive with (pre' := []) (m' := m) (o' := o); cbn [setSt setOut dout drd]; try assumption; try congruence.
      * exact (orel_same _ _ _ _ _ Ho F2).
      * unfold stInv. cbn [setSt setOut dst drd]. fold a. rewrite <- El in He. eapply eqv_trans; [exact He|]. rewrite Nat.eqb_sym.
        destruct (a =? size)%nat; cbn [negb]; apply eqv_refl.
      * right. split; [reflexivity|]. unfold drank. cbn [setSt setOut dst]. rewrite Es, E4. cbn. lia.
Qed.

(** * Deflate data *)
Lemma st_body next K : dst d <> SDone -> bodyInv cur n d o K ->
  (forall d' m' o', dst d' = dst d -> bodyInv cur n d' o' K -> stInv cur n d' pre m' o') ->
  (forall d', dst d' = next -> aligned (drd d') -> eqv oneShot (K (cur + rpos (drd d'))%nat o) -> stInv cur n d' pre m o) ->
  (forall d', dst d' = dst d -> drank d' = S (irank (dinf d'))) -> (forall d', dst d' = next -> drank d' = 0%nat) -> ok (inflateThen fin d next).
Proof.
  intros Hd (org & g & Hr & Hg & Hw & He) Hsame Hnext Hk1 Hk2. unfold inflateThen. pose proof (istep_ok inp cur org n fin _ _ _ _ _ _ _ _ Hr Hg Hso Ho Hw) as Hs.
  destruct (istep fin (dinf d) (drd d) (dout d)) as [[[i' r'] so'] pr]. cbn [istepOk] in Hs. destruct pr; cbn iota.
  - destruct Hs as (g' & o' & m' & S1 & S2 & S3 & S4 & S5 & S6 & S7 & S8 & S9 & S10). unfold ok. cbn [dstepOk setInf setRd setOut dout]. split; [|split; [|exact S9]].
    + exists pre, m', o'. cbn [setInf setRd setOut dout drd]. split; [exact S4|]. split; [exact S5|]. split; [congruence|].
      destruct S1 as ((S1a & S1b) & S1c & S1d & S1e & S1f). split; [exact S1b|]. split; [exact S1f|]. apply Hsame; [reflexivity|].
      exists org, g'. cbn [setInf setRd setOut dinf drd]. split; [unfold rrel; auto|]. split; [exact S2|]. split; [exact S6|].
      eapply eqv_trans; [exact He|]. apply eqv_bind, S7.
    + unfold dmeas. cbn [setInf setRd setOut dout drd]. rewrite (Hk1 d eq_refl), Hk1 by reflexivity. cbn [setInf setRd setOut dinf]. unfold imeas in S8. lia.
  - destruct Hs as (-> & -> & -> & Ef & Hav). unfold ok. cbn [dstepOk]. split; [destruct d; reflexivity|]. split; [exact Ef|]. split; [unfold available in Hav; lia|exact Hd].
  - destruct Hs as (-> & -> & -> & Ef). unfold ok. cbn [dstepOk]. split; [destruct d; reflexivity|auto].
  - destruct Hs as (g' & g0 & S1 & S2 & S3 & S4 & -> & S6 & S7 & S8 & S9). rewrite S6 in He. cbn [bind] in He. rewrite S7 in He.
    pose proof S1 as ((S1a & S1b) & S1c & S1d & S1e & S1f).
    apply arrive with (pre' := pre) (m' := m) (o' := o); cbn [setSt setInf setRd setOut dout drd]; try assumption; try reflexivity.
    + congruence.
    + apply Hnext; cbn [setSt setInf setRd setOut dst drd]; [reflexivity| |rewrite S1c; exact He].
      split; [congruence|]. rewrite S1d. destruct S2 as (_ & _ & _ & S2 & _). rewrite S4 in S2. cbn in S2. lia.
    + rewrite (Hk1 d eq_refl), Hk2 by reflexivity. lia.
  - unfold ok. cbn [dstepOk]. eapply eqv_err; [apply eqv_sym, He|]. apply err_bind, Hs, Hfin.
  - exact Hs.
Qed.

(** * gzip *)
Lemma land_test k : negb (N.land (dflags d) (2 ^ k) =? 0) = N.testbit (dflags d) k. Proof. apply land_pow. Qed.
Section Optional.
Variables (d' : Dec) (s : nat).
Let a' := (cur + rpos (drd d'))%nat.
Let fl := dflags d'.
Hypothesis Hr' : rinput (drd d') = rinput (drd d).
Hypothesis Hp' : (rpos (drd d') <= length (rinput (drd d')))%nat.
Hypothesis Ha' : aligned (drd d').
Hypothesis Ho' : dout d' = dout d.
Hypothesis Hsa : (s <= a')%nat.
Hypothesis Hcrc : dhcrc d' = crcOf (seg inp s a').
Hypothesis Hm' : (available (drd d') < available (drd d) \/ (available (drd d') = available (drd d) /\ 2 < drank d))%nat.
Lemma n_begin : eqv oneShot (gzBody a' o) -> ok (beginGzipDeflate d', Advanced).
Proof.
  clear Hsa Hcrc. intros He. destruct (member_ok _ _ _ _ Hso) as (M1 & M2 & M3 & M4).
  apply arrive with (pre' := pre ++ m) (m' := []) (o' := resetHistory o); unfold beginGzipDeflate; cbn [setSt setInf setOut dout drd]; rewrite ?Ho'; try assumption; try congruence.
  - exact (orel_reset _ _ _ _ _ Ho M2).
  - unfold stInv. cbn [setSt setInf setOut dst]. destruct Ha' as [Hc Hb]. unfold gzBody in He. rewrite (proj1 (rep_size _ _ _ (proj1 Ho))) in He.
    exists a', {| rinput := skipn a' inp; rpos := 0; rbits := 0; rcount := 0 |}. cbn [setSt setInf setOut drd dinf]. split; [|split; [|split]].
    + unfold rrel. cbn [rinput rpos rbits rcount]. repeat split; try assumption; try congruence; unfold a'; lia.
    + unfold rok. cbn [rinput rpos rbits rcount]. repeat split; try lia. apply octets_skipn, Hinp.
    + split; [exact I|]. cbn [inflateReset ilen]. congruence.
    + eapply eqv_trans; [exact He|]. unfold decodeDeflate.
      change (irest inflateReset {| rinput := skipn a' inp; rpos := 0; rbits := 0; rcount := 0 |} (resetHistory o)) with (DB {| rinput := skipn a' inp; rpos := 0; rbits := 0; rcount := 0 |} (resetHistory o)).
      unfold DB. match goal with |- eqv (bind (bind ?x _) _) _ => generalize x end. intros x. destruct x as [[r' o']|e| |]; cbn [bind]; apply eqv_refl.
Qed.
Lemma n_state st : (forall d1, dst d1 = st -> drank d1 = 0%nat) -> stInv cur n (setSt d' st) pre m o -> ok (setSt d' st, Advanced).
Proof.
  intros Hk Hs. apply arrive with (pre' := pre) (m' := m) (o' := o); cbn [setSt dout drd]; rewrite ?Ho'; try assumption; try congruence.
  destruct Hm' as [Hm|[Hm1 Hm2]]; [left; exact Hm|right]. split; [exact Hm1|]. rewrite Hk by reflexivity. lia.
Qed.
Definition nC := if N.testbit fl 1 then setSt d' (SGzipHeaderCrc []) else beginGzipDeflate d'.
Definition nB := if N.testbit fl 4 then setSt d' SGzipComment else nC.
Definition nA := if N.testbit fl 3 then setSt d' SGzipName else nB.
Definition nX := if N.testbit fl 2 then setSt d' (SGzipExtraLength []) else nA.
Lemma nC_ok : eqv oneShot (gzRest (hC s fl a') o) -> ok (nC, Advanced).
Proof.
  intros He. unfold nC. destruct (N.testbit fl 1) eqn:E.
  - apply n_state; [intros d1 E1; unfold drank; rewrite E1; reflexivity|]. unfold stInv. cbn [setSt dst drd dflags dhcrc]. split; [exact Ha'|].
    exists s, a'. cbn [length]. rewrite Nat.add_0_r. fold a'. rewrite seg_nil. repeat (split; [first [assumption|reflexivity|lia]|]). exact He.
  - apply n_begin. unfold hC in He. rewrite E in He. exact He.
Qed.
Lemma nB_ok : eqv oneShot (gzRest (hB s fl a') o) -> ok (nB, Advanced).
Proof.
  intros He. unfold nB. destruct (N.testbit fl 4) eqn:E.
  - apply n_state; [intros d1 E1; unfold drank; rewrite E1; reflexivity|]. unfold stInv. cbn [setSt dst drd dflags dhcrc]. split; [exact Ha'|].
    exists s. fold a'. auto 6.
  - apply nC_ok. unfold hB in He. rewrite E in He. exact He.
Qed.
Lemma nA_ok : eqv oneShot (gzRest (hA s fl a') o) -> ok (nA, Advanced).
Proof.
  intros He. unfold nA. destruct (N.testbit fl 3) eqn:E.
  - apply n_state; [intros d1 E1; unfold drank; rewrite E1; reflexivity|]. unfold stInv. cbn [setSt dst drd dflags dhcrc]. split; [exact Ha'|].
    exists s. fold a'. auto 6.
  - apply nB_ok. unfold hA in He. rewrite E in He. exact He.
Qed.
Lemma nX_ok : eqv oneShot (gzRest (hX s fl a') o) -> ok (nX, Advanced).
Proof.
  intros He. unfold nX. destruct (N.testbit fl 2) eqn:E.
  - apply n_state; [intros d1 E1; unfold drank; rewrite E1; reflexivity|]. unfold stInv. cbn [setSt dst drd dflags dhcrc]. split; [exact Ha'|].
    exists s, a'. cbn [length]. rewrite Nat.add_0_r. fold a'. rewrite seg_nil. repeat (split; [first [assumption|reflexivity|lia|split; assumption]|]). exact He.
  - apply nA_ok. unfold hX in He. rewrite E in He. exact He.
Qed.
Lemma next_eq from : nextGzipOptional d' from = match from with fextra => nX | fname => nA | fcomment => nB | fheaderCrc => nC end.
Proof.
  unfold nextGzipOptional, nX, nA, nB, nC, fl. change 0x04 with (2 ^ 2). change 0x08 with (2 ^ 3). change 0x10 with (2 ^ 4). change 0x02 with (2 ^ 1).
  rewrite !land_pow. destruct from; cbn [fieldNo Nat.leb andb]; reflexivity.
Qed.
End Optional.

Lemma gzHeader_bad s : (s < size)%nat -> nth s inp 0 <> 0x1f \/ ((s + 1 < size)%nat /\ nth (s + 1) inp 0 <> 0x8b) \/ (size - s < 10)%nat -> isErr (gz s o).
Proof.
  intros Hs Hb. rewrite gz_unfold. destruct (Nat.leb_spec size s) as [|_]; [lia|]. apply err_bind. rewrite gzipMemberHeader_unfold. cbn zeta. fold size.
  destruct (Nat.ltb_spec (size - s) 2) as [H2|H2].
  - rewrite aget_nth by exact Hs. cbn [bind]. destruct (_ || _); apply err_intro.
  - rewrite !aget_nth by (fold size; lia). cbn [bind].
    destruct (N.eqb_spec (nth s inp 0) 31) as [E0|E0]; cbn [negb orb]; [|destruct (s =? 0)%nat; apply err_intro].
    destruct (N.eqb_spec (nth (s + 1) inp 0) 139) as [E1|E1]; cbn [negb orb]; [|destruct (s =? 0)%nat; apply err_intro].
    destruct (Nat.ltb_spec (size - s) 10) as [H3|H3]; [apply err_intro|]. exfalso. destruct Hb as [Hb|[[_ Hb]|Hb]]; [contradiction|contradiction|lia].
Qed.
Lemma st_gzipHeader h : dst d = SGzipHeader h -> stInv cur n d pre m o -> ok (stepGzipHeader fin h d).
Proof.
  intros Es Hi. pose proof a_le as Hle. unfold stInv in Hi. rewrite Es in Hi. cbn zeta in Hi. fold a in Hi.
  destruct Hi as (Ha & s & El & Eh & Hl & (Hm0 & Hm1) & (Hs & Hc) & He & He2). unfold stepGzipHeader. destruct (Nat.ltb_spec (length h) 10) as [Hn|Hn].
  - unfold withHeaderByte. apply byte_ok; [exact Ha|congruence| |].
    + intros b Eb Hne. assert (Hb : nth a inp 0 = b) by (apply nth_error_nth with (d := 0) in Eb; exact Eb).
      assert (Hsz : (a < size)%nat) by (apply nth_error_Some; congruence). cbn zeta.
      destruct (_ || _) eqn:Ec.
      * unfold ok. cbn [dstepOk]. eapply eqv_err; [apply eqv_sym, He; lia|]. apply gzHeader_bad; [lia|].
        apply orb_prop in Ec. destruct Ec as [Ec|Ec]; apply andb_prop in Ec; destruct Ec as [Ec1 Ec2]; apply Nat.eqb_eq in Ec1; apply negb_true_iff, N.eqb_neq in Ec2.
        -- left. replace s with a by lia. congruence.
        -- right; left. replace (s + 1)%nat with a by lia. split; [lia|congruence].
      * apply orb_false_elim in Ec. destruct Ec as [Ec1 Ec2].
        assert (Hmag : magic (h ++ [b])).
        { split; rewrite app_length; cbn [length]; intros Hlen2.
          - destruct (Nat.eqb_spec (length h) 0) as [E0|E0].
            + rewrite app_nth2 by lia. rewrite E0. cbn [nth Nat.sub]. cbn [andb] in Ec1. apply negb_false_iff, N.eqb_eq in Ec1. exact Ec1.
            + rewrite app_nth1 by lia. apply Hm0. lia.
          - destruct (Nat.eqb_spec (length h) 1) as [E0|E0].
            + rewrite app_nth2 by lia. rewrite E0. cbn [nth Nat.sub]. cbn [andb] in Ec2. apply negb_false_iff, N.eqb_eq in Ec2. exact Ec2.
            + destruct (Nat.eq_dec (length h) 0) as [E1|E1].
              * exfalso. lia.
              * rewrite app_nth1 by lia. apply Hm1. lia. }
        apply (arrive_byte b); try assumption; try reflexivity. unfold stInv. cbn [setSt setHcrc setRd dst drd dhcrc dflags nextRd rpos].
        split; [split; reflexivity|]. exists s. rewrite app_length. cbn [length]. split; [unfold a in El; lia|].
        split; [rewrite (seg_next s b) by assumption; congruence|]. split; [lia|]. split; [exact Hmag|]. split; [|auto].
        split; [unfold a in Hs; lia|]. apply crc_next; assumption.
    + intros E. destruct (Nat.lt_ge_cases s size) as [Hlt|Hge]; [|apply He2, Hge]. eapply eqv_err; [apply eqv_sym, He, Hlt|]. apply gzHeader_bad; [exact Hlt|]. right; right. lia.
  - assert (E10 : length h = 10%nat) by lia. rewrite E10 in *. specialize (Hm0 ltac:(lia)). specialize (Hm1 ltac:(lia)). specialize (He ltac:(lia)).
    assert (Hnth : forall i, (i < 10)%nat -> nth i h 0 = nth (s + i) inp 0) by (intros i Hi; rewrite Eh; apply nth_seg'; [lia|exact Hle]).
    rewrite Hnth in Hm0, Hm1 by lia. rewrite !Hnth by lia. rewrite Nat.add_0_r in Hm0.
    rewrite gz_unfold in He. destruct (Nat.leb_spec size s) as [|_]; [lia|]. rewrite gzipMemberHeader_unfold in He. cbn zeta in He. fold size in He.
    destruct (Nat.ltb_spec (size - s) 2) as [|_]; [lia|]. rewrite !(aget_nth inp) in He by (fold size; lia). cbn [bind] in He.
    rewrite Hm0, Hm1 in He. cbn [N.eqb Pos.eqb negb orb] in He. destruct (Nat.ltb_spec (size - s) 10) as [|_]; [lia|].
    destruct (negb (nth (s + 2) inp 0 =? 8)).
    { unfold ok. cbn [dstepOk]. eapply eqv_err; [apply eqv_sym, He|apply err_intro]. }
    cbn zeta. cbn [setFlags dflags].
    destruct (negb (N.land (nth (s + 3) inp 0) 224 =? 0)).
    { unfold ok. cbn [dstepOk]. eapply eqv_err; [apply eqv_sym, He|apply err_intro]. }
    rewrite next_eq. apply nX_ok with (s := s); cbn [setFlags drd dout dhcrc dflags]; try assumption; try reflexivity.
    + right. split; [reflexivity|]. unfold drank. rewrite Es, E10. cbn. lia.
    + fold a. rewrite El. exact He.
Qed.
Lemma read16 t q : a = (q + length t)%nat -> t = seg inp q a -> length t = 2%nat -> exists v, readLittle16 t 0 = Ok v /\ readLittle16 inp q = Ok v.
Proof.
  intros Ea Et E2. pose proof a_le. pose proof (read4 t q Ea Et) as Hr. unfold readLittle16. rewrite !Hr by lia. rewrite !Nat.add_0_r, !Nat.add_0_l.
  rewrite !aget_nth by (fold size; lia). cbn [bind]. eauto.
Qed.
Lemma st_gzipExtraLength t : dst d = SGzipExtraLength t -> stInv cur n d pre m o -> ok (stepGzipExtraLength fin t d).
Proof.
  intros Es Hi. pose proof a_le as Hle. unfold stInv in Hi. rewrite Es in Hi. cbn zeta in Hi. fold a in Hi.
  destruct Hi as (Ha & s & q & El & Et & Hl & (Hs & Hc) & Hb & He). unfold stepGzipExtraLength. unfold hX in He. rewrite Hb in He. cbn [gzipExtra] in He. fold size in He.
  destruct (Nat.ltb_spec (length t) 2) as [Hn|Hn].
  - unfold withHeaderByte. apply byte_ok; [exact Ha|congruence| |].
    + intros b Eb Hne. cbn zeta. apply (arrive_byte b); try assumption; try reflexivity. unfold stInv. cbn [setSt setHcrc setRd dst drd dhcrc dflags nextRd rpos].
      split; [split; reflexivity|]. exists s, q. rewrite app_length. cbn [length]. split; [unfold a in El; lia|].
      split; [rewrite (seg_next q b) by (try assumption; lia); congruence|]. split; [lia|]. split; [|split; [exact Hb|]].
      * split; [unfold a in Hs; lia|]. apply crc_next; assumption.
      * unfold hX. rewrite Hb. exact He.
    + intros E. eapply eqv_err; [apply eqv_sym, He|]. apply gzRest_err, err_bind. destruct (Nat.ltb_spec (size - q) 2); [apply err_intro|lia].
  - assert (E2 : length t = 2%nat) by lia. destruct (read16 t q El Et E2) as (v & -> & Ev). rewrite Ev in He. rewrite E2 in El. clear Hn Hl.
    destruct (Nat.ltb_spec (size - q) 2) as [|_]; [lia|]. cbn [bind] in He.
    apply arrive with (pre' := pre) (m' := m) (o' := o); try assumption; try reflexivity.
    + unfold stInv. cbn [setSt dst drd dhcrc dflags]. split; [exact Ha|]. exists s. fold a. split; [auto|]. rewrite <- El in He.
      eapply eqv_trans; [exact He|]. destruct (_ <? _)%nat; cbn [bind]; apply eqv_refl.
    + right. split; [reflexivity|]. unfold drank. cbn [setSt dst]. rewrite Es, E2. destruct (v =? 0); cbn; lia.
Qed.
Lemma st_gzipExtra k : dst d = SGzipExtra k -> stInv cur n d pre m o -> ok (stepGzipExtra fin k d).
Proof.
  intros Es Hi. pose proof a_le as Hle. unfold stInv in Hi. rewrite Es in Hi. cbn zeta in Hi. fold a in Hi.
  destruct Hi as (Ha & s & (Hs & Hc) & He). unfold stepGzipExtra. destruct (N.eqb_spec k 0) as [Ek|Ek]; cbn [negb].
  - subst k. change (N.to_nat 0) with 0%nat in He. rewrite Nat.add_0_r in He. change (size - a <? 0)%nat with false in He. cbn iota in He.
    rewrite next_eq. apply nA_ok with (s := s); try assumption; try reflexivity. right. split; [reflexivity|]. unfold drank. rewrite Es. cbn. lia.
  - unfold withHeaderByte. apply byte_ok; [exact Ha|congruence| |].
    + intros b Eb Hne. assert (Hsz : (a < size)%nat) by (apply nth_error_Some; congruence).
      cbn zeta. apply (arrive_byte b); try assumption; try reflexivity. unfold stInv. cbn [setSt setHcrc setRd dst drd dhcrc dflags nextRd rpos].
      split; [split; reflexivity|]. exists s. split; [split; [unfold a in Hs; lia|apply crc_next; assumption]|].
      replace (cur + S (rpos (drd d)))%nat with (S a) by (unfold a; lia). replace (S a + N.to_nat (k - 1))%nat with (a + N.to_nat k)%nat by lia.
      eapply eqv_trans; [exact He|]. destruct (Nat.ltb_spec (size - a) (N.to_nat k)); destruct (Nat.ltb_spec (size - S a) (N.to_nat (k - 1))); try lia; apply eqv_refl.
    + intros E. eapply eqv_err; [apply eqv_sym, He|]. apply gzRest_err. destruct (Nat.ltb_spec (size - a) (N.to_nat k)); [apply err_intro|lia].
Qed.
Lemma string_step b : nth_error inp a = Some b -> skipString inp true a = if b =? 0 then Ok (S a) else skipString inp true (S a).
Proof. intros E. unfold skipString. rewrite (skipn_nth _ _ _ E). cbn [afterZero]. destruct (b =? 0); reflexivity. Qed.
Lemma string_end : a = size -> skipString inp true a = Err truncatedInput.
Proof. intros E. unfold skipString. rewrite E. unfold size. rewrite skipn_all. reflexivity. Qed.
Lemma st_gzipName : dst d = SGzipName -> stInv cur n d pre m o -> ok (stepGzipString fin fcomment d).
Proof.
  intros Es Hi. pose proof a_le as Hle. unfold stInv in Hi. rewrite Es in Hi. cbn zeta in Hi. fold a in Hi.
  destruct Hi as (Ha & s & (Hs & Hc) & Hb & He). unfold stepGzipString, withHeaderByte. unfold hA in He. rewrite Hb in He.
  apply byte_ok; [exact Ha|congruence| |].
  - intros b Eb Hne. rewrite (string_step b Eb) in He. cbn zeta. pose proof (crc_next s b Hs Eb Hc) as Hcn. replace (S a) with (cur + S (rpos (drd d)))%nat in He by (unfold a; lia).
    destruct (b =? 0).
    + rewrite next_eq. apply nB_ok with (s := s); cbn [setHcrc setRd drd dout dhcrc dflags nextRd rpos rinput]; try assumption; try reflexivity; try (unfold a in Hs; lia).
      * split; reflexivity.
      * left. unfold available, nextRd. cbn [rcount rinput rpos]. destruct Ha as [-> _]. lia.
    + apply (arrive_byte b); try assumption; try reflexivity. unfold stInv. cbn [setHcrc setRd dst drd dhcrc dflags nextRd rpos]. rewrite Es.
      split; [split; reflexivity|]. exists s. split; [split; [unfold a in Hs; lia|exact Hcn]|]. split; [exact Hb|]. unfold hA. rewrite Hb. exact He.
  - intros E. eapply eqv_err; [apply eqv_sym, He|]. apply gzRest_err, err_bind. rewrite string_end by exact E. apply err_intro.
Qed.
Lemma st_gzipComment : dst d = SGzipComment -> stInv cur n d pre m o -> ok (stepGzipString fin fheaderCrc d).
Proof.
  intros Es Hi. pose proof a_le as Hle. unfold stInv in Hi. rewrite Es in Hi. cbn zeta in Hi. fold a in Hi.
  destruct Hi as (Ha & s & (Hs & Hc) & Hb & He). unfold stepGzipString, withHeaderByte. unfold hB in He. rewrite Hb in He.
  apply byte_ok; [exact Ha|congruence| |].
  - intros b Eb Hne. rewrite (string_step b Eb) in He. cbn zeta. pose proof (crc_next s b Hs Eb Hc) as Hcn. replace (S a) with (cur + S (rpos (drd d)))%nat in He by (unfold a; lia).
    destruct (b =? 0).
    + rewrite next_eq. apply nC_ok with (s := s); cbn [setHcrc setRd drd dout dhcrc dflags nextRd rpos rinput]; try assumption; try reflexivity; try (unfold a in Hs; lia).
      * split; reflexivity.
      * left. unfold available, nextRd. cbn [rcount rinput rpos]. destruct Ha as [-> _]. lia.
    + apply (arrive_byte b); try assumption; try reflexivity. unfold stInv. cbn [setHcrc setRd dst drd dhcrc dflags nextRd rpos]. rewrite Es.
      split; [split; reflexivity|]. exists s. split; [split; [unfold a in Hs; lia|exact Hcn]|]. split; [exact Hb|]. unfold hB. rewrite Hb. exact He.
  - intros E. eapply eqv_err; [apply eqv_sym, He|]. apply gzRest_err, err_bind. rewrite string_end by exact E. apply err_intro.
Qed.
Lemma st_gzipHeaderCrc t : dst d = SGzipHeaderCrc t -> stInv cur n d pre m o -> ok (stepGzipHeaderCrc fin t d).
Proof.
  intros Es Hi. pose proof a_le as Hle. unfold stInv in Hi. rewrite Es in Hi. cbn zeta in Hi. fold a in Hi.
  destruct Hi as (Ha & s & q & El & Et & Hl & Hs & Hc & Hb & He). unfold stepGzipHeaderCrc.
  assert (He0 := He). unfold hC in He. rewrite Hb in He. cbn [gzipHcrc] in He. fold size in He.
  destruct (Nat.ltb_spec (length t) 2) as [Hn|Hn].
  - apply byte_ok; [exact Ha|congruence| |].
    + intros b Eb Hne. apply (arrive_byte b); try assumption; try reflexivity. unfold stInv. cbn [setSt setHcrc setRd dst drd dhcrc dflags nextRd rpos].
      split; [split; reflexivity|]. exists s, q. rewrite app_length. cbn [length]. split; [unfold a in El; lia|].
      split; [rewrite (seg_next q b) by (try assumption; lia); congruence|]. split; [lia|]. auto.
    + intros E. eapply eqv_err; [apply eqv_sym, He|]. apply gzRest_err. destruct (Nat.ltb_spec (size - q) 2); [apply err_intro|lia].
  - assert (E2 : length t = 2%nat) by lia. destruct (read16 t q El Et E2) as (v & -> & Ev). rewrite Ev in He. rewrite E2 in El. clear Hn Hl.
    destruct (Nat.ltb_spec (size - q) 2) as [|_]; [lia|]. cbn [bind] in He. cbn zeta in He. fold (seg inp s q) in He.
    rewrite crc_compute, <- Hc in He by apply octets_seg'. destruct (negb (v =? N.land (N.lxor (dhcrc d) 4294967295) 65535)).
    + unfold ok. cbn [dstepOk]. eapply eqv_err; [apply eqv_sym, He|]. apply gzRest_err, err_intro.
    + apply n_begin; try assumption; try reflexivity.
      * right. split; [reflexivity|]. unfold drank. rewrite Es, E2. cbn. lia.
      * fold a. rewrite El. exact He.
Qed.
Lemma st_gzipTrailer t : dst d = SGzipTrailer t -> stInv cur n d pre m o -> ok (stepGzipTrailer fin t d).
Proof.
  intros Es Hi. pose proof a_le as Hle. unfold stInv in Hi. rewrite Es in Hi. cbn zeta in Hi. fold a in Hi.
  destruct Hi as (Ha & q & El & Et & Hl & He). unfold stepGzipTrailer. destruct (Nat.ltb_spec (length t) 8) as [Hs|Hs].
  - apply byte_ok; [exact Ha|congruence| |].
    + intros b Eb Hne. apply (arrive_byte b); try assumption; try reflexivity. unfold stInv. cbn [setSt setRd dst drd dinf nextRd rpos].
      split; [split; reflexivity|]. exists q. rewrite app_length. cbn [length]. split; [unfold a in El; lia|].
      split; [rewrite (seg_next q b) by (try assumption; lia); congruence|]. split; [lia|exact He].
    + intros E. eapply eqv_err; [apply eqv_sym, He|]. unfold Kg. destruct (Nat.ltb_spec (size - q) 8); [apply err_intro|lia].
  - cbn zeta. assert (E8 : length t = 8%nat) by lia. pose proof (read4 t q El Et) as Hr. rewrite E8 in *.
    assert (Eb : readLittle32 t 0 = readLittle32 inp q).
    { unfold readLittle32. rewrite !Hr by lia. rewrite !Nat.add_0_r, !Nat.add_0_l. reflexivity. }
    assert (Ec : readLittle32 t 4 = readLittle32 inp (q + 4)).
    { unfold readLittle32. rewrite !Hr by lia. rewrite !Nat.add_assoc. reflexivity. }
    rewrite Eb, Ec.
    assert (Hv : exists v, readLittle32 inp q = Ok v) by (unfold readLittle32; rewrite !aget_nth by (fold size; lia); cbn [bind]; eauto).
    assert (Hw : exists v, readLittle32 inp (q + 4) = Ok v) by (unfold readLittle32; rewrite !aget_nth by (fold size; lia); cbn [bind]; eauto).
    destruct Hv as (v & Ev). destruct Hw as (w & Ew). rewrite Ev, Ew. destruct (flush_spec _ _ _ _ Hso) as (F1 & F2 & F3 & F4 & F5 & F6 & F7 & F8).
    cbn [setOut dout]. pose proof (orange_spec _ _ _ (proj1 Ho)) as Hor. assert (Hom : octets m) by (pose proof (so_oct _ _ _ _ Hso) as H; apply octets_app in H; apply H).
    unfold Kg in He. destruct (Nat.ltb_spec (size - q) 8) as [|_]; [lia|]. destruct (orange o (bytesN pre)) as [bs|]; [|exfalso; apply Hor, Ho].
    destruct Hor as [_ ->]. rewrite Ev, Ew in He. cbn [bind] in He. rewrite crc_compute in He by exact Hom. unfold scrc32. rewrite F5, F6.
    rewrite (proj1 (rep_size _ _ _ (proj1 Ho))), bytesN_app in He. replace (bytesN pre + bytesN m - bytesN pre) with (bytesN m) in He by lia. unfold tr in He.
    destruct (negb (N.lxor (crcOf m) 4294967295 =? v)).
    { unfold ok. cbn [dstepOk]. eapply eqv_err; [apply eqv_sym, He|apply err_intro]. }
    cbn [bind] in He. destruct (negb (bytesN m mod 2 ^ 32 =? w)).
    { unfold ok. cbn [dstepOk]. eapply eqv_err; [apply eqv_sym, He|apply err_intro]. }
    apply arrive with (pre' := pre) (m' := m) (o' := o); cbn [setSt setMembers setOut dout drd]; try assumption; try congruence.
    + exact (orel_same _ _ _ _ _ Ho F2).
    + unfold stInv. cbn [setSt setMembers setOut dst drd]. fold a. split; [exact Ha|]. rewrite El. exact He.
    + right. split; [reflexivity|]. unfold drank. cbn [setSt setMembers setOut dst]. rewrite Es, E8. cbn. lia.
Qed.
Lemma step_ok : stInv cur n d pre m o -> ok (dstep fin d).
Proof.
  intros Hi. unfold dstep. destruct (dst d) as [|h|t| |t|h|t|k| | |t| |t| |] eqn:Es.
  - pose proof Hi as Hj. unfold stInv in Hj. rewrite Es in Hj. cbn zeta in Hj. destruct Hj as [Ep Hb]. apply (st_body SDone Kraw); [congruence|exact Hb| | | |].
    + intros d' m' o' E Hb'. unfold stInv. rewrite E, Es. auto.
    + intros d' E Ha He. unfold stInv. rewrite E. cbn zeta. eapply eqv_trans; [exact He|]. unfold Kraw. destruct (_ =? _)%nat; apply eqv_refl.
    + intros d' E. unfold drank. rewrite E, Es. reflexivity.
    + intros d' E. unfold drank. rewrite E. reflexivity.
  - apply st_zlibHeader; assumption.
  - apply st_zlibDictionary; assumption.
  - pose proof Hi as Hj. unfold stInv in Hj. rewrite Es in Hj. cbn zeta in Hj. destruct Hj as [Ep Hb]. apply (st_body (SZlibTrailer []) Kz); [congruence|exact Hb| | | |].
    + intros d' m' o' E Hb'. unfold stInv. rewrite E, Es. auto.
    + intros d' E Ha He. unfold stInv. rewrite E. cbn zeta. split; [exact Ha|]. split; [exact Ep|]. exists (cur + rpos (drd d'))%nat. cbn [length].
      rewrite Nat.add_0_r, seg_nil. repeat (split; [first [reflexivity|lia]|]). exact He.
    + intros d' E. unfold drank. rewrite E, Es. reflexivity.
    + intros d' E. unfold drank. rewrite E. reflexivity.
  - apply st_zlibTrailer; assumption.
  - apply st_gzipHeader; assumption.
  - apply st_gzipExtraLength; assumption.
  - apply st_gzipExtra; assumption.
  - apply st_gzipName; assumption.
  - apply st_gzipComment; assumption.
  - apply st_gzipHeaderCrc; assumption.
  - pose proof Hi as Hj. unfold stInv in Hj. rewrite Es in Hj. cbn zeta in Hj. apply (st_body (SGzipTrailer []) (Kg (bytesN pre))); [congruence|exact Hj| | | |].
    + intros d' m' o' E Hb'. unfold stInv. rewrite E, Es. auto.
    + intros d' E Ha He. unfold stInv. rewrite E. cbn zeta. split; [exact Ha|]. exists (cur + rpos (drd d'))%nat. cbn [length].
      rewrite Nat.add_0_r, seg_nil. repeat (split; [first [reflexivity|lia]|]). exact He.
    + intros d' E. unfold drank. rewrite E, Es. reflexivity.
    + intros d' E. unfold drank. rewrite E. reflexivity.
  - apply st_gzipTrailer; assumption.
  - unfold stInv in Hi. rewrite Es in Hi. cbn zeta in Hi. fold a in Hi. destruct Hi as [Ha He]. rewrite gz_unfold in He.
    destruct (Nat.eqb_spec (rpos (drd d)) (length (rinput (drd d)))) as [E|E].
    + assert (C : fin = true \/ fin = false) by (destruct fin; auto). destruct C as [Hf|Hf]; rewrite Hf.
      * pose proof (end_abs Hf E) as Hend. apply arrive with (pre' := pre) (m' := m) (o' := o); try assumption; try reflexivity.
        -- unfold stInv. cbn [setSt dst drd]. fold a. rewrite Hend in *. destruct (Nat.leb_spec size size) as [_|]; [|lia]. rewrite Nat.eqb_refl. exact He.
        -- right. split; [reflexivity|]. unfold drank. cbn [setSt dst]. rewrite Es. lia.
      * unfold ok. cbn [dstepOk]. split; [reflexivity|]. split; [exact Hf|]. split; [lia|congruence].
    + destruct (proj1 here E) as (b & Eb). apply here_abs in Eb. assert (Hsz : (a < size)%nat) by (apply nth_error_Some; congruence).
      apply arrive with (pre' := pre) (m' := m) (o' := o); try assumption; try reflexivity.
      * unfold stInv. cbn [beginGzipHeader setSt setFlags setHcrc dst drd dhcrc dflags]. split; [exact Ha|]. exists a. cbn [length]. rewrite Nat.add_0_r. fold a.
        rewrite seg_nil. split; [reflexivity|]. split; [reflexivity|]. split; [lia|]. split; [split; cbn [length]; lia|]. split; [split; [lia|reflexivity]|].
        split; [|lia]. intros _. rewrite gz_unfold. exact He.
      * right. split; [reflexivity|]. unfold drank. cbn [beginGzipHeader setSt setFlags setHcrc dst]. rewrite Es. cbn. lia.
  - unfold stInv in Hi. rewrite Es in Hi. cbn zeta in Hi. fold a in Hi. destruct (Nat.eqb_spec (rpos (drd d)) (length (rinput (drd d)))) as [E|E].
    + unfold ok. cbn [dstepOk]. auto.
    + destruct (proj1 here E) as (b & Eb). apply here_abs in Eb. assert (Hsz : (a < size)%nat) by (apply nth_error_Some; congruence).
      unfold ok. cbn [dstepOk]. eapply eqv_err; [apply eqv_sym, Hi|]. destruct (Nat.eqb_spec a size); [lia|apply err_intro].
Qed.
End Pass.
Lemma dstep_ok cur n p0 fin d : (cur <= size)%nat -> (fin = true -> reaches inp cur n) -> inv cur n p0 d -> dstepOk cur n p0 fin d (dstep fin d).
Proof. intros Hc Hf (pre & m & o & H1 & H2 & H3 & H4 & H5 & H6). eapply step_ok; eassumption. Qed.

(** * One call *)
Definition loopOk (cur n : nat) (p0 : list N) (fin : bool) (cap0 : nat) (x : Dec * Prog) : Prop :=
  let (d', pr) := x in
  match pr with
  | NeedInput => inv cur n p0 d' /\ scap (dout d') = cap0 /\ (fin = false /\ (length (rinput (drd d')) - rpos (drd d') <= 5)%nat) /\ dst d' <> SDone
  | NeedOutput => inv cur n p0 d' /\ scap (dout d') = cap0 /\ sfull (dout d') = true /\ dst d' <> SDone
  | Finished => inv cur n p0 d' /\ scap (dout d') = cap0 /\ dst d' = SDone /\ rpos (drd d') = length (rinput (drd d'))
  | Failed _ => isErr oneShot
  | Advanced | Bad => False
  end.
Lemma dloop_ok cur n p0 fin : (cur <= size)%nat -> (fin = true -> reaches inp cur n) -> forall fuel d, inv cur n p0 d -> (dmeas d < fuel)%nat ->
  loopOk cur n p0 fin (scap (dout d)) (dloop fuel fin d).
Proof.
  intros Hc Hf. induction fuel as [|k IH]; intros d Hi Hm; [lia|]. cbn [dloop]. pose proof (dstep_ok cur n p0 fin d Hc Hf Hi) as Hs.
  destruct (dstep fin d) as [d' pr]. cbn [dstepOk] in Hs. destruct pr; cbn [loopOk].
  - destruct Hs as (H1 & H2 & H3). rewrite <- H3. apply IH; [exact H1|lia].
  - destruct Hs as (-> & H2 & H3 & H4). auto 6.
  - destruct Hs as (-> & H2). auto.
  - destruct Hs as (-> & H2). auto.
  - exact Hs.
  - exact Hs.
Qed.
(** Between calls: [cur] bytes of the input are consumed, [p0] is produced; any piece may come next. *)
Definition entry (d : Dec) (input : list N) (sz : nat) : Dec := setOut (setRd d (setInput (drd d) input)) (setTarget (dout d) sz).
Definition ready (cur : nat) (p0 : list N) (d : Dec) : Prop :=
  (cur <= size)%nat /\ bytesN p0 <= limit /\ forall n sz, inv cur n p0 (entry d (firstn n (skipn cur inp)) sz).
Definition exit (d : Dec) : Dec := setOut (setRd d (clearInput (drd d))) (clearTarget (dout d)).
Lemma exit_entry d input sz : entry (exit d) input sz = setOut (setRd d (setInput (drd d) input)) (setTarget (flushChecksums (dout d)) sz).
Proof. reflexivity. Qed.
Lemma exit_ready cur n p0 d : (cur <= size)%nat -> inv cur n p0 d -> ready (cur + rpos (drd d)) (p0 ++ sout (dout d)) (exit d).
Proof.
  intros Hc (pre & m & o & H1 & H2 & H3 & H4 & H5 & H6).
  assert (Hle : (cur + rpos (drd d) <= size)%nat) by (rewrite H4, firstn_length, skipn_length in H5; fold size in H5; lia).
  split; [exact Hle|]. split; [rewrite <- (so_bytes _ _ _ _ H1), <- (so_total _ _ _ _ H1), <- H3; apply (so_limit _ _ _ _ H1)|].
  intros n' sz. rewrite exit_entry. destruct (flush_spec _ _ _ _ H1) as (F1 & F2 & F3 & F4 & F5 & F6 & F7 & F8). exists pre, m, o.
  cbn [setOut setRd dout drd setInput rinput rpos]. split; [|split; [|split; [cbn [setTarget slimit]; congruence|split; [reflexivity|split; [lia|]]]]].
  - destruct F1 as [G1 G2 G3 G4 G5 G6 G7]. constructor; cbn [setTarget sout stotal slimit scap length]; try assumption.
    + rewrite app_nil_r, <- F3. exact G1.
    + lia.
    + unfold chkOk. cbn [setTarget schk sout scrc smember sadler length skipn]. split; [lia|]. split; [exists m|exists (pre ++ m)]; rewrite app_nil_r; auto.
  - eapply orel_same; [exact H2|]. cbn [setTarget slimit]. exact F2.
  - assert (Hbody : forall K, bodyInv cur n d o K -> bodyInv (cur + rpos (drd d)) n' (setOut (setRd d (setInput (drd d) (firstn n' (skipn (cur + rpos (drd d)) inp)))) (setTarget (flushChecksums (dout d)) sz)) o K).
    { intros K (org & g & ((R1 & R2) & R3 & R4 & R5 & R6) & Q2 & Q3 & Q4). exists org, g. cbn [setOut setRd drd dinf]. split; [|auto].
      unfold rrel. cbn [setInput rinput rpos rbits rcount]. rewrite Nat.add_0_r. repeat split; try assumption. lia. }
    unfold stInv in *. cbn [setOut setRd dst drd dhcrc dflags dinf setInput rpos]. rewrite Nat.add_0_r.
    assert (Hal : aligned (drd d) -> aligned (setInput (drd d) (firstn n' (skipn (cur + rpos (drd d)) inp)))) by (intros [A1 A2]; split; assumption).
    destruct (dst d) eqn:Es; cbn zeta in *; try (destruct H6 as [Ha H6]; split; [apply Hal, Ha|exact H6]); try (destruct H6 as [Ha H6]; split; [exact Ha|apply Hbody, H6]); try exact H6.
    apply Hbody, H6.
Qed.
Definition callOk (cur n : nat) (p0 : list N) (fin : bool) (sz : nat) (x : Dec * res StreamResult) : Prop :=
  let (d', res) := x in
  match res with
  | Ok s => ready (cur + consumed s) (p0 ++ produced s) d' /\ (consumed s <= length (firstn n (skipn cur inp)))%nat /\ (length (produced s) <= sz)%nat /\
      match status s with
      | needInput => fin = false /\ (length (firstn n (skipn cur inp)) <= consumed s + 5)%nat
      | needOutput => length (produced s) = sz
      | done => consumed s = length (firstn n (skipn cur inp)) /\ ((cur + consumed s)%nat <> size -> isErr oneShot) /\
                ((cur + consumed s)%nat = size -> exists o pre m, oneShot = Ok (osize o, o) /\ rep o pre m /\ isSpan o /\ pre ++ m = p0 ++ produced s)
      end
  | Err _ => isErr oneShot
  | _ => False
  end.
Lemma call_ok cur n p0 fin sz d : ready cur p0 d -> (fin = true -> reaches inp cur n) ->
  callOk cur n p0 fin sz (process d (firstn n (skipn cur inp)) sz fin).
Proof.
  intros (Hc & Hb & Hi) Hf. unfold process. fold (entry d (firstn n (skipn cur inp)) sz). specialize (Hi n sz). set (e := entry d (firstn n (skipn cur inp)) sz) in *.
  assert (Hm : (dmeas e < decFuel e)%nat).
  { unfold dmeas, decFuel, work. pose proof (drank_le e). subst e. cbn [entry setOut setRd dout drd setTarget scap sout length]. lia. }
  assert (Hcap : scap (dout e) = sz) by reflexivity.
  pose proof (dloop_ok cur n p0 fin Hc Hf (decFuel e) e Hi Hm) as Hl. rewrite Hcap in Hl. clearbody e. destruct (dloop (decFuel e) fin e) as [d1 pr]. cbn [loopOk] in Hl.
  fold (exit d1). cbn [callOk].
  assert (Hcom : inv cur n p0 d1 -> scap (dout d1) = sz ->
    ready (cur + rpos (drd d1)) (p0 ++ sout (dout d1)) (exit d1) /\ (rpos (drd d1) <= length (firstn n (skipn cur inp)))%nat /\ (length (sout (dout d1)) <= sz)%nat).
  { intros Hv Hs. split; [apply exit_ready with (n := n); assumption|]. destruct Hv as (pre & m & o & H1 & H2 & H3 & H4 & H5 & H6).
    split; [rewrite <- H4; exact H5|]. rewrite <- Hs. apply (so_room _ _ _ _ H1). }
  destruct pr; try contradiction.
  - destruct Hl as (H1 & H2 & H3 & H4). cbn [consumed produced status]. destruct (Hcom H1 H2) as (G1 & G2 & G3). repeat (split; [assumption|]).
    assert (Hle : (length (firstn n (skipn cur inp)) <= rpos (drd d1) + 5)%nat).
    { destruct H1 as (pre & m & o & K1 & K2 & K3 & K4 & K5 & K6). rewrite <- K4. lia. }
    destruct (dst d1); try exact (conj (proj1 H3) Hle). contradiction.
  - destruct Hl as (H1 & H2 & H3 & H4). cbn [consumed produced status]. destruct (Hcom H1 H2) as (G1 & G2 & G3). repeat (split; [assumption|]).
    unfold sfull in H3. apply Nat.eqb_eq in H3. destruct (dst d1); try (rewrite H3; exact H2). contradiction.
  - destruct Hl as (H1 & H2 & H3 & H4). cbn [consumed produced status]. destruct (Hcom H1 H2) as (G1 & G2 & G3). repeat (split; [assumption|]).
    destruct H1 as (pre & m & o & K1 & K2 & K3 & K4 & K5 & K6). unfold stInv in K6. rewrite H3 in *. cbn zeta in K6.
    split; [rewrite <- K4; exact H4|]. split.
    + intros Hne. eapply eqv_err; [apply eqv_sym, K6|]. destruct (Nat.eqb_spec (cur + rpos (drd d1)) size); [contradiction|apply err_intro].
    + intros He. rewrite He, Nat.eqb_refl in K6. exists o, pre, m. split; [|split; [apply K2|split; [apply K2|apply (so_bytes _ _ _ _ K1)]]].
      destruct K6 as [K6|[_ (e' & K6)]]; [exact K6|discriminate].
  - exact Hl.
Qed.
Lemma rep_whole o pre m : rep o pre m -> isSpan o -> firstn (N.to_nat (osize o)) (match o with Span b _ _ => b | _ => [] end) = pre ++ m.
Proof. destruct o as [|b p hb]; [contradiction|]. cbn [rep osize]. intros (_ & _ & H) _. rewrite Nat2N.id. exact H. Qed.
Lemma start_ready hist : ready 0 [] (decReset f limit hist).
Proof.
  split; [lia|]. split; [unfold bytesN; cbn [length]; lia|]. intros n sz. exists [], [], (Span (repeat 0 (N.to_nat limit)) 0 0).
  cbn [entry setOut setRd decReset dout drd setInput setTarget rinput rpos slimit soutReset]. split; [|split; [|split; [reflexivity|split; [reflexivity|split; [lia|]]]]].
  - constructor; [reflexivity|constructor|reflexivity|apply N.le_0_l|apply Nat.le_0_l| |].
    + unfold histOk. cbn [shsize shpos shist]. split; [reflexivity|]. split; [reflexivity|]. intros k Hk. cbn in Hk. lia.
    + unfold chkOk. split; [apply Nat.le_0_l|]. split; exists []; auto.
  - split; [|split; [exact I|]].
    + cbn [rep app length firstn]. split; [reflexivity|]. split; [lia|reflexivity].
    + cbn [cap]. rewrite repeat_length, N2Nat.id. reflexivity.
  - unfold stInv. cbn [entry setOut setRd dst decReset]. destruct f eqn:Ef; cbn zeta; cbn [setOut setRd decReset drd setInput rpos length dhcrc dflags]; rewrite ?Nat.add_0_r.
    + split; [reflexivity|]. exists 0%nat, {| rinput := inp; rpos := 0; rbits := 0; rcount := 0 |}. cbn [entry setOut setRd drd dinf setInput]. split; [|split; [|split]].
      * unfold rrel. cbn [rinput rpos rbits rcount]. repeat split; first [reflexivity|apply Nat.le_0_l].
      * unfold rok. cbn [rinput rpos rbits rcount]. repeat split; try lia. exact Hinp.
      * split; [exact I|]. intros H0. exfalso. apply H0. reflexivity.
      * unfold oneShot. rewrite Ef. cbn [decompressInto]. unfold decodeRaw, decodeDeflate, Kraw. fold size. change (dinf (decReset rawDeflate limit hist)) with inflateReset.
        change (irest inflateReset {| rinput := inp; rpos := 0; rbits := 0; rcount := 0 |} (Span (repeat 0 (N.to_nat limit)) 0 0))
          with (DB {| rinput := inp; rpos := 0; rbits := 0; rcount := 0 |} (Span (repeat 0 (N.to_nat limit)) 0 0)).
        unfold DB. cbn [resetHistory]. match goal with |- eqv (bind (bind ?x _) _) _ => generalize x end. intros x. destruct x as [[r' o']|e| |]; cbn [bind]; apply eqv_refl.
    + split; [split; reflexivity|]. rewrite seg_nil. repeat (split; [first [reflexivity|lia]|]). unfold oneShot. rewrite Ef. apply eqv_refl.
    + split; [split; reflexivity|]. exists 0%nat. cbn [length]. rewrite seg_nil. split; [reflexivity|]. split; [reflexivity|]. split; [lia|].
      split; [split; cbn [length]; lia|]. split; [split; [lia|reflexivity]|]. unfold oneShot. rewrite Ef. cbn [decompressInto]. unfold decodeGzip. split.
      * intros Hs. unfold size in Hs. assert (E : match inp with [] => Err truncatedInput | _ :: _ => gzipMembers (S (length inp)) W inp 0 (Span (repeat 0 (N.to_nat limit)) 0 0) end = gz 0 (Span (repeat 0 (N.to_nat limit)) 0 0)).
        { unfold gz, size. rewrite Nat.sub_0_r. destruct inp; [cbn [length] in Hs; lia|reflexivity]. }
        rewrite E. apply eqv_refl.
      * intros Hs. unfold size in Hs. destruct inp; [apply err_intro|cbn [length] in Hs; lia].
Qed.
End Dec.
