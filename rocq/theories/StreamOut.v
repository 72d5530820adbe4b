(** The output of the streaming decoder: its window, its checksums, its limit. *)
From Coq Require Import List NArith ZArith Arith Bool Lia ZifyBool ZifyNat ZifyN.
From Verif Require Import Base CompModel CompSpec CompBits CompHuff CompDec CompBlk CompWrap StreamModel StreamRd.
From Verif Require CrcModel CrcSpec CrcProofs CrcProps.
Import ListNotations.
Local Open Scope N_scope.

(** Equal results, or two errors. *)
Definition isErr {A} (x : res A) : Prop := exists e, x = Err e.
Definition eqv {A} (x y : res A) : Prop := x = y \/ (isErr x /\ isErr y).
Lemma eqv_refl {A} (x : res A) : eqv x x. Proof. left; reflexivity. Qed.
Lemma eqv_sym {A} (x y : res A) : eqv x y -> eqv y x. Proof. intros [->|[H1 H2]]; [left; reflexivity|right; auto]. Qed.
Lemma eqv_trans {A} (x y z : res A) : eqv x y -> eqv y z -> eqv x z.
Proof. intros [->|[H1 H2]] H; [exact H|]. destruct H as [<-|[H3 H4]]; right; auto. Qed.
Lemma eqv_err {A} (x y : res A) : eqv x y -> isErr x -> isErr y. Proof. intros [->|[H1 H2]] H; auto. Qed.
Lemma eqv_errs {A} (x y : res A) : isErr x -> isErr y -> eqv x y. Proof. right; auto. Qed.
Lemma err_bind {A B} (x : res A) (f : A -> res B) : isErr x -> isErr (bind x f). Proof. intros (e & ->). exists e. reflexivity. Qed.
Lemma eqv_bind {A B} (x y : res A) (f : A -> res B) : eqv x y -> eqv (bind x f) (bind y f).
Proof. intros [->|[H1 H2]]; [apply eqv_refl|right; split; apply err_bind; assumption]. Qed.
Lemma eqv_bind_ext {A B} (x : res A) (f g : A -> res B) : (forall a, x = Ok a -> eqv (f a) (g a)) -> eqv (bind x f) (bind x g).
Proof. intros H. destruct x; cbn [bind]; [apply H; reflexivity|apply eqv_refl..]. Qed.
Lemma err_intro {A} e : isErr (Err e : res A). Proof. exists e. reflexivity. Qed.

(** * Checksums in pieces *)
Definition crcOf (l : list N) : N := CrcModel.updateScalar CrcModel.IEEE 0xffffffff l.
Lemma ieee_good : CrcProofs.goodR CrcModel.IEEE.
Proof. apply (CrcProps.flavour_good CrcModel.IEEE 0x04C11DB7). left; reflexivity. Qed.
Lemma fit_lt_inv w x : CrcProofs.fit w x -> x < 2 ^ w.
Proof.
  intros H. assert (E : N.land x (N.ones w) = x).
  { apply N.bits_inj. intros i. rewrite N.land_spec. destruct (N.lt_ge_cases i w) as [Hi|Hi].
    - rewrite N.ones_spec_low by exact Hi. apply andb_true_r.
    - rewrite (H i Hi). reflexivity. }
  rewrite <- E, N.land_ones. apply N.mod_lt. apply N.pow_nonzero. discriminate.
Qed.
Lemma crcOf_lt l : octets l -> crcOf l < 2 ^ 32.
Proof.
  intros Hl. apply fit_lt_inv. unfold crcOf. assert (F : CrcProofs.fit 32 0xffffffff) by (apply CrcProofs.fit_lt; reflexivity).
  assert (B : CrcProofs.bytes l) by (apply CrcProofs.bytes_lt, Hl).
  rewrite (CrcProofs.updateScalar_bytes _ ieee_good (length l) l) by (first [exact F|exact B|lia]).
  apply (CrcProofs.fold_fit CrcModel.IEEE); first [exact ieee_good|exact F|exact B].
Qed.
Lemma crc_app a b : octets a -> octets b -> CrcModel.updateScalar CrcModel.IEEE (crcOf a) b = crcOf (a ++ b).
Proof.
  intros Ha Hb. unfold crcOf. pose proof (CrcProps.C28_incremental CrcModel.IEEE 1 1 1 0xffffffff a b (or_introl ieee_good) ltac:(reflexivity) Ha Hb) as (_ & H2 & _).
  pose proof (CrcProps.C28_incremental CrcModel.IEEE 1 1 1 (crcOf a) b [] (or_introl ieee_good) (crcOf_lt a Ha) Hb ltac:(constructor)) as (_ & _ & H3).
  rewrite H2. symmetry. exact H3.
Qed.
Lemma crc_compute W l : octets l -> computeCrc32 W l = N.lxor (crcOf l) 0xffffffff.
Proof.
  intros Hl. unfold computeCrc32. destruct (CrcProps.C27_equals_long_division CrcModel.IEEE 0x04C11DB7 W l ltac:(left; reflexivity) Hl) as (_ & E & _).
  rewrite E. unfold CrcModel.computeScalar, CrcModel.trunc. change (CrcModel.width CrcModel.IEEE) with 32. rewrite N.land_ones.
  change (CrcModel.init CrcModel.IEEE) with 0xffffffff. fold (crcOf l). change (CrcModel.xorOut CrcModel.IEEE) with 0xffffffff.
  apply N.mod_small. pose proof (crcOf_lt l Hl) as Hc. apply fit_lt_inv. apply CrcProofs.fit_lxor; apply CrcProofs.fit_lt; [exact Hc|reflexivity].
Qed.
Definition adlerFold (s : N * N) (l : list N) : N * N := fold_left (fun s x => ((fst s + x) mod 65521, (snd s + (fst s + x)) mod 65521)) l s.
Lemma adlerSums_fold l : adlerSums l = adlerFold (1, 0) l. Proof. reflexivity. Qed.
Lemma adler_app a b : octets b -> updateAdler (length b) (fst (adlerSums a)) (snd (adlerSums a)) b = adlerSums (a ++ b).
Proof.
  intros Hb. destruct (adlerSums_lt a) as [H1 H2]. rewrite updateAdler_spec by (try assumption; lia).
  rewrite (adlerSums_fold (a ++ b)). unfold adlerFold. rewrite fold_left_app. rewrite <- surjective_pairing. reflexivity.
Qed.
Lemma sadler_value a so : octets a -> sadler so = adlerSums a -> sadler32 so = adlerSpec a.
Proof.
  intros Ha E. unfold sadler32. rewrite E. rewrite <- adler32_spec by exact Ha. unfold adler32. rewrite updateAdler_spec by (try assumption; lia). reflexivity.
Qed.

(** * The relation of a stream output with the bytes decoded so far *)
(** The window over [m]. *)
Definition histOk (so : SOut) (m : list N) : Prop :=
  shsize so = N.min (bytesN m) kWindowSize /\ shpos so < kWindowSize /\
  forall k, 1 <= k <= shsize so -> shist so ((shpos so + kWindowSize - k) mod kWindowSize) = nth (length m - N.to_nat k) m 0.
(** Running sums over [m] (this member) and [all] (the stream). *)
Definition chkOk (so : SOut) (all m : list N) : Prop :=
  (schk so <= length (sout so))%nat /\
  (exists m1, m = m1 ++ skipn (schk so) (sout so) /\ scrc so = crcOf m1 /\ smember so = bytesN m1 mod 2 ^ 32) /\
  (exists a1, all = a1 ++ skipn (schk so) (sout so) /\ sadler so = adlerSums a1).
(** [p0] was produced by earlier calls; [pre] belongs to earlier members, [m] to this one. *)
Record sok (p0 : list N) (so : SOut) (pre m : list N) : Prop := {
  so_bytes : pre ++ m = p0 ++ sout so;
  so_oct : octets (pre ++ m);
  so_total : stotal so = bytesN (pre ++ m);
  so_limit : stotal so <= slimit so;
  so_room : (length (sout so) <= scap so)%nat;
  so_hist : histOk so m;
  so_chk : chkOk so (pre ++ m) m }.
Definition orel (so : SOut) (o : Output) (pre m : list N) : Prop := rep o pre m /\ isSpan o /\ cap o = slimit so.

Lemma land_window x : N.land x (kWindowSize - 1) = x mod kWindowSize.
Proof. change (kWindowSize - 1) with (N.ones 15). rewrite N.land_ones. reflexivity. Qed.
Lemma sappend_spec p0 so pre m v : sok p0 so pre m -> v < 256 ->
  (sfull so = true /\ sappend so v = Ok None) \/
  (sfull so = false /\ stotal so = slimit so /\ sappend so v = Err sizeLimitExceeded) \/
  (sfull so = false /\ exists so', sappend so v = Ok (Some so') /\ sok p0 so' pre (m ++ [v]) /\ slimit so' = slimit so /\ scap so' = scap so /\
     sout so' = sout so ++ [v] /\ stotal so < slimit so).
Proof.
  intros [Hb Ho Ht Hl Hr (Hs1 & Hs2 & Hs3) (Hc1 & (m1 & Hc2 & Hc3 & Hc4) & (a1 & Hc5 & Hc6))] Hv. unfold sappend. destruct (sfull so) eqn:Ef; [auto|]. right.
  destruct (N.eqb_spec (stotal so) (slimit so)) as [E|E]; [auto|]. right. split; [reflexivity|]. eexists. split; [reflexivity|].
  unfold sfull in Ef. apply Nat.eqb_neq in Ef. split; [|cbn [slimit scap sout]; repeat split; lia].
  constructor; cbn [sout stotal slimit scap].
  - rewrite app_assoc, Hb, app_assoc. reflexivity.
  - rewrite app_assoc. apply octets_app. split; [exact Ho|]. constructor; [exact Hv|constructor].
  - rewrite Ht, app_assoc, (bytesN_app (pre ++ m)), bytesN_one. reflexivity.
  - lia.
  - rewrite app_length. cbn [length]. lia.
  - unfold histOk. cbn [shsize shpos shist]. rewrite land_window, bytesN_app, bytesN_one. unfold kWindowSize in *. split; [lia|]. split; [apply N.mod_lt; discriminate|].
    intros k Hk. rewrite app_length. cbn [length]. unfold updN.
    destruct (N.eq_dec k 1) as [->|Hk1].
    + assert (Ei : ((shpos so + 1) mod 32768 + 32768 - 1) mod 32768 = shpos so) by lia. rewrite Ei, N.eqb_refl.
      change (N.to_nat 1) with 1%nat. replace (length m + 1 - 1)%nat with (length m) by lia. rewrite app_nth2 by lia. rewrite Nat.sub_diag. reflexivity.
    + assert (Ei : ((shpos so + 1) mod 32768 + 32768 - k) mod 32768 = (shpos so + 32768 - (k - 1)) mod 32768) by lia. rewrite Ei.
      assert (Hne : ((shpos so + 32768 - (k - 1)) mod 32768 =? shpos so) = false) by (apply N.eqb_neq; lia). rewrite Hne.
      rewrite Hs3 by lia. unfold bytesN in *. rewrite app_nth1 by lia. f_equal. lia.
  - unfold chkOk. cbn [schk sout scrc smember sadler]. rewrite app_length, skipn_app. cbn [length].
    replace (schk so - length (sout so))%nat with 0%nat by lia. cbn [skipn]. split; [lia|]. split.
    + exists m1. rewrite app_assoc, Hc2. auto.
    + exists a1. rewrite !app_assoc, <- Hc5. auto.
Qed.
Lemma window_byte p0 so pre m d : sok p0 so pre m -> 1 <= d <= shsize so ->
  shist so (N.land (shpos so + kWindowSize - d) (kWindowSize - 1)) = nth (length m - N.to_nat d) m 0.
Proof. intros H Hd. rewrite land_window. apply (so_hist _ _ _ _ H), Hd. Qed.
Lemma flush_spec p0 so pre m : sok p0 so pre m ->
  sok p0 (flushChecksums so) pre m /\ slimit (flushChecksums so) = slimit so /\ sout (flushChecksums so) = sout so /\ scap (flushChecksums so) = scap so /\
  scrc (flushChecksums so) = crcOf m /\ smember (flushChecksums so) = bytesN m mod 2 ^ 32 /\ sadler (flushChecksums so) = adlerSums (pre ++ m) /\
  schk (flushChecksums so) = length (sout so).
Proof.
  intros H. pose proof H as [Hb Ho Ht Hl Hr Hh (Hc1 & (m1 & Hc2 & Hc3 & Hc4) & (a1 & Hc5 & Hc6))]. unfold flushChecksums.
  destruct (Nat.eqb_spec (schk so) (length (sout so))) as [E|E].
  - split; [exact H|]. rewrite E, skipn_all, app_nil_r in Hc2, Hc5. subst m1. subst a1. auto 8.
  - assert (Hf : octets (m1 ++ skipn (schk so) (sout so))) by (rewrite <- Hc2; apply octets_app in Ho; apply Ho).
    apply octets_app in Hf. destruct Hf as [Hm1 Hfr].
    assert (Ecrc : CrcModel.updateScalar CrcModel.IEEE (scrc so) (skipn (schk so) (sout so)) = crcOf m) by (rewrite Hc3, crc_app by assumption; rewrite <- Hc2; reflexivity).
    assert (Ead : updateAdler (length (skipn (schk so) (sout so))) (fst (sadler so)) (snd (sadler so)) (skipn (schk so) (sout so)) = adlerSums (pre ++ m))
      by (rewrite Hc6, adler_app by assumption; rewrite <- Hc5; reflexivity).
    assert (Emem : tr 32 (smember so + tr 32 (bytesN (skipn (schk so) (sout so)))) = bytesN m mod 2 ^ 32).
    { unfold tr. rewrite Hc4, Hc2, bytesN_app. rewrite <- N.add_mod by discriminate. reflexivity. }
    cbn [slimit sout scap scrc smember sadler schk]. split; [|repeat split; assumption].
    constructor; cbn [sout stotal slimit scap]; try assumption.
    unfold chkOk. cbn [schk sout scrc smember sadler]. rewrite skipn_all. split; [lia|]. split; [exists m|exists (pre ++ m)]; rewrite app_nil_r; auto.
Qed.

(** * The back reference, byte by byte *)
Lemma span_parts b p hb pre m : rep (Span b p hb) pre m -> p = (length pre + length m)%nat /\ (p <= length b)%nat /\ hb = length pre /\ firstn p b = pre ++ m.
Proof. intros (H1 & H2 & H3). split; [|auto]. rewrite <- app_length, <- H3, firstn_length. lia. Qed.
Lemma nth_firstn (l : list N) n i d : (i < n)%nat -> nth i (firstn n l) d = nth i l d.
Proof. revert l i; induction n as [|n IH]; intros l i H; [lia|]. destruct l; [reflexivity|]. destruct i; [reflexivity|]. cbn. apply IH. lia. Qed.
Lemma ocopy_zero o pre m d : rep o pre m -> isSpan o -> 1 <= d <= bytesN m -> ocopy o d 0 = Ok o.
Proof.
  destruct o as [|b p hb]; [contradiction|]. intros H _ Hd. destruct (span_parts _ _ _ _ _ H) as (Hp & Hle & Hh & Hf). cbn [ocopy]. unfold bytesN in Hd.
  destruct (N.eqb_spec d 0) as [|_]; [lia|]. destruct (N.ltb_spec (N.of_nat (p - hb)) d) as [|_]; [lia|]. cbn [orb].
  destruct (N.ltb_spec (N.of_nat (length b - p)) 0) as [|_]; [lia|]. change (N.to_nat 0) with 0%nat. cbn [copyBytes bind]. rewrite Nat.add_0_r. reflexivity.
Qed.
Lemma ocopy_step o pre m d l : rep o pre m -> isSpan o -> 1 <= d <= bytesN m -> 0 < l ->
  eqv (ocopy o d l) (let* o1 := append o (nth (length m - N.to_nat d) m 0) in ocopy o1 d (l - 1)).
Proof.
  destruct o as [|b p hb]; [contradiction|]. intros H _ Hd Hl. destruct (span_parts _ _ _ _ _ H) as (Hp & Hle & Hh & Hf). cbn [ocopy append]. unfold bytesN in Hd.
  destruct (N.eqb_spec d 0) as [|_]; [lia|]. destruct (N.ltb_spec (N.of_nat (p - hb)) d) as [|Hd2]; [lia|]. cbn [orb].
  set (v := nth (length m - N.to_nat d) m 0).
  destruct (Nat.eqb_spec p (length b)) as [E|E].
  - cbn [bind]. destruct (N.ltb_spec (N.of_nat (length b - p)) l) as [|]; [|lia]. apply eqv_errs; apply err_intro.
  - unfold aset. destruct (Nat.ltb_spec p (length b)) as [Hlt|]; [|lia]. cbn [bind ocopy].
    destruct (N.eqb_spec d 0) as [|_]; [lia|]. destruct (N.ltb_spec (N.of_nat (S p - hb)) d) as [|_]; [lia|]. cbn [orb]. rewrite length_upd.
    destruct (N.ltb_spec (N.of_nat (length b - p)) l) as [H1|H1]; destruct (N.ltb_spec (N.of_nat (length b - S p)) (l - 1)) as [H2|H2]; try lia.
    + apply eqv_errs; apply err_intro.
    + left. destruct (N.to_nat l) as [|k] eqn:Ek; [lia|]. replace (N.to_nat (l - 1)) with k by lia. cbn [copyBytes].
      destruct (Nat.ltb_spec p (N.to_nat d)) as [|_]; [lia|]. unfold aget.
      assert (Ev : nth_error b (p - N.to_nat d) = Some v).
      { rewrite (nth_error_nth' b 0) by lia. f_equal. rewrite <- (nth_firstn b p) by lia. rewrite Hf, app_nth2 by lia. unfold v. f_equal. lia. }
      rewrite Ev. cbn [bind]. unfold aset. destruct (Nat.ltb_spec p (length b)) as [_|]; [|lia]. cbn [bind].
      replace (p + S k)%nat with (S p + k)%nat by lia. reflexivity.
Qed.
Lemma ocopy_bad o pre m d l : rep o pre m -> isSpan o -> ~ 1 <= d <= bytesN m -> isErr (ocopy o d l).
Proof.
  intros H Hs Hd. destruct (ocopy_spec o pre m d l H) as [(H1 & _)|[(H1 & _)|(_ & E)]]; [contradiction|contradiction|]. rewrite E. apply err_intro.
Qed.
Lemma append_ok o so pre m v so' : orel so o pre m -> slimit so' = slimit so -> stotal so = bytesN (pre ++ m) -> stotal so < slimit so ->
  exists o', append o v = Ok o' /\ orel so' o' pre (m ++ [v]).
Proof.
  intros (Hr & Hs & Hc) El Ht Hlt. destruct (append_spec o pre m v Hr) as [(_ & o' & E & H1 & H2)|(Hbad & _)].
  - exists o'. split; [exact E|]. split; [exact H1|]. split; [apply (sameKind_span _ _ H2), Hs|]. destruct H2 as [H2 _]. congruence.
  - exfalso. rewrite app_assoc, (bytesN_app (pre ++ m)), bytesN_one in Hbad. lia.
Qed.
Lemma append_full o so pre m v : orel so o pre m -> stotal so = bytesN (pre ++ m) -> stotal so = slimit so -> isErr (append o v).
Proof.
  intros (Hr & Hs & Hc) Ht Hlt. destruct (append_spec o pre m v Hr) as [(Hok & _)|(_ & e & E & _)].
  - exfalso. rewrite app_assoc, (bytesN_app (pre ++ m)), bytesN_one in Hok. lia.
  - rewrite E. apply err_intro.
Qed.
