From Coq Require Import List Arith NArith Bool Lia.
From Verif Require Import CrcModel CrcSpec.
Import ListNotations.
Local Open Scope N_scope.

(** *** bit level tools *)
Definition fit (w x : N) : Prop := forall k, w <= k -> N.testbit x k = false.

Lemma fit_lt w x : x < 2 ^ w -> fit w x.
Proof.
  intros H k Hk. destruct (N.eq_dec x 0) as [->|Hn]; [apply N.bits_0|]. apply N.bits_above_log2.
  apply N.log2_lt_pow2 in H; lia.
Qed.
Lemma fit_lxor w a b : fit w a -> fit w b -> fit w (N.lxor a b).
Proof. intros Ha Hb k Hk. rewrite N.lxor_spec, Ha, Hb by exact Hk. reflexivity. Qed.
Lemma fit_shiftr w a n : fit w a -> fit w (N.shiftr a n).
Proof. intros Ha k Hk. rewrite N.shiftr_spec by lia. apply Ha. lia. Qed.
Lemma fit_0 w : fit w 0. Proof. intros k _. apply N.bits_0. Qed.
Lemma fit_mono w v a : w <= v -> fit w a -> fit v a. Proof. intros H Ha k Hk. apply Ha. lia. Qed.
Lemma fit_land_ones w a : fit w (N.land a (N.ones w)).
Proof. intros k Hk. rewrite N.land_spec, N.ones_spec_high by exact Hk. apply andb_false_r. Qed.
Lemma trunc_fit w a : fit w a -> trunc w a = a.
Proof.
  intros Ha. apply N.bits_inj. intros k. unfold trunc. rewrite N.land_spec. destruct (N.lt_ge_cases k w) as [L|L].
  - rewrite N.ones_spec_low by exact L. apply andb_true_r.
  - rewrite Ha by exact L. reflexivity.
Qed.
Lemma fit_trunc w a : fit w (trunc w a). Proof. apply fit_land_ones. Qed.
Lemma fit_shiftl w a n : fit w a -> fit (w + n) (N.shiftl a n).
Proof. intros Ha k Hk. rewrite N.shiftl_spec_high' by lia. apply Ha. lia. Qed.
Lemma trunc_lxor w a b : trunc w (N.lxor a b) = N.lxor (trunc w a) (trunc w b).
Proof. apply N.bits_inj. intros k. unfold trunc. rewrite !N.lxor_spec, !N.land_spec, N.lxor_spec. destruct (N.testbit a k), (N.testbit b k), (N.testbit (N.ones w) k); reflexivity. Qed.
Lemma byteOf_fit x s : fit 8 (byteOf x s). Proof. apply (fit_land_ones 8). Qed.
Lemma split_low x n : x = N.lxor (N.land x (N.ones n)) (N.shiftl (N.shiftr x n) n).
Proof.
  apply N.bits_inj. intros k. rewrite N.lxor_spec, N.land_spec. destruct (N.lt_ge_cases k n) as [L|L].
  - rewrite N.ones_spec_low, N.shiftl_spec_low by exact L. rewrite andb_true_r, xorb_false_r. reflexivity.
  - rewrite N.ones_spec_high, N.shiftl_spec_high', N.shiftr_spec' by exact L. replace (k - n + n) with k by lia. rewrite andb_false_r, xorb_false_l. reflexivity.
Qed.
Lemma lor_lxor n b x : fit n x -> N.lor (N.shiftl b n) x = N.lxor x (N.shiftl b n).
Proof.
  intros Hx. rewrite N.lxor_comm. symmetry. apply N.lxor_lor. apply N.bits_inj. intros k. rewrite N.land_spec, N.bits_0.
  destruct (N.lt_ge_cases k n) as [L|L]; [rewrite N.shiftl_spec_low by exact L; reflexivity|rewrite (Hx k L); apply andb_false_r].
Qed.

Lemma iter_plus n m f x : iter (n + m) f x = iter m f (iter n f x).
Proof. revert x. induction n as [|n IH]; intros x; cbn; auto. Qed.
Lemma iter_ext (f g : N -> N) (P : N -> Prop) : (forall x, P x -> f x = g x) -> (forall x, P x -> P (g x)) -> forall n x, P x -> iter n f x = iter n g x.
Proof. intros H1 H2. induction n as [|n IH]; intros x Hx; cbn; [reflexivity|]. rewrite (H1 x Hx). apply IH, H2, Hx. Qed.
Lemma iter_pres (f : N -> N) (P : N -> Prop) : (forall x, P x -> P (f x)) -> forall n x, P x -> P (iter n f x).
Proof. intros H. induction n as [|n IH]; intros x Hx; cbn; auto. Qed.
Lemma iter_lin (f : N -> N) : (forall a b, f (N.lxor a b) = N.lxor (f a) (f b)) -> forall n a b, iter n f (N.lxor a b) = N.lxor (iter n f a) (iter n f b).
Proof. intros H. induction n as [|n IH]; intros a b; cbn; [reflexivity|]. rewrite H. apply IH. Qed.
Lemma lin_0 (f : N -> N) : (forall a b, f (N.lxor a b) = N.lxor (f a) (f b)) -> f 0 = 0.
Proof. intros H. specialize (H 0 0). rewrite N.lxor_0_l in H. rewrite H at 1. apply N.lxor_nilpotent. Qed.

(** *** reflected engine *)
Section Refl.
Variable P : N.
Definition S1 (c : N) : N := N.lxor (N.shiftr c 1) (if N.testbit c 0 then P else 0).
Definition Sn (n : nat) : N -> N := iter n S1.

Lemma S1_lin a b : S1 (N.lxor a b) = N.lxor (S1 a) (S1 b).
Proof.
  unfold S1. rewrite N.shiftr_lxor, N.lxor_spec. destruct (N.testbit a 0), (N.testbit b 0); cbn [xorb]; rewrite ?N.lxor_0_r; auto.
  - rewrite !N.lxor_assoc. f_equal. rewrite N.lxor_comm, N.lxor_assoc, N.lxor_nilpotent, N.lxor_0_r. reflexivity.
  - rewrite !N.lxor_assoc. f_equal. apply N.lxor_comm.
  - rewrite N.lxor_assoc. reflexivity.
Qed.
Lemma Sn_lin n a b : Sn n (N.lxor a b) = N.lxor (Sn n a) (Sn n b).
Proof. apply iter_lin, S1_lin. Qed.
Lemma Sn_0 n : Sn n 0 = 0. Proof. apply lin_0, Sn_lin. Qed.
Lemma Sn_plus n m x : Sn (n + m) x = Sn m (Sn n x). Proof. apply iter_plus. Qed.
Lemma S1_shiftl x : S1 (N.shiftl x 1) = x.
Proof. unfold S1. rewrite N.shiftl_spec_low by lia. rewrite N.lxor_0_r, N.shiftr_shiftl_l by lia. apply N.shiftl_0_r. Qed.
Lemma Sn_shiftl n : forall x, Sn n (N.shiftl x (N.of_nat n)) = x.
Proof.
  induction n as [|n IH]; intros x; [apply N.shiftl_0_r|]. replace (N.of_nat (S n)) with (N.of_nat n + 1) by lia.
  rewrite <- N.shiftl_shiftl. cbn [Sn iter]. rewrite S1_shiftl. apply IH.
Qed.
Lemma Sn_split n x : Sn n x = N.lxor (Sn n (N.land x (N.ones (N.of_nat n)))) (N.shiftr x (N.of_nat n)).
Proof. rewrite (split_low x (N.of_nat n)) at 1. rewrite Sn_lin, Sn_shiftl. reflexivity. Qed.
Variable w : N.
Hypothesis HP : fit w P.
Lemma S1_fit x : fit w x -> fit w (S1 x).
Proof. intros H. unfold S1. apply fit_lxor; [apply fit_shiftr, H|]. destruct (N.testbit x 0); [exact HP|apply fit_0]. Qed.
Lemma Sn_fit n x : fit w x -> fit w (Sn n x). Proof. apply iter_pres, S1_fit. Qed.

Definition serial (c : N) (l : list bool) : N := fold_left (fun c b => S1 (N.lxor c (N.b2n b))) l c.

Lemma bitsLSB_S n x : bitsLSB (S n) x = N.testbit x 0 :: bitsLSB n (N.shiftr x 1).
Proof.
  unfold bitsLSB. cbn [seq map]. f_equal. rewrite <- seq_shift, map_map. apply map_ext. intros k. rewrite N.shiftr_spec'. f_equal. lia.
Qed.
Lemma low1 x : N.land x (N.ones 1) = N.b2n (N.testbit x 0).
Proof. rewrite N.land_ones. change (2 ^ 1) with 2. rewrite N.bit0_mod. reflexivity. Qed.
Lemma serial_bits n : forall c x, serial c (bitsLSB n x) = Sn n (N.lxor c (N.land x (N.ones (N.of_nat n)))).
Proof.
  induction n as [|n IH]; intros c x.
  - cbn. rewrite N.land_0_r, N.lxor_0_r. reflexivity.
  - rewrite bitsLSB_S. cbn [serial fold_left]. change (fold_left _ _ ?z) with (serial z (bitsLSB n (N.shiftr x 1))). rewrite IH. cbn [Sn iter]. change (iter n S1) with (Sn n). f_equal.
    rewrite (split_low (N.land x (N.ones (N.of_nat (S n)))) 1). rewrite <- N.lxor_assoc, (S1_lin (N.lxor _ _)), S1_shiftl. f_equal.
    + f_equal. f_equal. rewrite low1. f_equal. rewrite N.land_spec, N.ones_spec_low by lia. rewrite andb_true_r. reflexivity.
    + apply N.bits_inj. intros k. rewrite N.shiftr_spec', !N.land_spec, N.shiftr_spec'. f_equal. destruct (N.lt_ge_cases k (N.of_nat n)).
      * rewrite !N.ones_spec_low by lia. reflexivity.
      * rewrite !N.ones_spec_high by lia. reflexivity.
Qed.
Lemma land_fit n x : fit n x -> N.land x (N.ones n) = x. Proof. apply trunc_fit. Qed.
Lemma serial_byte c b : fit 8 b -> serial c (bitsLSB 8 b) = Sn 8 (N.lxor c b).
Proof. intros H. rewrite serial_bits. change (N.of_nat 8) with 8. rewrite land_fit by exact H. reflexivity. Qed.
Lemma serial_app c a b : serial c (a ++ b) = serial (serial c a) b. Proof. apply fold_left_app. Qed.
End Refl.

Definition goodR (t : traits) : Prop := reflected t = true /\ fit (width t) (poly t) /\ fit (width t) (init t) /\ fit (width t) (xorOut t) /\ (width t = 16 \/ width t = 32 \/ width t = 64).

Section ReflEngine.
Variable t : traits.
Hypothesis G : goodR t.
Notation w := (width t).
Notation P := (poly t).
Lemma Hr : reflected t = true. Proof. apply G. Qed.
Lemma HP : fit w P. Proof. apply G. Qed.

Lemma w8 : 8 <= w. Proof. destruct G as (_ & _ & _ & _ & H). lia. Qed.
Lemma shiftR_S1 x : fit w x -> shiftR t x = S1 P x.
Proof. intros H. unfold shiftR. apply trunc_fit. apply (S1_fit P w HP x H). Qed.
Lemma table0_Sn b : fit 8 b -> table0 t b = Sn P 8 b.
Proof.
  intros H. unfold table0. rewrite Hr. pose proof (fit_mono 8 w b w8 H) as H'. rewrite trunc_fit by exact H'.
  apply (iter_ext _ _ (fit w)); [apply shiftR_S1|apply S1_fit, HP|exact H'].
Qed.
Lemma ff_fit x : fit 8 (N.land x 255). Proof. apply (fit_land_ones 8). Qed.
Lemma table_Sn i b : fit 8 b -> table t i b = Sn P (8 * S i) b.
Proof.
  intros H. unfold table. rewrite Hr. rewrite table0_Sn by exact H. replace (8 * S i)%nat with (8 + 8 * i)%nat by lia. rewrite Sn_plus.
  assert (F : fit w (Sn P 8 b)) by (apply Sn_fit; [exact HP|apply (fit_mono 8); [apply w8|exact H]]).
  revert F. generalize (Sn P 8 b). induction i as [|i IH]; intros x F; [reflexivity|]. cbn [iter].
  replace (8 * S i)%nat with (8 + 8 * i)%nat by lia. rewrite Sn_plus.
  assert (E : trunc (width t) (N.lxor (N.shiftr x 8) (table0 t (N.land x 255))) = Sn P 8 x).
  { rewrite table0_Sn by apply ff_fit. rewrite (Sn_split P 8 x). change (N.of_nat 8) with 8. change (N.ones 8) with 255. rewrite N.lxor_comm. apply trunc_fit.
    apply fit_lxor; [apply Sn_fit; [exact HP|apply (fit_mono 8); [apply w8|apply ff_fit]]|apply fit_shiftr, F]. }
  rewrite E. apply IH. apply Sn_fit; [exact HP|exact F].
Qed.
Lemma shiftr8_fit b : fit 8 b -> N.shiftr b 8 = 0.
Proof. intros H. apply N.bits_inj. intros k. rewrite N.shiftr_spec', N.bits_0. apply H. lia. Qed.
Lemma step_Sn crc b : fit w crc -> fit 8 b -> step t crc b = Sn P 8 (N.lxor crc b).
Proof.
  intros Hc Hb. unfold step. rewrite Hr. rewrite table_Sn by apply ff_fit. change (8 * 1)%nat with 8%nat. rewrite (Sn_split P 8 (N.lxor crc b)). change (N.of_nat 8) with 8. change (N.ones 8) with 255.
  rewrite N.shiftr_lxor, (shiftr8_fit b Hb), N.lxor_0_r. rewrite N.lxor_comm. apply trunc_fit.
  apply fit_lxor; [apply Sn_fit; [exact HP|apply (fit_mono 8); [apply w8|apply ff_fit]]|apply fit_shiftr, Hc].
Qed.

(** *** slice-by-8 *)
Lemma peel n x : Sn P (8 + n) x = N.lxor (Sn P (8 + n) (byteOf x 0)) (Sn P n (N.shiftr x 8)).
Proof.
  rewrite (Sn_plus P 8 n x), (Sn_split P 8 x), Sn_lin. change (N.of_nat 8) with 8. unfold byteOf. rewrite N.shiftr_0_r, Sn_plus. reflexivity.
Qed.
Lemma byteOf_shiftr x a b : byteOf (N.shiftr x a) b = byteOf x (a + b).
Proof. unfold byteOf. rewrite N.shiftr_shiftr. reflexivity. Qed.
Lemma Sn64 x : fit 64 x -> Sn P 64 x =
  N.lxor (N.lxor (N.lxor (N.lxor (N.lxor (N.lxor (N.lxor
   (table t 7 (byteOf x 0)) (table t 6 (byteOf x 8))) (table t 5 (byteOf x 16))) (table t 4 (byteOf x 24)))
   (table t 3 (byteOf x 32))) (table t 2 (byteOf x 40))) (table t 1 (byteOf x 48))) (table t 0 (byteOf x 56)).
Proof.
  intros H. rewrite !table_Sn by apply byteOf_fit.
  rewrite (peel 56), (peel 48), (peel 40), (peel 32), (peel 24), (peel 16), (peel 8), (peel 0).
  rewrite !N.shiftr_shiftr, !byteOf_shiftr.
  assert (Z : N.shiftr x (8 + 8 + 8 + 8 + 8 + 8 + 8 + 8) = 0) by (apply N.bits_inj; intros k; rewrite N.shiftr_spec', N.bits_0; apply H; lia).
  rewrite Z. change (Sn P 0 0) with 0. rewrite N.lxor_0_r.
  change (8 + 0) with 8. change (8 + 8 + 0) with 16. change (8 + 8 + 8 + 0) with 24. change (8 + 8 + 8 + 8 + 0) with 32.
  change (8 + 8 + 8 + 8 + 8 + 0) with 40. change (8 + 8 + 8 + 8 + 8 + 8 + 0) with 48. change (8 + 8 + 8 + 8 + 8 + 8 + 8 + 0) with 56.
  rewrite !N.lxor_assoc. reflexivity.
Qed.
Lemma byteOf_lxor a b s : byteOf (N.lxor a b) s = N.lxor (byteOf a s) (byteOf b s).
Proof. unfold byteOf. rewrite N.shiftr_lxor. apply (trunc_lxor 8). Qed.
Lemma byteOf_trunc v a s : s + 8 <= v -> byteOf (trunc v a) s = byteOf a s.
Proof.
  intros H. apply N.bits_inj. intros k. unfold byteOf, trunc. change 255 with (N.ones 8). rewrite !N.land_spec, !N.shiftr_spec', N.land_spec.
  destruct (N.lt_ge_cases k 8); [rewrite (N.ones_spec_low v) by lia; rewrite andb_true_r; reflexivity|rewrite (N.ones_spec_high 8 k) by lia; rewrite !andb_false_r; reflexivity].
Qed.
Lemma byteOf_high v a s : fit v a -> v <= s -> byteOf a s = 0.
Proof.
  intros H L. apply N.bits_inj. intros k. unfold byteOf. rewrite N.land_spec, N.shiftr_spec', H by lia. rewrite N.bits_0. reflexivity.
Qed.
Lemma byteOf_hi32 a s : s + 8 <= 32 -> byteOf (trunc 32 (N.shiftr a 32)) s = byteOf a (32 + s).
Proof. intros H. rewrite byteOf_trunc by exact H. apply byteOf_shiftr. Qed.

Lemma advance8_Sn crc block : fit w crc -> fit 64 block -> advance8 t crc block = Sn P 64 (N.lxor crc block).
Proof.
  intros Hc Hb.
  assert (F64 : fit 64 (N.lxor crc block)) by (apply fit_lxor; [apply (fit_mono w); [destruct G as (_ & _ & _ & _ & H); lia|exact Hc]|exact Hb]).
  rewrite (Sn64 _ F64). unfold advance8. destruct G as (_ & _ & _ & _ & [E|[E|E]]); rewrite E; cbn [N.eqb Pos.eqb].
  - assert (Hc16 : fit 16 crc) by (rewrite E in Hc; exact Hc).
    rewrite (trunc_fit 16 (N.lxor crc _)) by (apply fit_lxor; [exact Hc16|apply fit_trunc]).
    rewrite !byteOf_lxor, !byteOf_trunc by lia.
    rewrite (byteOf_high 16 crc 16), (byteOf_high 16 crc 24), (byteOf_high 16 crc 32), (byteOf_high 16 crc 40), (byteOf_high 16 crc 48), (byteOf_high 16 crc 56) by (exact Hc16 || lia). rewrite !N.lxor_0_l.
    apply trunc_fit. assert (T : forall i b, fit 8 b -> fit 16 (table t i b)).
    { intros i b Hb8. rewrite table_Sn by exact Hb8. rewrite <- E. apply Sn_fit; [exact HP|apply (fit_mono 8); [apply w8|exact Hb8]]. }
    repeat apply fit_lxor; apply T; try apply byteOf_fit; apply fit_lxor; apply byteOf_fit.
  - assert (Hc32 : fit 32 crc) by (rewrite E in Hc; exact Hc).
    rewrite !byteOf_hi32 by lia. rewrite !byteOf_lxor, !byteOf_trunc by lia. rewrite (byteOf_high 32 crc 32), (byteOf_high 32 crc 40), (byteOf_high 32 crc 48), (byteOf_high 32 crc 56) by (exact Hc32 || lia). rewrite !N.lxor_0_l.
    cbn [N.add Pos.add Pos.succ]. rewrite <- !byteOf_lxor. set (A := table t 7 _). set (B := table t 6 _). set (C := table t 5 _). set (D := table t 4 _).
    set (E' := table t 3 _). set (F := table t 2 _). set (H := table t 1 _). set (I := table t 0 _). clearbody A B C D E' F H I. clear.
    apply N.bits_inj. intros k. rewrite !N.lxor_spec. destruct (N.testbit A k), (N.testbit B k), (N.testbit C k), (N.testbit D k), (N.testbit E' k), (N.testbit F k), (N.testbit H k), (N.testbit I k); reflexivity.
  - set (A := table t 7 _). set (B := table t 6 _). set (C := table t 5 _). set (D := table t 4 _).
    set (E' := table t 3 _). set (F := table t 2 _). set (H := table t 1 _). set (I := table t 0 _). clearbody A B C D E' F H I. clear.
    apply N.bits_inj. intros k. rewrite !N.lxor_spec. destruct (N.testbit A k), (N.testbit B k), (N.testbit C k), (N.testbit D k), (N.testbit E' k), (N.testbit F k), (N.testbit H k), (N.testbit I k); reflexivity.
Qed.

Definition bytes (l : list N) : Prop := Forall (fit 8) l.
Definition bstep (c b : N) : N := Sn P 8 (N.lxor c b).

Lemma load8_xor b0 b1 b2 b3 b4 b5 b6 b7 : bytes [b0; b1; b2; b3; b4; b5; b6; b7] ->
  fit 64 (load8 b0 b1 b2 b3 b4 b5 b6 b7) /\
  load8 b0 b1 b2 b3 b4 b5 b6 b7 = N.lxor (N.lxor (N.lxor (N.lxor (N.lxor (N.lxor (N.lxor b0 (N.shiftl b1 8)) (N.shiftl b2 16)) (N.shiftl b3 24)) (N.shiftl b4 32)) (N.shiftl b5 40)) (N.shiftl b6 48)) (N.shiftl b7 56).
Proof.
  intros H. repeat match goal with H : bytes _ |- _ => inversion H; subst; clear H | H : Forall _ (_ :: _) |- _ => inversion H; subst; clear H end.
  unfold load8.
  assert (X : forall n b x, fit 8 b -> fit n x -> N.lor (N.shiftl b n) x = N.lxor x (N.shiftl b n) /\ fit (n + 8) (N.lxor x (N.shiftl b n))).
  { intros n b x Hb Hx. split; [apply lor_lxor, Hx|]. apply fit_lxor; [apply (fit_mono n); [lia|exact Hx]|]. rewrite N.add_comm. apply fit_shiftl, Hb. }
  destruct (X 8 b1 b0) as [-> F1]; auto. destruct (X 16 b2 _ ltac:(eassumption) F1) as [-> F2]. destruct (X 24 b3 _ ltac:(eassumption) F2) as [-> F3].
  destruct (X 32 b4 _ ltac:(eassumption) F3) as [-> F4]. destruct (X 40 b5 _ ltac:(eassumption) F4) as [-> F5]. destruct (X 48 b6 _ ltac:(eassumption) F5) as [-> F6].
  destruct (X 56 b7 _ ltac:(eassumption) F6) as [-> F7]. split; [exact F7|reflexivity].
Qed.

Lemma block8 crc b0 b1 b2 b3 b4 b5 b6 b7 : fit w crc -> bytes [b0; b1; b2; b3; b4; b5; b6; b7] ->
  advance8 t crc (load8 b0 b1 b2 b3 b4 b5 b6 b7) = fold_left bstep [b0; b1; b2; b3; b4; b5; b6; b7] crc.
Proof.
  intros Hc Hb. destruct (load8_xor _ _ _ _ _ _ _ _ Hb) as [F E]. rewrite advance8_Sn by assumption. rewrite E. cbn [fold_left]. unfold bstep.
  assert (Q : forall n c b rest, Sn P (8 + n) (N.lxor (N.lxor c b) (N.shiftl rest 8)) = Sn P n (N.lxor (Sn P 8 (N.lxor c b)) rest)).
  { intros n c b rest. rewrite Sn_plus, Sn_lin. f_equal. f_equal. apply (Sn_shiftl P 8). }
  assert (R : N.lxor crc (N.lxor (N.lxor (N.lxor (N.lxor (N.lxor (N.lxor (N.lxor b0 (N.shiftl b1 8)) (N.shiftl b2 16)) (N.shiftl b3 24)) (N.shiftl b4 32)) (N.shiftl b5 40)) (N.shiftl b6 48)) (N.shiftl b7 56))
    = N.lxor (N.lxor crc b0) (N.shiftl (N.lxor b1 (N.shiftl (N.lxor b2 (N.shiftl (N.lxor b3 (N.shiftl (N.lxor b4 (N.shiftl (N.lxor b5 (N.shiftl (N.lxor b6 (N.shiftl b7 8)) 8)) 8)) 8)) 8)) 8)) 8)).
  { rewrite !N.shiftl_lxor, !N.shiftl_shiftl. cbn [N.add Pos.add Pos.succ]. rewrite !N.lxor_assoc. reflexivity. }
  rewrite R. change 64%nat with (8 + 56)%nat. rewrite Q. rewrite <- N.lxor_assoc. change 56%nat with (8 + 48)%nat. rewrite Q. rewrite <- N.lxor_assoc.
  change 48%nat with (8 + 40)%nat. rewrite Q. rewrite <- N.lxor_assoc. change 40%nat with (8 + 32)%nat. rewrite Q. rewrite <- N.lxor_assoc.
  change 32%nat with (8 + 24)%nat. rewrite Q. rewrite <- N.lxor_assoc. change 24%nat with (8 + 16)%nat. rewrite Q. rewrite <- N.lxor_assoc.
  change 16%nat with (8 + 8)%nat. rewrite Q. reflexivity.
Qed.

Lemma bstep_fit c b : fit w c -> fit 8 b -> fit w (bstep c b).
Proof. intros Hc Hb. apply Sn_fit; [exact HP|]. apply fit_lxor; [exact Hc|apply (fit_mono 8); [apply w8|exact Hb]]. Qed.
Lemma fold_fit l : forall c, fit w c -> bytes l -> fit w (fold_left bstep l c).
Proof. induction l as [|b l IH]; intros c Hc Hl; cbn; [exact Hc|]. inversion Hl; subst. apply IH; [apply bstep_fit; assumption|assumption]. Qed.
Lemma fold_step l : forall c, fit w c -> bytes l -> fold_left (step t) l c = fold_left bstep l c.
Proof. induction l as [|b l IH]; intros c Hc Hl; cbn; [reflexivity|]. inversion Hl; subst. rewrite step_Sn by assumption. apply IH; [apply bstep_fit; assumption|assumption]. Qed.

Lemma bytes_app a b : bytes (a ++ b) <-> bytes a /\ bytes b. Proof. apply Forall_app. Qed.

Lemma updateScalar_bytes n : forall l c, (length l <= n)%nat -> fit w c -> bytes l -> updateScalar t c l = fold_left bstep l c.
Proof.
  induction n as [|n IH]; intros l c Hn Hc Hl; [destruct l; [reflexivity|cbn in Hn; lia]|].
  destruct l as [|b0 [|b1 [|b2 [|b3 [|b4 [|b5 [|b6 [|b7 r]]]]]]]]; try (cbn [updateScalar]; apply fold_step; assumption).
  cbn [updateScalar]. rewrite Hr.
  assert (H8 : bytes [b0; b1; b2; b3; b4; b5; b6; b7] /\ bytes r) by (apply bytes_app; exact Hl). destruct H8 as [H8 Hrr].
  rewrite block8 by assumption. cbn [length] in Hn. rewrite IH; [|lia|apply fold_fit; assumption|exact Hrr].
  change (b0 :: b1 :: b2 :: b3 :: b4 :: b5 :: b6 :: b7 :: r) with ([b0; b1; b2; b3; b4; b5; b6; b7] ++ r). rewrite fold_left_app. reflexivity.
Qed.
Lemma chunk_bytes n : forall l c, length l = (8 * n)%nat -> fit w c -> bytes l -> chunk t c l = fold_left bstep l c.
Proof.
  induction n as [|n IH]; intros l c Hn Hc Hl; [destruct l; [reflexivity|cbn in Hn; lia]|].
  destruct l as [|b0 [|b1 [|b2 [|b3 [|b4 [|b5 [|b6 [|b7 r]]]]]]]]; try (cbn [length] in Hn; lia).
  cbn [chunk]. rewrite Hr.
  assert (H8 : bytes [b0; b1; b2; b3; b4; b5; b6; b7] /\ bytes r) by (apply bytes_app; exact Hl). destruct H8 as [H8 Hrr].
  rewrite block8 by assumption. cbn [length] in Hn. rewrite IH; [|lia|apply fold_fit; assumption|exact Hrr].
  change (b0 :: b1 :: b2 :: b3 :: b4 :: b5 :: b6 :: b7 :: r) with ([b0; b1; b2; b3; b4; b5; b6; b7] ++ r). rewrite fold_left_app. reflexivity.
Qed.
Lemma chunks_bytes W k (Hk : W = (8 * k)%nat) n : forall l c, (n * W <= length l)%nat -> fit w c -> bytes l -> chunks t W n c l = fold_left bstep l c.
Proof.
  induction n as [|n IH]; intros l c Hn Hc Hl; cbn [chunks]; [apply (updateScalar_bytes (length l)); auto|].
  assert (Hl' := Hl). rewrite <- (firstn_skipn W l) in Hl'. apply bytes_app in Hl'. destruct Hl' as [H1 H2].
  rewrite (chunk_bytes k) by (try assumption; rewrite firstn_length; lia). rewrite IH; [|rewrite skipn_length; lia|apply fold_fit; assumption|exact H2].
  rewrite <- fold_left_app, firstn_skipn. reflexivity.
Qed.
Lemma updateSimd_bytes W l c : fit w c -> bytes l -> updateSimd t W c l = fold_left bstep l c.
Proof.
  intros Hc Hl. unfold updateSimd. destruct (Nat.leb 8 W && Nat.eqb (Nat.modulo W 8) 0) eqn:E; [|apply (updateScalar_bytes (length l)); auto].
  apply andb_true_iff in E. destruct E as [E1 E2]. apply Nat.leb_le in E1. apply Nat.eqb_eq in E2.
  apply (chunks_bytes W (Nat.div W 8)); auto.
  - rewrite (Nat.div_mod W 8) at 1 by lia. lia.
  - rewrite Nat.mul_comm. apply Nat.mul_div_le. lia.
Qed.
Lemma fold_serial l : forall c, bytes l -> fold_left bstep l c = serial P c (msgBits true l).
Proof.
  induction l as [|b l IH]; intros c Hl; [reflexivity|]. inversion Hl; subst. cbn [fold_left msgBits flat_map]. rewrite serial_app, serial_byte by assumption. apply IH. assumption.
Qed.
End ReflEngine.

(** *** long division *)
Definition lstep (g l : list bool) (b : bool) : list bool :=
  match l with a :: r => if xorb a b then xorFront g (r ++ [false]) else r ++ [false] | [] => [] end.

Lemma xorFront_length s l : length (xorFront s l) = length l.
Proof. revert s. induction l as [|b l IH]; intros [|a s]; cbn; auto. Qed.
Lemma xorFront_nil l : xorFront [] l = l. Proof. destruct l; reflexivity. Qed.
Lemma xorFront_assoc a : forall b l, length a = length b -> xorFront a (xorFront b l) = xorFront (xorFront a b) l.
Proof.
  induction a as [|x a IH]; intros [|y b] [|z l] H; cbn in *; try discriminate; auto. rewrite IH by lia. rewrite xorb_assoc_reverse. reflexivity.
Qed.
Lemma xorFront_pad r : forall l, (length r < length l)%nat -> xorFront (r ++ [false]) l = xorFront r l.
Proof. induction r as [|x r IH]; intros [|z l] H; cbn in *; try lia; [destruct z, l; reflexivity|]. rewrite IH by lia. reflexivity. Qed.
Lemma xorFront_zeros r : xorFront r (repeat false (length r)) = r.
Proof. induction r as [|x r IH]; cbn; [reflexivity|]. rewrite IH, xorb_false_r. reflexivity. Qed.

Lemma longdiv_fold w g (Hg : length g = w) (Hw : (0 < w)%nat) msg : forall ini, length ini = w ->
  longdiv g (length msg) (xorFront ini (msg ++ repeat false w)) = fold_left (lstep g) msg ini.
Proof.
  induction msg as [|b msg IH]; intros ini Hi; cbn [length longdiv fold_left app].
  - rewrite <- Hi. rewrite xorFront_zeros. destruct ini; reflexivity.
  - destruct ini as [|a r]; [cbn in Hi; lia|]. cbn [xorFront length lstep] in *.
    assert (L : (length r < length (msg ++ repeat false w))%nat) by (rewrite app_length, repeat_length; lia).
    destruct (xorb a b).
    + rewrite <- (xorFront_pad r) by exact L. rewrite xorFront_assoc by (rewrite app_length; cbn; lia). apply IH. rewrite xorFront_length, app_length. cbn. lia.
    + rewrite <- (xorFront_pad r) by exact L. apply IH. rewrite app_length. cbn. lia.
Qed.

Lemma xorFront_map {X} (f g : X -> bool) l : xorFront (map f l) (map g l) = map (fun x => xorb (f x) (g x)) l.
Proof. induction l as [|x l IH]; cbn; [reflexivity|]. rewrite IH. reflexivity. Qed.
Lemma bitsLSB_lxor n a b : xorFront (bitsLSB n a) (bitsLSB n b) = bitsLSB n (N.lxor a b).
Proof. unfold bitsLSB. rewrite xorFront_map. apply map_ext. intros k. rewrite N.lxor_spec. reflexivity. Qed.
Lemma bitsMSB_map n x : bitsMSB n x = map (fun i => N.testbit x (N.of_nat i)) (rev (seq 0 n)).
Proof. unfold bitsMSB, bitsLSB. rewrite map_rev. reflexivity. Qed.
Lemma bitsMSB_lxor n a b : xorFront (bitsMSB n a) (bitsMSB n b) = bitsMSB n (N.lxor a b).
Proof. rewrite !bitsMSB_map, xorFront_map. apply map_ext. intros k. rewrite N.lxor_spec. reflexivity. Qed.
Lemma bitsLSB_length n x : length (bitsLSB n x) = n. Proof. unfold bitsLSB. rewrite map_length, seq_length. reflexivity. Qed.
Lemma bitsMSB_length n x : length (bitsMSB n x) = n. Proof. unfold bitsMSB. rewrite rev_length. apply bitsLSB_length. Qed.
Lemma bitsLSB_snoc n x : fit (N.of_nat n) x -> bitsLSB n x ++ [false] = bitsLSB (S n) x.
Proof. intros H. unfold bitsLSB. rewrite seq_S, map_app. cbn [map]. rewrite H by lia. reflexivity. Qed.

Lemma lstep_S1 n P c b : fit (N.of_nat (S n)) c -> lstep (bitsLSB (S n) P) (bitsLSB (S n) c) b = bitsLSB (S n) (S1 P (N.lxor c (N.b2n b))).
Proof.
  intros H. rewrite (bitsLSB_S n c). cbn [lstep]. rewrite bitsLSB_snoc.
  2:{ intros k Hk. rewrite N.shiftr_spec'. apply H. lia. }
  unfold S1. rewrite N.lxor_spec, N.shiftr_lxor. assert (E1 : N.testbit (N.b2n b) 0 = b) by (destruct b; reflexivity). rewrite E1.
  assert (E2 : N.shiftr (N.b2n b) 1 = 0) by (destruct b; reflexivity). rewrite E2, N.lxor_0_r.
  destruct (xorb (N.testbit c 0) b); [|rewrite N.lxor_0_r; reflexivity]. rewrite bitsLSB_lxor. f_equal. apply N.lxor_comm.
Qed.

Lemma serial_lstep n P (HP : fit (N.of_nat (S n)) P) l : forall c, fit (N.of_nat (S n)) c ->
  fold_left (lstep (bitsLSB (S n) P)) l (bitsLSB (S n) c) = bitsLSB (S n) (serial P c l).
Proof.
  induction l as [|b l IH]; intros c Hc; [reflexivity|]. cbn [fold_left serial]. rewrite lstep_S1 by exact Hc. apply IH.
  apply S1_fit; [exact HP|]. apply fit_lxor; [exact Hc|]. apply (fit_mono 1); [lia|]. intros k Hk. destruct b; cbn [N.b2n]; [|apply N.bits_0]. apply fit_lt with (w := 1); [reflexivity|exact Hk].
Qed.

(** *** not reflected engine *)
Section NonRefl.
Variable P w : N.
Hypothesis HP : fit w P.
Definition L1 (c : N) : N := trunc w (N.lxor (N.shiftl c 1) (if N.testbit c (w - 1) then P else 0)).
Lemma L1_lin a b : L1 (N.lxor a b) = N.lxor (L1 a) (L1 b).
Proof.
  unfold L1. rewrite <- trunc_lxor. f_equal. rewrite N.shiftl_lxor, N.lxor_spec. destruct (N.testbit a (w - 1)), (N.testbit b (w - 1)); cbn [xorb]; rewrite ?N.lxor_0_r; auto.
  - rewrite !N.lxor_assoc. f_equal. rewrite N.lxor_comm, N.lxor_assoc, N.lxor_nilpotent, N.lxor_0_r. reflexivity.
  - rewrite !N.lxor_assoc. f_equal. apply N.lxor_comm.
  - rewrite N.lxor_assoc. reflexivity.
Qed.
Definition Ln (n : nat) : N -> N := iter n L1.
Lemma Ln_lin n a b : Ln n (N.lxor a b) = N.lxor (Ln n a) (Ln n b). Proof. apply iter_lin, L1_lin. Qed.
Lemma Ln_fit n x : fit w x -> fit w (Ln n x). Proof. apply iter_pres. intros. apply fit_trunc. Qed.
Lemma L1_low x : 0 < w -> fit (w - 1) x -> L1 x = N.shiftl x 1.
Proof.
  intros Hw Hx. unfold L1. rewrite (Hx (w - 1)) by lia. rewrite N.lxor_0_r. apply trunc_fit. apply (fit_mono (w - 1 + 1)); [lia|]. apply fit_shiftl, Hx.
Qed.
Lemma Ln_low n : forall x, N.of_nat n <= w -> fit (w - N.of_nat n) x -> Ln n x = N.shiftl x (N.of_nat n).
Proof.
  induction n as [|n IH]; intros x Hn Hx; [symmetry; apply N.shiftl_0_r|]. unfold Ln; cbn [iter]; fold (Ln n). rewrite L1_low; [|lia|apply (fit_mono (w - N.of_nat (S n))); [lia|exact Hx]].
  rewrite IH; [|lia|]. { rewrite N.shiftl_shiftl. f_equal. lia. }
  apply (fit_mono (w - N.of_nat (S n) + 1)); [lia|]. apply fit_shiftl, Hx.
Qed.
Definition serialL (c : N) (l : list bool) : N := fold_left (fun c b => L1 (N.lxor c (N.shiftl (N.b2n b) (w - 1)))) l c.
Lemma bitsMSB_S n x : bitsMSB (S n) x = N.testbit x (N.of_nat n) :: bitsMSB n x.
Proof. rewrite !bitsMSB_map, seq_S, rev_app_distr. reflexivity. Qed.
Lemma serialL_bits n : forall c x, N.of_nat n <= w -> serialL c (bitsMSB n x) = Ln n (N.lxor c (N.shiftl (N.land x (N.ones (N.of_nat n))) (w - N.of_nat n))).
Proof.
  induction n as [|n IH]; intros c x Hn.
  - cbn. rewrite N.land_0_r, N.shiftl_0_l, N.lxor_0_r. reflexivity.
  - rewrite bitsMSB_S. unfold serialL; cbn [fold_left]; fold (serialL (L1 (N.lxor c (N.shiftl (N.b2n (N.testbit x (N.of_nat n))) (w - 1)))) (bitsMSB n x)). rewrite IH by lia.
    unfold Ln; cbn [iter]; fold (Ln n). f_equal.
    assert (E : N.land x (N.ones (N.of_nat (S n))) = N.lxor (N.shiftl (N.b2n (N.testbit x (N.of_nat n))) (N.of_nat n)) (N.land x (N.ones (N.of_nat n)))).
    { apply N.bits_inj. intros k. rewrite N.lxor_spec, !N.land_spec. destruct (N.lt_trichotomy k (N.of_nat n)) as [L|[L|L]].
      - rewrite !N.ones_spec_low, N.shiftl_spec_low by lia. destruct (N.testbit x k); reflexivity.
      - subst k. rewrite N.ones_spec_low, N.ones_spec_high, N.shiftl_spec_high' by lia. rewrite N.sub_diag. destruct (N.testbit x (N.of_nat n)); reflexivity.
      - rewrite !N.ones_spec_high, N.shiftl_spec_high' by lia. rewrite !andb_false_r. assert (F : fit 1 (N.b2n (N.testbit x (N.of_nat n)))) by (apply fit_lt; destruct (N.testbit x (N.of_nat n)); reflexivity).
        rewrite F by lia. reflexivity. }
    rewrite E, N.shiftl_lxor, N.shiftl_shiftl. replace (N.of_nat n + (w - N.of_nat (S n))) with (w - 1) by lia.
    rewrite <- N.lxor_assoc, (L1_lin (N.lxor _ _)). f_equal. rewrite L1_low; [|lia|].
    + rewrite N.shiftl_shiftl. f_equal. lia.
    + apply (fit_mono (N.of_nat n + (w - N.of_nat (S n)))); [lia|]. apply fit_shiftl, fit_land_ones.
Qed.
Lemma serialL_app c a b : serialL c (a ++ b) = serialL (serialL c a) b. Proof. apply fold_left_app. Qed.
End NonRefl.

Definition goodL (t : traits) : Prop := reflected t = false /\ fit (width t) (poly t) /\ fit (width t) (init t) /\ fit (width t) (xorOut t) /\ 8 <= width t.

Section NonReflEngine.
Variable t : traits.
Hypothesis G : goodL t.
Notation w := (width t).
Notation P := (poly t).
Lemma HrL : reflected t = false. Proof. apply G. Qed.
Lemma HPL : fit w P. Proof. apply G. Qed.
Lemma lw8 : 8 <= w. Proof. apply G. Qed.
Lemma shiftL_L1 x : shiftL t x = L1 P w x.
Proof. unfold shiftL, L1.  destruct (N.testbit x (w - 1)); [reflexivity|]. rewrite N.lxor_0_r. reflexivity. Qed.
Lemma table0_Ln b : fit 8 b -> table0 t b = Ln P w 8 (N.shiftl b (w - 8)).
Proof.
  intros H. pose proof lw8. unfold table0. rewrite HrL.  rewrite (trunc_fit w b) by (apply (fit_mono 8); assumption).
  rewrite trunc_fit. 2:{ apply (fit_mono (8 + (w - 8))); [lia|]. apply fit_shiftl, H. }
  apply (iter_ext _ _ (fun _ => True)); auto. intros. apply shiftL_L1.
Qed.
Lemma stepL_Ln crc b : fit w crc -> fit 8 b -> step t crc b = Ln P w 8 (N.lxor crc (N.shiftl b (w - 8))).
Proof.
  intros Hc Hb. pose proof lw8 as H8. unfold step. rewrite HrL.  unfold table. cbn [iter].
  assert (F : N.land (N.lxor (N.shiftr crc (w - 8)) b) 255 = N.lxor (N.shiftr crc (w - 8)) b).
  { apply (land_fit 8). apply fit_lxor; [|exact Hb]. intros k Hk. rewrite N.shiftr_spec'. apply Hc. lia. }
  rewrite F. rewrite table0_Ln. 2:{ apply fit_lxor; [|exact Hb]. intros k Hk. rewrite N.shiftr_spec'. apply Hc. lia. }
  assert (D : N.lxor crc (N.shiftl b (w - 8)) = N.lxor (N.land crc (N.ones (w - 8))) (N.shiftl (N.lxor (N.shiftr crc (w - 8)) b) (w - 8))).
  { rewrite N.shiftl_lxor, <- N.lxor_assoc, <- split_low. reflexivity. }
  rewrite D, Ln_lin. rewrite (Ln_low P w 8 (N.land _ _)); [|exact H8|apply fit_land_ones].
  rewrite trunc_fit.
  - f_equal. apply N.bits_inj. intros k. unfold trunc. rewrite N.land_spec. change (N.of_nat 8) with 8. destruct (N.lt_ge_cases k 8) as [L|L].
    + rewrite !N.shiftl_spec_low by exact L. reflexivity.
    + rewrite !N.shiftl_spec_high' by exact L. rewrite N.land_spec. f_equal. destruct (N.lt_ge_cases k w); [rewrite !N.ones_spec_low by lia|rewrite !N.ones_spec_high by lia]; reflexivity.
  - apply fit_lxor; [apply fit_trunc|]. apply Ln_fit. apply (fit_mono (8 + (w - 8))); [lia|]. apply fit_shiftl.
    apply fit_lxor; [|exact Hb]. intros k Hk. rewrite N.shiftr_spec'. apply Hc. lia.
Qed.
Lemma foldL_serial l : forall c, fit w c -> bytes l -> fold_left (step t) l c = serialL P w c (msgBits false l) /\ fit w (fold_left (step t) l c).
Proof.
  induction l as [|b l IH]; intros c Hc Hl; [split; [reflexivity|exact Hc]|]. inversion Hl; subst. cbn [fold_left msgBits flat_map].
  rewrite stepL_Ln by assumption. rewrite serialL_app, serialL_bits by apply lw8. change (N.of_nat 8) with 8. rewrite (land_fit 8 b) by assumption. apply IH; [|assumption].
  apply Ln_fit, fit_lxor; [exact Hc|]. pose proof lw8. apply (fit_mono (8 + (w - 8))); [lia|]. apply fit_shiftl. assumption.
Qed.
Lemma updateScalarL l c : updateScalar t c l = fold_left (step t) l c.
Proof. destruct l as [|b0 [|b1 [|b2 [|b3 [|b4 [|b5 [|b6 [|b7 r]]]]]]]]; try reflexivity. cbn [updateScalar]. rewrite HrL. reflexivity. Qed.
Lemma chunkL l c : (8 <= length l)%nat -> chunk t c l = fold_left (step t) l c.
Proof. intros H. destruct l as [|b0 [|b1 [|b2 [|b3 [|b4 [|b5 [|b6 [|b7 r]]]]]]]]; try (cbn in H; lia). cbn [chunk]. rewrite HrL. reflexivity. Qed.
Lemma chunksL W n : (8 <= W)%nat -> forall l c, (n * W <= length l)%nat -> chunks t W n c l = fold_left (step t) l c.
Proof.
  intros HW. induction n as [|n IH]; intros l c Hn; cbn [chunks]; [apply updateScalarL|].
  rewrite chunkL by (rewrite firstn_length; lia). rewrite IH by (rewrite skipn_length; lia). rewrite <- fold_left_app, firstn_skipn. reflexivity.
Qed.
Lemma updateSimdL W l c : updateSimd t W c l = fold_left (step t) l c.
Proof.
  unfold updateSimd. destruct (Nat.leb 8 W && Nat.eqb (Nat.modulo W 8) 0) eqn:E; [|apply updateScalarL].
  apply andb_true_iff in E. destruct E as [E1 _]. apply Nat.leb_le in E1.
  assert (Hn : (length l / W * W <= length l)%nat) by (rewrite Nat.mul_comm; apply Nat.mul_div_le; lia).
  apply chunksL; assumption.
Qed.
End NonReflEngine.

Lemma bitsMSB_snoc n x : bitsMSB n x ++ [false] = bitsMSB (S n) (N.shiftl x 1).
Proof.
  rewrite !bitsMSB_map. change (seq 0 (S n)) with (0%nat :: seq 1 n). cbn [rev]. rewrite map_app. cbn [map]. f_equal.
  - rewrite <- seq_shift, <- map_rev, map_map. apply map_ext. intros k. rewrite N.shiftl_spec_high' by lia. f_equal. lia.
  - rewrite N.shiftl_spec_low by lia. reflexivity.
Qed.
Lemma bitsMSB_trunc n x : bitsMSB n (trunc (N.of_nat n) x) = bitsMSB n x.
Proof.
  rewrite !bitsMSB_map. apply map_ext_in. intros k Hk. apply in_rev, in_seq in Hk. unfold trunc. rewrite N.land_spec, N.ones_spec_low by lia. apply andb_true_r.
Qed.
Lemma lstep_L1 n P c b : lstep (bitsMSB (S n) P) (bitsMSB (S n) c) b = bitsMSB (S n) (L1 P (N.of_nat (S n)) (N.lxor c (N.shiftl (N.b2n b) (N.of_nat (S n) - 1)))).
Proof.
  rewrite (bitsMSB_S n c). cbn [lstep]. unfold L1. rewrite bitsMSB_trunc, N.lxor_spec. replace (N.of_nat (S n) - 1) with (N.of_nat n) by lia.
  rewrite N.shiftl_spec_high' by lia. rewrite N.sub_diag. assert (E1 : N.testbit (N.b2n b) 0 = b) by (destruct b; reflexivity). rewrite E1.
  assert (E2 : bitsMSB (S n) (N.shiftl (N.lxor c (N.shiftl (N.b2n b) (N.of_nat n))) 1) = bitsMSB n c ++ [false]).
  { rewrite <- bitsMSB_snoc. f_equal. rewrite !bitsMSB_map. apply map_ext_in. intros k Hk. apply in_rev, in_seq in Hk. rewrite N.lxor_spec, N.shiftl_spec_low by lia. apply xorb_false_r. }
  destruct (xorb (N.testbit c (N.of_nat n)) b).
  - rewrite <- bitsMSB_lxor, E2, <- E2. rewrite bitsMSB_lxor, bitsMSB_lxor. f_equal. apply N.lxor_comm.
  - rewrite N.lxor_0_r. symmetry. exact E2.
Qed.
Lemma serialL_lstep n P l : forall c, fold_left (lstep (bitsMSB (S n) P)) l (bitsMSB (S n) c) = bitsMSB (S n) (serialL P (N.of_nat (S n)) c l).
Proof. induction l as [|b l IH]; intros c; [reflexivity|]. cbn [fold_left serialL]. rewrite lstep_L1. apply IH. Qed.

(** *** results *)
Lemma bits_inj_w n a b : fit (N.of_nat n) a -> fit (N.of_nat n) b -> bitsLSB n a = bitsLSB n b -> a = b.
Proof.
  intros Ha Hb E. apply N.bits_inj. intros k. destruct (N.lt_ge_cases k (N.of_nat n)) as [L|L]; [|rewrite Ha, Hb by exact L; reflexivity].
  assert (X : nth_error (bitsLSB n a) (N.to_nat k) = nth_error (bitsLSB n b) (N.to_nat k)) by (rewrite E; reflexivity).
  assert (Y : forall x, nth_error (bitsLSB n x) (N.to_nat k) = Some (N.testbit x k)).
  { intros x. unfold bitsLSB. rewrite nth_error_map. rewrite (nth_error_nth' _ 0%nat) by (rewrite seq_length; lia). rewrite seq_nth by lia. cbn. f_equal. f_equal. lia. }
  rewrite !Y in X. injection X as X. exact X.
Qed.

Lemma reflected_division t (G : goodR t) W l : bytes l ->
  updateSimd t W (init t) l = updateScalar t (init t) l /\
  bitsLSB (N.to_nat (width t)) (updateScalar t (init t) l) = remainder (N.to_nat (width t)) (bitsLSB (N.to_nat (width t)) (poly t)) (bitsLSB (N.to_nat (width t)) (init t)) (msgBits true l) /\
  fit (width t) (updateScalar t (init t) l).
Proof.
  intros Hl. pose proof G as (_ & HP & HI & _ & Hw).
  rewrite (updateSimd_bytes t G W l _ HI Hl), (updateScalar_bytes t G (length l) l _ (Nat.le_refl _) HI Hl). split; [reflexivity|]. split; [|apply fold_fit; assumption].
  unfold remainder. set (n := N.to_nat (width t)). assert (En : exists m, n = S m) by (exists (pred n); lia). destruct En as [m Em].
  assert (Wn : N.of_nat (S m) = width t) by lia.
  rewrite (longdiv_fold n); try apply bitsLSB_length; [|lia]. rewrite Em. rewrite serial_lstep by (rewrite Wn; assumption). rewrite (fold_serial t) by assumption. reflexivity.
Qed.

Lemma nonreflected_division t (G : goodL t) W l : bytes l ->
  updateSimd t W (init t) l = updateScalar t (init t) l /\
  bitsMSB (N.to_nat (width t)) (updateScalar t (init t) l) = remainder (N.to_nat (width t)) (bitsMSB (N.to_nat (width t)) (poly t)) (bitsMSB (N.to_nat (width t)) (init t)) (msgBits false l) /\
  fit (width t) (updateScalar t (init t) l).
Proof.
  intros Hl. pose proof G as (_ & HP & HI & _ & Hw).
  rewrite (updateSimdL t G), (updateScalarL t G). split; [reflexivity|]. destruct (foldL_serial t G l (init t) HI Hl) as [E F]. split; [|exact F].
  unfold remainder. set (n := N.to_nat (width t)). assert (En : exists m, n = S m) by (exists (pred n); lia). destruct En as [m Em].
  assert (Wn : N.of_nat (S m) = width t) by lia.
  rewrite (longdiv_fold n); try apply bitsMSB_length; [|lia]. rewrite Em, serialL_lstep, Wn, E. reflexivity.
Qed.

(** *** error detection *)
Section Detect.
Variable P w : N.
Hypothesis HP : fit w P.
Hypothesis Top : N.testbit P (w - 1) = true.
Hypothesis Hw : 0 < w.

Lemma S1_inj0 c : fit w c -> S1 P c = 0 -> c = 0.
Proof.
  intros Hc H. unfold S1 in H. destruct (N.testbit c 0) eqn:E.
  - apply N.lxor_eq in H. assert (X : N.testbit (N.shiftr c 1) (w - 1) = true) by (rewrite H; exact Top).
    rewrite N.shiftr_spec' in X. rewrite Hc in X by lia. discriminate.
  - rewrite N.lxor_0_r in H. apply N.bits_inj. intros k. rewrite N.bits_0. destruct (N.eq_dec k 0) as [->|Hk]; [exact E|].
    assert (X : N.testbit (N.shiftr c 1) (k - 1) = false) by (rewrite H; apply N.bits_0). rewrite N.shiftr_spec' in X. replace (k - 1 + 1) with k in X by lia. exact X.
Qed.
Lemma Sn_inj0 n : forall c, fit w c -> Sn P n c = 0 -> c = 0.
Proof.
  induction n as [|n IH]; intros c Hc H; [exact H|]. cbn [Sn iter] in H. apply S1_inj0; [exact Hc|]. apply IH; [apply S1_fit; assumption|exact H].
Qed.

Lemma serial_lin l1 : forall l2 a b, length l1 = length l2 -> N.lxor (serial P a l1) (serial P b l2) = serial P (N.lxor a b) (xorFront l1 l2).
Proof.
  induction l1 as [|x l1 IH]; intros [|y l2] a b H; cbn in H; try discriminate; [reflexivity|]. cbn [xorFront serial fold_left].
  change (fold_left _ l1 ?z) with (serial P z l1). change (fold_left _ l2 ?z) with (serial P z l2). change (fold_left _ (xorFront l1 l2) ?z) with (serial P z (xorFront l1 l2)).
  rewrite IH by lia. f_equal. rewrite <- S1_lin. f_equal. destruct x, y; cbn [N.b2n xorb]; apply N.bits_inj; intros k; rewrite !N.lxor_spec, ?N.bits_0;
    destruct (N.testbit a k), (N.testbit b k), (N.testbit 1 k); reflexivity.
Qed.
Lemma serial_zeros n c : serial P c (repeat false n) = Sn P n c.
Proof. revert c. induction n as [|n IH]; intros c; [reflexivity|]. cbn [repeat serial fold_left N.b2n]. rewrite N.lxor_0_r. apply IH. Qed.

(** The value of a burst. *)
Fixpoint val (l : list bool) : N := match l with [] => 0 | b :: r => N.lxor (N.b2n b) (N.shiftl (val r) 1) end.
Lemma val_fit l : fit (N.of_nat (length l)) (val l).
Proof.
  induction l as [|b l IH]; cbn [val length]; [apply fit_0|]. apply fit_lxor.
  - apply (fit_mono 1); [lia|]. apply fit_lt. destruct b; reflexivity.
  - replace (N.of_nat (S (length l))) with (N.of_nat (length l) + 1) by lia. apply fit_shiftl, IH.
Qed.
Lemma val_0 l : val l = 0 -> l = repeat false (length l).
Proof.
  induction l as [|b l IH]; cbn [val length repeat]; intros H; [reflexivity|].
  assert (B : N.testbit (N.lxor (N.b2n b) (N.shiftl (val l) 1)) 0 = false) by (rewrite H; apply N.bits_0).
  rewrite N.lxor_spec, N.shiftl_spec_low in B by lia. assert (b = false) as -> by (destruct b; cbn in B; congruence).
  f_equal. apply IH. cbn [N.b2n] in H. rewrite N.lxor_0_l in H. apply N.shiftl_eq_0_iff in H. exact H.
Qed.
Lemma serial_val l : serial P 0 l = Sn P (length l) (val l).
Proof.
  assert (X : forall l c, serial P c l = Sn P (length l) (N.lxor c (val l))).
  { clear l. induction l as [|b l IH]; intros c; cbn [val length]; [rewrite N.lxor_0_r; reflexivity|]. cbn [serial fold_left]. change (fold_left _ l ?z) with (serial P z l). rewrite IH.
    cbn [Sn iter]. change (iter (length l) (S1 P)) with (Sn P (length l)). f_equal. rewrite <- N.lxor_assoc, (S1_lin P (N.lxor c _)), S1_shiftl. reflexivity. }
  rewrite X, N.lxor_0_l. reflexivity.
Qed.

(** Two equally long bit strings that agree outside a window of at most w bits have different registers. *)
Lemma burst c pre d1 d2 post : fit w c -> length d1 = length d2 -> N.of_nat (length d1) <= w -> d1 <> d2 ->
  serial P c (pre ++ d1 ++ post) <> serial P c (pre ++ d2 ++ post).
Proof.
  intros Hc Hl Hn Hd E. rewrite !serial_app in E. set (c1 := serial P c pre) in *.
  assert (X : N.lxor (serial P (serial P c1 d1) post) (serial P (serial P c1 d2) post) = 0) by (rewrite E; apply N.lxor_nilpotent).
  rewrite serial_lin in X by reflexivity. rewrite serial_lin in X by exact Hl. rewrite N.lxor_nilpotent in X.
  assert (Z : forall l : list bool, xorFront l l = repeat false (length l)) by (induction l as [|b l IH]; cbn; [reflexivity|rewrite IH; destruct b; reflexivity]).
  rewrite Z, serial_zeros, serial_val in X.
  assert (Fv : fit w (val (xorFront d1 d2))) by (apply (fit_mono (N.of_nat (length (xorFront d1 d2)))); [rewrite xorFront_length; lia|apply val_fit]).
  apply Sn_inj0 in X; [|apply Sn_fit; assumption]. apply Sn_inj0 in X; [|exact Fv]. apply val_0 in X. rewrite xorFront_length in X. apply Hd. clear - X Hl.
  revert d2 Hl X. induction d1 as [|x d1 IH]; intros [|y d2] Hl X; cbn in *; try discriminate; [reflexivity|]. injection X as X1 X2. f_equal.
  - destruct x, y; cbn in *; congruence.
  - apply IH; [lia|exact X2].
Qed.

(** Parity. *)
Fixpoint parity (l : list bool) : bool := match l with [] => false | b :: r => xorb b (parity r) end.
End Detect.

Lemma parity_app a b : parity (a ++ b) = xorb (parity a) (parity b).
Proof. induction a as [|x a IH]; cbn; [destruct (parity b); reflexivity|]. rewrite IH. symmetry. apply xorb_assoc_reverse. Qed.
Lemma parity_xorFront a : forall b, length a = length b -> parity (xorFront a b) = xorb (parity a) (parity b).
Proof.
  induction a as [|x a IH]; intros [|y b] H; cbn in *; try discriminate; [reflexivity|]. rewrite IH by lia.
  destruct x, y, (parity a), (parity b); reflexivity.
Qed.
Lemma parity_lstep g l b : length g = length l -> parity g = true -> (0 < length l)%nat -> parity (lstep g l b) = xorb b (parity l).
Proof.
  intros Hl Hg Hn. destruct l as [|a r]; [cbn in Hn; lia|]. cbn [lstep parity].
  destruct (xorb a b) eqn:E.
  - rewrite parity_xorFront by (rewrite app_length; cbn in *; lia). rewrite parity_app, Hg. cbn [parity]. destruct a, b, (parity r); cbn in *; congruence.
  - rewrite parity_app. cbn [parity]. destruct a, b, (parity r); cbn in *; congruence.
Qed.
Lemma lstep_length g l b : length (lstep g l b) = length l.
Proof. destruct l as [|a r]; [reflexivity|]. cbn [lstep]. destruct (xorb a b); rewrite ?xorFront_length, app_length; cbn; lia. Qed.
Lemma parity_fold g msg : forall l, length g = length l -> parity g = true -> (0 < length l)%nat -> parity (fold_left (lstep g) msg l) = xorb (parity msg) (parity l).
Proof.
  induction msg as [|b msg IH]; intros l Hl Hg Hn; cbn [fold_left parity]; [destruct (parity l); reflexivity|].
  rewrite IH by (rewrite ?lstep_length; assumption). rewrite parity_lstep by assumption. destruct b, (parity msg), (parity l); reflexivity.
Qed.

Lemma bytes_lt l : Forall (fun b => b < 256) l -> bytes l.
Proof. intros H. eapply Forall_impl; [|exact H]. intros b Hb. apply fit_lt. exact Hb. Qed.

Lemma compute_fit t W l : fit (width t) (compute t W l). Proof. apply fit_trunc. Qed.

Lemma compute_eq t (G : goodR t) W l : bytes l -> compute t W l = N.lxor (updateScalar t (init t) l) (xorOut t) /\ computeScalar t l = N.lxor (updateScalar t (init t) l) (xorOut t).
Proof.
  intros Hl. destruct (reflected_division t G W l Hl) as (E & _ & F). unfold compute, computeScalar. rewrite E. destruct G as (_ & _ & _ & HX & _).
  rewrite trunc_fit by (apply fit_lxor; assumption). auto.
Qed.

Lemma msgBits_app r a b : msgBits r (a ++ b) = msgBits r a ++ msgBits r b.
Proof. apply flat_map_app. Qed.
Lemma msgBits_length l : length (msgBits true l) = (8 * length l)%nat.
Proof. induction l as [|b l IH]; [reflexivity|]. unfold msgBits in *. cbn [flat_map]. rewrite app_length, IH, bitsLSB_length. cbn [length]. lia. Qed.
Lemma msgBits_inj a : forall b, bytes a -> bytes b -> msgBits true a = msgBits true b -> a = b.
Proof.
  induction a as [|x a IH]; intros [|y b] Ha Hb E; auto.
  - apply (f_equal (@length bool)) in E. rewrite !msgBits_length in E. cbn in E. lia.
  - apply (f_equal (@length bool)) in E. rewrite !msgBits_length in E. cbn in E. lia.
  - inversion Ha; subst. inversion Hb; subst. unfold msgBits in E. cbn [flat_map] in E.
    assert (E1 : bitsLSB 8 x = bitsLSB 8 y /\ msgBits true a = msgBits true b).
    { assert (Q : forall (p q r s : list bool), length p = length q -> p ++ r = q ++ s -> p = q /\ r = s).
      { clear. induction p as [|u p IH]; intros [|v q] r s H E; cbn in *; try discriminate; auto. inversion E; subst. destruct (IH q r s ltac:(lia) H2) as [-> ->]. auto. }
      apply Q; [rewrite !bitsLSB_length; reflexivity|exact E]. }
    destruct E1 as [E1 E2]. f_equal; [apply (bits_inj_w 8); assumption|apply IH; assumption].
Qed.

Lemma compute_burst t (G : goodR t) (Top : N.testbit (poly t) (width t - 1) = true) W m1 m2 pre d1 d2 post : bytes m1 -> bytes m2 ->
  msgBits true m1 = pre ++ d1 ++ post -> msgBits true m2 = pre ++ d2 ++ post -> length d1 = length d2 -> N.of_nat (length d1) <= width t -> d1 <> d2 ->
  compute t W m1 <> compute t W m2.
Proof.
  intros H1 H2 E1 E2 Hl Hn Hd E. rewrite (proj1 (compute_eq t G W m1 H1)), (proj1 (compute_eq t G W m2 H2)) in E.
  pose proof G as (_ & HP & HI & _ & Hw).
  assert (X : updateScalar t (init t) m1 = updateScalar t (init t) m2).
  { apply (f_equal (fun z => N.lxor z (xorOut t))) in E. rewrite !N.lxor_assoc, N.lxor_nilpotent, !N.lxor_0_r in E. exact E. }
  rewrite (updateScalar_bytes t G (length m1)), (updateScalar_bytes t G (length m2)) in X by auto.
  rewrite (fold_serial t), (fold_serial t) in X by assumption. rewrite E1, E2 in X.
  revert X. apply (burst (poly t) (width t)); auto. lia.
Qed.

Lemma compute_parity t (G : goodR t) (Odd : parity (bitsLSB (N.to_nat (width t)) (poly t)) = true) W m1 m2 : bytes m1 -> bytes m2 ->
  parity (msgBits true m1) <> parity (msgBits true m2) -> compute t W m1 <> compute t W m2.
Proof.
  intros H1 H2 Hp E. rewrite (proj1 (compute_eq t G W m1 H1)), (proj1 (compute_eq t G W m2 H2)) in E.
  assert (X : updateScalar t (init t) m1 = updateScalar t (init t) m2).
  { apply (f_equal (fun z => N.lxor z (xorOut t))) in E. rewrite !N.lxor_assoc, N.lxor_nilpotent, !N.lxor_0_r in E. exact E. }
  pose proof G as (_ & _ & _ & _ & Hw).
  destruct (reflected_division t G W m1 H1) as (_ & D1 & _). destruct (reflected_division t G W m2 H2) as (_ & D2 & _). rewrite X in D1. rewrite D1 in D2. unfold remainder in D2.
  rewrite !(longdiv_fold (N.to_nat (width t))) in D2 by (try apply bitsLSB_length; lia).
  apply (f_equal parity) in D2. rewrite !parity_fold in D2 by (try exact Odd; rewrite ?bitsLSB_length; try reflexivity; lia).
  apply Hp. destruct (parity (msgBits true m1)), (parity (msgBits true m2)), (parity (bitsLSB (N.to_nat (width t)) (init t))); cbn in *; congruence.
Qed.
