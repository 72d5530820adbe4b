(** Lemmas about the floating-point part of the conversion model. *)
From Coq Require Import List ZArith Lia Bool QArith Qabs Qpower Lqa Psatz.
From Verif Require Import ConvModel ConvSpec.
Import ListNotations.
Local Open Scope Z_scope.

Lemma pow2pos (e : Z) : (0 < (2 # 1) ^ e)%Q.
Proof. apply Qpower_0_lt. reflexivity. Qed.

Lemma pow2nat (e : Z) : 0 <= e -> ((2 # 1) ^ e == inject_Z (2 ^ e))%Q.
Proof. intros H. change (2 # 1)%Q with (inject_Z 2). rewrite <- Zpower_Qpower by exact H. reflexivity. Qed.

Lemma fval_shift m e e0 : e0 <= e -> (fval m e == inject_Z (m * 2 ^ (e - e0)) * (2 # 1) ^ e0)%Q.
Proof.
  intros H. unfold fval. rewrite inject_Z_mult. rewrite <- (pow2nat (e - e0)) by lia.
  rewrite <- Qmult_assoc. rewrite <- Qpower_plus by discriminate.
  replace (e - e0 + e0) with e by lia. reflexivity.
Qed.

Lemma scaled_le a b e : (inject_Z a * (2 # 1) ^ e <= inject_Z b * (2 # 1) ^ e)%Q <-> a <= b.
Proof. rewrite Qmult_le_r by apply pow2pos. rewrite <- Zle_Qle. reflexivity. Qed.

Lemma scaled_eq a b e : (inject_Z a * (2 # 1) ^ e == inject_Z b * (2 # 1) ^ e)%Q <-> a = b.
Proof.
  split; intros H; [|subst; reflexivity].
  apply Z.le_antisymm; apply (scaled_le _ _ e); rewrite H; apply Qle_refl.
Qed.

Lemma fval_le m1 e1 m2 e2 e0 : e0 <= e1 -> e0 <= e2 ->
  (fval m1 e1 <= fval m2 e2)%Q <-> m1 * 2 ^ (e1 - e0) <= m2 * 2 ^ (e2 - e0).
Proof. intros H1 H2. rewrite (fval_shift m1 e1 e0 H1), (fval_shift m2 e2 e0 H2). apply scaled_le. Qed.

Lemma fval_eq m1 e1 m2 e2 e0 : e0 <= e1 -> e0 <= e2 ->
  (fval m1 e1 == fval m2 e2)%Q <-> m1 * 2 ^ (e1 - e0) = m2 * 2 ^ (e2 - e0).
Proof. intros H1 H2. rewrite (fval_shift m1 e1 e0 H1), (fval_shift m2 e2 e0 H2). apply scaled_eq. Qed.

Lemma fval_Z z : (inject_Z z == fval z 0)%Q.
Proof. unfold fval. change ((2 # 1) ^ 0)%Q with (1 # 1)%Q. now rewrite Qmult_1_r. Qed.

Lemma finLe_spec m1 e1 m2 e2 : finLe m1 e1 m2 e2 = true <-> (fval m1 e1 <= fval m2 e2)%Q.
Proof.
  unfold finLe. rewrite Z.leb_le. symmetry. apply fval_le; lia.
Qed.

Lemma finLe_false m1 e1 m2 e2 : finLe m1 e1 m2 e2 = false <-> (fval m2 e2 < fval m1 e1)%Q.
Proof.
  rewrite <- not_true_iff_false, finLe_spec. split; [apply Qnot_le_lt|apply Qlt_not_le].
Qed.

Lemma fval_is_Z m e z : (fval m e == inject_Z z)%Q <-> (if 0 <=? e then m * 2 ^ e = z else m = z * 2 ^ (- e)).
Proof.
  rewrite fval_Z. destruct (Z.leb_spec 0 e).
  - rewrite (fval_eq m e z 0 0) by lia. rewrite !Z.sub_0_r. change (2 ^ 0) with 1. lia.
  - rewrite (fval_eq m e z 0 e) by lia. replace (e - e) with 0 by lia. change (2 ^ 0) with 1.
    replace (0 - e) with (- e) by lia. lia.
Qed.

(** Rounding to an integer. *)
Lemma rne_spec m k : 0 < k -> 2 * Z.abs (rne m k * 2 ^ k - m) <= 2 ^ k.
Proof.
  intros Hk. unfold rne.
  assert (Hp : 0 < 2 ^ k) by (apply Z.pow_pos_nonneg; lia).
  assert (Hh : 2 ^ k = 2 * 2 ^ (k - 1)) by (rewrite <- Z.pow_succ_r by lia; f_equal; lia).
  pose proof (Z.div_mod m (2 ^ k) ltac:(lia)) as Hd.
  pose proof (Z.mod_pos_bound m (2 ^ k) Hp) as Hr.
  set (q := m / 2 ^ k) in *. set (r := m mod 2 ^ k) in *. set (h := 2 ^ (k - 1)) in *. set (P := 2 ^ k) in *.
  assert (Hq : forall q', q' * P - m = (q' - q) * P - r) by (intros; nia).
  rewrite Hq.
  destruct (Z.ltb_spec r h); [|destruct (Z.ltb_spec h r); [|destruct (Z.even q)]];
    try replace (q - q) with 0 by lia; try replace (q + 1 - q) with 1 by lia; lia.
Qed.

Lemma rne_exact z k : 0 < k -> rne (z * 2 ^ k) k = z.
Proof.
  intros Hk. unfold rne.
  assert (Hp : 0 < 2 ^ k) by (apply Z.pow_pos_nonneg; lia).
  assert (Hh : 0 < 2 ^ (k - 1)) by (apply Z.pow_pos_nonneg; lia).
  rewrite Z.mod_mul, Z.div_mul by lia.
  destruct (Z.ltb_spec 0 (2 ^ (k - 1))); [reflexivity|lia].
Qed.

(** The integrality test. *)
Lemma integral_test m e : finEqZ m e (nearbyint m e) = true <-> exists z, (fval m e == inject_Z z)%Q.
Proof.
  unfold finEqZ. rewrite andb_true_iff, !finLe_spec, <- !fval_Z. split.
  - intros [H1 H2]. exists (nearbyint m e). apply Qle_antisym; assumption.
  - intros [z Hz]. assert (E : nearbyint m e = z).
    { apply fval_is_Z in Hz. unfold nearbyint. destruct (Z.leb_spec 0 e); [exact Hz|].
      rewrite Hz. apply rne_exact. lia. }
    rewrite E, Hz. split; apply Qle_refl.
Qed.

Lemma trunc_exact m e z : (fval m e == inject_Z z)%Q -> truncZ m e = z.
Proof.
  intros Hz. apply fval_is_Z in Hz. unfold truncZ. destruct (Z.leb_spec 0 e); [exact Hz|].
  rewrite Hz. apply Z.quot_mul. assert (0 < 2 ^ (- e)) by (apply Z.pow_pos_nonneg; lia). lia.
Qed.

(** The parameters of a format. *)
Lemma inFormat_mant f m e : inFormat f m e <-> Z.abs m < 2 ^ mant f /\ eMin f <= e <= eMax f.
Proof. destruct f; reflexivity. Qed.
Lemma fmt_params f : 1 < mant f /\ eMin f <= eMax f.
Proof. destruct f; cbn; lia. Qed.
Lemma greatest_max f : (greatest f == fval (fMaxM f) (fMaxE f))%Q.
Proof. destruct f; reflexivity. Qed.

Lemma dist_scaled m1 e1 m2 e2 e0 : e0 <= e1 -> e0 <= e2 ->
  (Qabs (fval m1 e1 - fval m2 e2) == inject_Z (Z.abs (m1 * 2 ^ (e1 - e0) - m2 * 2 ^ (e2 - e0))) * (2 # 1) ^ e0)%Q.
Proof.
  intros H1 H2. rewrite (fval_shift m1 e1 e0 H1), (fval_shift m2 e2 e0 H2).
  set (a := m1 * 2 ^ (e1 - e0)). set (b := m2 * 2 ^ (e2 - e0)).
  assert (E : (inject_Z a * (2 # 1) ^ e0 - inject_Z b * (2 # 1) ^ e0 == inject_Z (a - b) * (2 # 1) ^ e0)%Q).
  { unfold Z.sub. rewrite inject_Z_plus, inject_Z_opp. ring. }
  rewrite E, Qabs_Qmult, (Qabs_pos ((2 # 1) ^ e0)) by (apply Qlt_le_weak, pow2pos).
  reflexivity.
Qed.

Lemma pow_split a b : 0 <= a -> 0 <= b -> 2 ^ (a + b) = 2 ^ a * 2 ^ b.
Proof. intros. apply Z.pow_add_r; assumption. Qed.

Lemma log2_bounds m : m <> 0 -> 2 ^ Z.log2 (Z.abs m) <= Z.abs m < 2 ^ (Z.log2 (Z.abs m) + 1).
Proof. intros H. pose proof (Z.log2_spec (Z.abs m) ltac:(lia)). unfold Z.succ in *. assumption. Qed.

Lemma far_lower m z B A D : 0 < A -> Z.abs z < B * A -> B <= Z.abs m -> D <= Z.abs (m - B) -> D <= Z.abs (m - - B) ->
  D * A <= Z.abs (m * A - z).
Proof.
  intros HA Hz Hm H1 H2. destruct (Z.le_gt_cases 0 B) as [HB|HB]; [|nia].
  destruct (Z.le_gt_cases 0 m).
  - assert (D * A <= (m - B) * A) by (apply Z.mul_le_mono_nonneg_r; lia). lia.
  - assert (D * A <= (- m - B) * A) by (apply Z.mul_le_mono_nonneg_r; lia). lia.
Qed.

(** The core: rounding gives a nearest number of the format, as long as the number is within the format's range. *)
Lemma roundTo_nearest f m e :
  (fval (Z.abs m) e <= greatest f)%Q -> nearestIn f (fval m e) (roundTo f m e).
Proof.
  intros Hmax. rewrite greatest_max in Hmax. destruct (fmt_params f) as [Hp He].
  unfold roundTo. destruct (Z.eqb_spec m 0) as [->|Hm].
  { unfold nearestIn. rewrite inFormat_mant. split.
    - split; [cbn; apply Z.pow_pos_nonneg; lia|destruct f; cbn; lia].
    - intros mz ez _. assert (E : (fval 0 e - fval 0 0 == 0)%Q) by (unfold fval; change (inject_Z 0) with 0%Q; ring).
      rewrite E. apply Qabs_nonneg. }
  pose proof (log2_bounds m Hm) as [HL1 HL2]. pose proof (Z.log2_nonneg (Z.abs m)) as HL0.
  set (L := Z.log2 (Z.abs m)) in *. set (p := mant f) in *.
  set (k := Z.max (L + 1 - p) (eMin f - e)).
  assert (Hk1 : L + 1 - p <= k) by lia. assert (Hk2 : eMin f - e <= k) by lia.
  assert (Hk3 : eMin f - e < k -> k = L + 1 - p) by lia.
  (* the exponent after normalisation does not exceed the greatest one *)
  assert (HeK : e + k <= eMax f).
  { destruct (Z.le_gt_cases (e + k) (eMax f)) as [|Hgt]; [assumption|exfalso].
    assert (Ek : k = L + 1 - p) by lia.
    unfold fMaxM, fMaxE in Hmax. fold p in Hmax.
    set (e0 := Z.min e (eMax f)) in *.
    rewrite (fval_le _ _ _ _ e0) in Hmax by (unfold e0; lia).
    assert (HB : 2 ^ p * 2 ^ (eMax f - e0) <= 2 ^ L * 2 ^ (e - e0)).
    { rewrite <- !pow_split by (unfold e0; lia). apply Z.pow_le_mono_r; [lia|]. lia. }
    assert (0 < 2 ^ (eMax f - e0)) by (apply Z.pow_pos_nonneg; unfold e0; lia).
    assert (0 < 2 ^ (e - e0)) by (apply Z.pow_pos_nonneg; unfold e0; lia).
    nia. }
  destruct (Z.leb_spec k 0) as [Hk|Hk].
  - (* exact *)
    destruct (Z.ltb_spec (eMax f) (e + k)); [lia|].
    unfold nearestIn. rewrite inFormat_mant. fold p. split.
    + split; [|lia]. rewrite Z.abs_mul, (Z.abs_eq (2 ^ - k)) by (apply Z.pow_nonneg; lia).
      assert (HB : 2 ^ (L + 1) * 2 ^ (- k) <= 2 ^ p).
      { rewrite <- pow_split by lia. apply Z.pow_le_mono_r; lia. }
      assert (0 < 2 ^ (- k)) by (apply Z.pow_pos_nonneg; lia). nia.
    + intros mz ez _.
      assert (E : (fval m e - fval (m * 2 ^ - k) (e + k) == 0)%Q).
      { rewrite (fval_shift m e (e + k)) by lia. unfold fval.
        replace (e - (e + k)) with (- k) by lia. ring. }
      rewrite E. apply Qabs_nonneg.
  - (* rounded *)
    pose proof (rne_spec m k Hk) as Hq. set (q := rne m k) in *.
    assert (HP : 0 < 2 ^ k) by (apply Z.pow_pos_nonneg; lia).
    assert (Hpp : 0 < 2 ^ p) by (apply Z.pow_pos_nonneg; lia).
    assert (Hmk : Z.abs m < 2 ^ p * 2 ^ k).
    { rewrite <- pow_split by lia. apply Z.lt_le_trans with (2 ^ (L + 1)); [assumption|].
      apply Z.pow_le_mono_r; lia. }
    assert (Hqp : Z.abs q <= 2 ^ p).
    { destruct (Z.le_gt_cases (Z.abs q) (2 ^ p)) as [|Hgt]; [assumption|exfalso].
      assert (Z.abs q * 2 ^ k = Z.abs (q * 2 ^ k)) by (rewrite Z.abs_mul, (Z.abs_eq (2 ^ k)) by lia; reflexivity).
      nia. }
    (* distance to q*2^k is least among the multiples of 2^k *)
    assert (Hnear : forall N, Z.abs (m - q * 2 ^ k) <= Z.abs (m - N * 2 ^ k)).
    { intros N. destruct (Z.eq_dec N q) as [->|HN]; [lia|].
      assert (2 ^ k <= Z.abs (N * 2 ^ k - q * 2 ^ k)).
      { replace (N * 2 ^ k - q * 2 ^ k) with ((N - q) * 2 ^ k) by ring.
        rewrite Z.abs_mul, (Z.abs_eq (2 ^ k)) by lia. nia. }
      lia. }
    (* hence among all numbers of the format *)
    assert (Hall : forall mz ez, inFormat f mz ez ->
               (Qabs (fval m e - fval q (e + k)) <= Qabs (fval m e - fval mz ez))%Q).
    { intros mz ez Hz. rewrite inFormat_mant in Hz. fold p in Hz. destruct Hz as [Hz1 Hz2].
      set (e0 := Z.min e ez).
      rewrite (dist_scaled m e q (e + k) e0), (dist_scaled m e mz ez e0) by (unfold e0; lia).
      apply scaled_le.
      replace (e + k - e0) with (k + (e - e0)) by lia. rewrite pow_split by (unfold e0; lia).
      set (A := 2 ^ (e - e0)). assert (HA : 0 < A) by (apply Z.pow_pos_nonneg; unfold e0; lia).
      assert (EX : Z.abs (m * A - q * (2 ^ k * A)) = Z.abs (m - q * 2 ^ k) * A).
      { replace (m * A - q * (2 ^ k * A)) with ((m - q * 2 ^ k) * A) by ring.
        rewrite Z.abs_mul, (Z.abs_eq A) by lia. reflexivity. }
      rewrite EX.
      destruct (Z.le_gt_cases (e + k) ez) as [Hez|Hez].
      - assert (EZ : mz * 2 ^ (ez - e0) = mz * 2 ^ (ez - e - k) * 2 ^ k * A).
        { unfold A. rewrite <- !Z.mul_assoc. f_equal. rewrite <- !pow_split by (unfold e0; lia). f_equal. lia. }
        rewrite EZ. replace (m * A - mz * 2 ^ (ez - e - k) * 2 ^ k * A)
          with ((m - mz * 2 ^ (ez - e - k) * 2 ^ k) * A) by ring.
        rewrite Z.abs_mul, (Z.abs_eq A) by lia. apply Z.mul_le_mono_nonneg_r; [lia|]. apply Hnear.
      - assert (Ek : k = L + 1 - p) by lia.
        set (B := 2 ^ (p - 1) * 2 ^ k).
        assert (HB : B = 2 ^ L). { unfold B. rewrite <- pow_split by lia. f_equal. lia. }
        assert (HZB : Z.abs (mz * 2 ^ (ez - e0)) < B * A).
        { rewrite Z.abs_mul, (Z.abs_eq (2 ^ (ez - e0))) by (apply Z.pow_nonneg; lia).
          assert (HC : 2 ^ p * 2 ^ (ez - e0) <= B * A).
          { unfold A. rewrite HB. rewrite <- !pow_split by (unfold e0; lia). apply Z.pow_le_mono_r; lia. }
          assert (H0 : 0 < 2 ^ (ez - e0)) by (apply Z.pow_pos_nonneg; unfold e0; lia).
          eapply Z.lt_le_trans; [|exact HC]. apply Z.mul_lt_mono_pos_r; assumption. }
        set (z := mz * 2 ^ (ez - e0)) in *. clearbody z.
        pose proof (Hnear (2 ^ (p - 1))) as HN1. pose proof (Hnear (- 2 ^ (p - 1))) as HN2.
        fold B in HN1. replace (- 2 ^ (p - 1) * 2 ^ k) with (- B) in HN2 by (unfold B; ring).
        rewrite <- HB in HL1. set (D := Z.abs (m - q * 2 ^ k)) in *. clearbody D B A.
        apply (far_lower m z B A D); assumption. }
    destruct (Z.eqb_spec (Z.abs q) (2 ^ p)) as [Hqe|Hqe].
    + assert (Hq2 : q = 2 * (q / 2)).
      { assert (q mod 2 = 0).
        { assert (2 ^ p = 2 * 2 ^ (p - 1)) by (rewrite <- Z.pow_succ_r by lia; f_equal; lia).
          destruct (Z.le_gt_cases 0 q).
          - rewrite Z.abs_eq in Hqe by lia. rewrite Hqe, H. rewrite Z.mul_comm. apply Z.mod_mul. lia.
          - rewrite Z.abs_neq in Hqe by lia. replace q with (- 2 ^ (p - 1) * 2) by lia. apply Z.mod_mul. lia. }
        pose proof (Z.div_mod q 2 ltac:(lia)). lia. }
      assert (HeK1 : e + k + 1 <= eMax f).
      { destruct (Z.le_gt_cases (e + k + 1) (eMax f)) as [|Hgt]; [assumption|exfalso].
        assert (Eeq : eMax f = e + k) by lia.
        unfold fMaxM, fMaxE in Hmax. fold p in Hmax. rewrite Eeq in Hmax.
        rewrite (fval_le _ _ _ _ e) in Hmax by lia.
        replace (e - e) with 0 in Hmax by lia. replace (e + k - e) with k in Hmax by lia.
        change (2 ^ 0) with 1 in Hmax.
        assert (Z.abs q * 2 ^ k = Z.abs (q * 2 ^ k)) by (rewrite Z.abs_mul, (Z.abs_eq (2 ^ k)) by lia; reflexivity).
        rewrite Hqe in *. nia. }
      destruct (Z.ltb_spec (eMax f) (e + k + 1)); [lia|].
      assert (EV : (fval (q / 2) (e + k + 1) == fval q (e + k))%Q).
      { rewrite (fval_eq _ _ _ _ (e + k)) by lia. replace (e + k + 1 - (e + k)) with 1 by lia.
        replace (e + k - (e + k)) with 0 by lia. change (2 ^ 1) with 2. change (2 ^ 0) with 1. lia. }
      unfold nearestIn. rewrite inFormat_mant. fold p. split.
      * split; [|lia].
        assert (2 ^ p = 2 * 2 ^ (p - 1)) by (rewrite <- Z.pow_succ_r by lia; f_equal; lia).
        assert (0 < 2 ^ (p - 1)) by (apply Z.pow_pos_nonneg; lia). lia.
      * intros mz ez Hz. rewrite EV. apply Hall. exact Hz.
    + destruct (Z.ltb_spec (eMax f) (e + k)); [lia|].
      unfold nearestIn. rewrite inFormat_mant. fold p. split; [lia|exact Hall].
Qed.

(** A number of the format is its own nearest one. *)
Lemma nearest_exact f q y m e : nearestIn f q y -> inFormat f m e -> (fval m e == q)%Q -> fltIs y q /\ wfFlt f y.
Proof.
  intros Hn Hf Hq. destruct y as [| |my ey]; try contradiction. destruct Hn as [Hw Hn]. split; [|exact Hw].
  cbn. specialize (Hn m e Hf). rewrite Hq in Hn.
  assert (E : (q - q == 0)%Q) by ring. rewrite E in Hn. change (Qabs 0) with 0%Q in Hn.
  assert (H0 : (Qabs (q - fval my ey) == 0)%Q) by (apply Qle_antisym; [exact Hn|apply Qabs_nonneg]).
  pose proof (Qle_Qabs (q - fval my ey)) as H1. pose proof (Qle_Qabs (- (q - fval my ey))) as H2.
  rewrite Qabs_opp in H2. rewrite H0 in *. lra.
Qed.

Lemma fval_abs m e : (fval (Z.abs m) e == Qabs (fval m e))%Q.
Proof.
  unfold fval. rewrite Qabs_Qmult, (Qabs_pos ((2 # 1) ^ e)) by (apply Qlt_le_weak, pow2pos). reflexivity.
Qed.

Lemma fval_opp m e : (fval (- m) e == - fval m e)%Q.
Proof. unfold fval. rewrite inject_Z_opp. ring. Qed.

Lemma format_le f m e : inFormat f m e -> (fval (Z.abs m) e <= greatest f)%Q.
Proof.
  rewrite greatest_max, inFormat_mant. intros [H1 H2]. rewrite (fval_le _ _ _ _ e) by (unfold fMaxE; lia).
  replace (e - e) with 0 by lia. change (2 ^ 0) with 1. unfold fMaxM, fMaxE.
  assert (1 <= 2 ^ (eMax f - e)).
  { change 1 with (2 ^ 0) at 1. apply Z.pow_le_mono_r; lia. }
  nia.
Qed.

Lemma roundTo_exact f m e m' e' : inFormat f m' e' -> (fval m' e' == fval m e)%Q ->
  fltIs (roundTo f m e) (fval m e) /\ wfFlt f (roundTo f m e).
Proof.
  intros Hf Hq. apply (nearest_exact f _ _ m' e'); try assumption.
  apply roundTo_nearest. rewrite fval_abs, <- Hq, <- fval_abs. apply format_le. exact Hf.
Qed.

(** Integers with few enough bits are numbers of the format. *)
Lemma small_int_format f z : Z.abs z < 2 ^ precision f -> inFormat f z 0.
Proof. destruct f; cbn [precision inFormat]; lia. Qed.

Lemma castIntFlt_exact f z : Z.abs z < 2 ^ precision f ->
  fltIs (castIntFlt f z) (inject_Z z) /\ wfFlt f (castIntFlt f z).
Proof.
  intros H. unfold castIntFlt. destruct (roundTo_exact f z 0 z 0) as [H1 H2]; [apply small_int_format; exact H|reflexivity|].
  split; [|exact H2]. destruct (roundTo f z 0); try contradiction. cbn in *. rewrite H1. symmetry. apply fval_Z.
Qed.
