(** Properties of the checked conversions (C81-C90). *)
From Coq Require Import List ZArith Lia Bool QArith Qabs Lqa.
From Verif Require Import ConvModel ConvSpec ConvFloat ConvProofs.
Import ListNotations.
Local Open Scope Z_scope.

(** * C81: integer to integer *)

Theorem C81_int_to_int_partial : forall pf s t z, holdsInt s z -> ~ (s = U64 /\ signedType t /\ 2 ^ 63 <= z) ->
  (holdsInt t z -> convertValue pf false (TInt t) (VInt s z) = Ok (VInt t z)) /\
  (~ holdsInt t z -> convertValue pf false (TInt t) (VInt s z) = Err).
Proof.
  intros pf s t z Hs Hx. unfold convertValue, convertSafely, visited. cbn [typeOf tgt_eqb].
  destruct (ity_beq s t) eqn:E.
  - apply ity_beq_eq in E. subst t. split; [reflexivity|contradiction].
  - apply convIntInt_spec; assumption.
Qed.
Print Assumptions C81_int_to_int_partial.

Example C81_case : holdsInt I64 300 /\ ~ holdsInt U8 300 /\
  convertValue (fun _ _ => None) false (TInt U8) (VInt I64 300) = Err /\
  convertValue (fun _ _ => None) false (TInt I16) (VInt I64 300) = Ok (VInt I16 300).
Proof. repeat split; try (cbn; lia); vm_compute; congruence. Qed.

(** A 64-bit unsigned number above the signed range is accepted as a negative one. *)
Theorem C81_unsigned_refuted : forall pf,
  convertValue pf false (TInt I64) (VInt U64 (2 ^ 63)) = Ok (VInt I64 (- 2 ^ 63)) /\
  convertValue pf false (TInt I32) (VInt U64 (2 ^ 64 - 1)) = Ok (VInt I32 (-1)) /\
  convertValue pf false (TInt I8) (VInt U64 (2 ^ 64 - 100)) = Ok (VInt I8 (-100)).
Proof. intros pf. repeat split; vm_compute; reflexivity. Qed.
Print Assumptions C81_unsigned_refuted.

Theorem C81_int_to_bool : forall pf s z, holdsInt s z ->
  (z = 0 -> convertValue pf false TBool (VInt s z) = Ok (VBool false)) /\
  (z = 1 -> convertValue pf false TBool (VInt s z) = Ok (VBool true)) /\
  (z <> 0 -> z <> 1 -> convertValue pf false TBool (VInt s z) = Err).
Proof.
  intros pf s z Hs. unfold convertValue, convertSafely, visited. cbn [typeOf tgt_eqb].
  rewrite convIntBool_spec by exact Hs. repeat split.
  - intros ->. reflexivity.
  - intros ->. reflexivity.
  - intros H0 H1. destruct (Z.eqb_spec z 0); [contradiction|]. destruct (Z.eqb_spec z 1); [contradiction|reflexivity].
Qed.
Print Assumptions C81_int_to_bool.

Example C81_bool_case : holdsInt U64 (2 ^ 64 - 1) /\
  convertValue (fun _ _ => None) false TBool (VInt U64 (2 ^ 64 - 1)) = Err.
Proof. split; [cbn; lia|vm_compute; reflexivity]. Qed.

(** * C82: integer to floating point *)

Theorem C82_int_to_float_exact : forall pf s f z v, holdsInt s z ->
  convertValue pf false (TFlt f) (VInt s z) = Ok v -> exists x, v = VFlt f x /\ wfFlt f x /\ fltIs x (inject_Z z).
Proof.
  intros pf s f z v Hs H. unfold convertValue, convertSafely, visited in H. cbn [typeOf tgt_eqb] in H.
  apply (convIntFlt_sound s f z v Hs H).
Qed.
Print Assumptions C82_int_to_float_exact.

Theorem C82_int_to_float_accepts_partial : forall pf s f z, holdsInt s z -> Z.abs z < 2 ^ precision f ->
  ~ (s = U64 /\ z = 0) -> exists x, convertValue pf false (TFlt f) (VInt s z) = Ok (VFlt f x).
Proof.
  intros pf s f z Hs Hz Hx. unfold convertValue, convertSafely, visited. cbn [typeOf tgt_eqb].
  apply convIntFlt_complete; assumption.
Qed.
Print Assumptions C82_int_to_float_accepts_partial.

Example C82_case : holdsInt I64 (- 16777215) /\ Z.abs (-16777215) < 2 ^ precision F32 /\
  convertValue (fun _ _ => None) false (TFlt F32) (VInt I64 (- 16777215)) = Ok (VFlt F32 (FFin (-16777215) 0)) /\
  convertValue (fun _ _ => None) false (TFlt F32) (VInt I64 (- 16777217)) = Err.
Proof. repeat split; try (cbn; lia); vm_compute; congruence. Qed.

(** The 64-bit unsigned zero is refused; so are numbers the target represents exactly but that have more bits than
    its mantissa. *)
Theorem C82_zero_refuted : forall pf f, convertValue pf false (TFlt f) (VInt U64 0) = Err.
Proof. intros pf f. destruct f; vm_compute; reflexivity. Qed.
Print Assumptions C82_zero_refuted.

Theorem C82_representable_refuted : forall pf,
  inFormat F64 1 60 /\ (fval 1 60 == inject_Z (2 ^ 60))%Q /\ holdsInt I64 (2 ^ 60) /\
  convertValue pf false (TFlt F64) (VInt I64 (2 ^ 60)) = Err.
Proof. intros pf. repeat split; try (cbn; lia); try (vm_compute; congruence). Qed.
Print Assumptions C82_representable_refuted.

(** * C83: floating point to integer *)

(** Every finite number that is an integer of the target type becomes that integer, everything else is refused - but
    for the number one above the target's range, where the check is rounded. *)
Theorem C83_float_to_int_partial : forall pf sf t m e,
  ~ (precision sf < magnitudeBits t /\ (fval m e == inject_Z (2 ^ magnitudeBits t))%Q) ->
  (forall z, (fval m e == inject_Z z)%Q -> holdsInt t z ->
     convertValue pf false (TInt t) (VFlt sf (FFin m e)) = Ok (VInt t z)) /\
  ((forall z, (fval m e == inject_Z z)%Q -> ~ holdsInt t z) ->
     convertValue pf false (TInt t) (VFlt sf (FFin m e)) = Err).
Proof.
  intros pf sf t m e Hx. unfold convertValue, convertSafely, visited. cbn [typeOf tgt_eqb].
  destruct (iMin_flt sf t) as (ml & el & El & Hl). destruct (iMax_flt sf t) as (mh & eh & hi' & Eh & Hh & Hc).
  change (precision sf) with (mant sf) in Hx. rewrite magnitude_digits in Hx.
  replace (2 ^ digits t) with (iMax t + 1) in Hx by (unfold iMax; lia).
  destruct (convFltInt_spec sf (iMin t) (iMax t) hi' (VInt t) m e ml el mh eh El Eh Hl Hh) as [H1 H2].
  - destruct Hc as [[_ ->]|[_ ->]]; lia.
  - intros [Hlt Hv]. destruct Hc as [[_ ->]|[Hd ->]]; [lia|]. apply Hx. split; assumption.
  - split.
    + intros z Hz Hr. apply H1; [exact Hz|]. apply holdsInt_range. exact Hr.
    + intros Hn. apply H2. intros z Hz Hr. apply (Hn z Hz). apply holdsInt_range. exact Hr.
Qed.
Print Assumptions C83_float_to_int_partial.

Theorem C83_not_finite : forall pf sf t x, x = FNaN \/ (exists b, x = FInf b) ->
  convertValue pf false (TInt t) (VFlt sf x) = Err /\ convertValue pf false TBool (VFlt sf x) = Err.
Proof. intros pf sf t x [ -> | [b ->] ]; split; reflexivity. Qed.
Print Assumptions C83_not_finite.

Theorem C83_float_to_bool : forall pf sf m e,
  ((fval m e == 0)%Q -> convertValue pf false TBool (VFlt sf (FFin m e)) = Ok (VBool false)) /\
  ((fval m e == 1)%Q -> convertValue pf false TBool (VFlt sf (FFin m e)) = Ok (VBool true)) /\
  (~ (fval m e == 0)%Q -> ~ (fval m e == 1)%Q -> convertValue pf false TBool (VFlt sf (FFin m e)) = Err).
Proof.
  intros pf sf m e. unfold convertValue, convertSafely, visited. cbn [typeOf tgt_eqb].
  assert (H1 : exists mh eh, castIntFlt sf 1 = FFin mh eh /\ (fval mh eh == inject_Z 1)%Q).
  { destruct sf; eexists; eexists; (split; [vm_compute; reflexivity|vm_compute; reflexivity]). }
  destruct H1 as (mh & eh & Eh & Hh).
  destruct (convFltInt_spec sf 0 1 1 mkBool m e 0 0 mh eh) as [A B];
    [destruct sf; reflexivity|exact Eh|reflexivity|exact Hh|lia|lia|].
  split; [intros H; apply (A 0); [exact H|lia]|]. split; [intros H; apply (A 1); [exact H|lia]|].
  intros N0 N1. apply B. intros z Hz Hr. assert (z = 0 \/ z = 1) as [-> | ->] by lia; [apply N0|apply N1]; exact Hz.
Qed.
Print Assumptions C83_float_to_bool.

Example C83_case :
  convertValue (fun _ _ => None) false (TInt I32) (VFlt F64 (FFin 2147483647 0)) = Ok (VInt I32 2147483647) /\
  convertValue (fun _ _ => None) false (TInt I32) (VFlt F64 (FFin 2147483648 0)) = Err /\
  convertValue (fun _ _ => None) false (TInt I32) (VFlt F32 (FFin 3 (-1))) = Err /\
  ~ (precision F64 < magnitudeBits I32 /\ (fval 2147483648 0 == inject_Z (2 ^ magnitudeBits I32))%Q).
Proof.
  split; [vm_compute; reflexivity|]. split; [vm_compute; reflexivity|]. split; [vm_compute; reflexivity|].
  intros [H _]. vm_compute in H. discriminate.
Qed.

(** The number one above the range passes the check and reaches an undefined cast. *)
Theorem C83_above_range_refuted : forall pf,
  convertValue pf false (TInt I32) (VFlt F32 (FFin (2 ^ 23) 8)) = UB /\
  convertValue pf false (TInt U32) (VFlt F32 (FFin (2 ^ 23) 9)) = UB /\
  convertValue pf false (TInt I64) (VFlt F64 (FFin (2 ^ 52) 11)) = UB /\
  convertValue pf false (TInt U64) (VFlt F64 (FFin (2 ^ 52) 12)) = UB /\
  inFormat F32 (2 ^ 23) 8 /\ inFormat F64 (2 ^ 52) 11.
Proof. intros pf. repeat split; try (vm_compute; congruence). Qed.
Print Assumptions C83_above_range_refuted.

(** * C84: floating point to floating point *)

Theorem C84_nearest : forall pf sf f m e, sf <> f ->
  ((Qabs (fval m e) <= greatest f)%Q ->
     exists y, convertValue pf false (TFlt f) (VFlt sf (FFin m e)) = Ok (VFlt f y) /\ nearestIn f (fval m e) y) /\
  ((greatest f < Qabs (fval m e))%Q -> convertValue pf false (TFlt f) (VFlt sf (FFin m e)) = Err).
Proof.
  intros pf sf f m e Hne. unfold convertValue, convertSafely, visited. cbn [typeOf tgt_eqb].
  assert (E : fty_beq sf f = false) by (destruct sf, f; try reflexivity; congruence). rewrite E.
  unfold convFltFlt. split.
  - intros Hr. rewrite <- fval_abs in Hr. exists (roundTo f m e). split; [|apply roundTo_nearest; exact Hr].
    rewrite fval_abs, greatest_max in Hr.
    assert (E1 : finLe (- fMaxM f) (fMaxE f) m e = true).
    { apply finLe_spec. rewrite fval_opp. pose proof (Qle_Qabs (- fval m e)) as H. rewrite Qabs_opp in H. lra. }
    assert (E2 : finLe m e (fMaxM f) (fMaxE f) = true).
    { apply finLe_spec. pose proof (Qle_Qabs (fval m e)) as H. lra. }
    rewrite E1, E2. reflexivity.
  - intros Hr. rewrite greatest_max in Hr.
    destruct (finLe (- fMaxM f) (fMaxE f) m e) eqn:E1; [|reflexivity].
    destruct (finLe m e (fMaxM f) (fMaxE f)) eqn:E2; [|reflexivity]. exfalso.
    apply finLe_spec in E1, E2. rewrite fval_opp in E1. revert Hr. apply Qle_not_lt.
    apply Qabs_Qle_condition. split; assumption.
Qed.
Print Assumptions C84_nearest.

Theorem C84_widening_exact : forall pf m e, inFormat F32 m e ->
  exists y, convertValue pf false (TFlt F64) (VFlt F32 (FFin m e)) = Ok (VFlt F64 y) /\ fltIs y (fval m e).
Proof.
  intros pf m e Hf. assert (Hf' : inFormat F64 m e) by (cbn in *; lia).
  destruct (C84_nearest pf F32 F64 m e ltac:(discriminate)) as [H _].
  destruct H as (y & E & Hn); [rewrite <- fval_abs; apply format_le; exact Hf'|].
  exists y. split; [exact E|]. apply (nearest_exact F64 _ y m e Hn Hf'). reflexivity.
Qed.
Print Assumptions C84_widening_exact.

Theorem C84_not_finite : forall pf sf f x, sf <> f -> x = FNaN \/ (exists b, x = FInf b) ->
  convertValue pf false (TFlt f) (VFlt sf x) = Err.
Proof. intros pf sf f x Hne [ -> | [b ->] ]; destruct sf, f; try congruence; reflexivity. Qed.
Print Assumptions C84_not_finite.

Example C84_case :
  convertValue (fun _ _ => None) false (TFlt F32) (VFlt F64 (FFin 3602879701896397 (-55)))
    = Ok (VFlt F32 (FFin 13421773 (-27))) /\
  (Qabs (fval 3602879701896397 (-55)) <= greatest F32)%Q /\
  convertValue (fun _ _ => None) false (TFlt F32) (VFlt F64 (FFin 1 128)) = Err /\ (greatest F32 < Qabs (fval 1 128))%Q.
Proof. repeat split; vm_compute; congruence. Qed.

(** * C85: complex numbers *)

Theorem C85_real_to_complex : forall pf f v x, (exists i z, v = VInt i z) \/ (exists g y, v = VFlt g y) ->
  convertValue pf false (TCplx f) v = Ok (VCplx f x (FFin 0 0)) <-> convertValue pf false (TFlt f) v = Ok (VFlt f x).
Proof.
  intros pf f v x Hv. unfold convertValue. destruct Hv as [(i & z & ->)|(g & y & ->)]; cbn [visited].
  - unfold convertSafely. cbn [typeOf tgt_eqb]. unfold convIntFlt.
    destruct (_ <=? _); [|cbv zeta; destruct (_ =? _); [|destruct (_ <=? _)]]; cbn [toCplx]; split; intros H; congruence.
  - unfold convertSafely. cbn [typeOf tgt_eqb]. destruct (fty_beq g f) eqn:E.
    + apply fty_beq_eq in E. subst g. cbn [toCplx]. split; intros H; congruence.
    + unfold convFltFlt. destruct y; cbn [toCplx]; try (split; intros H; congruence).
      destruct (_ && _); cbn [toCplx]; split; intros H; congruence.
Qed.
Print Assumptions C85_real_to_complex.

Theorem C85_complex_same : forall pf b f re im,
  convertValue pf b (TCplx f) (VCplx f re im) = Ok (VCplx f re im).
Proof. intros pf b f re im. destruct f; reflexivity. Qed.
Print Assumptions C85_complex_same.

(** A complex number never converts to a number of another type, be it real-valued or not. *)
Theorem C85_complex_refuted : forall pf f re im t, t <> TCplx f -> convertValue pf false t (VCplx f re im) = Err.
Proof.
  intros pf f re im t Hne. unfold convertValue, convertSafely, visited. cbn [typeOf].
  destruct t; cbn [tgt_eqb convVariant]; try reflexivity; try (destruct (nonZero im); reflexivity).
  destruct (fty_beq f f0) eqn:E; [|reflexivity]. apply fty_beq_eq in E. congruence.
Qed.
Print Assumptions C85_complex_refuted.

Example C85_case : convertValue (fun _ _ => None) false (TCplx F32) (VInt U8 7) = Ok (VCplx F32 (FFin 14680064 (-21)) (FFin 0 0)) /\
  convertValue (fun _ _ => None) false (TFlt F32) (VCplx F32 (FFin 1 0) (FFin 0 0)) = Err.
Proof. split; vm_compute; reflexivity. Qed.

(** * C86: text to integer and to boolean *)

Theorem C86_text_sound : forall pf t s v, convertSafely pf false (TInt t) (VStr s) = Ok v ->
  exists neg z, writesInt s neg z /\ (neg = true -> signedType t) /\ holdsInt t z /\ v = VInt t z.
Proof. intros pf t s v H. apply convStrInt_sound. exact H. Qed.
Print Assumptions C86_text_sound.

Theorem C86_text_complete : forall pf t s neg z, writesInt s neg z ->
  (holdsInt t z -> (neg = true -> signedType t) -> convertSafely pf false (TInt t) (VStr s) = Ok (VInt t z)) /\
  (~ holdsInt t z -> convertSafely pf false (TInt t) (VStr s) = Err) /\
  (neg = true -> ~ signedType t -> convertSafely pf false (TInt t) (VStr s) = Err).
Proof.
  intros pf t s neg z Hw. unfold convertSafely. cbn [typeOf tgt_eqb]. split; [|split].
  - intros Hr Hn. rewrite (convStrInt_complete t s neg z Hw Hn). apply holdsInt_range in Hr.
    destruct (Z.leb_spec (iMin t) z); [|lia]. destruct (Z.leb_spec z (iMax t)); [|lia]. reflexivity.
  - intros Hr. assert (D : neg = true /\ ~ signedType t \/ (neg = true -> signedType t)).
    { destruct neg; [|right; discriminate]. destruct (isSigned t) eqn:E.
      - right. intros _. apply signed_spec. exact E.
      - left. split; [reflexivity|]. rewrite <- signed_spec. congruence. }
    destruct D as [[-> Hn]|Hn]; [apply (convStrInt_minus t s z Hw Hn)|].
    rewrite (convStrInt_complete t s neg z Hw Hn). rewrite holdsInt_range in Hr.
    destruct (Z.leb_spec (iMin t) z); [|reflexivity]. destruct (Z.leb_spec z (iMax t)); [lia|reflexivity].
  - intros -> Hn. apply (convStrInt_minus t s z Hw Hn).
Qed.
Print Assumptions C86_text_complete.

(** "  -42 # comment" *)
Definition text42 : list Z := [32; 32; 45; 52; 50; 32; 35; 32; 99].
Example C86_case : writesInt text42 true (-42) /\ holdsInt I8 (-42) /\ signedType I8 /\
  convertSafely (fun _ _ => None) false (TInt I8) (VStr text42) = Ok (VInt I8 (-42)) /\
  convertSafely (fun _ _ => None) false (TInt U8) (VStr text42) = Err /\
  convertSafely (fun _ _ => None) false (TInt I8) (VStr [49; 50; 56]) = Err.
Proof.
  split.
  { exists [32; 32], [52; 50], [32], [35; 32; 99].
    repeat split; try reflexivity; try discriminate; try (right; eexists; reflexivity);
      repeat (constructor; try lia). }
  split; [cbn; lia|]. split; [left; reflexivity|]. repeat split; vm_compute; reflexivity.
Qed.

(** A text is a boolean exactly when it reads true, 1, false or 0, letters in any case, nothing around it. *)
Theorem C86_text_bool : forall pf s b, convertSafely pf false TBool (VStr s) = Ok (VBool b) <->
  (b = true /\ (spells [116; 114; 117; 101] s \/ s = [49])) \/
  (b = false /\ (spells [102; 97; 108; 115; 101] s \/ s = [48])).
Proof.
  intros pf s b. unfold convertSafely. cbn [typeOf tgt_eqb]. unfold convStrBool.
  rewrite <- !toLower_spells by (repeat constructor; lia).
  assert (H1 : s = [49] <-> map toLower s = sOne).
  { unfold sOne. rewrite toLower_spells by (repeat constructor; lia). unfold spells. split.
    - intros ->. repeat constructor.
    - intros H. inversion H as [|? ? ? ? Hd Hr]; subst. inversion Hr; subst. f_equal. lia. }
  assert (H0 : s = [48] <-> map toLower s = sZero).
  { unfold sZero. rewrite toLower_spells by (repeat constructor; lia). unfold spells. split.
    - intros ->. repeat constructor.
    - intros H. inversion H as [|? ? ? ? Hd Hr]; subst. inversion Hr; subst. f_equal. lia. }
  rewrite H1, H0. clear H1 H0.
  fold sTrue sFalse. set (l := map toLower s). clearbody l.
  destruct (strEqb l sTrue || strEqb l sOne) eqn:E1.
  - apply orb_true_iff in E1. rewrite !strEqb_eq in E1. split.
    + intros H. injection H as <-. left. auto.
    + intros [[-> _]|[_ [H|H]]]; [reflexivity| |]; exfalso; destruct E1 as [E1|E1]; rewrite E1 in H; discriminate.
  - apply orb_false_iff in E1 as [N1 N2].
    assert (M1 : l <> sTrue) by (rewrite <- strEqb_eq; congruence).
    assert (M2 : l <> sOne) by (rewrite <- strEqb_eq; congruence).
    destruct (strEqb l sFalse || strEqb l sZero) eqn:E2.
    + apply orb_true_iff in E2. rewrite !strEqb_eq in E2. split.
      * intros H. injection H as <-. right. auto.
      * intros [[_ [H|H]]|[-> _]]; [contradiction|contradiction|reflexivity].
    + apply orb_false_iff in E2 as [N3 N4].
      assert (M3 : l <> sFalse) by (rewrite <- strEqb_eq; congruence).
      assert (M4 : l <> sZero) by (rewrite <- strEqb_eq; congruence).
      split; [discriminate|]. intros [[_ [H|H]]|[_ [H|H]]]; contradiction.
Qed.
Print Assumptions C86_text_bool.

Example C86_bool_case : convertSafely (fun _ _ => None) false TBool (VStr [84; 82; 117; 101]) = Ok (VBool true).
Proof. vm_compute. reflexivity. Qed.

(** * C87: the same type, strict checking, stored texts *)

Theorem C87_same_type_partial : forall pf b v t, typeOf v = Some t -> (forall s, v <> VStr s) ->
  convertValue pf b t v = Ok v.
Proof.
  intros pf b v t Ht Hs. unfold convertValue. assert (E : visited v = v) by (destruct v; try reflexivity; exfalso; eapply Hs; reflexivity).
  rewrite E. unfold convertSafely. rewrite Ht, tgt_eqb_refl. reflexivity.
Qed.
Print Assumptions C87_same_type_partial.

Theorem C87_strict : forall pf v t r, convertValue pf true t v = Ok r -> r = v /\ typeOf v = Some t.
Proof.
  intros pf v t r. unfold convertValue, convertSafely.
  destruct (match typeOf (visited v) with Some s => tgt_eqb s t | None => false end) eqn:E; [|discriminate].
  intros H. injection H as <-.
  assert (Ev : visited v = v) by (destruct v; try reflexivity; discriminate).
  rewrite Ev in *. split; [reflexivity|]. destruct (typeOf v) as [s|] eqn:Es; [|discriminate].
  f_equal. apply tgt_eqb_eq. exact E.
Qed.
Print Assumptions C87_strict.

(** A text held by a value converts to nothing at all: not to a number it writes, not even to a string. *)
Theorem C87_stored_text_refuted : forall pf b t s, convertValue pf b t (VStr s) = Err.
Proof. intros pf b t s. unfold convertValue, convertSafely, visited. cbn [typeOf]. destruct b; reflexivity. Qed.
Print Assumptions C87_stored_text_refuted.

Example C87_case : typeOf (VTensor 3 [1; 2]) = Some (TTensor 3) /\
  convertValue (fun _ _ => None) true (TTensor 3) (VTensor 3 [1; 2]) = Ok (VTensor 3 [1; 2]) /\
  convertValue (fun _ _ => None) true (TInt I32) (VInt I16 5) = Err /\
  convertSafely (fun _ _ => None) false (TInt I32) (VStr [52; 50]) = Ok (VInt I32 42) /\
  convertValue (fun _ _ => None) false (TInt I32) (VStr [52; 50]) = Err.
Proof. repeat split; vm_compute; reflexivity. Qed.

(** * C88: the smallest type for a number *)

(** For a text that writes an integer: the result is that integer, in a type of the variant that holds it, and no type
    of the variant that also holds it comes before (narrower, or as narrow and signed); a text with a minus sign only
    considers the signed types. *)
Theorem C88_smallest : forall pf has hasF s neg z t z', writesInt s neg z ->
  parseToMinimalNumeric pf has hasF s = PInt t z' ->
  z' = z /\ has t = true /\ holdsInt t z /\
  forall u, has u = true -> holdsInt u z -> (neg = true -> signedType u) -> rank t <= rank u.
Proof.
  intros pf has hasF s neg z t z' Hw. apply writesInt_trim in Hw as (ds & Hd & Hne & Et & Ez).
  unfold parseToMinimalNumeric. rewrite Et.
  pose proof (notFloat_core neg ds Hd) as Hf. pose proof (decimal_nonneg ds Hd 0 ltac:(lia)) as Hnn.
  destruct neg.
  - destruct ((if true then [45] else []) ++ ds) as [|c core] eqn:Ec; [discriminate|].
    cbn in Ec. injection Ec as Ec Ec2. subst c core.
    change ([45] ++ ds) with (45 :: ds) in Hf. rewrite Hf. cbn [negb]. change (45 =? 45) with true. cbv iota.
    pose proof (fromChars_digits true (iMin I64) (iMax I64) true ds Hd Hne (fun _ => eq_refl)) as HF.
    cbv zeta in HF. change ((if true then [45] else []) ++ ds) with (45 :: ds) in HF.
    change (if true then - decimal 0 ds else decimal 0 ds) with (- decimal 0 ds) in HF. rewrite HF. rewrite <- Ez.
    destruct ((iMin I64 <=? z) && (z <=? iMax I64)) eqn:Er; [|discriminate].
    apply andb_true_iff in Er as [Er1 Er2]. apply Z.leb_le in Er1, Er2.
    destruct (firstFit _ _ _) as [t'|] eqn:EF; [|discriminate]. intros E. injection E as <- <-.
    destruct (firstFit_min _ _ _ _ EF rank_sorted4) as (H1 & H2 & H3 & H4).
    assert (Hh : holdsInt t' z).
    { apply holdsInt_range. destruct t'; cbn in H3; try (intuition discriminate); try (split; assumption);
        unfold inRangeS in H2; apply andb_true_iff in H2 as [A B]; apply Z.leb_le in A, B; split; assumption. }
    split; [apply castInt_id; exact Hh|]. split; [exact H1|]. split; [exact Hh|].
    intros u Hu Hhu Hs. apply H4.
    + specialize (Hs eq_refl). unfold signedType in Hs. cbn. intuition.
    + exact Hu.
    + apply holdsInt_range in Hhu. destruct u; try reflexivity; unfold inRangeS; apply andb_true_iff; rewrite !Z.leb_le; exact Hhu.
  - cbn [app] in *. destruct ds as [|c core] eqn:Ec; [congruence|]. rewrite Hf. cbn [negb].
    assert (Hc : (c =? 45) = false) by (inversion Hd; subst; cbn beta in *; apply Z.eqb_neq; lia). rewrite Hc.
    pose proof (fromChars_digits false (iMin U64) (iMax U64) false (c :: core) Hd Hne ltac:(discriminate)) as HF.
    cbv zeta in HF. cbn [app] in HF. rewrite HF, <- Ez.
    destruct ((iMin U64 <=? z) && (z <=? iMax U64)) eqn:Er; [|discriminate].
    apply andb_true_iff in Er as [Er1 Er2]. apply Z.leb_le in Er1, Er2.
    destruct (firstFit _ _ _) as [t'|] eqn:EF; [|discriminate]. intros E. injection E as <- <-.
    destruct (firstFit_min _ _ _ _ EF rank_sorted8) as (H1 & H2 & H3 & H4).
    assert (Hz : 0 <= z) by (rewrite Ez; exact Hnn).
    assert (Hmin : forall i, iMin i <= 0) by (intros i; destruct i; vm_compute; congruence).
    assert (Hh : holdsInt t' z).
    { apply holdsInt_range. apply Z.leb_le in H2. specialize (Hmin t'). lia. }
    split; [apply castInt_id; exact Hh|]. split; [exact H1|]. split; [exact Hh|].
    intros u Hu Hhu _. apply H4.
    + destruct u; cbn; intuition.
    + exact Hu.
    + apply holdsInt_range in Hhu. apply Z.leb_le. lia.
Qed.
Print Assumptions C88_smallest.

(** It is refused only when no type of the variant holds it. *)
Theorem C88_accepts : forall pf has hasF s neg z u, writesInt s neg z ->
  has u = true -> holdsInt u z -> (neg = true -> signedType u) ->
  exists t, parseToMinimalNumeric pf has hasF s = PInt t z.
Proof.
  intros pf has hasF s neg z u Hw Hu Hhu Hs.
  assert (G : exists t z', parseToMinimalNumeric pf has hasF s = PInt t z').
  { pose proof (writesInt_trim s neg z Hw) as (ds & Hd & Hne & Et & Ez).
    unfold parseToMinimalNumeric. rewrite Et.
    pose proof (notFloat_core neg ds Hd) as Hf. pose proof (decimal_nonneg ds Hd 0 ltac:(lia)) as Hnn.
    apply holdsInt_range in Hhu. destruct neg.
    - cbn [app] in *. rewrite Hf. cbn [negb]. change (45 =? 45) with true. cbv iota.
      pose proof (fromChars_digits true (iMin I64) (iMax I64) true ds Hd Hne (fun _ => eq_refl)) as HF.
      cbv zeta in HF. cbn [app] in HF. rewrite HF, <- Ez. specialize (Hs eq_refl).
      assert (R : iMin I64 <= z <= iMax I64).
      { destruct Hs as [ -> | [ -> | [ -> | -> ] ] ]; cbv [iMin iMax isSigned width digits] in *; lia. }
      destruct (Z.leb_spec (iMin I64) z); [|lia]. destruct (Z.leb_spec z (iMax I64)); [|lia]. cbn [andb].
      destruct (firstFit _ _ _) as [t'|] eqn:EF; [eauto|exfalso].
      pose proof (firstFit_none _ _ _ EF u) as N. cbv beta in N.
      assert (T : match u with I64 => true | _ => inRangeS u z end = true).
      { destruct u; try reflexivity; unfold inRangeS; apply andb_true_iff; rewrite !Z.leb_le; exact Hhu. }
      rewrite T in N. enough (true = false) by discriminate. apply N; [|exact Hu].
      unfold signedType in Hs. cbn. intuition.
    - cbn [app] in *. destruct ds as [|c core] eqn:Ec; [congruence|]. rewrite Hf. cbn [negb].
      assert (Hc : (c =? 45) = false) by (inversion Hd; subst; cbn beta in *; apply Z.eqb_neq; lia). rewrite Hc.
      pose proof (fromChars_digits false (iMin U64) (iMax U64) false (c :: core) Hd Hne ltac:(discriminate)) as HF.
      cbv zeta in HF. cbn [app] in HF. rewrite HF, <- Ez.
      assert (Hz : 0 <= z) by (rewrite Ez; exact Hnn).
      assert (R : iMin U64 <= z <= iMax U64).
      { destruct u; cbv [iMin iMax isSigned width digits] in *; lia. }
      destruct (Z.leb_spec (iMin U64) z); [|lia]. destruct (Z.leb_spec z (iMax U64)); [|lia]. cbn [andb].
      destruct (firstFit _ _ _) as [t'|] eqn:EF; [eauto|exfalso].
      pose proof (firstFit_none _ _ _ EF u) as N. cbv beta in N.
      assert (T : (z <=? iMax u) = true) by (apply Z.leb_le; lia).
      rewrite T in N. enough (true = false) by discriminate. apply N; [|exact Hu]. destruct u; cbn; intuition. }
  destruct G as (t & z' & G). destruct (C88_smallest pf has hasF s neg z t z' Hw G) as [-> _]. eauto.
Qed.
Print Assumptions C88_accepts.

(** Only a text that writes an integer gives one. *)
Theorem C88_only_integers : forall pf has hasF s t z, parseToMinimalNumeric pf has hasF s = PInt t z ->
  exists neg z', writesInt s neg z'.
Proof.
  intros pf has hasF s t z. unfold parseToMinimalNumeric.
  destruct (trim_decomp s) as (l & tt & c & Hl & Ht & Hc & E).
  destruct (trimAndCutComment s) as [|d core] eqn:Et; [discriminate|].
  assert (G : forall sgn lo hi v, fromChars sgn lo hi (d :: core) = FcOk v [] -> exists neg z', writesInt s neg z').
  { intros sgn lo hi v HF. apply fromChars_ok in HF as (neg & ds & Es & Hd & Hne & Ez & _). exists neg, v.
    exists l, ds, tt, c. rewrite Es, <- app_assoc in E. auto 10. }
  destruct (negb (mightBeFloat (d :: core))).
  - destruct (d =? 45).
    + destruct (fromChars true (iMin I64) (iMax I64) (d :: core)) as [| |v [|]] eqn:EF; try discriminate. intros _. eapply G. exact EF.
    + destruct (fromChars false (iMin U64) (iMax U64) (d :: core)) as [| |v [|]] eqn:EF; try discriminate. intros _. eapply G. exact EF.
  - cbv zeta. cbn [convertSafely typeOf]. destruct (hasF F32), (hasF F64); discriminate.
Qed.
Print Assumptions C88_only_integers.

Definition allInts : ity -> bool := fun _ => true.
Example C88_case : parseToMinimalNumeric (fun _ _ => None) allInts (fun _ => true) text42 = PInt I8 (-42) /\
  parseToMinimalNumeric (fun _ _ => None) allInts (fun _ => true) [50; 48; 48] = PInt U8 200 /\
  parseToMinimalNumeric (fun _ _ => None) (fun t => negb (ity_beq t U8)) (fun _ => true) [50; 48; 48] = PInt I16 200.
Proof. repeat split; vm_compute; reflexivity. Qed.

(** A text with a decimal point or exponent is refused whatever the number parser says and whatever the variant holds. *)
Theorem C88_float_text_refuted : forall pf has hasF s, mightBeFloat (trimAndCutComment s) = true ->
  parseToMinimalNumeric pf has hasF s = PErr.
Proof.
  intros pf has hasF s Hf. unfold parseToMinimalNumeric. destruct (trimAndCutComment s) as [|c core]; [reflexivity|].
  rewrite Hf. cbn [negb]. cbv zeta. cbn [convertSafely typeOf]. destruct (hasF F32), (hasF F64); reflexivity.
Qed.
Print Assumptions C88_float_text_refuted.

Example C88_float_case : mightBeFloat (trimAndCutComment [49; 46; 53]) = true.
Proof. reflexivity. Qed.

(** * C89: tensors to vectors and arrays *)

Definition wfTensor (src : tensor) : Prop :=
  Forall wfElt (tData src) /\ Forall (fun x => etype x = tElem src) (tData src).

Theorem C89_values_kept_partial : forall t p rp src, wfTensor src -> p = Safe \/ p = Widening ->
  (forall i f, tElem src = EInt i -> t = EFlt f -> magnitudeBits i <= precision f) ->
  match tensorToVector t p rp src with
  | TOk l => Forall2 sameNumber (tData src) l /\ Forall (fun y => etype y = t) l
  | TErr _ => True
  | TUB => False
  end.
Proof.
  intros t p rp src [Hw Ht] Hp Hx. unfold tensorToVector.
  destruct (allowed p (tElem src) t) eqn:Ea; [|exact I]. cbn [negb].
  destruct (rankOk rp (tExt src)); [|exact I]. cbn [negb].
  destruct (castAll_same t (tData src) Hw) as (r & E & H1 & H2).
  - rewrite Forall_forall in Ht |- *. intros x Hin. rewrite (Ht x Hin).
    unfold allowed in Ea. destruct (ety_eqb (tElem src) t) eqn:Ee; [left; reflexivity|right].
    split; [|intros i f Ei Ef; rewrite <- magnitude_digits; apply (Hx i f Ei Ef)]. destruct (isWidening (tElem src) t); [reflexivity|]. destruct Hp as [-> | ->]; discriminate.
  - rewrite E. split; assumption.
Qed.
Print Assumptions C89_values_kept_partial.

Theorem C89_array_size : forall t n p rp src l, tensorToArray t n p rp src = TOk l ->
  Z.of_nat (length l) = n /\ tensorToVector t p rp src = TOk l.
Proof.
  intros t n p rp src l. unfold tensorToArray, tensorToVector.
  destruct (negb (allowed p (tElem src) t)); [discriminate|]. destruct (negb (rankOk rp (tExt src))); [discriminate|].
  destruct (Z.eqb_spec (Z.of_nat (length (tData src))) n) as [En|]; [|discriminate]. cbn [negb].
  destruct (castAll t (tData src)) eqn:E; [|discriminate]. intros H. injection H as <-.
  rewrite (castAll_length _ _ _ E). split; [exact En|reflexivity].
Qed.
Print Assumptions C89_array_size.

Theorem C89_safe_same_type : forall t rp src l, tensorToVector t Safe rp src = TOk l -> tElem src = t.
Proof.
  intros t rp src l. unfold tensorToVector, allowed. cbn [pnum]. destruct (ety_eqb (tElem src) t) eqn:E.
  - intros _. apply ety_eqb_eq. exact E.
  - cbn. discriminate.
Qed.
Print Assumptions C89_safe_same_type.

Definition t16 : tensor := mkTensor (EInt I16) [2] [XInt I16 (-7); XInt I16 300].
Example C89_case : wfTensor t16 /\ tensorToVector (EInt I64) Widening RStrict t16 = TOk [XInt I64 (-7); XInt I64 300] /\
  tensorToVector (EInt I64) Safe RStrict t16 = TErr KWidening /\
  tensorToArray (EInt I64) 3 Widening RStrict t16 = TErr KSize.
Proof. split; [split; repeat constructor; cbn; lia|]. repeat split; vm_compute; reflexivity. Qed.

(** "Widening" from a 32-bit integer to float, or a 64-bit one to double, changes the number. *)
Theorem C89_widening_refuted :
  tensorToVector (EFlt F32) Widening RStrict (mkTensor (EInt I32) [1] [XInt I32 16777217])
    = TOk [XFlt F32 (FFin 8388608 1)] /\
  ~ sameNumber (XInt I32 16777217) (XFlt F32 (FFin 8388608 1)) /\
  tensorToVector (EFlt F64) Widening RStrict (mkTensor (EInt I64) [1] [XInt I64 9007199254740993])
    = TOk [XFlt F64 (FFin 4503599627370496 1)] /\
  ~ sameNumber (XInt I64 9007199254740993) (XFlt F64 (FFin 4503599627370496 1)).
Proof. repeat split; try (vm_compute; reflexivity); intros H; vm_compute in H; discriminate. Qed.
Print Assumptions C89_widening_refuted.

(** Narrowing to an integer type reaches an undefined cast. *)
Theorem C89_narrowing_refuted :
  tensorToVector (EInt I32) Narrowing RStrict (mkTensor (EFlt F64) [1] [XFlt F64 (FFin 1 40)]) = TUB.
Proof. vm_compute. reflexivity. Qed.
Print Assumptions C89_narrowing_refuted.

(** * C90: tensors of values *)

(** What a tensor of values converts to, the tensor of that element type converts to as well. *)
Theorem C90_values_like_typed : forall t p rp ext l a r, l <> [] -> Forall (fun x => etype x = a) l ->
  valuesToVector t p rp ext l = TOk r -> tensorToVector t p rp (mkTensor a ext l) = TOk r.
Proof.
  intros t p rp ext l a r Hne Ha. unfold valuesToVector, tensorToVector. cbn [tElem tExt tData].
  destruct (rankOk rp ext); [|discriminate]. cbn [negb]. intros H.
  destruct l as [|x l]; [congruence|].
  assert (Hx : etype x = a) by (inversion Ha; assumption).
  pose proof (convertAll_head _ _ _ _ _ _ H) as Hacc. rewrite Hx in Hacc. rewrite (accepts_allowed _ _ _ Hacc). cbn [negb].
  rewrite (convertAll_cast _ _ _ _ _ H). reflexivity.
Qed.
Print Assumptions C90_values_like_typed.

(** An element that does not convert is reported by its index, and every element before it is of a type that converts. *)
Theorem C90_first_failure : forall t p rp ext l j, valuesToVector t p rp ext l = TErr (KElement j) ->
  exists x, nth_error l (Z.to_nat j) = Some x /\ 0 <= j /\
    tryConvertElement t p x j = TErr (KElement j) /\
    forall i y k, (i < Z.to_nat j)%nat -> nth_error l i = Some y -> tryConvertElement t p y k <> TErr (KElement k).
Proof.
  intros t p rp ext l j. unfold valuesToVector. destruct (rankOk rp ext); [|discriminate]. cbn [negb]. intros H.
  apply convertAll_err in H as (x & Hn & Hle & Ha & Hb). rewrite Z.sub_0_r in *. exists x.
  split; [exact Hn|]. split; [exact Hle|]. split.
  - unfold tryConvertElement. fold (accepts t p (etype x)). rewrite Ha. reflexivity.
  - intros i y k Hi Hy. unfold tryConvertElement. fold (accepts t p (etype y)). rewrite (Hb i y Hi Hy).
    destruct (castElt t y); discriminate.
Qed.
Print Assumptions C90_first_failure.

Example C90_case :
  valuesToVector (EFlt F64) Widening RStrict [2] [XInt I32 3; XInt I64 4] = TOk [XFlt F64 (FFin 6755399441055744 (-51)); XFlt F64 (FFin 4503599627370496 (-50))] /\
  valuesToVector (EInt I64) Safe RStrict [2] [XInt I64 3; XInt I32 4] = TErr (KElement 1) /\
  valuesToVector (EInt I32) Widening RStrict [2] [XInt I16 3; XInt I16 4] = TOk [XInt I32 3; XInt I32 4].
Proof. repeat split; vm_compute; reflexivity. Qed.

(** The converse fails: under Widening a tensor of int8 converts to double, a tensor of values holding int8 does not. *)
Theorem C90_typed_like_values_refuted :
  tensorToVector (EFlt F64) Widening RStrict (mkTensor (EInt I8) [1] [XInt I8 3])
    = TOk [XFlt F64 (FFin 6755399441055744 (-51))] /\
  valuesToVector (EFlt F64) Widening RStrict [1] [XInt I8 3] = TErr (KElement 0) /\
  tensorToVector (EInt I8) Narrowing RStrict (mkTensor (EInt I64) [1] [XInt I64 3]) = TOk [XInt I8 3] /\
  valuesToVector (EInt I8) Narrowing RStrict [1] [XInt I64 3] = TErr (KElement 0).
Proof. repeat split; vm_compute; reflexivity. Qed.
Print Assumptions C90_typed_like_values_refuted.
