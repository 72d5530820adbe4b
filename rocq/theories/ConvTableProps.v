(** Which conversions of element types each policy of the tensor conversions accepts (C89). *)
From Coq Require Import List ZArith Lia Bool.
From Verif Require Import ConvModel ConvSpec ConvProofs.
Import ListNotations.
Local Open Scope Z_scope.

(** Specification: sizes in bytes, and the table of widening conversions, written out. *)
Definition bytesOf (e : ety) : Z :=
  match e with
  | EBool | EInt I8 | EInt U8 => 1
  | EInt I16 | EInt U16 => 2
  | EInt I32 | EInt U32 | EFlt F32 => 4
  | EInt I64 | EInt U64 | EFlt F64 | ECplx F32 => 8
  | ECplx F64 => 16
  end.

Inductive widens : ety -> ety -> Prop :=
| wSigned : forall i j, signedType i -> signedType j -> bytesOf (EInt i) < bytesOf (EInt j) -> widens (EInt i) (EInt j)
| wUnsigned : forall i j, ~ signedType i -> ~ signedType j -> bytesOf (EInt i) < bytesOf (EInt j) -> widens (EInt i) (EInt j)
| wFloat : widens (EFlt F32) (EFlt F64)
| wComplex : widens (ECplx F32) (ECplx F64)
| wIntFloat : forall i f, bytesOf (EInt i) <= bytesOf (EFlt f) -> widens (EInt i) (EFlt f).

(** A complex number cannot become a real one. *)
Definition dropsImaginary (a b : ety) : Prop := (exists f, a = ECplx f) /\ ~ (exists f, b = ECplx f).

(** The types a policy accepts. *)
Definition accepts (p : policy) (a b : ety) : Prop :=
  match p with
  | Safe => a = b
  | Widening => a = b \/ widens a b
  | Narrowing | Unchecked => ~ dropsImaginary a b
  end.

Lemma isWidening_widens a b : isWidening a b = true <-> widens a b.
Proof.
  split.
  - destruct a as [|i|f|f], b as [|j|g|g]; cbn [isWidening]; try discriminate; try (destruct f; discriminate).
    + intros H. apply andb_true_iff in H as [H1 H2].
      destruct i, j; try discriminate;
        first [apply wSigned; [unfold signedType; tauto|unfold signedType; tauto|cbn; lia]
              |apply wUnsigned; [unfold signedType; intuition discriminate|unfold signedType; intuition discriminate|cbn; lia]].
    + intros H. apply wIntFloat. destruct i, g; try discriminate; cbn; lia.
    + destruct f, g; try discriminate. intros _. apply wFloat.
    + destruct f, g; try discriminate. intros _. apply wComplex.
  - intros H. destruct H as [i j H1 H2 H3|i j H1 H2 H3| | |i f H].
    + unfold signedType in H1, H2. destruct i, j; cbn in H3; try lia; try reflexivity; intuition discriminate.
    + unfold signedType in H1, H2. destruct i, j; cbn in H3; try lia; try reflexivity; intuition.
    + reflexivity.
    + reflexivity.
    + destruct i, f; cbn in H; try lia; reflexivity.
Qed.

Lemma castable_spec a b : castable a b = true <-> ~ dropsImaginary a b.
Proof.
  unfold dropsImaginary. destruct a as [|i|f|f], b as [|j|g|g]; cbn [castable]; split;
    intros H; try reflexivity; try discriminate;
    try (intros [(u & E) _]; discriminate E);
    try (intros [_ N]; apply N; eexists; reflexivity);
    exfalso; apply H; (split; [eexists; reflexivity|intros (u & E); discriminate E]).
Qed.

Lemma allowed_accepts p a b : allowed p a b = true <-> accepts p a b.
Proof.
  unfold allowed, isNarrowing. destruct p; cbn [pnum accepts].
  - change (1 <=? 0) with false. change (2 <=? 0) with false. change (0 =? 3) with false. cbn [andb].
    rewrite !orb_false_r. split; [apply ety_eqb_eq|intros ->; destruct b as [|[]|[]|[]]; reflexivity].
  - change (1 <=? 1) with true. change (2 <=? 1) with false. change (1 =? 3) with false. cbn [andb].
    rewrite !orb_false_r, orb_true_iff, isWidening_widens. split; intros [H|H]; try (right; exact H); left.
    + apply ety_eqb_eq. exact H.
    + rewrite H. destruct b as [|[]|[]|[]]; reflexivity.
  - change (1 <=? 2) with true. change (2 <=? 2) with true. change (2 =? 3) with false. cbn [andb].
    rewrite orb_false_r, <- castable_spec. split; intros H.
    + destruct (castable a b) eqn:E; [reflexivity|]. rewrite andb_false_r, orb_false_r in H. revert H E.
      destruct a as [|i|[]|[]], b as [|j|[]|[]]; cbn; congruence.
    + rewrite H. destruct (ety_eqb a b), (isWidening a b); reflexivity.
  - change (1 <=? 3) with true. change (2 <=? 3) with true. change (3 =? 3) with true. cbn [andb].
    rewrite <- castable_spec. split; intros H.
    + destruct (castable a b) eqn:E; [reflexivity|]. rewrite andb_false_r, orb_false_r in H. revert H E.
      destruct a as [|i|[]|[]], b as [|j|[]|[]]; cbn; congruence.
    + rewrite H. apply orb_true_r.
Qed.

(** A tensor is converted only if the policy's table accepts the pair of types, and then it is refused only for its rank. *)
Theorem C89_policy_table : forall t p rp src,
  (accepts p (tElem src) t <->
   match tensorToVector t p rp src with
   | TOk _ | TUB => True
   | TErr k => k = KRank
   end) /\
  (forall k, tensorToVector t p rp src = TErr k ->
     (k = KRank /\ rp = RStrict /\ length (tExt src) <> 1%nat) \/
     (k = KTypeMismatch /\ dropsImaginary (tElem src) t) \/
     (k = KWidening /\ p = Safe /\ widens (tElem src) t) \/
     (k = KNarrowing /\ ~ dropsImaginary (tElem src) t /\ tElem src <> t /\ ~ widens (tElem src) t)).
Proof.
  intros t p rp src. unfold tensorToVector. pose proof (allowed_accepts p (tElem src) t) as HA.
  destruct (allowed p (tElem src) t) eqn:E; cbn [negb].
  - split.
    + split; intros _; [|apply HA; reflexivity]. destruct (negb (rankOk rp (tExt src))); [reflexivity|].
      destruct (castAll t (tData src)); exact I.
    + intros k. destruct (rankOk rp (tExt src)) eqn:ER; cbn [negb].
      * destruct (castAll t (tData src)); discriminate.
      * intros H. injection H as <-. left. split; [reflexivity|]. destruct rp; cbn [rankOk] in ER; try discriminate.
        split; [reflexivity|]. apply Nat.eqb_neq. exact ER.
  - split.
    + split; [intros H; apply HA in H; discriminate|]. intros H. exfalso. revert H. unfold notAllowed.
      destruct (isWidening (tElem src) t), (castable (tElem src) t); discriminate.
    + intros k H. injection H as <-. right. unfold notAllowed.
      destruct (isWidening (tElem src) t) eqn:EW.
      * right. left. split; [reflexivity|]. apply isWidening_widens in EW. split; [|exact EW].
        apply isWidening_widens in EW. unfold allowed in E. rewrite EW in E.
        destruct p; [reflexivity| | |]; destruct (ety_eqb (tElem src) t); discriminate E.
      * destruct (castable (tElem src) t) eqn:EC.
        -- right. right. split; [reflexivity|]. split; [apply castable_spec; exact EC|]. split.
           ++ intros Q. rewrite Q in E. unfold allowed in E. destruct t as [|[]|[]|[]]; discriminate E.
           ++ intros HW. apply isWidening_widens in HW. congruence.
        -- left. split; [reflexivity|]. destruct (tElem src) as [|i|f|f], t as [|j|g|g]; try discriminate EC;
             (split; [eexists; reflexivity|intros (u & X); discriminate X]).
Qed.
Print Assumptions C89_policy_table.

Example C89_table_case :
  accepts Widening (EInt U16) (EInt U32) /\ accepts Widening (EInt I32) (EFlt F32) /\
  ~ accepts Widening (EInt I64) (EFlt F32) /\ ~ accepts Widening (EInt U8) (EInt I16) /\
  tensorToVector (EFlt F32) Widening RStrict (mkTensor (EInt I64) [1] [XInt I64 5]) = TErr KNarrowing /\
  tensorToVector (EFlt F64) Widening RStrict (mkTensor (EInt I64) [1; 1] [XInt I64 5]) = TErr KRank.
Proof.
  split; [right; apply wUnsigned; [unfold signedType; intuition discriminate..|cbn; lia]|].
  split; [right; apply wIntFloat; cbn; lia|].
  split; [intros H; apply (proj2 (allowed_accepts _ _ _)) in H; discriminate H|].
  split; [intros H; apply (proj2 (allowed_accepts _ _ _)) in H; discriminate H|].
  split; vm_compute; reflexivity.
Qed.
