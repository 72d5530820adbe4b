(** Proofs about the checked conversions. *)
From Coq Require Import List ZArith Lia Bool QArith Qabs Lqa Sorting.Sorted.
From Verif Require Import ConvModel ConvSpec ConvFloat.
Import ListNotations.
Local Open Scope Z_scope.

Ltac cases i := destruct i; cbn [holdsInt iMin iMax isSigned width digits castInt].

Lemma holdsInt_range i z : holdsInt i z <-> iMin i <= z <= iMax i.
Proof. destruct i; cbv [holdsInt iMin iMax isSigned width digits]; lia. Qed.

Lemma castInt_id i z : holdsInt i z -> castInt i z = z.
Proof.
  intros H. unfold castInt. destruct i; cbn [isSigned width holdsInt] in *;
  repeat match goal with |- context [2 ^ ?n] => let v := eval vm_compute in (2 ^ n) in change (2 ^ n) with v end;
  try (apply Z.mod_small; lia);
  match goal with |- context [z mod ?n] => pose proof (Z.div_mod z n ltac:(lia)); pose proof (Z.mod_pos_bound z n ltac:(lia)) end;
  match goal with |- context [?a <? ?b] => destruct (Z.ltb_spec a b) end; nia.
Qed.

Lemma castI64_big z : 2 ^ 63 <= z < 2 ^ 64 -> castInt I64 z = z - 2 ^ 64.
Proof.
  intros H. unfold castInt. cbn [isSigned width]. change (64 - 1) with 63.
  rewrite Z.mod_small by lia. destruct (Z.ltb_spec z (2 ^ 63)); lia.
Qed.

Lemma ity_beq_refl i : ity_beq i i = true.
Proof. destruct i; reflexivity. Qed.
Lemma ity_beq_eq i j : ity_beq i j = true -> i = j.
Proof. destruct i, j; cbn; congruence. Qed.
Lemma fty_beq_refl f : fty_beq f f = true.
Proof. destruct f; reflexivity. Qed.
Lemma fty_beq_eq f g : fty_beq f g = true -> f = g.
Proof. destruct f, g; cbn; congruence. Qed.
Lemma tgt_eqb_refl t : tgt_eqb t t = true.
Proof. destruct t; cbn; auto using ity_beq_refl, fty_beq_refl, PeanoNat.Nat.eqb_refl. Qed.
Lemma tgt_eqb_eq a b : tgt_eqb a b = true -> a = b.
Proof.
  destruct a, b; cbn; intros H; try discriminate; try reflexivity.
  - f_equal. apply ity_beq_eq. exact H.
  - f_equal. apply fty_beq_eq. exact H.
  - f_equal. apply fty_beq_eq. exact H.
  - f_equal. apply PeanoNat.Nat.eqb_eq. exact H.
Qed.

(** * Integer to integer *)
Lemma convIntInt_spec s t z : holdsInt s z -> ~ (s = U64 /\ signedType t /\ 2 ^ 63 <= z) ->
  (holdsInt t z -> convIntInt s t z = Ok (VInt t z)) /\ (~ holdsInt t z -> convIntInt s t z = Err).
Proof.
  intros Hs Hx. unfold convIntInt.
  assert (Hw : (s = U64 /\ 2 ^ 63 <= z /\ castInt I64 z = z - 2 ^ 64) \/ castInt I64 z = z).
  { destruct (Z.le_gt_cases (2 ^ 63) z) as [Hz|Hz].
    - left. assert (s = U64) by (destruct s; cbn [holdsInt] in Hs; try reflexivity; lia). subst s.
      cbn [holdsInt] in Hs. split; [reflexivity|split; [exact Hz|apply castI64_big; lia]].
    - right. apply castInt_id. destruct s; cbn [holdsInt] in Hs |- *; lia. }
  destruct (negb (isSigned t) && isSigned s && (z <? 0)) eqn:Eneg.
  { apply andb_true_iff in Eneg as [Eneg Ez]. apply andb_true_iff in Eneg as [Et _].
    apply Z.ltb_lt in Ez. split; [|reflexivity]. intros Ht. exfalso.
    destruct t; cbn in Et; try discriminate; cbn [holdsInt] in Ht; lia. }
  destruct (Z.leb_spec (digits s) (digits t)) as [Hd|Hd].
  { assert (Ht : holdsInt t z).
    { rewrite holdsInt_range in Hs |- *. unfold iMax in *.
      assert (2 ^ digits s <= 2 ^ digits t) by (apply Z.pow_le_mono_r; lia).
      split; [|lia]. unfold iMin in *. destruct (isSigned t) eqn:Et.
      - destruct (isSigned s) eqn:Es.
        + assert (2 ^ (width s - 1) <= 2 ^ (width t - 1)).
          { apply Z.pow_le_mono_r; [lia|]. unfold digits in Hd. rewrite Es, Et in Hd. exact Hd. }
          lia.
        + assert (0 <= 2 ^ (width t - 1)) by (apply Z.pow_nonneg; lia). lia.
      - destruct (isSigned s) eqn:Es; cbn in Eneg; [apply Z.ltb_ge in Eneg; exact Eneg|lia]. }
    split; intros H; [rewrite castInt_id by exact H; reflexivity|contradiction]. }
  rewrite holdsInt_range.
  destruct Hw as [(Hu & Hz & Hw)|Hw]; rewrite Hw.
  - (* uint64 above the int64 range: the target is unsigned *)
    assert (Ht : isSigned t = false).
    { destruct (isSigned t) eqn:Et; [|reflexivity]. exfalso. apply Hx. repeat split; try assumption.
      unfold signedType. destruct t; cbn in Et; try discriminate; auto. }
    subst s. cbn [holdsInt] in Hs.
    assert (Hmin : iMin t = 0) by (unfold iMin; rewrite Ht; reflexivity).
    assert (Hmax : iMax t < 2 ^ 63) by (destruct t; vm_compute in Ht, Hd |- *; congruence).
    rewrite Hmin. destruct (Z.leb_spec 0 (z - 2 ^ 64)); [lia|]. cbn [andb]. split; [lia|reflexivity].
  - destruct (Z.leb_spec (iMin t) z), (Z.leb_spec z (iMax t)); cbn [andb]; split; intros H'; try lia; try reflexivity.
    rewrite castInt_id by (rewrite holdsInt_range; lia). reflexivity.
Qed.

Lemma convIntBool_spec s z : holdsInt s z ->
  convIntBool s z = if z =? 0 then Ok (VBool false) else if z =? 1 then Ok (VBool true) else Err.
Proof.
  intros Hs. unfold convIntBool.
  assert (Hw : (2 ^ 63 <= z /\ castInt I64 z = z - 2 ^ 64) \/ castInt I64 z = z).
  { destruct (Z.le_gt_cases (2 ^ 63) z) as [Hz|Hz].
    - left. split; [exact Hz|]. apply castI64_big. destruct s; cbn [holdsInt] in Hs; lia.
    - right. apply castInt_id. destruct s; cbn [holdsInt] in Hs |- *; lia. }
  destruct (isSigned s && (z <? 0)) eqn:Eneg.
  { apply andb_true_iff in Eneg as [_ Ez]. apply Z.ltb_lt in Ez.
    destruct (Z.eqb_spec z 0); [lia|]. destruct (Z.eqb_spec z 1); [lia|reflexivity]. }
  destruct Hw as [[Hz Hw]|Hw]; rewrite Hw.
  - assert (z < 2 ^ 64) by (destruct s; cbn [holdsInt] in Hs; lia).
    destruct (Z.leb_spec 0 (z - 2 ^ 64)); [lia|]. cbn [andb].
    destruct (Z.eqb_spec z 0); [lia|]. destruct (Z.eqb_spec z 1); [lia|reflexivity].
  - destruct (Z.leb_spec 0 z), (Z.leb_spec z 1); cbn [andb];
    destruct (Z.eqb_spec z 0); destruct (Z.eqb_spec z 1); subst; try lia; reflexivity.
Qed.

(** * Integer to floating point *)
Lemma convIntFlt_sound s f z v : holdsInt s z -> convIntFlt s f z = Ok v ->
  exists x, v = VFlt f x /\ wfFlt f x /\ fltIs x (inject_Z z).
Proof.
  intros Hs. unfold convIntFlt.
  assert (Hfin : Z.abs z < 2 ^ precision f -> forall v, Ok (VFlt f (castIntFlt f z)) = Ok v ->
            exists x, v = VFlt f x /\ wfFlt f x /\ fltIs x (inject_Z z)).
  { intros Hz v' E. injection E as <-. exists (castIntFlt f z).
    destruct (castIntFlt_exact f z Hz). auto. }
  destruct (Z.leb_spec (digits s) (mant f)) as [Hd|Hd].
  - assert (Z.abs z <= 2 ^ precision f).
    { rewrite holdsInt_range in Hs. unfold iMax, iMin in Hs.
      assert (2 ^ digits s <= 2 ^ precision f) by (apply Z.pow_le_mono_r; [lia|destruct f; exact Hd]).
      unfold digits in *. destruct (isSigned s); lia. }
    destruct (Z.eq_dec (Z.abs z) (2 ^ precision f)) as [E|E]; [|apply Hfin; lia].
    exfalso. destruct s, f; cbn [holdsInt precision] in *; cbv in Hd; try lia; congruence.
  - assert (Hw : castInt (wideType s) z = z).
    { apply castInt_id. destruct s; cbn [wideType width] in *; cbn [holdsInt] in *;
        change (wideType I8) with I64; change (wideType I16) with I64; change (wideType I32) with I64;
        change (wideType I64) with I64; change (wideType U8) with I64; change (wideType U16) with I64;
        change (wideType U32) with I64; change (wideType U64) with U64; cbn [holdsInt]; lia. }
    rewrite Hw. destruct (z =? iMin (wideType s)); [discriminate|].
    assert (Hm : (if z <? 0 then - z else z) = Z.abs z) by (destruct (Z.ltb_spec z 0); lia).
    rewrite Hm. destruct (Z.leb_spec (bitWidth (Z.abs z)) (mant f)) as [Hb|Hb]; [|discriminate].
    apply Hfin. unfold bitWidth in Hb. change (mant f) with (precision f) in Hb.
    destruct (Z.eqb_spec (Z.abs z) 0) as [E|E].
    + rewrite E. apply Z.pow_pos_nonneg; [lia|destruct f; cbn; lia].
    + pose proof (Z.log2_spec (Z.abs z) ltac:(lia)) as [_ HL]. unfold Z.succ in HL.
      eapply Z.lt_le_trans; [exact HL|]. apply Z.pow_le_mono_r; lia.
Qed.

Lemma convIntFlt_complete s f z : holdsInt s z -> Z.abs z < 2 ^ precision f -> ~ (s = U64 /\ z = 0) ->
  exists x, convIntFlt s f z = Ok (VFlt f x).
Proof.
  intros Hs Hz Hx. unfold convIntFlt. destruct (Z.leb_spec (digits s) (mant f)) as [Hd|Hd]; [eexists; reflexivity|].
  assert (Hw : castInt (wideType s) z = z).
  { apply castInt_id. destruct s; cbn [holdsInt] in *;
      change (wideType I8) with I64; change (wideType I16) with I64; change (wideType I32) with I64;
      change (wideType I64) with I64; change (wideType U8) with I64; change (wideType U16) with I64;
      change (wideType U32) with I64; change (wideType U64) with U64; cbn [holdsInt]; lia. }
  rewrite Hw.
  assert (Hp : precision f <= 53) by (destruct f; cbn; lia).
  assert (Hz2 : Z.abs z < 2 ^ 53) by (eapply Z.lt_le_trans; [exact Hz|apply Z.pow_le_mono_r; lia]).
  destruct (Z.eqb_spec z (iMin (wideType s))) as [E|E].
  { exfalso. destruct s; vm_compute in E; try lia. apply Hx. split; [reflexivity|exact E]. }
  assert (Hm : (if z <? 0 then - z else z) = Z.abs z) by (destruct (Z.ltb_spec z 0); lia).
  rewrite Hm. destruct (Z.leb_spec (bitWidth (Z.abs z)) (mant f)) as [Hb|Hb]; [eexists; reflexivity|].
  exfalso. unfold bitWidth in Hb. change (mant f) with (precision f) in Hb.
  destruct (Z.eqb_spec (Z.abs z) 0) as [E0|E0]; [destruct f; cbn in Hb; lia|].
  pose proof (Z.log2_lt_pow2 (Z.abs z) (precision f) ltac:(lia)) as HL. lia.
Qed.

Lemma convIntFlt_noUB s f z : convIntFlt s f z <> UB.
Proof.
  unfold convIntFlt. destruct (_ <=? _); [discriminate|]. cbv zeta. destruct (_ =? _); [discriminate|].
  destruct (_ <=? _); discriminate.
Qed.

(** * Floating point to integer *)
Lemma convFltInt_spec sf lo hi hi' mk m e ml el mh eh :
  castIntFlt sf lo = FFin ml el -> castIntFlt sf hi = FFin mh eh ->
  (fval ml el == inject_Z lo)%Q -> (fval mh eh == inject_Z hi')%Q -> hi <= hi' <= hi + 1 ->
  ~ (hi < hi' /\ (fval m e == inject_Z hi')%Q) ->
  (forall z, (fval m e == inject_Z z)%Q -> lo <= z <= hi -> convFltInt sf lo hi mk (FFin m e) = Ok (mk z)) /\
  ((forall z, (fval m e == inject_Z z)%Q -> ~ lo <= z <= hi) -> convFltInt sf lo hi mk (FFin m e) = Err).
Proof.
  intros El Eh Hl Hh Hhi Hx. unfold convFltInt. rewrite El, Eh. split.
  - intros z Hz Hr.
    assert (E1 : finLe ml el m e = true).
    { apply finLe_spec. rewrite Hl, Hz. rewrite <- Zle_Qle. lia. }
    assert (E2 : finLe m e mh eh = true).
    { apply finLe_spec. rewrite Hh, Hz. rewrite <- Zle_Qle. lia. }
    rewrite E1, E2. cbn [negb orb].
    assert (E3 : finEqZ m e (nearbyint m e) = true) by (apply integral_test; exists z; exact Hz).
    rewrite E3. cbn [negb]. unfold castFltInt. rewrite (trunc_exact m e z Hz).
    destruct (Z.leb_spec lo z); [|lia]. destruct (Z.leb_spec z hi); [|lia]. reflexivity.
  - intros Hn. destruct (finLe ml el m e) eqn:E1; [|reflexivity].
    destruct (finLe m e mh eh) eqn:E2; [|reflexivity]. cbn [negb orb].
    destruct (finEqZ m e (nearbyint m e)) eqn:E3; [|reflexivity]. exfalso.
    apply finLe_spec in E1, E2. apply integral_test in E3 as [z Hz]. apply (Hn z Hz).
    rewrite Hl, Hz in E1. rewrite Hh, Hz in E2. rewrite <- Zle_Qle in E1, E2.
    destruct (Z.eq_dec z hi') as [->|]; [|lia]. split; [exact E1|].
    destruct (Z.eq_dec hi hi') as [->|]; [lia|]. exfalso. apply Hx. split; [lia|exact Hz].
Qed.

Lemma iMin_flt sf t : exists ml el, castIntFlt sf (iMin t) = FFin ml el /\ (fval ml el == inject_Z (iMin t))%Q.
Proof.
  destruct sf, t; (eexists; eexists; split; [vm_compute; reflexivity|vm_compute; reflexivity]).
Qed.

Lemma iMax_flt sf t : exists mh eh hi', castIntFlt sf (iMax t) = FFin mh eh /\ (fval mh eh == inject_Z hi')%Q /\
  ((digits t <= mant sf /\ hi' = iMax t) \/ (mant sf < digits t /\ hi' = iMax t + 1)).
Proof.
  destruct sf, t;
  match goal with
  | |- context [castIntFlt ?f (iMax ?i)] =>
      let b := eval vm_compute in (digits i <=? mant f) in
      let h := eval vm_compute in (if digits i <=? mant f then iMax i else iMax i + 1) in
      eexists; eexists; exists h; split; [vm_compute; reflexivity|split; [vm_compute; reflexivity|]];
      match b with true => left | false => right end; vm_compute; split; congruence
  end.
Qed.

(** * Texts *)
Lemma isSpace_spec c : isSpace c = true <-> c = 32 \/ 9 <= c <= 13.
Proof. unfold isSpace. rewrite orb_true_iff, andb_true_iff, Z.eqb_eq, !Z.leb_le. reflexivity. Qed.

Lemma isDigit_spec c : isDigit c = true <-> 48 <= c <= 57.
Proof. unfold isDigit. rewrite andb_true_iff, !Z.leb_le. reflexivity. Qed.

Lemma wsOnly_spec s : wsOnly s <-> Forall (fun c => isSpace c = true) s.
Proof. unfold wsOnly. split; apply Forall_impl; intros a; apply isSpace_spec. Qed.

Lemma dropWhile_app p l s : Forall (fun c => p c = true) l -> dropWhile p (l ++ s) = dropWhile p s.
Proof. induction 1 as [|c l Hc _ IH]; [reflexivity|]. cbn. rewrite Hc. exact IH. Qed.

Lemma dropWhile_decomp p s : exists l, s = l ++ dropWhile p s /\ Forall (fun c => p c = true) l.
Proof.
  induction s as [|c s [l [E H]]]; [exists []; auto|]. cbn. destruct (p c) eqn:Ep.
  - exists (c :: l). split; [cbn; congruence|constructor; assumption].
  - exists []. auto.
Qed.

Lemma beforeHash_decomp s : exists c, s = beforeHash s ++ c /\ comment c.
Proof.
  induction s as [|x s [c [E H]]]; [exists []; split; [reflexivity|left; reflexivity]|].
  cbn. destruct (Z.eqb_spec x 35) as [->|Hx].
  - exists (35 :: s). split; [reflexivity|right; eexists; reflexivity].
  - exists c. split; [cbn; congruence|exact H].
Qed.

Lemma beforeHash_app b c : Forall (fun x => x <> 35) b -> comment c -> beforeHash (b ++ c) = b.
Proof.
  intros Hb Hc. induction Hb as [|x b Hx _ IH]; cbn.
  - destruct Hc as [->|[r ->]]; reflexivity.
  - destruct (Z.eqb_spec x 35); [contradiction|]. f_equal. exact IH.
Qed.

Lemma trim_decomp s : exists l t c, wsOnly l /\ wsOnly t /\ comment c /\ s = l ++ trimAndCutComment s ++ t ++ c.
Proof.
  unfold trimAndCutComment.
  destruct (dropWhile_decomp isSpace s) as [l [El Hl]].
  set (s1 := dropWhile isSpace s) in *.
  destruct (beforeHash_decomp s1) as [c [Ec Hc]]. set (s2 := beforeHash s1) in *.
  destruct (dropWhile_decomp isSpace (rev s2)) as [t [Et Ht]]. set (r := dropWhile isSpace (rev s2)) in *.
  exists l, (rev t), c. rewrite !wsOnly_spec. split; [exact Hl|]. split; [apply Forall_rev; exact Ht|]. split; [exact Hc|].
  rewrite El, Ec. f_equal. rewrite app_assoc. f_equal.
  rewrite <- rev_app_distr, <- Et, rev_involutive. reflexivity.
Qed.

Lemma trim_core l a b t c : wsOnly l -> wsOnly t -> comment c -> isSpace a = false -> isSpace b = false ->
  forall core, Forall (fun x => x <> 35) core -> (exists r, core = a :: r) -> (exists r, core = r ++ [b]) ->
  trimAndCutComment (l ++ core ++ t ++ c) = core.
Proof.
  intros Hl Ht Hc Ha Hb core Hcore [r1 E1] [r2 E2]. unfold trimAndCutComment.
  apply wsOnly_spec in Hl. rewrite dropWhile_app by exact Hl.
  assert (D : dropWhile isSpace (core ++ t ++ c) = core ++ t ++ c) by (rewrite E1; cbn; rewrite Ha; reflexivity).
  rewrite D, app_assoc, beforeHash_app; [|apply Forall_app; split; [exact Hcore|]|exact Hc].
  - rewrite rev_app_distr. apply wsOnly_spec in Ht. rewrite dropWhile_app by (apply Forall_rev; exact Ht).
    rewrite E2 at 1. rewrite rev_app_distr. cbn. rewrite Hb. cbn. rewrite rev_involutive. symmetry. exact E2.
  - unfold wsOnly in Ht. eapply Forall_impl; [|exact Ht]. cbn. intros x Hx. lia.
Qed.

Lemma readDigits_spec ds : digitsOnly ds -> forall acc rest,
  match rest with c :: _ => isDigit c = false | [] => True end ->
  readDigits acc (ds ++ rest) = (decimal acc ds, rest).
Proof.
  induction 1 as [|c ds Hc _ IH]; intros acc rest Hr.
  - cbn. destruct rest as [|c rest]; [reflexivity|]. cbn. rewrite Hr. reflexivity.
  - cbn [app readDigits decimal]. rewrite (proj2 (isDigit_spec c) Hc). apply IH. exact Hr.
Qed.

Lemma readDigits_inv s : forall acc v rest, readDigits acc s = (v, rest) ->
  exists ds, s = ds ++ rest /\ digitsOnly ds /\ v = decimal acc ds.
Proof.
  induction s as [|c s IH]; intros acc v rest E; cbn in E.
  - injection E as <- <-. exists []. repeat split. constructor.
  - destruct (isDigit c) eqn:Ec.
    + apply IH in E as (ds & -> & Hd & ->). exists (c :: ds). split; [reflexivity|]. split; [|reflexivity].
      constructor; [apply isDigit_spec; exact Ec|exact Hd].
    + injection E as <- <-. exists []. repeat split. constructor.
Qed.

Lemma digits_core (neg : bool) ds : digitsOnly ds -> ds <> [] ->
  let core := (if neg then [45] else []) ++ ds in
  Forall (fun x => x <> 35) core /\
  exists a b, isSpace a = false /\ isSpace b = false /\ (exists r, core = a :: r) /\ (exists r, core = r ++ [b]).
Proof.
  intros Hd Hne. cbv zeta.
  assert (Hs : forall c, 48 <= c <= 57 -> isSpace c = false).
  { intros c Hc. destruct (isSpace c) eqn:E; [|reflexivity]. apply isSpace_spec in E. lia. }
  split.
  - apply Forall_app. split; [destruct neg; repeat constructor; lia|].
    eapply Forall_impl; [|exact Hd]. cbn. intros; lia.
  - destruct (exists_last Hne) as [r [b Eb]].
    assert (Hb : 48 <= b <= 57).
    { rewrite Eb in Hd. apply Forall_app in Hd as [_ Hd]. inversion Hd; assumption. }
    destruct ds as [|d ds]; [congruence|]. assert (Hd0 : 48 <= d <= 57) by (inversion Hd; assumption).
    exists (if neg then 45 else d), b. split; [destruct neg; [reflexivity|apply Hs; exact Hd0]|].
    split; [apply Hs; exact Hb|]. split.
    + destruct neg; cbn; eexists; reflexivity.
    + exists ((if neg then [45] else []) ++ r). rewrite <- app_assoc. f_equal. exact Eb.
Qed.

Lemma fromChars_digits sgn lo hi (neg : bool) ds : digitsOnly ds -> ds <> [] -> (neg = true -> sgn = true) ->
  let z := if neg then - decimal 0 ds else decimal 0 ds in
  fromChars sgn lo hi ((if neg then [45] else []) ++ ds) = if (lo <=? z) && (z <=? hi) then FcOk z [] else FcRange [].
Proof.
  intros Hd Hne Hs. cbv zeta. destruct ds as [|d ds]; [congruence|].
  assert (Hd0 : 48 <= d <= 57) by (inversion Hd; assumption).
  assert (Hdd : isDigit d = true) by (apply isDigit_spec; exact Hd0).
  pose proof (readDigits_spec (d :: ds) Hd 0 [] I) as HR. rewrite app_nil_r in HR.
  unfold fromChars. destruct neg.
  - rewrite (Hs eq_refl). cbn [app andb tl]. change (45 =? 45) with true. cbn [andb].
    rewrite Hdd. change (d :: ds) with ([] ++ d :: ds) at 1. cbn [app]. rewrite HR. reflexivity.
  - cbn [app]. assert (E : (d =? 45) = false) by (apply Z.eqb_neq; lia). rewrite E, andb_false_r, Hdd, HR. reflexivity.
Qed.

Lemma fromChars_ok sgn lo hi s z : fromChars sgn lo hi s = FcOk z [] ->
  exists neg ds, s = (if neg : bool then [45] else []) ++ ds /\ digitsOnly ds /\ ds <> [] /\
    z = (if neg then - decimal 0 ds else decimal 0 ds) /\ (neg = true -> sgn = true) /\ lo <= z <= hi.
Proof.
  unfold fromChars. set (neg := match s with c :: _ => sgn && (c =? 45) | [] => false end).
  set (body := if neg then tl s else s). intros E.
  destruct body as [|c r] eqn:Eb; [discriminate|]. destruct (isDigit c) eqn:Ec; [|discriminate].
  destruct (readDigits 0 (c :: r)) as [v rest] eqn:ER.
  destruct ((lo <=? (if neg then - v else v)) && ((if neg then - v else v) <=? hi)) eqn:Erg; [|discriminate].
  injection E as Ez Er. subst rest. apply andb_true_iff in Erg as [E1 E2]. apply Z.leb_le in E1, E2.
  apply readDigits_inv in ER as (ds & Ed & Hd & ->). rewrite app_nil_r in Ed. subst z.
  exists neg, ds. split.
  { unfold body in Eb. destruct neg eqn:En.
    - unfold neg in En. destruct s as [|x s]; [discriminate|]. apply andb_true_iff in En as [_ En]. apply Z.eqb_eq in En.
      subst x. cbn in Eb |- *. congruence.
    - cbn. congruence. }
  split; [exact Hd|]. split; [congruence|]. split; [reflexivity|]. split; [|lia].
  unfold neg. destruct s as [|x s]; [discriminate|]. intros H. apply andb_true_iff in H. tauto.
Qed.

Lemma signed_spec t : isSigned t = true <-> signedType t.
Proof. unfold signedType. destruct t; cbn; split; intros H; try reflexivity; try discriminate; auto; intuition congruence. Qed.

Lemma writesInt_trim s neg z : writesInt s neg z ->
  exists ds, digitsOnly ds /\ ds <> [] /\ trimAndCutComment s = (if neg then [45] else []) ++ ds /\
    z = if neg then - decimal 0 ds else decimal 0 ds.
Proof.
  intros (l & ds & t & c & Hl & Ht & Hc & Hd & Hne & -> & ->). exists ds. split; [exact Hd|]. split; [exact Hne|].
  split; [|reflexivity]. destruct (digits_core neg ds Hd Hne) as [Hcore (a & b & Ha & Hb & H1 & H2)].
  rewrite (app_assoc _ ds (t ++ c)). apply (trim_core l a b t c); assumption.
Qed.

Lemma convStrInt_sound t s v : convStrInt t s = Ok v ->
  exists neg z, writesInt s neg z /\ (neg = true -> signedType t) /\ holdsInt t z /\ v = VInt t z.
Proof.
  unfold convStrInt. destruct (fromChars _ _ _ _) as [|r|z r] eqn:E; try discriminate.
  destruct r; [|discriminate]. intros H. injection H as <-.
  apply fromChars_ok in E as (neg & ds & Es & Hd & Hne & Ez & Hs & Hr).
  exists neg, z. split.
  - destruct (trim_decomp s) as (l & tt & c & Hl & Ht & Hc & E). rewrite Es in E.
    exists l, ds, tt, c. rewrite <- app_assoc in E. auto 10.
  - split; [intros Hn; apply signed_spec; auto|]. split; [apply holdsInt_range; exact Hr|reflexivity].
Qed.

Lemma convStrInt_complete t s neg z : writesInt s neg z -> (neg = true -> signedType t) ->
  convStrInt t s = if (iMin t <=? z) && (z <=? iMax t) then Ok (VInt t z) else Err.
Proof.
  intros Hw Hn. apply writesInt_trim in Hw as (ds & Hd & Hne & Et & ->). unfold convStrInt. rewrite Et.
  rewrite fromChars_digits; [|exact Hd|exact Hne|intros H; apply signed_spec; auto].
  destruct (_ && _); reflexivity.
Qed.

Lemma convStrInt_minus t s z : writesInt s true z -> ~ signedType t -> convStrInt t s = Err.
Proof.
  intros Hw Hn. apply writesInt_trim in Hw as (ds & Hd & Hne & Et & _). unfold convStrInt. rewrite Et.
  assert (Hs : isSigned t = false) by (destruct (isSigned t) eqn:E; [apply signed_spec in E; contradiction|reflexivity]).
  rewrite Hs. reflexivity.
Qed.

Lemma strEqb_eq a b : strEqb a b = true <-> a = b.
Proof.
  revert b. induction a as [|x a IH]; intros [|y b]; cbn; split; intros H; try discriminate; try reflexivity.
  - apply andb_true_iff in H as [H1 H2]. apply Z.eqb_eq in H1. apply IH in H2. congruence.
  - injection H as <- <-. rewrite Z.eqb_refl. apply IH. reflexivity.
Qed.

Lemma toLower_spells w s : Forall (fun c => ~ 65 <= c <= 90) w -> map toLower s = w <-> spells w s.
Proof.
  intros Hw. unfold spells. split.
  - intros <-. induction s as [|d s IH]; cbn; [constructor|]. inversion Hw; subst. constructor; [|apply IH; assumption].
    unfold toLower. destruct (Z.leb_spec 65 d), (Z.leb_spec d 90); cbn [andb]; try (left; lia); right; lia.
  - intros H. induction H as [|c d w s Hd _ IH]; [reflexivity|]. inversion Hw as [|? ? Hc Hw']; subst. cbn. f_equal; [|apply IH; exact Hw'].
    unfold toLower. cbn beta in Hc. destruct (Z.leb_spec 65 d), (Z.leb_spec d 90); cbn [andb]; lia.
Qed.

Lemma magnitude_digits t : magnitudeBits t = digits t.
Proof. destruct t; reflexivity. Qed.

(** * The smallest type *)
Lemma firstFit_some has ok ts t : firstFit has ok ts = Some t ->
  exists a b, ts = a ++ t :: b /\ has t = true /\ ok t = true /\ Forall (fun u => has u = true -> ok u = false) a.
Proof.
  induction ts as [|u ts IH]; cbn; intros H; [discriminate|].
  destruct (has u && ok u) eqn:E.
  - injection H as <-. apply andb_true_iff in E as [E1 E2]. exists [], ts. repeat split; auto.
  - apply IH in H as (a & b & -> & H1 & H2 & H3). exists (u :: a), b. repeat split; auto.
    constructor; [|exact H3]. intros Hu. rewrite Hu in E. exact E.
Qed.

Lemma firstFit_none has ok ts : firstFit has ok ts = None -> forall t, In t ts -> has t = true -> ok t = false.
Proof.
  induction ts as [|u ts IH]; cbn; intros H t Ht Hh; [contradiction|].
  destruct (has u && ok u) eqn:E; [discriminate|]. destruct Ht as [->|Ht]; [|apply IH; auto].
  rewrite Hh in E. exact E.
Qed.

Lemma sorted_tail (a b : list ity) t : StronglySorted (fun u v => rank u < rank v) (a ++ t :: b) ->
  Forall (fun u => rank t < rank u) b.
Proof.
  induction a as [|x a IH]; cbn; intros H; inversion H; subst; [assumption|apply IH; assumption].
Qed.

Lemma firstFit_min has ok ts t : firstFit has ok ts = Some t -> StronglySorted (fun u v => rank u < rank v) ts ->
  has t = true /\ ok t = true /\ In t ts /\ forall u, In u ts -> has u = true -> ok u = true -> rank t <= rank u.
Proof.
  intros H Hs. apply firstFit_some in H as (a & b & -> & H1 & H2 & H3).
  split; [exact H1|]. split; [exact H2|]. split; [apply in_elt|].
  intros u Hu Hh Ho. apply in_app_or in Hu as [Hu|[->|Hu]].
  - rewrite Forall_forall in H3. specialize (H3 u Hu Hh). congruence.
  - lia.
  - apply sorted_tail in Hs. rewrite Forall_forall in Hs. specialize (Hs u Hu). lia.
Qed.

Lemma rank_sorted4 : StronglySorted (fun u v => rank u < rank v) [I8; I16; I32; I64].
Proof. repeat (constructor; try (cbn; lia)). Qed.

Lemma rank_sorted8 : StronglySorted (fun u v => rank u < rank v) [I8; U8; I16; U16; I32; U32; I64; U64].
Proof. repeat (constructor; try (cbn; lia)). Qed.

Lemma notFloat_core (neg : bool) ds : digitsOnly ds -> mightBeFloat ((if neg then [45] else []) ++ ds) = false.
Proof.
  intros Hd. unfold mightBeFloat. rewrite existsb_app.
  assert (E : existsb (fun c => (c =? 46) || (c =? 101) || (c =? 69)) ds = false).
  { induction Hd as [|c ds Hc _ IH]; [reflexivity|]. cbn. rewrite IH.
    cbn beta in Hc. destruct (Z.eqb_spec c 46); [exfalso; lia|]. destruct (Z.eqb_spec c 101); [exfalso; lia|].
    destruct (Z.eqb_spec c 69); [exfalso; lia|]. reflexivity. }
  rewrite E. destruct neg; reflexivity.
Qed.

Lemma decimal_nonneg ds : digitsOnly ds -> forall acc, 0 <= acc -> 0 <= decimal acc ds.
Proof. induction 1 as [|c ds Hc _ IH]; intros acc Ha; cbn [decimal]; [exact Ha|]. apply IH. cbn beta in Hc. lia. Qed.

(** * Tensors *)
Lemma ety_eqb_eq a b : ety_eqb a b = true -> a = b.
Proof.
  destruct a, b; cbn; intros H; try discriminate; try reflexivity; f_equal;
    solve [apply ity_beq_eq; exact H|apply fty_beq_eq; exact H].
Qed.
Lemma ety_eqb_refl a : ety_eqb a a = true.
Proof. destruct a; cbn; auto using ity_beq_refl, fty_beq_refl. Qed.

Lemma sameFlt_round f g x : wfFlt f x -> (f = g \/ (f = F32 /\ g = F64)) -> sameFlt x (castFltFlt g x).
Proof.
  intros Hw Hfg. destruct x as [| |m e]; cbn; auto.
  assert (Hg : inFormat g m e).
  { destruct Hfg as [<-|[-> ->]]; [exact Hw|]. cbn in *. lia. }
  destruct (roundTo_exact g m e m e Hg ltac:(reflexivity)) as [H _].
  destruct (roundTo g m e); cbn in H; try contradiction. symmetry. exact H.
Qed.

Lemma castElt_same t x : wfElt x ->
  ety_eqb (etype x) t = true \/
  (isWidening (etype x) t = true /\ (forall i f, etype x = EInt i -> t = EFlt f -> digits i <= mant f)) ->
  exists y, castElt t x = Some y /\ sameNumber x y /\ etype y = t.
Proof.
  intros Hw [E|[E Hx]].
  - apply ety_eqb_eq in E. subst t. destruct x as [b|i z|f x|f a b]; cbn [etype castElt castReal].
    + eexists; split; [reflexivity|split; reflexivity].
    + rewrite castInt_id by exact Hw. eexists; split; [reflexivity|split; reflexivity].
    + eexists; split; [reflexivity|split; [|reflexivity]]. apply (sameFlt_round f); auto.
    + destruct Hw. eexists; split; [reflexivity|split; [|reflexivity]]. split; apply (sameFlt_round f); auto.
  - destruct x as [b|i z|f x|f a b]; cbn [etype] in *.
    + destruct t; discriminate.
    + destruct t as [|j|f|f]; cbn in E; try discriminate.
      * cbn [castElt]. assert (Hj : holdsInt j z).
        { cbn in Hw. destruct i, j; cbn in E; try discriminate; cbn [holdsInt] in *; lia. }
        rewrite castInt_id by exact Hj. eexists; split; [reflexivity|split; reflexivity].
      * specialize (Hx i f eq_refl eq_refl). cbn [castElt castReal].
        eexists; split; [reflexivity|split; [|reflexivity]]. cbn [sameNumber]. cbn in Hw.
        apply castIntFlt_exact.
        destruct i, f; cbn in E; try discriminate; cbv [digits mant isSigned width] in Hx; cbn [holdsInt precision] in *;
          try lia; exfalso; lia.
    + destruct t as [|j|g|g]; cbn in E; try (destruct f; discriminate).
      destruct f, g; try discriminate. cbn [castElt castReal].
      eexists; split; [reflexivity|split; [|reflexivity]]. apply (sameFlt_round F32); auto.
    + destruct t as [|j|g|g]; cbn in E; try (destruct f; discriminate).
      destruct f, g; try discriminate. destruct Hw. cbn [castElt].
      eexists; split; [reflexivity|split; [|reflexivity]]. split; apply (sameFlt_round F32); auto.
Qed.

Lemma castAll_same t l : Forall wfElt l ->
  Forall (fun x => ety_eqb (etype x) t = true \/
    (isWidening (etype x) t = true /\ (forall i f, etype x = EInt i -> t = EFlt f -> digits i <= mant f))) l ->
  exists r, castAll t l = Some r /\ Forall2 sameNumber l r /\ Forall (fun y => etype y = t) r.
Proof.
  induction 1 as [|x l Hx _ IH]; intros Hl; [exists []; repeat split; constructor|].
  inversion Hl as [|? ? Hx' Hl' E1]; subst. destruct (IH Hl') as (r & E & H1 & H2).
  destruct (castElt_same t x Hx Hx') as (y & Ey & Hs & Ht). exists (y :: r). cbn. rewrite Ey, E.
  repeat split; constructor; assumption.
Qed.

Lemma castAll_length t l r : castAll t l = Some r -> length r = length l.
Proof.
  revert r. induction l as [|x l IH]; cbn; intros r E; [injection E as <-; reflexivity|].
  destruct (castElt t x); [|discriminate]. destruct (castAll t l); [|discriminate].
  injection E as <-. cbn. f_equal. apply IH. reflexivity.
Qed.

(** What the two conversion paths accept. *)
Definition accepts (t : ety) (p : policy) (a : ety) : bool :=
  ety_eqb a t || ((1 <=? pnum p) && inTable a (widenTable t)) || ((2 <=? pnum p) && inTable a (narrowTable t))
  || ((pnum p =? 3) && inTable a (uncheckedTable t)).

Lemma accepts_allowed t p a : accepts t p a = true -> allowed p a t = true.
Proof.
  destruct t as [|[]|[]|[]], p, a as [|[]|[]|[]]; vm_compute; congruence.
Qed.

Lemma convertAll_cast t p l : forall idx r, convertAll t p idx l = TOk r -> castAll t l = Some r.
Proof.
  induction l as [|x l IH]; cbn; intros idx r E; [injection E as <-; reflexivity|].
  unfold tryConvertElement in E. fold (accepts t p (etype x)) in E. destruct (accepts t p (etype x)); [|discriminate].
  destruct (castElt t x) as [y|]; [|discriminate]. destruct (convertAll t p (idx + 1) l) as [s| |] eqn:Ec; try discriminate.
  injection E as <-. rewrite (IH _ _ Ec). reflexivity.
Qed.

Lemma convertAll_head t p x l idx r : convertAll t p idx (x :: l) = TOk r -> accepts t p (etype x) = true.
Proof.
  cbn. unfold tryConvertElement. fold (accepts t p (etype x)). destruct (accepts t p (etype x)); [reflexivity|discriminate].
Qed.

Lemma convertAll_err t p l : forall idx j, convertAll t p idx l = TErr (KElement j) ->
  exists x, nth_error l (Z.to_nat (j - idx)) = Some x /\ idx <= j /\ accepts t p (etype x) = false /\
    forall i y, (i < Z.to_nat (j - idx))%nat -> nth_error l i = Some y -> accepts t p (etype y) = true.
Proof.
  induction l as [|x l IH]; cbn; intros idx j E; [discriminate|].
  unfold tryConvertElement in E. fold (accepts t p (etype x)) in E. destruct (accepts t p (etype x)) eqn:Ea.
  - destruct (castElt t x) as [y|]; [|discriminate].
    destruct (convertAll t p (idx + 1) l) as [s|k|] eqn:Ec; try discriminate.
    injection E as ->. apply IH in Ec as (w & Hn & Hle & Hw & Hb). exists w.
    replace (Z.to_nat (j - idx)) with (S (Z.to_nat (j - (idx + 1)))) by lia.
    split; [exact Hn|]. split; [lia|]. split; [exact Hw|].
    intros [|i] z Hi Hz; cbn in Hz; [injection Hz as <-; exact Ea|]. apply (Hb i z); [lia|exact Hz].
  - injection E as <-. exists x. rewrite Z.sub_diag. cbn. repeat split; auto; try lia.
Qed.
