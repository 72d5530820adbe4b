(** Whatever is read is sound. *)
From Coq Require Import List NArith ZArith Ascii String Bool Lia Arith.
From Verif Require Import YamlModel YamlSpec YamlTextProofs YamlScalProofs YamlFuelProofs.
Import ListNotations.

Lemma range_in : forall k z, inRange k z = true -> intIn k z.
Proof.
  intros k z H. unfold inRange in H. destruct k; cbn [signed bits] in H; apply andb_true_iff in H; destruct H as [A B];
    apply Z.leb_le in A; apply Z.ltb_lt in B; cbn [intIn]; cbn in A, B; lia.
Qed.

Lemma fromChars_in : forall k b t z, fromChars k b t = Some z -> intIn k z.
Proof.
  intros k b t z H. unfold fromChars in H. destruct t as [|c r]; [discriminate|].
  destruct (if Ascii.eqb c dash && signed k then option_map (fun n => (- Z.of_N n)%Z) (readNat b r) else option_map Z.of_N (readNat b (c :: r))) as [x|]; [|discriminate].
  destruct (inRange k x) eqn:E; [|discriminate]. injection H as <-. now apply range_in.
Qed.
Lemma parseInt_in : forall k t z, parseInt k t = Some z -> intIn k z.
Proof.
  intros k t z H. unfold parseInt in H. destruct (starts (lit "0x") (trim t)); [eapply fromChars_in; eauto|].
  destruct (starts (lit "0o") (trim t)); [eapply fromChars_in; eauto|]. destruct (starts (lit "0b") (trim t)); eapply fromChars_in; eauto.
Qed.

Lemma parseAs_sound : forall F tg t v, parseAs F tg t = Some v -> sound v.
Proof.
  intros F tg t v H. destruct tg as [| | |ty]; cbn [parseAs] in H; try (injection H as <-; constructor; fail).
  - destruct (resolveQuoted t); [|discriminate]. injection H as <-. constructor.
  - destruct ty as [|k| | | |]; cbn in H.
    + destruct (boolText (trimAndStripComment t)); [|discriminate]. injection H as <-. constructor. exact I.
    + destruct (parseInt k t) eqn:E; [|discriminate]. injection H as <-. constructor. apply parseInt_in in E. exact E.
    + destruct (parseF32 F t); [|discriminate]. injection H as <-. constructor. exact I.
    + destruct (parseF64 F t); [|discriminate]. injection H as <-. constructor. exact I.
    + destruct (parseComplex (parseF32 F) t); [|discriminate]. injection H as <-. constructor. exact I.
    + destruct (parseComplex (parseF64 F) t); [|discriminate]. injection H as <-. constructor. exact I.
Qed.
Lemma parseUntagged_sound : forall F q t v, parseUntagged F q t = Some v -> sound v.
Proof.
  intros F q t v H. unfold parseUntagged in H. destruct q.
  - destruct (resolveQuoted t); [|discriminate]. injection H as <-. constructor.
  - set (u := trimAndStripComment t) in *.
    destruct (teqb u [] || teqb u (lit "null") || teqb u (lit "Null") || teqb u (lit "NULL") || teqb u (lit "~")); [injection H as <-; constructor|].
    destruct (boolText u); [injection H as <-; constructor; exact I|].
    destruct (parseInt I64 u) eqn:E; [injection H as <-; constructor; apply parseInt_in in E; exact E|].
    destruct (parseF64 F u); [injection H as <-; constructor; exact I|].
    destruct (resolveQuoted u); [|discriminate]. injection H as <-. constructor.
Qed.
Lemma plain_sound : forall F tg d s v s', parsePlainScalar F tg d s = Some (v, s') -> sound v.
Proof.
  intros F tg d s v s' H. unfold parsePlainScalar in H. destruct (findString (YamlModel.rem s) d) as [[q n]|]; [|discriminate].
  set (sv := firstn n (skipn (if q then 1%nat else 0%nat) (YamlModel.rem s))) in *.
  destruct tg as [| | |ty].
  - destruct (parseUntagged F q sv) eqn:E; [|discriminate]. injection H as <- _. eapply parseUntagged_sound; eauto.
  - destruct (parseAs F TagNull sv) eqn:E; [|discriminate]. injection H as <- _. eapply parseAs_sound; eauto.
  - destruct (parseAs F TagStr (if q then sv else trimAndStripComment sv)) eqn:E; [|discriminate]. injection H as <- _. eapply parseAs_sound; eauto.
  - destruct (parseAs F (TagS ty) sv) eqn:E; [|discriminate]. injection H as <- _. eapply parseAs_sound; eauto.
Qed.
Lemma scalar_sound : forall F tg ind s v s', parseScalar F tg ind s = Some (v, s') -> sound v.
Proof.
  intros F tg ind s v s' H. unfold parseScalar in H. destruct (eod (cws s)); [injection H as <- _; constructor|].
  destruct ((linesLeft (cws s) <? linesLeft s)%nat && notDeeper (currentIndent [sp] (cws s)) ind); [injection H as <- _; constructor|].
  match type of H with (if ?b then _ else _) = _ => destruct b end.
  - match type of H with (if ?b then _ else _) = _ => destruct b; [discriminate|] end.
    match type of H with match ?b with _ => _ end = _ => destruct b as [[t s3]|]; [|discriminate] end. injection H as <- _. constructor.
  - destruct (parsePlainScalar F tg [] (cws s)) as [[v0 s1]|] eqn:E; [|discriminate].
    match type of H with (if ?b then _ else _) = _ => destruct b; [discriminate|] end. injection H as <- _. eapply plain_sound; eauto.
Qed.

Lemma list_sound : forall tg vs, Forall sound vs -> sound (convertList tg vs).
Proof.
  intros tg vs H. destruct tg as [| | |ty]; cbn [convertList]; constructor; auto.
  - apply Forall_forall. intros x Hx. apply in_map_iff in Hx. destruct Hx as [v [<- _]]. destruct v; constructor.
  - apply Forall_forall. intros s Hs. apply in_flat_map in Hs. destruct Hs as [v [Hv Hs]]. destruct v as [|s0| | | | |]; try destruct Hs.
    destruct (stypeEq (typeOf s0) ty) eqn:E; [|destruct Hs]. destruct Hs as [<-|[]].
    assert (T : typeOf s0 = ty). { clear - E. destruct (typeOf s0) as [|k| | | |], ty as [|k'| | | |]; try discriminate; auto. destruct k, k'; try discriminate; auto. }
    split; auto. rewrite Forall_forall in H. apply H in Hv. inversion Hv. auto.
Qed.

Definition entries (am : list (text * val)) : Prop := NoDup (map fst am) /\ Forall (fun kv => sound (snd kv)) am.

Lemma put_keys : forall m k v x, In x (map fst (put m k v)) -> x = k \/ In x (map fst m).
Proof.
  induction m as [|[k' v'] m IH]; intros k v x H; cbn in *; [intuition|]. destruct (teqb k' k) eqn:E; cbn in H; [intuition|].
  destruct H as [<-|H]; auto. apply IH in H. intuition.
Qed.
Lemma put_sound : forall m k v, entries m -> sound v -> entries (put m k v).
Proof.
  induction m as [|[k' v'] m IH]; intros k v [Nd Sd] Hv; cbn [put].
  - split; repeat constructor; auto.
  - cbn [map fst] in Nd. apply NoDup_cons_iff in Nd. destruct Nd as [Nk Nd]. destruct (teqb k' k) eqn:E.
    + split; [constructor; auto|]. constructor; auto. apply (Forall_inv_tail Sd).
    + destruct (IH k v) as [N2 S2]; auto; [split; auto; apply (Forall_inv_tail Sd)|]. split.
      * cbn [map fst]. constructor; auto. intros Hi. apply put_keys in Hi. destruct Hi as [Hi|Hi]; auto. subst k'. assert (teqb k k = true) by (apply teqb_eq; reflexivity). congruence.
      * constructor; auto. apply (Forall_inv Sd).
Qed.

Lemma done_sound : forall (asMap : bool) tg am al, entries am -> Forall sound al -> sound (if asMap then VMap am else convertList tg al).
Proof. intros asMap tg am al [N S] H. destruct asMap; [now constructor|]. now apply list_sound. Qed.

Ltac step H := match type of H with
  | Ok _ = Ok _ => injection H as <- _
  | Err = Ok _ => discriminate H
  | Fuel = Ok _ => discriminate H
  end.

Lemma ofOpt_ok : forall A (o : option A) a, ofOpt o = Ok a -> o = Some a.
Proof. intros A [x|] a H; [injection H as ->; reflexivity|discriminate]. Qed.
Lemma bind_ok : forall A B (r : res A) (f : A -> res B) b, bind r f = Ok b -> exists a, r = Ok a /\ f a = Ok b.
Proof. intros A B [a| |] f b H; [eauto|discriminate|discriminate]. Qed.

Lemma flow_sound : forall F f asMap tg parent start am al s v s', entries am -> Forall sound al ->
  flow F f asMap tg parent start am al s = Ok (v, s') -> sound v.
Proof.
  intros F. induction f as [|f IH]; intros asMap tg parent start am al s v s' Hm Hl H; cbn [flow] in H; [discriminate|].
  pose proof (done_sound asMap tg am al Hm Hl) as D.
  destruct (eod s); [step H; auto|]. destruct (eod (cws s)); [discriminate|].
  destruct (startsWith (if asMap then lit "}" else lit "]") (cws s)); [step H; auto|].
  match type of H with (if ?b then _ else _) = _ => destruct b; [discriminate|] end.
  apply bind_ok in H. destruct H as [[k s1] [_ H]]. apply bind_ok in H. destruct H as [[t s2] [_ H]]. cbn [fst snd] in H.
  destruct (isTagged tg && isTagged t); [discriminate|]. apply bind_ok in H. destruct H as [[v1 s3] [E H]]. cbn [fst snd] in H.
  assert (S1 : sound v1).
  { destruct (startsWith (lit "[") (cws s2)); [eapply IH; [| |exact E]; repeat constructor|].
    destruct (startsWith (lit "{") (cws s2)); [eapply IH; [| |exact E]; repeat constructor|].
    apply ofOpt_ok in E. eapply plain_sound; eauto. }
  assert (Hm' : entries (if asMap then put am k v1 else am)) by (destruct asMap; auto; now apply put_sound).
  assert (Hl' : Forall sound (if asMap then al else al ++ [v1])) by (destruct asMap; auto; apply Forall_app; auto).
  destruct (startsWith (lit ",") (cws s3)); [eapply IH; [| |exact H]; auto|].
  destruct (startsWith (if asMap then lit "}" else lit "]") (cws s3)); [|discriminate].
  pose proof (done_sound asMap tg _ _ Hm' Hl') as D'. injection H as <- _. exact D'.
Qed.

Lemma block_sound : forall F f asMap start first tg parent am al s v s', entries am -> Forall sound al ->
  block F f asMap start first tg parent am al s = Ok (v, s') -> sound v.
Proof.
  intros F. induction f as [|f IH]; intros asMap start first tg parent am al s v s' Hm Hl H; cbn [block] in H; [discriminate|].
  pose proof (done_sound asMap tg am al Hm Hl) as D. set (sa := if start then cws s else s) in *.
  destruct (start && startsWith (if asMap then lit "{" else lit "[") sa).
  { apply bind_ok in H. destruct H as [[v1 s1] [E H]]. injection H as <- _. eapply flow_sound; [| |exact E]; repeat constructor. }
  destruct (eod sa); [step H; auto|]. destruct (asMap && startsWith (lit "---") sa); [discriminate|].
  destruct (eod (cws sa)); [step H; auto|]. destruct (isIgnorableLine (full (cws sa))); [eapply IH; [| |exact H]; auto|].
  destruct (currentIndent (if asMap && first then lit " -" else lit " ") (cws sa)) as [n|]; [|eapply IH; [| |exact H]; auto].
  destruct (notDeeper (Some n) parent); [step H; auto|]. 
  destruct asMap.
  - apply bind_ok in H. destruct H as [[k s1] [_ H]]. apply bind_ok in H. destruct H as [[t s2] [_ H]]. cbn [fst snd] in H.
    apply bind_ok in H. destruct H as [[v1 s3] [E H]]. cbn [fst snd] in H.
    assert (S1 : sound v1).
    { destruct (peek (consumeSpaces s2) (Z.of_nat n)).
      - eapply IH; [| |exact E]; repeat constructor.
      - destruct (isTagged t); [discriminate|]. eapply IH; [| |exact E]; repeat constructor.
      - apply ofOpt_ok in E. eapply scalar_sound; eauto. }
    eapply IH; [| |exact H]; auto. now apply put_sound.
  - destruct (negb (startsWith (lit "-") (cws sa))); [discriminate|]. apply bind_ok in H. destruct H as [[t s2] [_ H]]. cbn [fst snd] in H.
    destruct (isTagged tg && isTagged t); [discriminate|].
    apply bind_ok in H. destruct H as [[v1 s3] [E H]]. cbn [fst snd] in H.
    assert (S1 : sound v1).
    { destruct (peek (consumeSpaces s2) (Z.of_nat n)).
      - destruct (isTagged tg); [discriminate|]. eapply IH; [| |exact E]; repeat constructor.
      - destruct (isTagged t); [discriminate|]. eapply IH; [| |exact E]; repeat constructor.
      - apply ofOpt_ok in E. eapply scalar_sound; eauto. }
    eapply IH; [| |exact H]; auto. apply Forall_app. auto.
Qed.

Theorem read_sound : forall F t m, deserialize F t = Ok m -> sound (VMap m).
Proof.
  intros F t m H. unfold deserialize, deserializeWith in H. apply bind_ok in H. destruct H as [[v s] [E H]]. cbn [fst] in H.
  destruct v; try discriminate. injection H as <-. eapply block_sound; [| |exact E]; repeat constructor.
Qed.
