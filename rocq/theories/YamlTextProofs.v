(** Texts: escapes, quotes, splitting, trimming, numbers. *)
From Coq Require Import List NArith ZArith Ascii String Bool Lia Arith.
From Verif Require Import YamlModel YamlSpec.
Import ListNotations.

Ltac chars c := destruct c as [[] [] [] [] [] [] [] []].

Lemma eqb_true : forall a b, Ascii.eqb a b = true <-> a = b.
Proof. intros. apply Ascii.eqb_eq. Qed.
Lemma eqb_false : forall a b, a <> b -> Ascii.eqb a b = false.
Proof. intros. now apply Ascii.eqb_neq. Qed.

Lemma teqb_eq : forall a b, teqb a b = true <-> a = b.
Proof.
  induction a as [|x a IH]; intros [|y b]; cbn; split; intros H; try discriminate; auto.
  - apply andb_true_iff in H. destruct H as [H1 H2]. apply Ascii.eqb_eq in H1. apply IH in H2. congruence.
  - injection H as -> ->. rewrite Ascii.eqb_refl. now apply IH.
Qed.
Lemma teqb_refl : forall a, teqb a a = true.
Proof. intros. now apply teqb_eq. Qed.
Lemma teqb_neq : forall a b, a <> b -> teqb a b = false.
Proof. intros. destruct (teqb a b) eqn:E; auto. apply teqb_eq in E. contradiction. Qed.

(* ------------------------------------------------------------------ quoted strings *)

Lemma resolve_escapeChar : forall c r, resolveQuoted (escapeChar true c ++ r) = option_map (cons c) (resolveQuoted r).
Proof. intros. chars c; reflexivity. Qed.

Lemma resolve_escape : forall t, resolveQuoted (escapeString true t) = Some t.
Proof.
  induction t as [|c t IH]; auto. cbn [escapeString flat_map]. rewrite resolve_escapeChar.
  unfold escapeString in IH. rewrite IH. reflexivity.
Qed.

Lemma closing_escapeChar : forall c r, findClosing quo false (escapeChar true c ++ r)
  = option_map (fun n => (List.length (escapeChar true c) + n)%nat) (findClosing quo false r).
Proof. intros. chars c; cbn; destruct (findClosing quo false r); reflexivity. Qed.

Lemma closing_escape : forall t r, findClosing quo false (escapeString true t ++ quo :: r) = Some (List.length (escapeString true t)).
Proof.
  induction t as [|c t IH]; intros r; [reflexivity|].
  cbn [escapeString flat_map]. rewrite <- app_assoc, closing_escapeChar. unfold escapeString in IH. rewrite IH.
  cbn [option_map]. now rewrite app_length.
Qed.

Lemma escape_noNl : forall t, ~ In nl (escapeString true t).
Proof.
  induction t as [|c t IH]; cbn [escapeString flat_map]; auto.
  intros H. apply in_app_or in H. destruct H as [H|H]; [|now apply IH].
  revert H. chars c; cbn; intuition discriminate.
Qed.

Lemma escape_print : forall t, Forall (fun c => isprint c = true) t -> escapeString false t = t.
Proof.
  induction t as [|c t IH]; intros H; auto. pose proof (Forall_inv H) as Hc. cbn [escapeString flat_map].
  unfold escapeString in IH. rewrite (IH (Forall_inv_tail H)).
  revert Hc. clear. chars c; intros H; vm_compute in H; try discriminate H; reflexivity.
Qed.

(* ------------------------------------------------------------------ lines *)

Lemma splitAux_line : forall sep l cur r, ~ In sep l -> splitAux sep cur (l ++ sep :: r) = (rev cur ++ l) :: splitAux sep [] r.
Proof.
  induction l as [|c l IH]; intros cur r H; cbn.
  - rewrite Ascii.eqb_refl. now rewrite app_nil_r.
  - rewrite eqb_false by (intros ->; apply H; now left).
    rewrite IH by (intros Hi; apply H; now right). cbn. now rewrite <- app_assoc.
Qed.

Lemma splitAux_end : forall sep l cur, ~ In sep l -> splitAux sep cur l = match rev cur ++ l with [] => [] | x => [x] end.
Proof.
  induction l as [|c l IH]; intros cur H; cbn.
  - rewrite app_nil_r. destruct cur as [|x cur]; auto. destruct (rev (x :: cur)) eqn:E; auto.
    apply (f_equal (@List.length ascii)) in E. rewrite rev_length in E. discriminate.
  - rewrite eqb_false by (intros ->; apply H; now left).
    rewrite IH by (intros Hi; apply H; now right). cbn. now rewrite <- app_assoc.
Qed.

Definition unlines (ls : list text) : text := flat_map (fun l => l ++ [nl]) ls.

Lemma split_unlines : forall ls, Forall (fun l => ~ In nl l) ls -> split nl (unlines ls) = ls.
Proof.
  induction ls as [|l ls IH]; intros H; auto. unfold unlines. cbn [flat_map]. rewrite <- app_assoc. cbn [app].
  unfold split. rewrite splitAux_line by apply (Forall_inv H). cbn [rev app]. f_equal. apply IH. apply (Forall_inv_tail H).
Qed.

Lemma split_lines_noNl : forall t cur, ~ In nl cur -> Forall (fun l => ~ In nl l) (splitAux nl cur t).
Proof.
  induction t as [|c t IH]; intros cur H; cbn.
  - destruct cur; constructor; auto. rewrite <- in_rev. auto.
  - destruct (Ascii.eqb c nl) eqn:E.
    + constructor; [rewrite <- in_rev; auto|]. apply IH. auto.
    + apply IH. intros [ -> | Hi ]; auto. now rewrite Ascii.eqb_refl in E.
Qed.

(** The lines of a text, put together again, give the text (with a final newline if it had none). *)
Lemma splitAux_unlines : forall t cur,
  unlines (splitAux nl cur t) = rev cur ++ t ++ (match t with [] => match cur with [] => [] | _ => [nl] end | _ => if endsWith nl t then [] else [nl] end).
Proof.
  assert (Hends : forall c d r, endsWith nl (c :: d :: r) = endsWith nl (d :: r)).
  { intros. unfold endsWith. cbn [rev]. destruct (rev r ++ [d]) eqn:E; [|reflexivity].
    destruct (rev r); discriminate. }
  induction t as [|c t IH]; intros cur; cbn [splitAux].
  - destruct cur as [|x cur]; auto. unfold unlines. cbn [flat_map]. now rewrite app_nil_r.
  - destruct (Ascii.eqb c nl) eqn:E.
    + apply Ascii.eqb_eq in E. subst c. unfold unlines in *. cbn [flat_map]. rewrite IH. cbn [rev app].
      rewrite <- app_assoc. cbn [app]. do 2 f_equal.
      destruct t as [|d r]; [reflexivity|]. now rewrite Hends.
    + rewrite IH. cbn [rev]. rewrite <- app_assoc. cbn [app]. do 3 f_equal.
      destruct t as [|d r]; [|now rewrite Hends].
      unfold endsWith. cbn [rev app]. now rewrite E.
Qed.

Lemma split_blank : forall t l cur, In l (splitAux nl cur t) -> (exists a b, rev cur ++ t = a ++ l ++ b
  /\ (a = [] \/ exists a', a = a' ++ [nl]) /\ (b = [] \/ exists b', b = nl :: b')).
Proof.
  induction t as [|c t IH]; intros l cur Hi; cbn in Hi.
  - destruct cur as [|x cur]; [destruct Hi|]. destruct Hi as [<-|[]]. exists [], []. split; [reflexivity|]. auto.
  - destruct (Ascii.eqb c nl) eqn:E.
    + apply Ascii.eqb_eq in E. subst c. destruct Hi as [<-|Hi].
      * exists [], (nl :: t). cbn [app]. split; [reflexivity|]. split; eauto.
      * apply IH in Hi. destruct Hi as [a [b [Ht [Ha Hb]]]]. cbn [rev app] in Ht.
        exists (rev cur ++ nl :: a), b. rewrite Ht. rewrite <- app_assoc. split; [reflexivity|]. split; auto.
        right. destruct Ha as [ -> | [a' ->] ].
        -- exists (rev cur). reflexivity.
        -- exists (rev cur ++ nl :: a'). rewrite <- app_assoc. reflexivity.
    + apply IH in Hi. destruct Hi as [a [b [Ht [Ha Hb]]]]. exists a, b. cbn [rev] in Ht. rewrite <- app_assoc in Ht. cbn [app] in Ht. split; [exact Ht|]. auto.
Qed.

(* ------------------------------------------------------------------ finding and trimming *)

Lemma findBy_none : forall p t, Forall (fun c => p c = false) t -> findBy p t = None.
Proof. induction t as [|c t IH]; intros H; auto. cbn. rewrite (Forall_inv H). rewrite IH; auto. apply (Forall_inv_tail H). Qed.

Lemma findBy_app : forall p a b, Forall (fun c => p c = false) a ->
  findBy p (a ++ b) = option_map (fun n => (List.length a + n)%nat) (findBy p b).
Proof.
  induction a as [|c a IH]; intros b H; cbn.
  - destruct (findBy p b); reflexivity.
  - rewrite (Forall_inv H). rewrite IH by apply (Forall_inv_tail H). destruct (findBy p b); reflexivity.
Qed.

Lemma findBy_at : forall p a c b, Forall (fun c => p c = false) a -> p c = true -> findBy p (a ++ c :: b) = Some (List.length a).
Proof. intros. rewrite findBy_app by auto. cbn. rewrite H0. cbn. now rewrite Nat.add_0_r. Qed.

Lemma dropSpaces_repeat : forall n t, dropSpaces (repeat sp n ++ t) = dropSpaces t.
Proof. induction n; intros; cbn; auto. Qed.

Lemma dropSpaces_id : forall c t, c <> sp -> dropSpaces (c :: t) = c :: t.
Proof. intros. cbn. now rewrite eqb_false. Qed.

Lemma dropSpace_id : forall t, (forall c r, t = c :: r -> isspace c = false) -> dropSpace t = t.
Proof. intros [|c t] H; auto. cbn. now rewrite (H c t eq_refl). Qed.

Lemma trim_id : forall t, (forall c r, t = c :: r -> isspace c = false) -> (forall c r, t = r ++ [c] -> isspace c = false) -> trim t = t.
Proof.
  intros t H1 H2. unfold trim. rewrite (dropSpace_id t H1). rewrite (dropSpace_id (rev t)).
  - apply rev_involutive.
  - intros c r E. apply (H2 c (rev r)). rewrite <- (rev_involutive t), E. reflexivity.
Qed.

Lemma trim_clean : forall t, Forall (fun c => isspace c = false) t -> trim t = t.
Proof.
  intros t H. apply trim_id; intros c r ->.
  - apply (Forall_inv H).
  - apply Forall_app in H. destruct H as [_ H]. apply (Forall_inv H).
Qed.

Lemma strip_clean : forall t, Forall (fun c => Ascii.eqb hash c = false) t -> stripComment t = t.
Proof. intros. unfold stripComment. now rewrite findBy_none. Qed.

Lemma trimStrip_clean : forall t, Forall (fun c => isspace c = false /\ Ascii.eqb hash c = false) t -> trimAndStripComment t = t.
Proof.
  intros t H. unfold trimAndStripComment. rewrite strip_clean.
  - apply trim_clean. eapply Forall_impl; [|exact H]. intros c Hc. apply Hc.
  - eapply Forall_impl; [|exact H]. intros c Hc. apply Hc.
Qed.

(* ------------------------------------------------------------------ numbers *)

Lemma digitIn_10 : forall d, (d < 10)%N -> digitIn 10 (ascii_of_N (48 + d)) = Some d.
Proof.
  intros d H.
  assert (C : (d = 0 \/ d = 1 \/ d = 2 \/ d = 3 \/ d = 4 \/ d = 5 \/ d = 6 \/ d = 7 \/ d = 8 \/ d = 9)%N) by lia.
  repeat (destruct C as [ -> | C ]; [reflexivity|]). subst. reflexivity.
Qed.

Lemma readDigits_app : forall b a r acc, readDigits b acc (a ++ r) = match readDigits b acc a with Some n => readDigits b n r | None => None end.
Proof. induction a as [|c a IH]; intros; cbn; auto. destruct (digitIn b c); auto. Qed.

Lemma div10_size : forall n, (0 < n)%N -> (N.size_nat (n / 10) < N.size_nat n)%nat.
Proof.
  intros n H. assert (E : (n / 10 <= n / 2)%N) by (apply N.div_le_compat_l; lia).
  assert (Hs : forall m, N.size_nat m = N.to_nat (N.size m)).
  { intros [|p]; auto. cbn. induction p; cbn; try lia; rewrite IHp, Pos2Nat.inj_succ; auto. }
  assert (Hmono : forall a b, (a <= b)%N -> (N.size_nat a <= N.size_nat b)%nat).
  { intros a b Hab. rewrite !Hs. destruct (N.eq_dec a 0) as [->|Ha]; [cbn; lia|].
    rewrite !N.size_log2 by lia. pose proof (N.log2_le_mono _ _ Hab). lia. }
  pose proof (Hmono _ _ E). assert ((N.size_nat (n / 2) < N.size_nat n)%nat); [|lia].
  rewrite <- N.div2_div. destruct n as [|[p|p|]]; cbn; lia.
Qed.

Lemma digitsAux_read : forall fuel n acc, (N.size_nat n <= fuel)%nat ->
  (forall k, readDigits 10 k (digitsAux fuel n acc) = readDigits 10 (k * 10 ^ N.of_nat (List.length (digitsAux fuel n acc) - List.length acc) + n) acc)%N
  /\ (List.length acc < List.length (digitsAux fuel n acc))%nat.
Proof.
  assert (Hstep : forall k n acc, (n < 10)%N -> readDigits 10 k (ascii_of_N (48 + n mod 10) :: acc) = readDigits 10 (k * 10 + n) acc).
  { intros k n acc H. cbn [readDigits]. rewrite digitIn_10 by (apply N.mod_lt; lia). now rewrite N.mod_small. }
  induction fuel as [|f IH]; intros n acc H; cbn [digitsAux].
  - assert ((n = 0)%N) by (destruct n as [|p]; auto; cbn in H; destruct p; cbn in H; lia). subst n.
    split; [|cbn; lia]. intros k. rewrite Hstep by lia. cbn [List.length]. replace (S (List.length acc) - List.length acc)%nat with 1%nat by lia. f_equal; lia.
  - destruct (N.eqb_spec (n / 10) 0) as [E|E].
    + assert ((n < 10)%N) by (apply N.div_small_iff in E; lia). split; [|cbn; lia]. intros k. rewrite Hstep by lia.
      cbn [List.length]. replace (S (List.length acc) - List.length acc)%nat with 1%nat by lia. f_equal; lia.
    + assert (Hn : (0 < n)%N) by (destruct n; [cbn in E; congruence|lia]).
      pose proof (div10_size n Hn) as Hd.
      destruct (IH (n / 10)%N (ascii_of_N (48 + n mod 10) :: acc) ltac:(lia)) as [IH1 IH2].
      set (D := digitsAux f (n / 10) (ascii_of_N (48 + n mod 10) :: acc)) in *. cbn [List.length] in IH1, IH2.
      split; [|lia]. intros k. rewrite IH1. cbn [readDigits]. rewrite digitIn_10 by (apply N.mod_lt; lia).
      f_equal. replace (List.length D - List.length acc)%nat with (S (List.length D - S (List.length acc))) by lia.
      rewrite Nat2N.inj_succ, N.pow_succ_r'. pose proof (N.div_mod n 10 ltac:(lia)). lia.
Qed.

Lemma digits_read : forall n, readNat 10 (digits n) = Some n.
Proof.
  intros n. unfold digits. destruct (digitsAux_read (N.size_nat n) n [] ltac:(lia)) as [H1 H2].
  unfold readNat. destruct (digitsAux (N.size_nat n) n []) eqn:E; [cbn in H2; lia|]. rewrite H1. cbn. f_equal; lia.
Qed.

Definition isDigit (c : ascii) : bool := ((48 <=? code c) && (code c <=? 57))%N.
Lemma digitsAux_digits : forall fuel n acc, Forall (fun c => isDigit c = true) acc -> Forall (fun c => isDigit c = true) (digitsAux fuel n acc).
Proof.
  assert (Hd : forall n, isDigit (ascii_of_N (48 + n mod 10)) = true).
  { intros n. pose proof (N.mod_lt n 10 ltac:(lia)) as H. revert H. generalize (n mod 10)%N. intros d H.
    assert (C : (d = 0 \/ d = 1 \/ d = 2 \/ d = 3 \/ d = 4 \/ d = 5 \/ d = 6 \/ d = 7 \/ d = 8 \/ d = 9)%N) by lia.
    repeat (destruct C as [ -> | C ]; [reflexivity|]). subst. reflexivity. }
  induction fuel as [|f IH]; intros n acc H; cbn [digitsAux].
  - constructor; auto.
  - destruct (n / 10 =? 0)%N; [constructor; auto|]. apply IH. constructor; auto.
Qed.
Lemma digits_digits : forall n, Forall (fun c => isDigit c = true) (digits n).
Proof. intros. apply digitsAux_digits. constructor. Qed.
Lemma digits_cons : forall n, exists c r, digits n = c :: r /\ isDigit c = true /\ Forall (fun c => isDigit c = true) r.
Proof.
  intros n. pose proof (digits_read n) as H. pose proof (digits_digits n) as D. destruct (digits n) as [|c r]; [discriminate|].
  exists c, r. split; auto. split; [apply (Forall_inv D)|apply (Forall_inv_tail D)].
Qed.

Lemma digit_facts : forall c, isDigit c = true -> isspace c = false /\ Ascii.eqb c dash = false /\ Ascii.eqb hash c = false.
Proof. intros c. chars c; intros H; vm_compute in H; try discriminate H; repeat split; reflexivity. Qed.

Lemma digit_noPrefix : forall x t, Forall (fun c => isDigit c = true) t -> isDigit x = false -> starts ["0"%char; x] t = false.
Proof.
  intros x [|a [|b t]] H Hx; cbn; auto; rewrite ?andb_false_r; auto.
  pose proof (Forall_inv (Forall_inv_tail H)) as Hb. cbn in Hb. rewrite (eqb_false x b); [now rewrite !andb_false_r|].
  intros ->. congruence.
Qed.

Lemma showInt_clean : forall z, Forall (fun c => isspace c = false) (showInt z).
Proof.
  assert (Hd : forall n, Forall (fun c => isspace c = false) (digits n)).
  { intros. eapply Forall_impl; [|apply digits_digits]. intros c Hc. apply digit_facts, Hc. }
  intros [|p|p]; cbn [showInt]; auto.
Qed.

Lemma parseInt_show : forall k z, inRange k z = true -> parseInt k (showInt z) = Some z.
Proof.
  intros k z H. unfold parseInt. rewrite trim_clean by apply showInt_clean.
  assert (Hpos : forall n, fromChars k 10 (digits n) = if inRange k (Z.of_N n) then Some (Z.of_N n) else None).
  { intros n. destruct (digits_cons n) as [c [r [E [Hc _]]]]. pose proof (digits_read n) as R.
    unfold fromChars. rewrite E in *. destruct (digit_facts c Hc) as [_ [-> _]]. cbn [andb]. rewrite R. reflexivity. }
  assert (Hz : (exists n, z = Z.of_N n /\ showInt z = digits n) \/ exists p, z = Zneg p /\ showInt z = dash :: digits (Npos p)).
  { destruct z as [|p|p]; [left; exists 0%N; auto|left; exists (Npos p); auto|right; eauto]. }
  destruct Hz as [[n [-> ->]]|[p [-> ->]]].
  - unfold lit. cbn [list_ascii_of_string].
    rewrite !digit_noPrefix by (try apply digits_digits; reflexivity). rewrite Hpos, H. reflexivity.
  - unfold lit. cbn [list_ascii_of_string starts]. replace (Ascii.eqb "0" dash) with false by reflexivity. cbn [andb].
    unfold fromChars. rewrite Ascii.eqb_refl. cbn [andb].
    assert (S : signed k = true).
    { destruct (signed k) eqn:E; auto. unfold inRange in H. rewrite E in H. apply andb_true_iff in H. destruct H as [H _]. apply Z.leb_le in H. lia. }
    rewrite S, digits_read. cbn [option_map]. change (- Z.of_N (N.pos p))%Z with (Zneg p). now rewrite H.
Qed.
