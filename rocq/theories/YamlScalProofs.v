(** Scalars: the text of a number is read back; strings in quotes and in blocks are read back. *)
From Coq Require Import List NArith ZArith Ascii String Bool Lia Arith.
From Verif Require Import YamlModel YamlSpec YamlTextProofs.
Import ListNotations.

(** Characters without any meaning to the parser. *)
Definition cleanC (c : ascii) : bool := negb (isspace c) && negb (member (lit "#:""'[{!") c).
Definition scalText (t : text) : Prop := Forall (fun c => cleanC c = true) t /\ t <> [] /\ t <> [dash].

Lemma clean_facts : forall c, cleanC c = true ->
  isspace c = false /\ Ascii.eqb hash c = false /\ c <> sp /\ c <> hash /\ c <> colon /\ c <> quo /\ c <> apo /\ c <> nl
  /\ c <> "["%char /\ c <> "{"%char /\ c <> "!"%char.
Proof. intros c. chars c; intros H; vm_compute in H; try discriminate H; repeat split; try reflexivity; discriminate. Qed.

Lemma clean_num : forall c, In c (list_ascii_of_string "0123456789abcdefghijklmnopqrstuvwxyz.+-") ->
  cleanC c = true /\ c <> ","%char.
Proof. intros c H. cbn in H. repeat (destruct H as [<-|H]; [split; [reflexivity|discriminate]|]). destruct H. Qed.
Lemma alnum_num : forall c, In c (list_ascii_of_string "0123456789abcdefghijklmnopqrstuvwxyz") -> c <> "."%char /\ c <> dash.
Proof. intros c H. cbn in H. repeat (destruct H as [<-|H]; [split; discriminate|]). destruct H. Qed.

Lemma clean_strip : forall t, Forall (fun c => cleanC c = true) t -> trimAndStripComment t = t.
Proof. intros. apply trimStrip_clean. eapply Forall_impl; [|eauto]. intros c Hc. destruct (clean_facts c Hc) as [? [? _]]. auto. Qed.

Lemma num_clean : forall t, numberText t -> Forall (fun c => cleanC c = true) t.
Proof. intros t [H _]. eapply Forall_impl; [|exact H]. intros c Hc. apply clean_num, Hc. Qed.

Lemma num_scal : forall t, numberText t -> scalText t.
Proof.
  intros t H. split; [now apply num_clean|]. destruct H as [_ [c [r [E Hc]]]]. apply alnum_num in Hc.
  destruct E as [ -> | -> ]; split; try discriminate. intros E. injection E as -> ->. tauto.
Qed.

Lemma num_first : forall t, numberText t -> (forall r, t <> "."%char :: r) /\ (forall r, t <> dash :: "."%char :: r).
Proof.
  intros t [_ [c [r [E Hc]]]]. apply alnum_num in Hc.
  split; intros r' E'; destruct E as [E|E]; rewrite E in E'; injection E' as E1 E2; try (subst; tauto); try discriminate.
Qed.

Lemma teqb_first : forall a b r s, a <> b -> teqb (a :: r) (b :: s) = false.
Proof. intros. cbn. now rewrite eqb_false. Qed.

Lemma parseFloat_num : forall a b q read t, numberText t -> parseFloat a b q read t = read t.
Proof.
  intros a b q read t H. unfold parseFloat. rewrite clean_strip by now apply num_clean.
  destruct (num_first t H) as [H1 H2].
  assert (E : forall s, (exists r, s = "."%char :: r \/ s = dash :: "."%char :: r) -> teqb t s = false).
  { intros s [r [ -> | -> ]]; apply teqb_neq; intros E; [eapply H1|eapply H2]; eauto. }
  rewrite !E; [reflexivity|..]; eexists; (left; reflexivity) || (right; reflexivity).
Qed.

Lemma show_floats : forall F s, goodScal F s -> match s with
  | SF32 x => parseF32 F (showScal F s) = Some x
  | SF64 x => parseF64 F (showScal F s) = Some x
  | _ => True end.
Proof.
  intros F [| | x| x| |] H; auto; cbn [goodScal] in H; cbn [showScal].
  - destruct H as [[ -> | [ -> | -> ]]|[Hf [Hn Hr]]]; try reflexivity.
    replace (isNan32 x) with false; [replace (isInf32 x) with false|].
    + unfold parseF32. now rewrite parseFloat_num.
    + unfold isInf32, finite32 in *. change (2 ^ 23)%N with 0x800000%N. change (2 ^ 8)%N with 0x100%N. destruct (N.eqb_spec ((x / 0x800000) mod 0x100) 255); auto; contradiction.
    + unfold isNan32, finite32 in *. change (2 ^ 23)%N with 0x800000%N. change (2 ^ 8)%N with 0x100%N. destruct (N.eqb_spec ((x / 0x800000) mod 0x100) 255); auto; contradiction.
  - destruct H as [[ -> | [ -> | -> ]]|[Hf [Hn Hr]]]; try reflexivity.
    replace (isNan64 x) with false; [replace (isInf64 x) with false|].
    + unfold parseF64. now rewrite parseFloat_num.
    + unfold isInf64, finite64 in *. change (2 ^ 52)%N with 0x10000000000000%N. change (2 ^ 11)%N with 0x800%N. destruct (N.eqb_spec ((x / 0x10000000000000) mod 0x800) 2047); auto; contradiction.
    + unfold isNan64, finite64 in *. change (2 ^ 52)%N with 0x10000000000000%N. change (2 ^ 11)%N with 0x800%N. destruct (N.eqb_spec ((x / 0x10000000000000) mod 0x800) 2047); auto; contradiction.
Qed.

Lemma clean_lit : forall s, forallb cleanC (lit s) = true -> lit s <> [] -> lit s <> [dash] -> scalText (lit s).
Proof. intros s H1 H2 H3. split; auto. apply Forall_forall. intros c Hc. rewrite forallb_forall in H1. auto. Qed.

Lemma complex_clean : forall a b, numberText a -> numberText b -> scalText (lit "(" ++ a ++ lit "," ++ b ++ lit ")").
Proof.
  intros a b Ha Hb. split; [|split; [discriminate|]].
  - cbn [lit list_ascii_of_string app]. constructor; [reflexivity|]. apply Forall_app. split; [now apply num_clean|].
    constructor; [reflexivity|]. apply Forall_app. split; [now apply num_clean|]. constructor; [reflexivity|constructor].
  - cbn. discriminate.
Qed.

Lemma complex_parse : forall p a b x y, numberText a -> numberText b -> p a = Some x -> p b = Some y ->
  parseComplex p (lit "(" ++ a ++ lit "," ++ b ++ lit ")") = Some (x, y).
Proof.
  intros p a b x y Ha Hb Px Py. unfold parseComplex. rewrite clean_strip by apply (complex_clean a b Ha Hb).
  change (lit "(" ++ a ++ lit "," ++ b ++ lit ")") with ("("%char :: a ++ ","%char :: b ++ [")"%char]).
  assert (E : endsWith ")" ("("%char :: a ++ ","%char :: b ++ [")"%char]) = true).
  { unfold endsWith. replace ("("%char :: a ++ ","%char :: b ++ [")"%char]) with (("("%char :: a ++ ","%char :: b) ++ [")"%char]) by (cbn; rewrite <- app_assoc; reflexivity).
    rewrite rev_app_distr. reflexivity. }
  rewrite E. cbn [tl]. replace (removelast (a ++ ","%char :: b ++ [")"%char])) with (a ++ ","%char :: b).
  2: { replace (a ++ ","%char :: b ++ [")"%char]) with ((a ++ ","%char :: b) ++ [")"%char]) by (rewrite <- app_assoc; reflexivity).
       rewrite removelast_app by discriminate. cbn. now rewrite app_nil_r. }
  unfold split. assert (Nc : forall t, numberText t -> ~ In ","%char t).
  { intros t [Ht _] Hi. rewrite Forall_forall in Ht. destruct (clean_num _ (Ht _ Hi)) as [_ C]. now apply C. }
  rewrite splitAux_line by now apply Nc. rewrite splitAux_end by now apply Nc. cbn [rev app].
  destruct (num_scal b Hb) as [_ [Nb _]]. destruct b as [|b0 b]; [congruence|].
  cbn [lit list_ascii_of_string starts Ascii.eqb Bool.eqb andb].
  assert (T : forall t, numberText t -> trim t = t).
  { intros t Ht. apply trim_clean. eapply Forall_impl; [|apply num_clean, Ht]. intros c Hc. apply clean_facts, Hc. }
  rewrite (T a Ha), (T _ Hb), Px, Py. reflexivity.
Qed.

Lemma inRange_good : forall F k z, goodScal F (SInt k z) -> inRange k z = true.
Proof. intros F k z H. unfold inRange. destruct k; cbn in *; apply andb_true_iff; split; try apply Z.leb_le; try apply Z.ltb_lt; lia. Qed.

Lemma showScal_text : forall F s, goodScal F s -> scalText (showScal F s).
Proof.
  intros F s H. destruct s as [[]|k z|x|x|a b|a b]; cbn [showScal goodScal] in *;
    try (apply clean_lit; [reflexivity|discriminate|discriminate]).
  - assert (Hd : forall n, Forall (fun c => cleanC c = true) (digits n)).
    { intros n. eapply Forall_impl; [|apply digits_digits]. intros c. chars c; intros E; vm_compute in E; try discriminate E; reflexivity. }
    assert (Hc : forall n, exists c r, digits n = c :: r /\ c <> dash).
    { intros n. destruct (digits_cons n) as [c [r [E [Hc _]]]]. exists c, r. split; auto. intros ->. discriminate. }
    assert (forall n, scalText (digits n)).
    { intros n. split; [apply Hd|]. destruct (Hc n) as [c [r [-> Hn]]]. split; [discriminate|]. congruence. }
    destruct z as [|p|p]; cbn [showInt]; auto. split; [constructor; [reflexivity|apply Hd]|].
    destruct (Hc (Npos p)) as [c [r [-> _]]]. split; discriminate.
  - destruct H as [[ -> | [ -> | -> ]]|[Hf [Hn Hr]]]; try (apply clean_lit; [reflexivity|discriminate|discriminate]).
    destruct (isNan32 x); [apply clean_lit; [reflexivity|discriminate|discriminate]|].
    destruct (isInf32 x); [destruct (neg32 x); apply clean_lit; (reflexivity || discriminate)|]. now apply num_scal.
  - destruct H as [[ -> | [ -> | -> ]]|[Hf [Hn Hr]]]; try (apply clean_lit; [reflexivity|discriminate|discriminate]).
    destruct (isNan64 x); [apply clean_lit; [reflexivity|discriminate|discriminate]|].
    destruct (isInf64 x); [destruct (neg64 x); apply clean_lit; (reflexivity || discriminate)|]. now apply num_scal.
  - destruct H as [[Ha _] [Hb _]]. now apply complex_clean.
  - destruct H as [[Ha _] [Hb _]]. now apply complex_clean.
Qed.

Lemma parseAs_show : forall F s, goodScal F s -> parseAs F (TagS (typeOf s)) (showScal F s) = Some (VS s).
Proof.
  intros F s H. pose proof (show_floats F s H) as Hf. destruct s as [b|k z|x|x|a b|a b]; cbn [typeOf parseAs].
  - destruct b; reflexivity.
  - cbn [showScal]. rewrite parseInt_show by eapply inRange_good, H. reflexivity.
  - rewrite Hf. reflexivity.
  - rewrite Hf. reflexivity.
  - destruct H as [[Ha Ra] [Hb Rb]]. cbn [showScal]. rewrite (complex_parse _ _ _ a b); auto.
    + unfold parseF32. now rewrite parseFloat_num.
    + unfold parseF32. now rewrite parseFloat_num.
  - destruct H as [[Ha Ra] [Hb Rb]]. cbn [showScal]. rewrite (complex_parse _ _ _ a b); auto.
    + unfold parseF64. now rewrite parseFloat_num.
    + unfold parseF64. now rewrite parseFloat_num.
Qed.

(* ------------------------------------------------------------------ blocks of text *)

Lemma resolve_plain : forall t, noEscape t -> resolveMultiline t = Some t.
Proof.
  intros t. remember (List.length t) as n. assert (Hn : (List.length t <= n)%nat) by lia. clear Heqn. revert t Hn.
  induction n as [|n IH]; intros t Hn H; [destruct t; [reflexivity|cbn in Hn; lia]|].
  destruct t as [|c r]; auto. cbn [resolveMultiline].
  assert (Hr : forall p s, c :: r = p ++ s -> noEscape s).
  { intros p s E a d b E'. apply (H (p ++ a) d b). rewrite E, E'. now rewrite <- app_assoc. }
  destruct (Ascii.eqb c bsl) eqn:E.
  - apply Ascii.eqb_eq in E. subst c. destruct r as [|e r']; auto.
    pose proof (H [] e r' eq_refl) as He. cbn [In] in He.
    rewrite (eqb_false e "0") by (intros ->; tauto). rewrite (eqb_false e "x") by (intros ->; tauto). rewrite (eqb_false e "u") by (intros ->; tauto).
    rewrite (IH r'); [reflexivity|cbn in Hn; lia|]. apply (Hr [bsl; e]). reflexivity.
  - rewrite (IH r); [reflexivity|cbn in Hn; lia|]. apply (Hr [c]). reflexivity.
Qed.

(** A line of a block that survives: empty, or with something other than blanks; without escapes. *)
Definition goodLine (l : text) : Prop := (l = [] \/ exists c, In c l /\ c <> sp) /\ resolveMultiline l = Some l.

Lemma findNot_some : forall n l, (exists c, In c l /\ c <> sp) ->
  exists k, findBy (fun c => negb (Ascii.eqb c sp)) (repeat sp n ++ l) = Some k /\ (n <= k)%nat.
Proof.
  intros n l [c [Hi Hc]]. rewrite findBy_app.
  2: { apply Forall_forall. intros x Hx. apply repeat_spec in Hx. subst. reflexivity. }
  rewrite repeat_length.
  assert (exists k, findBy (fun c => negb (Ascii.eqb c sp)) l = Some k) as [k ->].
  { clear n. induction l as [|d l IH]; [destruct Hi|]. cbn. destruct (Ascii.eqb d sp) eqn:E; cbn; eauto.
    destruct Hi as [->|Hi]; [apply Ascii.eqb_eq in E; contradiction|]. destruct (IH Hi) as [k ->]. cbn. eauto. }
  cbn. exists (n + k)%nat. split; auto. lia.
Qed.

Lemma findNot_none : forall n, findBy (fun c => negb (Ascii.eqb c sp)) (repeat sp n) = None.
Proof. intros. apply findBy_none. apply Forall_forall. intros x Hx. apply repeat_spec in Hx. subst. reflexivity. Qed.

Lemma skipn_repeat : forall n (l : text), skipn n (repeat sp n ++ l) = l.
Proof. induction n; intros; cbn; auto. Qed.

(** What stops a block: nothing more, or a line with less indentation that is not blank. *)
Definition stopsAt (ind : nat) (rest : list text) : Prop :=
  rest = [] \/ exists n c t more, rest = (repeat sp n ++ c :: t) :: more /\ (n <= ind)%nat /\ isspace c = false /\ iscntrl c = false /\ c <> hash
    /\ starts (lit "---") (c :: t) = false.

Lemma blockLines_ok : forall ls ind first acc rest, Forall goodLine ls -> stopsAt ind rest ->
  blockLines false (ind + 2) first acc (map (fun l => repeat sp (ind + 2) ++ l) ls ++ rest) = Some (acc ++ unlines ls, atLines rest).
Proof.
  induction ls as [|l ls IH]; intros ind first acc rest H Hs.
  - cbn [map app unlines flat_map]. rewrite app_nil_r. destruct Hs as [ -> | [n [c [t [more [ -> [Hn [Hc _]]]]]]] ]; [reflexivity|].
    cbn [blockLines atLines]. rewrite findBy_at.
    + rewrite repeat_length. replace (n <? ind + 2)%nat with true by (symmetry; apply Nat.ltb_lt; lia). reflexivity.
    + apply Forall_forall. intros x Hx. apply repeat_spec in Hx. subst. reflexivity.
    + rewrite eqb_false; auto. intros ->. discriminate.
  - destruct (Forall_inv H) as [Hb Hr]. pose proof (Forall_inv_tail H) as Ht. cbn [map app blockLines].
    assert (Hu : acc ++ unlines (l :: ls) = (acc ++ l ++ [nl]) ++ unlines ls) by (unfold unlines; cbn [flat_map]; rewrite <- !app_assoc; reflexivity).
    destruct Hb as [ -> | Hx ].
    + rewrite app_nil_r, findNot_none, IH, Hu by auto. reflexivity.
    + destruct (findNot_some (ind + 2) l Hx) as [k [-> Hk]]. replace (k <? ind + 2)%nat with false by (symmetry; apply Nat.ltb_ge; lia).
      rewrite skipn_repeat, Hr. cbn [andb app]. rewrite IH, Hu by auto. reflexivity.
Qed.

Lemma multi_block : forall t, multiline t = true -> blockString t.
Proof.
  intros t H. unfold multiline in H. apply andb_true_iff in H. destruct H as [H1 H2]. split.
  - apply existsb_exists in H1. destruct H1 as [c [Hi E]]. apply Ascii.eqb_eq in E. subst. exact Hi.
  - apply Forall_forall. intros c Hi. rewrite forallb_forall in H2. apply H2, orb_true_iff in Hi. destruct Hi as [Hi|Hi].
    + left. unfold isprint in Hi. apply andb_true_iff in Hi. destruct Hi as [A B]. apply N.leb_le in A, B. split; auto.
    + right. now apply Ascii.eqb_eq in Hi.
Qed.

Lemma multi_lines : forall t, multiline t = true -> goodString t -> Forall goodLine (split nl t) /\ Forall (fun l => escapeString false l = l) (split nl t).
Proof.
  intros t Hm Hg. destruct (Hg (multi_block t Hm)) as [Hb He]. split; apply Forall_forall; intros l Hl; pose proof (split_blank t l [] Hl) as [a [b [Ht [Ha Hb']]]]; cbn [rev app] in Ht.
  - split.
    + destruct l as [|c l]; [now left|]. right.
      destruct (List.existsb (fun d => negb (Ascii.eqb d sp)) (c :: l)) eqn:E.
      * apply existsb_exists in E. destruct E as [d [Hi Hd]]. exists d. split; auto. intros ->. discriminate.
      * exfalso. apply (Hb a (List.length l) b); auto. rewrite Ht. f_equal. f_equal.
        clear - E. remember (c :: l) as u. replace (S (List.length l)) with (List.length u) by (subst; reflexivity). clear Hequ.
        induction u as [|d u IH]; auto. cbn in E. apply orb_false_iff in E. destruct E as [E1 E2]. cbn. rewrite <- IH by auto.
        apply negb_false_iff, Ascii.eqb_eq in E1. now subst.
    + apply resolve_plain. intros x d y E. apply (He (a ++ x) d (y ++ b)). rewrite Ht, E, <- !app_assoc. reflexivity.
  - apply escape_print. apply Forall_forall. intros c Hc. unfold multiline in Hm. apply andb_true_iff in Hm. destruct Hm as [_ Hm].
    rewrite forallb_forall in Hm. assert (In c t) by (rewrite Ht; apply in_or_app; right; apply in_or_app; now left).
    apply Hm, orb_true_iff in H. destruct H; auto. apply Ascii.eqb_eq in H. subst c.
    pose proof (split_lines_noNl t [] (fun x => x)) as Hn. rewrite Forall_forall in Hn. exfalso. eapply Hn; eauto.
Qed.

Lemma blockEnd_ok : forall t, t <> [] -> blockEnd false (endsWith nl t) (unlines (split nl t)) = t.
Proof.
  intros t Hn. unfold split. rewrite splitAux_unlines. cbn [rev app]. destruct t as [|c t]; [congruence|].
  set (u := c :: t) in *. destruct (endsWith nl u) eqn:E; cbn [blockEnd]; [apply app_nil_r|].
  unfold trimEnd. rewrite rev_app_distr. cbn [rev app dropWhile]. rewrite Ascii.eqb_refl.
  unfold endsWith in E. destruct (rev u) as [|x r] eqn:R; cbn [dropWhile].
  - rewrite <- (rev_involutive u), R. reflexivity.
  - rewrite (eqb_false nl x) by (intros <-; now rewrite Ascii.eqb_refl in E). rewrite <- R. apply rev_involutive.
Qed.
