(** Proofs about ports and exports. *)
From Coq Require Import Ascii ZArith NArith Bool Arith Decimal DecimalString DecimalN DecimalFacts Permutation Lia String List.
From Verif Require Import Base TopoModel EditModel EditSpec.
Import ListNotations.
Local Open Scope nat_scope.
Local Open Scope list_scope.

(** ** Texts *)

Lemma cutHash_free s : cutHash s = None <-> hashFree s.
Proof.
  unfold hashFree. induction s as [|c r IH]; cbn; [intuition discriminate|].
  destruct (Ascii.eqb_spec c "#"%char) as [->|Hn]; [split; [discriminate|intros H; exfalso; apply H; left; reflexivity]|].
  destruct (cutHash r) as [[a b]|]; split; intros H; try discriminate; try reflexivity.
  - exfalso. apply H. right. destruct (in_dec ascii_dec "#"%char (list_ascii_of_string r)) as [Hi|Hi]; [exact Hi|].
    apply IH in Hi. discriminate.
  - intros [H0|H0]; [congruence|]. apply IH in H0; [destruct H0|reflexivity].
Qed.

Lemma list_app s t : list_ascii_of_string (s ++ t)%string = (list_ascii_of_string s ++ list_ascii_of_string t)%list.
Proof. induction s as [|c r IH]; cbn; [reflexivity|]. rewrite IH. reflexivity. Qed.

Lemma hashFree_app s t : hashFree (s ++ t)%string <-> hashFree s /\ hashFree t.
Proof. unfold hashFree. rewrite list_app, in_app_iff. tauto. Qed.

Lemma cutHash_app s t : hashFree s -> cutHash (s ++ String "#" t)%string = Some (s, t).
Proof.
  unfold hashFree. induction s as [|c r IH]; cbn; intros H; [reflexivity|].
  destruct (Ascii.eqb_spec c "#"%char) as [->|Hn]; [exfalso; apply H; left; reflexivity|].
  rewrite IH; [reflexivity|]. intros Hi. apply H. right. exact Hi.
Qed.

Lemma cutHash_some s a b : cutHash s = Some (a, b) -> s = (a ++ String "#" b)%string /\ hashFree a.
Proof.
  unfold hashFree. revert a b. induction s as [|c r IH]; cbn; intros a b H; [discriminate|].
  destruct (Ascii.eqb_spec c "#"%char) as [->|Hn].
  - injection H as <- <-. split; [reflexivity|]. cbn. tauto.
  - destruct (cutHash r) as [[x y]|]; [|discriminate]. injection H as <- <-. destruct (IH x y eq_refl) as [E F].
    split; [cbn; rewrite <- E; reflexivity|]. cbn. intros [G|G]; [congruence|tauto].
Qed.

Lemma digits_all u : digitRun (NilEmpty.string_of_uint u) = NilEmpty.string_of_uint u.
Proof. induction u; cbn [NilEmpty.string_of_uint digitRun]; [reflexivity|..]; cbn [isDigit]; rewrite IHu; reflexivity. Qed.

Lemma digits_hashFree u : hashFree (NilEmpty.string_of_uint u).
Proof.
  unfold hashFree. induction u; cbn [NilEmpty.string_of_uint list_ascii_of_string In]; [tauto|..];
    (intros [H|H]; [discriminate|exact (IHu H)]).
Qed.

Lemma showN_hashFree n : hashFree (showN n).
Proof. apply digits_hashFree. Qed.

Lemma to_uint_nonnil n : N.to_uint n <> Nil.
Proof.
  destruct n as [|p]; [discriminate|]. cbn. intros H.
  pose proof (DecimalPos.Unsigned.of_to p) as E. rewrite H in E. discriminate.
Qed.

Lemma showN_cons n : showN n <> EmptyString.
Proof. unfold showN. pose proof (to_uint_nonnil n) as H. destruct (N.to_uint n); cbn; congruence. Qed.

Lemma fromChars_show n : (n < 2 ^ 64)%N -> fromChars (showN n) = Some n.
Proof.
  intros H. unfold fromChars. pose proof (showN_cons n) as Hc.
  assert (Hd : digitRun (showN n) = showN n) by apply digits_all. rewrite Hd.
  destruct (showN n) as [|c r] eqn:E; [congruence|]. rewrite <- E. unfold showN. rewrite NilEmpty.usu, DecimalN.Unsigned.of_to.
  apply N.ltb_lt in H. rewrite H. reflexivity.
Qed.

Lemma showN_inj a b : showN a = showN b -> a = b.
Proof.
  intros H. apply (f_equal NilEmpty.uint_of_string) in H. unfold showN in H. rewrite !NilEmpty.usu in H.
  injection H as H. apply (f_equal N.of_uint) in H. rewrite !DecimalN.Unsigned.of_to in H. exact H.
Qed.

Lemma append_inj_l a b c : (a ++ b = a ++ c)%string -> b = c.
Proof. induction a as [|x r IH]; cbn; intros H; [exact H|]. injection H as H. exact (IH H). Qed.

(** ** Ports *)

Lemma findOne_in n p ps : NoDup (map dportName ps) -> In (One n p) ps -> findOne n ps = Some p.
Proof.
  induction ps as [|q r IH]; cbn; intros Hn Hi; [destruct Hi|]. inversion Hn as [|? ? Hq Hr]; subst. destruct Hi as [->|Hi].
  - cbn. rewrite String.eqb_refl. reflexivity.
  - destruct q as [m q|m l]; [|apply IH; assumption].
    destruct (String.eqb_spec m n) as [->|E]; [|apply IH; assumption].
    exfalso. apply Hq. cbn. apply (in_map dportName) in Hi. exact Hi.
Qed.

Lemma findOne_some n p ps : findOne n ps = Some p -> In (One n p) ps.
Proof.
  induction ps as [|[m q|m l] r IH]; cbn; intros H; [discriminate| |right; apply IH; exact H].
  destruct (String.eqb_spec m n) as [->|E]; [injection H as <-; left; reflexivity|right; apply IH; exact H].
Qed.

Lemma findMany_in n l ps : NoDup (map dportName ps) -> In (Many n l) ps -> findMany n ps = Some l.
Proof.
  induction ps as [|q r IH]; cbn; intros Hn Hi; [destruct Hi|]. inversion Hn as [|? ? Hq Hr]; subst. destruct Hi as [->|Hi].
  - cbn. rewrite String.eqb_refl. reflexivity.
  - destruct q as [m q|m l']; [apply IH; assumption|].
    destruct (String.eqb_spec m n) as [->|E]; [|apply IH; assumption].
    exfalso. apply Hq. cbn. apply (in_map dportName) in Hi. exact Hi.
Qed.

Lemma findMany_some n l ps : findMany n ps = Some l -> In (Many n l) ps.
Proof.
  induction ps as [|[m q|m l'] r IH]; cbn; intros H; [discriminate|right; apply IH; exact H|].
  destruct (String.eqb_spec m n) as [->|E]; [injection H as <-; left; reflexivity|right; apply IH; exact H].
Qed.

Lemma bounded_nth (A : Type) (l : list A) (i : N) :
  (if N.leb (N.of_nat (List.length l)) i then None else nth_error l (N.to_nat i)) = nth_error l (N.to_nat i).
Proof.
  destruct (N.leb_spec (N.of_nat (List.length l)) i) as [H|H]; [|reflexivity]. symmetry. apply nth_error_None. lia.
Qed.

Lemma portFromName_plain ps n : hashFree n -> portFromName ps n = findOne n ps.
Proof. intros H. apply cutHash_free in H. unfold portFromName. rewrite H. reflexivity. Qed.

Lemma portFromName_elem ps n s : hashFree n -> (s < 2 ^ 64)%N ->
  portFromName ps (n ++ "#" ++ showN s)%string = match findMany n ps with Some l => nth_error l (N.to_nat s) | None => None end.
Proof.
  intros H Hs. unfold portFromName. cbn [append]. rewrite cutHash_app by exact H. rewrite fromChars_show by exact Hs.
  destruct (findMany n ps) as [l|]; [apply bounded_nth|reflexivity].
Qed.

Lemma nth_error_Some_lt (A : Type) (l : list A) n x : nth_error l n = Some x -> n < List.length l.
Proof. intros H. apply nth_error_Some. congruence. Qed.

Lemma findOne_absent n ps : (forall p, ~ In (One n p) ps) -> findOne n ps = None.
Proof.
  intros H. destruct (findOne n ps) as [p|] eqn:E; [|reflexivity]. apply findOne_some in E. destruct (H p E).
Qed.

Lemma findMany_absent n ps : (forall l, ~ In (Many n l) ps) -> findMany n ps = None.
Proof.
  intros H. destruct (findMany n ps) as [p|] eqn:E; [|reflexivity]. apply findMany_some in E. destruct (H p E).
Qed.

Lemma same_name ps a b : NoDup (map dportName ps) -> In a ps -> In b ps -> dportName a = dportName b -> a = b.
Proof.
  induction ps as [|t r IH]; cbn; intros Hn Ha Hb E; [destruct Ha|]. inversion Hn as [|? ? Ht Hr]; subst.
  destruct Ha as [->|Ha], Hb as [->|Hb]; [reflexivity| | |exact (IH Hr Ha Hb E)]; exfalso; apply Ht.
  - rewrite E. apply in_map. exact Hb.
  - rewrite <- E. apply in_map. exact Ha.
Qed.

Lemma fromChars_show_large n : (2 ^ 64 <= n)%N -> fromChars (showN n) = None.
Proof.
  intros H. unfold fromChars. pose proof (showN_cons n) as Hc.
  assert (Hd : digitRun (showN n) = showN n) by apply digits_all. rewrite Hd.
  destruct (showN n) as [|c r] eqn:E; [congruence|]. rewrite <- E. unfold showN. rewrite NilEmpty.usu, DecimalN.Unsigned.of_to.
  apply N.ltb_ge in H. rewrite H. reflexivity.
Qed.

(** Spelling out an index as a name selects the same port, or none as well. *)
Lemma defined_same ps d n : plainPorts ps -> definedPortName ps d = Some n -> portFromName ps n = resolve ps d.
Proof.
  intros [Hn [Hf Hl]] Hd. destruct d as [t sub|m]; cbn in *; [|injection Hd as <-; reflexivity].
  unfold portByIndex. destruct (nth_error ps (N.to_nat t)) as [q|] eqn:E; [|discriminate].
  assert (Hin := nth_error_In _ _ E). rewrite Forall_forall in Hf.
  assert (Hq : hashFree (dportName q)) by (apply Hf, in_map; exact Hin).
  destruct sub as [s|]; injection Hd as <-.
  - destruct q as [m q|m l]; cbn [dportName] in *; change (m ++ String "#" (showN s))%string with (m ++ "#" ++ showN s)%string.
    + assert (Hm : findMany m ps = None).
      { apply findMany_absent. intros l Hi. assert (H := same_name ps _ _ Hn Hi Hin eq_refl). discriminate. }
      unfold portFromName. cbn [append]. rewrite cutHash_app by exact Hq. rewrite Hm. destruct (fromChars (showN s)); reflexivity.
    + rewrite bounded_nth. destruct (N.lt_ge_cases s (2 ^ 64)) as [Hs|Hs].
      * rewrite portFromName_elem by assumption. rewrite (findMany_in m l ps Hn Hin). reflexivity.
      * unfold portFromName. cbn [append]. rewrite cutHash_app by exact Hq. rewrite fromChars_show_large by exact Hs.
        symmetry. apply nth_error_None. specialize (Hl m l Hin). lia.
  - rewrite portFromName_plain by exact Hq. destruct q as [m q|m l]; cbn [dportName] in *; [apply findOne_in; assumption|].
    apply findOne_absent. intros p Hi. assert (H := same_name ps _ _ Hn Hi Hin eq_refl). discriminate.
Qed.

Lemma defined_total ps d p : resolve ps d = Some p -> exists n, definedPortName ps d = Some n.
Proof.
  destruct d as [t sub|m]; cbn; [|eexists; reflexivity]. unfold portByIndex.
  destruct (nth_error ps (N.to_nat t)) as [q|]; [|discriminate]. intros _. destruct sub; eexists; reflexivity.
Qed.
