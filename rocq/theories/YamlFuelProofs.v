(** Fuel: more of it does not change an answer, and the parser always gets by with the length of the text. *)
From Coq Require Import List NArith ZArith Ascii String Bool Lia Arith.
From Verif Require Import YamlModel YamlTextProofs.
Import ListNotations.

(* ------------------------------------------------------------------ more fuel *)

Definition less {A} (a b : res A) : Prop := a = Fuel \/ a = b.
Lemma less_refl : forall A (a : res A), less a a. Proof. now right. Qed.
Lemma less_bind : forall A B (a b : res A) (f g : A -> res B), less a b -> (forall x, less (f x) (g x)) -> less (bind a f) (bind b g).
Proof. intros A B a b f g [ -> | -> ] H; [now left|]. destruct b; cbn; auto; apply less_refl. Qed.

Ltac lessStep IH :=
  first [ apply less_refl
        | apply IH
        | apply less_bind; [|intros ?]
        | match goal with |- less (if ?c then _ else _) _ => destruct c end
        | match goal with |- less (match ?c with _ => _ end) _ => destruct c end ].

Lemma flow_less : forall f f' F asMap tg parent start am al s, (f <= f')%nat -> less (flow F f asMap tg parent start am al s) (flow F f' asMap tg parent start am al s).
Proof.
  induction f as [|f IH]; intros f' F asMap tg parent start am al s H; [now left|]. destruct f' as [|f']; [lia|].
  assert (H' : (f <= f')%nat) by lia. cbn [flow].
  repeat (lessStep IH); exact H'.
Qed.

Lemma block_less : forall f f' F asMap start first tg parent am al s, (f <= f')%nat ->
  less (block F f asMap start first tg parent am al s) (block F f' asMap start first tg parent am al s).
Proof.
  induction f as [|f IH]; intros f' F asMap start first tg parent am al s H; [now left|]. destruct f' as [|f']; [lia|].
  assert (H' : (f <= f')%nat) by lia. cbn [block]. unfold flowLine.
  repeat (first [apply flow_less | lessStep IH]); exact H'.
Qed.

Lemma block_mono : forall f f' F asMap start first tg parent am al s, (f <= f')%nat ->
  block F f asMap start first tg parent am al s <> Fuel -> block F f' asMap start first tg parent am al s = block F f asMap start first tg parent am al s.
Proof. intros f f' F asMap start first tg parent am al s H Hn. destruct (block_less f f' F asMap start first tg parent am al s H); congruence. Qed.

(* ------------------------------------------------------------------ enough fuel *)

Fixpoint sum (ls : list text) : nat := match ls with [] => 0 | l :: r => S (List.length l) + sum r end.
Definition M (s : st) : nat := match cur s with None => 0 | Some (_, r) => S (List.length r) + sum (nxt s) end.

Lemma M_atLines : forall ls, M (atLines ls) = sum ls.
Proof. intros [|l r]; reflexivity. Qed.
Lemma M_next : forall s, (M (nextLine s) <= M s)%nat.
Proof. intros [[[f r]|] n]; unfold nextLine; cbn [cur nxt]; [|lia]. rewrite M_atLines. unfold M. cbn. lia. Qed.
Lemma M_next_lt : forall s, eod s = false -> (M (nextLine s) < M s)%nat.
Proof. intros [[[f r]|] n] H; [|discriminate]. unfold nextLine; cbn [cur nxt]. rewrite M_atLines. unfold M. cbn. lia. Qed.
Lemma M_consume : forall n s, (M (consume n s) <= M s)%nat.
Proof. intros n [[[f r]|] x]; unfold M, consume; cbn; [|lia]. rewrite skipn_length. lia. Qed.
Lemma M_consume_lt : forall n s, eol s = false -> (0 < n)%nat -> (M (consume n s) < M s)%nat.
Proof.
  intros n [[[f r]|] x] H Hn; [|discriminate]. unfold M, consume; cbn [cur nxt]. rewrite skipn_length.
  unfold eol, YamlModel.rem in H. cbn in H. destruct r; [discriminate|]. cbn [List.length]. lia.
Qed.
Lemma drop_length : forall t, (List.length (dropSpaces t) <= List.length t)%nat.
Proof. induction t as [|c t IH]; cbn; auto. destruct (Ascii.eqb c sp); cbn; lia. Qed.
Lemma M_spaces : forall s, (M (consumeSpaces s) <= M s)%nat.
Proof. intros [[[f r]|] x]; unfold M, consumeSpaces; cbn; [|lia]. pose proof (drop_length r). lia. Qed.
Lemma M_skipL : forall ls, (M (skipL ls) <= sum ls)%nat.
Proof.
  induction ls as [|l ls IH]; cbn [skipL sum]; [cbn; lia|]. pose proof (drop_length l) as D. destruct (dropSpaces l) as [|c r]; [lia|].
  destruct (Ascii.eqb c hash); [lia|]. unfold M. cbn in *. lia.
Qed.
Lemma M_cws : forall s, (M (cws s) <= M s)%nat.
Proof.
  intros [[[f r]|] x]; unfold cws; cbn [cur nxt]; [|lia]. pose proof (drop_length r) as D. pose proof (M_skipL x) as K.
  destruct (dropSpaces r) as [|c r']; [unfold M at 2; cbn; lia|]. destruct (Ascii.eqb c hash); [unfold M at 2; cbn; lia|].
  unfold M. cbn in *. lia.
Qed.
Lemma starts_eol : forall p s, startsWith p s = true -> eol s = false.
Proof. intros p s H. unfold startsWith in H. destruct (eol s); auto. Qed.
Lemma token_eol : forall p s, startsWithToken p s = true -> eol s = false.
Proof. intros p s H. unfold startsWithToken in H. destruct (eol s); auto. Qed.

Lemma M_parseTag : forall s t s', parseTag s = Some (t, s') -> (M s' <= M s)%nat.
Proof.
  intros s t s' H. unfold parseTag in H. destruct (startsWith (lit "!!") s); [|now injection H as _ <-].
  destruct (findBy (Ascii.eqb sp) (YamlModel.rem s)) as [n|]; [destruct (knownTag (firstn n (YamlModel.rem s)))|destruct (knownTag (YamlModel.rem s))];
    try discriminate; injection H as _ <-; apply M_consume.
Qed.

Lemma M_parseKey : forall s k s', parseKey s = Some (k, s') -> (M s' < M s)%nat.
Proof.
  intros s k s' H. unfold parseKey in H. pose proof (M_spaces s) as Hs. set (s1 := consumeSpaces s) in *.
  destruct (startsWith (lit "-") s1); [discriminate|].
  destruct (findString (YamlModel.rem s1) []) as [[[] n]|] eqn:E; [| |discriminate].
  - destruct (resolveQuoted _); [|discriminate].
    destruct (startsWithToken (lit ":") (consumeSpaces (consume (2 + n) s1))) eqn:E2; [|discriminate]. injection H as _ <-.
    match goal with |- (M (consume 1 (consumeSpaces (consume ?k s1))) < _)%nat =>
      pose proof (M_consume_lt 1 (consumeSpaces (consume k s1)) (token_eol _ _ E2) ltac:(lia)); pose proof (M_spaces (consume k s1)); pose proof (M_consume k s1) end. lia.
  - destruct (colonPos (YamlModel.rem s1)) as [c|] eqn:E2; [|discriminate].
    destruct (match findBy _ _ with Some h => _ | None => _ end); [discriminate|]. injection H as _ <-.
    assert (eol s1 = false) by (unfold eol; destruct (YamlModel.rem s1); auto; discriminate).
    pose proof (M_consume_lt (c + 1) s1 H ltac:(lia)). lia.
Qed.

Lemma M_plain : forall F tg d s v s', parsePlainScalar F tg d s = Some (v, s') -> (M s' <= M s)%nat.
Proof.
  intros F tg d s v s' H. unfold parsePlainScalar in H. destruct (findString (YamlModel.rem s) d) as [[q n]|]; [|discriminate].
  destruct (match tg with NoTag => _ | _ => _ end); [|discriminate]. injection H as _ <-.
  set (o := if q then 1%nat else 0%nat). pose proof (M_consume (o + n) (consume o s)). pose proof (M_consume o s). lia.
Qed.

Lemma M_blockLines : forall folded ind ls first acc t s', blockLines folded ind first acc ls = Some (t, s') -> (M s' <= sum ls)%nat.
Proof.
  induction ls as [|l ls IH]; intros first acc t s' H; cbn [blockLines] in H; [injection H as _ <-; cbn; lia|]. cbn [sum].
  destruct (findBy _ l) as [n|]; [|apply IH in H; lia].
  destruct (n <? ind)%nat; [injection H as _ <-; unfold M; cbn; lia|].
  destruct (resolveMultiline _); [apply IH in H; lia|discriminate].
Qed.

Lemma M_nxt : forall s, (sum (nxt s) <= M s)%nat \/ cur s = None.
Proof. intros [[[f r]|] x]; [left|right]; auto. unfold M. cbn. lia. Qed.

Lemma M_scalar : forall F tg ind s v s', parseScalar F tg ind s = Some (v, s') -> (M s' <= M s)%nat.
Proof.
  intros F tg ind s v s' H. unfold parseScalar in H. pose proof (M_cws s) as Hs. set (s1 := cws s) in *.
  destruct (eod s1) eqn:Ed; [injection H as _ <-; lia|].
  destruct ((linesLeft s1 <? linesLeft s)%nat && notDeeper (currentIndent [sp] s1) ind); [injection H as _ <-; lia|].
  destruct (_ && _).
  - set (s2 := consumeSpaces (if negb (startsWith (lit "-") (consume 1 s1)) then consume 1 s1 else consume 1 (consume 1 s1))) in *.
    assert (H2 : (M s2 <= M s1)%nat).
    { unfold s2. pose proof (M_consume 1 s1). pose proof (M_consume 1 (consume 1 s1)). destruct (negb _); match goal with |- (M (consumeSpaces ?x) <= _)%nat => pose proof (M_spaces x) end; lia. }
    assert (H2n : (sum (nxt s2) <= M s2)%nat).
    { destruct (M_nxt s2) as [|N]; auto. exfalso. unfold s2 in N. unfold eod in Ed. destruct s1 as [[[f r]|] x]; [|discriminate].
      cbn in N. destruct (negb _); discriminate. }
    destruct (match findString (YamlModel.rem s2) [] with Some (_, n) => _ | None => _ end); [discriminate|].
    destruct (blockLines _ _ _ _ _) as [[t s3]|] eqn:E; [|discriminate]. injection H as _ <-.
    apply M_blockLines in E. pose proof (M_spaces s3). lia.
  - destruct (parsePlainScalar F tg [] s1) as [[v1 s2]|] eqn:E; [|discriminate]. apply M_plain in E.
    destruct (_ && _); [discriminate|]. injection H as _ <-. pose proof (M_next (consumeSpaces s2)). pose proof (M_spaces s2). lia.
Qed.

Definition fine (n : nat) (r : res (val * st)) : Prop := match r with Fuel => False | Err => True | Ok p => (M (snd p) <= n)%nat end.

Lemma flow_fine : forall f F asMap tg parent start am al s, (M s < f)%nat -> fine (M s) (flow F f asMap tg parent start am al s).
Proof.
  induction f as [|f IH]; intros F asMap tg parent start am al s H; [lia|]. cbn [flow].
  destruct (eod s); [cbn; lia|]. pose proof (M_cws s) as Hc. set (s1 := cws s) in *.
  destruct (eod s1); [exact I|].
  destruct (startsWith (if asMap then lit "}" else lit "]") s1); [cbn; pose proof (M_consume 1 s1); lia|].
  destruct (_ && _); [exact I|].
  assert (Hk : match (if asMap then ofOpt (option_map (fun p => (fst p, cws (snd p))) (parseKey s1)) else Ok ([], s1)) with
               | Ok ks => (M (snd ks) <= M s1)%nat | Err => True | Fuel => False end).
  { destruct asMap; [|cbn; lia]. destruct (parseKey s1) as [[k s2]|] eqn:E; cbn; auto. apply M_parseKey in E. pose proof (M_cws s2). lia. }
  destruct (if asMap then _ else _) as [[k s2]| |]; cbn [bind]; [|exact I|destruct Hk]. cbn [snd fst] in *.
  destruct (parseTag s2) as [[t s3]|] eqn:Et; cbn [ofOpt bind]; [|exact I]. apply M_parseTag in Et. cbn [fst snd].
  destruct (isTagged tg && isTagged t); [exact I|]. pose proof (M_cws s3) as Hc3. set (s4 := cws s3) in *.
  set (lt := if isTagged t then t else tg).
  assert (Hv : fine (M s4) (if startsWith (lit "[") s4 then flow F f false lt parent (linesLeft s4) [] [] (consume 1 s4)
                  else if startsWith (lit "{") s4 then flow F f true lt parent (linesLeft s4) [] [] (consume 1 s4)
                  else ofOpt (parsePlainScalar F lt (if asMap then lit ",}" else lit ",]") s4))).
  { destruct (startsWith (lit "[") s4) eqn:E1; [|destruct (startsWith (lit "{") s4) eqn:E2].
    - pose proof (M_consume_lt 1 s4 (starts_eol _ _ E1) ltac:(lia)) as Hl.
      pose proof (IH F false lt parent (linesLeft s4) [] [] (consume 1 s4) ltac:(lia)) as R. destruct (flow _ _ _ _ _ _ _ _ _); cbn in *; auto; lia.
    - pose proof (M_consume_lt 1 s4 (starts_eol _ _ E2) ltac:(lia)) as Hl.
      pose proof (IH F true lt parent (linesLeft s4) [] [] (consume 1 s4) ltac:(lia)) as R. destruct (flow _ _ _ _ _ _ _ _ _); cbn in *; auto; lia.
    - destruct (parsePlainScalar _ _ _ s4) as [[v s5]|] eqn:E3; cbn; auto. eapply M_plain; eauto. }
  destruct (if startsWith (lit "[") s4 then _ else _) as [[v s5]| |]; cbn [bind fine fst snd] in *; [|exact I|destruct Hv].
  pose proof (M_cws s5) as Hc5. set (s6 := cws s5) in *.
  destruct (startsWith (lit ",") s6) eqn:E6.
  - pose proof (M_consume_lt 1 s6 (starts_eol _ _ E6) ltac:(lia)) as Hl.
    match goal with |- fine _ (flow F f asMap tg parent start ?a ?b _) => pose proof (IH F asMap tg parent start a b (consume 1 s6) ltac:(lia)) as R;
      destruct (flow F f asMap tg parent start a b (consume 1 s6)); cbn in *; auto; lia end.
  - destruct (startsWith (if asMap then lit "}" else lit "]") s6); [|exact I]. cbn. pose proof (M_consume 1 s6). lia.
Qed.

Lemma block_fine : forall f F asMap start first tg parent am al s, (M s < f)%nat -> fine (M s) (block F f asMap start first tg parent am al s).
Proof.
  assert (Hw : forall n m r, (n <= m)%nat -> fine n r -> fine m r) by (intros n m [] ? ?; cbn in *; auto; lia).
  induction f as [|f IH]; intros F asMap start first tg parent am al s H; [lia|]. cbn [block].
  set (sa := if start then cws s else s). assert (Ha : (M sa <= M s)%nat) by (unfold sa; destruct start; [apply M_cws|lia]).
  destruct (start && startsWith _ sa) eqn:E0.
  { apply andb_true_iff in E0. destruct E0 as [_ E0]. pose proof (M_consume_lt 1 sa (starts_eol _ _ E0) ltac:(lia)) as Hl.
    match goal with |- fine _ (flowLine (flow F f ?a ?b ?c ?d [] [] ?e)) => pose proof (flow_fine f F a b c d [] [] e ltac:(lia)) as R; destruct (flow F f a b c d [] [] e) as [[v s1]| |] end;
      cbn in *; auto. pose proof (M_next s1). lia. }
  destruct (eod sa); [cbn; lia|]. destruct (asMap && _); [exact I|].
  pose proof (M_cws sa) as Hc. set (s1 := cws sa) in *.
  destruct (eod s1) eqn:Ed; [cbn; lia|].
  destruct (isIgnorableLine (full s1)). { pose proof (M_next_lt s1 Ed). eapply Hw; [|apply IH]; lia. }
  destruct (currentIndent _ s1) as [n|]. 2: { pose proof (M_next_lt s1 Ed). eapply Hw; [|apply IH]; lia. }
  destruct (notDeeper (Some n) parent); [cbn; lia|]. set (ind := Z.of_nat n).
  destruct asMap.
  - destruct (parseKey s1) as [[k s2]|] eqn:Ek; cbn [ofOpt bind]; [|exact I]. apply M_parseKey in Ek. cbn [fst snd].
    pose proof (M_spaces s2) as H2. destruct (parseTag (consumeSpaces s2)) as [[t s3]|] eqn:Et; cbn [ofOpt bind fst snd]; [|exact I].
    apply M_parseTag in Et. pose proof (M_spaces s3) as H3. set (s4 := consumeSpaces s3) in *.
    assert (Hv : fine (M s4) (match peek s4 ind with
                        | KList => block F f false true true t ind [] [] s4
                        | KMap => if isTagged t then Err else block F f true true true NoTag ind [] [] s4
                        | KScalar => ofOpt (parseScalar F t ind s4)
                        end)).
    { destruct (peek s4 ind); [apply IH; lia|destruct (isTagged t); [exact I|apply IH; lia]|].
      destruct (parseScalar F t ind s4) as [[v s5]|] eqn:E5; cbn; auto. eapply M_scalar; eauto. }
    destruct (match peek s4 ind with KList => _ | KMap => _ | KScalar => _ end) as [[v s5]| |]; cbn [bind fine fst snd] in *; [|exact I|destruct Hv].
    eapply Hw; [|apply IH]; lia.
  - destruct (negb (startsWith (lit "-") s1)) eqn:Es; [exact I|]. apply negb_false_iff in Es.
    pose proof (M_consume_lt 1 s1 (starts_eol _ _ Es) ltac:(lia)) as Hl. set (s2 := consume 1 s1) in *.
    pose proof (M_spaces s2) as H2. destruct (parseTag (consumeSpaces s2)) as [[t s3]|] eqn:Et; cbn [ofOpt bind fst snd]; [|exact I].
    apply M_parseTag in Et. destruct (isTagged tg && isTagged t); [exact I|].
    pose proof (M_spaces s3) as H3. set (s4 := consumeSpaces s3) in *. set (lt := if isTagged tg then tg else t).
    assert (Hv : fine (M s4) (match peek s4 ind with
                          | KList => if isTagged tg then Err else block F f false true true lt ind [] [] s4
                          | KMap => if isTagged t then Err else block F f true true true NoTag ind [] [] s4
                          | KScalar => ofOpt (parseScalar F lt ind s4)
                          end)).
    { destruct (peek s4 ind); [destruct (isTagged tg); [exact I|apply IH; lia]|destruct (isTagged t); [exact I|apply IH; lia]|].
      destruct (parseScalar F lt ind s4) as [[v s5]|] eqn:E5; cbn; auto. eapply M_scalar; eauto. }
    destruct (match peek s4 ind with KList => _ | KMap => _ | KScalar => _ end) as [[v s5]| |]; cbn [bind fine fst snd] in *; [|exact I|destruct Hv].
    eapply Hw; [|apply IH]; lia.
Qed.

Lemma sum_splitAux : forall sep t cur, (sum (splitAux sep cur t) <= List.length cur + List.length t + 1)%nat.
Proof.
  induction t as [|c t IH]; intros cur; cbn [splitAux].
  - destruct cur as [|x cur]; [cbn; lia|]. cbn [sum]. rewrite rev_length. cbn. lia.
  - destruct (Ascii.eqb c sep).
    + cbn [sum]. rewrite rev_length. specialize (IH []). cbn in *. lia.
    + specialize (IH (c :: cur)). cbn in *. lia.
Qed.

Lemma deserializeWith_enough : forall F t f, (List.length t + 2 <= f)%nat -> deserializeWith F f t <> Fuel.
Proof.
  intros F t f Hf. unfold deserializeWith. set (s := cws (atLines (split nl t))).
  assert (Hs : (M s < List.length t + 2)%nat).
  { unfold s. pose proof (M_cws (atLines (split nl t))) as H. rewrite M_atLines in H. pose proof (sum_splitAux nl t []). unfold split in *. cbn in *. lia. }
  assert (Hs' : (M (if startsWith (lit "---") s then consume 3 s else s) < List.length t + 2)%nat) by (destruct (startsWith _ s); auto; pose proof (M_consume 3 s); lia).
  set (s' := if startsWith (lit "---") s then consume 3 s else s) in *.
  pose proof (block_fine f F true true true NoTag (-1) [] [] s' ltac:(lia)) as B.
  destruct (block F f true true true NoTag (-1) [] [] s') as [[v s1]| |]; cbn in *; [|discriminate|destruct B].
  destruct v; discriminate.
Qed.

(** An answer found with some fuel is the answer. *)
Lemma deserialize_with : forall F t f m, deserializeWith F f t = Ok m -> deserialize F t = Ok m.
Proof.
  intros F t f m H. unfold deserialize.
  assert (E : deserializeWith F (2 * List.length t + 3) t = deserializeWith F (Nat.max f (2 * List.length t + 3)) t).
  { unfold deserializeWith. f_equal. symmetry. apply block_mono; [lia|]. intros E.
    apply (deserializeWith_enough F t (2 * List.length t + 3)); [lia|]. unfold deserializeWith. rewrite E. reflexivity. }
  rewrite E, <- H. unfold deserializeWith in *. f_equal. apply block_mono; [lia|]. intros E'. rewrite E' in H. discriminate.
Qed.
