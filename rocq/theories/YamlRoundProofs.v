(** Writing a value and reading it back. *)
From Coq Require Import List NArith ZArith Ascii String Bool Lia Arith.
From Verif Require Import YamlModel YamlSpec YamlTextProofs YamlScalProofs YamlFuelProofs.
Import ListNotations.

Definition val_nested (P : val -> Prop) (HNull : P VNull) (HS : forall s, P (VS s)) (HStr : forall t, P (VStr t))
  (HMap : forall m, Forall (fun kv => P (snd kv)) m -> P (VMap m)) (HTen : forall ty e xs, P (VTen ty e xs))
  (HList : forall vs, Forall P vs -> P (VList vs)) (HStrs : forall ts, P (VStrs ts)) : forall v, P v :=
  fix val_nested (v : val) : P v :=
    match v with
    | VNull => HNull
    | VS s => HS s
    | VStr t => HStr t
    | VMap m => HMap m ((fix go m := match m return Forall (fun kv => P (snd kv)) m with [] => Forall_nil _ | kv :: r => Forall_cons kv (val_nested (snd kv)) (go r) end) m)
    | VTen ty e xs => HTen ty e xs
    | VList vs => HList vs ((fix go l := match l return Forall P l with [] => Forall_nil _ | x :: r => Forall_cons x (val_nested x) (go r) end) vs)
    | VStrs ts => HStrs ts
    end.

(** The text that continues the current line, and the lines after it. *)
Definition head (F : ffmt) (v : val) : text :=
  match v with
  | VNull => lit "!!null null"
  | VS s => tagOf (typeOf s) ++ sp :: showScal F s
  | VStr t => sp :: (if multiline t then lit "|" ++ (if endsWith nl t then [] else lit "-") else quo :: escapeString true t ++ [quo])
  | VMap m => match m with [] => lit " {}" | _ => [] end
  | VTen ty _ xs => tagOf ty ++ match xs with [] => lit " []" | _ => [] end
  | VList vs => match vs with [] => lit " []" | _ => [] end
  | VStrs _ => []
  end.
Fixpoint tail (F : ffmt) (L : nat) (v : val) : list text :=
  match v with
  | VStr t => if multiline t then map (fun l => indent L ++ escapeString false l) (split nl t) else []
  | VMap m => flat_map (fun kv => (indent L ++ keyText (fst kv) ++ head F (snd kv)) :: tail F (S L) (snd kv)) m
  | VTen _ _ xs => map (fun s => indent L ++ lit "- " ++ showScal F s) xs
  | VList vs => flat_map (fun x => (indent L ++ lit "- " ++ head F x) :: tail F (S L) x) vs
  | _ => []
  end.

Lemma unlines_app : forall a b, unlines (a ++ b) = unlines a ++ unlines b.
Proof. intros. unfold unlines. apply flat_map_app. Qed.
Lemma unlines_cons : forall l b, unlines (l :: b) = l ++ nl :: unlines b.
Proof. intros. unfold unlines. cbn [flat_map]. rewrite <- app_assoc. reflexivity. Qed.

Lemma ser_lines : forall F v L, good F v -> ser F true L v = head F v ++ nl :: unlines (tail F L v).
Proof.
  intros F v. induction v as [|s|t|m IH|ty e xs|vs IH|ts] using val_nested; intros L G; cbn [ser head tail].
  - reflexivity.
  - rewrite <- !app_assoc. reflexivity.
  - unfold serializeString. destruct (multiline t).
    + cbn [app]. f_equal. rewrite <- !app_assoc. do 2 f_equal. cbn [app]. f_equal.
      induction (split nl t) as [|l ls IHl]; auto. cbn [map flat_map]. rewrite unlines_cons, IHl, <- !app_assoc. reflexivity.
    + cbn [app]. do 2 f_equal. rewrite <- app_assoc. reflexivity.
  - destruct m as [|kv m]; [reflexivity|]. cbn [app]. f_equal. inversion G as [| | |m' _ _ Gm| |]; subst m'. remember (kv :: m) as m0. clear Heqm0 G.
    induction m0 as [|[k v] m0 IHm]; auto. cbn [flat_map fst snd]. rewrite unlines_app, IHm; [|apply (Forall_inv_tail IH)|apply (Forall_inv_tail Gm)].
    rewrite unlines_cons. rewrite (Forall_inv IH _ (Forall_inv Gm)). cbn [snd]. rewrite <- !app_assoc. reflexivity.
  - destruct xs as [|s xs]; [rewrite <- app_assoc; reflexivity|]. rewrite app_nil_r. f_equal. cbn [app]. f_equal. remember (s :: xs) as ys. clear.
    induction ys as [|y ys IH]; auto. cbn [map flat_map]. rewrite unlines_cons, IH, <- !app_assoc. reflexivity.
  - destruct vs as [|v vs]; [reflexivity|]. cbn [app]. f_equal. inversion G as [| | | | |vs' Gm]; subst vs'. remember (v :: vs) as m0. clear Heqm0 G.
    induction m0 as [|x m0 IHm]; auto. cbn [flat_map]. rewrite unlines_app, IHm; [|apply (Forall_inv_tail IH)|apply (Forall_inv_tail Gm)].
    rewrite unlines_cons. rewrite (Forall_inv IH _ (Forall_inv Gm)). rewrite <- !app_assoc. reflexivity.
  - inversion G.
Qed.

Lemma tagOf_noNl : forall ty, ~ In nl (tagOf ty).
Proof. intros [| [] | | | |]; cbn; intuition discriminate. Qed.
Lemma indent_noNl : forall n, ~ In nl (indent n).
Proof. intros n H. apply repeat_spec in H. discriminate. Qed.
Lemma raw_noNl : forall k, rawKey k = true -> ~ In nl k.
Proof.
  intros k H Hi. unfold rawKey in H. apply andb_true_iff in H. destruct H as [_ H]. rewrite forallb_forall in H. apply H in Hi. discriminate.
Qed.
Lemma keyText_noNl : forall k, ~ In nl (keyText k).
Proof.
  intros k H. unfold keyText in H. apply in_app_or in H. destruct H as [H|H]; [|cbn in H; intuition discriminate].
  destruct (rawKey k) eqn:E; [now apply (raw_noNl k)|]. destruct H as [H|H]; [discriminate|].
  apply in_app_or in H. destruct H as [H|H]; [now apply escape_noNl in H|]. cbn in H. intuition discriminate.
Qed.
Lemma show_noNl : forall F s, goodScal F s -> ~ In nl (showScal F s).
Proof. intros F s G H. destruct (showScal_text F s G) as [Hc _]. rewrite Forall_forall in Hc. apply Hc in H. discriminate. Qed.

Lemma noNl_app : forall a b : text, ~ In nl a -> ~ In nl b -> ~ In nl (a ++ b).
Proof. intros a b Ha Hb H. apply in_app_or in H. tauto. Qed.
Lemma noNl_cons : forall c (b : text), c <> nl -> ~ In nl b -> ~ In nl (c :: b).
Proof. intros c b Ha Hb [H|H]; auto. Qed.
Lemma noNl_nil : ~ In nl []. Proof. auto. Qed.

Lemma lines_noNl : forall F v L, good F v -> ~ In nl (head F v) /\ Forall (fun l => ~ In nl l) (tail F L v).
Proof.
  intros F v. induction v as [|s|t|m IH|ty e xs|vs IH|ts] using val_nested; intros L G; cbn [head tail].
  - split; [cbn; intuition discriminate|constructor].
  - inversion G. split; [|constructor]. apply noNl_app; [apply tagOf_noNl|]. apply noNl_cons; [discriminate|]. now apply show_noNl.
  - destruct (multiline t) eqn:Em.
    + split; [apply noNl_cons; [discriminate|]; destruct (endsWith nl t); cbn; intuition discriminate|].
      inversion G as [| |t' Gs| | |]. subst t'. destruct (multi_lines t Em Gs) as [_ He]. apply Forall_forall. intros l Hl. apply in_map_iff in Hl.
      destruct Hl as [x [<- Hx]]. apply noNl_app; [apply indent_noNl|]. rewrite Forall_forall in He. rewrite (He x Hx).
      pose proof (split_lines_noNl t [] (fun x => x)) as Hn. rewrite Forall_forall in Hn. apply Hn, Hx.
    + split; [|constructor]. apply noNl_cons; [discriminate|]. apply noNl_cons; [discriminate|]. apply noNl_app; [apply escape_noNl|]. cbn. intuition discriminate.
  - split; [destruct m; cbn; intuition discriminate|]. inversion G as [| | |m' _ _ Gm| |]; subst m'. clear G.
    induction m as [|[k v] m IHm]; [constructor|]. cbn [flat_map app fst snd]. destruct (Forall_inv IH (S L) (Forall_inv Gm)) as [H1 H2]. cbn [snd] in *.
    constructor; [apply noNl_app; [apply indent_noNl|apply noNl_app; [apply keyText_noNl|auto]]|].
    apply Forall_app. split; auto. apply IHm; [apply (Forall_inv_tail IH)|apply (Forall_inv_tail Gm)].
  - split; [apply noNl_app; [apply tagOf_noNl|destruct xs; cbn; intuition discriminate]|]. inversion G as [| | | |ty' xs' Gx|]; subst.
    apply Forall_forall. intros l Hl. apply in_map_iff in Hl. destruct Hl as [s [<- Hs]]. apply noNl_app; [apply indent_noNl|]. apply noNl_app; [cbn; intuition discriminate|].
    rewrite Forall_forall in Gx. apply show_noNl, Gx, Hs.
  - split; [destruct vs; cbn; intuition discriminate|]. inversion G as [| | | | |vs' Gm]; subst vs'. clear G.
    induction vs as [|v m IHm]; [constructor|]. cbn [flat_map app]. destruct (Forall_inv IH (S L) (Forall_inv Gm)) as [H1 H2].
    constructor; [apply noNl_app; [apply indent_noNl|apply noNl_app; [cbn; intuition discriminate|auto]]|].
    apply Forall_app. split; auto. apply IHm; [apply (Forall_inv_tail IH)|apply (Forall_inv_tail Gm)].
  - inversion G.
Qed.

(* ------------------------------------------------------------------ positions *)

Definition at_ (fl r : text) (nx : list text) : st := mkSt (Some (fl, r)) nx.

Lemma cws_at : forall fl c r nx, c <> sp -> c <> hash -> cws (at_ fl (c :: r) nx) = at_ fl (c :: r) nx.
Proof. intros. unfold cws, at_. cbn [cur nxt]. rewrite dropSpaces_id by auto. now rewrite eqb_false. Qed.
Lemma cws_nil : forall fl nx, cws (at_ fl [] nx) = skipL nx.
Proof. reflexivity. Qed.
Lemma skipL_line : forall n c t m, c <> sp -> c <> hash -> skipL ((repeat sp n ++ c :: t) :: m) = at_ (repeat sp n ++ c :: t) (c :: t) m.
Proof. intros. cbn [skipL]. rewrite dropSpaces_repeat, dropSpaces_id by auto. now rewrite eqb_false. Qed.
Lemma spaces_at : forall fl n r nx, consumeSpaces (at_ fl (repeat sp n ++ r) nx) = consumeSpaces (at_ fl r nx).
Proof. intros. unfold consumeSpaces, at_. cbn [cur]. now rewrite dropSpaces_repeat. Qed.
Lemma spaces_sp : forall fl r nx, consumeSpaces (at_ fl (sp :: r) nx) = consumeSpaces (at_ fl r nx).
Proof. intros. apply (spaces_at fl 1). Qed.
Lemma spaces_id : forall fl c r nx, c <> sp -> consumeSpaces (at_ fl (c :: r) nx) = at_ fl (c :: r) nx.
Proof. intros. unfold consumeSpaces, at_. cbn [cur nxt]. now rewrite dropSpaces_id. Qed.
Lemma consume_app : forall fl a r nx, consume (List.length a) (at_ fl (a ++ r) nx) = at_ fl r nx.
Proof. intros. unfold consume, at_. cbn [cur nxt]. rewrite skipn_app, skipn_all, Nat.sub_diag. reflexivity. Qed.
Lemma startsWith_at : forall p fl r nx, p <> [] -> startsWith p (at_ fl r nx) = starts p r.
Proof. intros p fl r nx H. unfold startsWith, eol, YamlModel.rem, at_. cbn [cur]. destruct r; auto. destruct p; [congruence|reflexivity]. Qed.
Lemma starts_first : forall p c r x, p = x :: [] -> x <> c -> starts p (c :: r) = false.
Proof. intros p c r x -> H. cbn. now rewrite eqb_false. Qed.
Lemma starts_no : forall x p c r, x <> c -> starts (x :: p) (c :: r) = false.
Proof. intros. cbn. now rewrite eqb_false. Qed.

(* ------------------------------------------------------------------ keys *)

Lemma raw_plain : forall k, goodKey k -> rawKey k = true -> plainKey k /\ Forall (fun c => isprint c = true) k /\ ~ In colon k.
Proof.
  intros k G H. unfold rawKey in H. apply andb_true_iff in H. destruct H as [H1 H2].
  assert (Hc : ~ In colon k).
  { intros Hi. apply negb_true_iff in H1. assert (existsb (Ascii.eqb colon) k = true); [|congruence].
    apply existsb_exists. exists colon. split; auto. }
  assert (Hp : Forall (fun c => isprint c = true) k) by (apply Forall_forall; intros c Hi; rewrite forallb_forall in H2; auto).
  split; auto. destruct G as [[G|[c [Hi Hn]]]|G]; auto; [contradiction|]. exfalso. apply Hn.
  rewrite Forall_forall in Hp. apply Hp in Hi. unfold isprint, code in Hi. apply andb_true_iff in Hi. destruct Hi as [A B].
  apply N.leb_le in A, B. split; auto.
Qed.

Definition plainStart (c : ascii) : Prop :=
  isspace c = false /\ iscntrl c = false /\ c <> sp /\ c <> hash /\ c <> dash /\ c <> "["%char /\ c <> "{"%char.

Lemma print_start : forall c, isprint c = true -> ~ In c [" "; "-"; """"; "'"; "["; "{"]%char -> c <> hash ->
  plainStart c /\ c <> quo /\ c <> apo.
Proof.
  intros c Hp Hn Hh. unfold plainStart. cbn [In] in Hn.
  assert (c <> sp) by (intros ->; tauto). assert (c <> dash) by (intros ->; tauto). assert (c <> quo) by (intros ->; tauto).
  assert (c <> apo) by (intros ->; tauto). assert (c <> "["%char) by (intros ->; tauto). assert (c <> "{"%char) by (intros ->; tauto).
  split; [|split]; auto. split; [|split; [|tauto]].
  - revert Hp H. clear. chars c; intros H; vm_compute in H; try discriminate H; try reflexivity. intros E. exfalso. apply E. reflexivity.
  - revert Hp. clear. chars c; intros H; vm_compute in H; try discriminate H; reflexivity.
Qed.

Lemma keyText_start : forall k, goodKey k -> exists c t, keyText k = c :: t /\ plainStart c.
Proof.
  intros k G. unfold keyText. destruct (rawKey k) eqn:E.
  - destruct (raw_plain k G E) as [[H1 [H2 H3]] [Hp Hc]]. destruct k as [|c k].
    + exists colon, [sp]. split; [reflexivity|]. repeat split; try reflexivity; discriminate.
    + exists c, (k ++ lit ": "). split; [reflexivity|]. apply print_start.
      * apply (Forall_inv Hp).
      * eapply H2. reflexivity.
      * intros ->. apply H1. now left.
  - eexists _, _. split; [reflexivity|]. repeat split; try reflexivity; discriminate.
Qed.

Lemma colonPos_at : forall k r, ~ In colon k -> colonPos (k ++ colon :: sp :: r) = Some (List.length k).
Proof.
  induction k as [|c k IH]; intros r H; [reflexivity|]. cbn [app colonPos]. rewrite (eqb_false c colon) by (intros ->; apply H; now left).
  cbn [andb]. rewrite IH by (intros Hi; apply H; now right). reflexivity.
Qed.

Lemma parseKey_ok : forall k fl h nx, goodKey k -> parseKey (at_ fl (keyText k ++ h) nx) = Some (k, at_ fl (sp :: h) nx).
Proof.
  intros k fl h nx G. destruct (keyText_start k G) as [c0 [t0 [E0 S0]]]. unfold parseKey.
  assert (Es : consumeSpaces (at_ fl (keyText k ++ h) nx) = at_ fl (keyText k ++ h) nx).
  { rewrite E0. cbn [app]. apply spaces_id. apply S0. }
  rewrite Es, startsWith_at by discriminate.
  replace (starts (lit "-") (keyText k ++ h)) with false.
  2: { rewrite E0. symmetry. apply starts_no. destruct S0 as [_ [_ [_ [_ [D _]]]]]. auto. }
  unfold YamlModel.rem. cbn [at_ cur]. clear Es E0 S0 c0 t0. unfold keyText. destruct (rawKey k) eqn:Er.
  - destruct (raw_plain k G Er) as [[H1 [H2 H3]] [Hp Hc]].
    rewrite <- app_assoc. cbn [lit list_ascii_of_string app].
    assert (Ef : exists n, findString (k ++ colon :: sp :: h) [] = Some (false, n)).
    { unfold findString. destruct k as [|c k].
      - cbn [app]. replace (Ascii.eqb colon quo || Ascii.eqb colon apo) with false by reflexivity.
        destruct (findBy (member []) (colon :: sp :: h)); eauto. destruct (findBy (Ascii.eqb hash) (colon :: sp :: h)); eauto.
      - cbn [app]. destruct (print_start c (Forall_inv Hp)) as [_ [Hq Ha]]; [eapply H2; reflexivity|intros ->; apply H1; now left|].
        rewrite (eqb_false c quo), (eqb_false c apo) by auto. cbn [orb].
        destruct (findBy (member []) (c :: k ++ colon :: sp :: h)); eauto. destruct (findBy (Ascii.eqb hash) (c :: k ++ colon :: sp :: h)); eauto. }
    destruct Ef as [n Ef]. change ":"%char with colon. change " "%char with sp. rewrite Ef, colonPos_at by auto.
    replace (match findBy (Ascii.eqb hash) (k ++ colon :: sp :: h) with Some x => (x <? List.length k)%nat | None => false end) with false.
    2: { rewrite findBy_app.
         - destruct (findBy (Ascii.eqb hash) (colon :: sp :: h)); auto. cbn [option_map]. symmetry. apply Nat.ltb_ge. lia.
         - apply Forall_forall. intros c Hi. apply eqb_false. intros <-. contradiction. }
    rewrite firstn_app, firstn_all, Nat.sub_diag, firstn_O, app_nil_r.
    replace (trim k) with k.
    + do 2 f_equal. replace (k ++ colon :: sp :: h) with ((k ++ [colon]) ++ sp :: h) by (rewrite <- app_assoc; reflexivity).
      replace (List.length k + 1)%nat with (List.length (k ++ [colon])) by (rewrite app_length; reflexivity). apply consume_app.
    + symmetry. apply trim_id.
      * intros c r ->. destruct (print_start c (Forall_inv Hp)) as [[Hs _] _]; [eapply H2; reflexivity|intros ->; apply H1; now left|exact Hs].
      * intros c r ->. specialize (H3 c r eq_refl). apply Forall_app in Hp. destruct Hp as [_ Hp]. pose proof (Forall_inv Hp) as Hc'. cbn in Hc'. clear - H3 Hc'.
        revert H3 Hc'. chars c; intros Hn H; vm_compute in H; try discriminate H; try reflexivity. exfalso. apply Hn. reflexivity.
  - cbn [lit list_ascii_of_string]. rewrite <- app_assoc. cbn [app]. rewrite <- app_assoc. cbn [app].
    unfold findString. rewrite Ascii.eqb_refl. cbn [orb]. rewrite closing_escape. cbn [skipn].
    rewrite firstn_app, firstn_all, Nat.sub_diag, firstn_O, app_nil_r, resolve_escape.
    assert (Ec : consume (2 + List.length (escapeString true k)) (at_ fl (quo :: escapeString true k ++ quo :: ":"%char :: sp :: h) nx) = at_ fl (colon :: sp :: h) nx).
    { replace (quo :: escapeString true k ++ quo :: ":"%char :: sp :: h) with ((quo :: escapeString true k ++ [quo]) ++ colon :: sp :: h) by (cbn; rewrite <- app_assoc; reflexivity).
      replace (2 + List.length (escapeString true k))%nat with (List.length (quo :: escapeString true k ++ [quo])) by (cbn; rewrite app_length; cbn; lia). apply consume_app. }
    change " "%char with sp. rewrite Ec. rewrite spaces_id by discriminate. reflexivity.
Qed.

(* ------------------------------------------------------------------ lines of a document *)

Lemma ind_at : forall chars n c t, c <> sp -> (chars = lit " -" \/ chars = lit " ") -> c <> dash ->
  findBy (fun c => negb (member chars c)) (repeat sp n ++ c :: t) = Some n.
Proof.
  intros chars n c t Hs Hch Hd. rewrite findBy_at.
  - now rewrite repeat_length.
  - apply Forall_forall. intros x Hx. apply repeat_spec in Hx. subst. destruct Hch as [ -> | -> ]; reflexivity.
  - destruct Hch as [ -> | -> ]; cbn; rewrite ?(eqb_false c sp), ?(eqb_false c dash); auto.
    + rewrite (eqb_false c " "), (eqb_false c "-"); auto.
    + rewrite (eqb_false c " "); auto.
Qed.
Lemma ind_at_sp : forall n c t, c <> sp -> findBy (fun c => negb (member (lit " ") c)) (repeat sp n ++ c :: t) = Some n.
Proof.
  intros n c t Hs. rewrite findBy_at.
  - now rewrite repeat_length.
  - apply Forall_forall. intros x Hx. apply repeat_spec in Hx. subst. reflexivity.
  - cbn. rewrite (eqb_false c " "); auto.
Qed.
Lemma ignorable_no : forall n c t, isspace c = false -> iscntrl c = false -> c <> hash -> isIgnorableLine (repeat sp n ++ c :: t) = false.
Proof.
  induction n; intros c t H1 H2 H3; cbn [repeat app isIgnorableLine].
  - rewrite H1, H2. cbn. now apply eqb_false.
  - replace (isspace sp || iscntrl sp) with true by reflexivity. apply IHn; auto.
Qed.

(** A position at the beginning of what is left: at column 0 or at the first character. *)
Definition atRest (s : st) (rest : list text) : Prop := s = atLines rest \/ s = consumeSpaces (atLines rest).

Lemma rest_line : forall s n c t m, c <> sp -> c <> hash -> atRest s ((repeat sp n ++ c :: t) :: m) ->
  cws s = at_ (repeat sp n ++ c :: t) (c :: t) m /\ eod s = false /\ (starts (lit "---") (c :: t) = false -> startsWith (lit "---") s = false).
Proof.
  intros s n c t m Hs Hh [ -> | -> ]; cbn [atLines].
  - split; [|split; [reflexivity|]].
    + unfold cws. cbn [cur nxt]. rewrite dropSpaces_repeat, dropSpaces_id by auto. now rewrite eqb_false.
    + intros H. change (mkSt (Some (repeat sp n ++ c :: t, repeat sp n ++ c :: t)) m) with (at_ (repeat sp n ++ c :: t) (repeat sp n ++ c :: t) m).
      rewrite startsWith_at by discriminate. destruct n; auto.
  - change (mkSt (Some (repeat sp n ++ c :: t, repeat sp n ++ c :: t)) m) with (at_ (repeat sp n ++ c :: t) (repeat sp n ++ c :: t) m).
    rewrite spaces_at, spaces_id by auto. split; [now apply cws_at|]. split; [reflexivity|]. intros H. now rewrite startsWith_at.
Qed.

Lemma rest_nil : forall s, atRest s [] -> s = mkSt None [].
Proof. intros s [ -> | -> ]; reflexivity. Qed.

(** What follows a map or a list: nothing, or a line that is not deeper than the parent. *)
Definition ends (parent : Z) (rest : list text) : Prop := rest = [] \/ exists l, parent = Z.of_nat l /\ stopsAt l rest.

Lemma atRest_cws : forall s rest l, stopsAt l rest -> atRest s rest -> atRest (cws s) rest.
Proof.
  intros s rest l H R. destruct H as [ -> | [n [c [t [m [ -> [Hn [Hc [Hi [Hh _]]]]]]]]] ].
  - apply rest_nil in R. subst. now left.
  - destruct (rest_line s n c t m) as [-> _]; auto; [intros ->; discriminate|]. right. cbn [atLines].
    change (mkSt (Some (repeat sp n ++ c :: t, repeat sp n ++ c :: t)) m) with (at_ (repeat sp n ++ c :: t) (repeat sp n ++ c :: t) m).
    rewrite spaces_at, spaces_id; auto. intros ->; discriminate.
Qed.

(** The parser for the value after a key or a dash without a type for the list. *)
Definition valueAt (F : ffmt) (f : nat) (t : tag) (ind : Z) (s : st) : res (val * st) :=
  match peek s ind with
  | KList => block F f false true true t ind [] [] s
  | KMap => if isTagged t then Err else block F f true true true NoTag ind [] [] s
  | KScalar => ofOpt (parseScalar F t ind s)
  end.

Definition parses (F : ffmt) (v : val) : Prop := forall L fl rest, stopsAt (2 * L) rest ->
  exists t s3 f0 s', parseTag (consumeSpaces (at_ fl (sp :: head F v) (tail F (S L) v ++ rest))) = Some (t, s3)
    /\ atRest s' rest
    /\ forall f, (f0 <= f)%nat -> valueAt F f t (Z.of_nat (2 * L)) (consumeSpaces s3) = Ok (v, s').

(** At the end of a map or list, the loop is left. *)
Lemma block_end : forall F f asMap tg parent am al s rest, ends parent rest -> atRest s rest ->
  exists s', atRest s' rest /\ block F (S f) asMap false false tg parent am al s = Ok (if asMap then VMap am else convertList tg al, s').
Proof.
  intros F f asMap tg parent am al s rest [ -> | [l [ -> H ]] ] R.
  - apply rest_nil in R. subst s. eexists. split; [|reflexivity]. now left.
  - exists (match rest with [] => s | _ => cws s end). split.
    + pose proof (atRest_cws s rest l H R). destruct rest; auto.
    + destruct H as [ -> | [n [c [t [m [ -> [Hn [Hc [Hi [Hh H3]]]]]]]]] ].
      * apply rest_nil in R. subst s. reflexivity.
      * assert (Hs : c <> sp) by (intros ->; discriminate).
        destruct (rest_line s n c t m Hs Hh R) as [E1 [E2 E3]]. specialize (E3 H3). cbn [block andb]. rewrite E2, E3, andb_false_r, E1.
        change (eod (at_ (repeat sp n ++ c :: t) (c :: t) m)) with false. cbn [at_ full cur]. rewrite ignorable_no by auto.
        unfold currentIndent. cbv iota. change (full (at_ (repeat sp n ++ c :: t) (c :: t) m)) with (repeat sp n ++ c :: t). rewrite ind_at_sp by auto.
        unfold notDeeper. replace ((0 <=? Z.of_nat l)%Z) with true by (symmetry; apply Z.leb_le; lia).
        replace ((Z.of_nat n <=? Z.of_nat l)%Z) with true by (symmetry; apply Z.leb_le; lia). reflexivity.
Qed.

Lemma notDeeper_no : forall n parent, (parent < Z.of_nat n)%Z -> notDeeper (Some n) parent = false.
Proof. intros n parent H. unfold notDeeper. rewrite (proj2 (Z.leb_gt _ _) H). apply andb_false_r. Qed.
Lemma put_new : forall m k v, ~ In k (map fst m) -> put m k v = m ++ [(k, v)].
Proof.
  induction m as [|[k' v'] m IH]; intros k v H; auto. cbn [put]. rewrite teqb_neq by (intros ->; apply H; now left).
  rewrite IH by (intros Hi; apply H; now right). reflexivity.
Qed.

Definition mapLines (F : ffmt) (L : nat) (m : list (text * val)) : list text :=
  flat_map (fun kv => (indent L ++ keyText (fst kv) ++ head F (snd kv)) :: tail F (S L) (snd kv)) m.

Lemma ends_stops : forall parent rest L, ends parent rest -> (parent < Z.of_nat (2 * L))%Z -> stopsAt (2 * L) rest.
Proof.
  intros parent rest L [ -> | [l [ -> H ]] ] Hl; [now left|]. destruct H as [ -> | [n [c [t [m [ -> [Hn Hr]]]]]] ]; [now left|].
  right. exists n, c, t, m. split; auto. split; auto. lia.
Qed.

Lemma mapLines_stops : forall F L m rest, Forall (fun kv => goodKey (fst kv)) m -> stopsAt (2 * L) rest -> stopsAt (2 * L) (mapLines F L m ++ rest).
Proof.
  intros F L [|[k v] m] rest G H; auto. pose proof (Forall_inv G) as Gk. cbn [fst] in Gk. destruct (keyText_start k Gk) as [c [t [E [S1 [S2 [S3 [S4 [S5 _]]]]]]]].
  right. exists (2 * L)%nat, c, (t ++ head F v), (tail F (S L) v ++ mapLines F L m ++ rest).
  cbn [mapLines flat_map app fst snd]. fold (mapLines F L m). split; [unfold indent; rewrite E; rewrite <- app_assoc; reflexivity|].
  split; [lia|]. split; auto. split; auto. split; auto. apply starts_no. auto.
Qed.

Lemma map_loop : forall F L parent m2 m1 first s rest,
  Forall (fun kv => goodKey (fst kv)) m2 -> Forall (fun kv => parses F (snd kv)) m2 -> NoDup (map fst (m1 ++ m2)) ->
  ends parent rest -> (parent < Z.of_nat (2 * L))%Z -> (first = true -> m2 <> []) -> atRest s (mapLines F L m2 ++ rest) ->
  exists f0 s', atRest s' rest /\ forall f, (f0 <= f)%nat -> block F f true false first NoTag parent m1 [] s = Ok (VMap (m1 ++ m2), s').
Proof.
  intros F L parent. induction m2 as [|[k v] m2 IH]; intros m1 first s rest Gk Gv Nd He Hp Hf R.
  - destruct first; [specialize (Hf eq_refl); congruence|]. cbn [mapLines flat_map app] in R.
    exists 1%nat. destruct (block_end F 0 true NoTag parent m1 [] s rest He R) as [s' [R' _]]. 
    rewrite app_nil_r.
    assert (exists s', atRest s' rest /\ forall f, block F (S f) true false false NoTag parent m1 [] s = Ok (VMap m1, s')) as [s2 [R2 E2]].
    { destruct (block_end F 0 true NoTag parent m1 [] s rest He R) as [s2 [R2 E2]]. exists s2. split; auto. intros f.
      rewrite (block_mono 1 (S f)); [exact E2|lia|rewrite E2; discriminate]. }
    exists s2. split; auto. intros f Hf'. destruct f; [lia|]. apply E2.
  - pose proof (Forall_inv Gk) as Gk1. cbn [fst] in Gk1. pose proof (Forall_inv Gv) as Gv1. cbn [snd] in Gv1.
    destruct (keyText_start k Gk1) as [c [t [E St]]]. destruct St as [S1 [S2 [S3 [S4 [S5 _]]]]].
    cbn [mapLines flat_map app fst snd] in R. fold (mapLines F L m2) in R. rewrite <- app_assoc in R.
    set (X := mapLines F L m2 ++ rest) in *. set (line := indent L ++ keyText k ++ head F v) in *.
    assert (El : line = repeat sp (2 * L) ++ c :: (t ++ head F v)) by (unfold line, indent; rewrite E; reflexivity).
    assert (HX : stopsAt (2 * L) X) by (apply mapLines_stops; [apply (Forall_inv_tail Gk)|eapply ends_stops; eauto]).
    destruct (Gv1 L line X HX) as [tg [s3 [f1 [s5 [Et [R5 Ev]]]]]].
    destruct (IH (m1 ++ [(k, v)]) false s5 rest) as [f2 [s6 [R6 E6]]]; auto.
    + apply (Forall_inv_tail Gk).
    + apply (Forall_inv_tail Gv).
    + rewrite <- app_assoc. exact Nd.
    + discriminate.
    + exists (S (Nat.max f1 f2)), s6. split; auto. intros f Hfuel. destruct f as [|f]; [lia|]. cbn [block andb].
      rewrite El in R. destruct (rest_line s (2 * L) c (t ++ head F v) (tail F (S L) v ++ X) S3 S4 R) as [C1 [C2 C3]].
      rewrite C2. rewrite C3 by (apply starts_no; auto). rewrite <- El in C1. rewrite C1.
      change (eod (at_ line (c :: t ++ head F v) (tail F (S L) v ++ X))) with false. cbv iota.
      replace (full (at_ line (c :: t ++ head F v) (tail F (S L) v ++ X))) with line by reflexivity.
      replace (isIgnorableLine line) with false by (rewrite El; symmetry; apply ignorable_no; auto).
      unfold currentIndent. replace (full (at_ line (c :: t ++ head F v) (tail F (S L) v ++ X))) with line by reflexivity.
      replace (findBy (fun c0 => negb (member (if first then lit " -" else lit " ") c0)) line) with (Some (2 * L)%nat)
        by (rewrite El; symmetry; apply ind_at; auto; destruct first; auto).
      cbv iota. rewrite notDeeper_no by lia. cbv iota.
      change (c :: t ++ head F v) with ((c :: t) ++ head F v). rewrite <- E, parseKey_ok by auto. cbn [ofOpt bind fst snd].
      rewrite Et. cbn [ofOpt bind fst snd]. fold (valueAt F f tg (Z.of_nat (2 * L)) (consumeSpaces s3)). rewrite Ev by lia. cbn [bind fst snd].
      rewrite put_new.
      * rewrite E6 by lia. rewrite <- app_assoc. reflexivity.
      * rewrite map_app in Nd. cbn [map fst] in Nd. apply NoDup_remove_2 in Nd. intros Hi. apply Nd. apply in_or_app. now left.
Qed.

(* ------------------------------------------------------------------ lists *)

(** One item of a list, the type of the list given or not. *)
Definition itemAt (F : ffmt) (f : nat) (tg : tag) (ind : Z) (s : st) : res (val * st) :=
  bind (ofOpt (parseTag (consumeSpaces s))) (fun ts =>
    if isTagged tg && isTagged (fst ts) then Err
    else
      let lt := if isTagged tg then tg else fst ts in
      let s1 := consumeSpaces (snd ts) in
      match peek s1 ind with
      | KList => if isTagged tg then Err else block F f false true true lt ind [] [] s1
      | KMap => if isTagged (fst ts) then Err else block F f true true true NoTag ind [] [] s1
      | KScalar => ofOpt (parseScalar F lt ind s1)
      end).

Definition itemParses (F : ffmt) (tg : tag) (hd : text) (tl : list text) (L : nat) (v : val) : Prop := forall fl rest, stopsAt (2 * L) rest ->
  exists f0 s', atRest s' rest /\ forall f, (f0 <= f)%nat -> itemAt F f tg (Z.of_nat (2 * L)) (at_ fl (sp :: hd) (tl ++ rest)) = Ok (v, s').

(** Items as written: text after the dash, further lines, value. *)
Definition item : Type := (text * list text * val)%type.
Definition listLines (L : nat) (its : list item) : list text := flat_map (fun it => (indent L ++ lit "- " ++ fst (fst it)) :: snd (fst it)) its.

Lemma listLines_stops : forall L its rest, stopsAt (2 * L) rest -> stopsAt (2 * L) (listLines L its ++ rest).
Proof.
  intros L [|[[h t] v] its] rest H; auto. right. exists (2 * L)%nat, dash, (sp :: h), (t ++ listLines L its ++ rest).
  cbn [listLines flat_map app fst snd]. fold (listLines L its). rewrite <- app_assoc. split; [reflexivity|]. split; [lia|]. repeat split; try reflexivity; discriminate.
Qed.

Lemma list_loop : forall F L tg parent its al first s rest,
  Forall (fun it => itemParses F tg (fst (fst it)) (snd (fst it)) L (snd it)) its ->
  ends parent rest -> (parent < Z.of_nat (2 * L))%Z -> (first = true -> its <> []) -> atRest s (listLines L its ++ rest) ->
  exists f0 s', atRest s' rest /\ forall f, (f0 <= f)%nat -> block F f false false first tg parent [] al s = Ok (convertList tg (al ++ map snd its), s').
Proof.
  intros F L tg parent. induction its as [|[[h tl] v] its IH]; intros al first s rest G He Hp Hf R.
  - destruct first; [specialize (Hf eq_refl); congruence|]. cbn [listLines flat_map app] in R. cbn [map]. rewrite app_nil_r.
    destruct (block_end F 0 false tg parent [] al s rest He R) as [s2 [R2 E2]]. exists 1%nat, s2. split; auto. intros f Hf'.
    rewrite (block_mono 1 f); [exact E2|lia|rewrite E2; discriminate].
  - pose proof (Forall_inv G) as G1. cbn [fst snd] in G1.
    cbn [listLines flat_map app fst snd] in R. fold (listLines L its) in R. rewrite <- app_assoc in R.
    set (X := listLines L its ++ rest) in *. set (line := indent L ++ lit "- " ++ h) in *.
    assert (El : line = repeat sp (2 * L) ++ dash :: (sp :: h)) by reflexivity.
    assert (HX : stopsAt (2 * L) X) by (apply listLines_stops; eapply ends_stops; eauto).
    destruct (G1 line X HX) as [f1 [s5 [R5 Ev]]].
    destruct (IH (al ++ [v]) false s5 rest) as [f2 [s6 [R6 E6]]]; auto; [apply (Forall_inv_tail G)|discriminate|].
    exists (S (Nat.max f1 f2)), s6. split; auto. intros f Hfuel. destruct f as [|f]; [lia|]. cbn [block andb].
    rewrite El in R. destruct (rest_line s (2 * L) dash (sp :: h) (tl ++ X)) as [C1 [C2 C3]]; [discriminate|discriminate|exact R|].
    rewrite C2. rewrite <- El in C1. rewrite C1.
    change (eod (at_ line (dash :: sp :: h) (tl ++ X))) with false. cbv iota.
    replace (full (at_ line (dash :: sp :: h) (tl ++ X))) with line by reflexivity.
    replace (isIgnorableLine line) with false by (rewrite El; symmetry; apply ignorable_no; (reflexivity || discriminate)).
    unfold currentIndent. replace (full (at_ line (dash :: sp :: h) (tl ++ X))) with line by reflexivity.
    replace (findBy (fun c0 => negb (member (lit " ") c0)) line) with (Some (2 * L)%nat) by (rewrite El; symmetry; apply ind_at_sp; discriminate).
    cbv iota. rewrite notDeeper_no by lia. cbv iota.
    rewrite startsWith_at by discriminate. cbn [lit list_ascii_of_string starts]. replace (Ascii.eqb "-" dash) with true by reflexivity. cbn [andb negb].
    change (consume 1 (at_ line (dash :: sp :: h) (tl ++ X))) with (at_ line (sp :: h) (tl ++ X)).
    specialize (Ev f ltac:(lia)). unfold itemAt in Ev.
    destruct (parseTag (consumeSpaces (at_ line (sp :: h) (tl ++ X)))) as [[t s3]|]; cbn [ofOpt bind fst snd] in *; [|discriminate].
    destruct (isTagged tg && isTagged t); [discriminate|]. rewrite Ev. cbn [bind fst snd]. rewrite E6 by lia. rewrite <- app_assoc. reflexivity.
Qed.

(* ------------------------------------------------------------------ scalars at their place *)

Lemma peek_scalText : forall fl t nx ind, scalText t -> peek (at_ fl t nx) ind = KScalar.
Proof.
  intros fl t nx ind [Hc [Hn Hd]]. destruct t as [|c t]; [congruence|]. destruct (clean_facts c (Forall_inv Hc)) as [F1 [F2 [F3 [F4 [F5 [F6 [F7 [F8 [F9 [F10 F11]]]]]]]]]].
  unfold peek. rewrite cws_at by auto. change (eod (at_ fl (c :: t) nx)) with false. rewrite Nat.ltb_irrefl. cbn [andb]. cbv iota.
  rewrite !startsWith_at by discriminate. cbn [lit list_ascii_of_string].
  rewrite (starts_no "["%char) by auto. rewrite (starts_no "{"%char) by auto.
  replace (starts ["-"%char; " "%char] (c :: t)) with false.
  2: { symmetry. destruct t as [|d t]; [change (Ascii.eqb dash c && false = false); apply andb_false_r|].
       destruct (clean_facts d (Forall_inv (Forall_inv_tail Hc))) as [_ [_ [D _]]].
       change (Ascii.eqb dash c && (Ascii.eqb sp d && true) = false). rewrite (eqb_false sp d) by auto. apply andb_false_r. }
  change (YamlModel.rem (at_ fl (c :: t) nx)) with (c :: t). rewrite teqb_neq by auto. cbn [orb].
  unfold parseKey. rewrite spaces_id by auto. rewrite startsWith_at by discriminate.
  destruct (starts (lit "-") (c :: t)); [reflexivity|]. change (YamlModel.rem (at_ fl (c :: t) nx)) with (c :: t).
  unfold findString. rewrite (eqb_false c quo), (eqb_false c apo) by auto. cbn [orb].
  replace (colonPos (c :: t)) with (@None nat).
  2: { symmetry. assert (H : Forall (fun x => x <> colon) (c :: t)) by (eapply Forall_impl; [|exact Hc]; intros x Hx; apply clean_facts, Hx).
       clear - H. induction (c :: t) as [|x u IH]; auto. cbn [colonPos]. rewrite (eqb_false x colon) by apply (Forall_inv H). cbn [andb]. rewrite IH; auto. apply (Forall_inv_tail H). }
  destruct (findBy (member []) (c :: t)); [reflexivity|]. destruct (findBy (Ascii.eqb hash) (c :: t)); reflexivity.
Qed.

Lemma parseScalar_tagged : forall F tg fl t nx ind v, scalText t -> match tg with NoTag | TagStr => False | _ => True end ->
  parseAs F tg t = Some v -> parseScalar F tg ind (at_ fl t nx) = Some (v, atLines nx).
Proof.
  intros F tg fl t nx ind v [Hc [Hn Hd]] Htg Hp. destruct t as [|c t]; [congruence|].
  destruct (clean_facts c (Forall_inv Hc)) as [F1 [F2 [F3 [F4 [F5 [F6 [F7 [F8 [F9 [F10 F11]]]]]]]]]].
  unfold parseScalar. rewrite cws_at by auto. change (eod (at_ fl (c :: t) nx)) with false. rewrite Nat.ltb_irrefl. cbn [andb]. cbv iota.
  replace (match tg with NoTag | TagStr => true | _ => false end) with false by (destruct tg; tauto). cbn [andb].
  unfold parsePlainScalar. change (YamlModel.rem (at_ fl (c :: t) nx)) with (c :: t).
  assert (Ef : findString (c :: t) [] = Some (false, List.length (c :: t))).
  { unfold findString. rewrite (eqb_false c quo), (eqb_false c apo) by auto. cbn [orb]. rewrite findBy_none by (apply Forall_forall; reflexivity).
    rewrite findBy_none; [reflexivity|]. eapply Forall_impl; [|exact Hc]. intros x Hx. apply clean_facts, Hx. }
  rewrite Ef. cbn [skipn]. rewrite firstn_all.
  replace (match tg with NoTag => parseUntagged F false (c :: t) | TagStr => parseAs F tg (trimAndStripComment (c :: t)) | _ => parseAs F tg (c :: t) end) with (Some v)
    by (destruct tg; try tauto; now rewrite <- Hp).
  cbn [Nat.add]. replace (consume (List.length (c :: t)) (consume 0 (at_ fl (c :: t) nx))) with (at_ fl [] nx).
  - reflexivity.
  - change (consume 0 (at_ fl (c :: t) nx)) with (at_ fl (c :: t) nx). rewrite <- (app_nil_r (c :: t)) at 2. now rewrite consume_app.
Qed.

Lemma peek_quoted : forall fl t nx ind, peek (at_ fl (quo :: escapeString true t ++ [quo]) nx) ind = KScalar.
Proof.
  intros. unfold peek. rewrite cws_at by discriminate. set (r := escapeString true t ++ [quo]).
  change (eod (at_ fl (quo :: r) nx)) with false. rewrite Nat.ltb_irrefl. cbn [andb]. cbv iota.
  rewrite !startsWith_at by discriminate. cbn [lit list_ascii_of_string].
  rewrite !starts_no by discriminate. change (YamlModel.rem (at_ fl (quo :: r) nx)) with (quo :: r). rewrite teqb_neq by discriminate. cbn [orb].
  unfold parseKey. rewrite spaces_id by discriminate. rewrite startsWith_at by discriminate. cbn [lit list_ascii_of_string]. rewrite starts_no by discriminate.
  change (YamlModel.rem (at_ fl (quo :: r) nx)) with (quo :: r). unfold findString. rewrite Ascii.eqb_refl. cbn [orb]. unfold r at 1. rewrite closing_escape.
  cbn [skipn]. unfold r at 1. rewrite firstn_app, firstn_all, Nat.sub_diag, firstn_O, app_nil_r, resolve_escape.
  replace (consume (2 + List.length (escapeString true t)) (at_ fl (quo :: r) nx)) with (at_ fl [] nx); [reflexivity|].
  rewrite <- (app_nil_r (quo :: r)) at 1. replace (2 + List.length (escapeString true t))%nat with (List.length (quo :: r)) by (unfold r; cbn; rewrite app_length; cbn; lia).
  now rewrite consume_app.
Qed.

Lemma parseScalar_quoted : forall F fl t nx ind, parseScalar F NoTag ind (at_ fl (quo :: escapeString true t ++ [quo]) nx) = Some (VStr t, atLines nx).
Proof.
  intros. unfold parseScalar. rewrite cws_at by discriminate. set (r := escapeString true t ++ [quo]).
  change (eod (at_ fl (quo :: r) nx)) with false. rewrite Nat.ltb_irrefl. cbn [andb]. cbv iota.
  change (YamlModel.rem (at_ fl (quo :: r) nx)) with (quo :: r). cbn [lit list_ascii_of_string]. rewrite !starts_no by discriminate. cbn [orb].
  unfold parsePlainScalar. change (YamlModel.rem (at_ fl (quo :: r) nx)) with (quo :: r).
  unfold findString at 1. rewrite Ascii.eqb_refl. cbn [orb]. unfold r at 1. rewrite closing_escape. cbn [skipn]. unfold r at 1.
  rewrite firstn_app, firstn_all, Nat.sub_diag, firstn_O, app_nil_r. unfold parseUntagged. rewrite resolve_escape. cbn [option_map].
  replace (consume (1 + List.length (escapeString true t)) (consume 1 (at_ fl (quo :: r) nx))) with (at_ fl [] nx); [reflexivity|].
  change (consume 1 (at_ fl (quo :: r) nx)) with (at_ fl r nx). rewrite <- (app_nil_r r) at 1.
  replace (1 + List.length (escapeString true t))%nat with (List.length r) by (unfold r; rewrite app_length; cbn; lia). now rewrite consume_app.
Qed.

Lemma parseScalar_block : forall F fl t rest L, multiline t = true -> goodString t -> stopsAt (2 * L) rest ->
  exists s', atRest s' rest /\ parseScalar F NoTag (Z.of_nat (2 * L))
    (at_ fl (lit "|" ++ (if endsWith nl t then [] else lit "-")) (map (fun l => indent (S L) ++ escapeString false l) (split nl t) ++ rest)) = Some (VStr t, s').
Proof.
  intros F fl t rest L Hm Hg Hs. exists (consumeSpaces (atLines rest)). split; [now right|].
  destruct (multi_lines t Hm Hg) as [Hl He].
  set (nx := map (fun l => indent (S L) ++ escapeString false l) (split nl t) ++ rest).
  assert (En : nx = map (fun l => repeat sp (2 * L + 2) ++ l) (split nl t) ++ rest).
  { unfold nx. f_equal. apply map_ext_in. intros l Hi. rewrite Forall_forall in He. rewrite (He l Hi). unfold indent. f_equal. f_equal. lia. }
  assert (Hne : t <> []) by (intros ->; discriminate).
  unfold parseScalar. cbn [lit list_ascii_of_string app]. rewrite cws_at by discriminate.
  set (tl0 := if endsWith nl t then [] else ["-"%char]).
  change (eod (at_ fl ("|"%char :: tl0) nx)) with false. rewrite Nat.ltb_irrefl. cbn [andb]. cbv iota.
  change (YamlModel.rem (at_ fl ("|"%char :: tl0) nx)) with ("|"%char :: tl0).
  replace (starts ["|"%char] ("|"%char :: tl0)) with true by reflexivity. replace (starts [">"%char] ("|"%char :: tl0)) with false by reflexivity. cbn [orb].
  change (consume 1 (at_ fl ("|"%char :: tl0) nx)) with (at_ fl tl0 nx). rewrite startsWith_at by discriminate.
  replace (starts ["-"%char] tl0) with (negb (endsWith nl t)) by (unfold tl0; destruct (endsWith nl t); reflexivity). rewrite negb_involutive.
  assert (E2 : consumeSpaces (if endsWith nl t then at_ fl tl0 nx else consume 1 (at_ fl tl0 nx)) = at_ fl [] nx)
    by (unfold tl0; destruct (endsWith nl t); reflexivity).
  rewrite E2. change (nxt (at_ fl [] nx)) with nx. change (findString (YamlModel.rem (at_ fl [] nx)) []) with (Some (false, 0%nat)).
  cbv beta iota. replace (0 <? 0)%nat with false by reflexivity. cbv iota.
  replace (Z.to_nat (Z.of_nat (2 * L) + 2)) with (2 * L + 2)%nat by lia. rewrite En, blockLines_ok by auto.
  rewrite app_nil_l, blockEnd_ok by auto. reflexivity.
Qed.

Lemma peek_pipe : forall fl nx ind b, peek (at_ fl (lit "|" ++ (if b : bool then [] else lit "-")) nx) ind = KScalar.
Proof.
  intros fl nx ind b. unfold peek. assert (C : cws (at_ fl (lit "|" ++ (if b then [] else lit "-")) nx) = at_ fl (lit "|" ++ (if b then [] else lit "-")) nx)
    by (cbn [lit list_ascii_of_string app]; apply cws_at; discriminate).
  rewrite C, Nat.ltb_irrefl. destruct b; reflexivity.
Qed.

(* ------------------------------------------------------------------ tags *)

Lemma tag_at : forall ty x, exists t, tagOf ty ++ x = "!"%char :: t.
Proof. intros [| [] | | | |] x; eexists; reflexivity. Qed.
Lemma knownTag_tagOf : forall ty, knownTag (tagOf ty) = Some (TagS ty).
Proof. intros [| [] | | | |]; reflexivity. Qed.
Lemma tag_space : forall ty, Forall (fun c => Ascii.eqb sp c = false) (tagOf ty).
Proof. intros [| [] | | | |]; repeat constructor. Qed.
Lemma tag_starts : forall ty x, starts (lit "!!") (tagOf ty ++ x) = true.
Proof. intros [| [] | | | |] x; reflexivity. Qed.

Lemma parseTag_sp : forall ty fl x nx, parseTag (consumeSpaces (at_ fl (sp :: tagOf ty ++ sp :: x) nx)) = Some (TagS ty, at_ fl x nx).
Proof.
  intros. rewrite spaces_sp. destruct (tag_at ty (sp :: x)) as [t Et]. assert (E : consumeSpaces (at_ fl (tagOf ty ++ sp :: x) nx) = at_ fl (tagOf ty ++ sp :: x) nx).
  { rewrite Et. apply spaces_id. discriminate. }
  rewrite E. unfold parseTag. rewrite startsWith_at by discriminate. rewrite tag_starts. change (YamlModel.rem (at_ fl (tagOf ty ++ sp :: x) nx)) with (tagOf ty ++ sp :: x).
  rewrite findBy_at; [|apply tag_space|reflexivity]. rewrite firstn_app, firstn_all, Nat.sub_diag, firstn_O, app_nil_r, knownTag_tagOf. do 2 f_equal.
  replace (tagOf ty ++ sp :: x) with ((tagOf ty ++ [sp]) ++ x) by (rewrite <- app_assoc; reflexivity).
  replace (List.length (tagOf ty) + 1)%nat with (List.length (tagOf ty ++ [sp])) by (rewrite app_length; reflexivity). apply consume_app.
Qed.
Lemma parseTag_end : forall ty fl nx, parseTag (consumeSpaces (at_ fl (sp :: tagOf ty) nx)) = Some (TagS ty, at_ fl [] nx).
Proof.
  intros. rewrite spaces_sp. destruct (tag_at ty []) as [t Et]. rewrite app_nil_r in Et. assert (E : consumeSpaces (at_ fl (tagOf ty) nx) = at_ fl (tagOf ty) nx).
  { rewrite Et. apply spaces_id. discriminate. }
  rewrite E. unfold parseTag. rewrite startsWith_at by discriminate. pose proof (tag_starts ty []) as S. rewrite app_nil_r in S. rewrite S.
  change (YamlModel.rem (at_ fl (tagOf ty) nx)) with (tagOf ty). rewrite findBy_none by apply tag_space. rewrite knownTag_tagOf. do 2 f_equal.
  rewrite <- (app_nil_r (tagOf ty)) at 2. apply consume_app.
Qed.
Lemma parseTag_none : forall fl c r nx, c <> "!"%char -> parseTag (at_ fl (c :: r) nx) = Some (NoTag, at_ fl (c :: r) nx).
Proof. intros. unfold parseTag. rewrite startsWith_at by discriminate. cbn [lit list_ascii_of_string]. rewrite starts_no by auto. reflexivity. Qed.

(* ------------------------------------------------------------------ all values *)

Lemma scal_item : forall F s L fl rest, goodScal F s -> forall f, itemAt F f (TagS (typeOf s)) (Z.of_nat (2 * L)) (at_ fl (sp :: showScal F s) rest) = Ok (VS s, atLines rest).
Proof.
  intros F s L fl rest G f. pose proof (showScal_text F s G) as T. unfold itemAt. rewrite spaces_sp.
  destruct (showScal F s) as [|c t] eqn:E; [destruct T as [_ [T _]]; congruence|]. destruct (clean_facts c (Forall_inv (proj1 T))) as [F1 [F2 [F3 [F4 [F5 [F6 [F7 [F8 [F9 [F10 F11]]]]]]]]]].
  rewrite spaces_id, parseTag_none by tauto. cbn [ofOpt bind fst snd isTagged andb]. rewrite spaces_id by tauto.
  rewrite peek_scalText by auto. rewrite (parseScalar_tagged F _ fl (c :: t) rest _ (VS s)); [reflexivity|auto|exact I|]. rewrite <- E. now apply parseAs_show.
Qed.

Lemma no_item : forall F v L, parses F v -> itemParses F NoTag (head F v) (tail F (S L) v) L v.
Proof.
  intros F v L P fl rest H. destruct (P L fl rest H) as [t [s3 [f0 [s' [Et [R E]]]]]]. exists f0, s'. split; auto.
  intros f Hf. unfold itemAt. rewrite Et. cbn [ofOpt bind fst snd isTagged andb]. apply E, Hf.
Qed.

Lemma start_map : forall F f s ind, startsWith (lit "{") (cws s) = false -> cws (cws s) = cws s ->
  block F (S f) true true true NoTag ind [] [] s = block F (S f) true false true NoTag ind [] [] (cws s).
Proof. intros F f s ind H1 H2. cbn [block andb]. rewrite H1. cbn [lit list_ascii_of_string]. reflexivity. Qed.
Lemma start_list : forall F f s tg ind, startsWith (lit "[") (cws s) = false -> 
  block F (S f) false true true tg ind [] [] s = block F (S f) false false true tg ind [] [] (cws s).
Proof. intros F f s tg ind H1. cbn [block andb]. rewrite H1. reflexivity. Qed.

Lemma peek_next : forall fl n c t m ind, (ind < Z.of_nat n)%Z -> c <> sp -> c <> hash ->
  peek (at_ fl [] ((repeat sp n ++ c :: t) :: m)) ind = peek (at_ (repeat sp n ++ c :: t) (c :: t) m) ind.
Proof.
  intros fl n c t m ind Hi Hs Hh. unfold peek. rewrite cws_nil, skipL_line, cws_at by auto.
  change (eod (at_ (repeat sp n ++ c :: t) (c :: t) m)) with false. cbv iota. rewrite Nat.ltb_irrefl. cbn [andb].
  unfold currentIndent. cbn [at_ full cur]. rewrite ind_at_sp by auto. unfold notDeeper.
  replace ((Z.of_nat n <=? ind)%Z) with false by (symmetry; apply Z.leb_gt; lia). now rewrite !andb_false_r.
Qed.

Lemma peek_dash : forall fl t m ind, peek (at_ fl (dash :: sp :: t) m) ind = KList.
Proof.
  intros. unfold peek. rewrite cws_at by discriminate. change (eod (at_ fl (dash :: sp :: t) m)) with false. rewrite Nat.ltb_irrefl. cbn [andb].
  rewrite !startsWith_at by discriminate. reflexivity.
Qed.

Lemma peek_key : forall fl k h m ind, goodKey k -> peek (at_ fl (keyText k ++ h) m) ind = KMap.
Proof.
  intros fl k h m ind G. destruct (keyText_start k G) as [c [t [E [S1 [S2 [S3 [S4 [S5 [S6 S7]]]]]]]]]. unfold peek.
  assert (C : cws (at_ fl (keyText k ++ h) m) = at_ fl (keyText k ++ h) m) by (rewrite E; apply cws_at; auto). rewrite C.
  replace (eod (at_ fl (keyText k ++ h) m)) with false by reflexivity. rewrite Nat.ltb_irrefl. cbn [andb]. cbv iota.
  rewrite parseKey_ok by auto. rewrite !startsWith_at by discriminate. change (YamlModel.rem (at_ fl (keyText k ++ h) m)) with (keyText k ++ h).
  rewrite E. cbn [app lit list_ascii_of_string]. rewrite !starts_no by auto. rewrite teqb_neq by (intros X; injection X as X1 _; apply S5; exact X1).
  destruct (starts ["{"%char] (c :: t ++ h)); reflexivity.
Qed.

Lemma list_value : forall F tg L fl its rest, its <> [] -> stopsAt (2 * L) rest ->
  Forall (fun it => itemParses F tg (fst (fst it)) (snd (fst it)) (S L) (snd it)) its ->
  exists f0 s', atRest s' rest /\ forall f, (f0 <= f)%nat ->
    valueAt F f tg (Z.of_nat (2 * L)) (at_ fl [] (listLines (S L) its ++ rest)) = Ok (convertList tg (map snd its), s').
Proof.
  intros F tg L fl its rest Hn Hs G. set (X := listLines (S L) its ++ rest).
  destruct (list_loop F (S L) tg (Z.of_nat (2 * L)) its [] true (consumeSpaces (atLines X)) rest G) as [f0 [s' [R E]]].
  - right. eauto.
  - lia.
  - auto.
  - now right.
  - exists (S f0), s'. split; auto. intros f Hf.
    assert (EX : exists h m, X = (repeat sp (2 * S L) ++ dash :: sp :: h) :: m).
    { unfold X. destruct its as [|[[h t] v] its]; [congruence|]. cbn [listLines flat_map app fst snd]. eexists _, _. reflexivity. }
    destruct EX as [h [m EX]]. unfold valueAt. rewrite EX, peek_next by (discriminate || lia). rewrite peek_dash.
    destruct f as [|f]; [lia|]. 
    assert (Ec : cws (at_ fl [] ((repeat sp (2 * S L) ++ dash :: sp :: h) :: m)) = consumeSpaces (atLines X)).
    { rewrite cws_nil, skipL_line by discriminate. rewrite EX. cbn [atLines]. fold (at_ (repeat sp (2 * S L) ++ dash :: sp :: h) (repeat sp (2 * S L) ++ dash :: sp :: h) m).
      rewrite spaces_at, spaces_id by discriminate. reflexivity. }
    rewrite start_list.
    + rewrite Ec. apply E. lia.
    + rewrite cws_nil, skipL_line by discriminate. rewrite startsWith_at by discriminate. reflexivity.
Qed.

Lemma peek_empty : forall fl nx ind, peek (at_ fl (lit "[]") nx) ind = KList /\ peek (at_ fl (lit "{}") nx) ind = KMap.
Proof.
  intros. unfold peek. change (cws (at_ fl (lit "[]") nx)) with (at_ fl (lit "[]") nx). change (cws (at_ fl (lit "{}") nx)) with (at_ fl (lit "{}") nx).
  rewrite !Nat.ltb_irrefl. split; reflexivity.
Qed.

Lemma scal_items : forall ty xs, Forall (fun s => typeOf s = ty) xs ->
  flat_map (fun v => match v with VS s => if stypeEq (typeOf s) ty then [s] else [] | _ => [] end) (map (fun s => VS s) xs) = xs.
Proof.
  intros ty. induction xs as [|s xs IH]; intros H; auto. cbn [map flat_map]. rewrite (Forall_inv H), IH by apply (Forall_inv_tail H).
  replace (stypeEq ty ty) with true by (destruct ty as [| [] | | | |]; reflexivity). reflexivity.
Qed.

Theorem good_parses : forall F v, good F v -> parses F v.
Proof.
  intros F v. induction v as [|s|t|m IH|ty e xs|vs IH|ts] using val_nested; intros G L fl rest Hs; cbn [head tail].
  - exists TagNull, (at_ fl (lit "null") rest), 0%nat, (atLines rest). split; [reflexivity|]. split; [now left|]. intros f _.
    unfold valueAt. assert (T : scalText (lit "null")) by (apply clean_lit; [reflexivity|discriminate|discriminate]).
    change (consumeSpaces (at_ fl (lit "null") rest)) with (at_ fl (lit "null") rest). rewrite peek_scalText by auto.
    rewrite (parseScalar_tagged F TagNull fl (lit "null") rest _ VNull); auto.
  - inversion G as [|s' Gs| | | |]; subst s'. pose proof (showScal_text F s Gs) as T.
    exists (TagS (typeOf s)), (at_ fl (showScal F s) rest), 0%nat, (atLines rest). split; [apply parseTag_sp|]. split; [now left|]. intros f _.
    assert (E : consumeSpaces (at_ fl (showScal F s) rest) = at_ fl (showScal F s) rest).
    { destruct (showScal F s) as [|c u] eqn:E; [destruct T as [_ [T _]]; congruence|]. apply spaces_id. apply (clean_facts c (Forall_inv (proj1 T))). }
    rewrite E. unfold valueAt. rewrite peek_scalText by auto. rewrite (parseScalar_tagged F _ fl _ rest _ (VS s)); [reflexivity|auto|exact I|]. now apply parseAs_show.
  - inversion G as [| |t' Gs| | |]; subst t'. destruct (multiline t) eqn:Em.
    + destruct (parseScalar_block F fl t rest L Em Gs Hs) as [s' [R E]].
      set (x := lit "|" ++ (if endsWith nl t then [] else lit "-")) in *.
      set (nx := map (fun l => indent (S L) ++ escapeString false l) (split nl t) ++ rest) in *.
      exists NoTag, (at_ fl x nx), 0%nat, s'. split; [rewrite spaces_sp; unfold x; cbn [lit list_ascii_of_string app]; rewrite spaces_sp, spaces_id, parseTag_none by discriminate; reflexivity|].
      split; auto. intros f _. assert (C : consumeSpaces (at_ fl x nx) = at_ fl x nx) by (unfold x; cbn [lit list_ascii_of_string app]; apply spaces_id; discriminate).
      rewrite C. unfold valueAt, x. rewrite peek_pipe. fold x. rewrite E. reflexivity.
    + set (x := quo :: escapeString true t ++ [quo]). exists NoTag, (at_ fl x rest), 0%nat, (atLines rest).
      split; [unfold x; cbn [app]; rewrite !spaces_sp, spaces_id, parseTag_none by discriminate; reflexivity|].
      split; [now left|]. intros f _. unfold x. rewrite spaces_id by discriminate. unfold valueAt. rewrite peek_quoted, parseScalar_quoted. reflexivity.
  - inversion G as [| | |m' Nd Gk Gv| |]; subst m'.
    assert (P : Forall (fun kv => parses F (snd kv)) m).
    { apply Forall_forall. intros kv Hi. rewrite Forall_forall in IH, Gv. apply IH; auto. }
    destruct m as [|[k v] m].
    + exists NoTag, (at_ fl (lit "{}") rest), 2%nat, (atLines rest). split; [reflexivity|]. split; [now left|]. intros f Hf.
      destruct f as [|[|f]]; [lia|lia|]. change (consumeSpaces (at_ fl (lit "{}") rest)) with (at_ fl (lit "{}") rest).
      unfold valueAt. rewrite (proj2 (peek_empty _ _ _)). reflexivity.
    + change (flat_map _ ((k, v) :: m)) with (mapLines F (S L) ((k, v) :: m)). set (X := mapLines F (S L) ((k, v) :: m) ++ rest).
      destruct (map_loop F (S L) (Z.of_nat (2 * L)) ((k, v) :: m) [] true (consumeSpaces (atLines X)) rest) as [f0 [s' [R E]]]; auto.
      * right. eauto.
      * lia.
      * discriminate.
      * now right.
      * exists NoTag, (at_ fl [] X), (S f0), s'. split; [reflexivity|]. split; auto. intros f Hf.
        change (consumeSpaces (at_ fl [] X)) with (at_ fl [] X).
        pose proof (Forall_inv Gk) as Gk1. cbn [fst] in Gk1.
        destruct (keyText_start k Gk1) as [c [u [Eu [S1 [S2 [S3 [S4 [S5 [S6 S7]]]]]]]]].
        assert (EX : exists y, X = (repeat sp (2 * S L) ++ c :: (u ++ head F v)) :: y).
        { unfold X. cbn [mapLines flat_map app fst snd]. eexists. unfold indent. rewrite Eu. cbn [app]. reflexivity. }
        destruct EX as [y EX].
        assert (Ec : cws (at_ fl [] X) = consumeSpaces (atLines X)).
        { rewrite EX, cws_nil, skipL_line by auto. cbn [atLines]. fold (at_ (repeat sp (2 * S L) ++ c :: u ++ head F v) (repeat sp (2 * S L) ++ c :: u ++ head F v) y).
          rewrite spaces_at, spaces_id by auto. reflexivity. }
        unfold valueAt. replace (peek (at_ fl [] X) (Z.of_nat (2 * L))) with KMap.
        2: { rewrite EX, peek_next by (auto; lia). change (c :: u ++ head F v) with ((c :: u) ++ head F v). rewrite <- Eu. symmetry. now apply peek_key. }
        cbn [isTagged]. destruct f as [|f]; [lia|]. rewrite start_map.
        -- rewrite Ec. apply E. lia.
        -- rewrite EX, cws_nil, skipL_line by auto. rewrite startsWith_at by discriminate. apply starts_no. auto.
        -- rewrite EX, cws_nil, skipL_line by auto. apply cws_at; auto.
  - inversion G as [| | | |ty' xs' Gx|]; subst ty' e xs'. destruct xs as [|s xs].
    + exists (TagS ty), (at_ fl (lit "[]") rest), 2%nat, (atLines rest). split; [apply (parseTag_sp ty fl (lit "[]") rest)|]. split; [now left|]. intros f Hf.
      destruct f as [|[|f]]; [lia|lia|]. change (consumeSpaces (at_ fl (lit "[]") rest)) with (at_ fl (lit "[]") rest).
      unfold valueAt. rewrite (proj1 (peek_empty _ _ _)). reflexivity.
    + set (its := map (fun s => (showScal F s, @nil text, VS s)) (s :: xs) : list item).
      assert (El : map (fun s => indent (S L) ++ lit "- " ++ showScal F s) (s :: xs) = listLines (S L) its).
      { unfold its. clear. induction (s :: xs) as [|a l IH]; auto. unfold listLines in *. cbn [map flat_map fst snd app]. now rewrite <- IH. }
      rewrite El, app_nil_r.
      destruct (list_value F (TagS ty) L fl its rest) as [f0 [s' [R E]]]; auto; [discriminate| |].
      * unfold its. apply Forall_map. eapply Forall_impl; [|exact Gx]. intros a [Ta Ga]. cbn [fst snd]. intros fl' rest' _. exists 0%nat, (atLines rest').
        split; [now left|]. intros f _. rewrite app_nil_l. rewrite <- Ta. now apply scal_item.
      * exists (TagS ty), (at_ fl [] (listLines (S L) its ++ rest)), f0, s'. split; [apply parseTag_end|]. split; auto. intros f Hf.
        change (consumeSpaces (at_ fl [] (listLines (S L) its ++ rest))) with (at_ fl [] (listLines (S L) its ++ rest)). rewrite E by auto. do 2 f_equal.
        unfold its, convertList. rewrite map_map. cbn [snd]. rewrite scal_items; auto. eapply Forall_impl; [|exact Gx]. cbn. tauto.
  - inversion G as [| | | | |vs' Gv]; subst vs'. destruct vs as [|v vs].
    + exists NoTag, (at_ fl (lit "[]") rest), 2%nat, (atLines rest). split; [reflexivity|]. split; [now left|]. intros f Hf.
      destruct f as [|[|f]]; [lia|lia|]. change (consumeSpaces (at_ fl (lit "[]") rest)) with (at_ fl (lit "[]") rest).
      unfold valueAt. rewrite (proj1 (peek_empty _ _ _)). reflexivity.
    + set (its := map (fun v => (head F v, tail F (S (S L)) v, v)) (v :: vs) : list item).
      assert (El : flat_map (fun x => (indent (S L) ++ lit "- " ++ head F x) :: tail F (S (S L)) x) (v :: vs) = listLines (S L) its).
      { unfold its. clear. induction (v :: vs) as [|a l IH]; auto. unfold listLines in *. cbn [map flat_map fst snd app]. now rewrite <- IH. }
      rewrite El.
      destruct (list_value F NoTag L fl its rest) as [f0 [s' [R E]]]; auto; [discriminate| |].
      * unfold its. apply Forall_map. apply Forall_forall. intros a Hi. cbn [fst snd]. apply no_item. rewrite Forall_forall in IH, Gv. apply IH; auto.
      * exists NoTag, (at_ fl [] (listLines (S L) its ++ rest)), f0, s'. split; [reflexivity|]. split; auto. intros f Hf.
        change (consumeSpaces (at_ fl [] (listLines (S L) its ++ rest))) with (at_ fl [] (listLines (S L) its ++ rest)). rewrite E by auto. do 2 f_equal.
        unfold its, convertList. rewrite map_map. cbn [snd]. now rewrite map_id.
  - inversion G.
Qed.

Theorem round_trip : forall F m, good F (VMap m) -> deserialize F (serialize F true m) = Ok m.
Proof.
  intros F m G. destruct m as [|[k v] m]; [reflexivity|]. unfold serialize. rewrite ser_lines by auto.
  destruct (lines_noNl F _ 0 G) as [_ Hn]. cbn [head app]. set (X := tail F 0 (VMap ((k, v) :: m))) in *.
  inversion G as [| | |m' Nd Gk Gv| |]; subst m'.
  destruct (map_loop F 0 (-1)%Z ((k, v) :: m) [] true (consumeSpaces (atLines X)) []) as [f0 [s' [R E]]]; auto.
  - apply Forall_forall. intros kv Hi. rewrite Forall_forall in Gv. apply good_parses, Gv, Hi.
  - now left.
  - lia.
  - discriminate.
  - rewrite app_nil_r. now right.
  - apply (deserialize_with F _ (S f0)). unfold deserializeWith.
    assert (Es : split nl (nl :: unlines X) = [] :: X).
    { rewrite <- (split_unlines ([] :: X)); [reflexivity|]. constructor; auto. }
    rewrite Es. pose proof (Forall_inv Gk) as Gk1. cbn [fst] in Gk1.
    destruct (keyText_start k Gk1) as [c [u [Eu [S1 [S2 [S3 [S4 [S5 [S6 S7]]]]]]]]].
    assert (EX : exists y, X = (repeat sp 0 ++ c :: (u ++ head F v)) :: y).
    { unfold X. cbn [tail flat_map app fst snd]. eexists. rewrite Eu. cbn [app indent repeat Nat.mul]. reflexivity. }
    destruct EX as [y EX].
    change (atLines ([] :: X)) with (at_ [] [] X). rewrite cws_nil.
    assert (Ec : skipL X = consumeSpaces (atLines X)).
    { rewrite EX, skipL_line by auto. cbn [atLines repeat app]. fold (at_ (c :: u ++ head F v) (c :: u ++ head F v) y).
      rewrite spaces_id by auto. reflexivity. }
    assert (Ec2 : skipL X = at_ (c :: u ++ head F v) (c :: u ++ head F v) y) by (rewrite EX, skipL_line by auto; reflexivity).
    replace (startsWith (lit "---") (skipL X)) with false by (rewrite Ec2, startsWith_at by discriminate; symmetry; apply starts_no; auto).
    rewrite start_map.
    + replace (cws (skipL X)) with (skipL X) by (rewrite Ec2; symmetry; apply cws_at; auto). rewrite Ec, E by lia. reflexivity.
    + rewrite Ec2, cws_at, startsWith_at by (auto; discriminate). apply starts_no. auto.
    + rewrite Ec2, cws_at by auto. apply cws_at; auto.
Qed.
