(* Proofs about the parser. *)

From Coq Require Import Ascii ZArith NArith Bool Lia List.
From Verif Require Import NmeaModel NmeaSpec.
Import ListNotations.

Local Open Scope char_scope.
Local Open Scope nat_scope.

Lemma checksum_from : forall p a, fold_left (fun x c => N.lxor x (N_of_ascii c)) p a = N.lxor a (xorAll p).
Proof.
  induction p as [|c p IH]; intros a; cbn [fold_left xorAll]; [symmetry; apply N.lxor_0_r|].
  rewrite IH. symmetry. apply eq_sym. apply N.lxor_assoc.
Qed.
Lemma checksum_xor : forall p, checksum p = xorAll p.
Proof. intros p; unfold checksum; rewrite checksum_from. apply N.lxor_0_l. Qed.
Lemma xorAll_app : forall a b, xorAll (a ++ b) = N.lxor (xorAll a) (xorAll b).
Proof.
  induction a as [|c a IH]; intros b; cbn [xorAll app]; [symmetry; apply N.lxor_0_l|].
  rewrite IH. symmetry. apply N.lxor_assoc.
Qed.

Lemma lxor_cancel_l : forall a b c, N.lxor a b = N.lxor a c -> b = c.
Proof.
  intros a b c H.
  rewrite <- (N.lxor_0_l b), <- (N.lxor_0_l c), <- (N.lxor_nilpotent a), !N.lxor_assoc, H. reflexivity.
Qed.

Lemma xor_one : forall a b x y, xorAll (a ++ x :: b) = xorAll (a ++ y :: b) -> x = y.
Proof.
  intros a b x y H. rewrite !xorAll_app in H. apply lxor_cancel_l in H. cbn [xorAll] in H.
  rewrite (N.lxor_comm (N_of_ascii x)), (N.lxor_comm (N_of_ascii y)) in H. apply lxor_cancel_l in H.
  rewrite <- (ascii_N_embedding x), <- (ascii_N_embedding y), H. reflexivity.
Qed.

Lemma rfind_none : forall c l, rfind c l = None <-> ~ In c l.
Proof.
  intros c l; induction l as [|x l IH]; cbn [rfind In].
  - split; [intros _ []|reflexivity].
  - destruct (rfind c l) as [i|] eqn:E.
    + split; [discriminate|]. intros H. exfalso. apply H. right.
      destruct (in_dec ascii_dec c l) as [Hi|Hn]; [exact Hi|]. apply IH in Hn. discriminate.
    + destruct (Ascii.eqb_spec x c) as [-> | D].
      * split; [discriminate|]. intros H; exfalso; apply H; left; reflexivity.
      * split; [|reflexivity]. intros _ [H | H]; [exact (D H)|]. apply (proj1 IH eq_refl H).
Qed.
Lemma rfind_app : forall c a b, ~ In c b -> rfind c (a ++ c :: b) = Some (length a).
Proof.
  intros c a b H; induction a as [|x a IH]; cbn [app rfind length].
  - apply rfind_none in H. rewrite H, Ascii.eqb_refl. reflexivity.
  - rewrite IH. reflexivity.
Qed.
Lemma rfind_some : forall c l i, rfind c l = Some i -> exists a b, l = a ++ c :: b /\ length a = i /\ ~ In c b.
Proof.
  intros c l; induction l as [|x l IH]; intros i H; cbn [rfind] in H; [discriminate|].
  destruct (rfind c l) as [j|] eqn:E.
  - destruct (IH j eq_refl) as (a & b & -> & La & Hb). exists (x :: a), b.
    split; [reflexivity|]. split; [cbn [length]; congruence|exact Hb].
  - destruct (Ascii.eqb_spec x c) as [-> | D]; [|discriminate].
    exists [], l. split; [reflexivity|]. split; [cbn [length]; congruence|]. apply rfind_none, E.
Qed.

Lemma hex_not_star : forall h a, hexDigit h = Some a -> h <> "*".
Proof. intros h a H ->. discriminate H. Qed.

Lemma validate_form : forall p h1 h2, h1 <> "*" -> h2 <> "*" ->
  validate ("$" :: p ++ ["*"; h1; h2]) =
  match fromHex [h1; h2] with Some v => N.eqb (xorAll p) v | None => false end.
Proof.
  intros p h1 h2 H1 H2. unfold validate.
  replace (length ("$" :: p ++ ["*"; h1; h2]) <? 4) with false
    by (symmetry; apply Nat.ltb_ge; cbn [length]; rewrite app_length; cbn [length]; lia).
  replace (rfind "*" ("$" :: p ++ ["*"; h1; h2])) with (Some (S (length p))).
  2:{ symmetry. change ("$" :: p ++ ["*"; h1; h2]) with (("$" :: p) ++ "*" :: [h1; h2]).
      rewrite rfind_app; [reflexivity|]. intros [H | [H | []]]; congruence. }
  replace (S (length p) + 3 =? length ("$" :: p ++ ["*"; h1; h2])) with true
    by (symmetry; apply Nat.eqb_eq; cbn [length]; rewrite app_length; cbn [length]; lia).
  cbn [negb].
  assert (E1 : substr (S (length p) + 1) 2 ("$" :: p ++ ["*"; h1; h2]) = [h1; h2]).
  { unfold substr. replace (S (length p) + 1) with (S (length p + 1)) by lia. cbn [skipn].
    rewrite skipn_app, skipn_all2 by lia. replace (length p + 1 - length p) with 1 by lia. reflexivity. }
  assert (E2 : substr 1 (S (length p) - 1) ("$" :: p ++ ["*"; h1; h2]) = p).
  { unfold substr. cbn [skipn]. replace (S (length p) - 1) with (length p) by lia.
    rewrite firstn_app, Nat.sub_diag, firstn_all. cbn [firstn]. apply app_nil_r. }
  rewrite E1, E2, checksum_xor. reflexivity.
Qed.

Lemma validate_inv : forall line, validate line = true -> In "*" line ->
  exists p h1 h2, line = "$" :: p ++ ["*"; h1; h2] /\ h1 <> "*" /\ h2 <> "*".
Proof.
  intros line H Hin. unfold validate in H.
  destruct line as [|c line]; [discriminate|].
  destruct (ascii_dec c "$") as [-> | D].
  2:{ exfalso. clear - H D.
      destruct c as [[] [] [] [] [] [] [] []]; try discriminate H; apply D; reflexivity. }
  destruct (length ("$" :: line) <? 4); [discriminate|].
  destruct (rfind "*" ("$" :: line)) as [star|] eqn:E.
  2:{ apply rfind_none in E. contradiction. }
  destruct (rfind_some _ _ _ E) as (a & b & Hl & La & Hb).
  destruct (Nat.eqb_spec (star + 3) (length ("$" :: line))) as [L|]; [|discriminate].
  rewrite Hl, app_length in L. cbn [length] in L.
  destruct b as [|h1 [|h2 [|z b]]]; cbn [length] in L; try lia.
  destruct a as [|x p]; cbn [app] in Hl; [discriminate Hl|].
  exists p, h1, h2. split; [|split].
  - assert (x = "$") by congruence; subst x. exact Hl.
  - intros ->. apply Hb. left. reflexivity.
  - intros ->. apply Hb. right; left. reflexivity.
Qed.

Lemma split_nonempty : forall l, split l <> [].
Proof.
  induction l as [|c l IH]; cbn [split]; [discriminate|]. destruct (Ascii.eqb c ","); [discriminate|].
  destruct (split l); discriminate.
Qed.
Lemma join_cons : forall f fs, fs <> [] -> join (f :: fs) = f ++ "," :: join fs.
Proof. intros f [|g fs] H; [congruence|reflexivity]. Qed.

Lemma join_split : forall l, join (split l) = l.
Proof.
  induction l as [|c l IH]; cbn [split]; [reflexivity|].
  destruct (Ascii.eqb_spec c ",") as [-> | D].
  - rewrite join_cons by apply split_nonempty. rewrite IH. reflexivity.
  - destruct (split l) as [|f fs] eqn:E; [exfalso; exact (split_nonempty l E)|].
    destruct fs as [|g fs].
    + cbn [join] in *. rewrite IH. reflexivity.
    + rewrite join_cons by discriminate. rewrite join_cons in IH by discriminate. cbn [app]. rewrite IH. reflexivity.
Qed.
Lemma split_no_comma : forall l f, In f (split l) -> ~ In "," f.
Proof.
  induction l as [|c l IH]; intros f Hf; cbn [split] in Hf.
  - destruct Hf as [<- | []]. intros [].
  - destruct (Ascii.eqb_spec c ",") as [-> | D].
    + destruct Hf as [<- | Hf]; [intros []|exact (IH f Hf)].
    + destruct (split l) as [|g gs].
      * destruct Hf as [<- | []]. intros [H | []]. exact (D H).
      * destruct Hf as [<- | Hf]; [|apply IH; right; exact Hf].
        intros [H | H]; [exact (D H)|]. exact (IH g (or_introl eq_refl) H).
Qed.
Lemma split_one : forall f, ~ In "," f -> split f = [f].
Proof.
  induction f as [|c f IH]; intros H; cbn [split]; [reflexivity|].
  destruct (Ascii.eqb_spec c ",") as [-> | D]; [exfalso; apply H; left; reflexivity|].
  rewrite IH; [reflexivity|]. intros Hc. apply H. right. exact Hc.
Qed.
Lemma split_app : forall f l, ~ In "," f -> split (f ++ "," :: l) = f :: split l.
Proof.
  induction f as [|c f IH]; intros l H; cbn [app split].
  - rewrite Ascii.eqb_refl. reflexivity.
  - destruct (Ascii.eqb_spec c ",") as [-> | D]; [exfalso; apply H; left; reflexivity|].
    rewrite IH; [reflexivity|]. intros Hc. apply H. right. exact Hc.
Qed.
Lemma split_join : forall fs, fs <> [] -> (forall f, In f fs -> ~ In "," f) -> split (join fs) = fs.
Proof.
  induction fs as [|f fs IH]; intros Hne H; [congruence|].
  destruct fs as [|g fs].
  - cbn [join]. apply split_one, H. left. reflexivity.
  - rewrite join_cons by discriminate. rewrite split_app by (apply H; left; reflexivity).
    rewrite IH; [reflexivity|discriminate|]. intros x Hx. apply H. right. exact Hx.
Qed.

(* ---------------- sentences ---------------- *)

Lemma feed_app : forall conv a b s, feed conv s (a ++ b) = feed conv (feed conv s a) b.
Proof. intros conv a; induction a as [|[l t] a IH]; intros b s; cbn [app feed]; [reflexivity|apply IH]. Qed.

Lemma lastSecond_snoc : forall ls l t,
  lastSecond (ls ++ [(l, t)]) = match secondOf l with Some n => Some n | None => lastSecond ls end.
Proof.
  induction ls as [|[x u] ls IH]; intros l t; cbn [app lastSecond].
  - destruct (secondOf l); reflexivity.
  - rewrite IH. destruct (secondOf l); [reflexivity|]. reflexivity.
Qed.

(* one line *)
Definition due (s : pst) (l : text) : bool :=
  match secondOf l with Some n => ((0 <=? sec s) && negb (n =? sec s))%Z | None => false end.

Definition stamp (p : fix_) (t : Z) : fix_ :=
  mkFix (utc p) t (lat p) (lon p) (alt p) (sats p) (hdop p) (ftype p) (knots p) (heading p) (hasPos p) (hasTime p).
Definition newDate (l : text) (d : text) : text :=
  match readLine l with
  | Some (RMC, f) => if length f <? 12 then d else if length (fld 9 f) =? 6 then fld 9 f else d
  | _ => d
  end.
Definition written (conv : text -> text -> Z) (d : text) (l : text) (p : fix_) : fix_ :=
  match readLine l with
  | Some (k, f) => if length f <? needs k then p else write conv (newDate l d) k f p
  | None => p
  end.

Lemma line_step : forall conv s l t,
  parseLine conv s l t =
  (mkP (written conv (date s) l (if due s l then noFix else pend s))
       (if due s l then stamp (pend s) t else lastFix s)
       (match secondOf l with Some n => n | None => sec s end)
       (newDate l (date s)),
   if due s l then Some (stamp (pend s) t) else None).
Proof.
  intros conv [p lf sc d] l t; unfold parseLine, written, newDate, due, secondOf.
  destruct (readLine l) as [[k f]|]; [|reflexivity].
  unfold sentence, boundary, needs; cbn [pend lastFix sec date].
  destruct k; fold (fld 1 f).
  - rewrite (Nat.leb_antisym (length f) 12), (Nat.leb_antisym (length (fld 1 f)) 6).
    destruct (length f <? 12); cbn [negb andb]; [reflexivity|].
    destruct (length (fld 1 f) <? 6); cbn [negb pend lastFix sec date]; [reflexivity|].
    destruct ((0 <=? sc)%Z && negb (parseInt (substr 4 2 (fld 1 f)) =? sc)%Z); reflexivity.
  - rewrite (Nat.leb_antisym (length f) 15), (Nat.leb_antisym (length (fld 1 f)) 6).
    destruct (length f <? 15); cbn [negb andb]; [reflexivity|].
    destruct (length (fld 1 f) <? 6); cbn [negb pend lastFix sec date]; [reflexivity|].
    destruct ((0 <=? sc)%Z && negb (parseInt (substr 4 2 (fld 1 f)) =? sc)%Z); reflexivity.
  - destruct (length f <? 9); reflexivity.
  - destruct (length f <? 18); reflexivity.
Qed.

Lemma feed_sec : forall conv d ls,
  sec (feed conv (init d) ls) = match lastSecond ls with Some n => n | None => (-1)%Z end.
Proof.
  intros conv d ls; induction ls as [|[l t] ls IH] using rev_ind; [reflexivity|].
  rewrite feed_app, lastSecond_snoc. cbn [feed]. rewrite line_step. cbn [fst sec].
  destruct (secondOf l); [reflexivity|exact IH].
Qed.

Lemma due_feed : forall conv d ls l, due (feed conv (init d) ls) l = true <->
  exists m n, lastSecond ls = Some m /\ (0 <= m)%Z /\ secondOf l = Some n /\ n <> m.
Proof.
  intros conv d ls l; unfold due; rewrite feed_sec; split.
  - destruct (secondOf l) as [n|]; [|discriminate]. destruct (lastSecond ls) as [m|]; [|discriminate].
    intros H. apply andb_prop in H. destruct H as [H1 H2]. apply Z.leb_le in H1.
    apply negb_true_iff, Z.eqb_neq in H2. exists m, n. repeat split; assumption.
  - intros (m & n & -> & Hm & -> & Hne). apply andb_true_intro; split; [apply Z.leb_le, Hm|].
    apply negb_true_iff, Z.eqb_neq, Hne.
Qed.

(* the lines since the last change of second *)
Definition cut (conv : text -> text -> Z) (d : text) (ls pre seg : list (text * Z)) : Prop :=
  let s := feed conv (init d) ls in
  let s' := feed conv (init (date (feed conv (init d) pre))) seg in
  ls = pre ++ seg /\ pend s = pend s' /\ sec s = sec s' /\ date s = date s' /\
  (forall m, lastSecond ls = Some m -> sameSecond m seg) /\
  (lastSecond ls = None -> forall l t, In (l, t) seg -> secondOf l = None) /\
  (pre = [] \/ exists l t r q n, seg = (l, t) :: r /\ secondOf l = Some n /\ lastSecond pre = Some q /\ n <> q).

Lemma cut_exists : forall conv d ls,
  (forall l t m, In (l, t) ls -> secondOf l = Some m -> (0 <= m)%Z) ->
  exists pre seg, cut conv d ls pre seg.
Proof.
  intros conv d ls; induction ls as [|[l t] ls IH] using rev_ind; intros Hpos.
  - exists [], []. unfold cut. cbn [app feed lastSecond]. repeat split; try reflexivity.
    + intros m H; discriminate.
    + intros _ l t [].
    + left; reflexivity.
  - destruct IH as (pre & seg & C).
    { intros x u m Hx. apply (Hpos x u m). apply in_or_app. left. exact Hx. }
    destruct (due (feed conv (init d) ls) l) eqn:D.
    + (* a change of second *)
      assert (D' := D). apply due_feed in D'. destruct D' as (m & n & Hm & Hm0 & Hn & Hne).
      exists ls, [(l, t)]. unfold cut. rewrite feed_app. cbn [feed]. rewrite !line_step, D. cbn [fst].
      assert (D0 : due (init (date (feed conv (init d) ls))) l = false)
        by (unfold due, init; cbn [sec]; rewrite Hn; reflexivity).
      rewrite D0. cbn [pend sec date]. rewrite Hn.
      repeat split; try reflexivity.
      * intros m' Hm' x u Hx m'' Hm''. rewrite lastSecond_snoc, Hn in Hm'.
        destruct Hx as [Hx | []]. assert (x = l) by congruence; subst x. congruence.
      * intros H. rewrite lastSecond_snoc, Hn in H. discriminate.
      * right. exists l, t, [], m, n. repeat split; assumption.
    + destruct C as (E & Ep & Es & Ed & Hs & Hno & Hpre).
      exists pre, (seg ++ [(l, t)]). unfold cut.
      assert (Dq : due (feed conv (init (date (feed conv (init d) pre))) seg) l = false).
      { unfold due in *. rewrite <- Es. exact D. }
      rewrite !feed_app. cbn [feed]. rewrite !line_step, D, Dq. cbn [fst pend sec date].
      rewrite Ep, Es, Ed.
      repeat split; try reflexivity.
      * rewrite E, app_assoc. reflexivity.
      * intros m Hm x u Hx m' Hm'. rewrite lastSecond_snoc in Hm. apply in_app_or in Hx.
        destruct (secondOf l) as [n|] eqn:Hn.
        -- assert (n = m) by congruence; subst n.
           destruct Hx as [Hx | [Hx | []]]; [|assert (x = l) by congruence; subst x; congruence].
           destruct (lastSecond ls) as [q|] eqn:Hq.
           ++ assert (q = m).
              { unfold due in D. rewrite Hn, feed_sec, Hq in D.
                assert (0 <= q)%Z.
                { assert (G : forall zs, lastSecond zs = Some q -> exists y v, In (y, v) zs /\ secondOf y = Some q).
                  { clear. induction zs as [|[y v] zs IH]; cbn [lastSecond]; [discriminate|].
                    destruct (lastSecond zs) as [n|].
                    - intros H. destruct (IH H) as (a & b & Ha & Hb). exists a, b. split; [right; exact Ha|exact Hb].
                    - intros H. exists y, v. split; [left; reflexivity|exact H]. }
                  destruct (G ls Hq) as (y & v & Hy & Hy2). apply (Hpos y v q); [|exact Hy2].
                  apply in_or_app. left. exact Hy. }
                apply andb_false_iff in D. destruct D as [D | D].
                - apply Z.leb_gt in D. lia.
                - apply negb_false_iff, Z.eqb_eq in D. congruence. }
              subst q. exact (Hs m eq_refl x u Hx m' Hm').
           ++ rewrite (Hno eq_refl x u Hx) in Hm'. discriminate.
        -- destruct Hx as [Hx | [Hx | []]]; [exact (Hs m Hm x u Hx m' Hm')|].
           assert (x = l) by congruence; subst x. congruence.
      * intros H x u Hx. rewrite lastSecond_snoc in H. destruct (secondOf l) as [n|] eqn:Hn; [discriminate|].
        apply in_app_or in Hx. destruct Hx as [Hx | [Hx | []]]; [exact (Hno H x u Hx)|].
        assert (x = l) by congruence; subst x. exact Hn.
      * destruct Hpre as [-> | (x & u & r & q & n & Hseg & Hx & Hq & Hne)]; [left; reflexivity|].
        right. exists x, u, (r ++ [(l, t)]), q, n. rewrite Hseg. repeat split; assumption.
Qed.

Lemma teq_spec : forall a b, teq a b = true <-> a = b.
Proof. intros a b; unfold teq; destruct (list_eq_dec ascii_dec a b); split; congruence. Qed.

Lemma written_pos : forall conv d l p, hasPos (written conv d l p) = true <-> hasPos p = true \/ positioned l.
Proof.
  intros conv d l p; unfold written, positioned.
  destruct (readLine l) as [[k f]|].
  2:{ split; [intros H; left; exact H|]. intros [H | (f & [(H & _) | (H & _)])]; [exact H|discriminate|discriminate]. }
  destruct (length f <? needs k) eqn:L.
  - split; [intros H; left; exact H|]. apply Nat.ltb_lt in L.
    intros [H | (g & [(H & Hl & _) | (H & Hl & _)])]; [exact H| |];
      (assert (k = RMC \/ k = GGA) as [-> | ->] by (assert (X := H); clear - X; destruct k; (left; congruence) || (right; congruence) || congruence);
       cbn [needs] in L; assert (f = g) by congruence; subst g; first [lia|congruence]).
  - apply Nat.ltb_ge in L. destruct k; cbn [write needs] in *.
    + destruct (teq (fld 2 f) ["A"]) eqn:A; cbn [hasPos].
      * split; [|reflexivity]. intros _. right. exists f. left.
        split; [reflexivity|]. split; [exact L|]. apply teq_spec, A.
      * split; [intros H; left; exact H|]. intros [H | (g & [(H & Hl & Hg) | (H & _)])]; [exact H| |congruence].
        assert (f = g) by congruence; subst g. apply teq_spec in Hg. unfold fld in A. congruence.
    + destruct (0 <? parseInt (fld 6 f))%Z eqn:Q.
      * match goal with |- hasPos (if ?b then _ else _) = true <-> _ => destruct b end; cbn [hasPos].
        -- split; [|reflexivity]. intros _. right. exists f. right. split; [reflexivity|]. split; [exact L|]. apply Z.ltb_lt, Q.
        -- split; [|reflexivity]. intros _. right. exists f. right. split; [reflexivity|]. split; [exact L|]. apply Z.ltb_lt, Q.
      * assert (N : ~ exists g, (Some (GGA, f) = Some (RMC, g) /\ 12 <= length g /\ nth 2 g [] = ["A"]) \/
                     (Some (GGA, f) = Some (GGA, g) /\ 15 <= length g /\ (0 < parseInt (nth 6 g []))%Z)).
        { intros (g & [(H & _) | (H & _ & Hg)]); [congruence|]. assert (f = g) by congruence; subst g.
          apply Z.ltb_ge in Q. unfold fld in Q. lia. }
        match goal with |- hasPos (if ?b then _ else _) = true <-> _ => destruct b end; cbn [hasPos];
          (split; [intros H; left; exact H|]; intros [H | H]; [exact H|contradiction]).
    + cbn [hasPos]. split; [intros H; left; exact H|]. intros [H | (g & [(H & _) | (H & _)])]; [exact H|congruence|congruence].
    + cbn [hasPos]. split; [intros H; left; exact H|]. intros [H | (g & [(H & _) | (H & _)])]; [exact H|congruence|congruence].
Qed.

Lemma feed_pos : forall conv d ls m, sameSecond m ls ->
  (hasPos (pend (feed conv (init d) ls)) = true <-> exists l t, In (l, t) ls /\ positioned l).
Proof.
  intros conv d ls m; induction ls as [|[l t] ls IH] using rev_ind; intros Hs.
  - cbn [feed init pend noFix hasPos]. split; [discriminate|]. intros (l & t & [] & _).
  - assert (Hs' : sameSecond m ls) by (intros x u Hx; apply (Hs x u); apply in_or_app; left; exact Hx).
    specialize (IH Hs'). rewrite feed_app. cbn [feed]. rewrite line_step. cbn [fst pend].
    assert (D : due (feed conv (init d) ls) l = false).
    { destruct (due (feed conv (init d) ls) l) eqn:D; [|reflexivity]. exfalso. apply due_feed in D.
      destruct D as (q & n & Hq & _ & Hn & Hne). apply Hne.
      assert (n = m) by (apply (Hs l t); [apply in_or_app; right; left; reflexivity|exact Hn]).
      assert (q = m).
      { assert (G : forall zs, lastSecond zs = Some q -> exists y v, In (y, v) zs /\ secondOf y = Some q).
        { clear. induction zs as [|[y v] zs IH]; cbn [lastSecond]; [discriminate|].
          destruct (lastSecond zs) as [n|].
          - intros H. destruct (IH H) as (a & b & Ha & Hb). exists a, b. split; [right; exact Ha|exact Hb].
          - intros H. exists y, v. split; [left; reflexivity|exact H]. }
        destruct (G ls Hq) as (y & v & Hy & Hy2). exact (Hs' y v Hy q Hy2). }
      congruence. }
    rewrite D, written_pos, IH. split.
    + intros [(x & u & Hx & Hp) | Hp].
      * exists x, u. split; [apply in_or_app; left; exact Hx|exact Hp].
      * exists l, t. split; [apply in_or_app; right; left; reflexivity|exact Hp].
    + intros (x & u & Hx & Hp). apply in_app_or in Hx. destruct Hx as [Hx | [Hx | []]].
      * left. exists x, u. split; assumption.
      * right. assert (x = l) by congruence; subst x. exact Hp.
Qed.

(* digits *)
Lemma hex_some : forall c n, hexDigit c = Some n ->
  nth_error upperDigits (N.to_nat n) = Some c \/ nth_error lowerDigits (N.to_nat n) = Some c.
Proof.
  intros c n H. destruct c as [[] [] [] [] [] [] [] []]; vm_compute in H; try discriminate H;
    match type of H with Some ?v = Some _ => assert (n = v) by congruence; subst n end; vm_compute; auto.
Qed.
Lemma hex_upper : forall k c, nth_error upperDigits k = Some c -> hexDigit c = Some (N.of_nat k).
Proof.
  intros k c H. do 16 (destruct k as [|k]; [match type of H with nth_error _ _ = _ => cbn in H end;
    match type of H with Some ?v = Some _ => assert (c = v) by congruence; subst c end; reflexivity|]).
  exfalso. assert (X : nth_error upperDigits (16 + k) <> None) by (cbn [Nat.add]; congruence).
  apply nth_error_Some in X. cbn in X. lia.
Qed.
Lemma hex_lower : forall k c, nth_error lowerDigits k = Some c -> hexDigit c = Some (N.of_nat k).
Proof.
  intros k c H. do 16 (destruct k as [|k]; [match type of H with nth_error _ _ = _ => cbn in H end;
    match type of H with Some ?v = Some _ => assert (c = v) by congruence; subst c end; reflexivity|]).
  exfalso. assert (X : nth_error lowerDigits (16 + k) <> None) by (cbn [Nat.add]; congruence).
  apply nth_error_Some in X. cbn in X. lia.
Qed.

Lemma digit_dec : forall d, d < 10 -> digit (nth d decDigits "0") = Some (Z.of_nat d).
Proof. intros d H. do 10 (destruct d as [|d]; [reflexivity|]). lia. Qed.
Lemma digits_value : forall ds acc, (forall d, In d ds -> d < 10) ->
  digits acc (written10 ds) = (acc * 10 ^ Z.of_nat (length ds) + valueOf ds)%Z.
Proof.
  induction ds as [|d ds IH]; intros acc H; cbn [written10 map digits length valueOf].
  - change (10 ^ Z.of_nat 0)%Z with 1%Z. lia.
  - rewrite (digit_dec d (H d (or_introl eq_refl))). fold (written10 ds).
    rewrite (IH _ (fun x Hx => H x (or_intror Hx))). rewrite Nat2Z.inj_succ, Z.pow_succ_r by lia. ring.
Qed.
Lemma valueOf_nonneg : forall ds, (0 <= valueOf ds)%Z.
Proof. induction ds as [|d ds IH]; cbn [valueOf]; [lia|]. assert (0 <= 10 ^ Z.of_nat (length ds))%Z by (apply Z.pow_nonneg; lia). nia. Qed.
