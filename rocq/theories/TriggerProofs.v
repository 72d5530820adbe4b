(** Proofs about the trigger filter. *)
From Coq Require Import List Ascii Bool Arith Lia.
From Verif Require Import TriggerModel TriggerSpec.
Import ListNotations.

(** *** texts *)
Lemma str_eqb_iff a b : str_eqb a b = true <-> a = b.
Proof. unfold str_eqb. destruct (list_eq_dec ascii_dec a b); split; congruence. Qed.
Lemma str_eqb_refl a : str_eqb a a = true. Proof. apply str_eqb_iff. reflexivity. Qed.
Lemma isNil_iff {A} (l : list A) : isNil l = true <-> l = []. Proof. destruct l; cbn; split; congruence. Qed.
Lemma starts_with_iff p : forall s, starts_with s p = true <-> exists b, s = p ++ b.
Proof.
  induction p as [|c p IH]; intros s; [destruct s; (split; [eexists; reflexivity|reflexivity])|].
  destruct s as [|d s]; cbn [starts_with].
  - split; [discriminate|]. intros [b H]. discriminate.
  - rewrite andb_true_iff, IH, Ascii.eqb_eq. split.
    + intros [-> [b ->]]. exists b. reflexivity.
    + intros [b H]. injection H as -> ->. split; [reflexivity|]. exists b. reflexivity.
Qed.
Lemma contains_iff p : forall s, contains s p = true <-> substring p s.
Proof.
  unfold substring. induction s as [|d s IH].
  - cbn [contains]. rewrite orb_false_r, starts_with_iff. split.
    + intros [b H]. exists [], b. exact H.
    + intros (a & b & H). destruct a; [exists b; exact H|discriminate].
  - cbn [contains]. rewrite orb_true_iff, starts_with_iff, IH. split.
    + intros [[b H]|(a & b & H)]; [exists [], b; exact H|]. exists (d :: a), b. rewrite H. reflexivity.
    + intros ([|x a] & b & H); [left; exists b; exact H|]. right. injection H as _ H. exists a, b. exact H.
Qed.
Lemma cut_none c s : cut c s = None <-> ~ In c s.
Proof.
  induction s as [|d s IH]; cbn [cut]; [split; [intros _ []|reflexivity]|].
  destruct (Ascii.eqb_spec d c) as [->|N].
  - split; [discriminate|]. intros H. exfalso. apply H. left. reflexivity.
  - destruct (cut c s) as [[a b]|] eqn:E.
    + split; [discriminate|]. intros H. assert (X : Some (a, b) = @None (str * str)) by (apply IH; intros Hi; apply H; right; exact Hi). discriminate.
    + split; [|reflexivity]. intros _ [H|H]; [congruence|]. apply IH in H; [exact H|reflexivity].
Qed.
Lemma cut_some c s a b : cut c s = Some (a, b) <-> s = a ++ c :: b /\ ~ In c a.
Proof.
  revert a b. induction s as [|d s IH]; intros a b; cbn [cut].
  - split; [discriminate|]. intros [H _]. destruct a; discriminate.
  - destruct (Ascii.eqb_spec d c) as [->|N].
    + split.
      * intros H. injection H as <- <-. split; [reflexivity|intros []].
      * intros [H Hn]. destruct a as [|x a]; [injection H as <-; reflexivity|]. injection H as <- _. exfalso. apply Hn. left. reflexivity.
    + destruct (cut c s) as [[a' b']|] eqn:E.
      * destruct (proj1 (IH a' b') eq_refl) as [H1 H2]. split.
        -- intros H. injection H as <- <-. split; [rewrite H1; reflexivity|]. intros [X|X]; [congruence|contradiction].
        -- intros [H Hn]. destruct a as [|x a]; [injection H as H _; congruence|]. injection H as <- H.
           assert (X : Some (a', b') = Some (a, b)) by (apply IH; split; [exact H|]; intros Hi; apply Hn; right; exact Hi). injection X as -> ->. reflexivity.
      * split; [discriminate|]. intros [H Hn]. exfalso. destruct a as [|x a]; [injection H as H _; congruence|]. injection H as <- H.
        assert (X : None = Some (a, b)) by (apply IH; split; [exact H|]; intros Hi; apply Hn; right; exact Hi). discriminate.
Qed.

Lemma cut_mid c a b : ~ In c a -> cut c (a ++ c :: b) = Some (a, b).
Proof. intros H. apply cut_some. auto. Qed.

(** *** trim *)
Lemma drop_blank w s : blank w -> dropSpace (w ++ s) = dropSpace s.
Proof. induction w as [|c w IH]; intros H; [reflexivity|]. cbn [app dropSpace]. rewrite (H c) by (left; reflexivity). apply IH. intros d Hd. apply H. right. exact Hd. Qed.
Lemma drop_id s : (forall c r, s = c :: r -> isSpace c = false) -> dropSpace s = s.
Proof. destruct s as [|c r]; intros H; [reflexivity|]. cbn [dropSpace]. rewrite (H c r eq_refl). reflexivity. Qed.
Lemma blank_rev w : blank w -> blank (rev w). Proof. intros H c Hc. apply H. apply in_rev. exact Hc. Qed.
Lemma blank_app a b : blank (a ++ b) <-> blank a /\ blank b.
Proof. unfold blank. split; [intros H; split; intros c Hc; apply H, in_or_app; auto|]. intros [Ha Hb] c Hc. apply in_app_or in Hc. destruct Hc; auto. Qed.
Definition tight (s : str) : Prop := (forall c r, s = c :: r -> isSpace c = false) /\ (forall c r, s = r ++ [c] -> isSpace c = false).
Lemma trim_pad a s b : blank a -> blank b -> tight s -> trim (a ++ s ++ b) = s.
Proof.
  intros Ha Hb [T1 T2]. unfold trim. rewrite drop_blank by exact Ha. destruct s as [|c s'].
  - cbn [app]. rewrite <- (app_nil_r b), drop_blank by exact Hb. reflexivity.
  - rewrite (drop_id ((c :: s') ++ b)); [|intros d r H; injection H as <- _; apply (T1 c s'); reflexivity].
    rewrite rev_app_distr, drop_blank by (apply blank_rev, Hb). rewrite drop_id; [apply rev_involutive|].
    intros d r H. apply (T2 d (rev r)). rewrite <- (rev_involutive (c :: s')), H. reflexivity.
Qed.
Lemma drop_decomp s : exists w, s = w ++ dropSpace s /\ blank w.
Proof.
  induction s as [|c s (w & E & B)]; [exists []; split; [reflexivity|intros c []]|]. cbn [dropSpace]. destruct (isSpace c) eqn:Ec.
  - exists (c :: w). split; [cbn; f_equal; exact E|]. intros d [<-|Hd]; auto.
  - exists []. split; [reflexivity|intros d []].
Qed.
Lemma trim_decomp s : exists a b, s = a ++ trim s ++ b /\ blank a /\ blank b.
Proof.
  destruct (drop_decomp s) as (a & E1 & B1). destruct (drop_decomp (rev (dropSpace s))) as (b & E2 & B2).
  exists a, (rev b). split; [|split; [exact B1|apply blank_rev, B2]]. unfold trim. rewrite <- rev_app_distr, <- E2, rev_involutive. exact E1.
Qed.

(** *** one side *)
Lemma space_sep : isSpace SEPARATOR = false. Proof. reflexivity. Qed.
Lemma not_in_blank c w : isSpace c = false -> blank w -> ~ In c w.
Proof. intros H B Hi. rewrite (B c Hi) in H. discriminate. Qed.

Lemma caret_marked e w s : blank w -> clean s -> forall a b, blank a -> blank b -> caret (trim (a ++ marked e w ++ s ++ b)) = (e, s).
Proof.
  intros Hw (_ & _ & _ & _ & C1 & C2 & C3) a b Ha Hb. unfold caret. destruct e; cbn [marked].
  - (* marked *)
    assert (X : exists u, trim (a ++ (CARET :: w) ++ s ++ b) = CARET :: u /\ exists v, blank v /\ (u ++ v = w ++ s ++ b)).
    { destruct s as [|c s'].
      - exists []. split; [|exists (w ++ b); split; [apply blank_app; auto|reflexivity]].
        replace (a ++ (CARET :: w) ++ [] ++ b) with (a ++ [CARET] ++ (w ++ b)) by (cbn; reflexivity).
        apply trim_pad; [exact Ha|apply blank_app; auto|]. split; [intros d r H; injection H as <- _; reflexivity|].
        intros d r H. destruct r as [|y r]; [injection H as <-; reflexivity|]. injection H as _ H. destruct r; discriminate.
      - exists (w ++ c :: s'). split; [|exists b; split; [exact Hb|rewrite <- app_assoc; reflexivity]].
        replace (a ++ (CARET :: w) ++ (c :: s') ++ b) with (a ++ (CARET :: w ++ c :: s') ++ b) by (cbn; rewrite <- !app_assoc; reflexivity).
        apply trim_pad; [exact Ha|exact Hb|]. split; [intros d r H; injection H as <- _; reflexivity|].
        intros d r H. destruct (exists_last (l := c :: s')) as (q & z & Eq); [discriminate|]. apply (C3 d q). rewrite Eq. f_equal. f_equal.
        rewrite Eq in H. change (CARET :: w ++ q ++ [z]) with ((CARET :: w) ++ q ++ [z]) in H. rewrite app_assoc in H. apply app_inj_tail in H. apply H. }
    destruct X as (u & -> & v & Bv & Ev). cbn [starts_with]. rewrite Ascii.eqb_refl. assert (SU : starts_with u [] = true) by (destruct u; reflexivity). rewrite SU. cbn [andb skipn]. f_equal. clear SU.
    destruct u as [|x u0] eqn:Eu.
    + cbn [app] in Ev. subst v. apply blank_app in Bv. destruct Bv as [_ Bv]. apply blank_app in Bv. destruct Bv as [Bs _].
      destruct s as [|c s']; [reflexivity|]. specialize (C2 c s' eq_refl). rewrite (Bs c) in C2 by (left; reflexivity). discriminate.
    + rewrite <- Eu in *. clear Eu x u0.
      assert (T : trim (u ++ v) = trim u).
      { unfold trim. destruct (drop_decomp u) as (p & Ep & Bp). destruct (dropSpace u) as [|y q] eqn:Ed.
        - rewrite app_nil_r in Ep. subst p. rewrite drop_blank by exact Bp. rewrite <- (app_nil_r v), drop_blank by exact Bv. reflexivity.
        - rewrite Ep at 1. rewrite <- app_assoc, drop_blank by exact Bp. 
          assert (Hy : isSpace y = false). { clear - Ed. induction u as [|z u IH]; [discriminate|]. cbn [dropSpace] in Ed. destruct (isSpace z) eqn:Ez; [apply IH, Ed|]. injection Ed as <- _. exact Ez. }
          cbn [app dropSpace]. rewrite Hy. rewrite <- (drop_blank (rev v) (rev (y :: q))) by (apply blank_rev, Bv). rewrite <- rev_app_distr. reflexivity. }
      rewrite <- T, Ev. apply trim_pad; [exact Hw|exact Hb|split; assumption].
  - cbn [app]. rewrite trim_pad by (try assumption; split; assumption). rewrite C1. reflexivity.
Qed.

Lemma not_in_marked e w c : isSpace c = false -> c <> CARET -> blank w -> ~ In c (marked e w).
Proof. intros H N B. destruct e; cbn [marked]; [|intros []]. intros [X|X]; [congruence|]. exact (not_in_blank c w H B X). Qed.

Lemma rendered_no_comma p s : clean (pname p) -> clean (pctx p) -> rendered p s -> ~ In RANGE_OP s.
Proof.
  intros (_ & N1 & _) (_ & N2 & _) R. destruct R as [w1 w2 w3 w4 w5 w6 B1 B2 B3 B4 B5 B6|w1 w2 w3 B1 B2 B3 _ _].
  - assert (X1 := not_in_blank RANGE_OP w1 eq_refl B1). assert (X3 := not_in_blank RANGE_OP w3 eq_refl B3). assert (X4 := not_in_blank RANGE_OP w4 eq_refl B4). assert (X6 := not_in_blank RANGE_OP w6 eq_refl B6).
    assert (M1 := not_in_marked (pnameEnds p) w2 RANGE_OP eq_refl ltac:(discriminate) B2). assert (M2 := not_in_marked (pctxEnds p) w5 RANGE_OP eq_refl ltac:(discriminate) B5).
    intros H. rewrite !in_app_iff in H. cbn [In] in H. rewrite !in_app_iff in H. decompose [or] H; try contradiction. discriminate.
  - assert (X1 := not_in_blank RANGE_OP w1 eq_refl B1). assert (X3 := not_in_blank RANGE_OP w3 eq_refl B3).
    assert (M1 := not_in_marked (pnameEnds p) w2 RANGE_OP eq_refl ltac:(discriminate) B2).
    intros H. rewrite !in_app_iff in H. decompose [or] H; contradiction.
Qed.

Lemma parse_rendered p s old : clean (pname p) -> clean (pctx p) -> rendered p s -> pctxEnds old = false -> parse s old = Some p.
Proof.
  intros C1 C2 R Ho. unfold parse. destruct R as [w1 w2 w3 w4 w5 w6 B1 B2 B3 B4 B5 B6|w1 w2 w3 B1 B2 B3 E1 E2].
  - replace (w1 ++ marked (pnameEnds p) w2 ++ pname p ++ w3 ++ SEPARATOR :: w4 ++ marked (pctxEnds p) w5 ++ pctx p ++ w6)
      with ((w1 ++ marked (pnameEnds p) w2 ++ pname p ++ w3) ++ SEPARATOR :: (w4 ++ marked (pctxEnds p) w5 ++ pctx p ++ w6)) by (rewrite <- !app_assoc; reflexivity).
    rewrite (proj2 (cut_some SEPARATOR _ (w1 ++ marked (pnameEnds p) w2 ++ pname p ++ w3) (w4 ++ marked (pctxEnds p) w5 ++ pctx p ++ w6))).
    + rewrite (proj2 (cut_none SEPARATOR (w4 ++ marked (pctxEnds p) w5 ++ pctx p ++ w6))).
      * rewrite !caret_marked by assumption. destruct p; reflexivity.
      * rewrite !in_app_iff. assert (X4 := not_in_blank SEPARATOR w4 eq_refl B4). assert (X6 := not_in_blank SEPARATOR w6 eq_refl B6).
        assert (M2 := not_in_marked (pctxEnds p) w5 SEPARATOR eq_refl ltac:(discriminate) B5). destruct C2 as (N & _). tauto.
    + split; [reflexivity|]. rewrite !in_app_iff. assert (X4 := not_in_blank SEPARATOR w1 eq_refl B1). assert (X6 := not_in_blank SEPARATOR w3 eq_refl B3).
      assert (M2 := not_in_marked (pnameEnds p) w2 SEPARATOR eq_refl ltac:(discriminate) B2). destruct C1 as (N & _). tauto.
  - rewrite (proj2 (cut_none SEPARATOR (w1 ++ marked (pnameEnds p) w2 ++ pname p ++ w3))).
    + rewrite caret_marked by assumption. rewrite Ho, <- E1, <- E2. destruct p; reflexivity.
    + rewrite !in_app_iff. assert (X4 := not_in_blank SEPARATOR w1 eq_refl B1). assert (X6 := not_in_blank SEPARATOR w3 eq_refl B3).
      assert (M2 := not_in_marked (pnameEnds p) w2 SEPARATOR eq_refl ltac:(discriminate) B2). destruct C1 as (N & _). tauto.
Qed.

Lemma trim_blank_l a s : blank a -> trim (a ++ s) = trim s.
Proof. intros H. unfold trim. rewrite drop_blank by exact H. reflexivity. Qed.
Lemma drop_nil_blank u : dropSpace u = [] -> blank u.
Proof. intros H. destruct (drop_decomp u) as (p & Ep & Bp). rewrite H, app_nil_r in Ep. subst p. exact Bp. Qed.
Lemma drop_head u y q : dropSpace u = y :: q -> isSpace y = false.
Proof. induction u as [|z u IH]; [discriminate|]. cbn [dropSpace]. destruct (isSpace z) eqn:Ez; [exact IH|]. intros H. injection H as <- _. exact Ez. Qed.
Lemma trim_blank_r v u : blank v -> trim (u ++ v) = trim u.
Proof.
  intros Bv. unfold trim. destruct (drop_decomp u) as (p & Ep & Bp). destruct (dropSpace u) as [|y q] eqn:Ed.
  - rewrite app_nil_r in Ep. subst p. rewrite drop_blank by exact Bp. rewrite <- (app_nil_r v), drop_blank by exact Bv. reflexivity.
  - rewrite Ep at 1. rewrite <- app_assoc, drop_blank by exact Bp. pose proof (drop_head _ _ _ Ed) as Hy.
    cbn [app dropSpace]. rewrite Hy. rewrite <- (drop_blank (rev v) (rev (y :: q))) by (apply blank_rev, Bv). rewrite <- rev_app_distr. reflexivity.
Qed.

Lemma parse_trim s old : parse (trim s) old = parse s old.
Proof.
  destruct (trim_decomp s) as (a & b & E & Ba & Bb). set (x := trim s) in *. rewrite E. clearbody x. clear E s.
  unfold parse. destruct (cut SEPARATOR x) as [[u v]|] eqn:Ex.
  - apply cut_some in Ex. destruct Ex as [-> Hu].
    replace (a ++ (u ++ SEPARATOR :: v) ++ b) with ((a ++ u) ++ SEPARATOR :: (v ++ b)) by (rewrite <- !app_assoc; reflexivity).
    rewrite (cut_mid SEPARATOR (a ++ u) (v ++ b)).
    2:{ rewrite in_app_iff. intros [X|X]; [exact (not_in_blank SEPARATOR a eq_refl Ba X)|exact (Hu X)]. }
    destruct (cut SEPARATOR v) as [[v1 v2]|] eqn:Ev.
    + apply cut_some in Ev. destruct Ev as [-> Hv]. rewrite <- app_assoc. cbn [app]. rewrite (cut_mid SEPARATOR v1 (v2 ++ b)) by exact Hv. reflexivity.
    + apply cut_none in Ev. rewrite (proj2 (cut_none SEPARATOR (v ++ b))) by (rewrite in_app_iff; intros [X|X]; [exact (Ev X)|exact (not_in_blank SEPARATOR b eq_refl Bb X)]).
      rewrite trim_blank_l, trim_blank_r by assumption. reflexivity.
  - apply cut_none in Ex. rewrite (proj2 (cut_none SEPARATOR (a ++ x ++ b))).
    + rewrite trim_blank_l, trim_blank_r by assumption. reflexivity.
    + rewrite !in_app_iff. intros [X|[X|X]]; [exact (not_in_blank SEPARATOR a eq_refl Ba X)|exact (Ex X)|exact (not_in_blank SEPARATOR b eq_refl Bb X)].
Qed.
Definition twoSeps (s : str) : Prop := exists x y z, s = x ++ SEPARATOR :: y ++ SEPARATOR :: z.
Lemma parse_none s old : parse s old = None <-> twoSeps s.
Proof.
  unfold parse, twoSeps. destruct (cut SEPARATOR s) as [[u v]|] eqn:E.
  - apply cut_some in E. destruct E as [-> Hu]. destruct (cut SEPARATOR v) as [[v1 v2]|] eqn:Ev.
    + apply cut_some in Ev. destruct Ev as [-> Hv]. split; [|reflexivity]. intros _. exists u, v1, v2. reflexivity.
    + apply cut_none in Ev. destruct (caret (trim u)), (caret (trim v)). split; [discriminate|]. intros (x & y & z & H). exfalso.
      assert (X : cut SEPARATOR (u ++ SEPARATOR :: v) = Some (u, v)) by (apply cut_some; auto).
      destruct (in_dec ascii_dec SEPARATOR x) as [Hx|Hx].
      * apply in_split in Hx. destruct Hx as (x1 & x2 & ->). 
        destruct (cut SEPARATOR (x1 ++ SEPARATOR :: x2)) as [[p q]|] eqn:Ep; [|apply cut_none in Ep; apply Ep, in_elt].
        apply cut_some in Ep. destruct Ep as [Ep Hp]. rewrite H, Ep, <- app_assoc in X. cbn [app] in X.
        rewrite (cut_mid SEPARATOR p (q ++ SEPARATOR :: y ++ SEPARATOR :: z)) in X by auto. injection X as -> <-. apply Ev. rewrite in_app_iff. right. left. reflexivity.
      * rewrite H in X. rewrite (cut_mid SEPARATOR x (y ++ SEPARATOR :: z)) in X by auto. injection X as -> <-. apply Ev. rewrite in_app_iff. right. left. reflexivity.
  - apply cut_none in E. destruct (caret (trim s)). split; [discriminate|]. intros (x & y & z & ->). exfalso. apply E. rewrite in_app_iff. right. left. reflexivity.
Qed.

(** *** brackets *)
Lemma closes_last m d : m <> [] -> (closes m <-> last m d = "]"%char).
Proof.
  intros H. destruct (exists_last H) as (x & c & ->). rewrite last_last. split.
  - intros (y & E). apply app_inj_tail in E. apply E.
  - intros ->. exists x. reflexivity.
Qed.
Lemma strip_spec m : m <> [] ->
  match strip m with Some c => content m c | None => (opens m /\ ~ closes m) \/ (~ opens m /\ closes m) end.
Proof.
  intros H. destruct m as [|c m]; [congruence|]. pose proof (closes_last (c :: m) c H) as L. unfold strip. cbv zeta.
  assert (O : opens (c :: m) <-> c = "["%char) by (unfold opens; split; [intros (x & E); injection E; auto|intros ->; exists m; reflexivity]).
  destruct (Ascii.eqb_spec c "["%char) as [E1|E1], (Ascii.eqb_spec (last (c :: m) c) "]"%char) as [E2|E2]; cbn [andb xorb].
  - left. subst c. cbn [skipn]. f_equal. destruct m as [|d m']; [discriminate|]. rewrite (app_removelast_last "["%char (l := d :: m')) at 1 by discriminate. f_equal. f_equal. exact E2.
  - left. tauto.
  - right. tauto.
  - right. tauto.
Qed.
Lemma strip_content m c : m <> [] -> content m c -> strip m = Some c.
Proof.
  intros H [->|(H1 & H2 & ->)].
  - unfold strip. cbv zeta. rewrite Ascii.eqb_refl. assert (X : last ("["%char :: c ++ ["]"%char]) "["%char = "]"%char) by (rewrite app_comm_cons, last_last; reflexivity).
    rewrite X. cbn [Ascii.eqb andb Bool.eqb]. cbn [skipn]. rewrite removelast_last. reflexivity.
  - pose proof (strip_spec m H) as S. destruct (strip m) as [c|]; [|tauto]. destruct S as [->|(_ & _ & ->)]; [|reflexivity]. exfalso. apply H1. eexists. reflexivity.
Qed.

(** *** configuration *)
Definition setKey (k : option bool) (s : state) : state :=
  {| sfilter := sfilter s; startDefined := startDefined s; stopDefined := stopDefined s; start := start s; stop := stop s;
     active := active s; waitStart := waitStart s; waitStop := waitStop s; singleKey := k |}.
Definition base (m : str) (k : option bool) : state :=
  {| sfilter := Some m; startDefined := false; stopDefined := false; start := noPart; stop := noPart; active := false; waitStart := false; waitStop := false; singleKey := k |}.

Definition known (m : str) (s : state) : bool := match sfilter s with Some f => str_eqb f m | None => false end.
Lemma known_iff m s : known m s = true <-> sfilter s = Some m.
Proof. unfold known. destruct (sfilter s); [rewrite str_eqb_iff; split; congruence|split; congruence]. Qed.
Lemma verify_known m s : sfilter s = Some m -> verify m s = (s, false).
Proof. intros H. unfold verify. rewrite H, str_eqb_refl. reflexivity. Qed.

Lemma verify_filter m s s' b : verify m s = (s', b) -> sfilter s' = Some m.
Proof.
  unfold verify. destruct (match sfilter s with Some f => str_eqb f m | None => false end) eqn:E.
  - intros H. injection H as <- _. apply known_iff. exact E.
  - destruct (isNil m); [intros H; injection H as <- _; reflexivity|]. destruct (strip m) as [c|]; [|intros H; injection H as <- _; reflexivity].
    destruct (sides c) as [a b0]. 
    set (A := if isNil a then _ else _). destruct A as [s1|] eqn:EA; [|intros H; injection H as <- _; reflexivity].
    assert (F1 : sfilter s1 = Some m) by (unfold A in EA; destruct (isNil a); [injection EA as <-; reflexivity|]; destruct (parse a _); [injection EA as <-; reflexivity|discriminate]).
    set (B := if isNil b0 then _ else _). destruct B as [s2|] eqn:EB; [|intros H; injection H as <- _; exact F1].
    assert (F2 : sfilter s2 = Some m) by (unfold B in EB; destruct (isNil b0); [injection EB as <-; exact F1|]; destruct (parse b0 _); [injection EB as <-; exact F1|discriminate]).
    intros H. injection H as <- _. unfold noteSingle, collapse, moveStop. cbn [sfilter]. destruct (isSingle s2 && stopDefined s2); destruct (str_eqb _ _ && str_eqb _ _); exact F2.
Qed.

Lemma verify_thrown m s : sfilter s <> Some m -> (snd (verify m s) = true <-> malformed m).
Proof.
  intros Hs. unfold verify. destruct (match sfilter s with Some f => str_eqb f m | None => false end) eqn:E; [exfalso; apply Hs; apply known_iff; exact E|]. clear E Hs.
  destruct m as [|ch m0].
  - cbn [isNil snd]. split; [discriminate|]. intros [[(x & H) _]|[[_ (x & H)]|(c & p & x & y & z & C & S & ->)]]; [discriminate|destruct x; discriminate|].
    destruct C as [C|(_ & _ & ->)]; [discriminate|]. destruct S as [(_ & S)|(a & b & S & _)]; [destruct x; discriminate|destruct a; discriminate].
  - cbn [isNil]. set (m := ch :: m0) in *. assert (Hm : m <> []) by discriminate. clearbody m. clear ch m0.
    pose proof (strip_spec m Hm) as SP. destruct (strip m) as [c|] eqn:Es.
    2:{ cbn [snd]. split; [intros _|reflexivity]. unfold malformed. tauto. }
    assert (U : forall c', content m c' -> c' = c) by (intros c' C; rewrite (strip_content m c' Hm C) in Es; congruence).
    assert (M : malformed m <-> exists p, side c p /\ twoSeps p).
    { unfold malformed, twoSeps. split.
      - intros [[O C]|[[O C]|(c' & p & x & y & z & C & S & E)]].
        + exfalso. destruct SP as [->|(H & _)]; [|contradiction]. apply C. exists ("["%char :: c). reflexivity.
        + exfalso. destruct SP as [->|(_ & H & _)]; [|contradiction]. apply O. eexists. reflexivity.
        + apply U in C. subst c'. exists p. split; [exact S|]. exists x, y, z. exact E.
      - intros (p & S & x & y & z & E). right. right. exists c, p, x, y, z. auto. }
    rewrite M. clear M U SP Es Hm. unfold sides. destruct (cut RANGE_OP c) as [[a b]|] eqn:Ec.
    + pose proof (proj1 (cut_some RANGE_OP c a b) Ec) as [E1 E2].
      assert (Side : forall p, side c p <-> p = a \/ p = b).
      { intros p. split.
        - intros [(N & _)|(a' & b' & E3 & E4 & E5)]; [exfalso; apply N; rewrite E1, in_app_iff; right; left; reflexivity|].
          assert (X : Some (a, b) = Some (a', b')) by (rewrite <- Ec; apply cut_some; auto). injection X as <- <-. exact E5.
        - intros H. right. exists a, b. auto. }
      assert (M : (exists p, side c p /\ twoSeps p) <-> twoSeps a \/ twoSeps b).
      { split; [intros (p & S & T); apply Side in S; destruct S as [ -> | -> ]; auto|]. intros [T|T]; [exists a|exists b]; (split; [apply Side; auto|exact T]). }
      rewrite M. assert (K : forall x old, twoSeps x <-> parse (trim x) old = None) by (intros x old; rewrite parse_trim; symmetry; apply parse_none).
      assert (Kn : forall x, isNil (trim x) = true -> ~ twoSeps x) by (intros x Hx Ht; apply (K x noPart) in Ht; apply isNil_iff in Hx; rewrite Hx in Ht; discriminate).
      destruct (isNil (trim a)) eqn:Na.
      * apply Kn in Na. destruct (isNil (trim b)) eqn:Nb.
        -- apply Kn in Nb. cbn [snd]. split; [discriminate|tauto].
        -- match goal with |- context [parse (trim b) ?o] => pose proof (K b o) as Kb; destruct (parse (trim b) o) end; cbn [option_map snd].
           ++ split; [discriminate|]. intros [T|T]; [contradiction|]. apply Kb in T. discriminate.
           ++ split; [|reflexivity]. intros _. right. apply Kb. reflexivity.
      * match goal with |- context [parse (trim a) ?o] => pose proof (K a o) as Ka; destruct (parse (trim a) o) end; cbn [option_map].
        2:{ cbn [snd]. split; [|reflexivity]. intros _. left. apply Ka. reflexivity. }
        assert (Na' : ~ twoSeps a) by (intros T; apply Ka in T; discriminate).
        destruct (isNil (trim b)) eqn:Nb.
        -- apply Kn in Nb. cbn [snd]. split; [discriminate|tauto].
        -- match goal with |- context [parse (trim b) ?o] => pose proof (K b o) as Kb; destruct (parse (trim b) o) end; cbn [option_map snd].
           ++ split; [discriminate|]. intros [T|T]; [contradiction|]. apply Kb in T. discriminate.
           ++ split; [|reflexivity]. intros _. right. apply Kb. reflexivity.
    + pose proof (proj1 (cut_none RANGE_OP c) Ec) as N.
      assert (M : (exists p, side c p /\ twoSeps p) <-> twoSeps c).
      { split; [|intros T; exists c; split; [left; auto|exact T]]. intros (p & [(_ & ->)|(a & b & E & _)] & T); [exact T|]. exfalso. apply N. rewrite E, in_app_iff. right. left. reflexivity. }
      rewrite M. cbn [isNil]. destruct c as [|c0 c1].
      * cbn [isNil snd]. split; [discriminate|]. intros (x & y & z & H). destruct x; discriminate.
      * cbn [isNil]. match goal with |- context [parse (c0 :: c1) ?o] => pose proof (parse_none (c0 :: c1) o) as K; destruct (parse (c0 :: c1) o) end; cbn [option_map snd].
        -- split; [discriminate|]. intros T. apply K in T. discriminate.
        -- split; [|reflexivity]. intros _. apply K. reflexivity.
Qed.

(** *** what verify configures *)
Lemma trim_nonempty p s : clean (pname p) -> clean (pctx p) -> rendered p s -> pname p <> [] \/ pctx p <> [] -> isNil (trim s) = false.
Proof.
  intros C1 C2 R H. destruct (trim s) as [|c r] eqn:E; [exfalso|reflexivity].
  assert (X : parse (trim s) noPart = Some p) by (rewrite parse_trim; apply parse_rendered; auto; reflexivity). rewrite E in X. cbn in X. injection X as <-. cbn in H. tauto.
Qed.
Lemma verify_new m s : sfilter s <> Some m -> match sfilter s with Some f => str_eqb f m | None => false end = false.
Proof. intros H. destruct (match sfilter s with Some f => str_eqb f m | None => false end) eqn:E; [|reflexivity]. exfalso. apply H, known_iff, E. Qed.

Definition pairState (m : str) (p1 p2 : part) : state :=
  {| sfilter := Some m; startDefined := true; stopDefined := true; start := p1; stop := p2; active := false; waitStart := false; waitStop := false; singleKey := Some false |}.
Definition sameTexts (p q : part) : Prop := pname p = pname q /\ pctx p = pctx q.
Lemma verify_pair m s1 s2 p1 p2 s0 : sfilter s0 <> Some m -> content m (s1 ++ RANGE_OP :: s2) ->
  clean (pname p1) -> clean (pctx p1) -> clean (pname p2) -> clean (pctx p2) -> rendered p1 s1 -> rendered p2 s2 ->
  pname p1 <> [] \/ pctx p1 <> [] -> pname p2 <> [] \/ pctx p2 <> [] -> ~ sameTexts p1 p2 ->
  verify m s0 = (pairState m p1 p2, false).
Proof.
  intros Hs Hc A1 A2 B1 B2 R1 R2 N1 N2 Hd. unfold verify. rewrite verify_new by exact Hs.
  assert (Hm : m <> []). { intros ->. destruct Hc as [H|(_ & _ & H)]; [discriminate|]. destruct s1; discriminate. }
  destruct (isNil m) eqn:Em; [apply isNil_iff in Em; contradiction|]. rewrite (strip_content m _ Hm Hc).
  unfold sides. rewrite cut_mid by (apply (rendered_no_comma p1 s1); assumption). rewrite !(trim_nonempty p1 s1), !(trim_nonempty p2 s2) by assumption.
  cbn [start]. rewrite parse_trim, (parse_rendered p1 s1) by (auto; reflexivity). cbn [option_map setStart stop]. rewrite parse_trim, (parse_rendered p2 s2) by (auto; reflexivity). cbn [option_map].
  unfold moveStop, isSingle, setStop, setStart. cbn [startDefined stopDefined xorb andb]. unfold collapse. cbn [start stop].
  destruct (str_eqb (pname p1) (pname p2) && str_eqb (pctx p1) (pctx p2)) eqn:E; [|reflexivity].
  exfalso. apply Hd. apply andb_true_iff in E. rewrite !str_eqb_iff in E. exact E.
Qed.

Definition singleState (m : str) (p : part) : state :=
  {| sfilter := Some m; startDefined := true; stopDefined := false; start := p; stop := noPart; active := false; waitStart := false; waitStop := false; singleKey := Some true |}.
Lemma rendered_nonempty p s : clean (pname p) -> clean (pctx p) -> rendered p s -> pname p <> [] \/ pctx p <> [] -> s <> [].
Proof. intros C1 C2 R N ->. pose proof (trim_nonempty p [] C1 C2 R N). discriminate. Qed.
Lemma verify_single m s1 p s0 : sfilter s0 <> Some m -> content m s1 -> clean (pname p) -> clean (pctx p) -> rendered p s1 ->
  pname p <> [] \/ pctx p <> [] -> verify m s0 = (singleState m p, false).
Proof.
  intros Hs Hc A1 A2 R N. unfold verify. rewrite verify_new by exact Hs. pose proof (rendered_nonempty p s1 A1 A2 R N) as Ne.
  assert (Hm : m <> []). { intros ->. destruct Hc as [H|(_ & _ & H)]; [discriminate|congruence]. }
  destruct (isNil m) eqn:Em; [apply isNil_iff in Em; contradiction|]. rewrite (strip_content m _ Hm Hc).
  unfold sides. rewrite (proj2 (cut_none RANGE_OP s1)) by (apply (rendered_no_comma p s1); assumption). destruct (isNil s1) eqn:En; [apply isNil_iff in En; contradiction|].
  cbn [start]. rewrite (parse_rendered p s1) by (auto; reflexivity). cbn [option_map isNil]. unfold moveStop, isSingle, setStop, setStart, collapse. cbn [startDefined stopDefined xorb andb start stop texts pname pctx].
  destruct (str_eqb (pname p) [] && str_eqb (pctx p) []) eqn:E; [|reflexivity]. reflexivity.
Qed.

(** *** tags *)
Lemma key_eqb_iff a b : key_eqb a b = true <-> a = b. Proof. destruct a, b; cbn; split; congruence. Qed.
Lemma lookup_some k t v : lookup k t = Some v <-> exists pre post, t = pre ++ (k, v) :: post /\ ~ In k (map fst pre).
Proof.
  unfold lookup. induction t as [|[k' v'] t IH]; cbn [find].
  - split; [discriminate|]. intros (pre & post & H & _). destruct pre; discriminate.
  - destruct (key_eqb (fst (k', v')) k) eqn:E.
    + apply key_eqb_iff in E. cbn [fst] in E. subst k'. cbn [snd]. split.
      * intros H. injection H as <-. exists [], t. split; [reflexivity|intros []].
      * intros ([|[k2 v2] pre] & post & H & N); [injection H as ->; reflexivity|]. injection H as <- <- _. exfalso. apply N. left. reflexivity.
    + rewrite IH. split.
      * intros (pre & post & -> & N). exists ((k', v') :: pre), post. split; [reflexivity|]. intros [X|X]; [|exact (N X)]. apply key_eqb_iff in X. congruence.
      * intros ([|[k2 v2] pre] & post & H & N).
        -- injection H as -> -> ->. assert (X : key_eqb k k = true) by (apply key_eqb_iff; reflexivity). cbn [fst] in E. congruence.
        -- injection H as -> -> ->. exists pre, post. split; [reflexivity|]. intros X. apply N. right. exact X.
Qed.
Lemma lookup_none k t : lookup k t = None <-> ~ In k (map fst t).
Proof.
  unfold lookup. induction t as [|[k' v'] t IH]; cbn [find map]; [split; [intros _ []|reflexivity]|]. destruct (key_eqb (fst (k', v')) k) eqn:E.
  - apply key_eqb_iff in E. split; [discriminate|]. intros H. exfalso. apply H. left. exact E.
  - rewrite IH. split; [intros H [X|X]; [apply key_eqb_iff in X; congruence|exact (H X)]|]. intros H X. apply H. right. exact X.
Qed.
Lemma read_textOf long short t x : readTagString t long short = x <-> textOf long short t x.
Proof.
  unfold readTagString. destruct (lookup long t) as [v|] eqn:E1.
  - pose proof (proj1 (lookup_some _ _ _) E1) as (pre & post & E & N). split.
    + intros <-. exact (text_long long short t v pre post E N).
    + intros H. destruct H as [t v0 pre0 post0 E0 N0|t v0 pre0 post0 N0 _ _|t N0 _].
      * assert (X : lookup long t = Some v0) by (apply lookup_some; exists pre0, post0; auto). rewrite E1 in X. injection X as ->. reflexivity.
      * exfalso. apply N0. rewrite E, map_app, in_app_iff. right. left. reflexivity.
      * exfalso. apply N0. rewrite E, map_app, in_app_iff. right. left. reflexivity.
  - pose proof (proj1 (lookup_none _ _) E1) as N. destruct (lookup short t) as [v|] eqn:E2.
    + pose proof (proj1 (lookup_some _ _ _) E2) as (pre & post & E & N2). split.
      * intros <-. exact (text_short long short t v pre post N E N2).
      * intros H. destruct H as [t v0 pre0 post0 E0 _|t v0 pre0 post0 _ E0 N0|t _ N0].
        -- exfalso. apply N. rewrite E0, map_app, in_app_iff. right. left. reflexivity.
        -- assert (X : lookup short t = Some v0) by (apply lookup_some; exists pre0, post0; auto). rewrite E2 in X. injection X as ->. reflexivity.
        -- exfalso. apply N0. rewrite E, map_app, in_app_iff. right. left. reflexivity.
    + pose proof (proj1 (lookup_none _ _) E2) as N2. split.
      * intros <-. apply text_none; assumption.
      * intros H. destruct H as [t v0 pre0 post0 E0 _|t v0 pre0 post0 _ E0 _|t _ _]; [exfalso; apply N|exfalso; apply N2|reflexivity]; rewrite E0, map_app, in_app_iff; right; left; reflexivity.
Qed.

Definition nameOk (p : part) (t : tag) : bool := isNil (pname p) || str_eqb (readTagString t LongName ShortName) (pname p).
Definition satb (p : part) (t : tag) : bool := nameOk p t && (isNil (pctx p) || contains (readTagString t LongCtx ShortCtx) (pctx p)).
Lemma nameOk_iff p t : nameOk p t = true <-> pname p = [] \/ textOf LongName ShortName t (pname p).
Proof. unfold nameOk. rewrite orb_true_iff, isNil_iff, str_eqb_iff, read_textOf. reflexivity. Qed.
Lemma satb_iff p t : satb p t = true <-> satisfies p t.
Proof.
  unfold satb, satisfies. rewrite andb_true_iff, nameOk_iff, orb_true_iff, isNil_iff, contains_iff. split.
  - intros [H1 [H2|H2]]; (split; [exact H1|]); [left; exact H2|right]. eexists. split; [apply read_textOf; reflexivity|exact H2].
  - intros [H1 [H2|(c & H2 & H3)]]; (split; [exact H1|]); [left; exact H2|right]. apply read_textOf in H2. rewrite H2. exact H3.
Qed.

(** *** pairs *)
Definition sEnds (s : state) : bool := pnameEnds (start s) || pctxEnds (start s).
Definition eEnds (s : state) : bool := pnameEnds (stop s) || pctxEnds (stop s).
Definition inPhase (p : phase) (s : state) : Prop :=
  match p with
  | Idle => active s = false /\ waitStart s = false /\ waitStop s = false
  | Pending => active s = true /\ waitStart s = true /\ waitStop s = false /\ sEnds s = true
  | Open => active s = true /\ waitStart s = false /\ waitStop s = false
  | Closing => active s = true /\ waitStart s = false /\ waitStop s = true /\ eEnds s = true
  end.
Definition config (m : str) (p1 p2 : part) (s : state) : Prop :=
  sfilter s = Some m /\ startDefined s = true /\ stopDefined s = true /\ start s = p1 /\ stop s = p2.

Lemma filter_pair m p1 p2 t s ph : config m p1 p2 s -> inPhase ph s ->
  let r := phaseStep (satb p1) (satb p2) (pnameEnds p1 || pctxEnds p1) (pnameEnds p2 || pctxEnds p2) ph t in
  config m p1 p2 (fst (filter m t s)) /\ inPhase (fst r) (fst (filter m t s)) /\ snd (filter m t s) = Some (snd r).
Proof.
  intros (F & D1 & D2 & E1 & E2) P r. unfold filter. rewrite verify_known by exact F. rewrite D1, D2. cbn [negb andb orb].
  unfold r, phaseStep. destruct (isNil t); [cbn [fst snd]; repeat split; assumption|].
  assert (Is : isSingle s = false) by (unfold isSingle; rewrite D1, D2; reflexivity). rewrite Is. cbn [andb].
  fold (nameOk (start s) t). fold (nameOk (stop s) t). fold (satb (start s) t). fold (satb (stop s) t). fold (sEnds s). fold (eEnds s).
  assert (S1 : satb (start s) t = satb p1 t) by (rewrite E1; reflexivity). assert (S2 : satb (stop s) t = satb p2 t) by (rewrite E2; reflexivity).
  assert (S3 : sEnds s = pnameEnds p1 || pctxEnds p1) by (unfold sEnds; rewrite E1; reflexivity). assert (S4 : eEnds s = pnameEnds p2 || pctxEnds p2) by (unfold eEnds; rewrite E2; reflexivity).
  rewrite <- S3, <- S4, <- S1, <- S2. 
  assert (Neg : negb (nameOk (stop s) t) || negb (isNil (pctx (stop s)) || contains (readTagString t LongCtx ShortCtx) (pctx (stop s))) = negb (satb (stop s) t)) by (unfold satb; rewrite negb_andb; reflexivity).
  rewrite Neg. clear Neg.
  destruct ph; cbn [inPhase] in P.
  - destruct P as (P1 & P2 & P3). rewrite P1, P2. cbn [negb orb]. destruct (satb (start s) t); [destruct (sEnds s) eqn:Es|]; cbn [fst snd inPhase]; unfold config, setFlags, sEnds in *; cbn; repeat split; assumption.
  - destruct P as (P1 & P2 & P3 & P4). rewrite P2, orb_true_r. destruct (satb (start s) t); [rewrite P4|]; cbn [fst snd inPhase]; unfold config, setFlags, sEnds in *; cbn; repeat split; assumption.
  - destruct P as (P1 & P2 & P3). rewrite P1, P2, P3. cbn [negb orb]. rewrite orb_false_r. destruct (satb (stop s) t); [destruct (eEnds s) eqn:Es|]; cbn [negb fst snd inPhase]; unfold config, setFlags, reset, eEnds in *; cbn; repeat split; assumption.
  - destruct P as (P1 & P2 & P3 & P4). rewrite P1, P2, P3. cbn [negb orb]. rewrite orb_true_r, P4. destruct (satb (stop s) t); cbn [negb fst snd inPhase]; unfold config, setFlags, reset, eEnds in *; cbn; repeat split; assumption.
Qed.

Lemma run_pair m p1 p2 ts : forall s ph, config m p1 p2 s -> inPhase ph s ->
  snd (run m ts s) = map Some (phaseRun (satb p1) (satb p2) (pnameEnds p1 || pctxEnds p1) (pnameEnds p2 || pctxEnds p2) ph ts).
Proof.
  induction ts as [|t ts IH]; intros s ph C P; [reflexivity|]. destruct (filter_pair m p1 p2 t s ph C P) as (C' & P' & R). cbn [run phaseRun map].
  destruct (filter m t s) as [s' o]. cbn [fst snd] in *. specialize (IH s' _ C' P'). destruct (run m ts s') as [s'' os]. cbn [snd] in *. rewrite IH, R. reflexivity.
Qed.

(** The first call configures. *)
Lemma filter_first m t s0 s b : verify m s0 = (s, b) -> filter m t s0 = if b then (s, None) else filter m t s.
Proof.
  intros H. pose proof (verify_filter m s0 s b H) as F. unfold filter. rewrite H. destruct b; [reflexivity|]. rewrite verify_known by exact F. reflexivity.
Qed.
Lemma run_first m ts s0 s : verify m s0 = (s, false) -> snd (run m ts s0) = snd (run m ts s).
Proof. intros H. destruct ts as [|t ts]; [reflexivity|]. cbn [run]. rewrite (filter_first m t s0 s false H). reflexivity. Qed.

Lemma phase_alternates S E a b : forall ts p, alternates (match p with Idle | Pending => false | _ => true end) (phaseRun S E a b p ts).
Proof.
  induction ts as [|t ts IH]; intros p; [exact I|]. cbn [phaseRun]. unfold phaseStep. destruct (isNil t); [exact (IH p)|].
  destruct p; [destruct (S t); [destruct a|]|destruct (S t)|destruct (E t); [destruct b|]|destruct (E t)]; cbn [fst snd alternates];
    try (split; [reflexivity|]); match goal with |- alternates _ (phaseRun _ _ _ _ ?q _) => exact (IH q) end.
Qed.
Lemma phase_window S E : forall ts seen,
  phaseRun S E false false (if windowOpen S E seen then Open else Idle) ts =
  (fix go seen ts := match ts with [] => [] | t :: r => windowResult S E seen t :: go (t :: seen) r end) seen ts.
Proof.
  induction ts as [|t ts IH]; intros seen; [reflexivity|]. cbn [phaseRun]. rewrite <- IH. unfold windowResult. cbn [windowOpen]. unfold phaseStep.
  destruct (isNil t); [reflexivity|]. destruct (windowOpen S E seen); [destruct (E t)|destruct (S t)]; reflexivity.
Qed.

(** *** single filters *)
Definition singleMatch (p : part) (t : tag) : bool := nameOk p t && (isNil (pctx p) || contains (pctx p) (readTagString t LongCtx ShortCtx)).
Definition singleConfig (m : str) (p : part) (s : state) : Prop := sfilter s = Some m /\ xorb (startDefined s) (stopDefined s) = true /\ start s = p.
Lemma filter_single m p t s : singleConfig m p s ->
  singleConfig m p (fst (filter m t s)) /\ snd (filter m t s) = Some (if negb (isNil t) && singleMatch p t then Matching else Ignore).
Proof.
  intros (F & D & E). unfold filter. rewrite verify_known by exact F. unfold isSingle. rewrite D.
  assert (N : negb (startDefined s) && negb (stopDefined s) = false) by (destruct (startDefined s), (stopDefined s); [reflexivity..|discriminate]). rewrite N.
  assert (N2 : startDefined s && stopDefined s = false) by (destruct (startDefined s), (stopDefined s); [discriminate|reflexivity..]). rewrite N2.
  cbn [orb]. destruct (isNil t); [cbn [fst snd negb andb]; repeat split; assumption|]. cbn [andb negb].
  fold (nameOk (start s) t). rewrite E. fold (singleMatch p t). destruct (singleMatch p t); cbn [fst snd]; repeat split; assumption.
Qed.
Lemma run_single m p ts : forall s, singleConfig m p s -> snd (run m ts s) = map (fun t => Some (if negb (isNil t) && singleMatch p t then Matching else Ignore)) ts.
Proof.
  induction ts as [|t ts IH]; intros s C; [reflexivity|]. destruct (filter_single m p t s C) as [C' R]. cbn [run map]. destruct (filter m t s) as [s' o]. cbn [fst snd] in *.
  specialize (IH s' C'). destruct (run m ts s') as [s'' os]. cbn [snd] in *. rewrite IH, R. reflexivity.
Qed.

(** *** changing the filter *)
Lemma moveStop_setKey k s : moveStop (setKey k s) = setKey k (moveStop s).
Proof. unfold moveStop. change (isSingle (setKey k s)) with (isSingle s). change (stopDefined (setKey k s)) with (stopDefined s). destruct (isSingle s && stopDefined s); reflexivity. Qed.
Lemma collapse_setKey k s : collapse (setKey k s) = setKey k (collapse s).
Proof. unfold collapse. change (start (setKey k s)) with (start s). change (stop (setKey k s)) with (stop s). destruct (_ && _); reflexivity. Qed.
Lemma verify_setKey m s s' : sfilter s <> Some m -> sfilter s' <> Some m ->
  exists k, fst (verify m s) = setKey k (fst (verify m s')) /\ snd (verify m s) = snd (verify m s').
Proof.
  intros H H'. unfold verify. rewrite !verify_new by assumption. fold (base m (singleKey s)). fold (base m (singleKey s')).
  change (base m (singleKey s)) with (setKey (singleKey s) (base m (singleKey s'))). set (k := singleKey s). set (z := base m (singleKey s')).
  destruct (isNil m); [exists k; split; reflexivity|]. destruct (strip m) as [c|]; [|exists k; split; reflexivity].
  destruct (sides c) as [a b]. change (start (setKey k z)) with (start z). change (startDefined (setKey k z)) with (startDefined z).
  set (A := if isNil a then Some (setStart (setKey k z) _ _) else _). set (A' := if isNil a then Some (setStart z _ _) else _).
  assert (EA : A = option_map (setKey k) A') by (unfold A, A'; destruct (isNil a); [reflexivity|]; destruct (parse a (start z)); reflexivity).
  rewrite EA. clearbody A'. clear EA A. destruct A' as [s1|]; cbn [option_map]; [|exists k; split; reflexivity].
  change (stop (setKey k s1)) with (stop s1). change (stopDefined (setKey k s1)) with (stopDefined s1).
  set (B := if isNil b then Some (setStop (setKey k s1) _ _) else _). set (B' := if isNil b then Some (setStop s1 _ _) else _).
  assert (EB : B = option_map (setKey k) B') by (unfold B, B'; destruct (isNil b); [reflexivity|]; destruct (parse b (stop s1)); reflexivity).
  rewrite EB. clearbody B'. clear EB B. destruct B' as [s2|]; cbn [option_map]; [|exists k; split; reflexivity].
  rewrite moveStop_setKey, collapse_setKey. cbn [fst snd]. eexists. split; [|reflexivity]. instantiate (1 := singleKey (noteSingle (collapse (moveStop s2)))). reflexivity.
Qed.
Lemma filter_setKey m t s k : sfilter s = Some m -> exists k', fst (filter m t (setKey k s)) = setKey k' (fst (filter m t s)) /\ snd (filter m t (setKey k s)) = snd (filter m t s).
Proof.
  intros F. unfold filter. rewrite !verify_known by exact F. cbv zeta. unfold isSingle. cbn [setKey startDefined stopDefined start stop active waitStart waitStop].
  repeat match goal with |- context [if ?x then _ else _] => destruct x end; eexists; (split; [|reflexivity]);
    unfold setKey, setFlags, reset; destruct s; cbn; reflexivity.
Qed.
Lemma filter_keeps m t s : sfilter s = Some m -> sfilter (fst (filter m t s)) = Some m.
Proof.
  intros F. unfold filter. rewrite verify_known by exact F. cbv zeta. 
  repeat match goal with |- context [if ?x then _ else _] => destruct x end; exact F.
Qed.
Lemma run_setKey m ts : forall s k, sfilter s = Some m -> snd (run m ts (setKey k s)) = snd (run m ts s).
Proof.
  induction ts as [|t ts IH]; intros s k F; [reflexivity|]. cbn [run]. destruct (filter_setKey m t s k F) as (k' & E1 & E2). pose proof (filter_keeps m t s F) as F'.
  destruct (filter m t (setKey k s)) as [s1 o1]. destruct (filter m t s) as [s2 o2]. cbn [fst snd] in *. subst s1 o1. specialize (IH s2 k' F').
  destruct (run m ts (setKey k' s2)), (run m ts s2). cbn [snd] in *. congruence.
Qed.
Lemma run_new m ts s s' : sfilter s <> Some m -> sfilter s' <> Some m -> snd (run m ts s) = snd (run m ts s').
Proof.
  intros H H'. destruct ts as [|t ts]; [reflexivity|]. destruct (verify_setKey m s s' H H') as (k & E1 & E2).
  destruct (verify m s) as [z b] eqn:Ev. destruct (verify m s') as [z' b'] eqn:Ev'. cbn [fst snd] in *. subst z b.
  pose proof (verify_filter m s' z' b' Ev') as F. cbn [run]. rewrite (filter_first m t s _ _ Ev), (filter_first m t s' _ _ Ev').
  destruct b'.
  - pose proof (run_setKey m ts z' k F). destruct (run m ts (setKey k z')), (run m ts z'). cbn [snd] in *. congruence.
  - pose proof (run_setKey m (t :: ts) z' k F) as R. cbn [run] in R. destruct (filter m t (setKey k z')) as [s1 o1]. destruct (filter m t z') as [s2 o2]. exact R.
Qed.

Lemma decider_eq p (S : tag -> bool) : (forall t, S t = true <-> satisfies p t) -> forall t, satb p t = S t.
Proof. intros H t. pose proof (satb_iff p t). specialize (H t). destruct (satb p t), (S t); try reflexivity; [symmetry; apply H; tauto|tauto]. Qed.
Lemma phaseRun_ext S S' E E' a b ts : (forall t, S t = S' t) -> (forall t, E t = E' t) -> forall p, phaseRun S E a b p ts = phaseRun S' E' a b p ts.
Proof.
  intros HS HE. induction ts as [|t ts IH]; intros p; [reflexivity|]. cbn [phaseRun].
  assert (X : phaseStep S E a b p t = phaseStep S' E' a b p t) by (unfold phaseStep; rewrite HS, HE; reflexivity). rewrite X, IH. reflexivity.
Qed.
Lemma singleMatch_iff p t : singleMatch p t = true <->
  (pname p = [] \/ textOf LongName ShortName t (pname p)) /\ (pctx p = [] \/ exists c, textOf LongCtx ShortCtx t c /\ substring c (pctx p)).
Proof.
  unfold singleMatch. rewrite andb_true_iff, nameOk_iff, orb_true_iff, isNil_iff, contains_iff. split.
  - intros [H1 [H2|H2]]; (split; [exact H1|]); [left; exact H2|right]. eexists. split; [apply read_textOf; reflexivity|exact H2].
  - intros [H1 [H2|(c & H2 & H3)]]; (split; [exact H1|]); [left; exact H2|right]. apply read_textOf in H2. rewrite H2. exact H3.
Qed.
Lemma filter_empty m s : snd (filter m [] s) = None \/ snd (filter m [] s) = Some Ignore.
Proof. unfold filter. destruct (verify m s) as [s' []]; [left; reflexivity|]. rewrite orb_true_r. right. reflexivity. Qed.
Lemma run_length m ts : forall s, length (snd (run m ts s)) = length ts.
Proof. induction ts as [|t ts IH]; intros s; [reflexivity|]. cbn [run]. destruct (filter m t s) as [s' o]. specialize (IH s'). destruct (run m ts s'). cbn [snd length] in *. rewrite IH. reflexivity. Qed.
