(** Feedback-loop detection: soundness, coverage, and uniqueness of the closing edges. *)
From Coq Require Import Ascii String ZArith NArith Bool Arith Permutation Lia List.
From Verif Require Import Base TopoModel TopoSpec TopoProofs TopoSearch.
Import ListNotations.
Local Open Scope nat_scope.

(** ** Trails: the path and the edges along it *)

Fixpoint trail (p : list nat) (pe : list Edge) (c : nat) : Prop :=
  match p, pe with
  | [], [] => True
  | b :: p', e :: pe' => src e = b /\ dst e = hd c p' /\ trail p' pe' c
  | _, _ => False
  end.

Lemma trail_src p : forall pe c, trail p pe c -> map src pe = p.
Proof.
  induction p as [|b p IH]; intros [|e pe] c H; cbn in *; try tauto. destruct H as (H1 & _ & H3).
  rewrite H1, (IH pe c H3). reflexivity.
Qed.

Lemma trail_snoc p : forall pe c e, trail p pe c -> src e = c -> trail (p ++ [c]) (pe ++ [e]) (dst e).
Proof.
  induction p as [|b p IH]; intros [|x pe] c e H Hs; cbn in *; try tauto.
  destruct H as (H1 & H2 & H3). split; [exact H1|]. split; [|apply IH; assumption].
  rewrite H2. destruct p; reflexivity.
Qed.

Lemma trail_skipn i : forall p pe c, trail p pe c -> trail (skipn i p) (skipn i pe) c.
Proof.
  induction i as [|i IH]; intros p pe c H; [exact H|].
  destruct p as [|b p], pe as [|e pe]; cbn in *; try tauto. apply IH. tauto.
Qed.

Lemma trail_consecutive p : forall pe c, trail p pe c -> consecutive pe.
Proof.
  induction p as [|b p IH]; intros [|x pe] c H i e e' He He'; cbn in H; try tauto; [destruct i; discriminate|].
  destruct H as (H1 & H2 & H3). destruct i as [|i].
  - cbn in He, He'. inversion He; subst x. destruct pe as [|y pe]; [discriminate|]. inversion He'; subst y.
    destruct p as [|d p]; cbn in H3; [tauto|]. cbn in H2. rewrite H2. symmetry. apply H3.
  - cbn in He. change (nth_error (x :: pe) (S (S i))) with (nth_error pe (S i)) in He'.
    apply (IH pe c H3 i e e' He He').
Qed.

Lemma trail_last p : forall front e c, trail p (front ++ [e]) c -> dst e = c.
Proof.
  induction p as [|b p IH]; intros [|x front] e c H; cbn in H; try tauto.
  - destruct H as (_ & H2 & H3). destruct p; [exact H2|cbn in H3; tauto].
  - destruct H as (_ & _ & H3). apply (IH front e c H3).
Qed.

Lemma indexOf_some l b i : indexOf l b = Some i -> nth_error l i = Some b.
Proof.
  revert i. induction l as [|c l IH]; intros i H; cbn in H; [discriminate|].
  destruct (Nat.eqb c b) eqn:E.
  - apply Nat.eqb_eq in E. subst. inversion H; subst. reflexivity.
  - destruct (indexOf l b) as [j|] eqn:Ej; cbn in H; [|discriminate]. inversion H; subst. cbn. apply IH. reflexivity.
Qed.

Lemma indexOf_In l b : In b l -> exists i, indexOf l b = Some i.
Proof.
  induction l as [|c l IH]; intros H; [destruct H|]. cbn. destruct (Nat.eqb c b) eqn:E; [exists 0; reflexivity|].
  destruct H as [->|H]; [rewrite Nat.eqb_refl in E; discriminate|]. destruct (IH H) as [i ->]. exists (S i). reflexivity.
Qed.

Lemma indexOf_app_l l1 l2 b : In b l1 -> indexOf (l1 ++ l2) b = indexOf l1 b.
Proof.
  induction l1 as [|c l1 IH]; intros H; [destruct H|]. cbn. destruct (Nat.eqb c b) eqn:E; [reflexivity|].
  destruct H as [->|H]; [rewrite Nat.eqb_refl in E; discriminate|]. rewrite (IH H). reflexivity.
Qed.

Lemma indexOf_app_r l1 l2 b : ~ In b l1 -> indexOf (l1 ++ l2) b = option_map (plus (length l1)) (indexOf l2 b).
Proof.
  induction l1 as [|c l1 IH]; intros H; cbn [app indexOf length].
  - destruct (indexOf l2 b); reflexivity.
  - destruct (Nat.eqb c b) eqn:E; [apply Nat.eqb_eq in E; elim H; left; exact E|].
    rewrite IH by (intros X; apply H; right; exact X). destruct (indexOf l2 b); reflexivity.
Qed.

(** ** Closing edges *)

Definition closingOf (c : list Edge) : list Edge := match rev c with e :: _ => [e] | [] => [] end.
Definition closings (l : list (list Edge)) : list Edge := flat_map closingOf l.

Lemma closingOf_snoc front e : closingOf (front ++ [e]) = [e].
Proof. unfold closingOf. rewrite rev_app_distr. reflexivity. Qed.

Lemma closings_app l1 l2 : closings (l1 ++ l2) = closings l1 ++ closings l2.
Proof. unfold closings. rewrite flat_map_app. reflexivity. Qed.

Lemma closings_closes l e : In e (closings l) <-> closes l e.
Proof.
  unfold closings, closes. rewrite in_flat_map. split.
  - intros (c & Hc & He). unfold closingOf in He. destruct (rev c) as [|x r] eqn:E; [destruct He|].
    destruct He as [<-|[]]. exists c, (rev r). split; [exact Hc|].
    rewrite <- (rev_involutive c), E. reflexivity.
  - intros (c & front & Hc & ->). exists (front ++ [e]). split; [exact Hc|]. rewrite closingOf_snoc. left. reflexivity.
Qed.

(** ** The walk *)

Definition finOk (es cl : list Edge) (fin : list nat) : Prop :=
  forall f1 u f2, fin = f1 ++ u :: f2 -> forall e, In e es -> src e = u -> In e cl \/ In (dst e) f1.

Lemma finOk_mono es cl cl' fin : incl cl cl' -> finOk es cl fin -> finOk es cl' fin.
Proof. intros H Hf f1 u f2 E e He Hs. destruct (Hf f1 u f2 E e He Hs) as [X|X]; [left; apply H; exact X|right; exact X]. Qed.

Lemma finOk_snoc es cl fin u :
  finOk es cl fin -> (forall e, In e es -> src e = u -> In e cl \/ In (dst e) fin) -> finOk es cl (fin ++ [u]).
Proof.
  intros H Hu f1 v f2 E e He Hs. destruct (split_app _ _ _ _ _ E) as [(q & E')|(p & -> & E')].
  - apply (H f1 v q E' e He Hs).
  - destruct p as [|x p]; [|cbn in E'; inversion E'; destruct p; discriminate].
    cbn in E'. inversion E'; subst. rewrite app_nil_r. apply Hu; auto.
Qed.

Definition unv (col : nat -> Colour) (ds : list nat) : nat :=
  length (filter (fun d => match col d with Unvisited => true | _ => false end) ds).

Lemma unv_le col ds : unv col ds <= length ds.
Proof. unfold unv. induction ds as [|d r IH]; cbn; [lia|]. destruct (col d); cbn; lia. Qed.

Lemma unv_mono col col' ds : (forall b, col' b = Unvisited -> col b = Unvisited) -> unv col' ds <= unv col ds.
Proof.
  intros H. unfold unv. induction ds as [|d r IH]; cbn; [lia|].
  destruct (col' d) eqn:E; [rewrite (H d E); cbn; lia| |]; destruct (col d); cbn; lia.
Qed.

Lemma setColour_same c b v : setColour c b v b = v.
Proof. unfold setColour. rewrite Nat.eqb_refl. reflexivity. Qed.

Lemma setColour_other c b v x : x <> b -> setColour c b v x = c x.
Proof. intros H. unfold setColour. apply Nat.eqb_neq in H. rewrite H. reflexivity. Qed.

Lemma unv_mark_lt col b v ds : In b ds -> col b = Unvisited -> v <> Unvisited -> unv (setColour col b v) ds < unv col ds.
Proof.
  intros Hb Hc Hv. unfold unv. induction ds as [|d r IH]; [destruct Hb|]. cbn [filter].
  destruct (Nat.eq_dec d b) as [->|Hd].
  - rewrite setColour_same, Hc.
    assert (L : unv (setColour col b v) r <= unv col r).
    { apply unv_mono. intros x. unfold setColour. destruct (Nat.eqb x b); [congruence|auto]. }
    unfold unv in L. destruct v; [congruence| |]; cbn; lia.
  - destruct Hb as [Hb|Hb]; [congruence|]. rewrite setColour_other by exact Hd. specialize (IH Hb).
    destruct (col d); cbn; lia.
Qed.

Record loopInv (es : list Edge) (s : LoopSt) (fin : list nat) : Prop := {
  li_path : NoDup (path s);
  li_gray : forall b, colour s b = Gray <-> In b (path s);
  li_black : forall b, colour s b = Black <-> In b fin;
  li_fin : NoDup fin;
  li_ok : finOk es (closings (loops s)) fin;
  li_edges : incl (pathEdges s) es;
  li_loops : forall c, In c (loops s) -> cycle es c /\ simple c;
  li_seen : forall e, In e (closings (loops s)) -> colour s (src e) <> Unvisited }.

Record loopPost (es : list Edge) (cur : nat) (s s' : LoopSt) (fin fin' : list nat) : Prop := {
  lp_inv : loopInv es s' fin';
  lp_path : path s' = path s;
  lp_pathEdges : pathEdges s' = pathEdges s;
  lp_cur : In cur fin';
  lp_grow : incl fin fin';
  lp_more : exists more, loops s' = loops s ++ more /\ NoDup (closings more) /\
              forall e, In e (closings more) -> colour s (src e) = Unvisited }.

Lemma record_cycle es p pe c i :
  trail p pe c -> NoDup p -> incl pe es -> indexOf p c = Some i -> cycle es (skipn i pe) /\ simple (skipn i pe).
Proof.
  intros Ht Hn Hi Hx. apply indexOf_some in Hx.
  pose proof (trail_skipn i p pe c Ht) as Hk.
  assert (Hp : exists r, skipn i p = c :: r).
  { clear - Hx. revert p Hx. induction i as [|i IH]; intros [|b p] Hx; cbn in *; try discriminate.
    - inversion Hx; subst. exists p. reflexivity.
    - apply IH. exact Hx. }
  destruct Hp as [r Er]. rewrite Er in Hk.
  destruct (skipn i pe) as [|f rest] eqn:Es; [destruct Hk|].
  split.
  - split; [|split].
    + intros x Hxx. apply Hi. rewrite <- (firstn_skipn i pe). apply in_app_iff. right. rewrite Es. exact Hxx.
    + apply (trail_consecutive _ _ _ Hk).
    + destruct (exists_last (l := f :: rest)) as (front & l & E); [discriminate|].
      exists f, l, front, rest. split; [reflexivity|]. split; [exact E|].
      destruct Hk as (H1 & H2 & H3). assert (Hk : trail (c :: r) (front ++ [l]) c) by (rewrite <- E; repeat split; assumption).
      rewrite (trail_last _ _ _ _ Hk). symmetry. exact H1.
  - unfold simple. rewrite (trail_src _ _ _ Hk), <- Er.
    rewrite <- (firstn_skipn i p) in Hn. apply NoDup_app_iff_local in Hn. apply Hn.
Qed.

Lemma closings_last_trail p pe e c i : trail p (pe ++ [e]) c -> indexOf p c = Some i ->
  exists front, skipn i (pe ++ [e]) = front ++ [e].
Proof.
  intros Ht Hx. apply indexOf_some in Hx.
  assert (L : i < length p) by (apply nth_error_Some; congruence).
  assert (Hl : length p = length pe + 1).
  { rewrite <- (trail_src _ _ _ Ht), map_length, app_length. reflexivity. }
  exists (skipn i pe). rewrite skipn_app. replace (i - length pe) with 0 by lia. reflexivity.
Qed.

Lemma loopDfs_spec es a : adjOk es a -> (forall b, NoDup (outOf a b)) -> forall fuel cur s fin,
  loopInv es s fin -> colour s cur = Unvisited -> trail (path s) (pathEdges s) cur ->
  unv (setColour (colour s) cur Gray) (destinations a) < fuel ->
  exists fin', loopPost es cur s (loopDfs fuel a cur s) fin fin'.
Proof.
  intros Ha Hnd. induction fuel as [|f IH]; intros cur s fin Hi Hc Ht Hf; [lia|].
  cbn [loopDfs]. cbv zeta.
  set (step := fun (s : LoopSt) (e : Edge) => _ ).
  set (s1 := mkLoopSt (setColour (colour s) cur Gray) (path s ++ [cur]) (pathEdges s) (loops s)).
  destruct Hi as [I1 I2 I3 I4 I5 I6 I7 I8].
  assert (Hcp : ~ In cur (path s)) by (intros X; apply I2 in X; congruence).
  assert (Hcf : ~ In cur fin) by (intros X; apply I3 in X; congruence).
  assert (Inv1 : loopInv es s1 fin).
  { split; cbn [path colour pathEdges loops s1]; try assumption.
    - apply (Permutation_NoDup (l := cur :: path s)); [apply Permutation_cons_append|]. constructor; assumption.
    - intros b. rewrite in_app_iff. unfold setColour. destruct (Nat.eqb_spec b cur) as [->|Hb].
      + split; [intros _; right; left; reflexivity|reflexivity].
      + rewrite I2. cbn. intuition congruence.
    - intros b. unfold setColour. destruct (Nat.eqb_spec b cur) as [->|Hb]; [|apply I3].
      split; [discriminate|contradiction].
    - intros e He. specialize (I8 e He). unfold setColour. destruct (Nat.eqb (src e) cur); [discriminate|exact I8]. }
  assert (F : forall l s2 fin2 done more,
    NoDup (done ++ l) -> (forall e, In e (done ++ l) -> In e es /\ src e = cur) ->
    loopInv es s2 fin2 -> path s2 = path s ++ [cur] -> pathEdges s2 = pathEdges s -> incl fin fin2 -> ~ In cur fin2 ->
    loops s2 = loops s ++ more -> NoDup (closings more) ->
    (forall e, In e (closings more) -> In e done \/ (src e <> cur /\ colour s (src e) = Unvisited)) ->
    (forall e, In e done -> In e (closings (loops s2)) \/ In (dst e) fin2) ->
    unv (colour s2) (destinations a) <= f ->
    exists fin3 more3,
      let s3 := fold_left step l s2 in
      loopInv es s3 fin3 /\ path s3 = path s ++ [cur] /\ pathEdges s3 = pathEdges s /\ incl fin fin3 /\ ~ In cur fin3 /\
      loops s3 = loops s ++ more3 /\ NoDup (closings more3) /\
      (forall e, In e (closings more3) -> In e (done ++ l) \/ (src e <> cur /\ colour s (src e) = Unvisited)) /\
      (forall e, In e (done ++ l) -> In e (closings (loops s3)) \/ In (dst e) fin3)).
  { induction l as [|e l IHl]; intros s2 fin2 done more N1 N2 V P2 PE2 G2 NC L2 ND2 C2 D2 U2.
    - exists fin2, more. rewrite app_nil_r in *. cbn [fold_left]. cbv zeta.
      split; [exact V|]. split; [exact P2|]. split; [exact PE2|]. split; [exact G2|]. split; [exact NC|]. split; [exact L2|].
      split; [exact ND2|]. split; [exact C2|exact D2].
    - cbn [fold_left].
      assert (He : In e es /\ src e = cur) by (apply N2; apply in_app_iff; right; left; reflexivity).
      destruct He as [He Hsrc].
      assert (Tr : trail (path s2) (pathEdges s2 ++ [e]) (dst e)).
      { rewrite P2, PE2. apply trail_snoc; [exact Ht|exact Hsrc]. }
      assert (Enot : ~ In e done).
      { intros X. apply (NoDup_app_disj _ _ N1 e X). left. reflexivity. }
      assert (E1 : exists fin3 more3,
        let s3 := step s2 e in
        loopInv es s3 fin3 /\ path s3 = path s ++ [cur] /\ pathEdges s3 = pathEdges s /\ incl fin fin3 /\ ~ In cur fin3 /\
        loops s3 = loops s ++ more3 /\ NoDup (closings more3) /\
        (forall x, In x (closings more3) -> In x (done ++ [e]) \/ (src x <> cur /\ colour s (src x) = Unvisited)) /\
        (forall x, In x (done ++ [e]) -> In x (closings (loops s3)) \/ In (dst x) fin3) /\
        unv (colour s3) (destinations a) <= f).
      { unfold step. cbv zeta. cbn [colour path pathEdges loops].
        assert (Vp : loopInv es (mkLoopSt (colour s2) (path s2) (pathEdges s2 ++ [e]) (loops s2)) fin2).
        { destruct V as [V1 V2 V3 V4 V5 V6 V7 V8]. split; cbn [colour path pathEdges loops]; try assumption.
          intros x Hx. apply in_app_iff in Hx as [Hx|[<-|[]]]; [apply V6; exact Hx|exact He]. }
        destruct (colour s2 (dst e)) eqn:Ec.
        - (* unvisited: recursion *)
          assert (Hd : In (dst e) (destinations a)).
          { apply (destinations_In es a _ Ha). exists cur, e. auto. }
          destruct (IH (dst e) (mkLoopSt (colour s2) (path s2) (pathEdges s2 ++ [e]) (loops s2)) fin2 Vp) as (fin3 & R).
          { exact Ec. }
          { exact Tr. }
          { cbn [colour]. pose proof (unv_mark_lt (colour s2) (dst e) Gray _ Hd Ec). apply Nat.lt_le_trans with (unv (colour s2) (destinations a)); [apply H; discriminate|exact U2]. }
          destruct R as [R1 R2 R3 R4 R5 (mo & R6 & R7 & R8)].
          set (s3 := loopDfs f a (dst e) _) in *. cbn [path pathEdges loops colour] in R2, R3, R6, R8.
          exists fin3, (more ++ mo).
          destruct V as [V1 V2 V3 V4 V5 V6 V7 V8]. destruct R1 as [W1 W2 W3 W4 W5 W6 W7 W8].
          split.
          { split; cbn [colour path pathEdges loops]; try assumption.
            rewrite R3, removelast_last. exact V6. }
          split; [rewrite R2; exact P2|]. split; [rewrite R3, removelast_last; exact PE2|].
          split; [intros x Hx; apply R5, G2, Hx|].
          split.
          { intros X. apply W3 in X. assert (Y : colour s3 cur = Gray).
            { apply W2. rewrite R2, P2. apply in_app_iff. right. left. reflexivity. } congruence. }
          split; [rewrite R6, L2, <- app_assoc; reflexivity|].
          split.
          { rewrite closings_app. apply NoDup_app_iff_local. split; [exact ND2|]. split; [exact R7|].
            intros x Hx Hy. apply R8 in Hy. apply (V8 x); [|exact Hy]. rewrite L2, closings_app, in_app_iff. right. exact Hx. }
          split.
          { intros x Hx. rewrite closings_app, in_app_iff in Hx. destruct Hx as [Hx|Hx].
            - destruct (C2 x Hx) as [Y|Y]; [left; apply in_app_iff; left; exact Y|right; exact Y].
            - right. pose proof (R8 x Hx) as Y. split.
              + intros Z. rewrite Z in Y. assert (T : colour s2 cur = Gray).
                { apply V2. rewrite P2. apply in_app_iff. right. left. reflexivity. } congruence.
              + destruct (colour s (src x)) eqn:Z; [reflexivity| |].
                * apply I2 in Z. assert (T : colour s2 (src x) = Gray).
                  { apply V2. rewrite P2. apply in_app_iff. left. exact Z. } congruence.
                * apply I3 in Z. apply G2, V3 in Z. congruence. }
          split.
          { intros x Hx. apply in_app_iff in Hx as [Hx|[<-|[]]].
            - destruct (D2 x Hx) as [Y|Y]; [left; rewrite R6, closings_app, in_app_iff; left; exact Y|right; apply R5; exact Y].
            - right. exact R4. }
          apply (Nat.le_trans _ (unv (colour s2) (destinations a))); [|exact U2]. apply unv_mono.
          intros b Hb. cbn [colour] in Hb. destruct (colour s2 b) eqn:Z; [reflexivity| |].
          + apply V2 in Z. assert (T : colour s3 b = Gray) by (apply W2; rewrite R2; exact Z). congruence.
          + apply V3, R5, W3 in Z. congruence.
        - (* gray: a loop *)
          unfold recordLoop. cbn [path pathEdges colour loops].
          assert (Hin : In (dst e) (path s2)) by (apply (li_gray es s2 fin2 V); exact Ec).
          destruct (indexOf_In _ _ Hin) as [i Ei]. rewrite Ei. cbn [colour path pathEdges loops].
          destruct (closings_last_trail _ _ _ _ _ Tr Ei) as [front Ef].
          destruct V as [V1 V2 V3 V4 V5 V6 V7 V8].
          assert (Ecyc : cycle es (skipn i (pathEdges s2 ++ [e])) /\ simple (skipn i (pathEdges s2 ++ [e]))).
          { apply (record_cycle es (path s2) _ (dst e)); try assumption. apply (li_edges es _ _ Vp). }
          exists fin2, (more ++ [skipn i (pathEdges s2 ++ [e])]).
          assert (Ecl : closings [skipn i (pathEdges s2 ++ [e])] = [e]).
          { unfold closings. cbn [flat_map]. rewrite Ef, closingOf_snoc. reflexivity. }
          assert (Efresh : ~ In e (closings (loops s2))).
          { rewrite L2, closings_app, in_app_iff. intros [X|X].
            - apply I8 in X. congruence.
            - destruct (C2 e X) as [Y|[Y _]]; [contradiction|congruence]. }
          split.
          { split; cbn [colour path pathEdges loops]; try assumption.
            - apply (finOk_mono es (closings (loops s2))); [|exact V5]. rewrite closings_app. intros x Hx. apply in_app_iff. left. exact Hx.
            - rewrite removelast_last. exact V6.
            - intros c Hc'. apply in_app_iff in Hc' as [Hc'|[<-|[]]]; [apply V7; exact Hc'|exact Ecyc].
            - intros x Hx. rewrite closings_app, Ecl in Hx. apply in_app_iff in Hx as [Hx|[<-|[]]]; [apply V8; exact Hx|].
              assert (T : colour s2 cur = Gray) by (apply V2; rewrite P2; apply in_app_iff; right; left; reflexivity).
              rewrite Hsrc, T. discriminate. }
          split; [exact P2|]. split; [rewrite removelast_last; exact PE2|]. split; [exact G2|]. split; [exact NC|].
          split; [rewrite L2, <- app_assoc; reflexivity|].
          rewrite !closings_app, Ecl.
          split.
          { apply NoDup_app_iff_local. split; [exact ND2|]. split; [constructor; [intros []|constructor]|].
            intros x Hx [<-|[]]. apply Efresh. rewrite L2, closings_app, in_app_iff. right. exact Hx. }
          split.
          { intros x Hx. apply in_app_iff in Hx as [Hx|[<-|[]]].
            - destruct (C2 x Hx) as [Y|Y]; [left; apply in_app_iff; left; exact Y|right; exact Y].
            - left. apply in_app_iff. right. left. reflexivity. }
          split; [|exact U2].
          intros x Hx. apply in_app_iff in Hx as [Hx|[<-|[]]].
          + destruct (D2 x Hx) as [Y|Y]; [left; apply in_app_iff; left; exact Y|right; exact Y].
          + left. apply in_app_iff. right. left. reflexivity.
        - (* black: nothing *)
          cbn [colour path pathEdges loops]. destruct V as [V1 V2 V3 V4 V5 V6 V7 V8].
          exists fin2, more. rewrite removelast_last.
          split; [split; cbn [colour path pathEdges loops]; assumption|].
          split; [exact P2|]. split; [exact PE2|]. split; [exact G2|]. split; [exact NC|]. split; [exact L2|]. split; [exact ND2|].
          split; [intros x Hx; destruct (C2 x Hx) as [Y|Y]; [left; apply in_app_iff; left; exact Y|right; exact Y]|].
          split; [|exact U2].
          intros x Hx. apply in_app_iff in Hx as [Hx|[<-|[]]]; [apply D2; exact Hx|]. right. apply V3. exact Ec. }
      destruct E1 as (fin3 & more3 & Q). cbv zeta in Q. destruct Q as (Q1 & Q2 & Q3 & Q4 & Q5 & Q6 & Q7 & Q8 & Q9 & Q10).
      destruct (IHl (step s2 e) fin3 (done ++ [e]) more3) as (fin4 & more4 & Z).
      all: try assumption.
      { rewrite <- app_assoc. exact N1. }
      { intros x Hx. apply N2. rewrite <- app_assoc in Hx. exact Hx. }
      exists fin4, more4. rewrite <- app_assoc in Z. exact Z. }
  destruct (F (outOf a cur) s1 fin [] []) as (fin3 & more3 & Z).
  { apply Hnd. }
  { intros e He. cbn in He. apply (outOf_In es a cur e Ha) in He. exact He. }
  { exact Inv1. }
  { reflexivity. }
  { reflexivity. }
  { intros x Hx; exact Hx. }
  { exact Hcf. }
  { cbn. rewrite app_nil_r. reflexivity. }
  { constructor. }
  { intros e []. }
  { intros e []. }
  { cbn [colour s1]. lia. }
  cbv zeta in Z. cbn [app] in Z. destruct Z as (Z1 & Z2 & Z3 & Z4 & Z5 & Z6 & Z7 & Z8 & Z9).
  set (s3 := fold_left step (outOf a cur) s1) in *.
  exists (fin3 ++ [cur]).
  destruct Z1 as [W1 W2 W3 W4 W5 W6 W7 W8].
  assert (Rp : removelast (path s3) = path s) by (rewrite Z2; apply removelast_last).
  split; cbn [colour path pathEdges loops].
  - split; cbn [colour path pathEdges loops]; try assumption.
    + rewrite Rp. exact I1.
    + intros b. rewrite Rp. unfold setColour. destruct (Nat.eqb_spec b cur) as [->|Hb].
      * split; [discriminate|contradiction].
      * rewrite W2, Z2, in_app_iff. cbn. intuition congruence.
    + intros b. rewrite in_app_iff. unfold setColour. destruct (Nat.eqb_spec b cur) as [->|Hb].
      * split; [intros _; right; left; reflexivity|reflexivity].
      * rewrite W3. cbn. intuition congruence.
    + apply (Permutation_NoDup (l := cur :: fin3)); [apply Permutation_cons_append|]. constructor; assumption.
    + apply finOk_snoc; [exact W5|]. intros e He Hs. apply Z9. apply (outOf_In es a cur e Ha). auto.
    + intros e He. specialize (W8 e He). unfold setColour. destruct (Nat.eqb (src e) cur); [discriminate|exact W8].
  - exact Rp.
  - exact Z3.
  - apply in_app_iff. right. left. reflexivity.
  - intros x Hx. apply in_app_iff. left. apply Z4. exact Hx.
  - exists more3. split; [exact Z6|]. split; [exact Z7|].
    intros e He. destruct (Z8 e He) as [X|[_ X]]; [|exact X].
    apply (outOf_In es a cur e Ha) in X as [_ X]. rewrite X. exact Hc.
Qed.

(** ** Distinct edges stay distinct in the adjacency list *)

Lemma portPush_perm p e m : Permutation (e :: flat_map snd m) (flat_map snd (portPush p e m)).
Proof.
  induction m as [|[q es] r IH]; cbn [portPush flat_map snd]; [reflexivity|].
  destruct (portEq q p); cbn [flat_map snd].
  - rewrite <- app_assoc. cbn [app]. apply Permutation_middle.
  - rewrite Permutation_middle. apply Permutation_app_head. exact IH.
Qed.

Lemma adj_distinct es : NoDup es -> forall b m, In (b, m) (computeAdjacencyList es) -> NoDup (flat_map snd m).
Proof.
  unfold computeAdjacencyList. intros Hn.
  assert (H : forall l a pre, NoDup (pre ++ l) -> (forall b e, inAdj a b e -> In e pre) ->
    (forall b m, In (b, m) a -> NoDup (flat_map snd m)) ->
    forall b m, In (b, m) (fold_left (fun a e => adjPush e a) l a) -> NoDup (flat_map snd m)).
  { induction l as [|e l IH]; intros a pre N Hi Hd; cbn [fold_left]; [exact Hd|].
    apply (IH (adjPush e a) (pre ++ [e])).
    - rewrite <- app_assoc. exact N.
    - intros b x Hx. apply inAdj_push in Hx as [Hx|[-> _]]; apply in_app_iff; [left; eapply Hi; exact Hx|right; left; reflexivity].
    - assert (Hf : forall b m, In (b, m) a -> ~ In e (flat_map snd m)).
      { intros b m Hm X. apply (NoDup_app_disj _ _ N e); [|left; reflexivity]. apply (Hi b). exists m. split; [exact Hm|exact X]. }
      clear - Hd Hf. induction a as [|[c m] r IHa]; intros b' m' Hm; cbn [adjPush] in Hm.
      + destruct Hm as [E|[]]. inversion E; subst. cbn. constructor; [intros []|constructor].
      + destruct (Nat.eqb c (src e)) eqn:E.
        * destruct Hm as [X|X]; [inversion X; subst|apply (Hd b'); right; exact X].
          apply (Permutation_NoDup (portPush_perm (srcPort e) e m)). constructor.
          -- apply (Hf b'). left. reflexivity.
          -- apply (Hd b'). left. reflexivity.
        * destruct Hm as [X|X]; [apply (Hd b'); left; exact X|].
          refine (IHa _ _ b' m' X); intros b m0 H0; [apply (Hd b)|apply (Hf b)]; right; exact H0. }
  apply (H es [] []); [exact Hn|intros b e (m & [] & _)|intros b m []].
Qed.

Lemma Permutation_flat_map_snd (m m' : PortMap) : Permutation m m' -> Permutation (flat_map snd m) (flat_map snd m').
Proof.
  induction 1 as [|[p x] l l' _ IH|[p x] [q y] l|l l' l'' _ IH1 _ IH2]; cbn [flat_map snd]; auto.
  - apply Permutation_app_head. exact IH.
  - rewrite !app_assoc. apply Permutation_app_tail. apply Permutation_app_comm.
  - etransitivity; eassumption.
Qed.

Lemma outOf_NoDup es a : NoDup es -> sameMap (computeAdjacencyList es) a -> forall b, NoDup (outOf a b).
Proof.
  intros Hn (a1 & H2 & HP) b. unfold outOf.
  destruct (find _ a) as [[c m]|] eqn:E; [|constructor].
  apply find_some in E as [Hi _]. apply (Permutation_in _ (Permutation_sym HP)) in Hi.
  pose proof (adj_distinct es Hn) as D. revert D Hi. clear - H2.
  induction H2 as [|[b1 m1] [b2 m2] l l' [H HPm] _ IH]; intros D Hi; [destruct Hi|].
  destruct Hi as [X|X].
  - inversion X; subst. cbn [snd] in HPm. apply (Permutation_NoDup (Permutation_flat_map_snd _ _ HPm)).
    apply (D b1). left. reflexivity.
  - apply IH; [|exact X]. intros b' m' H'. apply (D b'). right. exact H'.
Qed.

(** ** All starting points *)

Definition startStep (a : AdjList) (s : LoopSt) (b : nat) : LoopSt :=
  match colour s b with Unvisited => loopDfs (S (length (destinations a))) a b s | _ => s end.

Lemma starts_spec es a : adjOk es a -> (forall b, NoDup (outOf a b)) -> forall starts s fin,
  loopInv es s fin -> path s = [] -> pathEdges s = [] -> NoDup (closings (loops s)) ->
  exists fin', let s' := fold_left (startStep a) starts s in
    loopInv es s' fin' /\ incl fin fin' /\ incl starts fin' /\ NoDup (closings (loops s')).
Proof.
  intros Ha Hnd. induction starts as [|b starts IH]; intros s fin Hi Hp Hpe Hc.
  - exists fin. cbn. split; [exact Hi|]. split; [intros x Hx; exact Hx|]. split; [intros x []|exact Hc].
  - cbn [fold_left].
    assert (E : exists fin', let s' := startStep a s b in
      loopInv es s' fin' /\ path s' = [] /\ pathEdges s' = [] /\ incl fin fin' /\ In b fin' /\ NoDup (closings (loops s'))).
    { unfold startStep. destruct (colour s b) eqn:Ec.
      - destruct (loopDfs_spec es a Ha Hnd (S (length (destinations a))) b s fin Hi Ec) as (fin' & R).
        { rewrite Hp, Hpe. cbn. trivial. }
        { pose proof (unv_le (setColour (colour s) b Gray) (destinations a)). lia. }
        destruct R as [R1 R2 R3 R4 R5 (mo & R6 & R7 & R8)].
        exists fin'. cbv zeta. rewrite R2, R3. split; [exact R1|]. split; [exact Hp|]. split; [exact Hpe|].
        split; [exact R5|]. split; [exact R4|]. rewrite R6, closings_app. apply NoDup_app_iff_local.
        split; [exact Hc|]. split; [exact R7|]. intros e He He'. apply R8 in He'. apply (li_seen es s fin Hi) in He. congruence.
      - apply (li_gray es s fin Hi) in Ec. rewrite Hp in Ec. destruct Ec.
      - exists fin. cbv zeta. split; [exact Hi|]. split; [exact Hp|]. split; [exact Hpe|]. split; [intros x Hx; exact Hx|].
        split; [|exact Hc]. apply (li_black es s fin Hi). exact Ec. }
    destruct E as (fin1 & Q). cbv zeta in Q. destruct Q as (Q1 & Q2 & Q3 & Q4 & Q5 & Q6).
    destruct (IH (startStep a s b) fin1 Q1 Q2 Q3 Q6) as (fin2 & Z). cbv zeta in Z. destruct Z as (Z1 & Z2 & Z3 & Z4).
    exists fin2. cbv zeta. split; [exact Z1|]. split; [intros x Hx; apply Z2, Q4, Hx|]. split; [|exact Z4].
    intros x [<-|Hx]; [apply Z2; exact Q5|apply Z3; exact Hx].
Qed.

Lemma loopsFrom_spec es a starts : adjOk es a -> (forall b, NoDup (outOf a b)) ->
  exists fin, NoDup fin /\ incl starts fin /\ finOk es (closings (loopsFrom a starts)) fin /\
    (forall c, In c (loopsFrom a starts) -> cycle es c /\ simple c) /\ NoDup (closings (loopsFrom a starts)).
Proof.
  intros Ha Hnd. unfold loopsFrom.
  destruct (starts_spec es a Ha Hnd starts (mkLoopSt (fun _ => Unvisited) [] [] []) []) as (fin & Z).
  { split; cbn [colour path pathEdges loops].
    - constructor.
    - intros b. split; [discriminate|intros []].
    - intros b. split; [discriminate|intros []].
    - constructor.
    - intros f1 u f2 E. destruct f1; discriminate.
    - intros x [].
    - intros c [].
    - intros e []. }
  { reflexivity. }
  { reflexivity. }
  { constructor. }
  cbv zeta in Z. destruct Z as (Z1 & _ & Z3 & Z4). exists fin. fold (startStep a).
  split; [apply (li_fin _ _ _ Z1)|]. split; [exact Z3|]. split; [apply (li_ok _ _ _ Z1)|]. split; [apply (li_loops _ _ _ Z1)|exact Z4].
Qed.

Lemma edge_dec (a b : Edge) : {a = b} + {a <> b}.
Proof.
  decide equality; try apply string_dec; try apply Z.eq_dec; try apply Nat.eq_dec.
  - decide equality; try apply string_dec; try apply N.eq_dec. decide equality. apply N.eq_dec.
  - decide equality; try apply string_dec; try apply N.eq_dec. decide equality. apply N.eq_dec.
Defined.

(** ** Every cycle is broken by a closing edge *)

Definition posIn (fin : list nat) (b : nat) : nat := match indexOf fin b with Some i => i | None => 0 end.

Lemma pos_lt fin f1 u f2 v : NoDup fin -> fin = f1 ++ u :: f2 -> In v f1 -> posIn fin v < posIn fin u.
Proof.
  intros Hn E Hv. unfold posIn. rewrite E, (indexOf_app_l f1 _ v Hv).
  assert (Hu : ~ In u f1).
  { intros X. rewrite E in Hn. apply (NoDup_app_disj _ _ Hn u X). left. reflexivity. }
  rewrite (indexOf_app_r f1 _ u Hu). cbn [indexOf]. rewrite Nat.eqb_refl. cbn [option_map].
  destruct (indexOf_In f1 v Hv) as [i Ei]. rewrite Ei. apply indexOf_some in Ei.
  assert (i < length f1) by (apply nth_error_Some; congruence). lia.
Qed.

Lemma descent (f : nat -> nat) rest : forall e front l,
  (forall x, In x (e :: rest) -> f (dst x) < f (src x)) -> consecutive (e :: rest) -> e :: rest = front ++ [l] ->
  f (dst l) < f (src e).
Proof.
  induction rest as [|e2 rest IH]; intros e front l Hd Hc E.
  - destruct front as [|x front]; [|destruct front; discriminate]. inversion E; subst. apply Hd. left. reflexivity.
  - destruct front as [|x front]; [discriminate|]. inversion E; subst x.
    assert (L : f (dst l) < f (src e2)).
    { apply (IH e2 front l); [intros y Hy; apply Hd; right; exact Hy| |exact H1].
      intros i y y' Hy Hy'. apply (Hc (S i) y y' Hy Hy'). }
    assert (X : dst e = src e2) by (apply (Hc 0 e e2); reflexivity).
    pose proof (Hd e (or_introl eq_refl)). rewrite X in H. lia.
Qed.

Lemma cycles_closed es cl fin : NoDup fin -> finOk es cl fin -> (forall e, In e es -> In (src e) fin) ->
  forall c, cycle es c -> exists e, In e c /\ In e cl.
Proof.
  intros Hn Hf Hs c (Hi & Hc & f & l & front & rest & E1 & E2 & Ecl).
  destruct (existsb (fun e => existsb (fun x => if edge_dec e x then true else false) cl) c) eqn:Ex.
  - apply existsb_exists in Ex as (e & He & Hx). apply existsb_exists in Hx as (x & Hx & Hd).
    destruct (edge_dec e x); [subst|discriminate]. exists x. auto.
  - exfalso.
    assert (D : forall x, In x c -> posIn fin (dst x) < posIn fin (src x)).
    { intros x Hx. pose proof (Hs x (Hi x Hx)) as Hsx. apply in_split in Hsx as (f1 & f2 & E).
      destruct (Hf f1 (src x) f2 E x (Hi x Hx) eq_refl) as [X|X].
      - assert (T : existsb (fun e => existsb (fun x => if edge_dec e x then true else false) cl) c = true).
        { apply existsb_exists. exists x. split; [exact Hx|]. apply existsb_exists. exists x. split; [exact X|].
          destruct (edge_dec x x); congruence. }
        congruence.
      - apply (pos_lt fin f1 (src x) f2); auto. }
    rewrite E1 in D, Hc. rewrite E1 in E2. pose proof (descent (posIn fin) rest f front l D Hc E2). rewrite Ecl in H. lia.
Qed.
