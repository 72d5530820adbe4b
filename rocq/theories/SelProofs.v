(* Proofs about the selector block: the maps, the copies and the branch
   without synchronisation. *)

From Coq Require Import Arith List Bool Relations Sorted Lia.
From Verif Require Import SelModel SelSpec.
Import ListNotations.

Local Open Scope nat_scope.

(* ---------- the maps ---------- *)

Definition findm (k : nat) (m : imap) : list nat :=
  match find (fun g => fst g =? k) m with Some g => snd g | None => [] end.

Definition keysOk (m : imap) : Prop := StronglySorted lt (map fst m).

Lemma keysOk_cons g m : keysOk (g :: m) ->
  keysOk m /\ Forall (fun h => fst g < fst h) m.
Proof.
  unfold keysOk; cbn; intros H; inversion H; subst. split; [assumption|].
  rewrite Forall_map in H3. exact H3.
Qed.

Lemma mapPush_keys k v m : Forall (fun h : nat * list nat => True) m ->
  forall x, In x (map fst (mapPush k v m)) <-> x = k \/ In x (map fst m).
Proof.
  intros _. induction m as [|[k' vs] m IH]; intros x; cbn [mapPush map fst In].
  - split; [intros [H|[]]; auto|intros [H|[]]; auto].
  - destruct (k <? k') eqn:E1; cbn [map fst In].
    { split; [intros [H|[H|H]]; auto|intros [H|[H|H]]; auto]. }
    destruct (k =? k') eqn:E2; cbn [map fst In].
    + apply Nat.eqb_eq in E2; subst. clear.
      split; [intros [H|H]; auto|intros [H|[H|H]]; auto].
    + rewrite IH. split; [intros [H|[H|H]]; auto|intros [H|[H|H]]; auto].
Qed.

Lemma mapPush_sorted k v m : keysOk m -> keysOk (mapPush k v m).
Proof.
  unfold keysOk. induction m as [|[k' vs] m IH]; cbn [mapPush map fst]; intros H.
  - repeat constructor.
  - inversion H; subst. destruct (k <? k') eqn:E1; cbn [map fst].
    + apply Nat.ltb_lt in E1. constructor; [assumption|]. constructor; [assumption|].
      eapply Forall_impl; [|exact H3]. cbn; intros; lia.
    + apply Nat.ltb_ge in E1. destruct (k =? k') eqn:E2; cbn [map fst].
      * constructor; assumption.
      * apply Nat.eqb_neq in E2. constructor; [apply IH; assumption|].
        apply Forall_forall. intros x Hx. apply mapPush_keys in Hx; [|apply Forall_forall; auto].
        rewrite Forall_forall in H3. destruct Hx as [ -> | Hx]; [lia|auto].
Qed.

Lemma findm_absent k m : Forall (fun h : nat * list nat => k < fst h) m -> findm k m = [].
Proof.
  unfold findm. induction 1 as [|h m H _ IH]; cbn; [reflexivity|].
  destruct (fst h =? k) eqn:E; [apply Nat.eqb_eq in E; lia|exact IH].
Qed.

Lemma findm_cons k g m : findm k (g :: m) = if fst g =? k then snd g else findm k m.
Proof. unfold findm; cbn. destruct (fst g =? k); reflexivity. Qed.

Lemma findm_push k v m j : keysOk m ->
  findm j (mapPush k v m) = if j =? k then findm k m ++ [v] else findm j m.
Proof.
  induction m as [|[k' vs] m IH]; intros H.
  - cbn [mapPush]. rewrite findm_cons. cbn [fst snd].
    rewrite (Nat.eqb_sym k j). destruct (j =? k); reflexivity.
  - apply keysOk_cons in H. destruct H as [H1 H2]. cbn [mapPush fst] in *.
    destruct (k <? k') eqn:E1.
    + apply Nat.ltb_lt in E1. rewrite !findm_cons; cbn [fst snd].
      rewrite (Nat.eqb_sym k j). destruct (j =? k) eqn:E; [|reflexivity].
      replace (k' =? k) with false by (symmetry; apply Nat.eqb_neq; lia).
      rewrite findm_absent; [reflexivity|].
      eapply Forall_impl; [|exact H2]. cbn; intros; lia.
    + destruct (k =? k') eqn:E2.
      * apply Nat.eqb_eq in E2; subst k'. rewrite !findm_cons; cbn [fst snd].
        rewrite (Nat.eqb_sym k j), Nat.eqb_refl. destruct (j =? k); reflexivity.
      * rewrite !findm_cons; cbn [fst snd]. rewrite IH by assumption.
        apply Nat.eqb_neq in E2.
        destruct (k' =? j) eqn:E3.
        -- apply Nat.eqb_eq in E3; subst.
           destruct (j =? k) eqn:E4; [apply Nat.eqb_eq in E4; lia|reflexivity].
        -- replace (k' =? k) with false by (symmetry; apply Nat.eqb_neq; lia). reflexivity.
Qed.

Lemma findm_in k vs m : keysOk m -> In (k, vs) m -> findm k m = vs.
Proof.
  induction m as [|g m IH]; cbn; intros H Hin; [contradiction|].
  apply keysOk_cons in H. destruct H as [H1 H2]. rewrite findm_cons.
  destruct Hin as [ -> | Hin].
  - cbn. rewrite Nat.eqb_refl. reflexivity.
  - rewrite Forall_forall in H2. specialize (H2 _ Hin); cbn in H2.
    replace (fst g =? k) with false by (symmetry; apply Nat.eqb_neq; lia). auto.
Qed.

Lemma findm_some k m : findm k m <> [] -> In (k, findm k m) m.
Proof.
  induction m as [|[k' vs] m IH]; [intros H; exfalso; apply H; reflexivity|].
  rewrite findm_cons; cbn [fst snd]. destruct (k' =? k) eqn:E.
  - apply Nat.eqb_eq in E; subst. left; reflexivity.
  - intros H; right; auto.
Qed.

Definition full (m : imap) : Prop := Forall (fun g => snd g <> []) m.

Lemma full_push k v m : full m -> full (mapPush k v m).
Proof.
  unfold full. induction m as [|[k' vs] m IH]; cbn [mapPush]; intros H.
  - repeat constructor; discriminate.
  - inversion H; subst. destruct (k <? k'); [constructor; [discriminate|assumption]|].
    destruct (k =? k').
    + constructor; [|assumption]. cbn. destruct vs; discriminate.
    + constructor; auto.
Qed.

(* the two maps group the pairs *)
Definition sinks (ps : list (nat * nat)) (i : nat) : list nat :=
  map snd (filter (fun p => fst p =? i) ps).

Definition groups (ps : list (nat * nat)) (io oi : imap) : Prop :=
  keysOk io /\ keysOk oi /\ full io /\ full oi
  /\ (forall i, findm i io = sinks ps i) /\ (forall o, findm o oi = sources ps o).

Lemma seenPair_in p seen : seenPair p seen = true <-> In p seen.
Proof.
  unfold seenPair. rewrite existsb_exists. split.
  - intros (q & Hq & E). apply andb_true_iff in E. destruct E as [E1 E2].
    apply Nat.eqb_eq in E1; apply Nat.eqb_eq in E2.
    destruct p, q; cbn in *; subst; assumption.
  - intros H. exists p. rewrite !Nat.eqb_refl. auto.
Qed.

Lemma sinks_snoc ps i o j : sinks (ps ++ [(i, o)]) j
  = if j =? i then sinks ps j ++ [o] else sinks ps j.
Proof.
  unfold sinks. rewrite filter_app, map_app. cbn. rewrite (Nat.eqb_sym i j).
  destruct (j =? i); cbn; [reflexivity|apply app_nil_r].
Qed.

Lemma sources_snoc ps i o p : sources (ps ++ [(i, o)]) p
  = if p =? o then sources ps p ++ [i] else sources ps p.
Proof.
  unfold sources. rewrite filter_app, map_app. cbn. rewrite (Nat.eqb_sym o p).
  destruct (p =? o); cbn; [reflexivity|apply app_nil_r].
Qed.

Lemma buildMaps_ok ni no : forall ps seen done io oi io' oi',
  (forall p, In p seen <-> In p done) ->
  validPairs ni no done -> groups done io oi ->
  buildMaps ni no seen ps io oi = (io', oi', None) ->
  validPairs ni no (done ++ ps) /\ groups (done ++ ps) io' oi'.
Proof.
  induction ps as [|[i o] ps IH]; intros seen done io oi io' oi' Hs Hv Hg H.
  - cbn in H. injection H as <- <-. rewrite app_nil_r. auto.
  - cbn [buildMaps] in H.
    destruct (seenPair (i, o) seen) eqn:E1; [discriminate|].
    destruct (ni <=? i) eqn:E2; [discriminate|].
    destruct (no <=? o) eqn:E3; [discriminate|].
    apply Nat.leb_gt in E2; apply Nat.leb_gt in E3.
    assert (Hn : ~ In (i, o) done).
    { rewrite <- Hs, <- seenPair_in, E1. discriminate. }
    replace (done ++ (i, o) :: ps) with ((done ++ [(i, o)]) ++ ps)
      by (rewrite <- app_assoc; reflexivity).
    eapply IH; [| | |exact H].
    + intros p. cbn. rewrite in_app_iff, Hs. cbn. intuition.
    + destruct Hv as [Hv1 Hv2]. split.
      * rewrite <- (rev_involutive (done ++ [(i, o)])). apply NoDup_rev. rewrite rev_app_distr; cbn.
        constructor; [rewrite <- in_rev; assumption|apply NoDup_rev; assumption].
      * intros a b Hab. apply in_app_iff in Hab. destruct Hab as [Hab|[Hab|[]]].
        -- auto.
        -- injection Hab as <- <-; auto.
    + destruct Hg as (G1 & G2 & G3 & G4 & G5 & G6).
      repeat split; auto using mapPush_sorted, full_push.
      * intros j. rewrite findm_push, sinks_snoc by assumption.
        destruct (j =? i) eqn:E; [apply Nat.eqb_eq in E; subst|]; rewrite G5; reflexivity.
      * intros p. rewrite findm_push, sources_snoc by assumption.
        destruct (p =? o) eqn:E; [apply Nat.eqb_eq in E; subst|]; rewrite G6; reflexivity.
Qed.

Lemma configured_groups s : configured s ->
  validPairs (nIn s) (nOut s) (pairs s) /\ groups (pairs s) (inOut s) (outIn s)
  /\ length (mapIn s) = length (mapOut s).
Proof.
  intros (c & s0 & Hc & H). unfold settingsChanged in H.
  destruct (length (orKeep (cMapIn c) (mapIn s0)) =? length (orKeep (cMapOut c) (mapOut s0))) eqn:El.
  2: { exfalso. destruct (cMapIn c), (cMapOut c); try discriminate H.
       destruct Hc as [Hc|Hc]; apply Hc; reflexivity. }
  destruct (buildMaps (orKeep (cIn c) (nIn s0)) (orKeep (cOut c) (nOut s0)) []
      (combine (orKeep (cMapIn c) (mapIn s0)) (orKeep (cMapOut c) (mapOut s0))) [] [])
    as [[io oi] e] eqn:Eb.
  assert (Hs : s = mkSel (orKeep (cIn c) (nIn s0)) (orKeep (cOut c) (nOut s0))
      (orKeep (cMapIn c) (mapIn s0)) (orKeep (cMapOut c) (mapOut s0))
      (orKeep (cBack c) (backPressure s0)) (orKeep (cSync c) (syncCombined s0)) io oi
      /\ e = None).
  { destruct (cMapIn c), (cMapOut c); try (injection H as <- ->; auto).
    exfalso. destruct Hc as [Hc|Hc]; apply Hc; reflexivity. }
  destruct Hs as [-> ->]. apply Nat.eqb_eq in El.
  assert (G0 : groups [] [] []) by (repeat split; constructor).
  assert (V0 : validPairs (orKeep (cIn c) (nIn s0)) (orKeep (cOut c) (nOut s0)) [])
    by (split; [constructor|intros ? ? []]).
  destruct (buildMaps_ok _ _ _ _ [] _ _ _ _ (fun p => iff_refl _) V0 G0 Eb) as [Hv Hg].
  unfold pairs; cbn. auto.
Qed.

Lemma in_sources ps i o : In i (sources ps o) <-> In (i, o) ps.
Proof.
  unfold sources. rewrite in_map_iff. split.
  - intros ([a b] & <- & H). apply filter_In in H. destruct H as [H E].
    cbn in E. apply Nat.eqb_eq in E; subst. exact H.
  - intros H. exists (i, o). split; [reflexivity|]. apply filter_In.
    cbn. rewrite Nat.eqb_refl. auto.
Qed.

Lemma in_sinks ps i o : In o (sinks ps i) <-> In (i, o) ps.
Proof.
  unfold sinks. rewrite in_map_iff. split.
  - intros ([a b] & <- & H). apply filter_In in H. destruct H as [H E].
    cbn in E. apply Nat.eqb_eq in E; subst. exact H.
  - intros H. exists (i, o). split; [reflexivity|]. apply filter_In.
    cbn. rewrite Nat.eqb_refl. auto.
Qed.

Lemma NoDup_sources ps o : NoDup ps -> NoDup (sources ps o).
Proof.
  unfold sources. intros H. induction H as [|[a b] ps Hn H IH]; cbn; [constructor|].
  destruct (b =? o) eqn:E; [|exact IH]. cbn. constructor; [|exact IH].
  apply Nat.eqb_eq in E; subst. fold (sources ps o). rewrite in_sources. exact Hn.
Qed.

Lemma NoDup_sinks ps i : NoDup ps -> NoDup (sinks ps i).
Proof.
  unfold sinks. intros H. induction H as [|[a b] ps Hn H IH]; cbn; [constructor|].
  destruct (a =? i) eqn:E; [|exact IH]. cbn. constructor; [|exact IH].
  apply Nat.eqb_eq in E; subst. fold (sinks ps i). rewrite in_sinks. exact Hn.
Qed.

Lemma group_in_oi ps io oi o : groups ps io oi -> sources ps o <> [] -> In (o, sources ps o) oi.
Proof. intros (_ & _ & _ & _ & _ & G) H. rewrite <- G in *. apply findm_some; assumption. Qed.

Lemma oi_in_group ps io oi o is : groups ps io oi -> In (o, is) oi -> is = sources ps o.
Proof.
  intros (_ & G2 & _ & _ & _ & G) H. rewrite <- G. symmetry. apply findm_in; assumption.
Qed.

Lemma io_in_group ps io oi i os : groups ps io oi -> In (i, os) io -> os = sinks ps i.
Proof.
  intros (G1 & _ & _ & _ & G & _) H. rewrite <- G. symmetry. apply findm_in; assumption.
Qed.

Lemma group_in_io ps io oi i : groups ps io oi -> sinks ps i <> [] -> In (i, sinks ps i) io.
Proof. intros (_ & _ & _ & _ & G & _) H. rewrite <- G in *. apply findm_some; assumption. Qed.

Lemma inOut_empty ps io oi : groups ps io oi -> (io = [] <-> ps = []).
Proof.
  intros G. split; intros H.
  - destruct ps as [|[i o] ps]; [reflexivity|]. exfalso.
    assert (Hs : sinks ((i, o) :: ps) i <> []).
    { intros E. assert (In o (sinks ((i, o) :: ps) i)) by (apply in_sinks; left; reflexivity).
      rewrite E in *; contradiction. }
    apply (group_in_io _ _ _ _ G) in Hs. rewrite H in Hs. contradiction.
  - subst ps. destruct io as [|[i os] io]; [reflexivity|]. exfalso.
    destruct G as (G1 & _ & G3 & _ & G5 & _). inversion G3; subst. apply H1.
    cbn. specialize (G5 i). rewrite (findm_in i os) in G5; [exact G5|exact G1|left; reflexivity].
Qed.

(* ---------- sorted lists ---------- *)

Lemma sorted_same (l m : list nat) :
  StronglySorted lt l -> StronglySorted lt m -> (forall x, In x l <-> In x m) -> l = m.
Proof.
  intros Hl. revert m. induction Hl as [|a l Hl IH Ha]; intros m Hm H.
  - destruct m as [|b m]; [reflexivity|]. exfalso. apply (proj2 (H b)). left; reflexivity.
  - destruct Hm as [|b m Hm Hb].
    + exfalso. apply (proj1 (H a)). left; reflexivity.
    + rewrite Forall_forall in Ha, Hb.
      assert (a = b).
      { destruct (proj1 (H a) (or_introl eq_refl)) as [E|E]; [auto|].
        destruct (proj2 (H b) (or_introl eq_refl)) as [E'|E']; [auto|].
        specialize (Ha _ E'); specialize (Hb _ E); lia. }
      subst b. f_equal. apply IH; [assumption|]. intros x. split; intros Hx.
      * destruct (proj1 (H x) (or_intror Hx)) as [E|E]; [|assumption].
        subst. specialize (Ha _ Hx); lia.
      * destruct (proj2 (H x) (or_intror Hx)) as [E|E]; [|assumption].
        subst. specialize (Hb _ Hx); lia.
Qed.

Lemma seq_sorted n k : StronglySorted lt (seq k n).
Proof.
  revert k; induction n as [|n IH]; intros k; cbn; constructor; [apply IH|].
  apply Forall_forall. intros x Hx. apply in_seq in Hx. lia.
Qed.

Lemma filter_sorted (p : nat -> bool) l : StronglySorted lt l -> StronglySorted lt (filter p l).
Proof.
  induction 1 as [|a l H IH Ha]; cbn; [constructor|].
  destruct (p a); [|exact IH]. constructor; [exact IH|].
  rewrite Forall_forall in *. intros x Hx. apply filter_In in Hx. apply Ha, Hx.
Qed.

Lemma filterMap_sorted (p : nat * list nat -> bool) m : keysOk m -> StronglySorted lt (map fst (filter p m)).
Proof.
  unfold keysOk. induction m as [|g m IH]; cbn; intros H; [constructor|].
  inversion H; subst. destruct (p g); [|auto]. cbn. constructor; [auto|].
  rewrite Forall_forall in *. intros x Hx. apply in_map_iff in Hx.
  destruct Hx as (h & <- & Hh). apply filter_In in Hh. apply H3. apply in_map. apply Hh.
Qed.

(* the inputs that feed an output, as the first map enumerates them *)
Lemma io_sources ps io oi ni no o : groups ps io oi -> validPairs ni no ps ->
  map fst (filter (fun g => existsb (Nat.eqb o) (snd g)) io) = sourcesAsc ni ps o.
Proof.
  intros G V. apply sorted_same.
  - apply filterMap_sorted, G.
  - apply filter_sorted, seq_sorted.
  - intros i. rewrite in_map_iff. unfold sourcesAsc. rewrite filter_In, in_seq, existsb_exists. split.
    + intros ([i' os] & <- & H). apply filter_In in H. destruct H as [H E]. cbn in *.
      pose proof (io_in_group _ _ _ _ _ G H) as ->.
      apply existsb_exists in E. destruct E as (o' & Ho & E). apply Nat.eqb_eq in E; subst o'.
      apply in_sinks in Ho. destruct (proj2 V _ _ Ho). split; [lia|].
      exists (i', o). split; [assumption|]. unfold peq; cbn. rewrite !Nat.eqb_refl. reflexivity.
    + intros (_ & [a b] & Hp & E). unfold peq in E; cbn in E. apply andb_true_iff in E.
      destruct E as [E1 E2]. apply Nat.eqb_eq in E1; apply Nat.eqb_eq in E2; subst a b.
      exists (i, sinks ps i). split; [reflexivity|]. apply filter_In. split.
      * eapply group_in_io; [eassumption|]. intros E. apply in_sinks in Hp. rewrite E in Hp. contradiction.
      * cbn. apply existsb_exists. exists o. split; [apply in_sinks; assumption|apply Nat.eqb_refl].
Qed.

(* ---------- samples with their tags ---------- *)

Section Annot.

Context {A T : Type}.
Implicit Types sp : span A T.

Lemma annotFrom_length k (l : list A) (ts : list (nat * T)) : length (annotFrom k l ts) = length l.
Proof. revert k; induction l as [|x l IH]; intros k; cbn; [reflexivity|]. f_equal; apply IH. Qed.

Lemma annot_length sp : length (annot sp) = length (smp sp).
Proof. apply annotFrom_length. Qed.

Lemma annotFrom_app k (l m : list A) (ts : list (nat * T)) :
  annotFrom k (l ++ m) ts = annotFrom k l ts ++ annotFrom (k + length l) m ts.
Proof.
  revert k; induction l as [|x l IH]; intros k; cbn.
  - rewrite Nat.add_0_r. reflexivity.
  - rewrite IH. replace (k + S (length l)) with (S k + length l) by lia. reflexivity.
Qed.

Lemma annotFrom_ext k (l : list A) (ts us : list (nat * T)) :
  (forall j, k <= j < k + length l ->
     map snd (filter (fun t => fst t =? j) ts) = map snd (filter (fun t => fst t =? j) us)) ->
  annotFrom k l ts = annotFrom k l us.
Proof.
  revert k; induction l as [|x l IH]; intros k H; cbn; [reflexivity|].
  rewrite (H k) by (cbn; lia). f_equal. apply IH. intros j Hj. apply H. cbn; lia.
Qed.

Lemma filter_none {X : Type} (p : X -> bool) l : (forall x, In x l -> p x = false) -> filter p l = [].
Proof.
  induction l as [|x l IH]; cbn; intros H; [reflexivity|].
  rewrite (H x) by auto. apply IH. auto.
Qed.

Lemma annotFrom_firstn n k (l : list A) (ts : list (nat * T)) :
  annotFrom k (firstn n l) ts = firstn n (annotFrom k l ts).
Proof.
  revert k l; induction n as [|n IH]; intros k [|x l]; cbn; try reflexivity.
  f_equal. apply IH.
Qed.

Lemma annotFrom_shift n off k (l : list A) (ts : list (nat * T)) :
  k + length l <= n ->
  annotFrom (k + off) l (map (fun t => (fst t + off, snd t)) (filter (fun t => fst t <? n) ts))
  = annotFrom k l ts.
Proof.
  revert k; induction l as [|x l IH]; intros k H; cbn [annotFrom]; [reflexivity|]. cbn [length] in H.
  f_equal.
  - f_equal. clear IH. induction ts as [|[p t] ts IHt]; cbn [filter map fst snd]; [reflexivity|].
    destruct (p <? n) eqn:E; cbn [filter map fst snd].
    + destruct (p =? k) eqn:E2.
      * apply Nat.eqb_eq in E2. replace (p + off =? k + off) with true
          by (symmetry; apply Nat.eqb_eq; lia).
        cbn [map fst snd]. f_equal. apply IHt.
      * replace (p + off =? k + off) with false
          by (symmetry; apply Nat.eqb_neq; apply Nat.eqb_neq in E2; lia). apply IHt.
    + apply Nat.ltb_ge in E.
      replace (p =? k) with false by (symmetry; apply Nat.eqb_neq; lia). apply IHt.
  - apply (IH (S k)). lia.
Qed.

Lemma copyTo_annot n sp out : tagsInside out ->
  annot (copyTo n sp out) = annot out ++ firstn n (annot sp).
Proof.
  intros Ho. unfold annot, copyTo; cbn [smp tgs].
  rewrite annotFrom_app. f_equal.
  - apply annotFrom_ext. intros j Hj. rewrite filter_app, map_app.
    rewrite (filter_none _ (map _ _)).
    + cbn. apply app_nil_r.
    + intros [p t] Hin. apply in_map_iff in Hin. destruct Hin as ([q u] & E & _). cbn in *.
      injection E as <- <-. apply Nat.eqb_neq. lia.
  - rewrite <- annotFrom_firstn. cbn [Nat.add].
    rewrite <- (annotFrom_shift n (length (smp out)) 0 (firstn n (smp sp)) (tgs sp)).
    + cbn [Nat.add]. apply annotFrom_ext. intros j Hj. rewrite filter_app, map_app.
      rewrite (filter_none _ (tgs out)); [reflexivity|].
      intros t Ht. unfold tagsInside in Ho. rewrite Forall_forall in Ho. specialize (Ho _ Ht).
      apply Nat.eqb_neq. lia.
    + rewrite firstn_length. lia.
Qed.

Lemma copyTo_inside n sp out : tagsInside out -> n <= length (smp sp) -> tagsInside (copyTo n sp out).
Proof.
  unfold tagsInside, copyTo; cbn. intros H Hn. rewrite app_length, firstn_length.
  apply Forall_app. split.
  - eapply Forall_impl; [|exact H]. cbn; intros; lia.
  - rewrite Forall_map. apply Forall_forall. intros t Ht. apply filter_In in Ht.
    destruct Ht as [_ E]. apply Nat.ltb_lt in E. cbn. lia.
Qed.

Lemma copyTo_length n sp out : n <= length (smp sp) ->
  length (smp (copyTo n sp out)) = length (smp out) + n.
Proof. intros H. unfold copyTo; cbn. rewrite app_length, firstn_length. lia. Qed.

Lemma empty_inside : tagsInside (@emptySpan A T).
Proof. constructor. Qed.

(* ---------- the branch without synchronisation ---------- *)

Implicit Types c : call A T.

Definition feeds (o : nat) (g : nat * list nat) : bool := existsb (Nat.eqb o) (snd g).

Lemma feeds_in o g : feeds o g = true <-> In o (snd g).
Proof.
  unfold feeds. rewrite existsb_exists. split.
  - intros (x & Hx & E). apply Nat.eqb_eq in E; subst; assumption.
  - intros H; exists o; split; [assumption|apply Nat.eqb_refl].
Qed.

Lemma upd_same {X : Type} (f : nat -> X) k x : upd f k x k = x.
Proof. unfold upd. rewrite Nat.eqb_refl. reflexivity. Qed.

Lemma upd_other {X : Type} (f : nat -> X) k x j : j <> k -> upd f k x j = f j.
Proof. unfold upd. intros H. apply Nat.eqb_neq in H. rewrite H. reflexivity. Qed.

Lemma asyncCopies_ok c n sp : forall os outs,
  NoDup os -> n <= length (smp sp) ->
  (forall o, In o os -> length (smp (outs o)) + n <= capAt c o) ->
  exists outs', asyncCopies c n sp os outs = Some outs'
    /\ (forall o, outs' o = if existsb (Nat.eqb o) os then copyTo n sp (outs o) else outs o).
Proof.
  induction os as [|o os IH]; intros outs Hd Hn Hc.
  - exists outs. split; reflexivity.
  - inversion Hd; subst. cbn [asyncCopies].
    rewrite (proj2 (Nat.leb_le _ _)) by (apply Hc; left; reflexivity).
    destruct (IH (upd outs o (copyTo n sp (outs o)))) as (outs' & E & Ho); [assumption|assumption| |].
    + intros o' Ho'. rewrite upd_other by (intros ->; contradiction). apply Hc. right; assumption.
    + exists outs'. split; [exact E|]. intros o'. rewrite Ho. cbn [existsb].
      destruct (o' =? o) eqn:Eo.
      * apply Nat.eqb_eq in Eo; subst o'. cbn.
        replace (existsb (Nat.eqb o) os) with false.
        -- apply upd_same.
        -- symmetry. apply not_true_is_false. intros Ex. apply (feeds_in o (0, os)) in Ex. contradiction.
      * cbn. apply Nat.eqb_neq in Eo. rewrite upd_other by assumption. reflexivity.
Qed.

Lemma foldmin_le (h : nat -> nat) a os :
  fold_right (fun o x => Nat.min (h o) x) a os <= a
  /\ forall o, In o os -> fold_right (fun o x => Nat.min (h o) x) a os <= h o.
Proof.
  induction os as [|o os [IH1 IH2]]; cbn; [split; [lia|contradiction]|]. split; [lia|].
  intros o' [ -> | H]; [lia|]. specialize (IH2 _ H). lia.
Qed.

Lemma foldmin_tight (h : nat -> nat) a os :
  fold_right (fun o x => Nat.min (h o) x) a os = a
  \/ exists o, In o os /\ fold_right (fun o x => Nat.min (h o) x) a os = h o.
Proof.
  induction os as [|o os IH]; cbn; [auto|].
  destruct (Nat.min_dec (h o) (fold_right (fun o x => Nat.min (h o) x) a os)) as [E|E]; rewrite E.
  - right; exists o; auto.
  - destruct IH as [IH|(o' & H1 & H2)]; [auto|]. right; exists o'; auto.
Qed.

Definition cnt (f : counts) (i : nat) : nat := match f i with Some n => n | None => 0 end.

Definition roomOk c (outs : nat -> span A T) : Prop :=
  forall o, tagsInside (outs o) /\ (length (smp (outs o)) <= capAt c o \/ outs o = emptySpan).

Lemma asyncBranch_ok c : forall io outs f,
  keysOk io -> (forall g, In g io -> NoDup (snd g)) ->
  (forall o, tagsInside (outs o) /\ length (smp (outs o)) <= capAt c o) ->
  exists outs' f', asyncBranch c io outs f = Some (outs', f')
    /\ (forall o, tagsInside (outs' o) /\ length (smp (outs o)) <= length (smp (outs' o)) <= capAt c o)
    /\ (forall o, annot (outs' o) = annot (outs o)
          ++ concat (map (fun i => firstn (cnt f' i) (annot (inAt c i)))
                         (map fst (filter (feeds o) io))))
    /\ (forall i, ~ In i (map fst io) -> f' i = f i)
    /\ (forall i os, In (i, os) io -> exists n, f' i = Some n /\ n <= avail c i
          /\ (isSel c i = true -> n <= monCap c)
          /\ (n = avail c i \/ (isSel c i = true /\ n = monCap c)
              \/ exists o, In o os /\ length (smp (outs' o)) = capAt c o)).
Proof.
  induction io as [|[i os] io IH]; intros outs f Hk Hd Hr.
  - exists outs, f. cbn. split; [reflexivity|]. split; [intros o; destruct (Hr o); split; auto|].
    split; [intros; rewrite app_nil_r; reflexivity|]. split; [auto|]. contradiction.
  - apply keysOk_cons in Hk. destruct Hk as [Hk Hlt].
    cbn [asyncBranch]. set (n := asyncCount c outs i os).
    assert (Hn1 : n <= avail c i /\ (forall o, In o os -> n <= capAt c o - length (smp (outs o)))
                  /\ (isSel c i = true -> n <= monCap c)
                  /\ (n = avail c i \/ (isSel c i = true /\ n = monCap c)
                      \/ exists o, In o os /\ n = capAt c o - length (smp (outs o)))).
    { unfold n, asyncCount.
      pose proof (foldmin_le (fun o => capAt c o - length (smp (outs o))) (avail c i) os) as [L1 L2].
      pose proof (foldmin_tight (fun o => capAt c o - length (smp (outs o))) (avail c i) os) as L3.
      cbn beta in *.
      set (w := fold_right (fun o a => Nat.min (capAt c o - length (smp (outs o))) a) (avail c i) os) in *.
      destruct (isSel c i) eqn:Es.
      - split; [lia|]. split; [intros o Ho; specialize (L2 o Ho); lia|]. split; [lia|].
        destruct (Nat.min_dec w (monCap c)) as [E|E]; rewrite E; [|auto].
        destruct L3 as [L3|(o & Ho & L3)]; [auto|]. right; right; exists o; auto.
      - split; [lia|]. split; [assumption|]. split; [discriminate|].
        destruct L3 as [L3|(o & Ho & L3)]; [auto|]. right; right; exists o; auto. }
    destruct Hn1 as (Hn1 & Hn2 & Hn3 & Hn4).
    destruct (asyncCopies_ok c n (inAt c i) os outs) as (outs1 & E1 & Ho1).
    { apply (Hd (i, os)). left; reflexivity. }
    { exact Hn1. }
    { intros o Ho. specialize (Hn2 o Ho). destruct (Hr o) as [_ Hr2]. lia. }
    rewrite E1.
    assert (Hlen1 : forall o, length (smp (outs1 o)) = length (smp (outs o)) + if feeds o (i, os) then n else 0).
    { intros o. rewrite Ho1. unfold feeds; cbn [snd].
      destruct (existsb (Nat.eqb o) os); [apply copyTo_length; exact Hn1|lia]. }
    assert (Hr1 : forall o, tagsInside (outs1 o) /\ length (smp (outs1 o)) <= capAt c o).
    { intros o. destruct (Hr o) as [R1 R2]. split.
      - rewrite Ho1. destruct (existsb (Nat.eqb o) os); [apply copyTo_inside; [exact R1|exact Hn1]|exact R1].
      - rewrite Hlen1. destruct (feeds o (i, os)) eqn:Ef; [|lia].
        apply feeds_in in Ef. specialize (Hn2 o Ef). lia. }
    destruct (IH outs1 (upd f i (Some n)) Hk (fun g Hg => Hd g (or_intror Hg)) Hr1)
      as (outs' & f' & E & R1 & R2 & R3 & R4).
    assert (Hni : ~ In i (map fst io)).
    { intros Hin. apply in_map_iff in Hin. destruct Hin as (g & <- & Hg).
      rewrite Forall_forall in Hlt. specialize (Hlt _ Hg). cbn in Hlt. lia. }
    assert (Hfi : f' i = Some n) by (rewrite R3 by assumption; apply upd_same).
    exists outs', f'. split; [exact E|]. split; [|split; [|split]].
    + intros o. destruct (R1 o) as [Q1 Q2]. split; [exact Q1|]. specialize (Hlen1 o). lia.
    + intros o. rewrite R2. cbn [filter]. rewrite Ho1.
      unfold feeds at 2. cbn [snd]. destruct (existsb (Nat.eqb o) os) eqn:Ef.
      * rewrite copyTo_annot by apply Hr. cbn [map concat fst]. rewrite <- app_assoc.
        unfold cnt at 2. rewrite Hfi. reflexivity.
      * reflexivity.
    + intros j Hj. cbn in Hj. rewrite R3 by tauto. apply upd_other. intuition.
    + intros j js [Hj|Hj]; [|exact (R4 j js Hj)].
      injection Hj as <- <-. exists n. split; [exact Hfi|]. split; [exact Hn1|]. split; [exact Hn3|].
      destruct Hn4 as [H|[H|(o & Ho & H)]]; [auto|auto|]. right; right. exists o. split; [exact Ho|].
      specialize (Hlen1 o). replace (feeds o (i, os)) with true in Hlen1
        by (symmetry; apply feeds_in; exact Ho).
      destruct (R1 o) as [_ Q]. destruct (Hr o) as [_ Q']. lia.
Qed.

End Annot.
