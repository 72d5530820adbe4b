(** Weakly connected components. *)
From Coq Require Import Ascii String ZArith NArith Bool Arith Permutation Sorted Lia List.
From Verif Require Import Base TopoModel TopoSpec TopoProofs TopoSearch TopoLoopProofs.
Import ListNotations.
Local Open Scope nat_scope.

Lemma nth_upd {A} (l : list A) i j v d : i < length l -> nth j (upd l i v) d = if Nat.eqb i j then v else nth j l d.
Proof.
  revert i j. induction l as [|x l IH]; intros i j H; cbn in H; [lia|].
  destruct i as [|i], j as [|j]; cbn; try reflexivity. apply IH. lia.
Qed.

(** ** The undirected adjacency *)

Definition nbr (ids : list nat) (es : list Edge) (v u : nat) : Prop :=
  exists e, In e es /\ ((indexOf ids (src e) = Some v /\ indexOf ids (dst e) = Some u) \/
                        (indexOf ids (src e) = Some u /\ indexOf ids (dst e) = Some v)).

Lemma indexOf_lt l b i : indexOf l b = Some i -> i < length l.
Proof. intros H. apply indexOf_some in H. apply nth_error_Some. congruence. Qed.

Lemma undirected_spec ids es :
  length (undirected ids es) = length ids /\ forall v u, In u (nth v (undirected ids es) []) <-> nbr ids es v u.
Proof.
  unfold undirected.
  assert (H : forall l pre adj, length adj = length ids ->
    (forall v u, In u (nth v adj []) <-> nbr ids pre v u) ->
    let r := fold_left (pushBoth ids) l adj in
    length r = length ids /\ forall v u, In u (nth v r []) <-> nbr ids (pre ++ l) v u).
  { induction l as [|e l IH]; intros pre adj HL HA; cbv zeta; cbn [fold_left].
    - rewrite app_nil_r. auto.
    - replace (pre ++ e :: l) with ((pre ++ [e]) ++ l) by (rewrite <- app_assoc; reflexivity).
      apply (IH (pre ++ [e]) (pushBoth ids adj e)).
      + unfold pushBoth. destruct (indexOf ids (src e)), (indexOf ids (dst e)); cbv zeta; rewrite ?length_upd; exact HL.
      + intros v u. unfold nbr.
        assert (X : (exists x, In x (pre ++ [e]) /\
          ((indexOf ids (src x) = Some v /\ indexOf ids (dst x) = Some u) \/ (indexOf ids (src x) = Some u /\ indexOf ids (dst x) = Some v)))
          <-> nbr ids pre v u \/ ((indexOf ids (src e) = Some v /\ indexOf ids (dst e) = Some u) \/ (indexOf ids (src e) = Some u /\ indexOf ids (dst e) = Some v))).
        { unfold nbr. split.
          - intros (x & Hx & H). apply in_app_iff in Hx as [Hx|[<-|[]]]; [left; exists x; auto|right; exact H].
          - intros [(x & Hx & H)|H]; [exists x; split; [apply in_app_iff; left; exact Hx|exact H]|].
            exists e. split; [apply in_app_iff; right; left; reflexivity|exact H]. }
        rewrite X. unfold pushBoth. destruct (indexOf ids (src e)) as [s|] eqn:Es.
        2:{ rewrite HA. split; [auto|]. intros [H|[[H _]|[H _]]]; [exact H|discriminate|discriminate]. }
        destruct (indexOf ids (dst e)) as [d|] eqn:Ed.
        2:{ rewrite HA. split; [auto|]. intros [H|[[_ H]|[_ H]]]; [exact H|discriminate|discriminate]. }
        apply indexOf_lt in Es, Ed. cbv zeta. rewrite !nth_upd by (rewrite ?length_upd; lia).
        destruct (Nat.eqb_spec d v) as [->|Hd]; destruct (Nat.eqb_spec s v) as [->|Hs].
        * rewrite !in_app_iff, HA. cbn. intuition congruence.
        * rewrite !in_app_iff, HA. cbn. intuition congruence.
        * rewrite !in_app_iff, HA. cbn. intuition congruence.
        * rewrite HA. intuition congruence. }
  apply (H es [] (repeat [] (length ids))); [apply repeat_length|].
  intros v u. assert (E : nth v (repeat (@nil nat) (length ids)) [] = []).
  { clear. revert v. induction (length ids) as [|n IH]; intros [|v]; cbn; auto. }
  rewrite E. split; [intros []|intros (e & [] & _)].
Qed.

Lemma nbr_sym ids es v u : nbr ids es v u -> nbr ids es u v.
Proof. intros (e & He & [H|H]); exists e; split; auto. Qed.

Lemma nbr_lt ids es v u : nbr ids es v u -> v < length ids /\ u < length ids.
Proof. intros (e & He & [[H1 H2]|[H1 H2]]); apply indexOf_lt in H1, H2; auto. Qed.

(** ** Labelling over an abstract symmetric adjacency *)

Section Label.
Context (adj : list (list nat)).
Local Notation n := (length adj).
Local Notation R v u := (In u (nth v adj [])).
Context (Rsym : forall v u, R v u -> R u v) (Rlt : forall v u, R v u -> v < n /\ u < n).

Inductive conn (v : nat) : nat -> Prop :=
| cn_nil : conn v v
| cn_snoc b c : conn v b -> R b c -> conn v c.

Lemma conn_trans a b c : conn a b -> conn b c -> conn a c.
Proof. intros H1 H2. induction H2 as [|x y _ IH Hxy]; [exact H1|]. apply cn_snoc with x; assumption. Qed.

Lemma conn_sym a b : conn a b -> conn b a.
Proof.
  induction 1 as [|x y _ IH Hxy]; [constructor|]. apply conn_trans with x; [|exact IH].
  apply cn_snoc with y; [constructor|]. apply Rsym. exact Hxy.
Qed.

Local Notation labelled lab u := (nth u lab None <> None).

(** The queue loop for one component: [lab0] are the labels at its start. *)
Record queueInv (c v : nat) (lab0 : list (option nat)) (l : list nat) (lab : list (option nat)) : Prop := {
  qi_len : length lab = n;
  qi_lt : forall u, In u l -> u < n;
  qi_nodup : NoDup l;
  qi_in : forall u, In u l -> nth u lab None = Some c /\ nth u lab0 None = None;
  qi_out : forall u, ~ In u l -> nth u lab None = nth u lab0 None;
  qi_conn : forall u, In u l -> conn v u }.

Lemma queueInv_perm c v lab0 l l' lab : Permutation l l' -> queueInv c v lab0 l lab -> queueInv c v lab0 l' lab.
Proof.
  intros P [H1 H2 H3 H4 H5 H6].
  assert (I : forall x, In x l <-> In x l') by (intros x; split; apply Permutation_in; [|symmetry]; exact P).
  split; try assumption.
  - intros u Hu. apply H2, I, Hu.
  - apply (Permutation_NoDup P H3).
  - intros u Hu. apply H4, I, Hu.
  - intros u Hu. apply H5. rewrite I. exact Hu.
  - intros u Hu. apply H6, I, Hu.
Qed.

Lemma push_one c v lab0 cur q comp lab u :
  In u (nth cur adj []) -> conn v cur -> queueInv c v lab0 (q ++ comp) lab ->
  let '(q', lab') := wccPush c (q, lab) u in
  queueInv c v lab0 (q' ++ comp) lab' /\ (In u (q' ++ comp) \/ nth u lab0 None <> None) /\ incl q q'.
Proof.
  intros Hu Hcv Hi. pose proof Hi as [H1 H2 H3 H4 H5 H6]. unfold wccPush.
  destruct (nth u lab None) as [k|] eqn:E.
  - split; [exact Hi|]. split; [|intros x Hx; exact Hx].
    destruct (in_dec Nat.eq_dec u (q ++ comp)) as [X|X]; [left; exact X|right]. rewrite <- (H5 u X), E. discriminate.
  - destruct (Rlt cur u Hu) as [_ Hun].
    assert (Hno : ~ In u (q ++ comp)) by (intros X; apply H4 in X as [X _]; congruence).
    assert (P : Permutation (u :: q ++ comp) ((q ++ [u]) ++ comp)).
    { rewrite <- app_assoc. cbn [app]. apply Permutation_middle. }
    assert (Nx : forall x, nth x (upd lab u (Some c)) None = if Nat.eqb u x then Some c else nth x lab None)
      by (intros x; apply nth_upd; lia).
    split.
    { apply (queueInv_perm c v lab0 _ _ _ P). split.
      - rewrite length_upd. exact H1.
      - intros x [<-|Hx]; auto.
      - constructor; assumption.
      - intros x Hx. rewrite Nx. destruct (Nat.eqb_spec u x) as [->|Hux].
        + split; [reflexivity|]. rewrite <- H5 by exact Hno. exact E.
        + destruct Hx as [Hx|Hx]; [congruence|]. apply H4. exact Hx.
      - intros x Hx. rewrite Nx. destruct (Nat.eqb_spec u x) as [->|Hux]; [elim Hx; left; reflexivity|].
        apply H5. intros X. apply Hx. right. exact X.
      - intros x [<-|Hx]; [apply cn_snoc with cur; assumption|apply H6; exact Hx]. }
    split; [left; apply (Permutation_in _ P); left; reflexivity|].
    intros x Hx. apply in_app_iff. left. exact Hx.
Qed.

Lemma push_all c v lab0 cur comp : forall l q lab,
  (forall u, In u l -> In u (nth cur adj [])) -> conn v cur -> queueInv c v lab0 (q ++ comp) lab ->
  let '(q', lab') := fold_left (wccPush c) l (q, lab) in
  queueInv c v lab0 (q' ++ comp) lab' /\ (forall u, In u l -> In u (q' ++ comp) \/ nth u lab0 None <> None) /\ incl q q'.
Proof.
  induction l as [|u l IH]; intros q lab H1 H2 H3; cbn [fold_left].
  - split; [exact H3|]. split; [intros u []|intros x Hx; exact Hx].
  - pose proof (push_one c v lab0 cur q comp lab u (H1 u (or_introl eq_refl)) H2 H3) as P.
    destruct (wccPush c (q, lab) u) as [q1 lab1]. destruct P as (P1 & P2 & P3).
    pose proof (IH q1 lab1 (fun x Hx => H1 x (or_intror Hx)) H2 P1) as Q.
    destruct (fold_left (wccPush c) l (q1, lab1)) as [q2 lab2]. destruct Q as (Q1 & Q2 & Q3).
    split; [exact Q1|]. split; [|intros x Hx; apply Q3, P3, Hx].
    intros x [<-|Hx]; [|apply Q2; exact Hx]. destruct P2 as [P2|P2]; [left|right; exact P2].
    apply in_app_iff in P2 as [P2|P2]; apply in_app_iff; [left; apply Q3; exact P2|right; exact P2].
Qed.

Lemma nodup_bound l m : NoDup l -> (forall x, In x l -> x < m) -> length l <= m.
Proof.
  intros Hn Hl. rewrite <- (seq_length m 0). apply NoDup_incl_length; [exact Hn|].
  intros x Hx. apply in_seq. specialize (Hl x Hx). lia.
Qed.

Lemma wccLoop_spec c v lab0 : forall fuel q lab comp,
  queueInv c v lab0 (q ++ comp) lab -> In v (q ++ comp) ->
  (forall x u, In x comp -> R x u -> In u (q ++ comp) \/ nth u lab0 None <> None) ->
  n <= fuel + length comp ->
  let '(comp', lab') := wccLoop fuel adj c q lab comp in
  queueInv c v lab0 comp' lab' /\ In v comp' /\
  (forall x u, In x comp' -> R x u -> In u comp' \/ nth u lab0 None <> None).
Proof.
  induction fuel as [|f IH]; intros q lab comp Hq Hv Hd Hf.
  - cbn [wccLoop].
    assert (q = []).
    { destruct q as [|x q]; [reflexivity|exfalso]. destruct Hq as [_ Hlt Hnd _ _ _].
      pose proof (nodup_bound _ _ Hnd Hlt) as L. rewrite app_length in L. cbn in L. lia. }
    subst q. auto.
  - cbn [wccLoop]. destruct q as [|cur rest]; [auto|].
    assert (P : Permutation ((cur :: rest) ++ comp) (rest ++ (comp ++ [cur]))).
    { cbn [app]. rewrite app_assoc. apply Permutation_cons_append. }
    pose proof (push_all c v lab0 cur (comp ++ [cur]) (nth cur adj []) rest lab (fun u Hu => Hu)) as F.
    destruct (fold_left (wccPush c) (nth cur adj []) (rest, lab)) as [q1 lab1].
    destruct F as (F1 & F2 & F3).
    { apply (qi_conn _ _ _ _ _ Hq). left. reflexivity. }
    { apply (queueInv_perm _ _ _ _ _ _ P Hq). }
    assert (G : forall x, In x ((cur :: rest) ++ comp) -> In x (q1 ++ comp ++ [cur])).
    { intros x Hx. apply (Permutation_in _ P) in Hx. apply in_app_iff in Hx as [Hx|Hx]; apply in_app_iff; [left; apply F3; exact Hx|right; exact Hx]. }
    apply IH; [exact F1|apply G; exact Hv| |rewrite app_length; cbn; lia].
    intros x u Hx Hu. apply in_app_iff in Hx as [Hx|[<-|[]]]; [|apply F2; exact Hu].
    destruct (Hd x u Hx Hu) as [X|X]; [left; apply G; exact X|right; exact X].
Qed.

(** The outer loop. *)
Record compInv (k : nat) (comps : list (list nat)) (lab : list (option nat)) : Prop := {
  ci_len : length lab = n;
  ci_lab : forall u c, nth u lab None = Some c <-> In u (nth c comps []);
  ci_lt : forall u, In u (concat comps) -> u < n;
  ci_nodup : NoDup (concat comps);
  ci_comp : forall comp, In comp comps -> exists v, In v comp /\ forall u, In u comp <-> conn v u;
  ci_done : forall u, u < k -> nth u lab None <> None }.

Lemma In_nth_comps (comps : list (list nat)) c u : In u (nth c comps []) -> In (nth c comps []) comps.
Proof.
  intros H. destruct (Nat.lt_ge_cases c (length comps)) as [L|L]; [apply nth_In; exact L|].
  rewrite nth_overflow in H by exact L. destruct H.
Qed.

Lemma In_concat_nth (comps : list (list nat)) u : In u (concat comps) <-> exists c, In u (nth c comps []).
Proof.
  rewrite in_concat. split.
  - intros (l & Hl & Hu). apply (In_nth _ _ []) in Hl as (c & _ & E). exists c. rewrite E. exact Hu.
  - intros (c & Hu). exists (nth c comps []). split; [|exact Hu]. apply (In_nth_comps _ _ u Hu).
Qed.

Lemma nth_snoc (comps : list (list nat)) comp c : nth c (comps ++ [comp]) [] =
  if Nat.eqb c (length comps) then comp else nth c comps [].
Proof.
  destruct (Nat.eqb_spec c (length comps)) as [->|H].
  - rewrite app_nth2, Nat.sub_diag by lia. reflexivity.
  - destruct (Nat.lt_ge_cases c (length comps)) as [L|L]; [apply app_nth1; exact L|].
    rewrite !nth_overflow; [reflexivity|exact L|rewrite app_length; cbn; lia].
Qed.

Lemma wccStep_spec k comps lab : k < n -> compInv k comps lab ->
  let '(comps', lab') := wccStep adj (comps, lab) k in compInv (S k) comps' lab'.
Proof.
  intros Hk [C1 C2 C3 C4 C5 C6]. unfold wccStep.
  destruct (nth k lab None) as [c0|] eqn:E.
  - split; try assumption. intros u Hu. destruct (Nat.eq_dec u k) as [->|Hne]; [rewrite E; discriminate|apply C6; lia].
  - set (c := length comps).
    assert (Nx : forall x, nth x (upd lab k (Some c)) None = if Nat.eqb k x then Some c else nth x lab None)
      by (intros x; apply nth_upd; lia).
    assert (Hc : forall x, nth x lab None <> Some c).
    { intros x X. apply C2 in X. unfold c in X. rewrite nth_overflow in X by lia. destruct X. }
    pose proof (wccLoop_spec c k lab (length adj) [k] (upd lab k (Some c)) []) as W.
    destruct (wccLoop (length adj) adj c [k] (upd lab k (Some c)) []) as [comp lab'].
    destruct W as (W & Wv & Wd).
    { split.
      - rewrite length_upd. exact C1.
      - intros u [<-|[]]. exact Hk.
      - cbn. constructor; [intros []|constructor].
      - intros u [<-|[]]. rewrite Nx, Nat.eqb_refl. auto.
      - intros u Hu. rewrite Nx. destruct (Nat.eqb_spec k u) as [->|Hku]; [elim Hu; left; reflexivity|reflexivity].
      - intros u [<-|[]]. constructor. }
    { left. reflexivity. }
    { intros x u []. }
    { cbn. lia. }
    destruct W as [W1 W2 W3 W4 W5 W6].
    (* earlier components are closed under the adjacency *)
    assert (Cl : forall x u, nth x lab None <> None -> R x u -> nth u lab None <> None).
    { intros x u Hx Hxu. destruct (nth x lab None) as [cx|] eqn:Ex; [|congruence].
      apply C2 in Ex. destruct (C5 _ (In_nth_comps _ _ _ Ex)) as (r & _ & Hr). apply Hr in Ex.
      assert (Y : In u (nth cx comps [])) by (apply Hr; apply cn_snoc with x; assumption).
      apply C2 in Y. rewrite Y. discriminate. }
    assert (Full : forall u, In u comp <-> conn k u).
    { intros u. split; [apply W6|]. induction 1 as [|x y _ IH Hxy]; [exact Wv|].
      destruct (Wd x y IH Hxy) as [L|L]; [exact L|exfalso].
      pose proof (Cl y x L (Rsym _ _ Hxy)) as Z. apply W4 in IH as [_ IH]. congruence. }
    split.
    + exact W1.
    + intros u c'. rewrite nth_snoc. fold c.
      destruct (in_dec Nat.eq_dec u comp) as [Hu|Hu].
      * destruct (W4 u Hu) as [X Y]. rewrite X. destruct (Nat.eqb_spec c' c) as [->|Hcc]; [tauto|].
        split; [congruence|]. intros Z. apply C2 in Z. congruence.
      * rewrite (W5 u Hu). destruct (Nat.eqb_spec c' c) as [->|Hcc]; [|apply C2].
        split; [intros X; elim (Hc u X)|contradiction].
    + intros u Hu. rewrite concat_app, in_app_iff in Hu. cbn in Hu. rewrite app_nil_r in Hu. destruct Hu; auto.
    + rewrite concat_app. cbn. rewrite app_nil_r. apply NoDup_app_iff_local. split; [exact C4|]. split; [exact W3|].
      intros u Hu Hu'. apply In_concat_nth in Hu as (cu & Hu). apply C2 in Hu. apply W4 in Hu' as [_ Hu']. congruence.
    + intros cm Hcm. apply in_app_iff in Hcm as [Hcm|[<-|[]]]; [apply C5; exact Hcm|]. exists k. split; [exact Wv|exact Full].
    + intros u Hu. destruct (in_dec Nat.eq_dec u comp) as [X|X].
      * destruct (W4 u X) as [-> _]. discriminate.
      * rewrite (W5 u X). destruct (Nat.eq_dec u k) as [->|Hne]; [contradiction|apply C6; lia].
Qed.

Lemma wccLabel_spec : let '(comps, lab) := wccLabel n adj in compInv n comps lab.
Proof.
  unfold wccLabel.
  assert (H : forall m k st, k + m = n -> compInv k (fst st) (snd st) ->
    let '(comps, lab) := fold_left (wccStep adj) (seq k m) st in compInv n comps lab).
  { induction m as [|m IH]; intros k [comps lab] Hkm Hc; cbn [seq fold_left].
    - replace n with k by lia. exact Hc.
    - assert (Hk : k < n) by lia. pose proof (wccStep_spec k comps lab Hk Hc) as S1.
      destruct (wccStep adj (comps, lab) k) as [comps1 lab1]. apply IH; [lia|exact S1]. }
  apply (H n 0 ([], repeat None n)); [lia|]. cbn [fst snd].
  assert (E : forall u, nth u (repeat (@None nat) n) None = None).
  { intros u. generalize n. intros m. revert u. induction m as [|m IH]; intros [|u]; cbn; auto. }
  split.
  - apply repeat_length.
  - intros u c. rewrite E. split; [discriminate|destruct c; intros []].
  - intros u [].
  - constructor.
  - intros comp [].
  - intros u Hu; lia.
Qed.
End Label.

(** ** Duplicate connections *)

Lemma edgeEq_key a b : edgeEq a b = true <-> connection a = connection b.
Proof.
  unfold edgeEq, connection. rewrite !andb_true_iff, !Nat.eqb_eq, !portEq_eq. split.
  - intros [[[-> ->] ->] ->]. reflexivity.
  - intros H. inversion H. auto.
Qed.

Lemma contains_key es e : containsEdge es e = true <-> In (connection e) (map connection es).
Proof.
  unfold containsEdge. rewrite existsb_exists, in_map_iff. split.
  - intros (x & Hx & E). apply edgeEq_key in E. exists x. auto.
  - intros (x & E & Hx). exists x. split; [exact Hx|]. apply edgeEq_key. exact E.
Qed.

Lemma addEdges_distinct l : forall acc, distinct (acc ++ l) -> fold_left addEdge l acc = acc ++ l.
Proof.
  induction l as [|e l IH]; intros acc H; cbn [fold_left]; [rewrite app_nil_r; reflexivity|].
  unfold addEdge at 2. destruct (containsEdge acc e) eqn:E.
  - exfalso. apply contains_key in E. unfold distinct in H. rewrite map_app in H. cbn [map] in H.
    apply (NoDup_app_disj _ _ H (connection e) E). left. reflexivity.
  - rewrite IH; rewrite <- app_assoc; [reflexivity|exact H].
Qed.

Lemma addEdges_sound l : forall acc, distinct acc ->
  let r := fold_left addEdge l acc in
  distinct r /\ (exists more, r = acc ++ more) /\ (forall e, In e r -> In e acc \/ In e l) /\
  (forall e, In e l -> exists x, In x r /\ connection x = connection e).
Proof.
  induction l as [|e l IH]; intros acc H; cbv zeta; cbn [fold_left].
  - split; [exact H|]. split; [exists []; rewrite app_nil_r; reflexivity|]. split; [auto|intros e []].
  - assert (D : distinct (addEdge acc e)).
    { unfold addEdge. destruct (containsEdge acc e) eqn:E; [exact H|]. unfold distinct. rewrite map_app. cbn [map].
      apply (Permutation_NoDup (l := connection e :: map connection acc)); [apply Permutation_cons_append|].
      constructor; [|exact H]. intros X. apply contains_key in X. congruence. }
    destruct (IH (addEdge acc e) D) as (I1 & (more & I2) & I3 & I4).
    assert (Pre : exists m, addEdge acc e = acc ++ m).
    { unfold addEdge. destruct (containsEdge acc e); [exists []; rewrite app_nil_r; reflexivity|exists [e]; reflexivity]. }
    destruct Pre as [m Pre].
    split; [exact I1|]. split; [exists (m ++ more); rewrite I2, Pre, <- app_assoc; reflexivity|]. split.
    + intros x Hx. apply I3 in Hx as [Hx|Hx]; [|right; right; exact Hx].
      unfold addEdge in Hx. destruct (containsEdge acc e); [left; exact Hx|].
      apply in_app_iff in Hx as [Hx|[<-|[]]]; [left; exact Hx|right; left; reflexivity].
    + intros x [<-|Hx]; [|apply I4; exact Hx].
      assert (Y : In (connection e) (map connection (addEdge acc e))).
      { unfold addEdge. destruct (containsEdge acc e) eqn:E; [apply contains_key; exact E|].
        rewrite map_app. apply in_app_iff. right. left. reflexivity. }
      apply in_map_iff in Y as (y & Ey & Hy). exists y. split; [|exact Ey].
      rewrite I2. apply in_app_iff. left. exact Hy.
Qed.

Lemma distinct_filter f es : distinct es -> distinct (filter f es).
Proof.
  unfold distinct. induction es as [|e es IH]; intros H; cbn; [constructor|]. cbn in H. inversion H; subst.
  destruct (f e); cbn; [|apply IH; assumption]. constructor; [|apply IH; assumption].
  intros X. apply in_map_iff in X as (x & E & Hx). apply filter_In in Hx as [Hx _]. apply H2. rewrite <- E. apply in_map. exact Hx.
Qed.

Lemma distinct_NoDup es : distinct es -> NoDup es.
Proof. apply NoDup_map_inv. Qed.

(** ** The parts *)

Lemma indexOf_nth ids i : NoDup ids -> i < length ids -> indexOf ids (nth i ids 0) = Some i.
Proof.
  intros Hn. revert i. induction ids as [|b ids IH]; intros i Hi; cbn in Hi; [lia|]. inversion Hn; subst.
  destruct i as [|i]; cbn [nth indexOf]; [rewrite Nat.eqb_refl; reflexivity|].
  destruct (Nat.eqb_spec b (nth i ids 0)) as [->|Hne].
  - elim H1. apply nth_In. lia.
  - rewrite IH by (assumption || lia). reflexivity.
Qed.

Lemma nth_indexOf ids b i : indexOf ids b = Some i -> nth i ids 0 = b.
Proof. intros H. apply indexOf_some in H. apply nth_error_nth. exact H. Qed.

Lemma conn_connected ids es i j : NoDup ids -> i < length ids ->
  (conn (undirected ids es) i j <-> j < length ids /\ connected ids es (nth i ids 0) (nth j ids 0)).
Proof.
  intros Hn Hi. destruct (undirected_spec ids es) as [HL HU]. split.
  - induction 1 as [|x y Hx IH Hxy]; [split; [exact Hi|constructor]|].
    apply HU in Hxy. destruct (nbr_lt _ _ _ _ Hxy) as [_ Hy]. split; [exact Hy|].
    apply conn_snoc with (nth x ids 0); [apply IH|]. destruct IH as [IHl _].
    split; [apply nth_In; exact IHl|]. split; [apply nth_In; exact Hy|].
    destruct Hxy as (e & He & [[H1 H2]|[H1 H2]]); apply nth_indexOf in H1, H2; [left|right]; exists e; auto.
  - intros [Hj H].
    assert (G : forall b, connected ids es (nth i ids 0) b -> forall k, indexOf ids b = Some k -> conn (undirected ids es) i k).
    { induction 1 as [|b c Hb IH (Hb1 & Hc1 & Hl)]; intros k Hk.
      - rewrite indexOf_nth in Hk by assumption. inversion Hk; subst. constructor.
      - destruct (indexOf_In ids b Hb1) as [m Hm]. apply cn_snoc with m; [apply IH; exact Hm|].
        apply HU. destruct Hl as [(e & He & E1 & E2)|(e & He & E1 & E2)]; exists e; (split; [exact He|]); subst; auto. }
    apply (G _ H). apply indexOf_nth; assumption.
Qed.

Lemma map_nth_seq (l : list nat) : map (fun i => nth i l 0) (seq 0 (length l)) = l.
Proof.
  induction l as [|x l IH]; [reflexivity|]. cbn [length seq map nth]. rewrite <- seq_shift, map_map. f_equal. exact IH.
Qed.

Lemma concat_perm {A} (l l' : list (list A)) : Permutation l l' -> Permutation (concat l) (concat l').
Proof.
  induction 1 as [|x l l' _ IH|x y l|l l' l'' _ IH1 _ IH2]; cbn [concat]; auto.
  - apply Permutation_app_head. exact IH.
  - rewrite !app_assoc. apply Permutation_app_tail. apply Permutation_app_comm.
  - etransitivity; eassumption.
Qed.

Lemma map_nth_all {A} (l : list A) d : map (fun c => nth c l d) (seq 0 (length l)) = l.
Proof.
  induction l as [|x l IH]; [reflexivity|]. cbn [length seq map nth]. rewrite <- seq_shift, map_map. f_equal. exact IH.
Qed.

Lemma compEdges_filter ids lab es cid :
  compEdges ids lab es cid =
  fold_left addEdge (filter (fun e =>
    match indexOf ids (src e), indexOf ids (dst e) with
    | Some s, Some d => match nth s lab None, nth d lab None with Some a, Some b => Nat.eqb a b && Nat.eqb a cid | _, _ => false end
    | _, _ => false end) es) [].
Proof.
  unfold compEdges. generalize (@nil Edge). induction es as [|e es IH]; intros acc; cbn [fold_left filter]; [reflexivity|].
  rewrite IH. destruct (indexOf ids (src e)) as [s|]; [|reflexivity]. destruct (indexOf ids (dst e)) as [d|]; [|reflexivity].
  destruct (nth s lab None) as [a|]; [|reflexivity]. destruct (nth d lab None) as [b|]; [|reflexivity].
  destruct (Nat.eqb a b && Nat.eqb a cid); reflexivity.
Qed.

Lemma wcc_components ids es order :
  NoDup ids -> distinct es ->
  Permutation order (seq 0 (length (componentSizes ids es))) ->
  StronglySorted (fun a b => nth b (componentSizes ids es) 0 <= nth a (componentSizes ids es) 0) order ->
  components ids es (weaklyConnectedComponents ids es order).
Proof.
  intros Hn Hd HP HS. destruct (undirected_spec ids es) as [HL HU].
  unfold weaklyConnectedComponents, componentSizes in *.
  assert (Sym : forall v u, In u (nth v (undirected ids es) []) -> In v (nth u (undirected ids es) [])).
  { intros v u H. apply HU. apply nbr_sym. apply HU. exact H. }
  assert (Lt : forall v u, In u (nth v (undirected ids es) []) -> v < length (undirected ids es) /\ u < length (undirected ids es)).
  { intros v u H. rewrite HL. apply (nbr_lt ids es). apply HU. exact H. }
  pose proof (wccLabel_spec (undirected ids es) Sym Lt) as W. rewrite HL in W.
  destruct (wccLabel (length ids) (undirected ids es)) as [comps lab]. cbn [fst] in *. rewrite map_length in HP.
  destruct W as [W1 W2 W3 W4 W5 W6]. rewrite HL in W1, W3.
  set (part := fun cid => (compBlocks ids (nth cid comps []), compEdges ids lab es cid)).
  assert (Ho : forall c, In c order <-> c < length comps).
  { intros c. split; intros H.
    - apply (Permutation_in _ HP) in H. apply in_seq in H. lia.
    - apply (Permutation_in _ (Permutation_sym HP)). apply in_seq. lia. }
  assert (Hlt : forall c u, In u (nth c comps []) -> u < length ids).
  { intros c u H. apply W3. apply In_concat_nth. exists c. exact H. }
  assert (Hb : forall c b, In b (compBlocks ids (nth c comps [])) <-> exists i, indexOf ids b = Some i /\ nth i lab None = Some c).
  { intros c b. unfold compBlocks. rewrite in_map_iff. split.
    - intros (i & <- & Hi). exists i. split; [apply indexOf_nth; [exact Hn|apply (Hlt c); exact Hi]|]. apply W2. exact Hi.
    - intros (i & Ei & Hi). exists i. split; [apply nth_indexOf; exact Ei|]. apply W2. exact Hi. }
  split; [|split; [|split; [|split]]].
  - rewrite map_map. unfold part; cbn [fst].
    assert (E1 : Permutation (map (fun c => compBlocks ids (nth c comps [])) order) (map (compBlocks ids) comps)).
    { assert (X : map (compBlocks ids) comps = map (fun c => compBlocks ids (nth c comps [])) (seq 0 (length comps))).
      { transitivity (map (compBlocks ids) (map (fun c => nth c comps []) (seq 0 (length comps)))).
        - f_equal. symmetry. apply map_nth_all.
        - apply map_map. }
      rewrite X. apply Permutation_map. exact HP. }
    rewrite (concat_perm _ _ E1).
    assert (E2 : Permutation (concat comps) (seq 0 (length ids))).
    { apply NoDup_Permutation; [exact W4|apply seq_NoDup|]. intros u. rewrite in_seq. split.
      - intros H. specialize (W3 u H). lia.
      - intros [_ H]. specialize (W6 u H). destruct (nth u lab None) as [c|] eqn:E; [|congruence].
        apply W2 in E. apply In_concat_nth. exists c. exact E. }
    apply (Permutation_map (fun i => nth i ids 0)) in E2. rewrite map_nth_seq, concat_map in E2. exact E2.
  - intros a b H H0. split.
  { intros (p & Hp & Ha & Hbb). apply in_map_iff in Hp as (c & <- & Hc); unfold part in *. cbn [fst] in Ha, Hbb.
    apply Hb in Ha as (i & Ei & Li). apply Hb in Hbb as (j & Ej & Lj). apply W2 in Li, Lj.
    destruct (W5 _ (In_nth_comps _ _ _ Li)) as (v & _ & Hv). apply Hv in Li, Lj.
    assert (C : conn (undirected ids es) i j).
    { apply conn_trans with v; [apply conn_sym; [exact Sym|exact Li]|exact Lj]. }
    apply (conn_connected ids es i j Hn (indexOf_lt _ _ _ Ei)) in C as [_ C].
    rewrite (nth_indexOf _ _ _ Ei), (nth_indexOf _ _ _ Ej) in C. exact C. }
  intros C. destruct (indexOf_In ids a H) as [i Ei]. destruct (indexOf_In ids b H0) as [j Ej].
    rewrite <- (nth_indexOf _ _ _ Ei), <- (nth_indexOf _ _ _ Ej) in C.
    assert (C' : conn (undirected ids es) i j).
    { apply (conn_connected ids es i j Hn (indexOf_lt _ _ _ Ei)). split; [apply (indexOf_lt _ _ _ Ej)|exact C]. }
    pose proof (W6 i (indexOf_lt _ _ _ Ei)) as Li. destruct (nth i lab None) as [c|] eqn:Eli; [|congruence].
    assert (Eli2 := Eli). apply W2 in Eli. destruct (W5 _ (In_nth_comps _ _ _ Eli)) as (v & _ & Hv).
    apply Hv in Eli. assert (Elj : In j (nth c comps [])) by (apply Hv; apply conn_trans with i; assumption).
    exists (part c). split; [apply in_map; apply Ho|cbn [part fst]; split; apply Hb].
    + destruct (Nat.lt_ge_cases c (length comps)) as [L|L]; [exact L|]. rewrite nth_overflow in Elj by exact L. destruct Elj.
    + exists i. auto.
    + exists j. split; [exact Ej|apply W2; exact Elj].
  - intros p H Hp. apply in_map_iff in H as (c & <- & Hc); unfold part in *. cbn [fst] in Hp. apply Ho in Hc.
    destruct (W5 (nth c comps []) (nth_In _ _ Hc)) as (v & Hv & _). unfold compBlocks in Hp. apply map_eq_nil in Hp. rewrite Hp in Hv. destruct Hv.
  - intros p H. split; [|intros e; split; [intros H0; split; [|split]|]].
  + apply in_map_iff in H as (c & <- & Hc); unfold part in *. cbn [snd]. rewrite compEdges_filter, addEdges_distinct.
    * apply distinct_NoDup. apply distinct_filter. exact Hd.
    * cbn [app]. apply distinct_filter. exact Hd.
  + apply in_map_iff in H as (c & <- & Hc); unfold part in *. cbn [snd] in H0. rewrite compEdges_filter, addEdges_distinct in H0 by (cbn [app]; apply distinct_filter; exact Hd).
    cbn [app] in H0. apply filter_In in H0. apply H0.
  + apply in_map_iff in H as (c & <- & Hc); unfold part in *. cbn [snd fst] in *. rewrite compEdges_filter, addEdges_distinct in H0 by (cbn [app]; apply distinct_filter; exact Hd).
    cbn [app] in H0. apply filter_In in H0 as [_ H0]. apply Hb.
    destruct (indexOf ids (src e)) as [s|]; [|discriminate]. destruct (indexOf ids (dst e)) as [d|]; [|discriminate].
    exists s. split; [reflexivity|]. destruct (nth s lab None) as [x|]; [|discriminate]. destruct (nth d lab None) as [y|]; [|discriminate].
    apply andb_prop in H0 as [_ H0]. apply Nat.eqb_eq in H0. congruence.
  + apply in_map_iff in H as (c & <- & Hc); unfold part in *. cbn [snd fst] in *. rewrite compEdges_filter, addEdges_distinct in H0 by (cbn [app]; apply distinct_filter; exact Hd).
    cbn [app] in H0. apply filter_In in H0 as [_ H0]. apply Hb.
    destruct (indexOf ids (src e)) as [s|]; [|discriminate]. destruct (indexOf ids (dst e)) as [d|]; [|discriminate].
    exists d. split; [reflexivity|]. destruct (nth s lab None) as [x|]; [|discriminate]. destruct (nth d lab None) as [y|]; [|discriminate].
    apply andb_prop in H0 as [H0 H1]. apply Nat.eqb_eq in H0, H1. congruence.
  + intros (He & H1 & H2). apply in_map_iff in H as (c & <- & Hc); unfold part in *. cbn [snd fst] in *.
    rewrite compEdges_filter, addEdges_distinct by (cbn [app]; apply distinct_filter; exact Hd). cbn [app].
    apply filter_In. split; [exact He|]. apply Hb in H1 as (s & -> & Es). apply Hb in H2 as (d & -> & Ed). rewrite Es, Ed, !Nat.eqb_refl. reflexivity.
  - intros i j p q Hij Hi Hj; unfold part in *.
    assert (S2 : forall l i j a b, StronglySorted (fun a b => nth b (map (@length nat) comps) 0 <= nth a (map (@length nat) comps) 0) l ->
      i < j -> nth_error l i = Some a -> nth_error l j = Some b -> nth b (map (@length nat) comps) 0 <= nth a (map (@length nat) comps) 0).
    { clear. induction l as [|x l IH]; intros i j a b HS Hij Ha Hb; [destruct i; discriminate|]. inversion HS; subst.
      destruct j as [|j]; [lia|]. cbn in Hb. destruct i as [|i].
      - inversion Ha; subst. rewrite Forall_forall in H2. apply H2. apply nth_error_In in Hb. exact Hb.
      - cbn in Ha. apply (IH i j a b H1); [lia|exact Ha|exact Hb]. }
    rewrite nth_error_map in Hi, Hj. destruct (nth_error order i) as [ci|] eqn:Ei; [|discriminate].
    destruct (nth_error order j) as [cj|] eqn:Ej; [|discriminate]. cbn in Hi, Hj. inversion Hi; inversion Hj; subst. cbn [fst].
    pose proof (S2 order i j ci cj HS Hij Ei Ej) as L. unfold compBlocks. rewrite !map_length.
    change 0 with (length (@nil nat)) in L. rewrite !map_nth in L. exact L.
Qed.
