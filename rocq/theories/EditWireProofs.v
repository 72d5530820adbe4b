(** Proofs that grouping and ungrouping keep the wires. *)
From Coq Require Import Ascii ZArith NArith Bool Arith Permutation Lia String List.
From Verif Require Import Base TopoModel EditModel EditSpec EditProofs EditGroupProofs.
Import ListNotations.
Local Open Scope nat_scope.
Local Open Scope list_scope.

(** ** Lists *)

Lemma fop_in (A : Type) (R : A -> A -> Prop) l r a b : ForallOrdPairs R (l ++ r) -> In a l -> In b r -> R a b.
Proof.
  induction l as [|x l IH]; cbn; intros H Ha Hb; [destruct Ha|]. inversion H as [|? ? Hx Hl]; subst. destruct Ha as [->|Ha].
  - rewrite Forall_forall in Hx. apply Hx. apply in_or_app. right. exact Hb.
  - exact (IH Hl Ha Hb).
Qed.

Lemma fop_filter (A : Type) (R : A -> A -> Prop) f l : ForallOrdPairs R l -> ForallOrdPairs R (filter f l).
Proof.
  induction 1 as [|x l Hx Hl IH]; cbn; [constructor|]. destruct (f x); [|exact IH]. constructor; [|exact IH].
  rewrite Forall_forall in *. intros y Hy. apply filter_In in Hy as [Hy _]. auto.
Qed.

Lemma addEdges_all es : forall acc, ForallOrdPairs (fun a b => gedgeEq a b = false) (acc ++ es) -> fold_left addEdge es acc = acc ++ es.
Proof.
  induction es as [|e r IH]; intros acc H; cbn; [rewrite app_nil_r; reflexivity|].
  assert (E : addEdge acc e = acc ++ [e]).
  { unfold addEdge, containsEdge. destruct (existsb _ acc) eqn:E; [|reflexivity]. apply existsb_exists in E as (x & Hx & Hq).
    assert (gedgeEq x e = false); [|congruence]. apply (fop_in _ _ _ _ x e H Hx). left. reflexivity. }
  rewrite E, IH, <- app_assoc; [reflexivity|]. rewrite <- app_assoc. exact H.
Qed.

Lemma NoDup_app_iff_local2 (A : Type) (l r : list A) : NoDup l -> NoDup r -> (forall x, In x l -> ~ In x r) -> NoDup (l ++ r).
Proof.
  induction l as [|x l IH]; cbn; intros Hl Hr Hd; [exact Hr|]. inversion Hl as [|? ? Hx Hl']; subst. constructor.
  - rewrite in_app_iff. intros [H|H]; [auto|apply (Hd x); auto].
  - apply IH; auto.
Qed.

Lemma three_way targets es :
  Permutation es (filter (isOuter targets) es ++ filter (isCrossing targets) es ++ filter (isInternal targets) es).
Proof.
  induction es as [|e r IH]; [constructor|]. cbn [filter]. unfold isOuter, isCrossing, isInternal in *.
  destruct (grouped targets (gsrc e)), (grouped targets (gdst e)); cbn.
  - rewrite app_assoc. apply Permutation_cons_app. rewrite <- app_assoc. exact IH.
  - apply Permutation_cons_app. exact IH.
  - apply Permutation_cons_app. exact IH.
  - constructor. exact IH.
Qed.

Lemma blocks_split targets bs : NoDup (map gid bs) -> NoDup (map gid targets) -> incl targets bs ->
  Permutation bs (filter (fun b => negb (grouped targets (gid b))) bs ++ targets).
Proof.
  intros Hb Ht Hi. apply NoDup_Permutation.
  - apply NoDup_map_inv in Hb. exact Hb.
  - apply NoDup_app_iff_local2.
    + apply NoDup_filter. apply NoDup_map_inv in Hb. exact Hb.
    + apply NoDup_map_inv in Ht. exact Ht.
    + intros x Hx Hx2. apply filter_In in Hx as [_ Hx]. apply negb_true_iff in Hx.
      assert (grouped targets (gid x) = true); [|congruence]. apply grouped_in. eauto.
  - intros x. rewrite in_app_iff, filter_In. split.
    + intros Hx. destruct (grouped targets (gid x)) eqn:E; [|left; auto]. right.
      apply grouped_in in E as (b & Hb1 & Hb2). rewrite <- (same_block bs b x Hb (Hi b Hb1) Hx Hb2). exact Hb1.
    + intros [[Hx _]|Hx]; auto.
Qed.

(** ** Finding blocks *)

Lemma findB_filter (f : nat -> bool) i bs : f i = true -> findB i (filter (fun b => f (gid b)) bs) = findB i bs.
Proof.
  intros H. induction bs as [|b r IH]; cbn; [reflexivity|]. destruct (Nat.eqb_spec (gid b) i) as [E|E].
  - subst i. rewrite H. cbn. rewrite Nat.eqb_refl. reflexivity.
  - destruct (f (gid b)); cbn; [|exact IH]. destruct (Nat.eqb_spec (gid b) i); [contradiction|exact IH].
Qed.

Lemma findB_app i a b : findB i (a ++ b) = match findB i a with Some x => Some x | None => findB i b end.
Proof. induction a as [|x r IH]; cbn; [reflexivity|]. destruct (Nat.eqb (gid x) i); [reflexivity|exact IH]. Qed.

Lemma findB_targets bs targets i : NoDup (map gid bs) -> NoDup (map gid targets) -> incl targets bs -> grouped targets i = true ->
  findB i targets = findB i bs.
Proof.
  intros Hb Ht Hi H. apply grouped_in in H as (b & H1 & <-). rewrite (findB_in bs b Hb (Hi b H1)). apply findB_in; assumption.
Qed.

(** ** What a successful grouping leaves *)

Definition newGroup (sid : nat) (nm : string) (targets : list GBlock) (es : list GEdge) (ops : list PExport) : GBlock :=
  exported (GB sid nm [] [] true targets (filter (isInternal targets) es) [] []) ops.

Definition restBlocks (targets : list GBlock) (bs : list GBlock) : list GBlock := filter (fun b => negb (grouped targets (gid b))) bs.

Lemma group_inv arith known sid nm targets g i g' :
  groupBlocks arith known sid nm targets g = (Some i, g') -> NoDup (map gid targets) -> wellBuilt (gblocks g) (gedges g) ->
  exists ops crossing,
    plan targets [] (gedges g) = Some (ops, filter (isInternal targets) (gedges g), crossing) /\
    i = sid /\ opsOk targets ops /\ Forall2 (planned targets ops) (filter (isCrossing targets) (gedges g)) crossing /\
    (forall o, In o ops -> exists p, portFromName (portsOf (pdir o) (pblk o)) (pint o) = Some p) /\
    (innerNamesPlain targets g -> forall o, In o ops -> hashFree (pext o)) /\
    let bs' := restBlocks targets (gblocks g) ++ [newGroup sid nm targets (gedges g) ops] in
    g' = mkGraph bs' (filter (isOuter targets) (gedges g) ++ map (recross arith bs' sid) crossing).
Proof.
  intros H Hn Hw. unfold groupBlocks in H. destruct targets as [|t0 tr] eqn:Et; [discriminate|]. rewrite <- Et in *. clear Et t0 tr.
  destruct (plan targets [] (gedges g)) as [[[ops internal] crossing]|] eqn:E; [|discriminate].
  destruct known; [|discriminate]. cbn [negb] in H.
  assert (H0 : opsOk targets []) by (split; try constructor; intros o []).
  destruct (plan_spec targets (gedges g) Hn _ _ _ _ E H0) as (P1 & _ & P3 & P4 & _ & P6).
  assert (Ei : fold_left addEdge internal [] = internal).
  { rewrite addEdges_all; [reflexivity|]. rewrite P3. apply fop_filter. exact (wb_once _ _ Hw). }
  rewrite Ei in H. destruct (exportAll _ ops) as [sub|] eqn:Ex; [|discriminate]. injection H as <- <-.
  apply exportAll_result in Ex as [-> Hr]. exists ops, crossing. rewrite P3 in *. repeat apply conj; auto.
  - intros o Ho. destruct (Hr o Ho) as (b & p & H1 & H2). exists p. cbn [gsub] in H1.
    rewrite (findB_in targets (pblk o) Hn (ok_in _ _ P1 o Ho)) in H1. injection H1 as <-. exact H2.
  - intros Hp o Ho. destruct (P6 Hp o Ho) as [[]|Hx]. exact Hx.
Qed.

(** The exported ports of the new group. *)
Lemma group_ports ops targets d : opsOk targets ops -> NoDup (map dportName (map (opPort targets) (side d ops))).
Proof.
  intros Hok. rewrite map_map. cbn.
  assert (H : NoDup (map opName (side d ops))).
  { unfold side. pose proof (ok_names _ _ Hok) as H. clear Hok. induction ops as [|o r IH]; cbn in *; [constructor|].
    inversion H as [|? ? H1 H2]; subst. destruct (dirEq (pdir o) d); [|apply IH; exact H2]. cbn. constructor; [|apply IH; exact H2].
    intros Hi. apply H1. apply in_map_iff in Hi as (x & Ex & Hx). apply filter_In in Hx as [Hx _]. rewrite <- Ex. apply in_map. exact Hx. }
  clear Hok. assert (Hd : forall o, In o (side d ops) -> pdir o = d).
  { intros o Ho. apply filter_In in Ho as [_ Ho]. apply dirEq_eq. exact Ho. }
  induction (side d ops) as [|o r IH]; cbn in *; constructor; inversion H as [|? ? H1 H2]; subst.
  - intros Hi. apply H1. apply in_map_iff in Hi as (x & Ex & Hx). apply in_map_iff. exists x. split; [|exact Hx].
    unfold opName. rewrite (Hd x), (Hd o); [|left; reflexivity|right; exact Hx]. cbn in Ex. rewrite Ex. reflexivity.
  - apply IH; [exact H2|]. intros x Hx. apply Hd. right. exact Hx.
Qed.

Lemma portsOf_group sid nm targets es ops d : portsOf d (newGroup sid nm targets es ops) = map (opPort targets) (side d ops).
Proof. destruct d; reflexivity. Qed.

Lemma group_resolves sid nm targets es ops op p : NoDup (map gid targets) -> opsOk targets ops -> In op ops -> hashFree (pext op) ->
  portFromName (portsOf (pdir op) (pblk op)) (pint op) = Some p ->
  resolve (portsOf (pdir op) (newGroup sid nm targets es ops)) (Named (pext op)) = Some p.
Proof.
  intros Hn Hok Ho Hh Hp. rewrite portsOf_group. cbn [resolve]. rewrite portFromName_plain by exact Hh.
  apply findOne_in; [apply group_ports; exact Hok|]. apply in_map_iff. exists op. split.
  - unfold opPort. rewrite (findB_in targets (pblk op) Hn (ok_in _ _ Hok op Ho)), Hp. reflexivity.
  - apply filter_In. split; [exact Ho|]. apply dirEq_eq. reflexivity.
Qed.

Lemma isCrossing_crosses targets e : isCrossing targets e = true <-> crosses targets e.
Proof. unfold isCrossing, crosses. destruct (grouped targets (gsrc e)), (grouped targets (gdst e)); cbn; intuition congruence. Qed.

(** Outer ends do not notice. *)
Lemma outer_find targets bs sub i : grouped targets i = false -> In i (map gid bs) ->
  findB i (restBlocks targets bs ++ [sub]) = findB i bs.
Proof.
  intros Hg Hi. rewrite findB_app. unfold restBlocks. rewrite (findB_filter (fun i => negb (grouped targets i))) by (rewrite Hg; reflexivity).
  destruct (findB i bs) eqn:E; [reflexivity|]. apply findB_none in E. contradiction.
Qed.

Lemma sub_find targets bs sub : ~ In (gid sub) (map gid bs) -> findB (gid sub) (restBlocks targets bs ++ [sub]) = Some sub.
Proof.
  intros H. rewrite findB_app. assert (E : findB (gid sub) (restBlocks targets bs) = None).
  { apply findB_none. intros Hi. apply H. unfold restBlocks in Hi. apply in_map_iff in Hi as (b & E & Hb). apply filter_In in Hb as [Hb _].
    rewrite <- E. apply in_map. exact Hb. }
  rewrite E. cbn. rewrite Nat.eqb_refl. reflexivity.
Qed.

Lemma plain_side targets b d : plainTargets targets -> In b targets -> plainPorts (portsOf d b).
Proof. intros H Hb. destruct (H b Hb), d; assumption. Qed.

(** The op planned for a crossing edge denotes the port the edge denoted. *)
Lemma planned_port targets ops op : NoDup (map gid targets) -> opsOk targets ops -> plainTargets targets ->
  In op ops -> (forall o, In o ops -> exists p, portFromName (portsOf (pdir o) (pblk o)) (pint o) = Some p) ->
  forall d, definedPortName (portsOf (pdir op) (pblk op)) d = Some (pint op) ->
  exists p, portFromName (portsOf (pdir op) (pblk op)) (pint op) = Some p /\ resolve (portsOf (pdir op) (pblk op)) d = Some p.
Proof.
  intros Hn Hok Hpl Ho Hr d Hd. destruct (Hr op Ho) as [p Hp]. exists p. split; [exact Hp|].
  rewrite <- Hp. symmetry. apply defined_same; [|exact Hd]. apply (plain_side targets); [exact Hpl|]. apply (ok_in _ _ Hok), Ho.
Qed.

Lemma group_wires arith known sid nm targets g i g' :
  wellBuilt (gblocks g) (gedges g) -> NoDup (map gid targets) -> incl targets (gblocks g) -> ~ In sid (map gid (gblocks g)) ->
  plainTargets targets -> boundedSize targets g -> innerNamesPlain targets g ->
  groupBlocks arith known sid nm targets g = (Some i, g') ->
  Permutation (allWires g') (allWires g).
Proof.
  intros Hw Hn Hi Hs Hpl Hsz Hh H. destruct (group_inv _ _ _ _ _ _ _ _ H Hn Hw) as (ops & cr & _ & -> & Hok & Hcr & Hr & Hhash & ->).
  clear H. specialize (Hhash Hh). set (sub := newGroup sid nm targets (gedges g) ops). set (bs' := restBlocks targets (gblocks g) ++ [sub]).
  unfold allWires. cbn [gblocks gedges]. rewrite map_app.
  assert (W1 : map (wireOf bs') (filter (isOuter targets) (gedges g)) = map (wireOf (gblocks g)) (filter (isOuter targets) (gedges g))).
  { apply map_ext_in. intros e He. apply filter_In in He as [He Ho]. unfold isOuter in Ho. apply negb_true_iff, orb_false_iff in Ho as [O1 O2].
    destruct (wb_ends _ _ Hw e He) as [E1 E2]. unfold wireOf, outEnd, inEnd, bs'. rewrite !outer_find by assumption. reflexivity. }
  assert (W2 : map (wireOf bs') (map (recross arith bs' sid) cr) = map (wireOf (gblocks g)) (filter (isCrossing targets) (gedges g))).
  { assert (Hin : forall e, In e (filter (isCrossing targets) (gedges g)) -> In e (gedges g) /\ crosses targets e).
    { intros e He. apply filter_In in He as [He Hc]. split; [exact He|]. apply isCrossing_crosses. exact Hc. }
    revert Hin. induction Hcr as [|e c es cs Hec Hrest IH]; intros Hin; [reflexivity|]. cbn [map]. rewrite IH by (intros; apply Hin; right; assumption).
    f_equal. destruct (Hin e (or_introl eq_refl)) as [He Hx]. destruct Hec as (Ec & Ef & op & Ho & E1 & E2 & E3 & E4).
    destruct (wb_ends _ _ Hw e He) as [D1 D2]. pose proof (Hsz e He Hx) as Hm. destruct (gmin e) as [m|] eqn:Em; [|congruence].
    unfold recross. rewrite Ec, Ef. unfold crosses in Hx.
    destruct (planned_port targets ops op Hn Hok Hpl Ho Hr _ E4) as (p & Q1 & Q2).
    pose proof (group_resolves sid nm targets (gedges g) ops op p Hn Hok Ho (Hhash op Ho) Q1) as Q3. rewrite E1 in Q3.
    pose proof (findB_in (gblocks g) (pblk op) (wb_ids _ _ Hw) (Hi _ (ok_in _ _ Hok op Ho))) as Q4. rewrite E3 in Q4.
    destruct (grouped targets (gsrc e)) eqn:G1.
    - destruct (grouped targets (gdst e)) eqn:G2; [congruence|]. rewrite E2 in *. cbn [portsOf] in *.
      unfold wireOf, connectEdge, outEnd, inEnd. cbn [gsrc gsrcPort gdst gdstPort gmin gweight gename].
      unfold bs'. rewrite (outer_find targets (gblocks g) sub (gdst e)) by assumption.
      pose proof (sub_find targets (gblocks g) sub Hs) as Q5. change (gid sub) with sid in Q5. rewrite Q5. fold sub in Q3. rewrite Q3, Q4, Q2, Em. reflexivity.
    - rewrite E2 in *. cbn [portsOf] in *.
      unfold wireOf, connectEdge, outEnd, inEnd. cbn [gsrc gsrcPort gdst gdstPort gmin gweight gename].
      unfold bs'. rewrite (outer_find targets (gblocks g) sub (gsrc e)) by assumption.
      pose proof (sub_find targets (gblocks g) sub Hs) as Q5. change (gid sub) with sid in Q5. rewrite Q5. fold sub in Q3. rewrite Q3, Q4, Q2, Em. reflexivity. }
  assert (W3 : map (wireOf targets) (filter (isInternal targets) (gedges g)) = map (wireOf (gblocks g)) (filter (isInternal targets) (gedges g))).
  { apply map_ext_in. intros e He. apply filter_In in He as [He Ho]. unfold isInternal in Ho. apply andb_prop in Ho as [O1 O2].
    unfold wireOf, outEnd, inEnd. rewrite !(findB_targets (gblocks g) targets) by (try assumption; apply (wb_ids _ _ Hw)). reflexivity. }
  rewrite W1, W2. unfold bs'. rewrite flat_map_app. cbn [flat_map]. rewrite app_nil_r.
  change (blockWires sub) with (map (wireOf targets) (filter (isInternal targets) (gedges g)) ++ flat_map blockWires targets). rewrite W3.
  rewrite (Permutation_map (wireOf (gblocks g)) (three_way targets (gedges g))). rewrite !map_app.
  rewrite (Permutation_flat_map blockWires (blocks_split targets (gblocks g) (wb_ids _ _ Hw) Hn Hi)). rewrite flat_map_app.
  fold (restBlocks targets (gblocks g)).
  rewrite <- !app_assoc. apply Permutation_app_head, Permutation_app_head.
  rewrite !app_assoc. apply Permutation_app_tail. apply Permutation_app_comm.
Qed.
