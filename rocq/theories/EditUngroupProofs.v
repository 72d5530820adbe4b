(** Proofs about ungrouping, and about grouping followed by ungrouping. *)
From Coq Require Import Ascii ZArith NArith Bool Arith Permutation Lia String List.
From Verif Require Import Base TopoModel EditModel EditSpec EditProofs EditGroupProofs EditWireProofs.
Import ListNotations.
Local Open Scope nat_scope.
Local Open Scope list_scope.

Lemma addEdges_fresh es : forall acc, (forall a b, In a acc -> In b es -> gedgeEq a b = false) ->
  ForallOrdPairs (fun a b => gedgeEq a b = false) es -> fold_left addEdge es acc = acc ++ es.
Proof.
  induction es as [|e r IH]; intros acc H Hf; cbn; [rewrite app_nil_r; reflexivity|]. inversion Hf as [|? ? F1 F2]; subst.
  assert (E : addEdge acc e = acc ++ [e]).
  { unfold addEdge, containsEdge. destruct (existsb _ acc) eqn:E; [|reflexivity]. apply existsb_exists in E as (x & Hx & Hq).
    rewrite (H x e Hx (or_introl eq_refl)) in Hq. discriminate. }
  rewrite E, IH, <- app_assoc; [reflexivity| |exact F2]. intros a b Ha Hb. apply in_app_or in Ha as [Ha|[<-|[]]].
  - apply H; [exact Ha|right; exact Hb].
  - rewrite Forall_forall in F1. apply F1. exact Hb.
Qed.

Lemma skipn_app_all (A : Type) (a b : list A) : skipn (List.length a) (a ++ b) = b.
Proof. induction a; cbn; auto. Qed.

Lemma gedgeEq_ends a b : gedgeEq a b = true -> gsrc a = gsrc b /\ gdst a = gdst b.
Proof.
  unfold gedgeEq. intros H. apply andb_prop in H as [H _]. apply andb_prop in H as [H _]. apply andb_prop in H as [H1 H2].
  apply Nat.eqb_eq in H1, H2. auto.
Qed.

Lemma unEdges_forall sub es : forall es', unEdges sub es = Some es' ->
  Forall2 (fun e e' => exists e1, unSource sub e = Some e1 /\ unDest sub e1 = Some e') es es'.
Proof.
  induction es as [|e r IH]; cbn; intros es' H; [injection H as <-; constructor|].
  destruct (unSource sub e) as [e1|] eqn:E1; [|discriminate]. destruct (unDest sub e1) as [e2|] eqn:E2; [|discriminate].
  destruct (unEdges sub r) as [r'|]; [|discriminate]. injection H as <-. constructor; [eauto|apply IH; reflexivity].
Qed.

Lemma unEdges_total sub es : (forall e, In e es -> exists e1 e2, unSource sub e = Some e1 /\ unDest sub e1 = Some e2) ->
  exists es', unEdges sub es = Some es'.
Proof.
  induction es as [|e r IH]; cbn; intros H; [eauto|]. destruct (H e (or_introl eq_refl)) as (e1 & e2 & -> & ->).
  destruct IH as [r' ->]; [intros; apply H; right; assumption|]. eauto.
Qed.

Lemma unEdges_app sub a b : forall a' b', unEdges sub a = Some a' -> unEdges sub b = Some b' -> unEdges sub (a ++ b) = Some (a' ++ b').
Proof.
  induction a as [|e r IH]; cbn; intros a' b' Ha Hb; [injection Ha as <-; exact Hb|].
  destruct (unSource sub e) as [e1|]; [|discriminate]. destruct (unDest sub e1) as [e2|]; [|discriminate].
  destruct (unEdges sub r) as [r'|]; [|discriminate]. injection Ha as <-. rewrite (IH r' b' eq_refl Hb). reflexivity.
Qed.

(** ** Exports of a sound group *)

Lemma sound_names kids d book ps : exportsSound kids d book ps -> map dportName ps = map xext book.
Proof.
  intros (_ & _ & H). induction H as [|x q l r Hx Hr IH]; cbn; [reflexivity|]. destruct Hx as (b & p & _ & _ & ->). rewrite IH. reflexivity.
Qed.

Lemma Forall2_in_r (A B : Type) (R : A -> B -> Prop) l r y : Forall2 R l r -> In y r -> exists x, In x l /\ R x y.
Proof. induction 1 as [|a b l r Hab H IH]; cbn; intros Hy; [destruct Hy|]. destruct Hy as [->|Hy]; [eauto|]. destruct (IH Hy) as (x & H1 & H2). eauto. Qed.

Lemma Forall2_in_l (A B : Type) (R : A -> B -> Prop) l r x : Forall2 R l r -> In x l -> exists y, In y r /\ R x y.
Proof. induction 1 as [|a b l r Hab H IH]; cbn; intros Hy; [destruct Hy|]. destruct Hy as [->|Hy]; [eauto|]. destruct (IH Hy) as (y & H1 & H2). eauto. Qed.

Lemma sound_single kids d book ps q : exportsSound kids d book ps -> In q ps -> exists x b p, In x book /\
  findB (xblk x) kids = Some b /\ portFromName (portsOf d b) (xint x) = Some p /\ q = One (xext x) p.
Proof. intros (_ & _ & H) Hq. destruct (Forall2_in_r _ _ _ _ _ _ H Hq) as (x & Hx & b & p & H1). eauto 8. Qed.

Lemma sound_plain kids d book ps : exportsSound kids d book ps -> plainPorts ps.
Proof.
  intros H. pose proof (sound_names _ _ _ _ H) as E. split; [rewrite E; apply H|]. split.
  - rewrite E. destruct H as (_ & H & _). rewrite Forall_forall in *. intros s Hs. apply in_map_iff in Hs as (x & <- & Hx). apply H, Hx.
  - intros n l Hi. destruct (sound_single _ _ _ _ _ H Hi) as (x & b & p & _ & _ & _ & E2). discriminate.
Qed.

Lemma lookup_some book ext x : lookupExport book ext = Some x -> In x book /\ xext x = ext.
Proof.
  unfold lookupExport. destruct (String.eqb ext ""); [discriminate|]. intros H. apply find_some in H as [H1 H2].
  apply String.eqb_eq in H2. auto.
Qed.

Lemma lookup_total book x : In x book -> xext x <> EmptyString -> NoDup (map xext book) -> lookupExport book (xext x) = Some x.
Proof.
  intros Hx He Hn. unfold lookupExport. destruct (String.eqb_spec (xext x) ""); [contradiction|].
  induction book as [|y r IH]; [destruct Hx|]. cbn in *. inversion Hn as [|? ? H1 H2]; subst. destruct Hx as [->|Hx].
  - rewrite String.eqb_refl. reflexivity.
  - destruct (String.eqb_spec (xext y) (xext x)) as [E|E]; [|apply IH; assumption]. exfalso. apply H1. rewrite E. apply in_map. exact Hx.
Qed.

Lemma sound_lookup kids d book ps def ext x : exportsSound kids d book ps ->
  definedPortName ps def = Some ext -> lookupExport book ext = Some x ->
  exists b p, findB (xblk x) kids = Some b /\ portFromName (portsOf d b) (xint x) = Some p /\ resolve ps def = Some p.
Proof.
  intros H Hd Hl. pose proof (sound_plain _ _ _ _ H) as Hp. rewrite <- (defined_same ps def ext Hp Hd).
  apply lookup_some in Hl as [Hx <-]. destruct H as (H1 & H2 & H3).
  destruct (Forall2_in_l _ _ _ _ _ _ H3 Hx) as (q & Hq & b & p & K1 & K2 & ->). exists b, p. split; [exact K1|]. split; [exact K2|].
  rewrite Forall_forall in H2. rewrite portFromName_plain by apply H2, Hx. apply findOne_in; [apply Hp|exact Hq].
Qed.

Lemma sound_total kids d book ps def p : exportsSound kids d book ps -> resolve ps def = Some p ->
  exists ext x, definedPortName ps def = Some ext /\ lookupExport book ext = Some x.
Proof.
  intros H Hr. destruct (defined_total _ _ _ Hr) as [ext Hd]. pose proof (sound_plain _ _ _ _ H) as Hp.
  rewrite <- (defined_same ps def ext Hp Hd) in Hr. unfold portFromName in Hr. destruct (cutHash ext) as [[base idx]|].
  - destruct (fromChars idx); [|discriminate]. destruct (findMany base ps) as [l|] eqn:E; [|discriminate].
    apply findMany_some in E. destruct (sound_single _ _ _ _ _ H E) as (x & b & q & _ & _ & _ & Ex). discriminate.
  - apply findOne_some in Hr. destruct (sound_single _ _ _ _ _ H Hr) as (x & b & q & K1 & _ & _ & Ex). injection Ex as -> ->.
    exists (xext x), x. split; [exact Hd|]. destruct H as (H1 & H2 & _). rewrite Forall_forall in H2. apply lookup_total; auto. apply H2, K1.
Qed.

(** ** Wires over an ungrouping *)

Definition afterBlocks (sub : GBlock) (bs : list GBlock) : list GBlock :=
  filter (fun b => negb (Nat.eqb (gid b) (gid sub))) (bs ++ gsub sub).

Lemma after_outer sub bs i : i <> gid sub -> In i (map gid bs) -> findB i (afterBlocks sub bs) = findB i bs.
Proof.
  intros Hi Hb. unfold afterBlocks. rewrite (findB_filter (fun i => negb (Nat.eqb i (gid sub)))).
  - rewrite findB_app. destruct (findB i bs) eqn:E; [reflexivity|]. apply findB_none in E. contradiction.
  - apply negb_true_iff. apply Nat.eqb_neq. exact Hi.
Qed.

Lemma after_inner sub bs i : (forall i, In i (map gid (gsub sub)) -> i <> gid sub /\ ~ In i (map gid bs)) ->
  In i (map gid (gsub sub)) -> findB i (afterBlocks sub bs) = findB i (gsub sub).
Proof.
  intros Hd Hi. destruct (Hd i Hi) as [H1 H2]. unfold afterBlocks. rewrite (findB_filter (fun i => negb (Nat.eqb i (gid sub)))).
  - rewrite findB_app. apply findB_none in H2. rewrite H2. reflexivity.
  - apply negb_true_iff. apply Nat.eqb_neq. exact H1.
Qed.

Lemma filter_id (A : Type) (f : A -> bool) l : (forall x, In x l -> f x = true) -> filter f l = l.
Proof. induction l as [|x r IH]; cbn; intros H; [reflexivity|]. rewrite (H x (or_introl eq_refl)), IH; auto. Qed.

Lemma afterBlocks_perm sub bs : NoDup (map gid bs) -> In sub bs -> (forall i, In i (map gid (gsub sub)) -> i <> gid sub /\ ~ In i (map gid bs)) ->
  Permutation (sub :: afterBlocks sub bs) (bs ++ gsub sub).
Proof.
  intros Hn Hi Hd. unfold afterBlocks. rewrite filter_app. 
  assert (E2 : filter (fun b => negb (Nat.eqb (gid b) (gid sub))) (gsub sub) = gsub sub).
  { apply filter_id. intros b Hb. apply negb_true_iff, Nat.eqb_neq. apply (Hd (gid b)). apply in_map. exact Hb. }
  rewrite E2. rewrite app_comm_cons. apply Permutation_app_tail. clear -Hn Hi.
  induction bs as [|b r IH]; [destruct Hi|]. cbn in *. inversion Hn as [|? ? H1 H2]; subst. destruct Hi as [->|Hi].
  - rewrite Nat.eqb_refl. cbn. constructor. rewrite filter_id; [reflexivity|]. intros b Hb. apply negb_true_iff, Nat.eqb_neq.
    intros E. apply H1. rewrite <- E. apply in_map. exact Hb.
  - destruct (Nat.eqb_spec (gid b) (gid sub)) as [E|E]; [exfalso; apply H1; rewrite E; apply in_map; exact Hi|].
    cbn. rewrite perm_swap. constructor. apply IH; assumption.
Qed.

Lemma un_wire sub bs e e1 e2 : soundGroup sub -> NoDup (map gid bs) -> In sub bs -> separate sub bs ->
  In (gsrc e) (map gid bs) -> In (gdst e) (map gid bs) ->
  unSource sub e = Some e1 -> unDest sub e1 = Some e2 -> wireOf (afterBlocks sub bs) e2 = wireOf bs e.
Proof.
  intros (_ & Hin & Hout) Hn Hsub [Hd] Hs Ht H1 H2.
  pose proof (findB_in bs sub Hn Hsub) as Hf.
  assert (S : outEnd (afterBlocks sub bs) (gsrc e1) (gsrcPort e1) = outEnd bs (gsrc e) (gsrcPort e) /\
              gdst e1 = gdst e /\ gdstPort e1 = gdstPort e /\ gmin e1 = gmin e /\ gweight e1 = gweight e /\ gename e1 = gename e).
  { unfold unSource in H1. destruct (Nat.eqb_spec (gsrc e) (gid sub)) as [E|E].
    - destruct (definedPortName (gouts sub) (gsrcPort e)) as [ext|] eqn:Ed; [|discriminate].
      destruct (lookupExport (gbookOut sub) ext) as [x|] eqn:El; [|discriminate]. injection H1 as <-. cbn. repeat apply conj; auto.
      destruct (sound_lookup _ _ _ _ _ _ _ Hout Ed El) as (b & p & K1 & K2 & K3). cbn [portsOf] in K2.
      unfold outEnd. rewrite after_inner; [|exact Hd|]. 2:{ apply findB_some in K1 as [K1 <-]. apply in_map. exact K1. }
      rewrite K1, E, Hf. cbn [resolve]. rewrite K2, K3. reflexivity.
    - injection H1 as <-. unfold outEnd. rewrite after_outer by assumption. auto 8. }
  destruct S as (S1 & S2 & S3 & S4 & S5 & S6).
  unfold unDest in H2. rewrite S2, S3 in H2. destruct (Nat.eqb_spec (gdst e) (gid sub)) as [E|E].
  - destruct (definedPortName (gins sub) (gdstPort e)) as [ext|] eqn:Ed; [|discriminate].
    destruct (lookupExport (gbookIn sub) ext) as [x|] eqn:El; [|discriminate]. injection H2 as <-.
    destruct (sound_lookup _ _ _ _ _ _ _ Hin Ed El) as (b & p & K1 & K2 & K3). cbn [portsOf] in K2.
    unfold wireOf. cbn. rewrite S1, S4, S5, S6. unfold inEnd. rewrite after_inner; [|exact Hd|]. 2:{ apply findB_some in K1 as [K1 <-]. apply in_map. exact K1. }
    rewrite K1, E, Hf. cbn [resolve]. rewrite K2, K3. reflexivity.
  - injection H2 as <-. unfold wireOf. rewrite S1, S2, S3, S4, S5, S6. unfold inEnd. rewrite after_outer by assumption. reflexivity.
Qed.

Lemma wires_ungrouped sub bs es es' : NoDup (map gid bs) -> In sub bs -> separate sub bs -> wellBuilt (gsub sub) (gsubEdges sub) ->
  map (wireOf (afterBlocks sub bs)) es' = map (wireOf bs) es ->
  Permutation (allWires (mkGraph (afterBlocks sub bs) (es' ++ gsubEdges sub))) (allWires (mkGraph bs es)).
Proof.
  intros Hn Hsub [Hd] Hk He. unfold allWires. cbn [gblocks gedges]. rewrite map_app, He, <- app_assoc. apply Permutation_app_head.
  assert (Hw : map (wireOf (afterBlocks sub bs)) (gsubEdges sub) = map (wireOf (gsub sub)) (gsubEdges sub)).
  { apply map_ext_in. intros e Hi. destruct (wb_ends _ _ Hk e Hi) as [K1 K2]. unfold wireOf, outEnd, inEnd.
    rewrite !after_inner by assumption. reflexivity. }
  rewrite Hw. pose proof (afterBlocks_perm sub bs Hn Hsub Hd) as P. apply (Permutation_flat_map blockWires) in P.
  rewrite flat_map_app in P. cbn [flat_map] in P.
  assert (Eb : blockWires sub = map (wireOf (gsub sub)) (gsubEdges sub) ++ flat_map blockWires (gsub sub)) by (destruct sub; reflexivity).
  rewrite Eb in P. apply (Permutation_app_inv_r (flat_map blockWires (gsub sub))). rewrite <- P.
  rewrite <- !app_assoc. apply Permutation_app_head. apply Permutation_app_comm.
Qed.

Lemma ungroup_eq sub g es : ggroup sub = true ->
  exportersKnown (gsub sub) (gbookIn sub) = true -> exportersKnown (gsub sub) (gbookOut sub) = true ->
  unEdges sub (gedges g) = Some es ->
  (forall a b, In a (gedges g) -> In b (gsubEdges sub) -> gedgeEq a b = false) -> wellBuilt (gsub sub) (gsubEdges sub) ->
  ungroupBlocks sub g = Some (mkGraph (afterBlocks sub (gblocks g)) (es ++ gsubEdges sub)).
Proof.
  intros H1 H2 H3 H4 H5 Hk. unfold ungroupBlocks. rewrite H1, H2, H3, H4. cbn [negb andb].
  rewrite addEdges_fresh; [|exact H5|exact (wb_once _ _ Hk)]. rewrite skipn_app_all. reflexivity.
Qed.

Lemma sound_known kids d book ps : exportsSound kids d book ps -> exportersKnown kids book = true.
Proof.
  intros (_ & _ & H). unfold exportersKnown. apply forallb_forall. intros x Hx.
  destruct (Forall2_in_l _ _ _ _ _ _ H Hx) as (q & _ & b & p & -> & _). reflexivity.
Qed.

Lemma ungroup_wires sub g : soundGroup sub -> wellBuilt (gblocks g) (gedges g) -> wellBuilt (gsub sub) (gsubEdges sub) ->
  In sub (gblocks g) -> separate sub (gblocks g) ->
  (forall e, In e (gedges g) -> (gsrc e = gid sub -> resolve (gouts sub) (gsrcPort e) <> None) /\
                                (gdst e = gid sub -> resolve (gins sub) (gdstPort e) <> None)) ->
  exists g', ungroupBlocks sub g = Some g' /\ Permutation (sub :: gblocks g') (gblocks g ++ gsub sub) /\
    Permutation (allWires g') (allWires g).
Proof.
  intros Hs Hw Hk Hi Hd He. destruct Hs as (Hg & Hin & Hout).
  destruct (unEdges_total sub (gedges g)) as [es Ees].
  { intros e H. destruct (He e H) as [H1 H2].
    assert (S : exists e1, unSource sub e = Some e1 /\ gdst e1 = gdst e /\ gdstPort e1 = gdstPort e).
    { unfold unSource. destruct (Nat.eqb_spec (gsrc e) (gid sub)) as [E|E]; [|eauto].
      specialize (H1 E). destruct (resolve (gouts sub) (gsrcPort e)) as [p|] eqn:Er; [|congruence].
      destruct (sound_total _ _ _ _ _ _ Hout Er) as (ext & x & -> & ->). eexists. split; [reflexivity|]. auto. }
    destruct S as (e1 & S1 & S2 & S3). rewrite S1. exists e1. unfold unDest. rewrite S2, S3.
    destruct (Nat.eqb_spec (gdst e) (gid sub)) as [E|E]; [|eauto].
    specialize (H2 E). destruct (resolve (gins sub) (gdstPort e)) as [p|] eqn:Er; [|congruence].
    destruct (sound_total _ _ _ _ _ _ Hin Er) as (ext & x & -> & ->). eauto. }
  exists (mkGraph (afterBlocks sub (gblocks g)) (es ++ gsubEdges sub)). split; [|split].
  - apply ungroup_eq; auto; [exact (sound_known _ _ _ _ Hin)|exact (sound_known _ _ _ _ Hout)|].
    intros a b Ha Hb. destruct (gedgeEq a b) eqn:E; [|reflexivity]. exfalso. apply gedgeEq_ends in E as [E _].
    destruct (wb_ends _ _ Hk b Hb) as [K _]. destruct (wb_ends _ _ Hw a Ha) as [K' _]. rewrite E in K'.
    destruct Hd as [Hd]. exact (proj2 (Hd _ K) K').
  - cbn. apply afterBlocks_perm; [exact (wb_ids _ _ Hw)|exact Hi|apply Hd].
  - destruct g as [bs es0]. cbn [gblocks gedges] in *. apply wires_ungrouped; auto; [exact (wb_ids _ _ Hw)|].
    apply unEdges_forall in Ees. assert (Hends := wb_ends _ _ Hw). assert (Hids := wb_ids _ _ Hw). clear He Hw.
    induction Ees as [|e e' r r' (e1 & U1 & U2) Hrest IH]; [reflexivity|]. cbn [map]. f_equal.
    + destruct (Hends e (or_introl eq_refl)). apply (un_wire sub bs e e1 e'); auto. split; auto.
    + apply IH. intros x Hx. apply Hends. right. exact Hx.
Qed.

(** ** Grouping, then ungrouping *)

Lemma side_in d ops o : In o (side d ops) <-> In o ops /\ pdir o = d.
Proof. unfold side. rewrite filter_In, dirEq_eq. reflexivity. Qed.

Lemma side_names targets ops d : opsOk targets ops -> NoDup (map xext (map opExport (side d ops))).
Proof. intros H. pose proof (group_ports ops targets d H) as P. rewrite map_map in *. exact P. Qed.

Lemma group_lookup targets ops op : opsOk targets ops -> In op ops ->
  lookupExport (map opExport (side (pdir op) ops)) (pext op) = Some (opExport op).
Proof.
  intros Hok Ho. change (pext op) with (xext (opExport op)). apply lookup_total.
  - apply in_map. apply side_in. auto.
  - exact (ok_full _ _ Hok op Ho).
  - apply (side_names targets). exact Hok.
Qed.

(** The edge that comes back for a crossing one. *)
Definition back targets (ops : list PExport) (e : GEdge) (op : PExport) : GEdge :=
  if grouped targets (gsrc e)
  then mkGEdge (gsrc e) (Named (pint op)) (gdst e) (gdstPort e) (gmin e) (gweight e) (gename e) 0 Waiting
  else mkGEdge (gsrc e) (gsrcPort e) (gdst e) (Named (pint op)) (gmin e) (gweight e) (gename e) 0 Waiting.

Lemma roundtrip arith known sid nm targets g i g' :
  wellBuilt (gblocks g) (gedges g) -> NoDup (map gid targets) -> incl targets (gblocks g) -> ~ In sid (map gid (gblocks g)) ->
  plainTargets targets -> boundedSize targets g ->
  groupBlocks arith known sid nm targets g = (Some i, g') ->
  exists sub g'', findB sid (gblocks g') = Some sub /\ ungroupBlocks sub g' = Some g'' /\
    Permutation (gblocks g'') (gblocks g) /\ Permutation (allWires g'') (allWires g).
Proof.
  intros Hw Hn Hi Hs Hpl Hsz H. destruct (group_inv _ _ _ _ _ _ _ _ H Hn Hw) as (ops & cr & _ & -> & Hok & Hcr & Hr & _ & ->). clear H.
  set (sub := newGroup sid nm targets (gedges g) ops). set (rest := restBlocks targets (gblocks g)). set (bs' := rest ++ [sub]).
  assert (Hsid : forall j, In j (map gid targets) -> j <> sid).
  { intros j Hj E. apply Hs. subst j. apply in_map_iff in Hj as (b & Eb & Hb). rewrite <- Eb. apply in_map. apply Hi, Hb. }
  assert (Hgs : grouped targets sid = false).
  { destruct (grouped targets sid) eqn:E; [|reflexivity]. apply grouped_in in E as (b & Hb & E). exfalso. apply (Hsid sid); [|reflexivity].
    rewrite <- E. apply in_map. exact Hb. }
  assert (Hrest : forall j, In j (map gid rest) -> grouped targets j = false /\ In j (map gid (gblocks g))).
  { intros j Hj. apply in_map_iff in Hj as (b & <- & Hb). apply filter_In in Hb as [Hb Hg]. split; [apply negb_true_iff; exact Hg|].
    apply in_map. exact Hb. }
  assert (Hwk : wellBuilt targets (filter (isInternal targets) (gedges g))).
  { split; [exact Hn| |apply fop_filter; exact (wb_once _ _ Hw)]. intros e He. apply filter_In in He as [_ He]. unfold isInternal in He.
    apply andb_prop in He as [E1 E2]. apply grouped_in in E1 as (b1 & B1 & <-). apply grouped_in in E2 as (b2 & B2 & <-).
    split; apply in_map; assumption. }
  assert (Hafter : afterBlocks sub bs' = rest ++ targets).
  { unfold afterBlocks, bs'. change (gsub sub) with targets. change (gid sub) with sid. rewrite !filter_app. cbn [filter].
    change (gid sub) with sid. rewrite Nat.eqb_refl. cbn [negb]. rewrite app_nil_r. f_equal; apply filter_id; intros b Hb; apply negb_true_iff, Nat.eqb_neq.
    - intros E. destruct (Hrest (gid b)) as [_ Hb2]; [apply in_map; exact Hb|]. rewrite E in Hb2. exact (Hs Hb2).
    - apply Hsid. apply in_map. exact Hb. }
  assert (Hperm : Permutation (rest ++ targets) (gblocks g)).
  { symmetry. apply blocks_split; [exact (wb_ids _ _ Hw)|exact Hn|exact Hi]. }
  assert (Hfind : forall j, In j (map gid (gblocks g)) -> findB j (rest ++ targets) = findB j (gblocks g)).
  { intros j Hj. rewrite findB_app. destruct (grouped targets j) eqn:E.
    - assert (E2 : findB j rest = None) by (apply findB_none; intros Hx; apply Hrest in Hx as [Hx _]; congruence).
      rewrite E2. apply findB_targets; auto. exact (wb_ids _ _ Hw).
    - unfold rest, restBlocks. rewrite (findB_filter (fun i => negb (grouped targets i))) by (rewrite E; reflexivity).
      destruct (findB j (gblocks g)) eqn:E3; [reflexivity|]. apply findB_none in E3. contradiction. }
  (* the crossing edges come back *)
  assert (Hback : exists es, unEdges sub (map (recross arith bs' sid) cr) = Some es /\
            map (wireOf (rest ++ targets)) es = map (wireOf (gblocks g)) (filter (isCrossing targets) (gedges g))).
  { assert (Hin : forall e, In e (filter (isCrossing targets) (gedges g)) -> In e (gedges g) /\ crosses targets e).
    { intros e He. apply filter_In in He as [He Hc]. split; [exact He|]. apply isCrossing_crosses. exact Hc. }
    revert Hin. induction Hcr as [|e c es cs Hec Hx IH]; intros Hin; [exists []; split; reflexivity|].
    destruct IH as (es' & I1 & I2); [intros; apply Hin; right; assumption|].
    destruct (Hin e (or_introl eq_refl)) as [He Hc]. destruct Hec as (Ec & Ef & op & Ho & E1 & E2 & E3 & E4).
    destruct (wb_ends _ _ Hw e He) as [D1 D2]. pose proof (Hsz e He Hc) as Hm. destruct (gmin e) as [m|] eqn:Em; [|congruence].
    destruct (planned_port targets ops op Hn Hok Hpl Ho Hr _ E4) as (p & Q1 & Q2).
    pose proof (group_lookup targets ops op Hok Ho) as Q3. rewrite E1 in Q3.
    pose proof (findB_in (gblocks g) (pblk op) (wb_ids _ _ Hw) (Hi _ (ok_in _ _ Hok op Ho))) as Q4. rewrite E3 in Q4.
    assert (Hne : forall j, In j (map gid (gblocks g)) -> j <> sid) by (intros j Hj E; subst j; exact (Hs Hj)).
    exists (back targets ops e op :: es'). cbn [map unEdges]. unfold crosses in Hc.
    assert (Hu : exists e1, unSource sub (recross arith bs' sid c) = Some e1 /\ unDest sub e1 = Some (back targets ops e op)).
    { unfold recross, back. rewrite Ec, Ef. destruct (grouped targets (gsrc e)) eqn:G1.
      - destruct (grouped targets (gdst e)) eqn:G2; [congruence|]. unfold unSource, connectEdge. cbn [gsrc gsrcPort gdst gdstPort gmin gweight gename].
        change (gid sub) with sid. rewrite Nat.eqb_refl. cbn [definedPortName]. rewrite E2 in Q3.
        change (gbookOut sub) with (map opExport (side DOut ops)). rewrite Q3. eexists. split; [reflexivity|].
        unfold unDest. cbn [gsrc gsrcPort gdst gdstPort gmin gweight gename]. change (gid sub) with sid.
        destruct (Nat.eqb_spec (gdst e) sid) as [E|E]; [exfalso; exact (Hne _ D2 E)|]. cbn [opExport xblk xint]. rewrite E3, Em. reflexivity.
      - unfold unSource, connectEdge. cbn [gsrc gsrcPort gdst gdstPort gmin gweight gename]. change (gid sub) with sid.
        destruct (Nat.eqb_spec (gsrc e) sid) as [E|E]; [exfalso; exact (Hne _ D1 E)|]. eexists. split; [reflexivity|].
        unfold unDest. cbn [gsrc gsrcPort gdst gdstPort gmin gweight gename]. change (gid sub) with sid. rewrite Nat.eqb_refl. cbn [definedPortName].
        rewrite E2 in Q3. change (gbookIn sub) with (map opExport (side DIn ops)). rewrite Q3. cbn [opExport xblk xint]. rewrite E3, Em. reflexivity. }
    destruct Hu as (e1 & U1 & U2). rewrite U1, U2, I1. split; [reflexivity|]. f_equal; [|exact I2].
    unfold back. destruct (grouped targets (gsrc e)) eqn:G1; unfold wireOf, outEnd, inEnd; cbn [gsrc gsrcPort gdst gdstPort gmin gweight gename resolve];
      rewrite !Hfind by assumption; rewrite Q4; rewrite E2 in *; cbn [portsOf] in *; rewrite Q1, Q2; reflexivity. }
  destruct Hback as (esb & B1 & B2).
  assert (Hout : unEdges sub (filter (isOuter targets) (gedges g)) = Some (filter (isOuter targets) (gedges g))).
  { assert (Hin : forall e, In e (filter (isOuter targets) (gedges g)) -> gsrc e <> sid /\ gdst e <> sid).
    { intros e He. apply filter_In in He as [He _]. destruct (wb_ends _ _ Hw e He) as [D1 D2]. split; intros E; rewrite E in *; contradiction. }
    induction (filter (isOuter targets) (gedges g)) as [|e r IH]; [reflexivity|]. cbn [unEdges].
    destruct (Hin e (or_introl eq_refl)) as [N1 N2]. unfold unSource. change (gid sub) with sid. apply Nat.eqb_neq in N1, N2. rewrite N1.
    unfold unDest. change (gid sub) with sid. rewrite N2. rewrite IH; [reflexivity|]. intros x Hx. apply Hin. right. exact Hx. }
  pose proof (unEdges_app sub _ _ _ _ Hout B1) as Hall.
  exists sub, (mkGraph (rest ++ targets) ((filter (isOuter targets) (gedges g) ++ esb) ++ filter (isInternal targets) (gedges g))).
  split; [exact (sub_find targets (gblocks g) sub Hs)|]. split; [|split].
  - rewrite <- Hafter. apply (ungroup_eq sub (mkGraph bs' (filter (isOuter targets) (gedges g) ++ map (recross arith bs' sid) cr))).
    + reflexivity.
    + change (exportersKnown targets (map opExport (side DIn ops)) = true). apply forallb_forall. intros x Hx. apply in_map_iff in Hx as (o & <- & Ho).
      apply side_in in Ho as [Ho _]. cbn. rewrite (findB_in targets (pblk o) Hn (ok_in _ _ Hok o Ho)). reflexivity.
    + change (exportersKnown targets (map opExport (side DOut ops)) = true). apply forallb_forall. intros x Hx. apply in_map_iff in Hx as (o & <- & Ho).
      apply side_in in Ho as [Ho _]. cbn. rewrite (findB_in targets (pblk o) Hn (ok_in _ _ Hok o Ho)). reflexivity.
    + exact Hall.
    + cbn [gedges]. intros a b Ha Hb. destruct (gedgeEq a b) eqn:E; [|reflexivity]. exfalso. apply gedgeEq_ends in E as [X1 X2].
      change (gsubEdges sub) with (filter (isInternal targets) (gedges g)) in Hb. apply filter_In in Hb as [_ Hb]. unfold isInternal in Hb.
      apply andb_prop in Hb as [Y1 Y2]. rewrite <- X1 in Y1. rewrite <- X2 in Y2. apply in_app_or in Ha as [Ha|Ha].
      * apply filter_In in Ha as [_ Ha]. unfold isOuter in Ha. rewrite Y1 in Ha. discriminate.
      * apply in_map_iff in Ha as (c & <- & _). unfold recross, connectEdge in Y1, Y2. destruct (cfromInside c); cbn in Y1, Y2; congruence.
    + exact Hwk.
  - exact Hperm.
  - unfold allWires. cbn [gblocks gedges]. rewrite !map_app, B2.
    rewrite (Permutation_flat_map blockWires Hperm). apply Permutation_app_tail.
    rewrite <- (map_ext_in (wireOf (gblocks g)) (wireOf (rest ++ targets)) (filter (isOuter targets) (gedges g))).
    + rewrite <- (map_ext_in (wireOf (gblocks g)) (wireOf (rest ++ targets)) (filter (isInternal targets) (gedges g))).
      * rewrite <- !map_app. apply Permutation_map. symmetry. rewrite <- app_assoc. apply three_way.
      * intros e He. apply filter_In in He as [He _]. destruct (wb_ends _ _ Hw e He). unfold wireOf, outEnd, inEnd. rewrite !Hfind by assumption. reflexivity.
    + intros e He. apply filter_In in He as [He _]. destruct (wb_ends _ _ Hw e He). unfold wireOf, outEnd, inEnd. rewrite !Hfind by assumption. reflexivity.
Qed.
