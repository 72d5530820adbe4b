(** Proofs about removing and replacing a block and about exporting a port. *)
From Coq Require Import Ascii ZArith NArith Bool Arith Permutation Lia String List.
From Verif Require Import Base TopoModel EditModel EditSpec EditProofs EditGroupProofs EditWireProofs EditUngroupProofs.
Import ListNotations.
Local Open Scope nat_scope.
Local Open Scope list_scope.

Lemma eraseB_perm i bs b : findB i bs = Some b -> Permutation (b :: eraseB i bs) bs.
Proof.
  unfold eraseB. induction bs as [|x r IH]; cbn; intros H; [discriminate|]. destruct (Nat.eqb (gid x) i).
  - injection H as <-. reflexivity.
  - rewrite perm_swap. constructor. apply IH. exact H.
Qed.

Lemma eraseB_find i j bs : i <> j -> findB j (eraseB i bs) = findB j bs.
Proof.
  intros Hij. unfold eraseB. induction bs as [|x r IH]; cbn; [reflexivity|]. destruct (Nat.eqb_spec (gid x) i) as [E|E].
  - destruct (Nat.eqb_spec (gid x) j) as [E2|E2]; [congruence|reflexivity].
  - cbn. destruct (Nat.eqb (gid x) j); [reflexivity|exact IH].
Qed.

Lemma eraseB_ids i bs b : NoDup (map gid bs) -> findB i bs = Some b ->
  NoDup (map gid (eraseB i bs)) /\ (forall j, In j (map gid (eraseB i bs)) <-> In j (map gid bs) /\ j <> i).
Proof.
  intros Hn H. pose proof (eraseB_perm i bs b H) as P. apply findB_some in H as [_ H]. apply (Permutation_map gid) in P. cbn [map] in P.
  assert (Hn2 := Permutation_NoDup (Permutation_sym P) Hn). inversion Hn2 as [|? ? H1 H2]; subst. split; [exact H2|].
  intros j. split.
  - intros Hj. split; [apply (Permutation_in _ P); right; exact Hj|]. intros ->. exact (H1 Hj).
  - intros [Hj Hne]. apply (Permutation_in _ (Permutation_sym P)) in Hj as [Hj|Hj]; [congruence|exact Hj].
Qed.

Lemma remove_spec i g : wellBuilt (gblocks g) (gedges g) ->
  match removeBlockByName i g with
  | (Some b, g') => gid b = i /\ Permutation (b :: gblocks g') (gblocks g) /\ wellBuilt (gblocks g') (gedges g') /\
      (forall e, In e (gedges g') <-> In e (gedges g) /\ gsrc e <> i /\ gdst e <> i) /\
      (forall e, In e (gedges g') -> wireOf (gblocks g') e = wireOf (gblocks g) e)
  | (None, g') => g' = g /\ ~ In i (map gid (gblocks g))
  end.
Proof.
  intros Hw. unfold removeBlockByName. destruct (findB i (gblocks g)) as [b|] eqn:E; [|split; [reflexivity|apply findB_none; exact E]].
  cbn [gblocks gedges].
  assert (He : forall e, In e (filter (fun e => negb (Nat.eqb (gsrc e) i || Nat.eqb (gdst e) i)) (gedges g)) <-> In e (gedges g) /\ gsrc e <> i /\ gdst e <> i).
  { intros e. rewrite filter_In, negb_true_iff, orb_false_iff, !Nat.eqb_neq. reflexivity. }
  destruct (eraseB_ids i _ b (wb_ids _ _ Hw) E) as [I1 I2].
  split; [apply findB_some in E as [_ E]; exact E|]. split; [apply eraseB_perm; exact E|]. split; [|split; [exact He|]].
  - split; [exact I1| |apply fop_filter; exact (wb_once _ _ Hw)]. intros e Hi. apply He in Hi as (H1 & H2 & H3).
    destruct (wb_ends _ _ Hw e H1). rewrite !I2. auto.
  - intros e Hi. apply He in Hi as (H1 & H2 & H3). unfold wireOf, outEnd, inEnd. rewrite !eraseB_find by congruence. reflexivity.
Qed.

Lemma replace_spec cap i new g : wellBuilt (gblocks g) (gedges g) -> In i (map gid (gblocks g)) -> ~ In (gid new) (map gid (gblocks g)) ->
  List.length (gblocks g) < cap ->
  exists old g', replaceBlock cap i (Some new) g = Done g' /\ gid old = i /\ Permutation (old :: gblocks g') (new :: gblocks g) /\
    Forall2 (fun e e' =>
      gsrc e' = (if Nat.eqb (gsrc e) i then gid new else gsrc e) /\ gdst e' = (if Nat.eqb (gdst e) i then gid new else gdst e) /\
      gsrcPort e' = gsrcPort e /\ gdstPort e' = gdstPort e /\ gmin e' = gmin e /\ gweight e' = gweight e /\ gename e' = gename e /\
      gextra e' = gextra e /\ gstate e' = gstate e /\
      outEnd (gblocks g') (gsrc e') (gsrcPort e') = (if Nat.eqb (gsrc e) i then resolve (gouts new) (gsrcPort e) else outEnd (gblocks g) (gsrc e) (gsrcPort e)) /\
      inEnd (gblocks g') (gdst e') (gdstPort e') = (if Nat.eqb (gdst e) i then resolve (gins new) (gdstPort e) else inEnd (gblocks g) (gdst e) (gdstPort e)))
      (gedges g) (gedges g').
Proof.
  intros Hw Hi Hnew Hcap. unfold replaceBlock. destruct (findB i (gblocks g)) as [old|] eqn:E; [|apply findB_none in E; contradiction].
  destruct (Nat.leb_spec cap (List.length (gblocks g))) as [Hc|_]; [lia|].
  assert (Hne : gid new <> i) by (intros H; apply Hnew; rewrite H; exact Hi).
  assert (E2 : findB i (gblocks g ++ [new]) = Some old) by (rewrite findB_app, E; reflexivity).
  assert (Fnew : findB (gid new) (eraseB i (gblocks g ++ [new])) = Some new).
  { rewrite eraseB_find by congruence. rewrite findB_app. apply findB_none in Hnew. rewrite Hnew. cbn. rewrite Nat.eqb_refl. reflexivity. }
  assert (Fold : forall j, In j (map gid (gblocks g)) -> j <> i -> findB j (eraseB i (gblocks g ++ [new])) = findB j (gblocks g)).
  { intros j Hj Hji. rewrite eraseB_find by congruence. rewrite findB_app. destruct (findB j (gblocks g)) eqn:Ej; [reflexivity|].
    apply findB_none in Ej. contradiction. }
  exists old. eexists. split; [reflexivity|]. split; [apply findB_some in E as [_ E]; exact E|]. cbn [gblocks gedges]. split.
  - rewrite (eraseB_perm _ _ _ E2). symmetry. apply Permutation_cons_append.
  - pose proof (wb_ends _ _ Hw) as He. clear Hw. revert He. generalize (gedges g) as es. induction es as [|e r IH]; intros He; cbn [map]; constructor.
    + destruct (He e (or_introl eq_refl)) as [D1 D2]. repeat apply conj; try reflexivity.
      * cbn. unfold outEnd. destruct (Nat.eqb_spec (gsrc e) i) as [Es|Es]; [rewrite Fnew; reflexivity|rewrite Fold by assumption; reflexivity].
      * cbn. unfold inEnd. destruct (Nat.eqb_spec (gdst e) i) as [Es|Es]; [rewrite Fnew; reflexivity|rewrite Fold by assumption; reflexivity].
    + apply IH. intros x Hx. apply He. right. exact Hx.
Qed.

(** ** Exporting *)

Lemma isExported_true book i int : isExported book i int = true <-> exists x, In x book /\ xblk x = i /\ xint x = int.
Proof.
  unfold isExported. rewrite existsb_exists. split; intros (x & Hx & H).
  - apply andb_prop in H as [H1 H2]. apply Nat.eqb_eq in H1. apply String.eqb_eq in H2. eauto.
  - destruct H as [<- <-]. exists x. split; [exact Hx|]. rewrite Nat.eqb_refl, String.eqb_refl. reflexivity.
Qed.

Lemma withSide_ports d s ps bk : portsOf d (withSide d s ps bk) = ps /\ bookOf d (withSide d s ps bk) = bk /\
  gsub (withSide d s ps bk) = gsub s /\ ggroup (withSide d s ps bk) = ggroup s /\ gid (withSide d s ps bk) = gid s.
Proof. destruct s, d; cbn; auto. Qed.

Definition otherDir (d : Dir) : Dir := match d with DIn => DOut | DOut => DIn end.

Lemma withSide_other d s ps bk : portsOf (otherDir d) (withSide d s ps bk) = portsOf (otherDir d) s /\
  bookOf (otherDir d) (withSide d s ps bk) = bookOf (otherDir d) s.
Proof. destruct s, d; cbn; auto. Qed.

Lemma withSide_back d s ps bk : withSide d (withSide d s ps bk) (portsOf d s) (bookOf d s) = s.
Proof. destruct s, d; reflexivity. Qed.

Lemma soundGroup_sides s : soundGroup s <-> ggroup s = true /\ forall d, exportsSound (gsub s) d (bookOf d s) (portsOf d s).
Proof.
  unfold soundGroup. split.
  - intros (H1 & H2 & H3). split; [exact H1|]. intros []; assumption.
  - intros (H1 & H2). split; [exact H1|]. split; [exact (H2 DIn)|exact (H2 DOut)].
Qed.

Lemma export_true s i d int ext s' : exportPort true s i d int ext = (s', true) ->
  exists b p, isExported (bookOf d s) i int = false /\ findB i (gsub s) = Some b /\ portFromName (portsOf d b) int = Some p /\
    s' = withSide d s (portsOf d s ++ [One ext p]) (bookOf d s ++ [mkExport i int ext]).
Proof.
  unfold exportPort. destruct (isExported (bookOf d s) i int) eqn:E; cbn [Bool.eqb]; [discriminate|].
  destruct (findB i (gsub s)) as [b|]; [|discriminate]. destruct (portFromName (portsOf d b) int) as [p|] eqn:Ep; [|discriminate].
  intros H. injection H as <-. exists b, p. auto.
Qed.

Lemma export_sound s i d int ext s' : soundGroup s -> ~ In ext (map xext (bookOf d s)) -> hashFree ext -> ext <> EmptyString ->
  exportPort true s i d int ext = (s', true) -> soundGroup s'.
Proof.
  intros Hs Hx Hh Hne H. apply export_true in H as (b & p & H1 & H2 & H3 & ->). apply soundGroup_sides in Hs as [Hg Hs].
  apply soundGroup_sides.
  set (ps := portsOf d s ++ [One ext p]). set (bk := bookOf d s ++ [mkExport i int ext]).
  destruct (withSide_ports d s ps bk) as (W1 & W2 & W3 & W4 & _). destruct (withSide_other d s ps bk) as (O1 & O2).
  rewrite W3, W4. split; [exact Hg|]. intros d'.
  assert (Hd : d' = d \/ d' = otherDir d) by (destruct d, d'; auto). destruct Hd as [ -> | -> ].
  - rewrite W1, W2. destruct (Hs d) as (S1 & S2 & S3). unfold ps, bk. split; [|split].
    + rewrite map_app. cbn. apply NoDup_snoc; assumption.
    + apply Forall_app. split; [exact S2|]. repeat constructor; assumption.
    + apply Forall2_app; [exact S3|]. repeat constructor. cbn. exists b, p. auto.
  - rewrite O1, O2. apply Hs.
Qed.

Lemma find_app_none (A : Type) (f : A -> bool) l x : (forall y, In y l -> f y = false) -> f x = true -> find f (l ++ [x]) = Some x.
Proof. induction l as [|y r IH]; cbn; intros H Hx; [rewrite Hx; reflexivity|]. rewrite (H y (or_introl eq_refl)). apply IH; auto. Qed.

Lemma dropFirst_app_none (A : Type) (f : A -> bool) l x : (forall y, In y l -> f y = false) -> f x = true -> dropFirst f (l ++ [x]) = l.
Proof. induction l as [|y r IH]; cbn; intros H Hx; [rewrite Hx; reflexivity|]. rewrite (H y (or_introl eq_refl)). rewrite IH; auto. Qed.

Lemma export_undo s i d int ext ext2 s' : soundGroup s -> ~ In ext (map xext (bookOf d s)) ->
  exportPort true s i d int ext = (s', true) -> exportPort false s' i d int ext2 = (s, true).
Proof.
  intros Hs Hx H. apply export_true in H as (b & p & H1 & H2 & H3 & ->). apply soundGroup_sides in Hs as [Hg Hs].
  set (ps := portsOf d s ++ [One ext p]). set (bk := bookOf d s ++ [mkExport i int ext]).
  destruct (withSide_ports d s ps bk) as (W1 & W2 & W3 & W4 & _).
  unfold exportPort. rewrite W1, W2, W3. unfold bk at 1. rewrite isExported_app, H1.
  assert (E : isExported [mkExport i int ext] i int = true) by (apply isExported_true; exists (mkExport i int ext); cbn; auto).
  rewrite E. cbn [orb Bool.eqb]. rewrite H2, H3. unfold bk at 1.
  assert (Hno : forall y, In y (bookOf d s) -> (Nat.eqb (xblk y) i && String.eqb (xint y) int) = false).
  { intros y Hy. destruct (Nat.eqb (xblk y) i && String.eqb (xint y) int) eqn:Ey; [|reflexivity].
    assert (isExported (bookOf d s) i int = true); [|congruence]. unfold isExported. apply existsb_exists. eauto. }
  rewrite (find_app_none _ (fun x => Nat.eqb (xblk x) i && String.eqb (xint x) int)); [|exact Hno|cbn; rewrite Nat.eqb_refl, String.eqb_refl; reflexivity].
  cbn [xext].
  assert (Hnp : forall q, In q (portsOf d s) -> String.eqb (dportName q) ext = false).
  { intros q Hq. apply String.eqb_neq. intros Eq. apply Hx. rewrite <- (sound_names _ _ _ _ (Hs d)), <- Eq. apply in_map. exact Hq. }
  subst ps bk. rewrite existsb_app. cbn [existsb dportName]. rewrite String.eqb_refl, orb_true_r. cbn [orb].
  rewrite (dropFirst_app_none _ (fun q => String.eqb (dportName q) ext)); [|exact Hnp|cbn; apply String.eqb_refl].
  rewrite (dropFirst_app_none _ (fun x => Nat.eqb (xblk x) i && String.eqb (xint x) int)); [|exact Hno|cbn; rewrite Nat.eqb_refl, String.eqb_refl; reflexivity].
  rewrite withSide_back. reflexivity.
Qed.
