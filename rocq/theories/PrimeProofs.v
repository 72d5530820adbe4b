(** Connecting and priming: proofs. *)
From Coq Require Import Ascii String ZArith NArith Bool Arith Permutation Sorted Lia List.
From Verif Require Import Base TopoModel TopoSpec TopoProofs TopoSearch TopoLoopProofs TopoWccProofs TopoMoreProofs PrimeModel PrimeSpec.
Import ListNotations.
Local Open Scope nat_scope.

Lemma holds_inside g b : holds (descends TransparentBlockGroup) g b <-> inside g b.
Proof.
  unfold inside. split; induction 1 as [b Hb|i c ch es b Hp IH Hc Hb]; try (apply holds_top; exact Hb); eapply holds_in; eassumption.
Qed.

Lemma in_inside g b : In b (forEachBlock TransparentBlockGroup g) -> inside g b.
Proof. intros H. exact (proj1 (holds_inside g b) (proj1 (forEachBlock_holds _ g b) H)). Qed.

(** ** A group comes before everything inside it *)

(** [l2] holds what is inside [b] with its multiplicity. *)
Lemma sub_in_perm t (ch : list Block) y : In y ch -> exists rest, Permutation (flat_map (subBlocks t) ch) (subBlocks t y ++ rest).
Proof.
  intros H. apply in_split in H as (c1 & c2 & ->). exists (flat_map (subBlocks t) c1 ++ flat_map (subBlocks t) c2).
  rewrite flat_map_app. cbn [flat_map]. rewrite app_assoc, (Permutation_app_comm (flat_map (subBlocks t) c1)), <- app_assoc. reflexivity.
Qed.

Lemma subBlocks_after_perm t q : forall l1 b l2, subBlocks t q = l1 ++ b :: l2 -> exists rest, Permutation l2 (subBlocks t b ++ rest).
Proof.
  induction q as [qi qc qch qes IH] using Block_rec'. intros l1 b l2 E. cbn in E. rewrite Forall_forall in IH.
  destruct (enters t qc); [|destruct l1; discriminate].
  destruct (split_app _ _ _ _ _ E) as [(q' & E1)|(p & -> & E1)].
  - assert (Hb : In b qch) by (rewrite E1; apply in_elt).
    assert (El2 : l2 = q' ++ flat_map (subBlocks t) qch).
    { rewrite E1 in E at 1. rewrite <- app_assoc in E. apply app_inv_head in E. cbn in E. inversion E. reflexivity. }
    destruct (sub_in_perm t qch b Hb) as (rest & P). exists (q' ++ rest). rewrite El2, P, app_assoc, (Permutation_app_comm q'), <- app_assoc. reflexivity.
  - clear E. revert p E1. induction qch as [|y r IHr]; intros p E1; cbn in E1; [destruct p; discriminate|].
    destruct (split_app _ _ _ _ _ E1) as [(q' & E2)|(p' & -> & E2)].
    + destruct (IH y (or_introl eq_refl) _ _ _ E2) as (rest & H).
      rewrite E2 in E1. rewrite <- app_assoc in E1. apply app_inv_head in E1. cbn in E1. inversion E1.
      exists (rest ++ flat_map (subBlocks t) r). rewrite H, <- app_assoc. reflexivity.
    + apply (IHr (fun z Hz => IH z (or_intror Hz)) p' E2).
Qed.

Lemma forEachBlock_after_perm t g l1 b l2 : forEachBlock t g = l1 ++ b :: l2 -> exists rest, Permutation l2 (subBlocks t b ++ rest).
Proof.
  unfold forEachBlock. intros E. destruct (split_app _ _ _ _ _ E) as [(q' & E1)|(p & -> & E1)].
  - assert (Hb : In b (blocks g)) by (rewrite E1; apply in_elt).
    assert (El2 : l2 = q' ++ flat_map (subBlocks t) (blocks g)).
    { rewrite E1 in E at 1. rewrite <- app_assoc in E. apply app_inv_head in E. cbn in E. inversion E. reflexivity. }
    destruct (sub_in_perm t _ b Hb) as (rest & P). exists (q' ++ rest). rewrite El2, P, app_assoc, (Permutation_app_comm q'), <- app_assoc. reflexivity.
  - clear E. revert p E1. induction (blocks g) as [|y r IHr]; intros p E1; cbn in E1; [destruct p; discriminate|].
    destruct (split_app _ _ _ _ _ E1) as [(q' & E2)|(p' & -> & E2)].
    + destruct (subBlocks_after_perm _ _ _ _ _ E2) as (rest & H).
      rewrite E2 in E1. rewrite <- app_assoc in E1. apply app_inv_head in E1. cbn in E1. inversion E1.
      exists (rest ++ flat_map (subBlocks t) r). rewrite H, <- app_assoc. reflexivity.
    + apply (IHr p' E2).
Qed.

Lemma Permutation_flat_map' {A B} (f : A -> list B) l l' : Permutation l l' -> Permutation (flat_map f l) (flat_map f l').
Proof. intros H. rewrite H. reflexivity. Qed.

Lemma forEach_group b : bcat b = TransparentBlockGroup ->
  forEachBlock TransparentBlockGroup (mkGraph (bchildren b) (binner b)) = subBlocks TransparentBlockGroup b.
Proof. destruct b as [i c ch es]. cbn. intros ->. cbn. reflexivity. Qed.

(** ** Priming one flattened graph *)

Definition entry (info : nat -> BlockInfo) (lv : list Edge) (loop : list Edge) : list (Edge * Z) :=
  match calculateLoopPrimingSize info loop, rev loop with
  | Some n, e :: _ => if Z.eqb n 0 then []
                      else if existsb (fun x => Nat.eqb (dst x) (dst e) && portEq (dstPort x) (dstPort e)) lv then [(e, n)] else []
  | _, _ => []
  end.

Lemma primeFold info loops : forall s,
  let r := fold_left (primeOne false info) loops s in
  tried r = tried s /\ live r = live s /\ primed r = primed s ++ flat_map (entry info (live s)) loops.
Proof.
  induction loops as [|l loops IH]; intros s; cbv zeta; cbn [fold_left flat_map]; [rewrite app_nil_r; auto|].
  assert (E : tried (primeOne false info s l) = tried s /\ live (primeOne false info s l) = live s /\
              primed (primeOne false info s l) = primed s ++ entry info (live s) l).
  { unfold primeOne, entry, inputConnected. destruct (calculateLoopPrimingSize info l) as [n|]; cbn [tried live primed]; [|rewrite app_nil_r; auto].
    destruct (rev l) as [|e r]; cbn [tried live primed]; [rewrite app_nil_r; auto|].
    destruct (Z.eqb n 0); [rewrite app_nil_r; auto|]. destruct (existsb _ (live s)); cbn [tried live primed]; rewrite ?app_nil_r; auto. }
  destruct E as (E1 & E2 & E3). destruct (IH (primeOne false info s l)) as (I1 & I2 & I3). cbv zeta in I1, I2, I3.
  rewrite I1, I2, I3, E1, E2, E3, <- app_assoc. auto.
Qed.

Lemma samplesNeeded_pos info e0 rest : (1 <= samplesNeeded info (e0 :: rest))%Z.
Proof.
  unfold samplesNeeded.
  assert (H : forall c n, (n <= fold_left (fun n e => destNeed (info (dst e)) (dstPort e) n) c n)%Z).
  { induction c as [|e c IH]; intros n; cbn [fold_left]; [lia|]. etransitivity; [|apply IH].
    unfold destNeed. destruct (destPortIdx _ _) as [k|]; [destruct (nth_error _ _) as [m|]|]; cbv zeta.
    - destruct (0 <? m)%Z, (0 <? numerator (info (dst e)))%Z, (0 <? stride (info (dst e)))%Z; lia.
    - destruct (0 <? numerator (info (dst e)))%Z, (0 <? stride (info (dst e)))%Z; lia.
    - destruct (0 <? numerator (info (dst e)))%Z, (0 <? stride (info (dst e)))%Z; lia. }
  etransitivity; [|apply H]. unfold sourceNeed. cbv zeta.
  destruct (0 <? denominator (info (src e0)))%Z, (0 <? stride (info (src e0)))%Z; lia.
Qed.

Lemma size_pos info l n : l <> [] -> calculateLoopPrimingSize info l = Some n -> (1 <= n)%Z.
Proof.
  intros Hl. unfold calculateLoopPrimingSize. destruct l as [|e r]; [congruence|].
  destruct (cumulative info (e :: r)) as [x y]. destruct (Z.eqb x y); [|discriminate]. intros H. inversion H; subst. apply samplesNeeded_pos.
Qed.

Lemma entry_In info lv l e n : In (e, n) (entry info lv l) ->
  calculateLoopPrimingSize info l = Some n /\ (exists front, l = front ++ [e]) /\ exists x, In x lv /\ inputOf x = inputOf e.
Proof.
  unfold entry. destruct (calculateLoopPrimingSize info l) as [m|]; [|intros []]. destruct (rev l) as [|x r] eqn:E; [intros []|].
  destruct (Z.eqb m 0); [intros []|]. destruct (existsb _ lv) eqn:Ex; [|intros []]. intros [H|[]]. inversion H; subst.
  split; [reflexivity|]. split.
  - exists (rev r). rewrite <- (rev_involutive l), E. reflexivity.
  - apply existsb_exists in Ex as (y & Hy & Hxy). apply andb_prop in Hxy as [H1 H2].
    apply Nat.eqb_eq in H1. apply portEq_eq in H2. exists y. split; [exact Hy|]. unfold inputOf. congruence.
Qed.

Lemma entry_complete info lv front e n : calculateLoopPrimingSize info (front ++ [e]) = Some n -> In e lv ->
  In (e, n) (entry info lv (front ++ [e])).
Proof.
  intros H He. unfold entry. rewrite H, rev_app_distr. cbn [rev app].
  assert (P : (1 <= n)%Z) by (apply (size_pos info (front ++ [e]) n); [destruct front; discriminate|exact H]).
  destruct (Z.eqb_spec n 0); [lia|].
  assert (X : existsb (fun x => Nat.eqb (dst x) (dst e) && portEq (dstPort x) (dstPort e)) lv = true).
  { apply existsb_exists. exists e. split; [exact He|]. rewrite Nat.eqb_refl. apply (proj2 (portEq_eq _ _)). reflexivity. }
  rewrite X. left. reflexivity.
Qed.

Lemma entries_closings info lv : forall loops, 
  exists keep, map fst (flat_map (entry info lv) loops) = flat_map closingOf (filter keep loops).
Proof.
  intros loops. exists (fun l => match entry info lv l with [] => false | _ => true end).
  induction loops as [|l loops IH]; cbn [flat_map filter map]; [reflexivity|].
  rewrite map_app, IH.
  assert (X : entry info lv l = [] \/ exists e n, entry info lv l = [(e, n)] /\ closingOf l = [e]).
  { unfold entry, closingOf. destruct (calculateLoopPrimingSize info l) as [n|]; [|auto]. destruct (rev l) as [|e r]; [auto|].
    destruct (Z.eqb n 0); [auto|]. destruct (existsb _ lv); [|auto]. right. exists e, n. auto. }
  destruct X as [->|(e & n & -> & Ec)]; [reflexivity|]. cbn [map fst flat_map]. rewrite Ec. reflexivity.
Qed.

Lemma NoDup_flat_filter {A B} (f : A -> list B) keep l : NoDup (flat_map f l) -> NoDup (flat_map f (filter keep l)).
Proof.
  induction l as [|x l IH]; intros H; cbn; [constructor|]. cbn in H. apply NoDup_app_iff_local in H as (H1 & H2 & H3).
  destruct (keep x); cbn; [|apply IH; exact H2]. apply NoDup_app_iff_local. split; [exact H1|]. split; [apply IH; exact H2|].
  intros y Hy Hy'. apply (H3 y Hy). apply in_flat_map in Hy' as (z & Hz & Hy'). apply filter_In in Hz as [Hz _].
  apply in_flat_map. exists z. auto.
Qed.

Lemma NoDup_map_inj {A B} (f : A -> B) l : NoDup l -> (forall x y, In x l -> In y l -> f x = f y -> x = y) -> NoDup (map f l).
Proof.
  induction l as [|x l IH]; intros H Hf; cbn; [constructor|]. inversion H; subst. constructor.
  - intros X. apply in_map_iff in X as (y & E & Hy). rewrite (Hf y x (or_intror Hy) (or_introl eq_refl) E) in Hy. contradiction.
  - apply IH; [assumption|]. intros a b Ha Hb. apply Hf; right; assumption.
Qed.

Lemma map_inj_NoDup {A B} (f : A -> B) l : NoDup (map f l) -> forall x y, In x l -> In y l -> f x = f y -> x = y.
Proof.
  induction l as [|z l IH]; intros H x y Hx Hy E; [destruct Hx|]. cbn in H. inversion H; subst.
  destruct Hx as [->|Hx], Hy as [->|Hy]; auto.
  - elim H2. rewrite E. apply in_map. exact Hy.
  - elim H2. rewrite <- E. apply in_map. exact Hx.
Qed.

Section Run.
Context (ok : Edge -> bool) (info : nat -> BlockInfo) (adjOf : list Edge -> AdjList) (g : Graph).
Context (Hadj : forall es, sameMap (computeAdjacencyList es) (adjOf es)).
Context (Hwf : wellFormed g).
Context (Huniq : NoDup (map inputOf (edges g ++ flat_map binner (forEachBlock TransparentBlockGroup g)))).
Context (Hok : forall e, In e (edges g ++ flat_map binner (forEachBlock TransparentBlockGroup g)) -> ok e = true).

Local Notation T := TransparentBlockGroup.
Local Notation all := (forEachBlock TransparentBlockGroup g).

Definition isT (b : Block) : bool := catEq (bcat b) T.

Lemma isT_iff b : isT b = true <-> bcat b = T.
Proof. unfold isT. destruct (bcat b); cbn; intuition congruence. Qed.

Lemma distinct_input es : NoDup (map inputOf es) -> distinct es.
Proof.
  intros H. unfold distinct. apply NoDup_map_inj; [apply NoDup_map_inv in H; exact H|].
  intros x y Hx Hy E. apply (map_inj_NoDup inputOf es H x y Hx Hy). unfold connection in E. unfold inputOf. congruence.
Qed.

(** One graph or group: its own edges are primed, nothing further down is. *)
Lemma stage_spec (h : Graph) (before : list Edge) :
  incl (blocks h) all \/ h = g ->
  (forall x, In x (forEachBlock T h) -> In x all) ->
  NoDup (map inputOf ((before ++ edges h) ++ flat_map binner (forEachBlock T h))) ->
  (forall e, In e (edges h) -> exists b, In b (blocks h) /\ bid b = src e) ->
  let f := flatten T h in
  let ls := detectFeedbackLoops (adjOf (edges f)) f in
  let new := flat_map (entry info (before ++ edges h)) ls in
  (forall e n, In (e, n) new -> In e (edges h)) /\
  NoDup (map inputOf (map fst new)) /\
  (forall e n, In (e, n) new -> exists c front, c = front ++ [e] /\ cycle (edges f) c /\ simple c /\ calculateLoopPrimingSize info c = Some n) /\
  (forall c, cycle (edges h) c -> (forall l, cycle (edges f) l -> simple l -> calculateLoopPrimingSize info l <> None) ->
     exists e n, In e c /\ In (e, n) new).
Proof.
  intros _ Hsub Hn Hsrc. cbv zeta.
  set (f := flatten T h). set (ls := detectFeedbackLoops (adjOf (edges f)) f).
  destruct (flatten_edges T h) as (F1 & F2 & F3). cbv zeta in F1, F2, F3. fold f in F1, F2, F3.
  assert (A : adjOk (edges f) (adjOf (edges f))) by (eapply adjOk_same; [apply Hadj|apply adjOk_compute]).
  assert (ND : forall b, NoDup (outOf (adjOf (edges f)) b)).
  { apply (outOf_NoDup (edges f)); [apply distinct_NoDup; exact F1|apply Hadj]. }
  destruct (loopsFrom_spec (edges f) (adjOf (edges f)) (map bid (forEachBlock AllCat f)) A ND) as (fin & L1 & L2 & L3 & L4 & L5).
  fold (detectFeedbackLoops (adjOf (edges f)) f) in L3, L4, L5. fold ls in L3, L4, L5.
  assert (Own : forall e n, In (e, n) (flat_map (entry info (before ++ edges h)) ls) -> In e (edges h)).
  { intros e n He. apply in_flat_map in He as (l & Hl & He). apply entry_In in He as (_ & (front & El) & x & Hx & Ex).
    destruct (L4 l Hl) as [(Hi & _ & _) _].
    assert (Hef : In e (edges f)) by (apply Hi; rewrite El; apply in_elt).
    destruct (F2 e Hef) as [H|(b & Hb & He)]; [exact H|exfalso].
    apply forEachBlock_holds in Hb. rewrite map_app in Hn.
    apply (NoDup_app_disj _ _ Hn (inputOf x)).
    - apply in_map. exact Hx.
    - rewrite Ex. apply in_map. apply in_flat_map. exists b. split; assumption. }
  assert (Nh : NoDup (map inputOf (edges h))).
  { rewrite !map_app in Hn. apply NoDup_app_iff_local in Hn as (Hn & _ & _). apply NoDup_app_iff_local in Hn as (_ & Hn & _). exact Hn. }
  split; [exact Own|]. split; [|split].
  - apply NoDup_map_inj.
    + destruct (entries_closings info (before ++ edges h) ls) as (keep & ->). apply NoDup_flat_filter. exact L5.
    + intros x y Hx Hy E. apply in_map_iff in Hx as ([x' nx] & <- & Hx). apply in_map_iff in Hy as ([y' ny] & <- & Hy). cbn [fst] in *.
      apply (map_inj_NoDup inputOf (edges h) Nh); [apply (Own x' nx); exact Hx|apply (Own y' ny); exact Hy|exact E].
  - intros e n He. apply in_flat_map in He as (l & Hl & He). apply entry_In in He as (Hs & (front & El) & _).
    destruct (L4 l Hl) as [Hc Hsi]. exists l, front. auto.
  - intros c Hc Hst.
    assert (Inc : incl (edges h) (edges f)).
    { intros e He. destruct (F3 e (or_introl He)) as (x & Hx & E).
      assert (x = e); [|subst; exact Hx].
      apply (map_inj_NoDup inputOf ((before ++ edges h) ++ flat_map binner (forEachBlock T h)) Hn).
      - destruct (F2 x Hx) as [H|(b & Hb & Hxb)]; [apply in_app_iff; left; apply in_app_iff; right; exact H|].
        apply in_app_iff. right. apply in_flat_map. exists b. split; [apply forEachBlock_holds; exact Hb|exact Hxb].
      - apply in_app_iff. left. apply in_app_iff. right. exact He.
      - unfold inputOf. unfold connection in E. congruence. }
    assert (Src : forall e, In e (edges f) -> In (src e) fin).
    { intros e He. apply L2. unfold f. destruct (F2 e He) as [H|(b & Hb & Heb)].
      - destruct (Hsrc e H) as (b & Hb & <-). apply in_map. unfold forEachBlock at 1. apply in_app_iff. left.
        cbn [flatten blocks]. unfold forEachBlock. apply in_app_iff. left. exact Hb.
      - apply forEachBlock_holds in Hb. pose proof (Hsub b Hb) as Hba.
        apply in_inside in Hba. destruct Hwf as [_ W2].
        destruct (W2 b e Hba Heb) as (Hcat & ch & Hch & <-). apply in_map.
        unfold forEachBlock at 1. apply in_app_iff. right. apply in_flat_map. exists b. split; [cbn [flatten blocks]; exact Hb|].
        destruct b as [bi bc bch bes]. cbn in Hcat, Hch |- *.
        destruct Hcat as [-> | ->]; cbn; apply in_app_iff; left; exact Hch. }
    assert (Cf : cycle (edges f) c).
    { destruct Hc as (C1 & C2 & C3). split; [intros x Hx; apply Inc, C1, Hx|]. split; assumption. }
    destruct (cycles_closed (edges f) (closings ls) fin L1 L3 Src c Cf) as (e & Hec & Hcl).
    apply closings_closes in Hcl as (l & front & Hl & El). destruct (L4 l Hl) as [Lc Lsi].
    destruct (calculateLoopPrimingSize info l) as [n|] eqn:Es; [|elim (Hst l Lc Lsi Es)].
    exists e, n. split; [exact Hec|]. apply in_flat_map. exists l. split; [exact Hl|]. rewrite El. apply entry_complete.
    + rewrite <- El. exact Es.
    + apply in_app_iff. right. destruct Hc as (C1 & _). apply C1. exact Hec.
Qed.

Definition liveAfter (p : list Block) : list Edge := edges g ++ flat_map binner (filter isT p).

Definition calm : Prop :=
  forall l, simple l -> (exists h, (h = g \/ exists b, inside g b /\ bcat b = T /\ h = mkGraph (bchildren b) (binner b)) /\ cycle (edges (flatten T h)) l) ->
    calculateLoopPrimingSize info l <> None.

Record stageInv (p : list Block) (st : PrimeSt * bool) : Prop := {
  si_result : snd st = true;
  si_tried : tried (fst st) = liveAfter p;
  si_live : live (fst st) = liveAfter p;
  si_in : forall e n, In (e, n) (primed (fst st)) -> In e (liveAfter p);
  si_nodup : NoDup (map inputOf (map fst (primed (fst st))));
  si_loop : forall e n, In (e, n) (primed (fst st)) -> exists h c front,
      (h = g \/ exists b, inside g b /\ bcat b = T /\ h = mkGraph (bchildren b) (binner b)) /\
      c = front ++ [e] /\ cycle (edges (flatten T h)) c /\ simple c /\ calculateLoopPrimingSize info c = Some n;
  si_cover : calm -> forall c, (cycle (edges g) c \/ exists b, In b p /\ bcat b = T /\ cycle (binner b) c) ->
      exists e n, In e c /\ In (e, n) (primed (fst st)) }.

Lemma connectEdges_new es s : (forall e, In e es -> ok e = true) ->
  (forall e x, In e es -> In x (tried s) -> inputOf e <> inputOf x) ->
  connectEdges ok es s = (mkPrime (tried s ++ es) (live s ++ es) (primed s) (complaints s), true).
Proof.
  intros H1 H2. unfold connectEdges.
  assert (E : filter (fun e => negb (existsb (sameEdge e) (tried s))) es = es).
  { assert (forall e, In e es -> negb (existsb (sameEdge e) (tried s)) = true).
    { intros e He. apply negb_true_iff. destruct (existsb (sameEdge e) (tried s)) eqn:X; [exfalso|reflexivity].
      apply existsb_exists in X as (x & Hx & X). apply edgeEq_key in X. apply (H2 e x He Hx). unfold inputOf. unfold connection in X. congruence. }
    clear - H. induction es as [|e es IH]; cbn; [reflexivity|]. rewrite (H e (or_introl eq_refl)). f_equal. apply IH. intros x Hx. apply H. right. exact Hx. }
  rewrite E.
  assert (E2 : filter ok es = es /\ forallb ok es = true).
  { clear - H1. induction es as [|e es IH]; cbn; [auto|]. rewrite (H1 e (or_introl eq_refl)).
    destruct (IH (fun x Hx => H1 x (or_intror Hx))) as [-> ->]. auto. }
  destruct E2 as [-> ->]. reflexivity.
Qed.

Lemma stage_first : stageInv [] (let '(s0, r0) := connectEdges ok (edges g) (mkPrime [] [] [] 0) in (primeLoops false info adjOf g s0, r0)).
Proof.
  rewrite connectEdges_new.
  2:{ intros e He. apply Hok. apply in_app_iff. left. exact He. }
  2:{ intros e x _ []. }
  cbn [tried live primed complaints app]. unfold primeLoops.
  destruct (primeFold info (detectFeedbackLoops (adjOf (edges (flatten T g))) (flatten T g)) (mkPrime (edges g) (edges g) [] 0)) as (P1 & P2 & P3).
  cbv zeta in P1, P2, P3. cbn [tried live primed app] in P1, P2, P3.
  destruct (stage_spec g [] (or_intror eq_refl)) as (S1 & S2 & S3 & S4).
  { intros x Hx. exact Hx. }
  { exact Huniq. }
  { apply Hwf. }
  cbn [app] in S1, S2, S3, S4.
  split; cbn [fst snd].
  - reflexivity.
  - rewrite P1. unfold liveAfter. cbn. rewrite app_nil_r. reflexivity.
  - rewrite P2. unfold liveAfter. cbn. rewrite app_nil_r. reflexivity.
  - rewrite P3. intros e n H. unfold liveAfter. apply in_app_iff. left. apply (S1 e n H).
  - rewrite P3. exact S2.
  - rewrite P3. intros e n H. destruct (S3 e n H) as (c & front & H1 & H2 & H3 & H4). exists g, c, front. auto.
  - rewrite P3. intros Hc c [H|(b & [] & _)]. apply S4; [exact H|]. intros l Hl Hs. apply Hc; [exact Hs|]. exists g. auto.
Qed.

Lemma stage_next p b l st : all = p ++ b :: l -> stageInv p st -> stageInv (p ++ [b]) (connectGroup false ok info adjOf st b).
Proof.
  intros E [I1 I2 I3 I4 I5 I6 I7]. destruct st as [s r]. cbn [fst snd] in *. subst r.
  unfold connectGroup. fold (isT b). destruct (isT b) eqn:Eb.
  - assert (Hbin : In b all) by (rewrite E; apply in_elt).
    assert (Hcat : bcat b = T) by (apply isT_iff; exact Eb).
    assert (LA : liveAfter (p ++ [b]) = liveAfter p ++ binner b).
    { unfold liveAfter. rewrite filter_app. cbn [filter]. rewrite Eb, flat_map_app. cbn [flat_map]. rewrite app_nil_r, app_assoc. reflexivity. }
    destruct (forEachBlock_after_perm T g p b l E) as (others & Pl).
    assert (Sub : incl (subBlocks T b) l).
    { intros x Hx. apply (Permutation_in _ (Permutation_sym Pl)). apply in_app_iff. left. exact Hx. }
    assert (U : NoDup (map inputOf ((liveAfter p ++ binner b) ++ flat_map binner l))).
    { pose proof Huniq as U. rewrite E in U. rewrite flat_map_app in U. cbn [flat_map] in U.
      assert (K : forall q, exists rest, Permutation (flat_map binner q) (flat_map binner (filter isT q) ++ rest)).
      { induction q as [|x q (rest & IHq)]; [exists []; reflexivity|]. cbn [filter flat_map]. destruct (isT x).
        - exists rest. cbn [flat_map]. rewrite <- app_assoc. apply Permutation_app_head. exact IHq.
        - exists (rest ++ binner x). rewrite IHq. rewrite (app_assoc _ rest (binner x)). apply Permutation_app_comm. }
      destruct (K p) as (rest & Kp).
      assert (P : Permutation (edges g ++ flat_map binner p ++ binner b ++ flat_map binner l)
                              (((liveAfter p ++ binner b) ++ flat_map binner l) ++ rest)).
      { unfold liveAfter. rewrite Kp, <- !app_assoc. apply Permutation_app_head. apply Permutation_app_head.
        rewrite (Permutation_app_comm rest). rewrite <- app_assoc. reflexivity. }
      apply (Permutation_map inputOf) in P. apply (Permutation_NoDup P) in U. rewrite map_app in U.
      apply NoDup_app_iff_local in U. apply U. }
    rewrite connectEdges_new.
    2:{ intros e He. apply Hok. apply in_app_iff. right. apply in_flat_map. exists b. auto. }
    2:{ intros e x He Hx Ei. rewrite I2 in Hx. rewrite !map_app in U. apply NoDup_app_iff_local in U as (U & _ & _).
        apply (NoDup_app_disj _ _ U (inputOf x)); [apply in_map; exact Hx|]. rewrite <- Ei. apply in_map. exact He. }
    unfold primeLoops. set (h := mkGraph (bchildren b) (binner b)).
    destruct (primeFold info (detectFeedbackLoops (adjOf (edges (flatten T h))) (flatten T h))
      (mkPrime (tried s ++ binner b) (live s ++ binner b) (primed s) (complaints s))) as (P1 & P2 & P3).
    cbv zeta in P1, P2, P3. cbn [tried live primed] in P1, P2, P3. rewrite I2, I3 in P1, P2, P3. rewrite I2, I3.
    destruct (stage_spec h (liveAfter p)) as (S1 & S2 & S3 & S4).
    { left. intros x Hx. apply forEachBlock_holds. apply forEachBlock_holds in Hbin. destruct b as [bi bc bch bes]. cbn in Hcat, Hx |- *. subst bc.
      apply (holds_in _ g bi T bch bes x); [exact Hbin|reflexivity|exact Hx]. }
    { intros x Hx. unfold h in Hx. rewrite (forEach_group b Hcat) in Hx. rewrite E. apply in_app_iff. right. right. apply Sub. exact Hx. }
    { unfold h at 2. rewrite (forEach_group b Hcat). cbn [edges h]. rewrite map_app. rewrite map_app in U.
      apply NoDup_app_iff_local in U as (U1 & U2 & U3). apply NoDup_app_iff_local. split; [exact U1|].
      split.
      - pose proof (Permutation_map inputOf (Permutation_flat_map' binner _ _ Pl)) as PP.
        apply (Permutation_NoDup PP) in U2. rewrite flat_map_app, map_app in U2. apply NoDup_app_iff_local in U2. apply U2.
      - intros x Hx Hx'. apply (U3 x Hx). apply in_map_iff in Hx' as (y & <- & Hy). apply in_map.
        apply in_flat_map in Hy as (z & Hz & Hy). apply in_flat_map. exists z. split; [apply Sub; exact Hz|exact Hy]. }
    { intros e He. cbn [edges h] in He. destruct Hwf as [_ W2].
      destruct (W2 b e) as (_ & X); [apply in_inside; exact Hbin|exact He|exact X]. }
    cbn [edges h] in S1, S2, S3, S4, P3. rewrite <- LA in P1, P2, P3, S1, S2, S3, S4. rewrite <- LA.
    split; cbn [fst snd].
    + reflexivity.
    + exact P1.
    + exact P2.
    + rewrite P3. intros e n H. apply in_app_iff in H as [H|H]; rewrite LA; apply in_app_iff; [left; apply (I4 e n H)|right; apply (S1 e n H)].
    + rewrite P3, !map_app. apply NoDup_app_iff_local. split; [exact I5|]. split; [exact S2|].
      intros x Hx Hx'. rewrite map_app in U. apply NoDup_app_iff_local in U as (U & _ & _). rewrite map_app in U.
      apply (NoDup_app_disj _ _ U x).
      * apply in_map_iff in Hx as (y & <- & Hy). apply in_map_iff in Hy as ([y' n] & <- & Hy). apply in_map. apply (I4 y' n Hy).
      * apply in_map_iff in Hx' as (y & <- & Hy). apply in_map_iff in Hy as ([y' n] & <- & Hy). apply in_map. apply (S1 y' n Hy).
    + rewrite P3. intros e n H. apply in_app_iff in H as [H|H]; [apply I6; exact H|].
      destruct (S3 e n H) as (c & front & H1 & H2 & H3 & H4). exists h, c, front. split; [|auto].
      right. exists b. split; [apply in_inside; exact Hbin|auto].
    + rewrite P3. intros Hc c H.
      assert (D : (cycle (edges g) c \/ (exists b, In b p /\ bcat b = T /\ cycle (binner b) c)) \/ cycle (binner b) c).
      { destruct H as [H|(b' & Hb' & H)]; [left; left; exact H|]. apply in_app_iff in Hb' as [Hb'|[<-|[]]]; [left; right; exists b'; auto|right; apply H]. }
      destruct D as [D|D].
      * destruct (I7 Hc c D) as (e & n & H1 & H2). exists e, n. split; [exact H1|]. apply in_app_iff. left. exact H2.
      * destruct (S4 c D) as (e & n & H1 & H2).
        -- intros l0 Hl0 Hs. apply Hc; [exact Hs|]. exists h. split; [|exact Hl0]. right. exists b.
           split; [apply in_inside; exact Hbin|auto].
        -- exists e, n. split; [exact H1|]. apply in_app_iff. right. exact H2.
  - assert (LA : liveAfter (p ++ [b]) = liveAfter p).
    { unfold liveAfter. rewrite filter_app. cbn [filter]. rewrite Eb, app_nil_r. reflexivity. }
    split; cbn [fst snd]; rewrite ?LA; try assumption; [reflexivity|].
    intros Hc c [H|(b' & Hb' & H1 & H2)]; [apply I7; auto|].
    apply in_app_iff in Hb' as [Hb'|[<-|[]]]; [apply I7; [exact Hc|right; exists b'; auto]|].
    apply isT_iff in H1. congruence.
Qed.

Lemma stage_all : stageInv all (schedulerStart ok info adjOf g).
Proof.
  unfold schedulerStart, schedulerConnect. pose proof stage_first as F.
  destruct (connectEdges ok (edges g) (mkPrime [] [] [] 0)) as [s0 r0].
  assert (H : forall l p st, all = p ++ l -> stageInv p st -> stageInv (p ++ l) (fold_left (connectGroup false ok info adjOf) l st)).
  { induction l as [|b l IH]; intros p st E Hs; cbn [fold_left]; [rewrite app_nil_r; exact Hs|].
    replace (p ++ b :: l) with ((p ++ [b]) ++ l) by (rewrite <- app_assoc; reflexivity).
    apply IH; [rewrite <- app_assoc; exact E|]. apply (stage_next p b l); assumption. }
  apply (H all [] _ eq_refl F).
Qed.
End Run.
