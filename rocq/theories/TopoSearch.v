(** The breadth-first and depth-first block lists. *)
From Coq Require Import Ascii String ZArith NArith Bool Arith Permutation Lia List.
From Verif Require Import Base TopoModel TopoSpec TopoProofs.
Import ListNotations.
Local Open Scope nat_scope.

Lemma within_mono es n m b : n <= m -> within es n b -> within es m b.
Proof. intros H (s & k & Hs & Hk & Hw). exists s, k. repeat split; try assumption; try apply Hs. lia. Qed.

Lemma within_source es n s : isSource es s -> within es n s.
Proof. intros H. exists s, 0. split; [exact H|]. split; [lia|constructor]. Qed.

Lemma within_step es n b c : within es n b -> linked es b c -> within es (S n) c.
Proof.
  intros (s & k & Hs & Hk & Hw) Hl. exists s, (S k). split; [exact Hs|]. split; [lia|]. econstructor; eassumption.
Qed.

Lemma within_inv es n c : within es n c -> isSource es c \/ exists b, linked es b c /\ exists m, n = S m /\ within es m b.
Proof.
  intros (s & k & Hs & Hk & Hw). inversion Hw as [|k' b ? Hw' Hl]; subst.
  - left. exact Hs.
  - right. exists b. split; [exact Hl|]. destruct n as [|m]; [lia|]. exists m. split; [reflexivity|].
    exists s, k'. split; [exact Hs|]. split; [lia|exact Hw'].
Qed.

Lemma nth_error_snoc {A} (l : list A) y i x :
  nth_error (l ++ [y]) i = Some x -> (i < length l /\ nth_error l i = Some x) \/ (i = length l /\ x = y).
Proof.
  intros H. destruct (Nat.lt_ge_cases i (length l)) as [L|L].
  - left. split; [exact L|]. rewrite nth_error_app1 in H by exact L. exact H.
  - right. rewrite nth_error_app2 in H by exact L.
    destruct (i - length l) as [|k] eqn:E; [|destruct k; discriminate]. cbn in H. split; [lia|congruence].
Qed.

Lemma byDistance_snoc es l y :
  byDistance es l -> (forall x n, In x l -> within es n y -> within es n x) -> byDistance es (l ++ [y]).
Proof.
  intros H Hy i j x z Hij Hx Hz n Hn.
  apply nth_error_snoc in Hx, Hz.
  destruct Hz as [[Lz Hz]|[Lz ->]], Hx as [[Lx Hx]|[Lx ->]]; try lia.
  - exact (H i j x z Hij Hx Hz n Hn).
  - apply Hy; [|exact Hn]. eapply nth_error_In; eassumption.
Qed.

Lemma fedFirst_snoc es l y :
  fedFirst es l -> (isSource es y \/ exists p, In p l /\ linked es p y) -> fedFirst es (l ++ [y]).
Proof.
  intros H Hy i b Hb. apply nth_error_snoc in Hb as [[Lb Hb]|[Lb ->]].
  - destruct (H i b Hb) as [Hs|(j & p & Hj & Hp & Hl)]; [left; exact Hs|].
    right. exists j, p. split; [exact Hj|]. split; [|exact Hl]. rewrite nth_error_app1 by lia. exact Hp.
  - destruct Hy as [Hs|(p & Hp & Hl)]; [left; exact Hs|].
    right. apply In_nth_error in Hp as [j Hj]. exists j, p.
    assert (j < length l) by (apply nth_error_Some; congruence).
    split; [lia|]. split; [|exact Hl]. rewrite nth_error_app1 by lia. exact Hj.
Qed.

(** ** Breadth first *)

Lemma bfsPush_spec ds : forall l q r,
  (forall e, In e l -> In (dst e) ds) ->
  exists new r', fold_left bfsPush l (q, r) = (q ++ new, r') /\
    (forall b, In b r' <-> In b r \/ In b new) /\ NoDup new /\ (forall b, In b new -> ~ In b r) /\
    (forall b, In b new -> exists e, In e l /\ dst e = b) /\
    (forall e, In e l -> In (dst e) r \/ In (dst e) new) /\
    fresh r' ds + length new <= fresh r ds.
Proof.
  induction l as [|e l IH]; intros q r Hd.
  - exists [], r. cbn. rewrite app_nil_r. split; [reflexivity|]. split; [intros b; tauto|]. split; [constructor|].
    split; [intros b []|]. split; [intros b []|]. split; [intros e []|]. lia.
  - cbn [fold_left bfsPush]. destruct (mem (dst e) r) eqn:E.
    + apply mem_In in E. destruct (IH q r) as (new & r' & H1 & H2 & H3 & H4 & H5 & H6 & H7).
      { intros x Hx. apply Hd. right. exact Hx. }
      exists new, r'. split; [exact H1|]. split; [exact H2|]. split; [exact H3|]. split; [exact H4|].
      split; [intros b Hb; destruct (H5 b Hb) as (x & Hx & Hb'); exists x; split; [right; exact Hx|exact Hb']|].
      split; [|exact H7]. intros x [<-|Hx]; [left; exact E|apply H6; exact Hx].
    + apply mem_false in E. destruct (IH (q ++ [dst e]) (dst e :: r)) as (new & r' & H1 & H2 & H3 & H4 & H5 & H6 & H7).
      { intros x Hx. apply Hd. right. exact Hx. }
      exists (dst e :: new), r'. split; [rewrite H1, <- app_assoc; reflexivity|].
      split; [intros b; rewrite H2; cbn; tauto|].
      split; [constructor; [intros Hc; apply (H4 _ Hc); left; reflexivity|exact H3]|].
      split; [intros b [<-|Hb]; [exact E|intros Hr; apply (H4 b Hb); right; exact Hr]|].
      split; [intros b [<-|Hb]; [exists e; split; [left; reflexivity|reflexivity]|
              destruct (H5 b Hb) as (x & Hx & Hb'); exists x; split; [right; exact Hx|exact Hb']]|].
      split; [intros x [<-|Hx]; [right; left; reflexivity|destruct (H6 x Hx) as [[Hr|Hr]|Hr]; [right; left; exact Hr|left; exact Hr|right; right; exact Hr]]|].
      pose proof (fresh_cons_lt r (dst e) ds (Hd e (or_introl eq_refl)) E). cbn [length]. lia.
Qed.

Lemma NoDup_app_disj {A} (l1 l2 : list A) : NoDup (l1 ++ l2) -> forall x, In x l1 -> ~ In x l2.
Proof.
  induction l1 as [|y l1 IH]; intros Hn x Hx Hy; [destruct Hx|]. cbn in Hn. inversion Hn as [|? ? Ha Hb]; subst.
  destruct Hx as [->|Hx]; [apply Ha; apply in_app_iff; right; exact Hy|apply (IH Hb x Hx Hy)].
Qed.

Lemma NoDup_app_iff_local {A} (l1 l2 : list A) :
  NoDup (l1 ++ l2) <-> NoDup l1 /\ NoDup l2 /\ forall x, In x l1 -> ~ In x l2.
Proof.
  split.
  - intros H. split; [|split; [|apply NoDup_app_disj; exact H]].
    + induction l1 as [|x l IH]; [constructor|]. cbn in H. inversion H; subst. constructor; [|apply IH; assumption].
      intros Hx. apply H2. apply in_app_iff. left. exact Hx.
    + induction l1 as [|x l IH]; [exact H|]. cbn in H. inversion H; subst. apply IH; assumption.
  - intros (H1 & H2 & H3). induction l1 as [|x l IH]; [exact H2|]. cbn. inversion H1; subst. constructor.
    + rewrite in_app_iff. intros [Hx|Hx]; [contradiction|]. apply (H3 x (or_introl eq_refl) Hx).
    + apply IH; [assumption|]. intros y Hy. apply H3. right. exact Hy.
Qed.

Record bfsInv (es : list Edge) (P A B : list nat) (n : nat) (rch vis : list nat) : Prop := {
  bi_nodup : NoDup (P ++ A ++ B);
  bi_reached : forall b, In b rch <-> In b (P ++ A ++ B);
  bi_visited : forall b, In b vis <-> In b P;
  bi_near : forall b, In b (P ++ A) -> within es n b;
  bi_fedA : forall b, In b A -> isSource es b \/ exists p, In p P /\ linked es p b;
  bi_fedB : forall b, In b B -> exists p, In p P /\ linked es p b;
  bi_all : forall b, within es n b -> In b (P ++ A);
  bi_far : forall b m, In b A -> m < n -> ~ within es m b;
  bi_succ : forall b c, In b P -> linked es b c -> In c (P ++ A ++ B);
  bi_dist : byDistance es P;
  bi_fed : fedFirst es P }.

(** When the current layer is used up, the next one takes its place. *)
Lemma bfsInv_next es P B n rch vis : bfsInv es P [] B n rch vis -> bfsInv es P B [] (S n) rch vis.
Proof.
  intros [H1 H2 H3 H4 H5 H6 H7 H8 H9 H10 H11]. cbn [app] in *. rewrite app_nil_r in *.
  split; rewrite ?app_nil_r; try assumption.
  - intros b Hb. apply in_app_iff in Hb as [Hb|Hb].
    + apply (within_mono es n); [lia|]. apply H4; exact Hb.
    + destruct (H6 b Hb) as (p & Hp & Hl). apply (within_step es n p); [apply H4; exact Hp|exact Hl].
  - intros b Hb. right. apply H6. exact Hb.
  - intros b [].
  - intros b Hb. destruct (within_inv es (S n) b Hb) as [Hs|(c & Hl & m & Em & Hm)].
    + apply in_app_iff. left. apply H7. apply within_source. exact Hs.
    + inversion Em; subst m. apply (H9 c b); [apply H7; exact Hm|exact Hl].
  - intros b m Hb Hm Hw. assert (In b P) by (apply H7; apply (within_mono es m); [lia|exact Hw]).
    apply (NoDup_app_disj _ _ H1 b H Hb).
Qed.

Lemma bfsInv_step es a P c A B n rch vis :
  adjOk es a -> bfsInv es P (c :: A) B n rch vis ->
  exists new r', fold_left bfsPush (outOf a c) (A ++ B, rch) = ((A ++ B) ++ new, r') /\
    bfsInv es (P ++ [c]) A (B ++ new) n r' (c :: vis) /\ ~ In c vis /\
    fresh r' (destinations a) + length new <= fresh rch (destinations a).
Proof.
  intros Ha [H1 H2 H3 H4 H5 H6 H7 H8 H9 H10 H11].
  destruct (bfsPush_spec (destinations a) (outOf a c) (A ++ B) rch) as (new & r' & E1 & E2 & E3 & E4 & E5 & E6 & E7).
  { intros e He. apply (destinations_In es a _ Ha). exists c. apply (outOf_linked es a c _ Ha). exists e. auto. }
  exists new, r'. split; [exact E1|].
  assert (Hlist : (P ++ [c]) ++ A ++ B ++ new = (P ++ (c :: A) ++ B) ++ new).
  { rewrite <- !app_assoc. cbn [app]. rewrite <- ?app_assoc. reflexivity. }
  assert (HcP : ~ In c P).
  { intros Hc. apply (NoDup_app_disj _ _ H1 c Hc). left. reflexivity. }
  assert (Hnew : forall b, In b new -> linked es c b).
  { intros b Hb. apply (outOf_linked es a c b Ha). destruct (E5 b Hb) as (e & He & Hd). exists e. auto. }
  split; [|split; [rewrite H3; exact HcP|exact E7]].
  split.
  - rewrite Hlist. apply NoDup_app_iff_local. split; [exact H1|]. split; [exact E3|].
    intros b Hb Hn. apply (E4 b Hn). apply H2. exact Hb.
  - intros b. rewrite E2, H2, Hlist, (in_app_iff _ new). reflexivity.
  - intros b. cbn. rewrite H3, in_app_iff. cbn. tauto.
  - intros b Hb. apply H4. rewrite !in_app_iff in *. cbn in *. tauto.
  - intros b Hb. destruct (H5 b (or_intror Hb)) as [Hs|(p & Hp & Hl)]; [left; exact Hs|].
    right. exists p. split; [apply in_app_iff; left; exact Hp|exact Hl].
  - intros b Hb. apply in_app_iff in Hb as [Hb|Hb].
    + destruct (H6 b Hb) as (p & Hp & Hl). exists p. split; [apply in_app_iff; left; exact Hp|exact Hl].
    + exists c. split; [apply in_app_iff; right; left; reflexivity|apply Hnew; exact Hb].
  - intros b Hb. apply H7 in Hb. rewrite !in_app_iff in *. cbn in *. tauto.
  - intros b m Hb Hm. apply H8; [right; exact Hb|exact Hm].
  - intros b d Hb Hl. rewrite Hlist, in_app_iff. apply in_app_iff in Hb as [Hb|[<-|[]]].
    + left. apply (H9 b d Hb Hl).
    + apply (outOf_linked es a c d Ha) in Hl as (e & He & <-). destruct (E6 e He) as [Hr|Hr]; [left; apply H2; exact Hr|right; exact Hr].
  - apply byDistance_snoc; [exact H10|]. intros x m Hx Hm.
    destruct (Nat.lt_ge_cases m n) as [L|L].
    + elim (H8 c m (or_introl eq_refl) L Hm).
    + apply (within_mono es n); [exact L|]. apply H4. apply in_app_iff. left. exact Hx.
  - apply fedFirst_snoc; [exact H11|]. apply H5. left. reflexivity.
Qed.

Record bfsGood (es : list Edge) (front l : list nat) : Prop := {
  bg_front : exists t, l = front ++ t;
  bg_nodup : NoDup l;
  bg_all : forall b, In b l <-> reached es b;
  bg_dist : byDistance es l;
  bg_fed : fedFirst es l }.

Lemma bfsInv_done es P n rch vis : bfsInv es P [] [] n rch vis -> bfsGood es P P.
Proof.
  intros [H1 H2 H3 H4 H5 H6 H7 H8 H9 H10 H11]. cbn [app] in *. rewrite app_nil_r in *. split; try assumption.
  - exists []. rewrite app_nil_r. reflexivity.
  - intros b. split.
    + intros Hb. exists n. apply H4. exact Hb.
    + intros (m & s & k & Hs & _ & Hw). clear m.
      induction Hw as [|k b c Hw IH Hl].
      * apply H7. apply within_source. exact Hs.
      * apply (H9 b c); assumption.
Qed.

Lemma bfsLoop_spec es a : adjOk es a -> forall fuel P A B n rch vis,
  bfsInv es P A B n rch vis -> length (A ++ B) + fresh rch (destinations a) < fuel ->
  bfsGood es (P ++ A ++ B) (bfsLoop fuel a (A ++ B) rch vis P).
Proof.
  intros Ha. induction fuel as [|f IH]; intros P A B n rch vis Hi Hf; [lia|].
  assert (X : exists A' B' n', A ++ B = A' ++ B' /\ bfsInv es P A' B' n' rch vis /\ (A' = [] -> B' = [])).
  { destruct A as [|c A].
    - exists B, [], (S n). split; [cbn; rewrite app_nil_r; reflexivity|]. split; [apply bfsInv_next; exact Hi|auto].
    - exists (c :: A), B, n. split; [reflexivity|]. split; [exact Hi|discriminate]. }
  destruct X as (A' & B' & n' & E & Hi' & Hne). rewrite E in *. clear Hi E A B.
  destruct A' as [|c A].
  - rewrite (Hne eq_refl) in *. cbn [app bfsLoop]. rewrite app_nil_r. apply (bfsInv_done es P n' rch vis). exact Hi'.
  - cbn [app bfsLoop].
    destruct (bfsInv_step es a P c A B' n' rch vis Ha Hi') as (new & r' & E1 & E2 & E3 & E4).
    apply mem_false in E3. rewrite E3, E1. rewrite <- app_assoc.
    assert (G : bfsGood es ((P ++ [c]) ++ A ++ B' ++ new) (bfsLoop f a (A ++ B' ++ new) r' (c :: vis) (P ++ [c]))).
    { apply (IH (P ++ [c]) A (B' ++ new) n' r' (c :: vis)); [exact E2|].
      cbn [app length] in Hf. rewrite !app_length in *. cbn [length] in *. lia. }
    destruct G as [[t Ht] G2 G3 G4 G5]. split; try assumption.
    exists (new ++ t). rewrite Ht, <- !app_assoc. cbn [app]. rewrite <- ?app_assoc. reflexivity.
Qed.

Lemma bfsSeed_spec : forall l q r, NoDup l -> (forall b, In b l -> ~ In b r) ->
  exists r', fold_left bfsSeed l (q, r) = (q ++ l, r') /\ forall b, In b r' <-> In b r \/ In b l.
Proof.
  induction l as [|b l IH]; intros q r Hn Hd.
  - exists r. cbn. rewrite app_nil_r. split; [reflexivity|]. intros b; tauto.
  - cbn [fold_left bfsSeed]. inversion Hn as [|? ? Hb Hl]; subst.
    assert (E : mem b r = false) by (apply mem_false; apply Hd; left; reflexivity). rewrite E.
    destruct (IH (q ++ [b]) (b :: r) Hl) as (r' & H1 & H2).
    { intros c Hc [->|Hr]; [contradiction|]. apply (Hd c (or_intror Hc) Hr). }
    exists r'. rewrite H1, <- app_assoc. split; [reflexivity|]. intros c. rewrite H2. cbn. tauto.
Qed.

Theorem bfsBlocks_good es a name : adjOk es a -> bfsGood es (findSourceBlocks name a) (bfsBlocks name a).
Proof.
  intros Ha. unfold bfsBlocks.
  destruct (bfsSeed_spec (findSourceBlocks name a) [] []) as (r' & H1 & H2).
  { apply (sources_NoDup es). exact Ha. }
  { intros b _ []. }
  rewrite H1. cbn [app].
  pose proof (bfsLoop_spec es a Ha (S (length (findSourceBlocks name a) + length (destinations a)))
                [] (findSourceBlocks name a) [] 0 r' []) as G.
  rewrite app_nil_r in G. cbn [app] in G. apply G.
  - split; cbn [app]; rewrite ?app_nil_r.
    + apply (sources_NoDup es). exact Ha.
    + intros b. rewrite H2. cbn. tauto.
    + intros b. reflexivity.
    + intros b Hb. apply within_source. apply (sources_In es a name b Ha). exact Hb.
    + intros b Hb. left. apply (sources_In es a name b Ha). exact Hb.
    + intros b [].
    + intros b (s & k & Hs & Hk & Hw). assert (k = 0) by lia. subst k. inversion Hw; subst.
      apply (sources_In es a name b Ha). exact Hs.
    + intros b m _ L. lia.
    + intros b c [].
    + intros i j x y Hij Hx. destruct i; discriminate.
    + intros i b Hb. destruct i; discriminate.
  - pose proof (fresh_le r' (destinations a)). lia.
Qed.

(** ** Depth first *)

Lemma exhausted_mono es l l' b : incl l l' -> exhausted es l b -> exhausted es l' b.
Proof. intros H He c Hc. apply H, He, Hc. Qed.

Lemma exhausted_app es l t b : exhausted es l b -> exhausted es (l ++ t) b.
Proof. apply exhausted_mono. intros x Hx. apply in_app_iff. left. exact Hx. Qed.

Definition dfOrder (es : list Edge) (base new : list nat) : Prop :=
  forall p b q, new = p ++ b :: q -> p <> [] ->
    exists p1 z p2, p = p1 ++ z :: p2 /\ linked es z b /\ forall w, In w p2 -> exhausted es (base ++ p) w.

Lemma split_app {A} (l1 l2 p q : list A) b : l1 ++ l2 = p ++ b :: q ->
  (exists q', l1 = p ++ b :: q') \/ (exists p', p = l1 ++ p' /\ l2 = p' ++ b :: q).
Proof.
  revert p. induction l1 as [|x l1 IH]; intros p H; cbn in H.
  - right. exists p. auto.
  - destruct p as [|y p]; cbn in H; inversion H; subst.
    + left. exists l1. reflexivity.
    + destruct (IH p H2) as [(q' & ->)|(p' & -> & E)]; [left; exists q'; reflexivity|right; exists p'; auto].
Qed.

Lemma dfOrder_app es base node m d new :
  dfOrder es base (node :: m) -> (forall w, In w m -> exhausted es (base ++ node :: m) w) ->
  linked es node d -> (new = [] \/ exists t, new = d :: t) -> dfOrder es (base ++ node :: m) new ->
  dfOrder es base (node :: m ++ new).
Proof.
  intros H1 H2 H3 H4 H5 p b q E Hp.
  change (node :: m ++ new) with ((node :: m) ++ new) in E.
  destruct (split_app _ _ _ _ _ E) as [(q' & E')|(p' & -> & E')].
  - apply (H1 p b q' E' Hp).
  - destruct p' as [|x p'].
    + cbn in E'. destruct H4 as [->|(t & ->)]; [discriminate|]. inversion E'; subst.
      exists [], node, m. rewrite app_nil_r. split; [reflexivity|]. split; [exact H3|exact H2].
    + destruct (H5 (x :: p') b q E') as (p1 & z & p2 & E2 & Hl & Hw); [discriminate|].
      exists ((node :: m) ++ p1), z, p2. split; [rewrite E2, <- app_assoc; reflexivity|]. split; [exact Hl|].
      intros w Hi. specialize (Hw w Hi). rewrite <- app_assoc in Hw. exact Hw.
Qed.

Record dfsPost (es : list Edge) (node : nat) (acc new vis' : list nat) : Prop := {
  dp_set : forall b, In b vis' <-> In b (acc ++ new);
  dp_nodup : NoDup (acc ++ new);
  dp_node : In node (acc ++ new);
  dp_head : new = [] \/ exists t, new = node :: t;
  dp_closed : forall w, In w new -> exhausted es (acc ++ new) w;
  dp_walk : forall w, In w new -> exists k, walk es node k w;
  dp_order : dfOrder es acc new }.

Lemma walk_cons es a b k c : linked es a b -> walk es b k c -> walk es a (S k) c.
Proof.
  intros Hl Hw. induction Hw as [|k c d Hw IH Hc].
  - econstructor; [constructor|exact Hl].
  - econstructor; eassumption.
Qed.

Lemma dfsVisit_spec es a : adjOk es a -> forall fuel node vis acc,
  (forall b, In b vis <-> In b acc) -> NoDup acc ->
  (In node vis \/ fresh (node :: vis) (destinations a) < fuel) ->
  exists new vis', dfsVisit fuel a node (vis, acc) = (vis', acc ++ new) /\ dfsPost es node acc new vis'.
Proof.
  intros Ha. induction fuel as [|f IH]; intros node vis acc Hs Hn Hf.
  - destruct Hf as [Hf|Hf]; [|lia]. exists [], vis. cbn [dfsVisit]. rewrite app_nil_r. split; [reflexivity|].
    split; rewrite ?app_nil_r; try assumption.
    + apply Hs. exact Hf.
    + left. reflexivity.
    + intros w [].
    + intros w [].
    + intros p b q E. destruct p; discriminate.
  - cbn [dfsVisit]. destruct (mem node vis) eqn:Em.
    + apply mem_In in Em. exists [], vis. rewrite app_nil_r. split; [reflexivity|].
      split; rewrite ?app_nil_r; try assumption.
      * apply Hs. exact Em.
      * left. reflexivity.
      * intros w [].
      * intros w [].
      * intros p b q E. destruct p; discriminate.
    + apply mem_false in Em. destruct Hf as [Hf|Hf]; [contradiction|].
      assert (F : forall l vis1 m,
        (forall e, In e l -> linked es node (dst e)) ->
        (forall b, In b vis1 <-> In b (acc ++ node :: m)) -> NoDup (acc ++ node :: m) ->
        fresh vis1 (destinations a) <= f ->
        (forall w, In w m -> exhausted es (acc ++ node :: m) w) ->
        (forall w, In w m -> exists k, walk es node k w) ->
        dfOrder es acc (node :: m) ->
        exists m' vis', fold_left (fun s e => dfsVisit f a (dst e) s) l (vis1, acc ++ node :: m) = (vis', acc ++ node :: m ++ m') /\
          (forall b, In b vis' <-> In b (acc ++ node :: m ++ m')) /\ NoDup (acc ++ node :: m ++ m') /\
          (forall e, In e l -> In (dst e) (acc ++ node :: m ++ m')) /\
          (forall w, In w (m ++ m') -> exhausted es (acc ++ node :: m ++ m') w) /\
          (forall w, In w (m ++ m') -> exists k, walk es node k w) /\
          dfOrder es acc (node :: m ++ m')).
      { induction l as [|e l IHl]; intros vis1 m Hl H1 H2 H3 H4 H5 H6.
        - exists [], vis1. rewrite app_nil_r. cbn [fold_left]. split; [reflexivity|]. split; [exact H1|].
          split; [exact H2|]. split; [intros e []|]. split; [exact H4|]. split; [exact H5|exact H6].
        - cbn [fold_left].
          destruct (IH (dst e) vis1 (acc ++ node :: m) H1 H2) as (new & vis2 & E & [D1 D2 D3 D4 D5 D6 D7]).
          { destruct (in_dec Nat.eq_dec (dst e) vis1) as [Hi|Hi]; [left; exact Hi|right].
            assert (Hd : In (dst e) (destinations a)).
            { apply (destinations_In es a _ Ha). exists node. apply Hl. left. reflexivity. }
            pose proof (fresh_cons_lt vis1 (dst e) _ Hd Hi). lia. }
          rewrite E.
          assert (R : (acc ++ node :: m) ++ new = acc ++ node :: m ++ new) by (rewrite <- app_assoc; reflexivity).
          rewrite R in *.
          destruct (IHl vis2 (m ++ new)) as (m' & vis' & G1 & G2 & G3 & G4 & G5 & G6 & G7).
          + intros x Hx. apply Hl. right. exact Hx.
          + exact D1.
          + exact D2.
          + apply (Nat.le_trans _ (fresh vis1 (destinations a))); [|exact H3]. apply fresh_mono.
            intros x Hx. apply D1. rewrite <- R. apply in_app_iff. left. apply H1. exact Hx.
          + intros w Hw. apply in_app_iff in Hw as [Hw|Hw]; [rewrite <- R; apply exhausted_app; apply H4; exact Hw|].
            apply D5. exact Hw.
          + intros w Hw. apply in_app_iff in Hw as [Hw|Hw]; [apply H5; exact Hw|].
            destruct (D6 w Hw) as [k Hk]. exists (S k). eapply walk_cons; [apply Hl; left; reflexivity|exact Hk].
          + apply (dfOrder_app es acc node m (dst e) new); try assumption. apply Hl. left. reflexivity.
          + exists (new ++ m'), vis'. rewrite app_assoc. split; [exact G1|]. split; [exact G2|]. split; [exact G3|].
            split; [|split; [exact G5|split; [exact G6|exact G7]]].
            intros x [<-|Hx]; [|apply G4; exact Hx].
            assert (R2 : acc ++ node :: (m ++ new) ++ m' = (acc ++ node :: m ++ new) ++ m').
            { rewrite <- !app_assoc. cbn [app]. rewrite <- ?app_assoc. reflexivity. }
            rewrite R2. apply in_app_iff. left. exact D3. }
      destruct (F (outOf a node) (node :: vis) []) as (m' & vis' & G1 & G2 & G3 & G4 & G5 & G6 & G7).
      { intros e He. apply (outOf_linked es a node _ Ha). exists e. auto. }
      { intros b. rewrite in_app_iff. cbn. rewrite Hs. tauto. }
      { apply (Permutation_NoDup (l := node :: acc)); [apply Permutation_cons_append|]. constructor; [rewrite <- Hs; exact Em|exact Hn]. }
      { lia. }
      { intros w []. }
      { intros w []. }
      { intros p b q E Hp. destruct p as [|x p]; [contradiction|]. cbn in E. inversion E. destruct p; discriminate. }
      cbn [app] in *. exists (node :: m'), vis'. split; [exact G1|].
      split; try assumption.
      * apply in_app_iff. right. left. reflexivity.
      * right. exists m'. reflexivity.
      * intros w [<-|Hw]; [|apply G5; exact Hw].
        intros c Hc. apply (outOf_linked es a node c Ha) in Hc as (e & He & <-). apply G4. exact He.
      * intros w [<-|Hw]; [exists 0; constructor|apply G6; exact Hw].
Qed.

Record dfsGood (es : list Edge) (l : list nat) : Prop := {
  dg_nodup : NoDup l;
  dg_all : forall b, In b l <-> reached es b;
  dg_order : depthFirst es l }.

Theorem dfsBlocks_good es a name : adjOk es a -> dfsGood es (dfsBlocks name a).
Proof.
  intros Ha. unfold dfsBlocks.
  assert (F : forall l vis acc,
    (forall b, In b l -> isSource es b) ->
    (forall b, In b vis <-> In b acc) -> NoDup acc ->
    (forall w, In w acc -> exhausted es acc w) -> (forall w, In w acc -> reached es w) -> depthFirst es acc ->
    exists vis' acc', fold_left (fun s b => dfsVisit (S (length (destinations a))) a b s) l (vis, acc) = (vis', acc') /\
      NoDup acc' /\ (forall b, In b l \/ In b acc -> In b acc') /\
      (forall w, In w acc' -> exhausted es acc' w) /\ (forall w, In w acc' -> reached es w) /\ depthFirst es acc').
  { induction l as [|s l IHl]; intros vis acc H0 H1 H2 H3 H4 H5.
    - exists vis, acc. cbn [fold_left]. split; [reflexivity|]. split; [exact H2|]. split; [intros b [[]|Hb]; exact Hb|].
      split; [exact H3|]. split; [exact H4|exact H5].
    - cbn [fold_left].
      destruct (dfsVisit_spec es a Ha (S (length (destinations a))) s vis acc H1 H2) as (new & vis2 & E & [D1 D2 D3 D4 D5 D6 D7]).
      { right. pose proof (fresh_le (s :: vis) (destinations a)). lia. }
      rewrite E.
      destruct (IHl vis2 (acc ++ new)) as (vis' & acc' & G1 & G2 & G3 & G4 & G5 & G6).
      + intros b Hb. apply H0. right. exact Hb.
      + exact D1.
      + exact D2.
      + intros w Hw. apply in_app_iff in Hw as [Hw|Hw]; [apply exhausted_app; apply H3; exact Hw|apply D5; exact Hw].
      + intros w Hw. apply in_app_iff in Hw as [Hw|Hw]; [apply H4; exact Hw|].
        destruct (D6 w Hw) as [k Hk]. exists k, s, k. split; [apply H0; left; reflexivity|]. split; [lia|exact Hk].
      + intros p b q Ep. destruct (split_app _ _ _ _ _ Ep) as [(q' & E')|(p' & -> & E')]; [apply (H5 p b q' E')|].
        destruct p' as [|x p'].
        * left. rewrite app_nil_r. cbn in E'. destruct D4 as [->|(t & ->)]; [discriminate|]. inversion E'; subst.
          split; [apply H0; left; reflexivity|exact H3].
        * right. destruct (D7 (x :: p') b q E') as (p1 & z & p2 & E2 & Hl & Hw); [discriminate|].
          exists (acc ++ p1), z, p2. split; [rewrite E2, <- app_assoc; reflexivity|]. split; [exact Hl|exact Hw].
      + exists vis', acc'. split; [exact G1|]. split; [exact G2|].
        split; [|split; [exact G4|split; [exact G5|exact G6]]].
        intros b [[<-|Hb]|Hb]; apply G3; [right; exact D3|left; exact Hb|right; apply in_app_iff; left; exact Hb]. }
  destruct (F (findSourceBlocks name a) [] []) as (vis' & acc' & G1 & G2 & G3 & G4 & G5 & G6).
  { intros b Hb. apply (sources_In es a name b Ha). exact Hb. }
  { intros b; reflexivity. }
  { constructor. }
  { intros w []. }
  { intros w []. }
  { intros p b q E. destruct p; discriminate. }
  rewrite G1. cbn [snd]. split; [exact G2| |exact G6].
  intros b. split; [apply G5|].
  intros (n & s & k & Hs & _ & Hw).
  induction Hw as [|k b c Hw IH Hl].
  - apply G3. left. apply (sources_In es a name s Ha). exact Hs.
  - apply (G4 b IH c Hl).
Qed.

Lemma depthFirst_fed es l : depthFirst es l -> fedFirst es l.
Proof.
  intros H i b Hb. apply nth_error_split in Hb as (p & q & E & Hlen).
  destruct (H p b q E) as [[Hs _]|(p1 & z & p2 & Ep & Hl & _)]; [left; exact Hs|].
  right. exists (length p1), z. split; [rewrite <- Hlen, Ep, app_length; cbn; lia|]. split; [|exact Hl].
  rewrite E, Ep, <- app_assoc. rewrite nth_error_app2 by lia. rewrite Nat.sub_diag. reflexivity.
Qed.

(** ** Batching *)

Lemma everyNth_nth : forall fuel i step bs k, 0 < step -> length bs <= i + fuel * step ->
  nth_error (everyNth fuel i step bs) k = nth_error bs (i + k * step).
Proof.
  induction fuel as [|f IH]; intros i step bs k Hs Hf; cbn [everyNth].
  - destruct k; symmetry; apply nth_error_None; lia.
  - destruct (nth_error bs i) as [b|] eqn:E.
    + destruct k as [|k]; cbn [nth_error].
      * rewrite Nat.mul_0_l, Nat.add_0_r. symmetry. exact E.
      * rewrite IH by lia. f_equal. lia.
    + apply nth_error_None in E. destruct k; symmetry; apply nth_error_None; lia.
Qed.

Lemma nth_error_seq_map {A} (f : nat -> A) n i : nth_error (map f (seq 0 n)) i = if i <? n then Some (f i) else None.
Proof.
  destruct (Nat.ltb_spec i n) as [L|L].
  - rewrite nth_error_map. rewrite (nth_error_nth' (seq 0 n) 0) by (rewrite seq_length; exact L).
    rewrite seq_nth by exact L. reflexivity.
  - apply nth_error_None. rewrite map_length, seq_length. exact L.
Qed.

Lemma batch_roundRobin bs n : 0 < n -> roundRobin bs n (batchBlocks bs n).
Proof.
  intros Hn. unfold roundRobin, batchBlocks. split; [rewrite map_length, seq_length; reflexivity|].
  intros i. rewrite nth_error_seq_map.
  destruct (Nat.ltb_spec (i mod n) n) as [L|L]; [|pose proof (Nat.mod_upper_bound i n); lia].
  rewrite everyNth_nth; [|exact Hn|nia]. f_equal.
  pose proof (Nat.div_mod i n). lia.
Qed.

Lemma nth_error_jobs bs n k m : 0 < n -> 
  match nth_error (batchBlocks bs n) k with Some j => nth_error j m | None => None end = if k <? n then nth_error bs (k + m * n) else None.
Proof.
  intros Hn. unfold batchBlocks. rewrite nth_error_seq_map. destruct (k <? n) eqn:E; [|reflexivity].
  rewrite everyNth_nth; [reflexivity|exact Hn|nia].
Qed.
