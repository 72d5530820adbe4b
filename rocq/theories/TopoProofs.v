(** Adjacency lists, breadth-first and depth-first block lists, batching. *)
From Coq Require Import Ascii String ZArith NArith Bool Arith Permutation Lia List.
From Verif Require Import Base TopoModel TopoSpec.
Import ListNotations.
Local Open Scope nat_scope.

Lemma portEq_eq a b : portEq a b = true <-> a = b.
Proof.
  destruct a as [t s|n], b as [t' s'|n']; cbn; try (split; [discriminate|congruence]).
  - rewrite andb_true_iff, N.eqb_eq. split.
    + intros [-> H]. f_equal. destruct s as [x|], s' as [y|]; cbn in H; try discriminate; auto.
      apply N.eqb_eq in H. congruence.
    + intros H; inversion H; subst. split; [reflexivity|]. destruct s' as [y|]; cbn; [apply N.eqb_refl|reflexivity].
  - rewrite String.eqb_eq. split; congruence.
Qed.

Lemma mem_In b l : mem b l = true <-> In b l.
Proof.
  unfold mem. rewrite existsb_exists. split.
  - intros (x & Hx & E). apply Nat.eqb_eq in E. subst. exact Hx.
  - intros H. exists b. split; [exact H|apply Nat.eqb_refl].
Qed.

Lemma mem_false b l : mem b l = false <-> ~ In b l.
Proof. rewrite <- mem_In. destruct (mem b l); split; intros; try congruence; intuition discriminate. Qed.

(** ** Adjacency lists *)

Definition inPm (m : PortMap) (e : Edge) : Prop := In e (flat_map snd m).
Definition inAdj (a : AdjList) (b : nat) (e : Edge) : Prop := exists m, In (b, m) a /\ inPm m e.

Lemma inPm_push p e m x : inPm (portPush p e m) x <-> inPm m x \/ x = e.
Proof.
  unfold inPm. induction m as [|[q es] r IH]; cbn [portPush flat_map snd app].
  - cbn. intuition.
  - destruct (portEq q p); cbn [flat_map snd]; rewrite !in_app_iff; [cbn|rewrite IH]; intuition.
Qed.

Lemma keys_push e a : map fst (adjPush e a) = if mem (src e) (map fst a) then map fst a else map fst a ++ [src e].
Proof.
  induction a as [|[b m] r IH]; cbn [adjPush map fst mem existsb app]; [reflexivity|].
  rewrite (Nat.eqb_sym (src e) b). destruct (Nat.eqb b (src e)) eqn:E; cbn [map fst orb]; [reflexivity|].
  rewrite IH. unfold mem. destruct (existsb _ _); reflexivity.
Qed.

Lemma inAdj_push e a b x : inAdj (adjPush e a) b x <-> inAdj a b x \/ (x = e /\ b = src e).
Proof.
  unfold inAdj. induction a as [|[c m] r IH].
  - cbn. split.
    + intros (m & [H|[]] & Hx). inversion H; subst. unfold inPm in Hx. cbn in Hx. intuition.
    + intros [(m & [] & _)|[-> ->]]. exists [(srcPort e, [e])]. split; [left; reflexivity|]. cbn. auto.
  - cbn [adjPush]. destruct (Nat.eqb c (src e)) eqn:E.
    + apply Nat.eqb_eq in E. subst c. split.
      * intros (m' & [H|H] & Hx).
        -- inversion H; subst. apply inPm_push in Hx as [Hx| -> ]; [left; exists m; split; [left; reflexivity|exact Hx]|right; auto].
        -- left. exists m'. split; [right; exact H|exact Hx].
      * intros [(m' & [H|H] & Hx)|[-> ->]].
        -- inversion H; subst. exists (portPush (srcPort e) e m'). split; [left; reflexivity|]. apply inPm_push. auto.
        -- exists m'. split; [right; exact H|exact Hx].
        -- exists (portPush (srcPort e) e m). split; [left; reflexivity|]. apply inPm_push. auto.
    + split.
      * intros (m' & [H|H] & Hx).
        -- left. exists m'. split; [left; exact H|exact Hx].
        -- assert (Hr : exists m0, In (b, m0) (adjPush e r) /\ inPm m0 x) by (exists m'; auto).
           apply IH in Hr as [(m0 & H0 & H1)|H0]; [left; exists m0; split; [right; exact H0|exact H1]|right; exact H0].
      * intros [(m' & [H|H] & Hx)|H].
        -- exists m'. split; [left; exact H|exact Hx].
        -- assert (Hr : exists m0, In (b, m0) (adjPush e r) /\ inPm m0 x) by (apply IH; left; exists m'; auto).
           destruct Hr as (m0 & H0 & H1). exists m0. split; [right; exact H0|exact H1].
        -- assert (Hr : exists m0, In (b, m0) (adjPush e r) /\ inPm m0 x) by (apply IH; right; exact H).
           destruct Hr as (m0 & H0 & H1). exists m0. split; [right; exact H0|exact H1].
Qed.

(** What the traversals use of an adjacency list. *)
Record adjOk (es : list Edge) (a : AdjList) : Prop := {
  ok_keys : NoDup (map fst a);
  ok_key : forall b, In b (map fst a) <-> exists e, In e es /\ src e = b;
  ok_in : forall b e, inAdj a b e <-> In e es /\ src e = b }.

Lemma adjOk_compute es : adjOk es (computeAdjacencyList es).
Proof.
  unfold computeAdjacencyList.
  assert (H : forall l a pre, adjOk pre a -> adjOk (pre ++ l) (fold_left (fun a e => adjPush e a) l a)).
  { induction l as [|e l IH]; intros a pre H; cbn [fold_left]; [rewrite app_nil_r; exact H|].
    replace (pre ++ e :: l) with ((pre ++ [e]) ++ l) by (rewrite <- app_assoc; reflexivity).
    apply IH. destruct H as [Hk Hkey Hin]. split.
    - rewrite keys_push. destruct (mem (src e) (map fst a)) eqn:E; [exact Hk|].
      apply mem_false in E. apply (Permutation_NoDup (l := src e :: map fst a)); [apply Permutation_cons_append|].
      constructor; assumption.
    - intros b. rewrite keys_push. destruct (mem (src e) (map fst a)) eqn:E.
      + apply mem_In in E. rewrite Hkey. split.
        * intros (x & Hx & Hs). exists x. rewrite in_app_iff. auto.
        * intros (x & Hx & Hs). apply in_app_iff in Hx as [Hx|[<-|[]]]; [exists x; auto|].
          subst b. apply Hkey. exact E.
      + rewrite in_app_iff, Hkey. split.
        * intros [(x & Hx & Hs)|[<-|[]]]; [exists x; rewrite in_app_iff; auto|exists e; rewrite in_app_iff; cbn; auto].
        * intros (x & Hx & Hs). apply in_app_iff in Hx as [Hx|[<-|[]]]; [left; exists x; auto|right; cbn; auto].
    - intros b x. rewrite inAdj_push, Hin, in_app_iff. cbn. split.
      + intros [[H1 H2]|[-> ->]]; auto.
      + intros [[H|[<-|[]]] H2]; auto. }
  apply (H es [] []). split; cbn.
  - constructor.
  - intros b; split; [intros []|intros (e & [] & _)].
  - intros b e. split; [intros (m & [] & _)|intros [[] _]].
Qed.

Lemma Forall2_keys (a a1 : AdjList) :
  Forall2 (fun x y => fst x = fst y /\ Permutation (snd x) (snd y)) a a1 -> map fst a = map fst a1.
Proof. induction 1 as [|x y l l' [H _] _ IH]; [reflexivity|]. cbn [map]. f_equal; assumption. Qed.

Lemma inPm_perm m m' e : Permutation m m' -> inPm m e -> inPm m' e.
Proof.
  unfold inPm. intros H. rewrite !in_flat_map. intros (x & Hx & He). exists x. split; [|exact He].
  eapply Permutation_in; eassumption.
Qed.

Lemma Forall2_inAdj (a a1 : AdjList) b e :
  Forall2 (fun x y => fst x = fst y /\ Permutation (snd x) (snd y)) a a1 -> (inAdj a b e <-> inAdj a1 b e).
Proof.
  unfold inAdj. induction 1 as [|[b1 m1] [b2 m2] l l' [H HP] _ IH]; [reflexivity|].
  cbn [fst snd] in H, HP. subst b2. split.
  - intros (m & [E|Hi] & Hm).
    + inversion E; subst. exists m2. split; [left; reflexivity|eapply inPm_perm; eassumption].
    + assert (X : exists m0, In (b, m0) l' /\ inPm m0 e) by (apply IH; exists m; auto).
      destruct X as (m0 & X1 & X2). exists m0. split; [right; exact X1|exact X2].
  - intros (m & [E|Hi] & Hm).
    + inversion E; subst. exists m1. split; [left; reflexivity|eapply inPm_perm; [symmetry; eassumption|eassumption]].
    + assert (X : exists m0, In (b, m0) l /\ inPm m0 e) by (apply IH; exists m; auto).
      destruct X as (m0 & X1 & X2). exists m0. split; [right; exact X1|exact X2].
Qed.

Lemma adjOk_same es a a' : sameMap a a' -> adjOk es a -> adjOk es a'.
Proof.
  intros (a1 & H2 & HP) [Hk Hkey Hin].
  assert (HK : Permutation (map fst a) (map fst a')).
  { rewrite (Forall2_keys _ _ H2). apply Permutation_map. exact HP. }
  split.
  - eapply Permutation_NoDup; eassumption.
  - intros b. rewrite <- Hkey. split; apply Permutation_in; [symmetry|]; exact HK.
  - intros b e. rewrite <- Hin, (Forall2_inAdj _ _ b e H2). unfold inAdj.
    split; intros (m & Hm & He); exists m; (split; [|exact He]); eapply Permutation_in; try eassumption; symmetry; exact HP.
Qed.

Lemma find_key (a : AdjList) b m : NoDup (map fst a) -> In (b, m) a -> find (fun x => Nat.eqb (fst x) b) a = Some (b, m).
Proof.
  induction a as [|[c n] r IH]; intros Hn Hi; [destruct Hi|].
  cbn [find fst]. cbn in Hn. inversion Hn as [|? ? Hc Hr]; subst. destruct Hi as [E|Hi].
  - inversion E; subst. rewrite Nat.eqb_refl. reflexivity.
  - destruct (Nat.eqb c b) eqn:E.
    + apply Nat.eqb_eq in E. subst c. elim Hc. apply (in_map fst) in Hi. exact Hi.
    + apply IH; assumption.
Qed.

Lemma outOf_In es a b e : adjOk es a -> (In e (outOf a b) <-> In e es /\ src e = b).
Proof.
  intros H. rewrite <- (ok_in es a H). unfold outOf, inAdj. split.
  - destruct (find _ a) as [[c m]|] eqn:E; [|intros []].
    apply find_some in E as [Hi Hb]. cbn in Hb. apply Nat.eqb_eq in Hb. subst c. intros He. exists m. auto.
  - intros (m & Hm & He). rewrite (find_key a b m (ok_keys es a H) Hm). exact He.
Qed.

Lemma outOf_linked es a b c : adjOk es a -> (linked es b c <-> exists e, In e (outOf a b) /\ dst e = c).
Proof.
  intros H. unfold linked. split.
  - intros (e & He & Hs & Hd). exists e. split; [apply (outOf_In es a b e H); auto|exact Hd].
  - intros (e & He & Hd). apply (outOf_In es a b e H) in He as [He Hs]. exists e. auto.
Qed.

Lemma destinations_In es a d : adjOk es a -> (In d (destinations a) <-> exists c, linked es c d).
Proof.
  intros H. unfold destinations. rewrite in_map_iff. split.
  - intros (e & Hd & Hi). apply in_flat_map in Hi as ([b m] & Hb & He). cbn [snd] in He.
    assert (X : inAdj a b e) by (exists m; auto). apply (ok_in es a H) in X as [X1 X2]. exists b, e. auto.
  - intros (c & e & He & Hs & Hd). exists e. split; [exact Hd|].
    assert (X : inAdj a c e) by (apply (ok_in es a H); auto). destruct X as (m & Hm & Hx).
    apply in_flat_map. exists (c, m). auto.
Qed.

(** ** Sources *)

Lemma insert_perm name b l : Permutation (b :: l) (insertByName name b l).
Proof.
  induction l as [|c r IH]; cbn; [reflexivity|]. destruct (String.ltb (name c) (name b)); [|reflexivity].
  rewrite perm_swap. constructor. exact IH.
Qed.

Lemma sort_perm name l : Permutation l (sortByName name l).
Proof.
  induction l as [|b r IH]; cbn; [constructor|]. rewrite <- insert_perm. constructor. exact IH.
Qed.

Lemma sources_In es a name b : adjOk es a -> (In b (findSourceBlocks name a) <-> isSource es b).
Proof.
  intros H. unfold findSourceBlocks, isSource.
  assert (P : In b (sortByName name (filter (fun b => negb (mem b (destinations a))) (map fst a))) <->
              In b (filter (fun b => negb (mem b (destinations a))) (map fst a))).
  { split; apply Permutation_in; [symmetry|]; apply sort_perm. }
  rewrite P, filter_In, negb_true_iff, mem_false, (ok_key es a H), (destinations_In es a b H). split.
  - intros [(e & He & Hs) Hn]. split; [exists (dst e), e; auto|]. intros c Hc. apply Hn. exists c. exact Hc.
  - intros [(c & e & He & Hs & Hd) Hn]. split; [exists e; auto|]. intros [d Hd']. apply (Hn d Hd').
Qed.

Lemma sources_NoDup es a name : adjOk es a -> NoDup (findSourceBlocks name a).
Proof.
  intros H. unfold findSourceBlocks. eapply Permutation_NoDup; [apply sort_perm|].
  apply NoDup_filter. apply (ok_keys es a H).
Qed.

(** ** Counting unvisited destinations (fuel) *)

Definition fresh (seen ds : list nat) : nat := length (filter (fun d => negb (mem d seen)) ds).

Lemma mem_cons b x l : mem b (x :: l) = Nat.eqb b x || mem b l.
Proof. reflexivity. Qed.

Lemma fresh_cons_le seen x ds : fresh (x :: seen) ds <= fresh seen ds.
Proof.
  unfold fresh. induction ds as [|d r IH]; cbn [filter length]; [lia|]. rewrite mem_cons.
  destruct (Nat.eqb d x), (mem d seen); cbn [negb orb length]; lia.
Qed.

Lemma fresh_cons_lt seen x ds : In x ds -> ~ In x seen -> fresh (x :: seen) ds < fresh seen ds.
Proof.
  unfold fresh. induction ds as [|d r IH]; intros Hi Hn; [destruct Hi|]. cbn [filter length]. rewrite mem_cons.
  destruct (Nat.eq_dec d x) as [->|Hd].
  - rewrite Nat.eqb_refl. cbn [orb negb]. apply mem_false in Hn. rewrite Hn. cbn [negb length].
    pose proof (fresh_cons_le seen x r) as L. unfold fresh in L. lia.
  - destruct Hi as [Hi|Hi]; [congruence|]. specialize (IH Hi Hn).
    apply Nat.eqb_neq in Hd. rewrite Hd. cbn [orb]. destruct (mem d seen); cbn [negb length]; lia.
Qed.

Lemma fresh_le seen ds : fresh seen ds <= length ds.
Proof. unfold fresh. induction ds as [|d r IH]; cbn; [lia|]. destruct (negb _); cbn; lia. Qed.

Lemma fresh_mono seen seen' ds : incl seen seen' -> fresh seen' ds <= fresh seen ds.
Proof.
  intros H. unfold fresh. induction ds as [|d r IH]; cbn; [lia|].
  destruct (mem d seen) eqn:E; cbn.
  - apply mem_In, H, mem_In in E. rewrite E. cbn. exact IH.
  - destruct (mem d seen'); cbn; lia.
Qed.
