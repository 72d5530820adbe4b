(** Invariant of the chunk pool. *)
From Coq Require Import List NArith Lia Bool Permutation.
From Verif Require Import WireModel WireProofs ChunkModel ChunkSpec.
Import ListNotations.
Local Open Scope N_scope.

(** *** memory *)
Lemma len_enc k x : len (enc k x) = N.of_nat k.
Proof. revert x. unfold len. induction k; intros x; cbn [enc length]; [reflexivity|]. specialize (IHk (x / 256)). lia. Qed.
Lemma wr_in m a l x : a <= x < a + len l -> wr m a l x = nth (N.to_nat (x - a)) l 0.
Proof. intros H. unfold wr. rewrite (proj2 (N.leb_le _ _)), (proj2 (N.ltb_lt _ _)) by lia. reflexivity. Qed.
Lemma wr_out m a l x : x < a \/ a + len l <= x -> wr m a l x = m x.
Proof. intros H. unfold wr. destruct (a <=? x) eqn:E1; [|reflexivity]. destruct (x <? a + len l) eqn:E2; [|reflexivity]. apply N.leb_le in E1. apply N.ltb_lt in E2. lia. Qed.
Lemma rd_ext m m' k : forall a, (forall x, a <= x < a + N.of_nat k -> m' x = m x) -> rd m' a k = rd m a k.
Proof. induction k; intros a H; [reflexivity|]. cbn [rd]. rewrite H by lia. f_equal. apply IHk. intros x Hx. apply H. lia. Qed.
Lemma rd_wr m l : forall a, rd (wr m a l) a (length l) = l.
Proof.
  assert (G : forall l pre a, rd (wr m a (pre ++ l)) (a + len pre) (length l) = l).
  { clear l. induction l as [|x l IH]; intros pre a; [reflexivity|]. cbn [length rd]. f_equal.
    - rewrite wr_in by (unfold len; rewrite app_length; cbn [length]; lia). replace (N.to_nat (a + len pre - a)) with (length pre) by (unfold len; lia). rewrite app_nth2, PeanoNat.Nat.sub_diag by lia. reflexivity.
    - specialize (IH (pre ++ [x]) a). rewrite <- app_assoc in IH. cbn [app] in IH. replace (a + len (pre ++ [x])) with (a + len pre + 1) in IH by (unfold len; rewrite app_length; cbn [length]; lia). exact IH. }
  intros a. specialize (G l [] a). cbn [app] in G. change (len (@nil N)) with 0 in G. rewrite N.add_0_r in G. exact G.
Qed.
Lemma rd_app m k1 k2 : forall a, rd m a (k1 + k2) = rd m a k1 ++ rd m (a + N.of_nat k1) k2.
Proof. induction k1; intros a; cbn [PeanoNat.Nat.add rd app]; [rewrite N.add_0_r; reflexivity|]. rewrite IHk1. do 3 f_equal. lia. Qed.
Lemma rd_len m k : forall a, length (rd m a k) = k. Proof. induction k; intros a; cbn [rd length]; [reflexivity|]. rewrite IHk. reflexivity. Qed.
Lemma nextOf_set m a v : v < 2 ^ 64 -> nextOf (setNext m a v) a = v.
Proof.
  intros H. unfold nextOf, setNext. assert (L : length (enc 8 v) = 8%nat) by reflexivity. rewrite <- L. rewrite rd_wr, dec_enc. apply N.mod_small. exact H.
Qed.
Lemma nextOf_ext m m' a : (forall x, a <= x < a + 8 -> m' x = m x) -> nextOf m' a = nextOf m a.
Proof. intros H. unfold nextOf. rewrite (rd_ext m m'); [reflexivity|]. intros x Hx. apply H. lia. Qed.

(** *** blocks *)
Lemma disjoint_sym x y : disjoint x y -> disjoint y x. Proof. unfold disjoint. tauto. Qed.
Definition pairwise (l : list block) : Prop := ForallOrdPairs disjoint l.
Lemma pairwise_cons x l : pairwise (x :: l) <-> Forall (disjoint x) l /\ pairwise l.
Proof. split; [intros H; inversion H; auto|intros [H1 H2]; constructor; auto]. Qed.
Lemma pairwise_perm l l' : Permutation l l' -> pairwise l -> pairwise l'.
Proof.
  induction 1; rewrite ?pairwise_cons; try tauto.
  - intros [H1 H2]. split; [|auto]. rewrite <- H. exact H1.
  - intros [H1 [H2 H3]]. inversion H1; subst. split; [constructor; [apply disjoint_sym; assumption|assumption]|]. split; assumption.
Qed.
Lemma drop_perm x l : In x l -> Permutation l (x :: drop x l).
Proof.
  induction l as [|y l IH]; intros H; [destruct H|]. cbn [drop]. destruct (block_dec x y) as [ -> |N]; [reflexivity|].
  destruct H as [H|H]; [congruence|]. rewrite (IH H) at 1. apply perm_swap.
Qed.
Lemma drop_perm2 x l l' : Permutation l (x :: l') -> Permutation (drop x l) l'.
Proof. intros H. apply Permutation_cons_inv with x. rewrite <- H. symmetry. apply drop_perm. rewrite H. left. reflexivity. Qed.
Lemma drop_head x l : drop x (x :: l) = l. Proof. cbn. destruct (block_dec x x); congruence. Qed.

Lemma len_perm {A} (l l' : list A) : Permutation l l' -> len l = len l'.
Proof. intros H. unfold len. rewrite (Permutation_length H). reflexivity. Qed.
Lemma len_cons {A} (x : A) l : len (x :: l) = 1 + len l. Proof. unfold len. cbn [length]. lia. Qed.
Lemma len_app' {A} (l l' : list A) : len (l ++ l') = len l + len l'. Proof. unfold len. rewrite app_length. lia. Qed.
Lemma len_map {A B} (f : A -> B) l : len (map f l) = len l. Proof. unfold len. rewrite map_length. reflexivity. Qed.

(** *** the free list *)
Fixpoint chain (m : memory) (h : N) (l : list N) : Prop :=
  match l with [] => h = 0 | a :: r => h = a /\ a <> 0 /\ chain m (nextOf m a) r end.
Lemma chain_ext m m' l : forall h, (forall a x, In a l -> a <= x < a + 8 -> m' x = m x) -> chain m h l -> chain m' h l.
Proof.
  induction l as [|a l IH]; intros h H C; [exact C|]. destruct C as (E & N0 & C). cbn [chain]. split; [exact E|]. split; [exact N0|].
  rewrite (nextOf_ext m m') by (intros x Hx; apply (H a x); [left; reflexivity|exact Hx]). apply IH; [|exact C]. intros a' x Ha Hx. apply (H a' x); [right; exact Ha|exact Hx].
Qed.

Definition std (p : pool) (a : N) : block := (a, chunkBytes p).
Record PInv (p : pool) (m : memory) (ow he : list block) (fr : list N) : Prop := {
  pi_cb : 8 <= chunkBytes p;
  pi_max : maxChunks p < 2 ^ 64;
  pi_chain : chain m (freeHead p) fr;
  pi_count : freeCount p = len fr;
  pi_resident : resident p = len ow;
  pi_le : len ow <= maxChunks p;
  pi_perm : Permutation ow (he ++ map (std p) fr);
  pi_pair : pairwise ow;
  pi_pos : Forall (fun x => 0 < fst x /\ 0 < snd x /\ fst x + snd x <= 2 ^ 64) ow }.

Section Facts.
Variables (p : pool) (m : memory) (ow he : list block) (fr : list N).
Hypothesis I : PInv p m ow he fr.

Lemma pi_len : len ow = len he + len fr.
Proof. rewrite (len_perm _ _ (pi_perm _ _ _ _ _ I)), len_app', len_map. reflexivity. Qed.
Lemma pi_pair' : pairwise (he ++ map (std p) fr).
Proof. eapply pairwise_perm; [apply (pi_perm _ _ _ _ _ I)|apply (pi_pair _ _ _ _ _ I)]. Qed.
Lemma pi_pos' x : In x (he ++ map (std p) fr) -> 0 < fst x /\ 0 < snd x /\ fst x + snd x <= 2 ^ 64.
Proof. intros H. apply (proj1 (Forall_forall _ _) (pi_pos _ _ _ _ _ I)). rewrite (pi_perm _ _ _ _ _ I). exact H. Qed.
Lemma pi_held_free x a : In x he -> In a fr -> disjoint x (std p a).
Proof.
  intros Hx Ha. pose proof pi_pair' as P. clear I. induction he as [|y h IH]; [destruct Hx|]. cbn [app] in P. apply pairwise_cons in P. destruct P as [P1 P2].
  destruct Hx as [ -> |Hx]; [|auto]. rewrite Forall_forall in P1. apply P1. rewrite in_app_iff. right. apply in_map. exact Ha.
Qed.
(** Memory may change in held blocks only. *)
Lemma pi_mem m' : (forall a x, In a fr -> a <= x < a + 8 -> m' x = m x) -> PInv p m' ow he fr.
Proof. intros H. destruct I. constructor; try assumption. eapply chain_ext; eauto. Qed.
Lemma pi_held_write a l c : In c he -> inside a (len l) c -> PInv p (wr m a l) ow he fr.
Proof.
  intros Hc [H1 H2]. apply pi_mem. intros f x Hf Hx. apply wr_out. pose proof (pi_held_free c f Hc Hf) as D. unfold disjoint, std in D. cbn [fst snd] in D. pose proof (pi_cb _ _ _ _ _ I). lia.
Qed.
Lemma pi_held_perm he' : Permutation he he' -> PInv p m ow he' fr.
Proof. intros H. destruct I. constructor; try assumption. rewrite <- H. assumption. Qed.

Lemma do_acquire up p' c l : acquire p m up = (p', c, l) -> goodAnswer up (chunkBytes p) ow ->
  (c = (0, 0) /\ p' = p /\ l = [] /\ fr = [] /\ maxChunks p = resident p) \/
  (exists fr', snd c = chunkBytes p /\ chunkBytes p' = chunkBytes p /\ maxChunks p' = maxChunks p /\
    PInv p' m (upstream ow l) (c :: he) fr' /\ incl fr' fr /\
    ((fr = fst c :: fr' /\ l = []) \/ (fr = [] /\ fr' = [] /\ fst c = up /\ l = [UpAlloc up (chunkBytes p)]))).
Proof.
  intros E G. unfold acquire in E. destruct (freeHead p =? 0) eqn:E0; cbn [negb] in E.
  - apply N.eqb_eq in E0. assert (F : fr = []). { destruct fr as [|a r]; [reflexivity|]. exfalso. pose proof (pi_chain _ _ _ _ _ I) as C. cbn [chain] in C. destruct C as (C1 & C2 & _). congruence. }
    destruct (maxChunks p <=? resident p) eqn:E1; injection E as <- <- <-.
    + apply N.leb_le in E1. left. pose proof (pi_le _ _ _ _ _ I). pose proof (pi_resident _ _ _ _ _ I). repeat split; auto. lia.
    + apply N.leb_gt in E1. right. exists []. split; [reflexivity|]. split; [reflexivity|]. split; [reflexivity|]. split; [|split; [intros x []|right; auto]].
      destruct G as (G1 & G2 & G3). destruct I. rewrite F in *. constructor; cbn [setFree chunkBytes maxChunks freeHead freeCount resident upstream]; try assumption.
      * rewrite pi_resident0 in *. unfold uinc. unfold len in *. cbn [length]. rewrite N.mod_small by lia. lia.
      * unfold len in *. cbn [length]. lia.
      * cbn [app]. constructor. exact pi_perm0.
      * apply pairwise_cons. auto.
      * constructor; [|exact pi_pos0]. cbn [fst snd]. lia.
  - apply N.eqb_neq in E0. injection E as <- <- <-. right. destruct I. destruct fr as [|a r]; [cbn [chain] in pi_chain0; congruence|].
    cbn [chain] in pi_chain0. destruct pi_chain0 as (C1 & C2 & C3). exists r. cbn [fst snd upstream]. split; [reflexivity|]. split; [reflexivity|]. split; [reflexivity|].
    split; [|split; [intros x; cbn; auto|left; split; [congruence|reflexivity]]]. constructor; cbn [setFree chunkBytes maxChunks freeHead freeCount resident]; try assumption.
    + rewrite C1. exact C3.
    + rewrite pi_count0. unfold usub, len. cbn [length]. destruct (1 <=? N.of_nat (S (length r))) eqn:X; [lia|apply N.leb_gt in X; lia].
    + rewrite pi_perm0. cbn [map]. rewrite C1. change (std (setFree p (nextOf m a) (usub (freeCount p) 1) (resident p))) with (std p). cbn [app]. symmetry. apply Permutation_middle.
Qed.

Lemma do_acquireBig bytes up p' c l : acquireOversized p bytes up = (p', c, l) -> 0 < bytes -> goodAnswer up bytes ow ->
  (c = (0, 0) /\ p' = p /\ l = [] /\ maxChunks p = resident p) \/
  (c = (up, bytes) /\ l = [UpAlloc up bytes] /\ chunkBytes p' = chunkBytes p /\ maxChunks p' = maxChunks p /\ PInv p' m (upstream ow l) (c :: he) fr).
Proof.
  intros E B (G1 & G2 & G3). unfold acquireOversized in E. destruct (maxChunks p <=? resident p) eqn:E1; injection E as <- <- <-.
  - apply N.leb_le in E1. left. pose proof (pi_le _ _ _ _ _ I). pose proof (pi_resident _ _ _ _ _ I). repeat split; auto. lia.
  - apply N.leb_gt in E1. right. split; [reflexivity|]. split; [reflexivity|]. split; [reflexivity|]. split; [reflexivity|]. destruct I. constructor; cbn [setFree chunkBytes maxChunks freeHead freeCount resident upstream]; try assumption.
    + rewrite pi_resident0 in *. unfold uinc. unfold len in *. cbn [length]. rewrite N.mod_small by lia. lia.
    + unfold len in *. cbn [length]. lia.
    + cbn [app]. constructor. exact pi_perm0.
    + apply pairwise_cons. auto.
    + constructor; [|exact pi_pos0]. cbn [fst snd]. lia.
Qed.

Lemma do_release c p' m' he' : release p m c = (p', m') -> Permutation he (c :: he') -> snd c = chunkBytes p ->
  chunkBytes p' = chunkBytes p /\ maxChunks p' = maxChunks p /\ PInv p' m' ow he' (fst c :: fr) /\ (forall x, ~ (fst c <= x < fst c + 8) -> m' x = m x).
Proof.
  intros E P Z. assert (Hc : In c he) by (rewrite P; left; reflexivity). pose proof (pi_held_free c) as D. pose proof (pi_pos' c ltac:(apply in_or_app; auto)) as (Q1 & Q2 & Q3).
  unfold release in E. rewrite (proj2 (N.eqb_neq (snd c) 0)) in E by lia. injection E as <- <-. split; [reflexivity|]. split; [reflexivity|].
  pose proof (pi_len) as L. assert (Le : len he = 1 + len he') by (rewrite (len_perm _ _ P); apply len_cons).
  assert (Out : forall x, ~ fst c <= x < fst c + 8 -> setNext m (fst c) (freeHead p) x = m x) by (intros x Hx; unfold setNext; apply wr_out; rewrite len_enc; lia).
  split; [|exact Out].
  assert (Qf : forall a, In a fr -> a < 2 ^ 64). { intros a Ha. pose proof (pi_pos' (std p a) ltac:(apply in_or_app; right; apply in_map; exact Ha)) as X. unfold std in X. cbn [fst snd] in X. pose proof (pi_cb _ _ _ _ _ I). lia. }
  assert (Hh : freeHead p < 2 ^ 64). { pose proof (pi_chain _ _ _ _ _ I) as C. destruct fr as [|a r] eqn:F; cbn [chain] in C; [rewrite C; lia|]. destruct C as (-> & _). apply Qf. left. reflexivity. }
  destruct I. constructor; cbn [setFree chunkBytes maxChunks freeHead freeCount resident]; try assumption.
  - cbn [chain]. split; [reflexivity|]. split; [lia|]. rewrite nextOf_set by exact Hh. eapply chain_ext; [|exact pi_chain0].
    intros a x Ha Hx. apply Out. specialize (D a Hc Ha). unfold disjoint, std in D. cbn [fst snd] in D. lia.
  - rewrite pi_count0. unfold uinc, len in *. cbn [length]. rewrite N.mod_small by lia. lia.
  - rewrite pi_perm0, P. cbn [map]. change (std (setFree p (fst c) (uinc (freeCount p)) (resident p))) with (std p). replace (std p (fst c)) with c by (unfold std; rewrite <- Z; destruct c; reflexivity). cbn [app]. apply Permutation_middle.
Qed.

Lemma do_releaseBig c p' l he' : releaseOversized p c = (p', l) -> Permutation he (c :: he') ->
  l = [UpFree (fst c) (snd c)] /\ In c ow /\ Forall (disjoint c) he' /\ chunkBytes p' = chunkBytes p /\ maxChunks p' = maxChunks p /\ PInv p' m (drop c ow) he' fr.
Proof.
  intros E P. assert (Hc : In c he) by (rewrite P; left; reflexivity). pose proof (pi_pos' c ltac:(apply in_or_app; auto)) as (Q1 & Q2 & Q3).
  unfold releaseOversized in E. rewrite (proj2 (N.eqb_neq (snd c) 0)) in E by lia. injection E as <- <-. split; [reflexivity|].
  assert (Ho : In c ow) by (rewrite (pi_perm _ _ _ _ _ I); apply in_or_app; auto). split; [exact Ho|].
  assert (P' : Permutation ow (c :: he' ++ map (std p) fr)) by (rewrite (pi_perm _ _ _ _ _ I), P; reflexivity).
  assert (PD : Permutation (drop c ow) (he' ++ map (std p) fr)) by (apply drop_perm2; exact P').
  assert (PP : pairwise (c :: drop c ow)) by (eapply pairwise_perm; [apply drop_perm; exact Ho|apply (pi_pair _ _ _ _ _ I)]). apply pairwise_cons in PP. destruct PP as [PP1 PP2].
  split; [rewrite PD in PP1; apply Forall_app in PP1; tauto|]. split; [reflexivity|]. split; [reflexivity|].
  assert (Lo : len ow = 1 + len (drop c ow)) by (rewrite (len_perm _ _ (drop_perm c ow Ho)) at 1; apply len_cons).
  destruct I. constructor; cbn [setFree chunkBytes maxChunks freeHead freeCount resident]; try assumption.
  - rewrite pi_resident0. unfold usub. rewrite (proj2 (N.leb_le 1 (len ow))) by lia. lia.
  - lia.
  - pose proof (Permutation_Forall (drop_perm c ow Ho) pi_pos0) as X. inversion X; assumption.
Qed.
End Facts.

Lemma reclaimLoop_ok keep : forall fr p m ow he fuel, PInv p m ow he fr -> (length fr <= fuel)%nat ->
  exists p' l fr', reclaimLoop fuel keep p m = Some (p', l) /\ callsOk ow he l /\ chunkBytes p' = chunkBytes p /\ maxChunks p' = maxChunks p /\
    PInv p' m (upstream ow l) he fr' /\ len fr' = N.min keep (len fr) /\ incl fr' fr.
Proof.
  induction fr as [|a fr IH]; intros p m ow he fuel I F.
  - exists p, [], []. assert (C : freeCount p = 0) by exact (pi_count _ _ _ _ _ I). destruct fuel; cbn [reclaimLoop]; rewrite C, (proj2 (N.ltb_ge keep 0)) by lia; (split; [reflexivity|]); (split; [exact Logic.I|]); (split; [reflexivity|]); (split; [reflexivity|]); (split; [exact I|split; [change (len (@nil N)) with 0; lia|intros x []]]).
  - pose proof (pi_count _ _ _ _ _ I) as C. destruct fuel as [|fuel]; [cbn [length] in F; lia|]. cbn [reclaimLoop]. destruct (keep <? freeCount p) eqn:E.
    + apply N.ltb_lt in E. pose proof (pi_chain _ _ _ _ _ I) as Ch. cbn [chain] in Ch. destruct Ch as (C1 & C2 & C3). rewrite (proj2 (N.eqb_neq (freeHead p) 0)) by congruence.
      set (p1 := setFree p _ _ _).
      assert (Ho : In (std p a) ow) by (rewrite (pi_perm _ _ _ _ _ I); apply in_or_app; right; left; reflexivity).
      assert (P' : Permutation ow (std p a :: he ++ map (std p) fr)) by (rewrite (pi_perm _ _ _ _ _ I); cbn [map]; symmetry; apply Permutation_middle).
      assert (PD : Permutation (drop (std p a) ow) (he ++ map (std p) fr)) by (apply drop_perm2; exact P').
      assert (Lo : len ow = 1 + len (drop (std p a) ow)) by (rewrite (len_perm _ _ (drop_perm _ ow Ho)) at 1; apply len_cons).
      assert (PP : pairwise (std p a :: drop (std p a) ow)) by (eapply pairwise_perm; [apply drop_perm; exact Ho|apply (pi_pair _ _ _ _ _ I)]). apply pairwise_cons in PP. destruct PP as [PP1 PP2].
      assert (I1 : PInv p1 m (drop (std p a) ow) he fr).
      { destruct I. constructor; cbn [p1 setFree chunkBytes maxChunks freeHead freeCount resident]; try assumption.
        - rewrite C1. exact C3.
        - rewrite C. unfold usub, len. cbn [length]. destruct (1 <=? N.of_nat (S (length fr))) eqn:X; [lia|apply N.leb_gt in X; lia].
        - rewrite pi_resident0. unfold usub. rewrite (proj2 (N.leb_le 1 (len ow))) by lia. lia.
        - lia.
        - pose proof (Permutation_Forall (drop_perm _ ow Ho) pi_pos0) as X. inversion X; assumption. }
      destruct (IH p1 m (drop (std p a) ow) he fuel I1 ltac:(cbn [length] in F; lia)) as (p' & l & fr' & R & K & B1 & B2 & I2 & L & Inc).
      rewrite R. exists p', (UpFree (freeHead p) (chunkBytes p) :: l), fr'. split; [reflexivity|]. cbn [callsOk upstream]. rewrite C1. fold (std p a).
      split; [split; [exact Ho|split; [|exact K]]|].
      * rewrite PD in PP1. apply Forall_app in PP1. tauto.
      * split; [exact B1|]. split; [exact B2|]. split; [exact I2|]. rewrite L. unfold len in *. cbn [length] in *. split; [lia|]. intros x Hx. right. auto.
    + apply N.ltb_ge in E. exists p, [], (a :: fr). split; [reflexivity|]. split; [exact Logic.I|]. split; [reflexivity|]. split; [reflexivity|]. split; [exact I|]. split; [rewrite <- C; lia|apply incl_refl].
Qed.
Lemma do_reclaim keep p m ow he fr : PInv p m ow he fr ->
  exists p' l fr', reclaim keep p m = Some (p', l) /\ callsOk ow he l /\ chunkBytes p' = chunkBytes p /\ maxChunks p' = maxChunks p /\
    PInv p' m (upstream ow l) he fr' /\ len fr' = N.min keep (len fr) /\ incl fr' fr.
Proof. intros I. apply reclaimLoop_ok; [exact I|]. rewrite (pi_count _ _ _ _ _ I). unfold len. lia. Qed.
Lemma do_destroy p m ow fr : PInv p m ow [] fr -> exists l, destroyPool p m = Some l /\ callsOk ow [] l /\ upstream ow l = [].
Proof.
  intros I. unfold destroyPool. rewrite (pi_count _ _ _ _ _ I). replace (N.to_nat (len fr)) with (length fr) by (unfold len; lia).
  pose proof (pi_chain _ _ _ _ _ I) as C. pose proof (pi_perm _ _ _ _ _ I) as P. cbn [app] in P. unfold std in P. revert C P. generalize (freeHead p), (chunkBytes p). clear I p.
  revert ow. induction fr as [|a fr IH]; intros ow h cb C P.
  - cbn [chain] in C. subst h. exists []. split; [reflexivity|]. split; [exact I|]. cbn [map] in P. apply Permutation_sym, Permutation_nil in P. exact P.
  - cbn [chain] in C. destruct C as (-> & C2 & C3). cbn [destroyLoop length]. rewrite (proj2 (N.eqb_neq a 0) C2).
    cbn [map] in P. assert (PD : Permutation (drop (a, cb) ow) (map (fun a => (a, cb)) fr)) by (apply drop_perm2; exact P).
    destruct (IH (drop (a, cb) ow) (nextOf m a) cb C3 PD) as (l & E & K & U). rewrite E. exists (UpFree a cb :: l). split; [reflexivity|]. cbn [callsOk upstream]. split; [|exact U].
    split; [rewrite P; left; reflexivity|]. split; [constructor|exact K].
Qed.
