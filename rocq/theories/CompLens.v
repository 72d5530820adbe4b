(** * Code construction: the lengths form a complete prefix code in which every symbol that occurs has a code. *)
From Coq Require Import List NArith Bool Lia Arith Permutation.
From Coq Require Import ZifyBool ZifyNat ZifyN.
From Verif Require Import Base CompModel CompSpec CompBits CompHuff CompDec CompBlk.
Import ListNotations.
Local Open Scope N_scope.

(** * At least two symbols take part *)
Lemma atLeastTwo_length fs : forall a, length (atLeastTwo a fs) = length fs.
Proof. induction fs as [|f r IH]; intros a; cbn [atLeastTwo]; [reflexivity|]. destruct ((a <? 2)%nat && (f =? 0)); cbn [length]; rewrite IH; reflexivity. Qed.
Lemma atLeastTwo_keeps fs : forall a s, nth s fs 0 <> 0 -> nth s (atLeastTwo a fs) 0 <> 0.
Proof.
  induction fs as [|f r IH]; intros a [|s] H; cbn [atLeastTwo nth] in *; try congruence.
  - destruct ((a <? 2)%nat && (f =? 0)); cbn [nth]; [lia|exact H].
  - destruct ((a <? 2)%nat && (f =? 0)); cbn [nth]; apply IH, H.
Qed.
Lemma activeCount_cons f r : activeCount (f :: r) = ((if (f =? 0)%N then 0 else 1) + activeCount r)%nat.
Proof. unfold activeCount. cbn [filter]. destruct (f =? 0); reflexivity. Qed.
(** [a] counts the symbols of the whole table that occur. *)
Lemma atLeastTwo_count fs : forall a, (activeCount fs <= a)%nat -> (Nat.min 2 (a + (length fs - activeCount fs)) <= a - activeCount fs + activeCount (atLeastTwo a fs))%nat.
Proof.
  induction fs as [|f r IH]; intros a H; [unfold activeCount; cbn [filter length atLeastTwo]; lia|]. rewrite activeCount_cons in *. cbn [atLeastTwo length].
  assert (Hle : (activeCount r <= length r)%nat) by (unfold activeCount; clear; induction r as [|x r IH]; cbn [filter length]; [lia|]; destruct (negb (x =? 0)); cbn [length]; lia).
  destruct (N.eqb_spec f 0) as [->|Hf].
  - destruct (Nat.ltb_spec a 2); cbn [andb]; rewrite activeCount_cons.
    + specialize (IH (S a) ltac:(lia)). cbn [N.eqb]. lia.
    + cbn [N.eqb]. specialize (IH a ltac:(lia)). lia.
  - rewrite andb_false_r, activeCount_cons. destruct (N.eqb_spec f 0) as [|_]; [congruence|]. specialize (IH a ltac:(lia)). lia.
Qed.
Lemma two_active fs : (2 <= length fs)%nat -> (2 <= activeCount (atLeastTwo (activeCount fs) fs))%nat.
Proof.
  intros H. pose proof (atLeastTwo_count fs (activeCount fs) (le_n _)) as G.
  assert (Hle : (activeCount fs <= length fs)%nat) by (unfold activeCount; clear; induction fs as [|x r IH]; cbn [filter length]; [lia|]; destruct (negb (x =? 0)); cbn [length]; lia).
  lia.
Qed.

(** * Leaves *)
Lemma leaves_from fs : forall a, let l := filter (fun p : N * nat => negb (fst p =? 0)) (combine fs (seq a (length fs))) in
  NoDup (map snd l) /\ (forall i, In i (map snd l) <-> (a <= i < a + length fs)%nat /\ nth (i - a) fs 0 <> 0) /\ length l = activeCount fs.
Proof.
  induction fs as [|f r IH]; intros a; cbn zeta.
  - cbn. split; [constructor|]. split; [|reflexivity]. intros i. split; [tauto|lia].
  - cbn [length seq combine filter fst]. destruct (IH (S a)) as (H1 & H2 & H3). rewrite activeCount_cons. destruct (N.eqb_spec f 0) as [->|Hf]; cbn [negb].
    + split; [exact H1|]. split; [|exact H3]. intros i. rewrite H2. split; intros [G1 G2].
      * split; [lia|]. replace (i - a)%nat with (S (i - S a)) by lia. exact G2.
      * destruct (Nat.eq_dec i a) as [->|]; [rewrite Nat.sub_diag in G2; cbn in G2; congruence|]. split; [lia|]. replace (i - a)%nat with (S (i - S a)) in G2 by lia. exact G2.
    + cbn [map snd length]. split; [|split; [|cbn [length]; rewrite H3; reflexivity]].
      * constructor; [|exact H1]. rewrite H2. lia.
      * intros i. cbn [In]. rewrite H2. split.
        -- intros [<-|[G1 G2]]; [split; [lia|]; rewrite Nat.sub_diag; exact Hf|]. split; [lia|]. replace (i - a)%nat with (S (i - S a)) by lia. exact G2.
        -- intros [G1 G2]. destruct (Nat.eq_dec i a) as [->|]; [left; reflexivity|]. right. split; [lia|]. replace (i - a)%nat with (S (i - S a)) in G2 by lia. exact G2.
Qed.
Lemma leaves_spec fs : NoDup (map snd (leaves fs)) /\ (forall i, In i (map snd (leaves fs)) <-> (i < length fs)%nat /\ nth i fs 0 <> 0) /\ length (leaves fs) = activeCount fs.
Proof.
  destruct (leaves_from fs 0) as (H1 & H2 & H3). split; [exact H1|]. split; [|exact H3]. intros i. unfold leaves. rewrite H2. rewrite Nat.sub_0_r. split; intros [G1 G2]; (split; [lia|exact G2]).
Qed.

(** * The tree *)
Lemma popMin_perm : forall h x, Permutation (x :: h) (fst (popMin x h) :: snd (popMin x h)).
Proof.
  induction h as [|y r IH]; intros x; cbn [popMin]; [reflexivity|]. destruct (nodeLe x y); cbn [fst snd].
  - rewrite perm_swap. rewrite (IH x) at 1. apply perm_swap.
  - rewrite (IH y) at 1. apply perm_swap.
Qed.
(** [d] gives every node with a parent one more than its parent. *)
Definition depthsFit (parent : nat -> option nat) (nc : nat) (d : nat -> nat) : Prop :=
  forall i, (i < nc)%nat -> match parent i with Some p => d i = S (d p) | None => d i = 0%nat end.
Definition weight (D : nat) (d : nat -> nat) (heap : list (N * nat)) : N := fold_right (fun p acc => 2 ^ N.of_nat (D - d (snd p)) + acc) 0 heap.
Lemma weight_perm D d a b : Permutation a b -> weight D d a = weight D d b.
Proof. induction 1 as [|x a b H IH|x y a|a b c H1 IH1 H2 IH2]; unfold weight in *; cbn [fold_right]; [reflexivity|rewrite IH; reflexivity|lia|congruence]. Qed.
Record mergeOut (heap : list (N * nat)) (nc : nat) (parent : nat -> option nat) (nc' : nat) (parent' : nat -> option nat) : Prop := {
  mo_nc : (nc <= nc')%nat;
  mo_keep : forall i, (i < nc)%nat -> ~ In i (map snd heap) -> parent' i = parent i;
  mo_up : forall i p, (i < nc')%nat -> parent' i = Some p -> (i < p < nc')%nat;
  mo_weight : forall D d, depthsFit parent' nc' d -> (forall i, (i < nc')%nat -> (d i <= D)%nat) -> weight D d heap = 2 ^ N.of_nat D }.
Lemma mergeLoop_spec : forall fuel heap nc parent, (1 <= length heap)%nat -> (length heap <= S fuel)%nat -> NoDup (map snd heap) ->
  (forall i, In i (map snd heap) -> (i < nc)%nat /\ parent i = None) -> (forall i p, (i < nc)%nat -> parent i = Some p -> (i < p < nc)%nat) ->
  (forall i, (nc <= i)%nat -> parent i = None) ->
  mergeOut heap nc parent (fst (mergeLoop fuel heap nc parent)) (snd (mergeLoop fuel heap nc parent)).
Proof.
  assert (Hone : forall x nc parent, (snd x < nc)%nat -> parent (snd x) = None -> (forall i p, (i < nc)%nat -> parent i = Some p -> (i < p < nc)%nat) -> mergeOut [x] nc parent nc parent).
  { intros x nc parent Hx Hn Hup. constructor; [lia|auto|auto|]. intros D d Hd HD. unfold weight. cbn [fold_right]. specialize (Hd _ Hx). rewrite Hn in Hd. rewrite Hd, Nat.sub_0_r. lia. }
  induction fuel as [|k IH]; intros heap nc parent H1 Hf Hnd Hin Hup Hfresh.
  - destruct heap as [|x [|y r]]; cbn [length] in *; try lia. cbn [mergeLoop fst snd]. destruct (Hin (snd x) ltac:(left; reflexivity)). apply Hone; assumption.
  - cbn [mergeLoop]. destruct heap as [|x [|y r]]; [cbn in H1; lia| |].
    { destruct (Hin (snd x) ltac:(left; reflexivity)). apply Hone; assumption. }
    pose proof (popMin_perm (y :: r) x) as P1. set (p1 := popMin x (y :: r)) in *. clearbody p1. destruct p1 as [f rest]. cbn [fst snd] in *.
    destruct rest as [|z r2]; [apply Permutation_length in P1; cbn in P1; lia|].
    pose proof (popMin_perm r2 z) as P2. set (p2 := popMin z r2) in *. clearbody p2. destruct p2 as [s rest2]. cbn [fst snd] in *.
    assert (P : Permutation (x :: y :: r) (f :: s :: rest2)) by (rewrite P1; apply perm_skip, P2). clear P1 P2.
    set (heap := x :: y :: r) in *.
    assert (PS : Permutation (map snd heap) (snd f :: snd s :: map snd rest2)) by (apply (Permutation_map snd) in P; exact P).
    assert (Hnd2 : NoDup (snd f :: snd s :: map snd rest2)) by (eapply Permutation_NoDup; [exact PS|exact Hnd]).
    inversion Hnd2 as [|? ? Nf Hnd3]; subst. inversion Hnd3 as [|? ? Ns Hnd4]; subst.
    assert (Hin2 : forall i, In i (snd f :: snd s :: map snd rest2) -> (i < nc)%nat /\ parent i = None) by (intros i Hi; apply Hin; apply (Permutation_in _ (Permutation_sym PS)), Hi).
    destruct (Hin2 (snd f) ltac:(left; reflexivity)) as [Lf Pf]. destruct (Hin2 (snd s) ltac:(right; left; reflexivity)) as [Ls Ps].
    assert (Nfs : snd f <> snd s) by (intros E; apply Nf; rewrite E; left; reflexivity).
    set (parent1 := updn (updn parent (snd f) (Some nc)) (snd s) (Some nc)).
    set (heap1 := (tr 64 (fst f + fst s), nc) :: rest2).
    assert (Q : forall i, i <> snd f -> i <> snd s -> parent1 i = parent i).
    { intros i Hi1 Hi2. unfold parent1, updn. destruct (Nat.eqb_spec i (snd s)); [congruence|]. destruct (Nat.eqb_spec i (snd f)); [congruence|reflexivity]. }
    assert (Qf : parent1 (snd f) = Some nc). { unfold parent1, updn. destruct (Nat.eqb_spec (snd f) (snd s)); [congruence|]. rewrite Nat.eqb_refl. reflexivity. }
    assert (Qs : parent1 (snd s) = Some nc). { unfold parent1, updn. rewrite Nat.eqb_refl. reflexivity. }
    assert (M : mergeOut heap1 (S nc) parent1 (fst (mergeLoop k heap1 (S nc) parent1)) (snd (mergeLoop k heap1 (S nc) parent1))).
    { apply IH.
      - cbn. lia.
      - apply Permutation_length in P. unfold heap1. cbn [length] in *. lia.
      - unfold heap1. cbn [map snd]. constructor; [|exact Hnd4]. intros Hi. destruct (Hin2 nc ltac:(right; right; exact Hi)). lia.
      - unfold heap1. cbn [map snd In]. intros i [<-|Hi].
        + split; [lia|]. rewrite Q by lia. apply Hfresh. lia.
        + destruct (Hin2 i ltac:(right; right; exact Hi)) as [L N]. split; [lia|]. rewrite Q; [exact N| |]; intros ->; [apply Nf; right; exact Hi|apply Ns; exact Hi].
      - intros i p Hi Hp. destruct (Nat.eq_dec i (snd f)) as [->|N1]; [rewrite Qf in Hp; injection Hp as <-; lia|].
        destruct (Nat.eq_dec i (snd s)) as [->|N2]; [rewrite Qs in Hp; injection Hp as <-; lia|]. rewrite Q in Hp by assumption.
        destruct (Nat.eq_dec i nc) as [->|N3]; [rewrite Hfresh in Hp by lia; discriminate|]. specialize (Hup i p ltac:(lia) Hp). lia.
      - intros i Hi. rewrite Q by lia. apply Hfresh. lia. }
    destruct M as [M1 M2 M3 M4]. constructor.
    + lia.
    + intros i Hi Hni. assert (Hni2 : ~ In i (snd f :: snd s :: map snd rest2)) by (intros G; apply Hni; apply (Permutation_in _ (Permutation_sym PS)), G).
      rewrite M2; [apply Q; intros ->; apply Hni2; cbn; auto|lia|]. unfold heap1. cbn [map snd In]. intros [E|G]; [lia|]. apply Hni2. right. right. exact G.
    + exact M3.
    + intros D d Hd HD. rewrite (weight_perm _ _ _ _ P). rewrite <- (M4 D d Hd HD). unfold heap1, weight. cbn [fold_right snd].
      assert (Ef : d (snd f) = S (d nc)).
      { pose proof (Hd (snd f) ltac:(lia)) as G. rewrite M2 in G; [rewrite Qf in G; exact G|lia|]. unfold heap1. cbn [map snd In]. intros [E|G2]; [lia|]. apply Nf. right. exact G2. }
      assert (Es : d (snd s) = S (d nc)).
      { pose proof (Hd (snd s) ltac:(lia)) as G. rewrite M2 in G; [rewrite Qs in G; exact G|lia|]. unfold heap1. cbn [map snd In]. intros [E|G2]; [lia|]. apply Ns. exact G2. }
      pose proof (HD (snd f) ltac:(lia)) as Hb. rewrite Ef, Es. rewrite Ef in Hb. replace (D - d nc)%nat with (S (D - S (d nc))) by lia. rewrite pow2_S. lia.
Qed.
Lemma depthLoop_spec parent nc : (forall i p, (i < nc)%nat -> parent i = Some p -> (i < p < nc)%nat) ->
  forall n d0, (n <= nc)%nat -> (forall i, (i < n)%nat -> d0 i = 0%nat) ->
  let d := depthLoop n parent d0 in
  (forall i, (n <= i)%nat -> d i = d0 i) /\ (forall i, (i < n)%nat -> match parent i with Some p => d i = S (d p) | None => d i = 0%nat end).
Proof.
  intros Hup. induction n as [|n IH]; intros d0 Hn H0; cbn [depthLoop]; [split; [auto|lia]|].
  set (d1 := match parent n with Some p => updn d0 n (S (d0 p)) | None => d0 end).
  assert (E1 : forall i, i <> n -> d1 i = d0 i) by (intros i Hi; unfold d1; destruct (parent n); [unfold updn; destruct (Nat.eqb_spec i n); congruence|reflexivity]).
  destruct (IH d1 ltac:(lia)) as [I1 I2]; [intros i Hi; rewrite E1 by lia; apply H0; lia|]. cbn zeta. split.
  - intros i Hi. rewrite I1 by lia. apply E1. lia.
  - intros i Hi. destruct (Nat.eq_dec i n) as [->|Hne]; [|apply I2; lia]. pose proof (Hup n) as Hp. destruct (parent n) as [p|] eqn:Ep.
    + specialize (Hp p ltac:(lia) eq_refl). rewrite (I1 n) by lia. rewrite (I1 p) by lia. rewrite (E1 p) by lia. unfold d1, updn. rewrite Nat.eqb_refl. reflexivity.
    + rewrite I1 by lia. unfold d1. apply H0. lia.
Qed.
(** Depths of the tree built from [k >= 2] leaves. *)
Lemma tree_depths ls n : (1 <= length ls)%nat -> NoDup (map snd ls) -> (forall i, In i (map snd ls) -> (i < n)%nat) ->
  let m := mergeLoop (length ls) ls n (fun _ => None) in
  let d := depthLoop (fst m) (snd m) (fun _ => 0%nat) in
  exists D, (forall i, In i (map snd ls) -> (d i <= D)%nat) /\ weight D d ls = 2 ^ N.of_nat D.
Proof.
  intros H1 Hnd Hin. cbn zeta. destruct (mergeLoop_spec (length ls) ls n (fun _ => None) H1 ltac:(lia) Hnd) as [M1 M2 M3 M4]; [intros i Hi; split; [apply Hin, Hi|reflexivity]|discriminate|reflexivity|].
  destruct (mergeLoop (length ls) ls n (fun _ => None)) as [nc parent]. cbn [fst snd] in *.
  destruct (depthLoop_spec parent nc M3 nc (fun _ => 0%nat) ltac:(lia) ltac:(auto)) as [_ Hd]. set (d := depthLoop nc parent (fun _ => 0%nat)) in *. cbn zeta in Hd.
  assert (HD : forall k i, (nc - i <= k)%nat -> (i < nc)%nat -> (d i + i < nc)%nat).
  { induction k as [|k IH]; intros i Hk Hi; [lia|]. pose proof (Hd i Hi) as Hdi. pose proof (M3 i) as Hup. destruct (parent i) as [p|]; [|lia].
    specialize (Hup p Hi eq_refl). specialize (IH p ltac:(lia) ltac:(lia)). lia. }
  exists nc. assert (Hle : forall i, (i < nc)%nat -> (d i <= nc)%nat) by (intros i Hi; specialize (HD nc i ltac:(lia) Hi); lia).
  split; [intros i Hi; apply Hle; specialize (Hin i Hi); lia|]. apply M4; assumption.
Qed.

(** * Sums over leaves *)
Lemma weight_pos D d ls : ls <> [] -> 0 < weight D d ls.
Proof. destruct ls as [|x r]; [congruence|]. intros _. unfold weight. cbn [fold_right]. pose proof (pow2_pos (N.of_nat (D - d (snd x)))). lia. Qed.
Lemma leaf_deep D d ls : (2 <= length ls)%nat -> weight D d ls = 2 ^ N.of_nat D -> forall i, In i (map snd ls) -> (1 <= d i)%nat.
Proof.
  intros H2 HW i Hi. destruct (d i) eqn:E; [|lia]. exfalso. apply in_map_iff in Hi. destruct Hi as (x & <- & Hx).
  apply in_split in Hx. destruct Hx as (a & b & ->).
  assert (P : Permutation (a ++ x :: b) (x :: a ++ b)) by (symmetry; apply Permutation_middle). rewrite (weight_perm _ _ _ _ P) in HW.
  unfold weight in HW. cbn [fold_right] in HW. rewrite E, Nat.sub_0_r in HW. fold (weight D d (a ++ b)) in HW.
  assert (a ++ b <> []) by (intros Z; rewrite app_length in H2; cbn [length] in H2; apply (f_equal (@length _)) in Z; rewrite app_length in Z; cbn in Z; lia).
  pose proof (weight_pos D d (a ++ b) H). lia.
Qed.
(** The sum of a table of counts. *)
Definition total (counts : nat -> N) (M : nat) : N := fold_right (fun w acc => acc + counts w) 0 (seq 1 M).
Lemma fold_seq_upd (f : N -> nat -> N) (g h : nat -> N) l : (forall w, In w l -> f (g w) w = f (h w) w) ->
  fold_right (fun w acc => acc + f (g w) w) 0 l = fold_right (fun w acc => acc + f (h w) w) 0 l.
Proof. induction l as [|w l IH]; intros H; [reflexivity|]. cbn [fold_right]. rewrite IH by (intros; apply H; right; assumption). rewrite (H w) by (left; reflexivity). reflexivity. Qed.
(** Weighted sums [sum_w counts w * c w] over the widths 1..M. *)
Definition wsum (c : nat -> N) (counts : nat -> N) (M : nat) : N := fold_right (fun w acc => acc + counts w * c w) 0 (seq 1 M).
Lemma codeSpace_wsum M counts : codeSpace M counts = wsum (fun w => 2 ^ N.of_nat (M - w)) counts M.
Proof. unfold codeSpace, wsum. induction (seq 1 M) as [|w l IH]; [reflexivity|]. cbn [fold_right]. rewrite IH, N.shiftl_mul_pow2. reflexivity. Qed.
Lemma wsum_S c counts M : wsum c counts (S M) = wsum c counts M + counts (S M) * c (S M).
Proof.
  unfold wsum. rewrite seq_S. change (1 + M)%nat with (S M). rewrite fold_right_app. cbn [fold_right].
  assert (G : forall l a, fold_right (fun w acc => acc + counts w * c w) a l = fold_right (fun w acc => acc + counts w * c w) 0 l + a).
  { induction l as [|w l IH]; intros a; cbn [fold_right]; [lia|]. rewrite IH. lia. }
  rewrite G. lia.
Qed.
Lemma wsum_0 c counts : wsum c counts 0 = 0.
Proof. reflexivity. Qed.
Lemma wsum_upd c counts M w v : (1 <= w <= M)%nat -> wsum c (updn counts w v) M + counts w * c w = wsum c counts M + v * c w.
Proof.
  induction M as [|M IH]; intros H; [lia|]. rewrite !wsum_S. destruct (Nat.eq_dec w (S M)) as [->|Hne].
  - assert (E : wsum c (updn counts (S M) v) M = wsum c counts M).
    { clear. assert (G : forall k, (k <= M)%nat -> wsum c (updn counts (S M) v) k = wsum c counts k).
      { induction k as [|k IHk]; intros Hk; [reflexivity|]. rewrite !wsum_S, IHk by lia. unfold updn at 1. destruct (Nat.eqb_spec (S k) (S M)); [lia|reflexivity]. }
      apply G. lia. }
    rewrite E. unfold updn at 1. rewrite Nat.eqb_refl. lia.
  - specialize (IH ltac:(lia)). unfold updn at 2. destruct (Nat.eqb_spec (S M) w); [lia|]. lia.
Qed.
Lemma wsum_ext c c' counts M : (forall w, (1 <= w <= M)%nat -> c w = c' w) -> wsum c counts M = wsum c' counts M.
Proof. induction M as [|M IH]; intros H; [reflexivity|]. rewrite !wsum_S, IH by (intros; apply H; lia). rewrite (H (S M)) by lia. reflexivity. Qed.
(** Counting the leaves by clamped depth. *)
Lemma wsum_count {A} (c : nat -> N) (g : A -> nat) M (l : list A) : (forall x, In x l -> (1 <= g x <= M)%nat) ->
  wsum c (fun w => N.of_nat (length (filter (fun x => (g x =? w)%nat) l))) M = fold_right (fun x acc => c (g x) + acc) 0 l.
Proof.
  induction l as [|x l IH]; intros H.
  - cbn [filter length fold_right]. clear. induction M as [|M IHM]; [reflexivity|]. rewrite wsum_S, IHM. reflexivity.
  - cbn [fold_right]. rewrite <- IH by (intros; apply H; right; assumption). specialize (H x ltac:(left; reflexivity)).
    set (K := fun w => N.of_nat (length (filter (fun y => (g y =? w)%nat) l))).
    assert (E : wsum c (fun w => N.of_nat (length (filter (fun y => (g y =? w)%nat) (x :: l)))) M = wsum c (updn K (g x) (K (g x) + 1)) M).
    { clear IH H. induction M as [|M IHM]; [reflexivity|]. rewrite !wsum_S, IHM. f_equal. f_equal. unfold updn, K. cbn [filter].
      destruct (Nat.eqb_spec (g x) (S M)) as [E|E]; destruct (Nat.eqb_spec (S M) (g x)); try lia. cbn [length]. rewrite E. lia. }
    rewrite E. pose proof (wsum_upd c K M (g x) (K (g x) + 1) H). lia.
Qed.
(** * The length limit *)
Lemma widest_spec counts : forall k, (exists w, (1 <= w <= k)%nat /\ counts w <> 0) -> (1 <= widest counts k <= k)%nat /\ counts (widest counts k) <> 0.
Proof.
  induction k as [|k IH]; intros (w & Hw & Hc); [lia|]. cbn [widest]. destruct (N.eqb_spec (counts (S k)) 0) as [E|E].
  - destruct IH as [I1 I2]; [|split; [lia|exact I2]]. exists w. split; [|exact Hc]. destruct (Nat.eq_dec w (S k)) as [->|]; [congruence|lia].
  - split; [lia|exact E].
Qed.
Definition one (_ : nat) : N := 1.
Lemma limitLoop_spec M : (1 <= M)%nat -> forall fuel counts used, used = wsum (fun w => 2 ^ N.of_nat (M - w)) counts M ->
  N.of_nat fuel = used - 2 ^ N.of_nat M -> 2 ^ N.of_nat M <= used -> wsum one counts M <= 2 ^ N.of_nat M ->
  (used = 2 ^ N.of_nat M \/ used - 2 ^ N.of_nat M < counts M) ->
  let r := limitLoop fuel M counts used in wsum (fun w => 2 ^ N.of_nat (M - w)) r M = 2 ^ N.of_nat M /\ wsum one r M = wsum one counts M.
Proof.
  intros HM. induction fuel as [|k IH]; intros counts used Hu Hf Hge Hn Hc; cbn [limitLoop].
  - split; [lia|reflexivity].
  - destruct (N.ltb_spec (2 ^ N.of_nat M) used) as [Hlt|]; [|lia]. destruct Hc as [Hc|Hc]; [lia|].
    set (sp := fun w => 2 ^ N.of_nat (M - w)) in *.
    destruct (widest_spec counts (M - 1)) as [W1 W2].
    { (* some width below M is in use *)
      assert (G : forall q, (q <= M - 1)%nat -> (exists w, (1 <= w <= q)%nat /\ counts w <> 0) \/ (wsum sp counts q = 0 /\ wsum one counts q = 0)).
      { induction q as [|j IHj]; intros Hj; [right; auto|]. destruct (IHj ltac:(lia)) as [(w & Hw & Hw2)|[G1 G2]]; [left; exists w; split; [lia|exact Hw2]|].
        destruct (N.eq_dec (counts (S j)) 0) as [E|E]; [right|left; exists (S j); split; [lia|exact E]]. rewrite !wsum_S, G1, G2, E. auto. }
      destruct (G (M - 1)%nat ltac:(lia)) as [H|[G1 G2]]; [exact H|]. exfalso. clear IH. destruct M as [|m]; [lia|]. replace (S m - 1)%nat with m in * by lia.
      rewrite wsum_S in Hu, Hn. rewrite G1 in Hu. rewrite G2 in Hn. unfold sp, one in *. rewrite Nat.sub_diag in Hu. change (2 ^ N.of_nat 0) with 1 in Hu. lia. }
    set (w := widest counts (M - 1)) in *. set (c1 := updn counts w (counts w - 1)). set (c2 := updn c1 (S w) (c1 (S w) + 2)). set (c3 := updn c2 M (c2 M - 1)).
    assert (C2M : counts M <= c2 M /\ 1 <= c2 M).
    { unfold c2, c1, updn. destruct (Nat.eqb_spec M (S w)) as [E|E]; destruct (Nat.eqb_spec (S w) w); destruct (Nat.eqb_spec M w); try lia. rewrite <- E. lia. }
    assert (S1 : forall c, wsum c c1 M + c w = wsum c counts M).
    { intros c. pose proof (wsum_upd c counts M w (counts w - 1) ltac:(lia)) as E. fold c1 in E. nia. }
    assert (S2 : forall c, wsum c c2 M = wsum c c1 M + 2 * c (S w)).
    { intros c. pose proof (wsum_upd c c1 M (S w) (c1 (S w) + 2) ltac:(lia)) as E. fold c2 in E. lia. }
    assert (S3 : forall c, wsum c c3 M + c M = wsum c c2 M).
    { intros c. pose proof (wsum_upd c c2 M M (c2 M - 1) ltac:(lia)) as E. fold c3 in E. nia. }
    assert (Esp : wsum sp c3 M = used - 1).
    { pose proof (S1 sp). pose proof (S2 sp). pose proof (S3 sp). assert (sp M = 1) by (unfold sp; rewrite Nat.sub_diag; reflexivity).
      assert (sp w = 2 * sp (S w)). { unfold sp. replace (M - w)%nat with (S (M - S w)) by lia. apply pow2_S. } lia. }
    assert (Eone : wsum one c3 M = wsum one counts M) by (pose proof (S1 one); pose proof (S2 one); pose proof (S3 one); unfold one in *; lia).
    destruct (IH c3 (used - 1)) as [R1 R2]; try lia.
    { assert (E3 : c3 M = c2 M - 1) by (unfold c3, updn; rewrite Nat.eqb_refl; reflexivity). right. lia. }
Qed.

(** * From counts to lengths *)
Lemma kraft_app M a b : kraft M (a ++ b) = kraft M a + kraft M b.
Proof. induction a as [|x a IH]; [reflexivity|]. unfold kraft in *. cbn [app fold_right]. rewrite IH. lia. Qed.
Lemma kraft_cons M w l : kraft M (w :: l) = (if (w =? 0)%nat then 0 else 2 ^ N.of_nat (M - w)) + kraft M l.
Proof. reflexivity. Qed.
Lemma widthsDown_spec M counts : forall k, (k <= M)%nat -> let l := widthsDown counts k in
  N.of_nat (length l) = wsum one counts k /\ Forall (fun w => (1 <= w <= k)%nat) l /\ kraft M l = wsum (fun w => 2 ^ N.of_nat (M - w)) counts k.
Proof.
  induction k as [|k IH]; intros Hk; cbn [widthsDown]; [split; [reflexivity|split; [constructor|reflexivity]]|].
  destruct (IH ltac:(lia)) as (I1 & I2 & I3). cbn zeta. rewrite !wsum_S. split; [|split].
  - rewrite app_length, repeat_length. unfold one at 2. lia.
  - apply Forall_app. split; [apply Forall_forall; intros x Hx; apply repeat_spec in Hx; lia|eapply Forall_impl; [|exact I2]; cbn; intros; lia].
  - rewrite kraft_app, I3. assert (E : kraft M (repeat (S k) (N.to_nat (counts (S k)))) = counts (S k) * 2 ^ N.of_nat (M - S k)); [|lia].
    rewrite <- (N2Nat.id (counts (S k))) at 2. induction (N.to_nat (counts (S k))) as [|n IHn]; [reflexivity|]. unfold kraft in *. cbn [repeat fold_right]. rewrite IHn. cbn [Nat.eqb]. lia.
Qed.
Lemma kraft_upd M ls i w : (i < length ls)%nat -> nth i ls 0%nat = 0%nat -> (1 <= w)%nat -> kraft M (upd ls i w) = kraft M ls + 2 ^ N.of_nat (M - w).
Proof.
  revert i; induction ls as [|x ls IH]; intros [|i] Hi H0 Hw; cbn [length nth upd] in *; try lia; unfold kraft in *; cbn [fold_right].
  - subst x. cbn [Nat.eqb]. destruct (Nat.eqb_spec w 0); [lia|]. lia.
  - rewrite IH by (try assumption; lia). lia.
Qed.
Lemma assign_fold M : forall ordered widths ls, length ordered = length widths -> NoDup ordered ->
  (forall i, In i ordered -> (i < length ls)%nat /\ nth i ls 0%nat = 0%nat) -> Forall (fun w => (1 <= w <= M)%nat) widths -> Forall (fun w => (w <= M)%nat) ls ->
  let r := fold_left (fun ls p => upd ls (fst p) (snd p)) (combine ordered widths) ls in
  length r = length ls /\ kraft M r = kraft M ls + kraft M widths /\ Forall (fun w => (w <= M)%nat) r /\
  (forall i, In i ordered -> nth i r 0%nat <> 0%nat) /\ (forall i, ~ In i ordered -> nth i r 0%nat = nth i ls 0%nat).
Proof.
  induction ordered as [|o ordered IH]; intros [|w widths] ls Hl Hnd Hin Hw Hls; cbn [length] in Hl; try lia; cbn [combine fold_left].
  - split; [reflexivity|]. split; [change (kraft M []) with 0; lia|]. split; [exact Hls|]. split; [intros i []|reflexivity].
  - inversion Hnd as [|? ? No Hnd']; subst. inversion Hw as [|? ? Hw1 Hw2]; subst. destruct (Hin o ltac:(left; reflexivity)) as [Ho H0]. cbn [fst snd].
    destruct (IH widths (upd ls o w) ltac:(lia) Hnd') as (R1 & R2 & R3 & R4 & R5); try assumption.
    { intros i Hi. rewrite length_upd. destruct (Hin i ltac:(right; exact Hi)) as [L Z]. split; [exact L|]. rewrite nth_upd_ne by (intros ->; apply No; exact Hi). exact Z. }
    { clear - Hls Hw1. revert o; induction ls as [|x ls IH]; intros [|o]; cbn [upd]; inversion Hls; subst; try constructor; auto; lia. }
    split; [rewrite R1; apply length_upd|]. split; [rewrite R2, kraft_upd by (try assumption; lia); rewrite (kraft_cons M w widths); destruct (Nat.eqb_spec w 0); lia|].
    split; [exact R3|]. split.
    + intros i [<-|Hi]; [|apply R4, Hi]. rewrite R5 by exact No. rewrite nth_upd_eq by exact Ho. lia.
    + intros i Hi. rewrite R5 by (intros G; apply Hi; right; exact G). apply nth_upd_ne. intros ->. apply Hi. left. reflexivity.
Qed.
Lemma kraft_zeros M n : kraft M (repeat 0%nat n) = 0.
Proof. induction n as [|n IH]; [reflexivity|]. unfold kraft in *. cbn [repeat fold_right]. rewrite IH. reflexivity. Qed.
Lemma sort_perm l : Permutation (sortNodes l) l.
Proof.
  assert (G : forall x l, Permutation (insertSorted x l) (x :: l)).
  { intros x; induction l0 as [|y r IH]; cbn [insertSorted]; [reflexivity|]. destruct (nodeLe x y); [reflexivity|]. rewrite IH. apply perm_swap. }
  induction l as [|x l IH]; [reflexivity|]. unfold sortNodes in *. cbn [fold_right]. rewrite G. apply perm_skip, IH.
Qed.
Lemma nth_zeros i n : nth i (repeat 0%nat n) 0%nat = 0%nat.
Proof. revert i; induction n as [|n IH]; intros [|i]; cbn; auto. Qed.

Theorem makeCodeLengths_spec M freqs : (1 <= M)%nat -> (2 <= length freqs)%nat -> N.of_nat (length freqs) <= 2 ^ N.of_nat M ->
  let ls := makeCodeLengths M freqs in
  length ls = length freqs /\ complete M ls /\ (forall s, nth s freqs 0 <> 0 -> hasCode ls s).
Proof.
  intros HM H2 Hn. unfold makeCodeLengths. cbn zeta. set (n := length freqs) in *. set (fs := atLeastTwo (activeCount freqs) freqs).
  assert (Lfs : length fs = n) by apply atLeastTwo_length. pose proof (two_active freqs H2) as Ha. fold fs in Ha.
  destruct (leaves_spec fs) as (Hnd & Hin & Hlen). rewrite Lfs in Hin. set (ls := leaves fs) in *.
  assert (Hin1 : forall i, In i (map snd ls) -> (i < n)%nat) by (intros i Hi; apply Hin in Hi; tauto).
  destruct (tree_depths ls n ltac:(lia) Hnd Hin1) as (D & HD & HW).
  set (m := mergeLoop (length ls) ls n (fun _ => None)) in *. set (d := depthLoop (fst m) (snd m) (fun _ => 0%nat)) in *. clearbody d. clear m.
  pose proof (leaf_deep D d ls ltac:(lia) HW) as Hdeep.
  set (counts := depthCounts M fs d). set (sp := fun w => 2 ^ N.of_nat (M - w)).
  set (g := fun p : N * nat => Nat.min (d (snd p)) M).
  assert (Hg : forall x, In x ls -> (1 <= g x <= M)%nat) by (intros x Hx; specialize (Hdeep (snd x) ltac:(apply in_map, Hx)); unfold g; lia).
  assert (Ecs : forall c, wsum c counts M = fold_right (fun x acc => c (g x) + acc) 0 ls) by (intros c; apply (wsum_count c g M ls Hg)).
  rewrite codeSpace_wsum. fold sp. set (used := wsum sp counts M).
  assert (Eone : wsum one counts M = N.of_nat (length ls)).
  { rewrite Ecs. clear. induction ls as [|x l IH]; [reflexivity|]. cbn [fold_right length]. rewrite IH. unfold one. lia. }
  assert (Hk : N.of_nat (length ls) <= 2 ^ N.of_nat M).
  { assert (length ls <= n)%nat; [|lia]. rewrite <- (map_length snd). rewrite <- (seq_length n 0). apply NoDup_incl_length; [exact Hnd|]. intros i Hi. apply in_seq. specialize (Hin1 i Hi). lia. }
  (* scaled by 2^D' with D' >= D, M *)
  assert (Hsc : 2 ^ N.of_nat M <= used /\ (used = 2 ^ N.of_nat M \/ used - 2 ^ N.of_nat M < counts M)).
  { set (B := Nat.max D M).
    (* weights relative to B *)
    assert (HB : weight B d ls = 2 ^ N.of_nat B).
    { assert (G : forall l, (forall i, In i (map snd l) -> (d i <= D)%nat) -> weight B d l = 2 ^ N.of_nat (B - D) * weight D d l).
      { induction l as [|x l IH]; intros Hl; [unfold weight; cbn; lia|]. unfold weight in *. cbn [fold_right]. rewrite IH by (intros; apply Hl; right; assumption).
        specialize (Hl (snd x) ltac:(left; reflexivity)). replace (B - d (snd x))%nat with ((B - D) + (D - d (snd x)))%nat by lia. rewrite Nat2N.inj_add, N.pow_add_r. lia. }
      rewrite G by exact HD. rewrite HW, <- N.pow_add_r. f_equal. lia. }
    set (K := 2 ^ N.of_nat (B - M)). assert (HK : 2 ^ N.of_nat B = K * 2 ^ N.of_nat M) by (unfold K; rewrite <- N.pow_add_r; f_equal; lia).
    assert (Hpos : 0 < K) by apply pow2_pos.
    assert (HdB : forall i, In i (map snd ls) -> (d i <= B)%nat) by (intros i Hi; specialize (HD i Hi); lia).
    (* each leaf: K * sp (min d M) is at least 2^(B-d), and exceeds it by less than K when clamped, by 0 otherwise *)
    assert (G : forall l, (forall i, In i (map snd l) -> (d i <= B)%nat) ->
       let u := fold_right (fun x acc => sp (g x) + acc) 0 l in let deep := N.of_nat (length (filter (fun p => (M <? d (snd p))%nat) l)) in
       weight B d l <= K * u /\ (K * u = weight B d l /\ deep = 0 \/ K * u < weight B d l + K * deep)).
    { induction l as [|x l IH]; intros Hl; [cbn; split; [lia|left; split; lia]|]. cbn zeta in *.
      destruct (IH ltac:(intros; apply Hl; right; assumption)) as [I1 I2]. specialize (Hl (snd x) ltac:(left; reflexivity)).
      unfold weight in *. cbn [fold_right filter]. fold (weight B d l) in *. unfold sp at 1 3 5, g at 1 3 5.
      destruct (Nat.ltb_spec M (d (snd x))) as [Hx|Hx]; cbn [length].
      - rewrite Nat.min_r by lia. rewrite Nat.sub_diag. change (2 ^ N.of_nat 0) with 1. pose proof (pow2_pos (N.of_nat (B - d (snd x)))).
        assert (2 ^ N.of_nat (B - d (snd x)) <= K) by (apply N.pow_le_mono_r; lia). split; [lia|]. right. destruct I2 as [[I2 I3]|I2]; lia.
      - rewrite Nat.min_l by lia. assert (E : 2 ^ N.of_nat (B - d (snd x)) = K * 2 ^ N.of_nat (M - d (snd x))) by (unfold K; rewrite <- N.pow_add_r; f_equal; lia).
        rewrite E. split; [lia|]. destruct I2 as [[I2 I3]|I2]; [left; split; lia|right; lia]. }
    destruct (G ls HdB) as [G1 G2]. cbn zeta in *. rewrite <- (Ecs sp) in G1, G2. fold used in G1, G2. rewrite HB, HK in *.
    split; [nia|]. destruct G2 as [[G2 _]|G2]; [left; nia|]. right.
    assert (Hdm : N.of_nat (length (filter (fun p => (M <? d (snd p))%nat) ls)) <= counts M).
    { unfold counts, depthCounts. fold ls. clear - HM.
      induction ls as [|x l IH]; [reflexivity|]. cbn [filter]. destruct (Nat.ltb_spec M (d (snd x))); destruct (Nat.eqb_spec (Nat.min (d (snd x)) M) M); cbn [length]; lia. }
    set (deep := N.of_nat (length (filter (fun p => (M <? d (snd p))%nat) ls))) in *. nia. }
  destruct Hsc as [Hge Hcl].
  destruct (limitLoop_spec M HM (N.to_nat (used - 2 ^ N.of_nat M)) counts used eq_refl ltac:(lia) Hge ltac:(lia) Hcl) as [R1 R2].
  set (limited := limitLoop _ _ _ _) in *. clearbody limited. cbn zeta in *.
  destruct (widthsDown_spec M limited M (le_n M)) as (W1 & W2 & W3). cbn zeta in *. fold sp in R1, W3.
  assert (PS : Permutation (map snd (sortNodes ls)) (map snd ls)) by (apply Permutation_map, sort_perm).
  assert (Ls : length (map snd (sortNodes ls)) = length (widthsDown limited M)) by (rewrite (Permutation_length PS), map_length; lia).
  destruct (assign_fold M (map snd (sortNodes ls)) (widthsDown limited M) (repeat 0%nat n) Ls) as (A1 & A2 & A3 & A4 & A5); try assumption.
  { eapply Permutation_NoDup; [symmetry; exact PS|exact Hnd]. }
  { intros i Hi. rewrite repeat_length. split; [apply Hin1, (Permutation_in _ PS), Hi|apply nth_zeros]. }
  { apply Forall_forall. intros x Hx. apply repeat_spec in Hx. lia. }
  unfold assignLengths. split; [rewrite A1; apply repeat_length|]. split.
  - split; [exact A3|]. rewrite A2, kraft_zeros. lia.
  - intros s Hs. unfold hasCode. apply A4. apply (Permutation_in _ (Permutation_sym PS)). apply Hin. split; [|apply atLeastTwo_keeps, Hs].
    destruct (le_lt_dec n s) as [Hl|Hl]; [|exact Hl]. rewrite nth_overflow in Hs by exact Hl. congruence.
Qed.
