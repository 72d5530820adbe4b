(* Properties of tensors and views (C192-C198). *)

From Coq Require Import Arith List Bool Lia Permutation.
From Verif Require Import TensorModel TensorSpec TensorProofs.
Import ListNotations.

Local Open Scope nat_scope.

Section Props.
Context {A : Type}.

(* An owning tensor in its normal state. *)
Definition normal (o : own A) : Prop := oStr o = strides (oExt o) /\ length (oMem o) = count (oExt o).
Lemma normal_sound o : normal o -> sound (viewOf o) /\ rowMajor (oExt o) (oStr o).
Proof. intros [H1 H2]. pose proof (strides_row (oExt o)) as Hr. rewrite <- H1 in Hr. split; [split; [exact (row_length _ _ Hr)|exact H2]|exact Hr]. Qed.

(* ---------- C192: addressing ---------- *)

(* at() with as many indices as there are dimensions refers to the cell whose
   number is the place of the tuple among all tuples, last index fastest; it
   throws iff an index is too large.  With another number of indices (not
   one) it throws. *)
Theorem C192_at : forall (o : own A) idx, normal o -> length idx = length (oExt o) \/ length idx <> 1 ->
  forall c, at_ (viewOf o) idx = Some c <-> nth_error (tuples (oExt o)) c = Some idx.
Proof.
  intros o idx Hn Hl c. destruct (normal_sound o Hn) as [Hs Hr]. destruct Hn as [_ Hc].
  assert (G : at_ (viewOf o) idx = if below idx (oExt o) then Some (place idx (oStr o)) else None).
  { unfold at_, boundsCheck, indexOf. cbn [ext str off len viewOf]. rewrite !dot_place.
    assert (Hb : below idx (oExt o) = true -> (length idx =? length (oExt o)) = true)
      by (intros B; apply Nat.eqb_eq, fits_length, below_fits; exact B).
    destruct idx as [|k [|k2 r]].
    - rewrite Nat.add_0_l. destruct (below [] (oExt o)); [rewrite Hb; reflexivity|rewrite andb_false_r; reflexivity].
    - destruct Hl as [Hl|Hl]; [|cbn in Hl; lia]. destruct (oExt o) as [|x [|y e]]; try discriminate.
      destruct (oStr o) as [|t [|u q]]; try (cbn in Hr; tauto). destruct Hr as [-> _]. cbn [below place]. unfold count at 1. cbn [tuples length].
      rewrite Nat.mul_1_r, Nat.add_0_r, andb_true_r, Nat.add_0_l. rewrite Hc, count_cons. unfold count. cbn [tuples length]. rewrite Nat.mul_1_r. reflexivity.
    - rewrite Nat.add_0_l. destruct (below (k :: k2 :: r) (oExt o)); [rewrite Hb; reflexivity|rewrite andb_false_r; reflexivity]. }
  rewrite G. destruct (below idx (oExt o)) eqn:E.
  - apply below_fits in E. pose proof (row_nth _ _ _ Hr E) as X. split.
    + intros Y. injection Y as <-. exact X.
    + intros Y. f_equal. assert (L : place idx (oStr o) < length (tuples (oExt o))) by (apply nth_error_Some; congruence).
      apply (NoDup_nth_error (tuples (oExt o))); [apply tuples_nodup|exact L|congruence].
  - split; [discriminate|]. intros Y. apply nth_error_In, tuples_fits, below_fits in Y. congruence.
Qed.

(* The tuples are those that fit the extents, each once, and there are as many
   as elements: so each element has exactly one tuple. *)
Theorem C192_tuples : forall (o : own A), normal o ->
  length (tuples (oExt o)) = length (oMem o) /\ NoDup (tuples (oExt o)) /\ (forall idx, In idx (tuples (oExt o)) <-> fits idx (oExt o)).
Proof. intros o [_ H]. split; [symmetry; exact H|]. split; [apply tuples_nodup|intros idx; apply tuples_fits]. Qed.

(* One index counts the elements. *)
Theorem C192_linear : forall (o : own A) k c, at_ (viewOf o) [k] = Some c <-> c = k /\ k < length (oMem o).
Proof.
  intros o k c. unfold at_, boundsCheck, indexOf. cbn [viewOf len off]. destruct (Nat.ltb_spec k (length (oMem o))); split.
  - intros E. injection E as <-. lia.
  - intros [-> _]. reflexivity.
  - discriminate.
  - lia.
Qed.

(* ---------- C193: iteration ---------- *)

(* From begin() to end() a tensor or view gives the element of each tuple, the
   last index moving fastest. *)
Theorem C193_order : forall v, sound v -> cells v = map (cellAt v) (tuples (ext v)).
Proof. exact cells_tuples. Qed.

(* The iterator of an owning tensor gives the same as that of a view of it. *)
Theorem C193_owning : forall (o : own A), normal o -> cellsOwn (viewOf o) = cells (viewOf o).
Proof. intros o H. destruct (normal_sound o H) as [Hs Hr]. symmetry. apply (cells_row (viewOf o) Hs Hr). Qed.

(* Two tensors or views compare equal iff the extents and all elements are. *)
Lemma listEq_spec {B} (eqb : B -> B -> bool) (He : forall a b, eqb a b = true <-> a = b) l : forall k, listEq eqb l k = true <-> l = k.
Proof.
  induction l as [|a l IH]; intros [|b k]; cbn; try (split; [discriminate|discriminate]); [split; reflexivity|].
  rewrite andb_true_iff, He, IH. split; [intros [-> ->]; reflexivity|intros E; injection E; auto].
Qed.
Theorem C193_equal : forall eqb (d : A) m1 v1 m2 v2, (forall a b, eqb a b = true <-> a = b) -> sound v1 -> sound v2 ->
  (equal eqb d m1 v1 m2 v2 = true <->
   ext v1 = ext v2 /\ forall idx, fits idx (ext v1) -> nth (cellAt v1 idx) m1 d = nth (cellAt v2 idx) m2 d).
Proof.
  intros eqb d m1 v1 m2 v2 He H1 H2. unfold equal. rewrite andb_true_iff, (listEq_spec _ Nat.eqb_eq), (listEq_spec _ He).
  rewrite !cells_tuples by assumption. rewrite !map_map. split.
  - intros [E1 E2]. split; [exact E1|]. intros idx Hi. rewrite <- E1 in E2. apply tuples_fits in Hi.
    apply (ext_in_map E2 idx Hi).
  - intros [E1 E2]. split; [exact E1|]. rewrite <- E1. apply map_ext_in. intros idx Hi. apply E2, tuples_fits, Hi.
Qed.

(* ---------- C194: slices and transposition ---------- *)

Theorem C194_slice : forall v rs, sound v -> goodRanges rs (ext v) ->
  sound (slice v rs) /\
  (forall idx, fits idx (ext (slice v rs)) <-> (fits (shift rs idx) (ext v) /\ within rs (shift rs idx))) /\
  (forall idx, fits idx (ext (slice v rs)) -> cellAt (slice v rs) idx = cellAt v (shift rs idx)).
Proof.
  intros v rs [Hs Hl] Hg. pose proof (slice_dims rs (ext v) (str v) Hs Hg) as G. unfold slice, sound, cellAt.
  destruct (sliceDims (ext v) (str v) rs) as [ne o]. destruct G as (G1 & G2 & G3). cbn [ext str len off].
  split; [split; [congruence|apply count_prod]|]. split; [exact G2|]. intros idx Hi. apply fits_length in Hi. rewrite G1 in Hi.
  rewrite <- (G3 idx Hi). lia.
Qed.

Theorem C194_transpose : forall v, sound v ->
  sound (transpose v) /\
  (forall idx, fits idx (ext (transpose v)) <-> fits (rev idx) (ext v)) /\
  (forall idx, fits idx (ext (transpose v)) -> cellAt (transpose v) idx = cellAt v (rev idx)).
Proof.
  intros v [Hs Hl]. unfold transpose, sound, cellAt. cbn [ext str len off]. split; [split; [rewrite !rev_length; exact Hs|apply count_prod]|].
  split.
  - intros idx. split; intros H; apply fits_rev in H; rewrite rev_involutive in H; exact H.
  - intros idx H. apply fits_length in H. rewrite rev_length in H. rewrite <- (place_rev (rev idx)) by (rewrite rev_length; congruence).
    rewrite rev_involutive. reflexivity.
Qed.

(* Axis i of the result is axis axes[i] of the tensor. *)
Theorem C194_axes : forall v axes, sound v -> Permutation axes (seq 0 (length (ext v))) ->
  sound (transposeBy v axes) /\
  forall idx, length idx = length (ext v) ->
    (fits (pick axes idx) (ext (transposeBy v axes)) <-> fits idx (ext v)) /\
    cellAt (transposeBy v axes) (pick axes idx) = cellAt v idx.
Proof.
  intros v axes [Hs Hl] Hp. unfold transposeBy, sound, cellAt. cbn [ext str len off].
  assert (La : length axes = length (ext v)) by (rewrite (Permutation_length Hp), seq_length; reflexivity).
  split; [split; [unfold pick; rewrite !map_length; reflexivity|apply count_prod]|]. intros idx Hi. split.
  - rewrite !fits_nth by (try exact Hi; unfold pick; rewrite !map_length; reflexivity). unfold pick at 1. rewrite map_length. split.
    + intros H d Hd. assert (Hin : In d axes) by (apply (Permutation_in _ (Permutation_sym Hp)), in_seq; lia).
      destruct (In_nth axes d 0 Hin) as (k & Hk & E). specialize (H k Hk). rewrite !nth_pick, E in H by exact Hk. exact H.
    + intros H d Hd. rewrite !nth_pick by exact Hd. apply H. assert (Hin : In (nth d axes 0) axes) by (apply nth_In; exact Hd).
      apply (Permutation_in _ Hp), in_seq in Hin. lia.
  - f_equal. rewrite place_pick, place_sum by congruence. apply sum_perm, Permutation_map. rewrite Hs. exact Hp.
Qed.

(* ---------- C195: reshaping and copying ---------- *)

Theorem C195_contiguous : forall v, sound v -> (isContiguous v = true <-> rowMajor (ext v) (str v)).
Proof. intros v [H _]. apply contiguous_row. exact H. Qed.

(* A contiguous tensor or view keeps its elements and their order. *)
Theorem C195_reshape : forall mx v ne v', 1 <= mx -> sound v -> isContiguous v = true -> reshape mx v ne = Some v' ->
  ext v' = ne /\ sound v' /\ isContiguous v' = true /\ cells v' = cells v.
Proof.
  intros mx v ne v' Hm Hs Hc H. apply C195_contiguous in Hc; [|exact Hs]. unfold reshape, product in H.
  destruct (productFrom mx 1 ne) as [n|] eqn:E; [|discriminate]. destruct (Nat.eqb_spec n (len v)) as [En|En]; [|discriminate].
  injection H as <-. apply productFrom_some in E as [E _]; [|exact Hm]. pose proof (strides_row ne) as Hr.
  assert (Hs' : sound (mkV ne (strides ne) (off v) (len v))) by (split; cbn [ext str len]; [exact (row_length _ _ Hr)|lia]).
  split; [reflexivity|]. split; [exact Hs'|]. split; [apply C195_contiguous; [exact Hs'|exact Hr]|].
  rewrite (cells_row v Hs Hc). apply (cells_row _ Hs' Hr).
Qed.

(* It is refused iff the sizes differ (no extent 0; see C198). *)
Theorem C195_reshape_when : forall mx v ne, 1 <= mx -> len v <= mx -> Forall (fun x => x <> 0) ne ->
  (reshape mx v ne <> None <-> count ne = len v).
Proof.
  intros mx v ne Hm Hl Hz. unfold reshape, product. destruct (productFrom mx 1 ne) as [n|] eqn:E.
  - apply productFrom_some in E as [E _]; [|exact Hm]. destruct (Nat.eqb_spec n (len v)); split; intros; try congruence; try lia; discriminate.
  - apply productFrom_none in E; [|exact Hz]. split; [congruence|lia].
Qed.

(* Reshaping a view whose elements are not in one piece shows other elements
   or another order. *)
Theorem C195_view_refuted : forall mx v ne v', 1 <= mx -> reshape mx v ne = Some v' -> cells v <> seq (off v) (len v) -> cells v' <> cells v.
Proof.
  intros mx v ne v' Hm H Hc. unfold reshape, product in H.
  destruct (productFrom mx 1 ne) as [n|] eqn:E; [|discriminate]. destruct (Nat.eqb_spec n (len v)) as [En|En]; [|discriminate].
  injection H as <-. apply productFrom_some in E as [E _]; [|exact Hm]. pose proof (strides_row ne) as Hr.
  assert (Hs' : sound (mkV ne (strides ne) (off v) (len v))) by (split; cbn [ext str len]; [exact (row_length _ _ Hr)|lia]).
  rewrite (cells_row _ Hs' Hr). cbn [off len]. congruence.
Qed.

(* A copy of any tensor or view has the same extents and elements. *)
Theorem C195_copy : forall (d : A) m v, sound v ->
  normal (copyOf d m v) /\ oExt (copyOf d m v) = ext v /\
  forall idx, fits idx (ext v) -> nth (cellAt (viewOf (copyOf d m v)) idx) (oMem (copyOf d m v)) d = nth (cellAt v idx) m d.
Proof.
  intros d m v Hs. assert (Hn : normal (copyOf d m v)).
  { split; [reflexivity|]. cbn [copyOf oMem oExt]. rewrite cells_tuples by exact Hs. rewrite !map_length. reflexivity. }
  split; [exact Hn|]. split; [reflexivity|]. intros idx Hi. unfold cellAt at 1. cbn [viewOf off str copyOf oStr oMem]. rewrite Nat.add_0_l.
  pose proof (row_nth _ _ _ (strides_row (ext v)) Hi) as X. rewrite cells_tuples by exact Hs. rewrite map_map.
  apply nth_error_nth. apply (map_nth_error (fun i => nth (cellAt v i) m d) _ _ X).
Qed.

(* ---------- C196: one index and fill on views ---------- *)

Theorem C196_contiguous : forall v k, sound v -> isContiguous v = true -> at_ v [k] = nth_error (cells v) k /\ fillCells v = cells v.
Proof.
  intros v k Hs Hc. apply C195_contiguous in Hc; [|exact Hs]. rewrite (cells_row v Hs Hc). split; [|reflexivity].
  unfold at_, boundsCheck, indexOf. destruct (Nat.ltb_spec k (len v)) as [H|H].
  - rewrite (nth_error_nth' _ 0) by (rewrite seq_length; exact H). rewrite seq_nth by exact H. reflexivity.
  - symmetry. apply nth_error_None. rewrite seq_length. exact H.
Qed.

(* On other views one index does not give the element that iteration gives
   there. *)
Theorem C196_one_index_refuted : forall v k c, k < len v -> nth_error (cells v) k = Some c -> c <> off v + k -> at_ v [k] <> nth_error (cells v) k.
Proof.
  intros v k c Hk E Hc. rewrite E. unfold at_, boundsCheck, indexOf. destruct (Nat.ltb_spec k (len v)); [|lia]. intros X. injection X as X. congruence.
Qed.

(* fill() of the second column of a matrix writes the first cells of the
   memory behind its first element: others are overwritten, its own are not. *)
Theorem C196_fill_refuted : forall n m, 2 <= n -> 2 <= m ->
  let o := mkV [n; m] (strides [n; m]) 0 (n * m) in
  let v := slice o [(0, n); (1, 2)] in
  In (1 + m) (cells v) /\ (n < m + 1 -> ~ In (1 + m) (fillCells v)) /\ In 2 (fillCells v) /\ ~ In 2 (cells v).
Proof.
  intros n m Hn Hm. cbv zeta.
  assert (Hs : sound (mkV [n; m] (strides [n; m]) 0 (n * m))).
  { split; [reflexivity|]. cbn [len ext]. rewrite !count_cons. unfold count. cbn. lia. }
  assert (Hg : goodRanges [(0, n); (1, 2)] [n; m]) by (cbn; lia).
  destruct (C194_slice _ _ Hs Hg) as (S1 & _ & _). rewrite (cells_tuples _ S1).
  assert (E : slice (mkV [n; m] (strides [n; m]) 0 (n * m)) [(0, n); (1, 2)] = mkV [n; 1] [m; 1] 1 n).
  { unfold slice. cbn [ext str off sliceDims strides hd prodE fold_right]. f_equal; [f_equal; lia|f_equal; lia|lia]. }
  rewrite E. cbn [ext]. unfold cellAt. cbn [off str].
  assert (G : forall c, In c (map (fun idx => 1 + place idx [m; 1]) (tuples [n; 1])) <-> exists i, i < n /\ c = 1 + i * m).
  { intros c. rewrite in_map_iff. split.
    - intros (idx & <- & Hi). apply tuples_fits in Hi. inversion Hi as [|i x r q H1 H2]. subst. inversion H2 as [|j y r' q' H3 H4]. subst. inversion H4. subst.
      exists i. split; [exact H1|]. cbn. lia.
    - intros (i & Hi & ->). exists [i; 0]. split; [cbn; lia|]. apply tuples_fits. repeat constructor; lia. }
  split; [apply G; exists 1; lia|]. split; [|split].
  - unfold fillCells. cbn [off len]. rewrite in_seq. lia.
  - unfold fillCells. cbn [off len]. apply in_seq. lia.
  - intros H. apply G in H as (i & Hi & X). destruct i as [|i]; [lia|]. nia.
Qed.

(* ---------- C197: resizing ---------- *)

Theorem C197_resize : forall mx (o o' : own A) ne x, 1 <= mx -> ne <> [] -> resize mx o ne x = (o', true) ->
  oExt o' = ne /\ normal o' /\ Forall (fun y => y = x) (oMem o').
Proof.
  intros mx o o' ne x Hm Hne H. destruct ne as [|e r]; [contradiction|]. unfold resize, product in H.
  destruct (productFrom mx 1 (e :: r)) as [n|] eqn:E; [|discriminate]. injection H as <-. apply productFrom_some in E as [E _]; [|exact Hm].
  split; [reflexivity|]. split; [split; [reflexivity|cbn [oMem oExt]; rewrite repeat_length; lia]|].
  apply Forall_forall. intros y Hy. apply repeat_spec in Hy. exact Hy.
Qed.

(* Changing the first extent keeps every element that fits both. *)
Theorem C197_first_dimension : forall mx (o o' : own A) x z, 1 <= mx -> normal o -> resizeDim mx o 0 x z = (o', true) ->
  normal o' /\ oExt o' = x :: tl (oExt o) /\
  forall idx, fits idx (oExt o) -> fits idx (oExt o') ->
    nth_error (oMem o') (place idx (oStr o')) = nth_error (oMem o) (place idx (oStr o)).
Proof.
  intros mx o o' x z Hm Hn H. pose proof Hn as [N1 N2]. unfold resizeDim in H. destruct (oExt o) as [|e r] eqn:Ee; [discriminate|].
  change (length (e :: r) <=? 0) with false in H. cbv iota in H. cbn [nth] in H. destruct (Nat.eqb_spec e x) as [Ex|Ex].
  - injection H as <-. rewrite Ee, Ex. cbn [tl]. split; [exact Hn|]. auto.
  - cbn [setNth] in H. unfold product in H. destruct (productFrom mx 1 (x :: r)) as [n|] eqn:E; [|discriminate].
    assert (Ho : o' = mkO (x :: r) (strides (x :: r)) (firstn n (oMem o) ++ repeat z (n - length (oMem o)))) by congruence. rewrite Ho. clear H Ho.
    apply productFrom_some in E as [E _]; [|exact Hm]. rewrite Nat.mul_1_l in E. cbn [oExt oStr oMem tl].
    assert (Hl : length (firstn n (oMem o) ++ repeat z (n - length (oMem o))) = n) by (rewrite app_length, firstn_length, repeat_length; lia).
    split; [split; [reflexivity|cbn [oMem oExt]; congruence]|]. split; [reflexivity|]. intros idx F1 F2.
    assert (Es : strides (x :: r) = strides (e :: r)) by (destruct r; reflexivity). rewrite Es, N1.
    pose proof (row_nth _ _ _ (strides_row (e :: r)) F1) as X1. pose proof (row_nth _ _ _ (strides_row (x :: r)) F2) as X2. rewrite Es in X2.
    assert (L1 : place idx (strides (e :: r)) < length (oMem o)) by (rewrite N2; unfold count; apply nth_error_Some; congruence).
    assert (L2 : place idx (strides (e :: r)) < n) by (rewrite E; unfold count; apply nth_error_Some; congruence).
    rewrite nth_error_app1 by (rewrite firstn_length; lia).
    rewrite <- (firstn_skipn n (oMem o)) at 2. rewrite nth_error_app1 by (rewrite firstn_length; lia). reflexivity.
Qed.

(* Changing another extent moves elements to other tuples. *)
Theorem C197_other_dimension_refuted : forall mx (a b c d z : A), 6 <= mx ->
  let o := mkO [2; 2] (strides [2; 2]) [a; b; c; d] in
  let o' := fst (resizeDim mx o 1 3 z) in
  normal o /\ snd (resizeDim mx o 1 3 z) = true /\
  nth_error (oMem o) (place [1; 0] (oStr o)) = Some c /\ nth_error (oMem o') (place [1; 0] (oStr o')) = Some d.
Proof.
  intros mx a b c d z Hm. cbv zeta. unfold resizeDim. cbn [oExt oMem oStr length Nat.leb nth setNth]. change (2 =? 3) with false. cbv iota.
  assert (E : product mx [2; 3] = Some 6).
  { unfold product. cbn [productFrom Nat.eqb negb andb Nat.mul Nat.add].
    destruct (Nat.ltb_spec (mx / 2) 1) as [H|H]; [exfalso; assert (1 <= mx / 2) by (apply Nat.div_le_lower_bound; lia); lia|].
    destruct (Nat.ltb_spec (mx / 3) 2) as [H2|H2]; [exfalso; assert (2 <= mx / 3) by (apply Nat.div_le_lower_bound; lia); lia|]. reflexivity. }
  rewrite E. repeat split.
Qed.

(* A resize_dim that throws leaves the new extent with the old memory: at()
   lets tuples pass that lie outside of the memory. *)
Theorem C197_throw_refuted : forall mx (l : list A) z, 6 <= mx -> length l = 6 ->
  let o := mkO [2; 3] (strides [2; 3]) l in
  let o' := fst (resizeDim mx o 0 mx z) in
  normal o /\ snd (resizeDim mx o 0 mx z) = false /\
  exists c, at_ (viewOf o') [5; 0] = Some c /\ length (oMem o') <= c.
Proof.
  intros mx l z Hm Hl. cbv zeta. unfold resizeDim. cbn [oExt oMem oStr length Nat.leb nth setNth].
  destruct (Nat.eqb_spec 2 mx); [lia|].
  assert (E : product mx [mx; 3] = None).
  { unfold product. cbn [productFrom]. destruct (Nat.eqb_spec mx 0); [lia|]. cbn [negb andb]. rewrite Nat.div_same by lia.
    change (1 <? 1) with false. cbv iota. rewrite Nat.mul_1_l. change (negb (3 =? 0)) with true. cbn [andb].
    destruct (Nat.ltb_spec (mx / 3) mx) as [H|H]; [reflexivity|]. exfalso. assert (mx / 3 < mx) by (apply Nat.div_lt; lia). lia. }
  rewrite E. cbn [fst snd]. split; [split; [reflexivity|exact Hl]|]. split; [reflexivity|]. exists 15. split; [|cbn [oMem]; lia].
  unfold at_, boundsCheck, indexOf. cbn [viewOf ext str off len oExt oStr length below].
  destruct (Nat.ltb_spec 5 mx); [|lia]. reflexivity.
Qed.

(* ---------- C198: the number of elements ---------- *)

Theorem C198_product : forall mx e, 1 <= mx ->
  (forall n, product mx e = Some n -> n = count e /\ n <= mx) /\
  (Forall (fun x => x <> 0) e -> (product mx e = None <-> mx < count e)).
Proof.
  intros mx e Hm. unfold product. split.
  - intros n H. apply productFrom_some in H; [|exact Hm]. lia.
  - intros Hz. split; [intros H; apply productFrom_none in H; [lia|exact Hz]|]. intros H. destruct (productFrom mx 1 e) as [n|] eqn:E; [|reflexivity].
    apply productFrom_some in E; [|exact Hm]. lia.
Qed.

(* With an extent 0 the order of the extents decides whether it throws. *)
Theorem C198_zero_refuted : forall mx, 2 <= mx -> product mx [mx; 2; 0] = None /\ product mx [0; mx; 2] = Some 0 /\ count [mx; 2; 0] = 0.
Proof.
  intros mx Hm. unfold product. cbn [productFrom]. split; [|split].
  - destruct (Nat.eqb_spec mx 0); [lia|]. cbn [negb andb]. rewrite Nat.div_same by lia. change (1 <? 1) with false. cbv iota.
    change (negb (2 =? 0)) with true. cbn [andb]. rewrite Nat.mul_1_l. destruct (Nat.ltb_spec (mx / 2) mx) as [H|H]; [reflexivity|].
    exfalso. assert (mx / 2 < mx) by (apply Nat.div_lt; lia). lia.
  - change (negb (0 =? 0)) with false. cbn [andb Nat.mul]. destruct (Nat.eqb_spec mx 0); [lia|]. cbn [negb andb].
    destruct (Nat.ltb_spec (mx / mx) 0); [lia|]. change (negb (2 =? 0)) with true. cbn [andb]. destruct (Nat.ltb_spec (mx / 2) 0); [lia|reflexivity].
  - rewrite !count_cons. lia.
Qed.
End Props.

Print Assumptions C192_at.
Print Assumptions C192_tuples.
Print Assumptions C192_linear.
Print Assumptions C193_order.
Print Assumptions C193_owning.
Print Assumptions C193_equal.
Print Assumptions C194_slice.
Print Assumptions C194_transpose.
Print Assumptions C194_axes.
Print Assumptions C195_contiguous.
Print Assumptions C195_reshape.
Print Assumptions C195_reshape_when.
Print Assumptions C195_view_refuted.
Print Assumptions C195_copy.
Print Assumptions C196_contiguous.
Print Assumptions C196_one_index_refuted.
Print Assumptions C196_fill_refuted.
Print Assumptions C197_resize.
Print Assumptions C197_first_dimension.
Print Assumptions C197_other_dimension_refuted.
Print Assumptions C197_throw_refuted.
Print Assumptions C198_product.
Print Assumptions C198_zero_refuted.

(* ---------- cases ---------- *)

Definition oEx : own nat := mkO [2; 3] [3; 1] [10; 11; 12; 13; 14; 15].
Example C192_ex : normal oEx /\ at_ (viewOf oEx) [1; 1] = Some 4 /\ at_ (viewOf oEx) [0; 3] = None /\ at_ (viewOf oEx) [1; 0; 0] = None /\ at_ (viewOf oEx) [4] = Some 4.
Proof. vm_compute. repeat split. Qed.
Example C193_ex : sound (transpose (viewOf oEx)) /\ cells (transpose (viewOf oEx)) = [0; 3; 1; 4; 2; 5] /\ cellsOwn (viewOf oEx) = cells (viewOf oEx).
Proof. vm_compute. repeat split. Qed.
Example C193_equal_ex : equal Nat.eqb 0 (oMem oEx) (transpose (viewOf oEx)) [10; 13; 11; 14; 12; 15] (mkV [3; 2] [2; 1] 0 6) = true.
Proof. vm_compute. reflexivity. Qed.
Example C194_ex : sound (viewOf oEx) /\ goodRanges [(1, 2); (1, 3)] (oExt oEx) /\ cells (slice (viewOf oEx) [(1, 2); (1, 3)]) = [4; 5] /\
  ext (slice (viewOf oEx) [(1, 2)]) = [1; 3].
Proof. vm_compute. repeat split; lia. Qed.
Example C194_axes_ex : let v := mkV [2; 3; 4] (strides [2; 3; 4]) 0 24 in
  Permutation [2; 0; 1] (seq 0 3) /\ ext (transposeBy v [2; 0; 1]) = [4; 2; 3] /\ cellAt (transposeBy v [2; 0; 1]) [3; 1; 2] = cellAt v [1; 2; 3].
Proof. cbv zeta. split; [apply (Permutation_app_comm [2] [0; 1])|vm_compute; split; reflexivity]. Qed.
Example C195_ex : option_map ext (reshape 100 (viewOf oEx) [3; 1; 2]) = Some [3; 1; 2] /\ isContiguous (viewOf oEx) = true /\
  reshape 100 (viewOf oEx) [4; 2] = None /\ isContiguous (transpose (viewOf oEx)) = false.
Proof. vm_compute. repeat split. Qed.
Example C195_view_ex : option_map cells (reshape 100 (transpose (viewOf oEx)) [6]) = Some [0; 1; 2; 3; 4; 5] /\
  cells (transpose (viewOf oEx)) <> seq 0 6 /\ oMem (copyOf 0 (oMem oEx) (transpose (viewOf oEx))) = [10; 13; 11; 14; 12; 15].
Proof. vm_compute. repeat split. discriminate. Qed.
Example C196_ex : let v := transpose (viewOf oEx) in 1 < len v /\ nth_error (cells v) 1 = Some 3 /\ at_ v [1] = Some 1.
Proof. vm_compute. repeat split. lia. Qed.
Example C196_fill_ex : cells (slice (viewOf oEx) [(0, 2); (1, 2)]) = [1; 4] /\ fillCells (slice (viewOf oEx) [(0, 2); (1, 2)]) = [1; 2].
Proof. vm_compute. split; reflexivity. Qed.
Example C197_ex : resize 100 oEx [2; 2] 7 = (mkO [2; 2] [2; 1] [7; 7; 7; 7], true) /\
  resizeDim 100 oEx 0 3 7 = (mkO [3; 3] [3; 1] [10; 11; 12; 13; 14; 15; 7; 7; 7], true).
Proof. vm_compute. split; reflexivity. Qed.
Example C198_ex : product 100 [4; 5; 5] = Some 100 /\ product 100 [4; 5; 6] = None.
Proof. vm_compute. split; reflexivity. Qed.
