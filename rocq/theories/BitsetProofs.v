From Coq Require Import List ZArith NArith Arith Bool Lia.
From Verif Require Import Base BitsetModel BitsetSpec.
Import ListNotations.
Require Import ZifyBool ZifyNat ZifyN.
Ltac Zify.zify_post_hook ::= Z.div_mod_to_equations.

Lemma testbit_shl1 k j : N.testbit (shl1 k) (N.of_nat j) = (k =? j).
Proof.
  unfold shl1. rewrite N.shiftl_1_l.
  rewrite N.pow2_bits_eqb. destruct (Nat.eqb_spec k j); [subst; apply N.eqb_refl|apply N.eqb_neq; lia].
Qed.

Lemma testbit_pred_shl1 k j : N.testbit (N.pred (shl1 k)) (N.of_nat j) = (j <? k).
Proof.
  unfold shl1. rewrite N.shiftl_1_l. rewrite <- N.ones_equiv.
  destruct (Nat.ltb_spec j k).
  - apply N.ones_spec_low; lia.
  - apply N.ones_spec_high; lia.
Qed.

Lemma testbit_not64 x j : j < 64 -> N.testbit (not64 x) (N.of_nat j) = negb (N.testbit x (N.of_nat j)).
Proof. intros H. unfold not64. rewrite N.lxor_spec, N.ones_spec_low by lia. apply xorb_true_r. Qed.

Lemma word_mask_spec b e j : j < 64 -> e <= 64 ->
  N.testbit (word_mask b e) (N.of_nat j) = (b <=? j) && (j <? e).
Proof.
  intros Hj He. unfold word_mask, bpw. destruct (Nat.eqb_spec e 64) as [->|Hne].
  - rewrite testbit_not64, testbit_pred_shl1 by exact Hj. lia.
  - rewrite N.land_spec, testbit_not64, !testbit_pred_shl1 by exact Hj. lia.
Qed.

Definition mask_ok (m : N) : Prop := (m < 2 ^ 64)%N.

Lemma ub_bits x : (x < 2 ^ 64)%N <-> (forall j, 64 <= j -> N.testbit x (N.of_nat j) = false).
Proof.
  split.
  - intros H j Hj. destruct (N.eq_dec x 0) as [->|Hx]; [apply N.bits_0|].
    apply N.bits_above_log2. apply N.log2_lt_pow2 in H; lia.
  - intros H. destruct (N.lt_ge_cases x (2 ^ 64)) as [L|L]; [exact L|exfalso].
    assert (Hx : x <> 0%N) by (intros ->; apply N.le_0_r in L; discriminate).
    pose proof (N.bit_log2 x Hx) as B.
    assert (64 <= N.log2 x)%N by (apply N.log2_le_pow2; [apply N.neq_0_lt_0; exact Hx|exact L]).
    specialize (H (N.to_nat (N.log2 x))). rewrite N2Nat.id in H. rewrite H in B by lia. discriminate.
Qed.

Lemma new_bits_spec old m v j : j < 64 ->
  N.testbit (new_bits old m v) (N.of_nat j) = if N.testbit m (N.of_nat j) then v else N.testbit old (N.of_nat j).
Proof.
  intros Hj. unfold new_bits. destruct v.
  - rewrite N.lor_spec. destruct (N.testbit m _), (N.testbit old _); reflexivity.
  - rewrite N.land_spec, testbit_not64 by exact Hj. destruct (N.testbit m _), (N.testbit old _); reflexivity.
Qed.

Lemma testbit_mul x j : negb (N.eqb (N.land x (shl1 j)) 0) = N.testbit x (N.of_nat j).
Proof.
  destruct (N.testbit x (N.of_nat j)) eqn:E.
  - destruct (N.eqb_spec (N.land x (shl1 j)) 0) as [H|H]; [exfalso|reflexivity].
    assert (T : N.testbit (N.land x (shl1 j)) (N.of_nat j) = true) by (rewrite N.land_spec, testbit_shl1, Nat.eqb_refl, E; reflexivity).
    rewrite H, N.bits_0 in T; discriminate.
  - assert (H : N.land x (shl1 j) = 0%N).
    { apply N.bits_inj. intros k. rewrite N.bits_0, N.land_spec.
      rewrite <- (N2Nat.id k), testbit_shl1. destruct (Nat.eqb_spec j (N.to_nat k)) as [->|Hk]; [rewrite E; reflexivity|apply andb_false_r]. }
    rewrite H; reflexivity.
Qed.

(** Bit [i] of a word array. *)
Definition bit (ws : list N) (i : nat) : bool := match nth_error ws (i / 64) with Some w => N.testbit w (N.of_nat (i mod 64)) | None => false end.

Lemma test_words_bit ws i : i / 64 < length ws -> test_words ws i = Some (bit ws i).
Proof.
  intros H. unfold test_words, bit, bpw. destruct (nth_error ws (i / 64)) eqn:E.
  - rewrite testbit_mul. reflexivity.
  - apply nth_error_None in E; lia.
Qed.

(** Does a word update address bit [i]? *)
Definition hits (o : wop) (i : nat) : bool :=
  match o with
  | Masked w m _ => (w =? i / 64) && N.testbit m (N.of_nat (i mod 64))
  | Full w _ => w =? i / 64
  end.
Definition wval (o : wop) : bool := match o with Masked _ _ v => v | Full _ v => v end.
Definition wword (o : wop) : nat := match o with Masked w _ _ => w | Full w _ => w end.

(** Total version of [exec_wop], identity out of range. *)
Definition exec_t (ws : list N) (o : wop) : list N :=
  match o with
  | Masked w m v => match nth_error ws w with Some old => upd ws w (new_bits old m v) | None => ws end
  | Full w v => upd ws w (if v then N.ones 64 else 0%N)
  end.

Lemma length_exec_t ws o : length (exec_t ws o) = length ws.
Proof. destruct o; simpl; [destruct (nth_error _ _)|]; rewrite ?length_upd; reflexivity. Qed.

Lemma exec_wop_t ws o : wword o < length ws -> exec_wop ws o = Some (exec_t ws o).
Proof.
  destruct o as [w m v|w v]; simpl; intros H; destruct (nth_error ws w) eqn:E; try reflexivity;
    apply nth_error_None in E; lia.
Qed.

Lemma mod64_lt i : i mod 64 < 64. Proof. lia. Qed.

Lemma bit_exec_t ws o i : wword o < length ws -> bit (exec_t ws o) i = if hits o i then wval o else bit ws i.
Proof.
  intros H. unfold bit. destruct o as [w m v|w v]; cbn [exec_t hits wval wword] in *.
  - destruct (nth_error ws w) as [old|] eqn:E; [|apply nth_error_None in E; lia].
    destruct (Nat.eqb_spec w (i / 64)) as [Hw|Hw]; cbn [andb].
    + subst w. rewrite (nth_upd_same _ _ _ _ E), E. apply new_bits_spec, mod64_lt.
    + rewrite nth_upd_other by exact Hw. reflexivity.
  - destruct (Nat.eqb_spec w (i / 64)) as [Hw|Hw].
    + subst w. rewrite nth_upd_same' by exact H. destruct v; [apply N.ones_spec_low; lia|apply N.bits_0].
    + rewrite nth_upd_other by exact Hw. reflexivity.
Qed.

Lemma ub_not64 x : (x < 2^64)%N -> (not64 x < 2^64)%N.
Proof.
  intros H. apply ub_bits. intros j Hj. unfold not64. rewrite N.lxor_spec, N.ones_spec_high by lia.
  rewrite (proj1 (ub_bits _) H) by lia. reflexivity.
Qed.

Lemma ub_land_l x y : (x < 2^64)%N -> (N.land x y < 2^64)%N.
Proof. intros H. apply ub_bits. intros j Hj. rewrite N.land_spec. rewrite (proj1 (ub_bits _) H) by lia. reflexivity. Qed.

Lemma ub_lor x y : (x < 2^64)%N -> (y < 2^64)%N -> (N.lor x y < 2^64)%N.
Proof.
  intros H H'. apply ub_bits. intros j Hj. rewrite N.lor_spec.
  rewrite (proj1 (ub_bits _) H), (proj1 (ub_bits _) H') by lia. reflexivity.
Qed.

Lemma ub_pred_shl1 k : k <= 64 -> (N.pred (shl1 k) < 2^64)%N.
Proof. intros H. apply ub_bits. intros j Hj. rewrite testbit_pred_shl1. apply Nat.ltb_ge; lia. Qed.

Lemma ub_shl1 k : k < 64 -> (shl1 k < 2^64)%N.
Proof. intros H. apply ub_bits. intros j Hj. rewrite testbit_shl1. apply Nat.eqb_neq; lia. Qed.

Lemma word_mask_ub b e : b < 64 -> e <= 64 -> (word_mask b e < 2^64)%N.
Proof.
  intros Hb He. unfold word_mask. destruct (e =? bpw).
  - apply ub_not64, ub_pred_shl1; lia.
  - apply ub_land_l, ub_pred_shl1; lia.
Qed.

Definition wop_ok (n : nat) (o : wop) : Prop :=
  wword o < n /\ match o with Masked _ m _ => (m < 2 ^ 64)%N | _ => True end.

Lemma In_upd {A} (l : list A) i v x : In x (upd l i v) -> x = v \/ In x l.
Proof.
  revert i; induction l as [|y l IH]; intros [|i] H; simpl in *; auto.
  - destruct H as [H|H]; auto.
  - destruct H as [H|H]; [auto|]. destruct (IH _ H); auto.
Qed.

Lemma exec_t_ub ws o : wop_ok (length ws) o -> (forall w, In w ws -> (w < 2^64)%N) -> forall w, In w (exec_t ws o) -> (w < 2^64)%N.
Proof.
  intros [Hw Hm] H w Hin. destruct o as [k m v|k v]; cbn [exec_t] in Hin.
  - destruct (nth_error ws k) as [old|] eqn:E; [|apply H, Hin].
    apply In_upd in Hin. destruct Hin as [->|Hin]; [|apply H, Hin].
    apply nth_error_In in E. apply H in E. unfold new_bits. destruct v; [apply ub_lor|apply ub_land_l]; assumption.
  - apply In_upd in Hin. destruct Hin as [->|Hin]; [|apply H, Hin]. destruct v; reflexivity.
Qed.

Definition exec_ts := fold_left exec_t.

Lemma length_exec_ts os ws : length (exec_ts os ws) = length ws.
Proof. revert ws; induction os as [|o os IH]; intros ws; [reflexivity|]. cbn. rewrite IH. apply length_exec_t. Qed.

Lemma exec_wops_t os ws : Forall (wop_ok (length ws)) os -> exec_wops ws os = Some (exec_ts os ws).
Proof.
  revert ws; induction os as [|o os IH]; intros ws H; [reflexivity|].
  inversion H as [|? ? Ho Hos]; subst. cbn [exec_wops]. rewrite exec_wop_t by apply Ho.
  apply IH. rewrite length_exec_t. exact Hos.
Qed.

Lemma exec_ts_ub os ws : Forall (wop_ok (length ws)) os -> (forall w, In w ws -> (w < 2^64)%N) ->
  forall w, In w (exec_ts os ws) -> (w < 2^64)%N.
Proof.
  revert ws; induction os as [|o os IH]; intros ws H Hu; [exact Hu|].
  inversion H as [|? ? Ho Hos]; subst. apply IH; [rewrite length_exec_t; exact Hos|].
  apply exec_t_ub; assumption.
Qed.

Lemma bit_exec_ts os ws i : Forall (wop_ok (length ws)) os ->
  bit (exec_ts os ws) i = fold_left (fun b o => if hits o i then wval o else b) os (bit ws i).
Proof.
  revert ws; induction os as [|o os IH]; intros ws H; [reflexivity|].
  inversion H as [|? ? Ho Hos]; subst. cbn [exec_ts fold_left]. fold exec_ts.
  change (bit (exec_ts os (exec_t ws o)) i = fold_left (fun b o => if hits o i then wval o else b) os (if hits o i then wval o else bit ws i)).
  rewrite IH by (rewrite length_exec_t; exact Hos). rewrite bit_exec_t by apply Ho. reflexivity.
Qed.

(** Fold with a constant value. *)
Lemma fold_const (os : list wop) i v b0 : (forall o, In o os -> wval o = v) ->
  fold_left (fun b o => if hits o i then wval o else b) os b0 = if existsb (fun o => hits o i) os then v else b0.
Proof.
  revert b0; induction os as [|o os IH]; intros b0 H; [reflexivity|].
  cbn [fold_left existsb]. rewrite IH by (intros; apply H; right; assumption).
  rewrite (H o (or_introl eq_refl)). destruct (hits o i), (existsb _ os); reflexivity.
Qed.

Lemma range_val b e v o : In o (set_range_ops b e v) -> wval o = v.
Proof.
  unfold set_range_ops. destruct (b =? e); [intros []|].
  destruct (b / bpw =? e / bpw); [intros [<-|[]]; reflexivity|].
  destruct (negb (b mod bpw =? 0)); rewrite !in_app_iff; unfold full_words; rewrite in_map_iff;
    (intros [H|[H|[x [Hx _]]]]; [|destruct (negb (e mod bpw =? 0)); [|destruct H]|subst; reflexivity]);
    repeat (destruct H as [<-|H]; [reflexivity|]); try destruct H.
Qed.

Lemma existsb_full b e v i : existsb (fun o => hits o i) (full_words b e v) = (b <=? i / 64) && (i / 64 <=? e).
Proof.
  unfold full_words. apply eq_true_iff_eq. rewrite existsb_exists. split.
  - intros [o [Ho Hh]]. apply in_map_iff in Ho. destruct Ho as [w [<- Hw]]. apply in_seq in Hw. cbn [hits] in Hh.
    apply Nat.eqb_eq in Hh. subst w. apply andb_true_intro; split; apply Nat.leb_le; lia.
  - intros H. apply andb_prop in H. destruct H as [H1 H2]. apply Nat.leb_le in H1, H2.
    exists (Full (i / 64) v). split; [apply (in_map (fun w => Full w v)), in_seq; lia|]. cbn [hits]. apply Nat.eqb_refl.
Qed.

Lemma range_hits b e v i : b <= e -> existsb (fun o => hits o i) (set_range_ops b e v) = (b <=? i) && (i <? e).
Proof.
  intros Hbe. unfold set_range_ops, bpw.
  destruct (Nat.eqb_spec b e) as [->|Hne]; [cbn [existsb]; lia|].
  destruct (Nat.eqb_spec (b / 64) (e / 64)) as [Hw|Hw].
  - cbn [existsb hits]. rewrite word_mask_spec by lia. lia.
  - rewrite (surjective_pairing (if negb (b mod 64 =? 0) then _ else _)).
    cbv zeta. cbn [fst snd].
    destruct (Nat.eqb_spec (b mod 64) 0) as [Hb|Hb]; destruct (Nat.eqb_spec (e mod 64) 0) as [He|He]; cbn [negb fst snd];
      cbn [app]; rewrite ?existsb_app; cbn [existsb hits app]; rewrite ?existsb_full;
      rewrite ?word_mask_spec by lia; lia.
Qed.

Lemma range_ok n b e v : b <= e -> e <= n -> Forall (wop_ok ((n + bpw - 1) / bpw)) (set_range_ops b e v).
Proof.
  intros Hbe Hen. unfold set_range_ops, bpw.
  destruct (Nat.eqb_spec b e) as [->|Hne]; [constructor|].
  destruct (Nat.eqb_spec (b / 64) (e / 64)) as [Hw|Hw].
  - constructor; [|constructor]. split; cbn [wword]; [lia|apply word_mask_ub; lia].
  - rewrite (surjective_pairing (if negb (b mod 64 =? 0) then _ else _)). cbv zeta.
    apply Forall_app; split; [|apply Forall_app; split].
    + destruct (negb (b mod 64 =? 0)); cbn [fst]; constructor; [|constructor]. split; cbn [wword]; [lia|apply word_mask_ub; lia].
    + destruct (Nat.eqb_spec (e mod 64) 0); cbn [negb]; constructor; [|constructor]. split; cbn [wword]; [lia|apply word_mask_ub; lia].
    + apply Forall_forall. intros o Ho. unfold full_words in Ho. apply in_map_iff in Ho. destruct Ho as [w [<- Hi]].
      apply in_seq in Hi. split; [|exact I]. cbn [wword].
      destruct (negb (b mod 64 =? 0)); cbn [snd] in Hi; lia.
Qed.

Lemma bit_ops_ok n p v : p < n -> Forall (wop_ok ((n + bpw - 1) / bpw)) (set_bit_ops p v).
Proof. intros H. unfold set_bit_ops, bpw. constructor; [|constructor]. split; cbn [wword]; [lia|apply ub_shl1; lia]. Qed.

Lemma call_ops_ok n c : call_ok n c -> Forall (wop_ok ((n + bpw - 1) / bpw)) (call_ops c).
Proof. destruct c; cbn; [apply bit_ops_ok|intros [? ?]; apply range_ok; assumption]. Qed.

Lemma call_hits n c i : call_ok n c -> existsb (fun o => hits o i) (call_ops c) = addresses c i.
Proof.
  destruct c as [p v|b e v]; cbn [call_ops addresses call_ok].
  - intros _. unfold set_bit_ops, bpw. cbn [existsb hits]. rewrite testbit_shl1. lia.
  - intros [H _]. apply range_hits, H.
Qed.

Lemma call_val c o : In o (call_ops c) -> wval o = call_value c.
Proof. destruct c; cbn; [intros [<-|[]]; reflexivity|apply range_val]. Qed.

(** Sequential theorem. *)
Definition exec_call (s : bitset) (c : call) : option bitset :=
  match c with SetBit p v => set_bit s p v | SetRange b e v => set_range s b e v end.

Lemma call_spec s c : wf_words (bsize s) (words s) -> call_ok (bsize s) c ->
  exists s', exec_call s c = Some s' /\ bsize s' = bsize s /\ wf_words (bsize s') (words s') /\
  forall i, i < bsize s -> test s' i = if addresses c i then Some (call_value c) else test s i.
Proof.
  intros [Hl Hu] Hc.
  assert (Hok : Forall (wop_ok (length (words s))) (call_ops c)) by (rewrite Hl; apply call_ops_ok, Hc).
  exists {| bsize := bsize s; words := exec_ts (call_ops c) (words s) |}.
  assert (He : exec_call s c = Some {| bsize := bsize s; words := exec_ts (call_ops c) (words s) |}).
  { destruct c; cbn [exec_call]; unfold set_bit, set_range; cbn [call_ops] in *; rewrite exec_wops_t by exact Hok; reflexivity. }
  split; [exact He|]. split; [reflexivity|]. split.
  - split; cbn; [rewrite length_exec_ts; exact Hl|]. apply exec_ts_ub; assumption.
  - intros i Hi. unfold test; cbn [words].
    assert (Hin : i / 64 < length (words s)) by (rewrite Hl; unfold bpw; lia).
    rewrite !test_words_bit by (rewrite ?length_exec_ts; exact Hin).
    rewrite bit_exec_ts by exact Hok. rewrite (fold_const _ _ (call_value c)) by (intros; apply call_val; assumption).
    rewrite (call_hits (bsize s)) by exact Hc. destruct (addresses c i); reflexivity.
Qed.

Lemma set_range_spec s b e v : wf_words (bsize s) (words s) -> b <= e -> e <= bsize s ->
  exists s', set_range s b e v = Some s' /\ bsize s' = bsize s /\ wf_words (bsize s') (words s') /\
  forall i, i < bsize s -> test s' i = if (b <=? i) && (i <? e) then Some v else test s i.
Proof. intros H H1 H2. exact (call_spec s (SetRange b e v) H (conj H1 H2)). Qed.

Lemma set_bit_spec s p v : wf_words (bsize s) (words s) -> p < bsize s ->
  exists s', set_bit s p v = Some s' /\ bsize s' = bsize s /\ wf_words (bsize s') (words s') /\
  forall i, i < bsize s -> test s' i = if p =? i then Some v else test s i.
Proof. intros H H1. exact (call_spec s (SetBit p v) H H1). Qed.

Lemma new_wf n : wf_words (bsize (bitset_new n)) (words (bitset_new n)) /\ forall i, i < n -> test (bitset_new n) i = Some false.
Proof.
  assert (W : wf_words n (repeat 0%N ((n + bpw - 1) / bpw))).
  { split; [apply repeat_length|]. intros w Hw; apply repeat_spec in Hw; subst; reflexivity. }
  split; [exact W|]. intros i Hi. unfold test, bitset_new; cbn [words].
  rewrite test_words_bit by (rewrite repeat_length; unfold bpw; lia).
  unfold bit. destruct (nth_error _ _) eqn:E; [|reflexivity]. apply nth_error_In, repeat_spec in E. subst. rewrite N.bits_0. reflexivity.
Qed.

(** *** Concurrent part *)
Definition proj (t : nat) (l : list (nat * wop)) : list wop := map snd (filter (fun x => fst x =? t) l).

Definition cinv (n : nat) (ws0 : list N) (progs : list (list wop)) (s : cstate) : Prop :=
  length (threads s) = length progs /\
  cwords s = exec_ts (map snd (clog s)) ws0 /\
  Forall (fun x => wop_ok n (snd x)) (clog s) /\
  (forall i t p, nth_error (threads s) i = Some t -> nth_error progs i = Some p -> proj i (clog s) ++ todo t = p) /\
  (forall x, In x (clog s) -> fst x < length progs).

Lemma proj_app t l1 l2 : proj t (l1 ++ l2) = proj t l1 ++ proj t l2.
Proof. unfold proj. rewrite filter_app, map_app. reflexivity. Qed.

Lemma proj_one_same t o : proj t [(t, o)] = [o].
Proof. unfold proj; cbn. rewrite Nat.eqb_refl. reflexivity. Qed.
Lemma proj_one_other t u o : u <> t -> proj t [(u, o)] = [].
Proof. unfold proj; cbn. intros H. apply Nat.eqb_neq in H. rewrite H. reflexivity. Qed.

Lemma exec_ts_app l1 l2 ws : exec_ts (l1 ++ l2) ws = exec_ts l2 (exec_ts l1 ws).
Proof. unfold exec_ts. apply fold_left_app. Qed.

Lemma cinv_commit n ws0 progs s i t o rest :
  length ws0 = n -> (forall p, In p progs -> Forall (wop_ok n) p) ->
  cinv n ws0 progs s -> nth_error (threads s) i = Some t -> todo t = o :: rest ->
  cinv n ws0 progs {| cwords := exec_t (cwords s) o; threads := upd (threads s) i {| todo := rest; loaded := None |};
                      clog := clog s ++ [(i, o)] |}.
Proof.
  intros Hn Hp (H1 & H2 & H3 & H4 & H5) Hi Ht.
  assert (Hlt : i < length progs) by (rewrite <- H1; apply nth_error_Some; congruence).
  destruct (nth_error progs i) as [p|] eqn:Ep; [|apply nth_error_None in Ep; lia].
  assert (Ho : wop_ok n o).
  { pose proof (H4 _ _ _ Hi Ep) as E. rewrite Ht in E. specialize (Hp p (nth_error_In _ _ Ep)).
    rewrite <- E in Hp. apply Forall_app in Hp. destruct Hp as [_ Hp]. inversion Hp; assumption. }
  unfold cinv; cbn [threads cwords clog]. repeat split.
  - rewrite length_upd; exact H1.
  - rewrite map_app, exec_ts_app, H2. reflexivity.
  - apply Forall_app; split; [exact H3|constructor; [exact Ho|constructor]].
  - intros j t' p' Hj Hp'. rewrite proj_app. apply nth_upd_inv in Hj. destruct Hj as [[<- ->]|[Hij Hj]].
    + rewrite proj_one_same, <- app_assoc. cbn. rewrite <- Ht. apply H4; assumption.
    + rewrite proj_one_other by exact Hij. rewrite app_nil_r. apply H4; assumption.
  - intros x Hx. apply in_app_iff in Hx. destruct Hx as [Hx|[<-|[]]]; [apply H5, Hx|exact Hlt].
Qed.

Lemma cinv_local n ws0 progs s i t l :
  cinv n ws0 progs s -> nth_error (threads s) i = Some t ->
  cinv n ws0 progs {| cwords := cwords s; threads := upd (threads s) i {| todo := todo t; loaded := l |}; clog := clog s |}.
Proof.
  intros (H1 & H2 & H3 & H4 & H5) Hi. unfold cinv; cbn [threads cwords clog]. repeat split; auto.
  - rewrite length_upd; exact H1.
  - intros j t' p' Hj Hp'. apply nth_upd_inv in Hj. destruct Hj as [[<- ->]|[Hij Hj]]; [cbn|]; eapply H4; eassumption.
Qed.

Lemma cinv_step n ws0 progs s i : length ws0 = n -> (forall p, In p progs -> Forall (wop_ok n) p) ->
  cinv n ws0 progs s -> cinv n ws0 progs (cstep s i).
Proof.
  intros Hn Hp H. unfold cstep. destruct (nth_error (threads s) i) as [t|] eqn:Hi; [|exact H].
  destruct (todo t) as [|[w m v|w v] rest] eqn:Ht; [exact H| |].
  - destruct (loaded t) as [old|]; destruct (nth_error (cwords s) w) as [cur|] eqn:Ew; try exact H.
    + destruct (N.eqb_spec cur old) as [->|Hne].
      * pose proof (cinv_commit n ws0 progs s i t _ rest Hn Hp H Hi Ht) as G. cbn [exec_t] in G. rewrite Ew in G. exact G.
      * rewrite <- Ht. apply cinv_local; assumption.
    + rewrite <- Ht. apply cinv_local; assumption.
  - exact (cinv_commit n ws0 progs s i t _ rest Hn Hp H Hi Ht).
Qed.

Definition progs_of (calls : list (list call)) : list (list wop) := map (flat_map call_ops) calls.

Lemma cinv_run n ws0 calls sched : length ws0 = n -> (forall p, In p (progs_of calls) -> Forall (wop_ok n) p) ->
  cinv n ws0 (progs_of calls) (crun (cinit ws0 calls) sched).
Proof.
  intros Hn Hp. assert (G : forall sched s, cinv n ws0 (progs_of calls) s -> cinv n ws0 (progs_of calls) (crun s sched)).
  { clear sched; induction sched as [|i l IH]; intros s H; [exact H|]. apply IH. apply cinv_step; assumption. }
  apply G. unfold cinv, cinit, progs_of; cbn. repeat split; auto.
  - rewrite !map_length; reflexivity.
  - intros i t p Hi Hpi. rewrite nth_error_map in Hi, Hpi. destruct (nth_error calls i); inversion Hi; inversion Hpi; subst; reflexivity.
  - intros x [].
Qed.

Lemma progs_ok n calls : (forall cs c, In cs calls -> In c cs -> call_ok n c) ->
  forall p, In p (progs_of calls) -> Forall (wop_ok ((n + bpw - 1) / bpw)) p.
Proof.
  intros H p Hin. unfold progs_of in Hin. apply in_map_iff in Hin. destruct Hin as [cs [<- Hcs]].
  apply Forall_forall. intros o Ho. apply in_flat_map in Ho. destruct Ho as [c [Hc Ho]].
  pose proof (call_ops_ok n c (H _ _ Hcs Hc)) as F. rewrite Forall_forall in F. apply F, Ho.
Qed.

(** Last write wins along a log. *)
Lemma fold_last (os : list wop) i b0 :
  (existsb (fun o => hits o i) os = false /\ fold_left (fun b o => if hits o i then wval o else b) os b0 = b0) \/
  exists o, In o os /\ hits o i = true /\ fold_left (fun b o => if hits o i then wval o else b) os b0 = wval o.
Proof.
  revert b0; induction os as [|o os IH]; intros b0; [left; split; reflexivity|].
  cbn [existsb fold_left]. destruct (IH (if hits o i then wval o else b0)) as [[E F]|(o' & Hin & Hh & F)].
  - destruct (hits o i) eqn:Eh.
    + right. exists o. rewrite F. auto with datatypes.
    + left. rewrite E, F. auto.
  - right. exists o'. rewrite F. auto with datatypes.
Qed.

Lemma in_proj t l o : In (t, o) l -> In o (proj t l).
Proof. intros H. unfold proj. apply in_map_iff. exists (t, o). split; [reflexivity|]. apply filter_In. split; [exact H|apply Nat.eqb_refl]. Qed.
Lemma proj_in t l o : In o (proj t l) -> In (t, o) l.
Proof.
  intros H. unfold proj in H. apply in_map_iff in H. destruct H as [[u o'] [<- H]]. apply filter_In in H. destruct H as [H E].
  cbn in E. apply Nat.eqb_eq in E. subst. exact H.
Qed.

(** Main concurrent statement. *)
Lemma conc_final size ws0 calls sched :
  wf_words size ws0 -> (forall cs c, In cs calls -> In c cs -> call_ok size c) ->
  let s := crun (cinit ws0 calls) sched in
  all_done s ->
  forall i, i < size ->
    ((forall cs c, In cs calls -> In c cs -> addresses c i = false) -> test_words (cwords s) i = test_words ws0 i) /\
    ((exists cs c, In cs calls /\ In c cs /\ addresses c i = true) ->
      exists cs c, In cs calls /\ In c cs /\ addresses c i = true /\ test_words (cwords s) i = Some (call_value c)).
Proof.
  intros [Hl Hu] Hok s Hdone i Hi.
  pose proof (progs_ok size calls Hok) as Hp.
  pose proof (cinv_run _ ws0 calls sched Hl Hp) as H. fold s in H. destruct H as (H1 & H2 & H3 & H4 & H5).
  assert (Hok' : Forall (wop_ok (length ws0)) (map snd (clog s))).
  { rewrite Hl. apply Forall_forall. intros o Ho. apply in_map_iff in Ho. destruct Ho as [x [<- Hx]].
    rewrite Forall_forall in H3. apply (H3 _ Hx). }
  assert (Hin : i / 64 < length ws0) by (rewrite Hl; unfold bpw; lia).
  assert (Ht : test_words (cwords s) i = Some (fold_left (fun b o => if hits o i then wval o else b) (map snd (clog s)) (bit ws0 i))).
  { rewrite H2. rewrite test_words_bit by (rewrite length_exec_ts; exact Hin). rewrite bit_exec_ts by exact Hok'. reflexivity. }
  assert (Hfrom : forall o, In o (map snd (clog s)) -> exists cs c, In cs calls /\ In c cs /\ In o (call_ops c)).
  { intros o Ho. apply in_map_iff in Ho. destruct Ho as [[t o'] [E Hx]]. cbn in E; subst o'.
    pose proof (H5 _ Hx) as Hlt. cbn in Hlt. unfold progs_of in Hlt, H1, H4. rewrite map_length in Hlt, H1.
    destruct (nth_error calls t) as [cs|] eqn:Ec; [|apply nth_error_None in Ec; lia].
    destruct (nth_error (threads s) t) as [th|] eqn:Eth; [|apply nth_error_None in Eth; rewrite H1 in Eth; lia].
    assert (Ep : nth_error (map (flat_map call_ops) calls) t = Some (flat_map call_ops cs)) by (rewrite nth_error_map, Ec; reflexivity).
    pose proof (H4 _ _ _ Eth Ep) as E. apply in_proj in Hx.
    assert (Ho' : In o (flat_map call_ops cs)) by (rewrite <- E; apply in_or_app; left; exact Hx).
    apply in_flat_map in Ho'. destruct Ho' as [c [Hc Ho']]. exists cs, c. split; [eapply nth_error_In; exact Ec|auto]. }
  assert (Hto : forall cs c o, In cs calls -> In c cs -> In o (call_ops c) -> In o (map snd (clog s))).
  { intros cs c o Hcs Hc Ho. destruct (In_nth_error _ _ Hcs) as [t Ec].
    unfold progs_of in H1, H4. rewrite map_length in H1.
    assert (Hlt : t < length calls) by (apply nth_error_Some; congruence).
    destruct (nth_error (threads s) t) as [th|] eqn:Eth; [|apply nth_error_None in Eth; lia].
    assert (Ep : nth_error (map (flat_map call_ops) calls) t = Some (flat_map call_ops cs)) by (rewrite nth_error_map, Ec; reflexivity).
    pose proof (H4 _ _ _ Eth Ep) as E. rewrite (Hdone _ _ Eth), app_nil_r in E.
    assert (Ho' : In o (proj t (clog s))) by (rewrite E; apply in_flat_map; exists c; auto).
    apply proj_in in Ho'. apply in_map_iff. exists (t, o). auto. }
  rewrite Ht. destruct (fold_last (map snd (clog s)) i (bit ws0 i)) as [[E F]|(o & Ho & Hh & F)]; rewrite F; split.
  - intros _. rewrite test_words_bit by exact Hin. reflexivity.
  - intros (cs & c & Hcs & Hc & Ha). exfalso.
    rewrite <- (call_hits size c i (Hok _ _ Hcs Hc)) in Ha. apply existsb_exists in Ha. destruct Ha as [o [Ho Hh]].
    assert (T : existsb (fun o => hits o i) (map snd (clog s)) = true) by (apply existsb_exists; exists o; split; [eapply Hto; eassumption|exact Hh]).
    congruence.
  - intros Hn. exfalso. destruct (Hfrom _ Ho) as (cs & c & Hcs & Hc & Hoc).
    pose proof (Hn _ _ Hcs Hc) as Ha. rewrite <- (call_hits size c i (Hok _ _ Hcs Hc)) in Ha.
    assert (T : existsb (fun o => hits o i) (call_ops c) = true) by (apply existsb_exists; exists o; auto). congruence.
  - intros _. destruct (Hfrom _ Ho) as (cs & c & Hcs & Hc & Hoc). exists cs, c. repeat split; auto.
    + rewrite <- (call_hits size c i (Hok _ _ Hcs Hc)). apply existsb_exists. exists o; auto.
    + rewrite (call_val c o Hoc). reflexivity.
Qed.

(** Linearisation: at every moment the words are the result of executing, one after the other, completed word
    updates that are, for each thread, a prefix of its program. *)
Lemma conc_linear size ws0 calls sched :
  wf_words size ws0 -> (forall cs c, In cs calls -> In c cs -> call_ok size c) ->
  let s := crun (cinit ws0 calls) sched in
  exec_wops ws0 (map snd (clog s)) = Some (cwords s) /\
  forall i t cs, nth_error (threads s) i = Some t -> nth_error calls i = Some cs ->
    flat_map call_ops cs = map snd (filter (fun x => fst x =? i) (clog s)) ++ todo t.
Proof.
  intros [Hl Hu] Hok s.
  pose proof (progs_ok size calls Hok) as Hp.
  pose proof (cinv_run _ ws0 calls sched Hl Hp) as H. fold s in H. destruct H as (H1 & H2 & H3 & H4 & H5).
  split.
  - rewrite exec_wops_t; [rewrite H2; reflexivity|]. rewrite Hl. apply Forall_forall. intros o Ho. apply in_map_iff in Ho.
    destruct Ho as [x [<- Hx]]. rewrite Forall_forall in H3. apply (H3 _ Hx).
  - intros i t cs Hi Hc. symmetry. apply (H4 _ _ _ Hi). unfold progs_of. rewrite nth_error_map, Hc. reflexivity.
Qed.

Lemma conc_agree size ws0 calls sched v i :
  wf_words size ws0 -> (forall cs c, In cs calls -> In c cs -> call_ok size c) ->
  let s := crun (cinit ws0 calls) sched in
  all_done s -> i < size ->
  (exists cs c, In cs calls /\ In c cs /\ addresses c i = true) ->
  (forall cs c, In cs calls -> In c cs -> addresses c i = true -> call_value c = v) ->
  test_words (cwords s) i = Some v.
Proof.
  intros Hw Hok s Hd Hi Hex Hall.
  destruct (conc_final size ws0 calls sched Hw Hok Hd i Hi) as [_ H2].
  destruct (H2 Hex) as (cs & c & A & B & C & D). fold s in D. rewrite D. f_equal. exact (Hall _ _ A B C).
Qed.
