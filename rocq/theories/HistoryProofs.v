From Coq Require Import List ZArith Bool Lia.
From Verif Require Import Base RingModel RingArithProofs HistoryModel HistorySpec.
Import ListNotations.
Local Open Scope Z_scope.
Require Import ZifyBool ZifyNat.
Ltac Zify.zify_post_hook ::= idtac.

Lemma list_ext {A} : forall l1 l2 : list A, (forall k, nth_error l1 k = nth_error l2 k) -> l1 = l2.
Proof.
  induction l1 as [|x l1 IH]; intros [|y l2] H; auto.
  - specialize (H 0%nat). discriminate.
  - specialize (H 0%nat). discriminate.
  - pose proof (H 0%nat) as E. cbn in E. inversion E; subst. f_equal. apply IH. intros k. apply (H (S k)).
Qed.
Lemma nth_error_skipn {A} : forall n (l : list A) k, nth_error (skipn n l) k = nth_error l (n + k).
Proof. induction n as [|n IH]; intros [|x l] k; cbn; auto. destruct k; reflexivity. Qed.
Lemma nth_error_firstn {A} : forall n (l : list A) k, nth_error (firstn n l) k = if Nat.ltb k n then nth_error l k else None.
Proof.
  induction n as [|n IH]; intros l k; [cbn; destruct k; reflexivity|]. destruct l as [|x l]; [cbn [firstn]; destruct (Nat.ltb k (S n)), k; reflexivity|].
  destruct k as [|k]; [reflexivity|]. cbn [firstn nth_error]. rewrite IH. reflexivity.
Qed.
Lemma nth_error_map_seq {A} (f : nat -> A) n : forall k, nth_error (map f (seq 0 n)) k = if Nat.ltb k n then Some (f k) else None.
Proof.
  intros k. rewrite nth_error_map. destruct (Nat.ltb_spec k n) as [L|L].
  - rewrite (nth_error_nth' _ 0%nat) by (rewrite seq_length; exact L). rewrite seq_nth by exact L. reflexivity.
  - assert (nth_error (seq 0 n) k = None) as -> by (apply nth_error_None; rewrite seq_length; exact L). reflexivity.
Qed.

Section Proofs.
Context {A : Type}.
Variable dflt : A.
(** [mir]: whether the mirrored half is claimed to be right (it is not after writes through references). *)
Variable mir : Prop.
Implicit Types (h : hb A) (a : ahist A).

Definition pos h (i : Z) : Z := (wp h + i) mod ring h.
Definition elt (l : list A) (i : Z) : option A := nth_error l (Z.to_nat i).

Record R h a : Prop := {
  R_cap : 0 < capacity h /\ capacity h <= ring h;
  R_c : capacity h = acap a;
  R_d : dyn h = adyn a;
  R_wp : 0 <= wp h < ring h;
  R_size : size h = Z.of_nat (length (elems a)) /\ size h <= capacity h;
  R_dirty : 0 <= dirty h <= ring h;
  R_prim : forall i, 0 <= i < size h -> elt (elems a) i = Some (buf h (pos h i));
  R_mirr : mir -> forall i, 0 <= i < size h -> dirty h <= i -> elt (elems a) i = Some (buf h (pos h i + ring h)) }.

Lemma pos_cases w rc i : 0 < rc -> 0 <= w < rc -> 0 <= i <= rc -> (w + i < rc /\ (w + i) mod rc = w + i) \/ (rc <= w + i /\ (w + i) mod rc = w + i - rc).
Proof.
  intros Hrc Hw Hi. destruct (Z.lt_ge_cases (w + i) rc) as [L|L].
  - left. split; [exact L|]. apply Z.mod_small. lia.
  - right. split; [exact L|]. replace (w + i) with (w + i - rc + 1 * rc) at 1 by lia. rewrite Z.mod_add by lia. apply Z.mod_small. lia.
Qed.
Lemma map_index_pos h i : map_index h i = pos h i.
Proof. unfold map_index, pos. apply calcIndex_mod. Qed.
Lemma pos_shift w rc d i : ((w + d) mod rc + i) mod rc = (w + (d + i)) mod rc.
Proof. destruct (Z.eq_dec rc 0) as [->|Hn]; [rewrite !Zmod_0_r; lia|]. rewrite Z.add_mod_idemp_l by exact Hn. f_equal. lia. Qed.

Lemma copy_in h src dst n : 0 <= src -> 0 <= dst -> 0 <= n -> src + n <= 2 * ring h -> dst + n <= 2 * ring h -> n <= Z.abs (dst - src) ->
  copy_n h src dst n = Some (with_buf h (fun q => if (dst <=? q) && (q <? dst + n) then buf h (src + (q - dst)) else buf h q)).
Proof.
  intros. unfold copy_n.
  assert (E : (0 <=? src) && (0 <=? dst) && (0 <=? n) && (src + n <=? 2 * ring h) && (dst + n <=? 2 * ring h) && (n <=? Z.abs (dst - src)) = true) by lia.
  rewrite E. reflexivity.
Qed.

(** *** syncMirror *)
Lemma sync_R h a (Hm : mir) : R h a -> exists h', syncMirror h = Some h' /\ R h' a /\ dirty h' = 0 /\ wp h' = wp h /\ size h' = size h /\ ring h' = ring h /\ capacity h' = capacity h /\ dyn h' = dyn h.
Proof.
  intros H. destruct H. unfold syncMirror. destruct (Z.eqb_spec (dirty h) 0) as [E|E].
  - exists h. repeat (split; [first [reflexivity|constructor; auto|exact E]|]). reflexivity.
  - assert (Hrc : 0 < ring h) by lia.
    destruct (Z.leb_spec (dirty h) (ring h - wp h)) as [L|L].
    + rewrite copy_in by lia. eexists. split; [reflexivity|]. cbn [with_pos with_buf wp size ring capacity dyn dirty]. repeat split; cbn [with_pos with_buf wp size ring capacity dyn dirty buf]; auto; try lia.
      * intros i Hi. unfold pos; cbn [with_pos with_buf wp ring]. rewrite R_prim0 by exact Hi. unfold pos.
        destruct (pos_cases (wp h) (ring h) i Hrc R_wp0 ltac:(lia)) as [[X ->]|[X ->]];
        match goal with |- context[if ?c then _ else _] => replace c with false by lia end; reflexivity.
      * intros _ i Hi _. unfold pos; cbn [with_pos with_buf wp ring]. 
        destruct (Z.lt_ge_cases i (dirty h)) as [Ld|Ld].
        -- rewrite R_prim0 by exact Hi. unfold pos. destruct (pos_cases (wp h) (ring h) i Hrc R_wp0 ltac:(lia)) as [[X ->]|[X ->]]; [|lia].
           match goal with |- context[if ?c then _ else _] => replace c with true by lia end. f_equal. f_equal. lia.
        -- rewrite R_mirr0 by (try exact Hm; lia). unfold pos. destruct (pos_cases (wp h) (ring h) i Hrc R_wp0 ltac:(lia)) as [[X ->]|[X ->]];
           match goal with |- context[if ?c then _ else _] => replace c with false by lia end; reflexivity.
    + rewrite copy_in by lia. rewrite copy_in by (cbn [with_buf ring]; lia). cbn [with_buf ring buf]. eexists. split; [reflexivity|]. cbn [with_pos with_buf wp size ring capacity dyn dirty]. repeat split; cbn [with_pos with_buf wp size ring capacity dyn dirty buf]; auto; try lia.
      * intros i Hi. unfold pos; cbn [with_pos with_buf wp ring]. rewrite R_prim0 by exact Hi. unfold pos.
        destruct (pos_cases (wp h) (ring h) i Hrc R_wp0 ltac:(lia)) as [[X ->]|[X ->]];
        repeat match goal with |- context[if ?c then _ else _] => replace c with false by lia end; reflexivity.
      * intros _ i Hi _. unfold pos; cbn [with_pos with_buf wp ring].
        destruct (Z.lt_ge_cases i (dirty h)) as [Ld|Ld].
        -- rewrite R_prim0 by exact Hi. unfold pos. destruct (pos_cases (wp h) (ring h) i Hrc R_wp0 ltac:(lia)) as [[X ->]|[X ->]].
           ++ destruct (Z.lt_ge_cases (wp h + i) (dirty h - (ring h - wp h))) as [Y|Y].
              ** match goal with |- context[if ?c then _ else _] => replace c with true by lia end.
                 match goal with |- context[if ?c then _ else _] => replace c with false by lia end. f_equal. f_equal. lia.
              ** match goal with |- context[if ?c then _ else _] => replace c with false by lia end.
                 match goal with |- context[if ?c then _ else _] => replace c with true by lia end. f_equal. f_equal. lia.
           ++ match goal with |- context[if ?c then _ else _] => replace c with true by lia end.
              match goal with |- context[if ?c then _ else _] => replace c with false by lia end. f_equal. f_equal. lia.
        -- rewrite R_mirr0 by (try exact Hm; lia). unfold pos. destruct (pos_cases (wp h) (ring h) i Hrc R_wp0 ltac:(lia)) as [[X ->]|[X ->]];
           repeat match goal with |- context[if ?c then _ else _] => replace c with false by lia end; reflexivity.
Qed.

(** *** contiguous reading *)
Lemma contig h a i k (Hm : mir) : R h a -> dirty h = 0 -> 0 <= i -> 0 <= k -> i + k < size h -> elt (elems a) (i + k) = Some (buf h (pos h i + k)).
Proof.
  intros H E Hi Hk Hs. destruct H. assert (Hrc : 0 < ring h) by lia. unfold pos.
  destruct (pos_cases (wp h) (ring h) i Hrc R_wp0 ltac:(lia)) as [[X ->]|[X ->]].
  - destruct (pos_cases (wp h) (ring h) (i + k) Hrc R_wp0 ltac:(lia)) as [[Y E2]|[Y E2]].
    + rewrite R_prim0 by lia. unfold pos. rewrite E2. do 2 f_equal. lia.
    + rewrite R_mirr0 by (try exact Hm; lia). unfold pos. rewrite E2. do 2 f_equal. lia.
  - destruct (pos_cases (wp h) (ring h) (i + k) Hrc R_wp0 ltac:(lia)) as [[Y E2]|[Y E2]]; [lia|].
    rewrite R_prim0 by lia. unfold pos. rewrite E2. do 2 f_equal. lia.
Qed.

Lemma range_R h a i n (Hm : mir) : R h a -> dirty h = 0 -> 0 <= i -> 0 <= n -> i + n <= size h ->
  range h (pos h i) n = Some (firstn (Z.to_nat n) (skipn (Z.to_nat i) (elems a))).
Proof.
  intros H E Hi Hn Hs. unfold range.
  assert (C : (0 <=? pos h i) && (pos h i + n <=? 2 * ring h) = true).
  { destruct H. unfold pos. destruct (pos_cases (wp h) (ring h) i ltac:(lia) R_wp0 ltac:(lia)) as [[X ->]|[X ->]]; lia. }
  rewrite C. f_equal. apply list_ext. intros k. rewrite nth_error_map_seq, nth_error_firstn, nth_error_skipn.
  destruct (Nat.ltb_spec k (Z.to_nat n)) as [L|L]; [|reflexivity].
  pose proof (contig h a i (Z.of_nat k) Hm H E Hi ltac:(lia) ltac:(lia)) as X. unfold elt in X.
  replace (Z.to_nat (i + Z.of_nat k)) with (Z.to_nat i + k)%nat in X by lia. rewrite X. reflexivity.
Qed.

(** *** dropping from the front *)
Lemma drop_R h a d : R h a -> 0 <= d <= size h ->
  R (with_pos h (map_index h d) (size h - d) (if 0 <? dirty h then dirty h - Z.min (dirty h) d else dirty h)) (withE a (skipn (Z.to_nat d) (elems a))).
Proof.
  intros H Hd. destruct H. assert (Hrc : 0 < ring h) by lia. rewrite map_index_pos.
  assert (Ed : (if 0 <? dirty h then dirty h - Z.min (dirty h) d else dirty h) = Z.max 0 (dirty h - d)) by (destruct (Z.ltb_spec 0 (dirty h)); lia).
  rewrite Ed. constructor; cbn [with_pos wp size ring capacity dyn dirty buf withE elems acap adyn]; auto; try lia.
  - unfold pos. apply Z.mod_pos_bound. lia.
  - rewrite skipn_length. lia.
  - intros i Hi. unfold pos, elt; cbn [with_pos wp ring]. rewrite pos_shift, nth_error_skipn.
    specialize (R_prim0 (d + i) ltac:(lia)). unfold elt in R_prim0. replace (Z.to_nat d + Z.to_nat i)%nat with (Z.to_nat (d + i)) by lia. exact R_prim0.
  - intros Hm i Hi Hdi. unfold pos, elt; cbn [with_pos wp ring]. rewrite pos_shift, nth_error_skipn.
    specialize (R_mirr0 Hm (d + i) ltac:(lia) ltac:(lia)). unfold elt in R_mirr0. replace (Z.to_nat d + Z.to_nat i)%nat with (Z.to_nat (d + i)) by lia. exact R_mirr0.
Qed.

(** *** appending *)
Lemma append_R h a xs b : R h a -> size h + Z.of_nat (length xs) <= capacity h ->
  (forall i, 0 <= i < size h -> b (pos h i) = buf h (pos h i) /\ b (pos h i + ring h) = buf h (pos h i + ring h)) ->
  (forall k, 0 <= k < Z.of_nat (length xs) -> elt xs k = Some (b (pos h (size h + k))) /\ elt xs k = Some (b (pos h (size h + k) + ring h))) ->
  R (with_buf (with_pos h (wp h) (size h + Z.of_nat (length xs)) (dirty h)) b) (withE a (elems a ++ xs)).
Proof.
  intros H Hs Hold Hnew. destruct H. assert (Hrc : 0 < ring h) by lia.
  constructor; cbn [with_pos with_buf wp size ring capacity dyn dirty buf withE elems acap adyn]; auto; try lia.
  - rewrite app_length. lia.
  - intros i Hi. unfold elt. change (pos _ i) with (pos h i). destruct (Z.lt_ge_cases i (size h)) as [L|L].
    + rewrite nth_error_app1 by lia. rewrite (proj1 (Hold i ltac:(lia))). apply R_prim0. lia.
    + rewrite nth_error_app2 by lia. destruct (Hnew (i - size h) ltac:(lia)) as [X _]. unfold elt in X. replace (size h + (i - size h)) with i in X by lia.
      rewrite <- X. f_equal. lia.
  - intros Hm i Hi Hdi. unfold elt. change (pos _ i) with (pos h i). destruct (Z.lt_ge_cases i (size h)) as [L|L].
    + rewrite nth_error_app1 by lia. rewrite (proj2 (Hold i ltac:(lia))). apply R_mirr0; try exact Hm; lia.
    + rewrite nth_error_app2 by lia. destruct (Hnew (i - size h) ltac:(lia)) as [_ X]. unfold elt in X. replace (size h + (i - size h)) with i in X by lia.
      rewrite <- X. f_equal. lia.
Qed.

Lemma pos_inj h i j : 0 < ring h -> 0 <= wp h < ring h -> 0 <= i < ring h -> 0 <= j < ring h -> i <> j -> pos h i <> pos h j.
Proof.
  intros H1 H2 H3 H4 Hn E. unfold pos in E.
  destruct (pos_cases (wp h) (ring h) i H1 H2 ltac:(lia)) as [[X Ei]|[X Ei]]; destruct (pos_cases (wp h) (ring h) j H1 H2 ltac:(lia)) as [[Y Ej]|[Y Ej]]; lia.
Qed.
Lemma pos_range h i : 0 < ring h -> 0 <= pos h i < ring h.
Proof. intros. apply Z.mod_pos_bound. lia. Qed.

Lemma with_eta h : with_pos h (wp h) (size h) (dirty h) = h. Proof. destruct h; reflexivity. Qed.

(** *** single pushes *)
Lemma put_in h p v : 0 <= p < 2 * ring h -> put h p v = Some (with_buf h (fun q => if q =? p then v else buf h q)).
Proof. intros H. unfold put. assert (E : (0 <=? p) && (p <? 2 * ring h) = true) by lia. rewrite E. reflexivity. Qed.

Lemma append1_R h a v : R h a -> size h < capacity h ->
  exists h', (let h1 := with_pos h (wp h) (size h + 1) (dirty h) in
              match put h1 (map_index h1 (size h1 - 1)) v with Some h2 => put h2 (map_index h1 (size h1 - 1) + ring h) v | None => None end) = Some h' /\
  R h' (withE a (elems a ++ [v])).
Proof.
  intros H Hs. cbv zeta. rewrite map_index_pos. cbn [with_pos size]. replace (size h + 1 - 1) with (size h) by lia.
  set (p := pos _ (size h)). change (pos (with_pos h (wp h) (size h + 1) (dirty h)) (size h)) with (pos h (size h)) in p.
  pose proof H as H0. destruct H. assert (Hrc : 0 < ring h) by lia. pose proof (pos_range h (size h) Hrc) as Pr. fold p in Pr.
  rewrite put_in by (cbn [with_pos ring]; lia). rewrite put_in by (cbn [with_pos with_buf ring]; lia). cbn [with_pos with_buf buf ring].
  eexists. split; [reflexivity|].
  refine (append_R h a [v] _ H0 _ _ _).
  - cbn. lia.
  - intros i Hi. pose proof (pos_inj h i (size h) Hrc R_wp0 ltac:(lia) ltac:(lia) ltac:(lia)) as Ne. pose proof (pos_range h i Hrc) as Pi. fold p in Ne.
    destruct (Z.eqb_spec (pos h i) (p + ring h)); [lia|]. destruct (Z.eqb_spec (pos h i) p); [contradiction|]. split; [reflexivity|].
    destruct (Z.eqb_spec (pos h i + ring h) (p + ring h)); [lia|]. destruct (Z.eqb_spec (pos h i + ring h) p); [lia|]. reflexivity.
  - intros k Hk. cbn in Hk. assert (k = 0) as -> by lia. replace (size h + 0) with (size h) by lia. fold p. cbn [elt nth_error].
    rewrite !Z.eqb_refl. destruct (Z.eqb_spec p (p + ring h)); [lia|]. split; reflexivity.
Qed.

Lemma lastn_all {B} n (l : list B) : (length l <= n)%nat -> @lastn B n l = l.
Proof. intros H. unfold lastn. replace (length l - n)%nat with 0%nat by lia. reflexivity. Qed.

Lemma push_back_R h a v : R h a -> exists h', push_back h v = Some h' /\ R h' (withE a (pushB a v)).
Proof.
  intros H. unfold push_back. pose proof H as H0. destruct H. destruct (Z.eqb_spec (size h) (capacity h)) as [E|E].
  - pose proof (drop_R h a 1 H0 ltac:(lia)) as D.
    assert (Es : (if 0 <? dirty h then dirty h - 1 else dirty h) = (if 0 <? dirty h then dirty h - Z.min (dirty h) 1 else dirty h)) by (destruct (Z.ltb_spec 0 (dirty h)); lia).
    rewrite Es. set (hd := with_pos h (map_index h 1) (size h - 1) _) in D.
    destruct (append1_R hd _ v D ltac:(cbn; lia)) as (h' & E1 & R1). exists h'. split.
    + rewrite <- E1. subst hd. cbn [with_pos wp size ring dirty]. replace (size h - 1 + 1) with (size h) by lia. reflexivity.
    + cbn [withE elems] in R1. replace (pushB a v) with (skipn (Z.to_nat 1) (elems a) ++ [v]); [exact R1|].
      unfold pushB, lastn. rewrite app_length. cbn [length]. replace (length (elems a) + 1 - Z.to_nat (acap a))%nat with 1%nat by lia.
      rewrite skipn_app. replace (1 - length (elems a))%nat with 0%nat by lia. reflexivity.
  - destruct (append1_R h a v H0 ltac:(lia)) as (h' & E1 & R1). exists h'. split; [exact E1|].
    unfold pushB. rewrite lastn_all by (rewrite app_length; cbn; lia). exact R1.
Qed.

Lemma push_front_R h a v : R h a -> exists h', push_front h v = Some h' /\ R h' (withE a (pushF a v)).
Proof.
  intros H. pose proof H as H0. destruct H. assert (Hrc : 0 < ring h) by lia. unfold push_front. rewrite map_index_pos. set (p := pos h (ring h - 1)).
  pose proof (pos_range h (ring h - 1) Hrc) as Pr. fold p in Pr.
  rewrite put_in by (cbn [with_pos ring]; lia). eexists. split; [reflexivity|].
  set (s := if size h <? capacity h then size h + 1 else size h).
  assert (Es : s = Z.min (size h + 1) (capacity h)) by (unfold s; destruct (Z.ltb_spec (size h) (capacity h)); lia).
  set (d := if dirty h <? ring h then dirty h + 1 else dirty h).
  assert (Ed : d = Z.min (dirty h + 1) (ring h)) by (unfold d; destruct (Z.ltb_spec (dirty h) (ring h)); lia).
  match goal with |- R ?x _ => replace x with (with_buf (with_pos h p s d) (fun q => if q =? p then v else buf h q)) end.
  2:{ unfold d. cbn [with_pos with_buf dirty ring wp size]. destruct (dirty h <? ring h); reflexivity. }
  assert (Sh : forall i, pos (with_buf (with_pos h p s d) (fun q => if q =? p then v else buf h q)) i = (wp h + (ring h - 1 + i)) mod ring h).
  { intros i. unfold pos; cbn [with_pos with_buf wp ring]. unfold p, pos. apply pos_shift. }
  assert (Sh1 : forall i, (wp h + (ring h - 1 + i)) mod ring h = pos h (i - 1)).
  { intros i. unfold pos. replace (wp h + (ring h - 1 + i)) with (wp h + (i - 1) + 1 * ring h) by lia. apply Z.mod_add. lia. }
  assert (Pm : p = pos h (-1)) by (unfold p, pos; replace (wp h + (ring h - 1)) with (wp h + -1 + 1 * ring h) by lia; apply Z.mod_add; lia).
  assert (Ne : forall i, 0 <= i < ring h - 1 -> pos h i <> p).
  { intros i Hi. apply (pos_inj h i (ring h - 1)); lia. }
  assert (Le : forall i, 0 < i < s -> elt (pushF a v) i = elt (elems a) (i - 1)).
  { intros i Hi. unfold elt, pushF. rewrite nth_error_firstn. replace (Nat.ltb (Z.to_nat i) (Z.to_nat (acap a))) with true by (symmetry; apply Nat.ltb_lt; lia).
    replace (Z.to_nat i) with (S (Z.to_nat (i - 1))) by lia. reflexivity. }
  constructor; cbn [with_pos with_buf wp size ring capacity dyn dirty buf withE elems acap adyn]; auto; try lia.
  - unfold pushF. rewrite firstn_length. cbn [length]. lia.
  - intros i Hi. rewrite Sh, Sh1. destruct (Z.eq_dec i 0) as [->|Hi0].
    + replace (0 - 1) with (-1) by lia. rewrite <- Pm, Z.eqb_refl. unfold elt, pushF. rewrite nth_error_firstn.
      replace (Nat.ltb (Z.to_nat 0) (Z.to_nat (acap a))) with true by (symmetry; apply Nat.ltb_lt; lia). reflexivity.
    + rewrite Le by lia. destruct (Z.eqb_spec (pos h (i - 1)) p) as [X|X]; [exfalso; apply (Ne (i - 1)); [lia|exact X]|]. apply R_prim0. lia.
  - intros Hm i Hi Hdi. assert (d = dirty h + 1) by lia. rewrite Sh, Sh1. assert (0 < i) by lia. rewrite Le by lia. pose proof (pos_range h (i - 1) Hrc).
    destruct (Z.eqb_spec (pos h (i - 1) + ring h) p) as [X|X]; [lia|]. apply R_mirr0; try exact Hm; lia.
Qed.

(** *** range pushes *)
Lemma push_front_all_R l : forall h a, R h a -> exists h', push_front_all h l = Some h' /\ R h' (fold_left (fun a v => withE a (pushF a v)) l a).
Proof.
  induction l as [|v l IH]; intros h a H; cbn [push_front_all fold_left]; [exists h; auto|].
  destruct (push_front_R h a v H) as (h1 & -> & R1). apply IH, R1.
Qed.

Lemma foldF_elems l : forall a, elems (fold_left (fun a v => withE a (pushF a v)) l a) = firstn (Z.to_nat (acap a)) (rev l ++ elems a) \/ l = [].
Proof.
  induction l as [|v l IH] using rev_ind; intros a; [right; reflexivity|left].
  rewrite fold_left_app. cbn [fold_left]. unfold withE at 1. cbn [elems]. unfold pushF at 1.
  assert (Ec : acap (fold_left (fun a v => withE a (pushF a v)) l a) = acap a) by (clear; revert a; induction l as [|x l IH]; intros a; cbn; auto; rewrite IH; reflexivity).
  rewrite Ec. rewrite rev_app_distr. cbn [rev app]. destruct (IH a) as [E0|E0]; [rewrite E0|rewrite E0; reflexivity].
  apply list_ext. intros k. rewrite !nth_error_firstn. destruct (Nat.ltb k (Z.to_nat (acap a))) eqn:E; [|reflexivity].
  destruct k as [|k]; [reflexivity|]. cbn [nth_error]. rewrite nth_error_firstn. apply Nat.ltb_lt in E. replace (Nat.ltb k (Z.to_nat (acap a))) with true by (symmetry; apply Nat.ltb_lt; lia). reflexivity.
Qed.
Lemma foldF_meta l : forall a, acap (fold_left (fun a v => withE a (pushF a v)) l a) = acap a /\ adyn (fold_left (fun a v => withE a (pushF a v)) l a) = adyn a.
Proof. induction l as [|x l IH]; intros a; cbn; auto. destruct (IH (withE a (pushF a x))) as [-> ->]. auto. Qed.
Lemma foldB_meta l : forall a, acap (fold_left (fun a v => withE a (pushB a v)) l a) = acap a /\ adyn (fold_left (fun a v => withE a (pushB a v)) l a) = adyn a.
Proof. induction l as [|x l IH]; intros a; cbn; auto. destruct (IH (withE a (pushB a x))) as [-> ->]. auto. Qed.

Lemma ahist_eq a b : elems a = elems b -> acap a = acap b -> adyn a = adyn b -> a = b.
Proof. destruct a, b; cbn; congruence. Qed.

Lemma push_front_range_R h a l : R h a -> exists h', push_front_range h l = Some h' /\ R h' (fold_left (fun a v => withE a (pushF a v)) l a).
Proof.
  intros H. unfold push_front_range. pose proof (R_c h a H) as Ec. pose proof (R_cap h a H) as Cp. destruct (Z.ltb_spec (capacity h) (Z.of_nat (length l))) as [L|L]; [|apply push_front_all_R, H].
  set (l' := skipn (length l - Z.to_nat (capacity h)) l). destruct (push_front_all_R l' h a H) as (h' & E & R1). exists h'. split; [exact E|].
  assert (Ll : length l' = Z.to_nat (capacity h)) by (unfold l'; rewrite skipn_length; lia).
  replace (fold_left _ l a) with (fold_left (fun a v => withE a (pushF a v)) l' a); [exact R1|].
  destruct (foldF_meta l a) as [M1 M2]. destruct (foldF_meta l' a) as [M3 M4]. apply ahist_eq; [|congruence|congruence].
  destruct (foldF_elems l a) as [X1|X]; [rewrite X1|subst l; cbn in L; lia]. destruct (foldF_elems l' a) as [X2|X]; [rewrite X2|rewrite X in Ll; cbn in Ll; lia].
  assert (El : rev l = rev l' ++ rev (firstn (length l - Z.to_nat (capacity h)) l)) by (rewrite <- rev_app_distr; unfold l'; rewrite firstn_skipn; reflexivity).
  rewrite El, <- Ec, <- app_assoc, !firstn_app, !rev_length, Ll, Nat.sub_diag. reflexivity.
Qed.

Lemma foldB_elems l : forall a, 0 < acap a -> Z.of_nat (length (elems a)) <= acap a -> elems (fold_left (fun a v => withE a (pushB a v)) l a) = lastn (Z.to_nat (acap a)) (elems a ++ l).
Proof.
  induction l as [|v l IH]; intros a Hp Hl; cbn [fold_left].
  - rewrite app_nil_r. rewrite lastn_all by lia. reflexivity.
  - rewrite IH; cbn [withE elems acap].
    + unfold pushB, lastn. rewrite !app_length. cbn [length]. rewrite !skipn_length, !app_length. cbn [length].
      apply list_ext. intros k. rewrite !nth_error_skipn.
      destruct (Nat.le_gt_cases (length (elems a) + 1) (Z.to_nat (acap a))) as [X|X].
      * replace (length (elems a) + 1 - Z.to_nat (acap a))%nat with 0%nat by lia. cbn [skipn]. rewrite <- app_assoc. cbn [app]. f_equal. lia.
      * replace (length (elems a) + 1 - Z.to_nat (acap a))%nat with 1%nat by lia.
        destruct (elems a) as [|e es]; [cbn in *; lia|]. cbn [app skipn length] in *. rewrite <- app_assoc. cbn [app].
        match goal with |- nth_error _ ?i = nth_error _ ?j => replace j with (S i) by lia end. reflexivity.
    + exact Hp.
    + unfold pushB, lastn. rewrite skipn_length, app_length. cbn. lia.
Qed.

Lemma fill_in h p l : 0 <= p -> p + Z.of_nat (length l) <= 2 * ring h ->
  fill dflt h p l = Some (with_buf h (fun q => if (p <=? q) && (q <? p + Z.of_nat (length l)) then nth (Z.to_nat (q - p)) l dflt else buf h q)).
Proof. intros H1 H2. unfold fill. assert (E : (0 <=? p) && (p + Z.of_nat (length l) <=? 2 * ring h) = true) by lia. rewrite E. reflexivity. Qed.

(** Writing a whole list behind the contents, with wrap-around, into both halves. *)
Lemma appendN_R h a l : R h a -> size h + Z.of_nat (length l) <= capacity h -> (0 < length l)%nat ->
  exists h', (let n := Z.of_nat (length l) in
              let h2 := with_pos h (wp h) (size h + n) (dirty h) in
              let start := map_index h2 (size h2 - n) in
              let chunk1 := Z.min n (ring h - start) in
              match fill dflt h2 start (firstn (Z.to_nat chunk1) l) with
              | None => None
              | Some h3 =>
                  match fill dflt h3 (start + ring h) (firstn (Z.to_nat chunk1) l) with
                  | None => None
                  | Some h4 => if 0 <? n - chunk1
                               then match fill dflt h4 0 (skipn (Z.to_nat chunk1) l) with None => None | Some h5 => fill dflt h5 (ring h) (skipn (Z.to_nat chunk1) l) end
                               else Some h4
                  end
              end) = Some h' /\ R h' (withE a (elems a ++ l)).
Proof.
  intros H Hs Hl. cbv zeta. set (n := Z.of_nat (length l)). rewrite map_index_pos. cbn [with_pos size]. replace (size h + n - n) with (size h) by lia.
  set (st := pos _ (size h)). change (pos (with_pos h (wp h) (size h + n) (dirty h)) (size h)) with (pos h (size h)) in st.
  pose proof H as H0. destruct H. assert (Hrc : 0 < ring h) by lia. pose proof (pos_range h (size h) Hrc) as Pr. fold st in Pr.
  set (c1 := Z.min n (ring h - st)). assert (Hc1 : 0 < c1 <= n) by lia.
  assert (L1 : Z.of_nat (length (firstn (Z.to_nat c1) l)) = c1) by (rewrite firstn_length; lia).
  assert (L2 : Z.of_nat (length (skipn (Z.to_nat c1) l)) = n - c1) by (rewrite skipn_length; lia).
  assert (Nth : forall k, 0 <= k < n -> elt l k = Some (nth (Z.to_nat k) l dflt)).
  { intros k Hk. unfold elt. apply nth_error_nth'. lia. }
  assert (N1 : forall k, 0 <= k < c1 -> nth (Z.to_nat k) (firstn (Z.to_nat c1) l) dflt = nth (Z.to_nat k) l dflt).
  { intros k Hk. apply nth_error_nth. rewrite nth_error_firstn. replace (Nat.ltb (Z.to_nat k) (Z.to_nat c1)) with true by (symmetry; apply Nat.ltb_lt; lia). apply Nth. lia. }
  assert (N2 : forall k, 0 <= k < n - c1 -> nth (Z.to_nat k) (skipn (Z.to_nat c1) l) dflt = nth (Z.to_nat (c1 + k)) l dflt).
  { intros k Hk. apply nth_error_nth. rewrite nth_error_skipn. replace (Z.to_nat c1 + Z.to_nat k)%nat with (Z.to_nat (c1 + k)) by lia. apply Nth. lia. }
  assert (Pk : forall k, 0 <= k < n -> (k < c1 /\ pos h (size h + k) = st + k) \/ (c1 <= k /\ pos h (size h + k) = k - c1)).
  { intros k Hk. unfold st, pos in *. destruct (pos_cases (wp h) (ring h) (size h) Hrc R_wp0 ltac:(lia)) as [[X E1]|[X E1]];
    destruct (pos_cases (wp h) (ring h) (size h + k) Hrc R_wp0 ltac:(lia)) as [[Y E2]|[Y E2]]; unfold c1; rewrite E2, E1 in *; try lia. }
  assert (Po : forall i, 0 <= i < size h -> ~ (st <= pos h i < st + c1) /\ ~ (0 <= pos h i < n - c1)).
  { intros i Hi. unfold st, pos in *. destruct (pos_cases (wp h) (ring h) (size h) Hrc R_wp0 ltac:(lia)) as [[X E1]|[X E1]];
    destruct (pos_cases (wp h) (ring h) i Hrc R_wp0 ltac:(lia)) as [[Y E2]|[Y E2]]; unfold c1; rewrite E2, E1 in *; lia. }
  rewrite fill_in by (cbn [with_pos ring]; lia). rewrite fill_in by (cbn [with_pos with_buf ring]; lia).
  destruct (Z.ltb_spec 0 (n - c1)) as [X|X].
  - rewrite fill_in by (cbn [with_pos with_buf ring]; lia). rewrite fill_in by (cbn [with_pos with_buf ring]; lia).
    cbn [with_pos with_buf buf ring]. rewrite !L1, !L2. eexists. split; [reflexivity|].
    refine (append_R h a l _ H0 Hs _ _).
    + intros i Hi. destruct (Po i Hi) as [P1 P2]. pose proof (pos_range h i Hrc) as P3.
      split; repeat match goal with |- context[if ?c then _ else _] => replace c with false by lia end; reflexivity.
    + fold n. intros k Hk. rewrite (Nth k Hk). destruct (Pk k Hk) as [[P1 ->]|[P1 ->]]; split; f_equal.
      * repeat match goal with |- context[if ?c then _ else _] => first [replace c with false by lia|replace c with true by lia] end.
        replace (st + k - st) with k by lia. symmetry. apply N1. lia.
      * repeat match goal with |- context[if ?c then _ else _] => first [replace c with false by lia|replace c with true by lia] end.
        replace (st + k + ring h - (st + ring h)) with k by lia. symmetry. apply N1. lia.
      * repeat match goal with |- context[if ?c then _ else _] => first [replace c with false by lia|replace c with true by lia] end.
        replace (k - c1 - 0) with (k - c1) by lia. rewrite N2 by lia. f_equal. lia.
      * repeat match goal with |- context[if ?c then _ else _] => first [replace c with false by lia|replace c with true by lia] end.
        replace (k - c1 + ring h - ring h) with (k - c1) by lia. rewrite N2 by lia. f_equal. lia.
  - cbn [with_pos with_buf buf ring]. rewrite !L1. eexists. split; [reflexivity|].
    refine (append_R h a l _ H0 Hs _ _).
    + intros i Hi. destruct (Po i Hi) as [P1 P2]. pose proof (pos_range h i Hrc) as P3.
      split; repeat match goal with |- context[if ?c then _ else _] => replace c with false by lia end; reflexivity.
    + fold n. intros k Hk. rewrite (Nth k Hk). destruct (Pk k Hk) as [[P1 ->]|[P1 ->]]; [|lia]. split; f_equal.
      * repeat match goal with |- context[if ?c then _ else _] => first [replace c with false by lia|replace c with true by lia] end.
        replace (st + k - st) with k by lia. symmetry. apply N1. lia.
      * repeat match goal with |- context[if ?c then _ else _] => first [replace c with false by lia|replace c with true by lia] end.
        replace (st + k + ring h - (st + ring h)) with k by lia. symmetry. apply N1. lia.
Qed.

Lemma push_back_range_R h a l : R h a -> exists h', push_back_range dflt h l = Some h' /\ R h' (fold_left (fun a v => withE a (pushB a v)) l a).
Proof.
  intros H. pose proof H as H0. destruct H. unfold push_back_range. destruct (Z.eqb_spec (Z.of_nat (length l)) 0) as [E|E].
  { destruct l; [|cbn in E; lia]. exists h. auto. }
  set (l' := if capacity h <=? Z.of_nat (length l) then skipn (length l - Z.to_nat (capacity h)) l else l).
  set (n := if capacity h <=? Z.of_nat (length l) then capacity h else Z.of_nat (length l)).
  assert (En : n = Z.of_nat (length l')).
  { unfold n, l'. destruct (Z.leb_spec (capacity h) (Z.of_nat (length l))); [rewrite skipn_length; lia|reflexivity]. }
  assert (Hn : 0 < n <= capacity h) by (unfold n; destruct (Z.leb_spec (capacity h) (Z.of_nat (length l))); lia).
  assert (Goal : exists h1 a1, (if capacity h <? size h + n
              then with_pos h (map_index h (size h + n - capacity h)) (size h - (size h + n - capacity h)) (if 0 <? dirty h then dirty h - Z.min (dirty h) (size h + n - capacity h) else dirty h)
              else h) = h1 /\ R h1 a1 /\ size h1 + n <= capacity h1 /\ ring h1 = ring h /\ capacity h1 = capacity h /\
              withE a1 (elems a1 ++ l') = fold_left (fun a v => withE a (pushB a v)) l a).
  { destruct (foldB_meta l a) as [M1 M2]. pose proof (foldB_elems l a ltac:(lia) ltac:(lia)) as Fe.
    destruct (Z.ltb_spec (capacity h) (size h + n)) as [L|L].
    - eexists _, _. split; [reflexivity|]. split; [apply drop_R; [exact H0|lia]|]. cbn [with_pos size capacity ring]. split; [lia|]. split; [reflexivity|]. split; [reflexivity|].
      apply ahist_eq; cbn [withE elems acap adyn]; [|congruence|congruence]. rewrite Fe. unfold lastn. rewrite app_length. apply list_ext. intros k.
      rewrite nth_error_skipn. unfold l', n in *. destruct (Z.leb_spec (capacity h) (Z.of_nat (length l))) as [Lc|Lc].
      + replace (size h + capacity h - capacity h) with (size h) by lia. rewrite (skipn_all2 (elems a)) by lia. cbn [app]. rewrite nth_error_skipn.
        rewrite nth_error_app2 by lia. f_equal. lia.
      + destruct (Nat.lt_ge_cases k (length (skipn (Z.to_nat (size h + Z.of_nat (length l) - capacity h)) (elems a)))) as [X|X].
        * rewrite nth_error_app1 by exact X. rewrite skipn_length in X. rewrite nth_error_skipn, nth_error_app1 by lia. f_equal. lia.
        * rewrite nth_error_app2 by exact X. rewrite skipn_length in *. rewrite nth_error_app2 by lia. f_equal. lia.
    - exists h, a. split; [reflexivity|]. split; [exact H0|]. split; [lia|]. split; [reflexivity|]. split; [reflexivity|].
      apply ahist_eq; cbn [withE elems acap adyn]; [|congruence|congruence]. rewrite Fe. unfold lastn. rewrite app_length. apply list_ext. intros k.
      rewrite nth_error_skipn. unfold l', n in *. destruct (Z.leb_spec (capacity h) (Z.of_nat (length l))) as [Lc|Lc].
      + assert (size h = 0) by lia. destruct (elems a); [|cbn in *; lia]. cbn [app length]. rewrite nth_error_skipn. f_equal. lia.
      + f_equal. lia. }
  destruct Goal as (h1 & a1 & -> & R1 & Hs & Er & Ecap & Ef). rewrite <- Ef.
  rewrite <- Er. subst n. rewrite En in *. apply appendN_R; [exact R1|exact Hs|lia].
Qed.

Lemma bitCeil_ge c : 0 < c -> c <= bitCeil c.
Proof.
  intros H. unfold bitCeil. destruct (Z.eq_dec c 1) as [->|Hn]; [cbn; lia|]. pose proof (Z.log2_up_spec c ltac:(lia)). lia.
Qed.

Lemma resize_R h a c (Hm : mir) : R h a -> 0 < c -> exists h', resize dflt h c = Some h' /\ R h' {| elems := firstn (Z.to_nat c) (elems a); acap := c; adyn := adyn a |}.
Proof.
  intros H Hc. unfold resize. destruct (sync_R h a Hm H) as (h1 & -> & R1 & D1 & W1 & S1 & Rg1 & C1 & Dy1).
  pose proof R1 as R1'. destruct R1'. pose proof (bitCeil_ge c Hc) as Bc.
  replace (wp h1) with (pos h1 0) by (unfold pos; rewrite Z.add_0_r; apply Z.mod_small; lia).
  rewrite (range_R h1 a 0 _ Hm R1 D1) by lia. cbn [skipn Z.to_nat]. set (cnt := Z.min (size h1) c).
  assert (Lf : Z.of_nat (length (firstn (Z.to_nat cnt) (elems a))) = cnt) by (rewrite firstn_length; lia).
  rewrite fill_in by (cbn [ring]; lia). cbn [buf ring]. rewrite Lf. rewrite copy_in by (cbn [with_buf ring]; lia). cbn [with_buf ring buf]. eexists. split; [reflexivity|].
  assert (Fi : forall i, 0 <= i < cnt -> elt (firstn (Z.to_nat c) (elems a)) i = Some (nth (Z.to_nat (i - 0)) (firstn (Z.to_nat cnt) (elems a)) dflt)).
  { intros i Hi. unfold elt. replace (i - 0) with i by lia. rewrite nth_error_firstn. replace (Nat.ltb (Z.to_nat i) (Z.to_nat c)) with true by (symmetry; apply Nat.ltb_lt; lia).
    rewrite <- (nth_error_nth' (firstn (Z.to_nat cnt) (elems a)) dflt) by lia. rewrite nth_error_firstn. replace (Nat.ltb (Z.to_nat i) (Z.to_nat cnt)) with true by (symmetry; apply Nat.ltb_lt; lia). reflexivity. }
  constructor; cbn [with_buf wp size ring capacity dyn dirty buf elems acap adyn]; auto; try lia.
  - congruence.
  - rewrite firstn_length. lia.
  - intros i Hi. unfold pos; cbn [with_buf wp ring]. rewrite Z.mod_small by lia. rewrite (Fi i Hi).
    repeat match goal with |- context[if ?c then _ else _] => first [replace c with false by lia|replace c with true by lia] end. reflexivity.
  - intros _ i Hi _. unfold pos; cbn [with_buf wp ring]. rewrite Z.mod_small by lia. rewrite (Fi i Hi).
    repeat match goal with |- context[if ?c then _ else _] => first [replace c with false by lia|replace c with true by lia] end. do 3 f_equal. lia.
Qed.

Lemma R_elt_some h a i : R h a -> 0 <= i < size h -> nth_error (elems a) (Z.to_nat i) = Some (get h i).
Proof. intros H Hi. unfold get. rewrite map_index_pos. apply (R_prim h a H i Hi). Qed.

(** One call of the code, one call of the bounded list. *)
Theorem step_R h a o a' x : (contiguous o = true -> mir) -> R h a -> capacity h < 2 ^ 64 -> astep a o = Some (a', x) -> exists h', step dflt h o = Some (h', x) /\ R h' a'.
Proof.
  intros Hmm H Bs E. pose proof H as H0. destruct H.
  destruct o as [v|v|l|l| | |c|v|i|i|i n| | |i v]; cbn [astep step contiguous] in *; try (pose proof (Hmm eq_refl) as Hm).
  - inversion E; subst. destruct (push_front_R h a v H0) as (h' & -> & R1). exists h'. auto.
  - inversion E; subst. destruct (push_back_R h a v H0) as (h' & -> & R1). exists h'. auto.
  - inversion E; subst. destruct (push_front_range_R h a l H0) as (h' & -> & R1). exists h'. auto.
  - inversion E; subst. destruct (push_back_range_R h a l H0) as (h' & -> & R1). exists h'. auto.
  - destruct (elems a) as [|e es] eqn:El; inversion E; subst; cbn [length] in *.
    + assert (size h = 0) as -> by lia. exists h. auto.
    + destruct (Z.eqb_spec (size h) 0); [lia|]. unfold pop_front. destruct (Z.eqb_spec (size h) 0); [lia|]. eexists. split; [reflexivity|].
      pose proof (drop_R h a 1 H0 ltac:(lia)) as D. rewrite El in D. cbn [skipn Z.to_nat Pos.to_nat Pos.iter_op] in D.
      replace (if 0 <? dirty h then dirty h - 1 else dirty h) with (if 0 <? dirty h then dirty h - Z.min (dirty h) 1 else dirty h) by (destruct (Z.ltb_spec 0 (dirty h)); lia). exact D.
  - destruct (elems a) as [|e es] eqn:El.
    + inversion E; subst. cbn in *. assert (size h = 0) as -> by lia. exists h. auto.
    + injection E as E1 E2. subst a' x. change (withE a _) with (withE a (removelast (e :: es))). rewrite <- El in *. assert (Hp : 0 < size h) by (rewrite El in *; cbn [length] in *; lia).
      destruct (Z.eqb_spec (size h) 0); [lia|]. unfold pop_back. destruct (Z.eqb_spec (size h) 0); [lia|]. eexists. split; [reflexivity|].
      assert (Rl : removelast (elems a) = firstn (Z.to_nat (size h - 1)) (elems a)).
      { rewrite removelast_firstn_len. f_equal. lia. }
      constructor; cbn [with_pos wp size ring capacity dyn dirty buf withE elems acap adyn]; auto; try lia.
      * rewrite Rl, firstn_length. lia.
      * intros k Hk. rewrite Rl. unfold elt. rewrite nth_error_firstn. replace (Nat.ltb (Z.to_nat k) (Z.to_nat (size h - 1))) with true by (symmetry; apply Nat.ltb_lt; lia). apply R_prim0. lia.
      * intros Hm k Hk Hd. rewrite Rl. unfold elt. rewrite nth_error_firstn. replace (Nat.ltb (Z.to_nat k) (Z.to_nat (size h - 1))) with true by (symmetry; apply Nat.ltb_lt; lia). apply R_mirr0; try exact Hm; lia.
  - rewrite R_d0. destruct (negb (adyn a) || (c <? 0)) eqn:Ec; [discriminate|]. destruct (Z.eqb_spec c 0); inversion E; subst; [exists h; auto|].
    destruct (resize_R h a c Hm H0 ltac:(lia)) as (h' & -> & R1). exists h'. auto.
  - inversion E; subst. eexists. split; [reflexivity|]. constructor; cbn [reset with_pos wp size ring capacity dyn dirty buf withE elems acap adyn length]; auto; try lia.
  - destruct (Z.ltb_spec i 0); [discriminate|]. destruct (nth_error (elems a) (Z.to_nat i)) as [v|] eqn:En; [|discriminate]. inversion E; subst.
    assert (Z.to_nat i < length (elems a'))%nat by (apply nth_error_Some; congruence).
    assert (C : (0 <=? i) && (i <? size h) = true) by lia. rewrite C. exists h. split; [|exact H0]. rewrite (R_elt_some h a' i H0) in En by lia. inversion En; subst. reflexivity.
  - destruct (Z.ltb_spec i 0); [discriminate|]. destruct (nth_error (elems a) (Z.to_nat i)) as [v|] eqn:En; inversion E; subst.
    + assert (Z.to_nat i < length (elems a'))%nat by (apply nth_error_Some; congruence).
      destruct (Z.leb_spec (size h) i); [lia|]. exists h. split; [|exact H0]. rewrite (R_elt_some h a' i H0) in En by lia. inversion En; subst. reflexivity.
    + apply nth_error_None in En. destruct (Z.leb_spec (size h) i); [|lia]. exists h. auto.
  - rewrite <- (proj1 R_size0) in E. destruct ((0 <=? i) && (i <=? size h) && (0 <=? n)) eqn:C; [|discriminate]. inversion E; subst.
    unfold get_span. destruct (sync_R h a' Hm H0) as (h1 & -> & R1 & D1 & W1 & S1 & Rg1 & C1 & Dy1). rewrite map_index_pos.
    unfold wsub. rewrite Z.mod_small by lia. rewrite S1. set (len := Z.max 0 (Z.min (size h - i) n)).
    rewrite (range_R h1 a' i len Hm R1 D1) by lia. exists h1. split; [|exact R1]. do 3 f_equal.
    apply list_ext. intros k. rewrite !nth_error_firstn, nth_error_skipn. destruct (Nat.ltb_spec k (Z.to_nat len)) as [X|X]; destruct (Nat.ltb_spec k (Z.to_nat n)) as [Y|Y]; auto; try lia.
    symmetry. apply nth_error_None. lia.
  - inversion E; subst. unfold iterate. destruct (sync_R h a' Hm H0) as (h1 & -> & R1 & D1 & W1 & S1 & Rg1 & C1 & Dy1).
    assert (Ew : wp h1 = pos h1 0) by (unfold pos; rewrite Z.add_0_r, W1, Rg1; symmetry; apply Z.mod_small; lia).
    rewrite Ew. rewrite (range_R h1 a' 0 _ Hm R1 D1) by lia. exists h1. split; [|exact R1]. do 3 f_equal. cbn [Z.to_nat skipn]. apply firstn_all2. lia.
  - inversion E; subst. exists h. split; [|exact H0]. rewrite <- (proj1 R_size0), R_c0. reflexivity.
  - discriminate.
Qed.


(** A write through a reference: right for indexed access, right for the mirror while the element is still dirty. *)
Lemma set_R h a i v : R h a -> 0 <= i < size h -> (mir -> i < dirty h) ->
  exists h', set h i v = Some h' /\ R h' (withE a (upd (elems a) (Z.to_nat i) v)) /\ size h' = size h /\ capacity h' = capacity h.
Proof.
  intros H Hi Hd. pose proof H as H0. destruct H. assert (Hrc : 0 < ring h) by lia. unfold set. rewrite map_index_pos.
  pose proof (pos_range h i Hrc). rewrite put_in by lia. eexists. split; [reflexivity|]. split; [|split; reflexivity].
  assert (Ue : forall k, 0 <= k < size h -> elt (upd (elems a) (Z.to_nat i) v) k = if k =? i then Some v else elt (elems a) k).
  { intros k Hk. unfold elt. destruct (Z.eqb_spec k i) as [->|Hn].
    - apply nth_upd_same'. lia.
    - apply nth_upd_other. lia. }
  constructor; cbn [with_buf wp size ring capacity dyn dirty buf withE elems acap adyn]; auto; try lia.
  - rewrite length_upd. lia.
  - intros k Hk. change (pos _ k) with (pos h k). rewrite Ue by exact Hk. destruct (Z.eqb_spec k i) as [->|Hn]; [rewrite Z.eqb_refl; reflexivity|].
    pose proof (pos_inj h k i Hrc R_wp0 ltac:(lia) ltac:(lia) Hn). destruct (Z.eqb_spec (pos h k) (pos h i)); [contradiction|]. apply R_prim0, Hk.
  - intros Hm k Hk Hdk. change (pos _ k) with (pos h k). specialize (Hd Hm). rewrite Ue by exact Hk. destruct (Z.eqb_spec k i); [lia|].
    pose proof (pos_range h k Hrc). destruct (Z.eqb_spec (pos h k + ring h) (pos h i)); [lia|]. apply R_mirr0; assumption.
Qed.
End Proofs.

Section Runs.
Context {A : Type}.
Variable dflt : A.

Lemma astep_cap (a : ahist A) o a' x : astep a o = Some (a', x) -> fits o -> acap a < 2 ^ 64 -> acap a' < 2 ^ 64.
Proof.
  intros E F H. destruct o; cbn [astep fits] in *;
    repeat match type of E with context[match ?c with _ => _ end] => destruct c end; inversion E; subst; cbn [withE acap]; auto; try lia.
  - rewrite (proj1 (foldF_meta _ _)). exact H.
  - rewrite (proj1 (foldB_meta _ _)). exact H.
Qed.

Lemma newDyn_R (mir : Prop) c : 0 < c -> exists h, newDyn dflt c = Some h /\ R mir h (anew c true).
Proof.
  intros H. unfold newDyn. destruct (Z.eqb_spec c 0); [lia|]. eexists. split; [reflexivity|]. pose proof (bitCeil_ge c H).
  constructor; cbn; auto; try lia.
Qed.
Lemma newFixed_R (mir : Prop) n : 0 < n -> R mir (newFixed dflt n) (anew n false).
Proof. intros H. constructor; cbn; auto; try lia. Qed.


Lemma step_None (mir : Prop) (h : hb A) a o : R mir h a -> is_set o = false -> astep a o = None -> step dflt h o = None.
Proof.
  intros H Hs E. destruct H. destruct o as [v|v|l|l| | |c|v|i|i|i n| | |i v]; cbn [astep step is_set] in *; try discriminate;
    try (destruct (elems a) as [|e es]; discriminate).
  - rewrite R_d0. destruct (negb (adyn a) || (c <? 0)); [reflexivity|]. destruct (c =? 0); discriminate.
  - destruct (Z.ltb_spec i 0) as [L|L].
    + assert (C : (0 <=? i) && (i <? size h) = false) by lia. rewrite C. reflexivity.
    + destruct (nth_error (elems a) (Z.to_nat i)) eqn:En; [discriminate|]. apply nth_error_None in En.
      assert (C : (0 <=? i) && (i <? size h) = false) by lia. rewrite C. reflexivity.
  - destruct (i <? 0); [reflexivity|]. destruct (nth_error (elems a) (Z.to_nat i)); discriminate.
  - rewrite <- (proj1 R_size0) in E. destruct ((0 <=? i) && (i <=? size h) && (0 <=? n)); [discriminate|reflexivity].
Qed.

Definition outs {X Y} (o : option (X * Y)) : option Y := match o with Some (_, y) => Some y | None => None end.

Theorem run_R ops : forall (h : hb A) a, R True h a -> acap a < 2 ^ 64 -> Forall fits ops -> forallb (fun o => negb (is_set o)) ops = true ->
  match arun a ops with
  | Some (a', xs) => exists h', run dflt h ops = Some (h', xs) /\ R True h' a' /\ acap a' < 2 ^ 64
  | None => run dflt h ops = None
  end.
Proof.
  induction ops as [|o ops IH]; intros h a H B F S; cbn [arun run forallb] in *.
  - exists h. auto.
  - inversion F; subst. apply andb_true_iff in S. destruct S as [S1 S2]. apply negb_true_iff in S1. destruct (astep a o) as [[a1 x]|] eqn:E1.
    + destruct (step_R dflt True h a o a1 x ltac:(auto) H ltac:(rewrite (R_c _ _ _ H); exact B) E1) as (h1 & -> & R1).
      pose proof (IH h1 a1 R1 (astep_cap _ _ _ _ E1 H2 B) H3 S2) as X. destruct (arun a1 ops) as [[a2 xs2]|].
      * destruct X as (h' & -> & X). exists h'. auto.
      * rewrite X. reflexivity.
    + rewrite (step_None True h a o H S1 E1). reflexivity.
Qed.

Theorem runW_R ops : forall (h : hb A) a, R False h a -> acap a < 2 ^ 64 -> Forall fits ops -> forallb (fun o => negb (contiguous o)) ops = true ->
  match arunW a ops with
  | Some (a', xs) => exists h', run dflt h ops = Some (h', xs) /\ R False h' a' /\ acap a' < 2 ^ 64
  | None => run dflt h ops = None
  end.
Proof.
  induction ops as [|o ops IH]; intros h a H B F S; cbn [arunW run forallb] in *.
  - exists h. auto.
  - inversion F; subst. apply andb_true_iff in S. destruct S as [S1 S2]. apply negb_true_iff in S1.
    destruct (is_set o) eqn:Io.
    + destruct o; try discriminate Io. cbn [astepW step]. rewrite <- (proj1 (R_size _ _ _ H)). destruct ((0 <=? i) && (i <? size h)) eqn:C; [|reflexivity].
      destruct (set_R False h a i v H ltac:(lia) ltac:(tauto)) as (h1 & -> & R1 & _). cbn [lift].
      pose proof (IH h1 _ R1 B H3 S2) as X. destruct (arunW _ ops) as [[a2 xs2]|].
      * destruct X as (h' & -> & X). exists h'. auto.
      * rewrite X. reflexivity.
    + assert (Ea : astepW a o = astep a o) by (destruct o; try reflexivity; discriminate). rewrite Ea. destruct (astep a o) as [[a1 x]|] eqn:E1.
      * destruct (step_R dflt False h a o a1 x ltac:(congruence) H ltac:(rewrite (R_c _ _ _ H); exact B) E1) as (h1 & -> & R1).
        pose proof (IH h1 a1 R1 (astep_cap _ _ _ _ E1 H2 B) H3 S2) as X. destruct (arunW a1 ops) as [[a2 xs2]|].
        -- destruct X as (h' & -> & X). exists h'. auto.
        -- rewrite X. reflexivity.
      * rewrite (step_None False h a o H Io E1). reflexivity.
Qed.

(** A state the buffer can reach without writes through references. *)
Definition built (h : hb A) : Prop :=
  exists h0 ops xs, ((exists c, 0 < c < 2 ^ 64 /\ newDyn dflt c = Some h0) \/ (exists n, 0 < n < 2 ^ 64 /\ newFixed dflt n = h0)) /\
    Forall fits ops /\ forallb (fun o => negb (is_set o)) ops = true /\ run dflt h0 ops = Some (h, xs).

Lemma built_R h : built h -> exists a, R True h a /\ acap a < 2 ^ 64.
Proof.
  intros (h0 & ops & xs & N & F & S & E).
  assert (G : exists a0, R True h0 a0 /\ acap a0 < 2 ^ 64).
  { destruct N as [(c & Hc & N)|(n & Hn & N)].
    - destruct (newDyn_R True c ltac:(lia)) as (h1 & E1 & R1). rewrite E1 in N. inversion N; subst. eexists. split; [exact R1|]. cbn. lia.
    - subst. eexists. split; [apply newFixed_R; lia|]. cbn. lia. }
  destruct G as (a0 & R0 & B0). pose proof (run_R ops h0 a0 R0 B0 F S) as X. destruct (arun a0 ops) as [[a' xs']|]; [|congruence].
  destruct X as (h' & E' & R' & B'). rewrite E' in E. inversion E; subst. eauto.
Qed.

Lemma run_outs ops h a : R True h a -> acap a < 2 ^ 64 -> Forall fits ops -> forallb (fun o => negb (is_set o)) ops = true -> outs (run dflt h ops) = outs (arun a ops).
Proof.
  intros H B F S. pose proof (run_R ops h a H B F S) as X. destruct (arun a ops) as [[a' xs]|]; [destruct X as (h' & -> & _); reflexivity|rewrite X; reflexivity].
Qed.
Lemma runW_outs ops h a : R False h a -> acap a < 2 ^ 64 -> Forall fits ops -> forallb (fun o => negb (contiguous o)) ops = true -> outs (run dflt h ops) = outs (arunW a ops).
Proof.
  intros H B F S. pose proof (runW_R ops h a H B F S) as X. destruct (arunW a ops) as [[a' xs]|]; [destruct X as (h' & -> & _); reflexivity|rewrite X; reflexivity].
Qed.

Lemma span_is_contents (h : hb A) i n : built h -> 0 <= i <= size h -> 0 <= n ->
  exists h' l, get_span h i n = Some (h', l) /\ Z.of_nat (length l) = Z.min n (size h - i) /\
    (forall k, (k < length l)%nat -> nth_error l k = Some (get h (i + Z.of_nat k))) /\ (forall j, 0 <= j < size h -> get h' j = get h j) /\ size h' = size h.
Proof.
  intros Hb Hi Hn. destruct (built_R h Hb) as (a & Ra & Ba).
  destruct (step_R dflt True h a (Span i n) a (OList (firstn (Z.to_nat n) (skipn (Z.to_nat i) (elems a)))) ltac:(auto) Ra ltac:(rewrite (R_c _ _ _ Ra); exact Ba)) as (h' & E & R').
  { cbn [astep]. rewrite <- (proj1 (R_size _ _ _ Ra)). assert (C : (0 <=? i) && (i <=? size h) && (0 <=? n) = true) by lia. rewrite C. reflexivity. }
  cbn [step] in E. assert (C : (0 <=? i) && (i <=? size h) && (0 <=? n) = true) by lia. rewrite C in E. clear C.
  destruct (get_span h i n) as [[h1 l]|]; [|discriminate]. inversion E; subst. pose proof (proj1 (R_size _ _ _ Ra)) as Sz. pose proof (proj1 (R_size _ _ _ R')) as Sz'. eexists _, _. split; [reflexivity|].
  assert (Ll : Z.of_nat (length (firstn (Z.to_nat n) (skipn (Z.to_nat i) (elems a)))) = Z.min n (size h - i)) by (rewrite firstn_length, skipn_length; lia).
  split; [exact Ll|]. split; [|split; [|lia]].
  - intros k Hk. rewrite nth_error_firstn, nth_error_skipn. replace (Nat.ltb k (Z.to_nat n)) with true by (symmetry; apply Nat.ltb_lt; lia).
    rewrite <- (R_elt_some True h a (i + Z.of_nat k) Ra) by lia. f_equal. lia.
  - intros j Hj. pose proof (R_elt_some True h a j Ra Hj) as E1. pose proof (R_elt_some True h' a j R' ltac:(lia)) as E2. congruence.
Qed.

Lemma iterate_is_contents (h : hb A) : built h ->
  exists h' l, iterate h = Some (h', l) /\ Z.of_nat (length l) = size h /\ (forall k, (k < length l)%nat -> nth_error l k = Some (get h (Z.of_nat k))).
Proof.
  intros Hb. destruct (built_R h Hb) as (a & Ra & Ba).
  destruct (step_R dflt True h a Iterate a (OList (elems a)) ltac:(auto) Ra ltac:(rewrite (R_c _ _ _ Ra); exact Ba) eq_refl) as (h' & E & R').
  cbn [step] in E. destruct (iterate h) as [[h1 l]|]; [|discriminate]. inversion E; subst. eexists _, _. split; [reflexivity|].
  pose proof (proj1 (R_size _ _ _ Ra)) as Sz. split; [lia|]. intros k Hk. rewrite <- (R_elt_some True h a (Z.of_nat k) Ra) by lia. f_equal. lia.
Qed.

Lemma arun_map_back l : forall a : ahist A, arun a (map PushBack l) = Some (fold_left (fun a v => withE a (pushB a v)) l a, map (fun _ => ODone) l).
Proof. induction l as [|v l IH]; intros a; cbn [map arun fold_left astep]; [reflexivity|]. rewrite IH. reflexivity. Qed.
Lemma arun_map_front l : forall a : ahist A, arun a (map PushFront l) = Some (fold_left (fun a v => withE a (pushF a v)) l a, map (fun _ => ODone) l).
Proof. induction l as [|v l IH]; intros a; cbn [map arun fold_left astep]; [reflexivity|]. rewrite IH. reflexivity. Qed.
Lemma all_fits_map (f : A -> op A) l : (forall v, fits (f v) /\ is_set (f v) = false) -> Forall fits (map f l) /\ forallb (fun o => negb (is_set o)) (map f l) = true.
Proof. intros H. induction l as [|v l [IH1 IH2]]; cbn; [auto|]. destruct (H v) as [F S]. split; [constructor; auto|]. rewrite S. exact IH2. Qed.

Lemma range_push_back (h : hb A) l : built h -> exists h1 h2 xs,
  push_back_range dflt h l = Some h1 /\ run dflt h (map PushBack l) = Some (h2, xs) /\
  forall ops, Forall fits ops -> forallb (fun o => negb (is_set o)) ops = true -> outs (run dflt h1 ops) = outs (run dflt h2 ops).
Proof.
  intros Hb. destruct (built_R h Hb) as (a & Ra & Ba). destruct (push_back_range_R dflt True h a l Ra) as (h1 & E1 & R1).
  destruct (all_fits_map PushBack l ltac:(cbn; auto)) as [F S]. pose proof (run_R (map PushBack l) h a Ra Ba F S) as X. rewrite arun_map_back in X.
  destruct X as (h2 & E2 & R2 & B2). exists h1, h2, (map (fun _ => ODone) l). split; [exact E1|]. split; [exact E2|].
  intros ops F' S'. rewrite (run_outs ops h1 _ R1 B2 F' S'), (run_outs ops h2 _ R2 B2 F' S'). reflexivity.
Qed.
Lemma range_push_front (h : hb A) l : built h -> exists h1 h2 xs,
  push_front_range h l = Some h1 /\ run dflt h (map PushFront l) = Some (h2, xs) /\
  forall ops, Forall fits ops -> forallb (fun o => negb (is_set o)) ops = true -> outs (run dflt h1 ops) = outs (run dflt h2 ops).
Proof.
  intros Hb. destruct (built_R h Hb) as (a & Ra & Ba). destruct (push_front_range_R True h a l Ra) as (h1 & E1 & R1).
  destruct (all_fits_map PushFront l ltac:(cbn; auto)) as [F S]. pose proof (run_R (map PushFront l) h a Ra Ba F S) as X. rewrite arun_map_front in X.
  destruct X as (h2 & E2 & R2 & B2). exists h1, h2, (map (fun _ => ODone) l). split; [exact E1|]. split; [exact E2|].
  intros ops F' S'. rewrite (run_outs ops h1 _ R1 B2 F' S'), (run_outs ops h2 _ R2 B2 F' S'). reflexivity.
Qed.

(** What the next iteration shows after a write through a reference. *)
Lemma sync_buf (h : hb A) : 0 < ring h -> 0 <= wp h < ring h -> 0 <= dirty h <= ring h ->
  exists h1, syncMirror h = Some h1 /\ wp h1 = wp h /\ ring h1 = ring h /\ size h1 = size h /\
    forall q, 0 <= q < 2 * ring h -> buf h1 q = if (ring h <=? q) && (((q - ring h <? wp h) && (q + 0 - wp h <? dirty h)) || ((wp h <=? q - ring h) && (q - ring h - wp h <? dirty h))) then buf h (q - ring h) else buf h q.
Proof.
  intros Hrc Hw Hd. unfold syncMirror. destruct (Z.eqb_spec (dirty h) 0) as [E|E].
  - exists h. repeat (split; [reflexivity|]). intros q Hq. rewrite E.
    match goal with |- _ = if ?c then _ else _ => replace c with false by lia end. reflexivity.
  - destruct (Z.leb_spec (dirty h) (ring h - wp h)) as [L|L].
    + rewrite copy_in by lia. eexists. split; [reflexivity|]. cbn [with_pos with_buf wp ring size buf]. repeat (split; [reflexivity|]). intros q Hq.
      match goal with |- (if ?c then _ else _) = if ?d then _ else _ => replace d with c by lia; destruct c eqn:C end; [f_equal; lia|reflexivity].
    + rewrite copy_in by lia. rewrite copy_in by (cbn [with_buf ring]; lia). cbn [with_buf ring buf]. eexists. split; [reflexivity|]. cbn [with_pos with_buf wp ring size buf]. repeat (split; [reflexivity|]). intros q Hq.
      destruct (Z.lt_ge_cases q (ring h)) as [X|X].
      * repeat match goal with |- context[if ?c then _ else _] => replace c with false by lia end. reflexivity.
      * destruct (Z.lt_ge_cases (q - ring h) (wp h)) as [Y|Y].
        -- destruct (Z.lt_ge_cases q (ring h + (dirty h - (ring h - wp h)))) as [W|W].
           ++ repeat match goal with |- context[if ?c then _ else _] => first [replace c with true by lia|replace c with false by lia] end; first [reflexivity|f_equal; lia].
           ++ repeat match goal with |- context[if ?c then _ else _] => first [replace c with true by lia|replace c with false by lia] end. reflexivity.
        -- destruct (Z.lt_ge_cases q (ring h + (dirty h - (ring h - wp h)))) as [W|W];
           repeat match goal with |- context[if ?c then _ else _] => first [replace c with true by lia|replace c with false by lia] end; first [reflexivity|f_equal; lia].
Qed.

Lemma write_then_iterate (h : hb A) i v : built h -> 0 <= i < size h -> (wp h + i < ring h \/ i < dirty h) ->
  exists h1 h2 l l' h', set h i v = Some h' /\ iterate h = Some (h1, l) /\ iterate h' = Some (h2, l') /\ l' = upd l (Z.to_nat i) v.
Proof.
  intros Hb Hi Hc. destruct (built_R h Hb) as (a & Ra & Ba). pose proof Ra as Ra0. destruct Ra0. assert (Hrc : 0 < ring h) by lia.
  unfold set. rewrite map_index_pos. pose proof (pos_range h i Hrc). rewrite put_in by lia.
  set (h' := with_buf h _). unfold iterate.
  destruct (sync_buf h Hrc R_wp0 R_dirty0) as (h1 & E1 & W1 & G1 & S1 & B1). destruct (sync_buf h' Hrc R_wp0 R_dirty0) as (h2 & E2 & W2 & G2 & S2 & B2).
  rewrite E1. rewrite W1, S1. unfold range. rewrite G1. assert (C : (0 <=? wp h) && (wp h + size h <=? 2 * ring h) = true) by lia. rewrite C.
  eexists _, _, _, _, _. split; [reflexivity|]. split; [reflexivity|]. rewrite E2, W2, S2, G2. change (wp h') with (wp h). change (size h') with (size h). change (ring h') with (ring h). rewrite C.
  split; [reflexivity|]. apply list_ext. intros k. rewrite nth_error_map_seq.
  destruct (Nat.ltb_spec k (Z.to_nat (size h))) as [L|L].
  - assert (Bk : buf h2 (wp h + Z.of_nat k) = if Z.of_nat k =? i then v else buf h1 (wp h + Z.of_nat k)).
    { rewrite B2, B1 by (change (ring h') with (ring h); lia). change (ring h') with (ring h). change (wp h') with (wp h). change (dirty h') with (dirty h).
      unfold h'. cbn [with_buf buf]. unfold pos in *. destruct (pos_cases (wp h) (ring h) i Hrc R_wp0 ltac:(lia)) as [[X P]|[X P]]; rewrite P in *;
      destruct (Z.eqb_spec (Z.of_nat k) i) as [K|K];
      repeat match goal with |- context[if ?c then _ else _] => first [replace c with true by lia|replace c with false by lia|destruct c eqn:?] end; try reflexivity; lia. }
    rewrite Bk. destruct (Z.eqb_spec (Z.of_nat k) i) as [K|K].
    + subst i. rewrite Nat2Z.id. symmetry. apply nth_upd_same'. rewrite map_length, seq_length. exact L.
    + rewrite nth_upd_other by lia. rewrite nth_error_map_seq. replace (Nat.ltb k (Z.to_nat (size h))) with true by (symmetry; apply Nat.ltb_lt; lia). reflexivity.
  - symmetry. apply nth_error_None. rewrite length_upd, map_length, seq_length. exact L.
Qed.

(** For the examples: the state after a history. *)
Definition state_after (n : Z) (ops : list (op A)) : hb A := match run dflt (newFixed dflt n) ops with Some (h, _) => h | None => newFixed dflt n end.
Lemma built_after n ops : 0 < n < 2 ^ 64 -> Forall fits ops -> forallb (fun o => negb (is_set o)) ops = true -> built (state_after n ops).
Proof.
  intros Hn F S. unfold state_after. destruct (run dflt (newFixed dflt n) ops) as [[h xs]|] eqn:E.
  - exists (newFixed dflt n), ops, xs. split; [right; exists n; auto|auto].
  - exists (newFixed dflt n), [], []. split; [right; exists n; auto|]. repeat split. constructor.
Qed.
End Runs.
