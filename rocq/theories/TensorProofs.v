(* Index tuples, iteration, strides and products of tensors. *)

From Coq Require Import Arith List Bool Lia Permutation.
From Verif Require Import TensorModel TensorSpec.
Import ListNotations.

Local Open Scope nat_scope.

Lemma dot_place idx : forall s, dot idx s = place idx s.
Proof. induction idx as [|i r IH]; intros [|t q]; cbn; auto. Qed.

Lemma flat_len {X} (f : nat -> list X) n l : (forall i, length (f i) = n) -> length (flat_map f l) = length l * n.
Proof. intros H. induction l as [|a l IH]; [reflexivity|]. cbn. rewrite app_length, H, IH. reflexivity. Qed.

Lemma count_cons x r : count (x :: r) = x * count r.
Proof. unfold count. cbn [tuples]. rewrite (flat_len _ (length (tuples r))) by (intros; apply map_length). rewrite seq_length. reflexivity. Qed.
Lemma count_prod e : prodE e = count e.
Proof. induction e as [|x r IH]; [reflexivity|]. rewrite count_cons, <- IH. reflexivity. Qed.

Lemma tuples_fits e : forall idx, In idx (tuples e) <-> fits idx e.
Proof.
  induction e as [|x r IH]; intros idx; cbn [tuples].
  - split; [intros [<-|[]]; constructor|]. intros H. inversion H. left. reflexivity.
  - rewrite in_flat_map. split.
    + intros (i & Hi & H). apply in_map_iff in H as (j & <- & Hj). apply in_seq in Hi. constructor; [lia|]. apply IH. exact Hj.
    + intros H. inversion H as [|i y j q Hi Hj E1 E2]. exists i. split; [apply in_seq; lia|]. apply in_map, IH. exact Hj.
Qed.

Lemma NoDup_app_ {X} (a b : list X) : NoDup a -> NoDup b -> (forall x, In x a -> In x b -> False) -> NoDup (a ++ b).
Proof.
  intros Ha Hb H. induction Ha as [|x a Hx Ha IH]; [exact Hb|]. cbn. constructor.
  - intros G. apply in_app_or in G as [G|G]; [contradiction|]. apply (H x); [left; reflexivity|exact G].
  - apply IH. intros y Hy. apply H. right. exact Hy.
Qed.
Lemma NoDup_flat {X} (f : nat -> list X) l : NoDup l -> (forall i, NoDup (f i)) -> (forall i j a, In a (f i) -> In a (f j) -> i = j) -> NoDup (flat_map f l).
Proof.
  intros Hl Hf Hd. induction Hl as [|i l Hi Hl IH]; cbn; [constructor|]. apply NoDup_app_; [apply Hf|exact IH|].
  intros x Hx G. apply in_flat_map in G as (j & Hj & G). rewrite (Hd i j x Hx G) in Hi. contradiction.
Qed.
Lemma tuples_nodup e : NoDup (tuples e).
Proof.
  induction e as [|x r IH]; cbn [tuples]; [constructor; [intros []|constructor]|]. apply NoDup_flat.
  - apply seq_NoDup.
  - intros i. apply FinFun.Injective_map_NoDup; [intros a b E; congruence|exact IH].
  - intros i j a Ha Hb. apply in_map_iff in Ha as (u & <- & _). apply in_map_iff in Hb as (w & E & _). congruence.
Qed.

(* ---------- iteration ---------- *)

Lemma div_div_ k a b : k / a / b = k / (a * b).
Proof.
  destruct (Nat.eq_dec a 0) as [->|Ha]; [cbn; destruct b; [reflexivity|]; apply Nat.div_0_l; discriminate|].
  destruct (Nat.eq_dec b 0) as [->|Hb]; [rewrite Nat.mul_0_r; reflexivity|]. apply Nat.div_div; assumption.
Qed.
Lemma fold_div r : forall k, fold_left (fun c x => c / x) r k = k / prodE r.
Proof. induction r as [|x r IH]; intros k; cbn [fold_left prodE fold_right]; [symmetry; apply Nat.div_1_r|]. rewrite IH. apply div_div_. Qed.
Lemma coord_eq k x r : coord k x r = (k / count r) mod x.
Proof. unfold coord. rewrite fold_div, count_prod. reflexivity. Qed.

Lemma iterOff_period r : forall q j m, iterOff (j + m * count r) r q = iterOff j r q.
Proof.
  induction r as [|y r IH]; intros [|t q] j m; cbn [iterOff]; try reflexivity. rewrite !coord_eq, count_cons.
  replace (m * (y * count r)) with (m * y * count r) by lia. rewrite IH. f_equal. f_equal.
  destruct (Nat.eq_dec (count r) 0) as [E|E]; [rewrite E, Nat.mul_0_r, Nat.add_0_r; reflexivity|].
  rewrite Nat.div_add by exact E. destruct (Nat.eq_dec y 0) as [->|Hy]; [rewrite Nat.mul_0_r, Nat.add_0_r; reflexivity|].
  apply Nat.mod_add. exact Hy.
Qed.

Lemma iterOff_step x r t q i j : i < x -> j < count r -> iterOff (j + i * count r) (x :: r) (t :: q) = i * t + iterOff j r q.
Proof.
  intros Hi Hj. cbn [iterOff]. rewrite iterOff_period, coord_eq, Nat.div_add by lia. rewrite Nat.div_small by exact Hj.
  rewrite Nat.add_0_l, Nat.mod_small by exact Hi. reflexivity.
Qed.

Lemma seq_mul x p : seq 0 (x * p) = flat_map (fun i => seq (i * p) p) (seq 0 x).
Proof.
  induction x as [|x IH]; [reflexivity|]. rewrite seq_S, flat_map_app, <- IH. cbn [flat_map Nat.add]. rewrite app_nil_r.
  replace (S x * p) with (x * p + p) by lia. rewrite seq_app. reflexivity.
Qed.
Lemma seq_shift_ a n : seq a n = map (fun j => j + a) (seq 0 n).
Proof.
  revert a. induction n as [|n IH]; intros a; [reflexivity|]. cbn [seq map]. f_equal. rewrite IH, <- seq_shift, map_map. 
  apply map_ext. intros j. lia.
Qed.
Lemma map_flat_map {X Y} (g : X -> Y) (f : nat -> list X) l : map g (flat_map f l) = flat_map (fun i => map g (f i)) l.
Proof. induction l as [|a l IH]; [reflexivity|]. cbn. rewrite map_app, IH. reflexivity. Qed.
Lemma flat_map_ext_in {X} (f g : nat -> list X) l : (forall i, In i l -> f i = g i) -> flat_map f l = flat_map g l.
Proof. intros H. induction l as [|a l IH]; [reflexivity|]. cbn. rewrite H by (left; reflexivity). rewrite IH; [reflexivity|]. intros i Hi. apply H. right. exact Hi. Qed.

Lemma iterOff_tuples e : forall s, length s = length e -> map (fun k => iterOff k e s) (seq 0 (count e)) = map (fun i => place i s) (tuples e).
Proof.
  induction e as [|x r IH]; intros [|t q] H; try discriminate; [reflexivity|]. injection H as H. rewrite count_cons, seq_mul, map_flat_map.
  cbn [tuples]. rewrite map_flat_map. apply flat_map_ext_in. intros i Hi. apply in_seq in Hi. rewrite map_map. cbn [place].
  rewrite seq_shift_, map_map.
  transitivity (map (fun o => i * t + o) (map (fun k => iterOff k r q) (seq 0 (count r)))).
  - rewrite map_map. apply map_ext_in. intros j Hj. apply in_seq in Hj. apply iterOff_step; lia.
  - rewrite IH by exact H. rewrite map_map. reflexivity.
Qed.

Theorem cells_tuples v : sound v -> cells v = map (cellAt v) (tuples (ext v)).
Proof.
  intros [H1 H2]. unfold cells, cellAt. rewrite H2.
  rewrite <- (map_map (fun k => iterOff k (ext v) (str v)) (fun o => off v + o)), iterOff_tuples, map_map by exact H1. reflexivity.
Qed.

(* ---------- row-major order ---------- *)

Lemma strides_row e : rowMajor e (strides e).
Proof.
  induction e as [|x r IH]; [exact I|]. destruct r as [|f r]; [cbn; auto|].
  change (strides (x :: f :: r)) with (hd 1 (strides (f :: r)) * f :: strides (f :: r)).
  remember (strides (f :: r)) as s eqn:E. clear E. cbn [rowMajor]. split; [|exact IH].
  destruct s as [|t s]; [destruct IH|]. destruct IH as [-> _]. rewrite count_cons. cbn [hd]. lia.
Qed.
Lemma row_length e : forall s, rowMajor e s -> length s = length e.
Proof. induction e as [|x r IH]; intros [|t q] H; try destruct H; cbn; auto. Qed.
Lemma row_unique e : forall s, rowMajor e s -> s = strides e.
Proof.
  assert (G : forall a b, rowMajor e a -> rowMajor e b -> a = b).
  { induction e as [|x r IH]; intros [|t q] [|u p] Ha Hb; try destruct Ha; try destruct Hb; [reflexivity|]. subst. f_equal. apply IH; assumption. }
  intros s H. apply G; [exact H|apply strides_row].
Qed.
Lemma row_place e : forall s, rowMajor e s -> map (fun i => place i s) (tuples e) = seq 0 (count e).
Proof.
  induction e as [|x r IH]; intros [|t q] H; try contradiction; [reflexivity|]. destruct H as [-> H]. rewrite count_cons, seq_mul. cbn [tuples].
  rewrite map_flat_map. apply flat_map_ext_in. intros i Hi. rewrite map_map. cbn [place]. rewrite (seq_shift_ (i * count r)).
  rewrite <- (map_map (fun j => place j q) (fun o => i * count r + o)), IH by exact H. apply map_ext. intros j. lia.
Qed.

Theorem cells_row v : sound v -> rowMajor (ext v) (str v) -> cells v = seq (off v) (len v).
Proof.
  intros Hs Hr. rewrite cells_tuples by exact Hs. unfold cellAt. rewrite <- (map_map (fun i => place i (str v)) (fun o => off v + o)).
  rewrite row_place by exact Hr. destruct Hs as [_ ->]. rewrite (seq_shift_ (off v)). apply map_ext. intros j. lia.
Qed.

Lemma row_nth e s idx : rowMajor e s -> fits idx e -> nth_error (tuples e) (place idx s) = Some idx.
Proof.
  intros Hr Hf. apply tuples_fits in Hf. apply In_nth_error in Hf as (k & Hk).
  assert (E : nth_error (map (fun i => place i s) (tuples e)) k = Some (place idx s)) by (apply (map_nth_error (fun i => place i s) k _ Hk)).
  rewrite row_place in E by exact Hr.
  assert (Hl : k < count e) by (unfold count; apply nth_error_Some; congruence).
  rewrite (nth_error_nth' _ 0) in E by (rewrite seq_length; exact Hl). rewrite seq_nth in E by exact Hl. cbn in E. injection E as E. rewrite <- E. exact Hk.
Qed.

Lemma below_fits idx : forall e, below idx e = true <-> fits idx e.
Proof.
  induction idx as [|i r IH]; intros [|x q]; cbn [below].
  - split; [constructor|reflexivity].
  - split; [discriminate|intros H; inversion H].
  - split; [discriminate|intros H; inversion H].
  - rewrite andb_true_iff, Nat.ltb_lt, IH. split; [intros [H1 H2]; constructor; assumption|]. intros H. inversion H. auto.
Qed.
Lemma fits_length idx e : fits idx e -> length idx = length e.
Proof. intros H. induction H; cbn; auto. Qed.

Lemma contiguous_row e : forall s, length s = length e -> (contiguousFrom e s = true <-> rowMajor e s).
Proof.
  induction e as [|x r IH]; intros [|t q] H; try discriminate; [cbn; tauto|]. injection H as H.
  destruct r as [|f r]; destruct q as [|u q]; try discriminate.
  - cbn. rewrite Nat.eqb_eq. tauto.
  - cbn [contiguousFrom]. rewrite andb_true_iff, Nat.eqb_eq. specialize (IH (u :: q) H). cbn [rowMajor]. rewrite count_cons.
    change (contiguousFrom (f :: r) (u :: q)) with (contiguousFrom (f :: r) (u :: q)) in IH.
    split.
    + intros [-> Hc]. apply IH in Hc. cbn [rowMajor] in Hc. destruct Hc as [-> Hc]. split; [lia|]. split; [reflexivity|exact Hc].
    + intros [-> [-> Hc]]. split; [lia|]. apply IH. cbn [rowMajor]. auto.
Qed.

(* ---------- products ---------- *)

Lemma productFrom_some mx e : forall n m, n <= mx -> productFrom mx n e = Some m -> m = n * count e /\ m <= mx.
Proof.
  induction e as [|x r IH]; intros n m Hn H; cbn [productFrom] in H.
  - injection H as <-. unfold count. cbn. lia.
  - destruct (Nat.eqb_spec x 0) as [->|Hx]; cbn [negb andb] in H.
    + apply IH in H; [|lia]. rewrite count_cons. lia.
    + destruct (Nat.ltb_spec (mx / x) n) as [Hl|Hl]; [discriminate|]. apply IH in H; [rewrite count_cons; lia|].
      pose proof (Nat.mul_div_le mx x Hx). nia.
Qed.
Lemma count_pos e : Forall (fun x => x <> 0) e -> 1 <= count e.
Proof. intros H. induction H as [|x r Hx H IH]; [cbn; lia|]. rewrite count_cons. nia. Qed.
Lemma productFrom_none mx e : forall n, Forall (fun x => x <> 0) e -> productFrom mx n e = None -> mx < n * count e.
Proof.
  induction e as [|x r IH]; intros n Hz H; cbn [productFrom] in H; [discriminate|].
  pose proof (Forall_inv Hz) as Hx. cbv beta in Hx. pose proof (Forall_inv_tail Hz) as Hr. destruct (Nat.eqb_spec x 0); [contradiction|]. cbn [negb andb] in H.
  rewrite count_cons. destruct (Nat.ltb_spec (mx / x) n) as [Hl|Hl].
  - pose proof (Nat.div_mod mx x Hx). pose proof (Nat.mod_upper_bound mx x Hx). pose proof (count_pos r Hr).
    assert (E1 : mx < x * n) by nia. assert (E2 : x * n * 1 <= x * n * count r) by (apply Nat.mul_le_mono_l; assumption). lia.
  - apply IH in H; [|exact Hr]. lia.
Qed.

(* ---------- slices and transposition ---------- *)

Lemma sliceDims_nil e : forall s, length s = length e -> sliceDims e s [] = (e, 0).
Proof. induction e as [|x r IH]; intros [|t q] H; try discriminate; [reflexivity|]. injection H as H. cbn [sliceDims]. rewrite IH by exact H. reflexivity. Qed.

Lemma slice_dims rs : forall e s, length s = length e -> goodRanges rs e ->
  let '(ne, o) := sliceDims e s rs in
  length ne = length e /\
  (forall idx, fits idx ne <-> (fits (shift rs idx) e /\ within rs (shift rs idx))) /\
  (forall idx, length idx = length e -> o + place idx s = place (shift rs idx) s).
Proof.
  induction rs as [|[a b] rs IH]; intros e s H G.
  - rewrite sliceDims_nil by exact H. split; [reflexivity|]. split; [|reflexivity]. intros idx. cbn. tauto.
  - destruct e as [|x r]; [destruct G|]. destruct s as [|t q]; [discriminate|]. injection H as H. destruct G as [Hab G]. cbn [sliceDims].
    specialize (IH r q H G). destruct (sliceDims r q rs) as [ne o]. destruct IH as (IH1 & IH2 & IH3). split; [cbn; auto|]. split.
    + intros [|i idx]; cbn [shift within]; [split; [intros X; inversion X|intros [X _]; inversion X]|]. split.
      * intros X. inversion X as [|? ? ? ? X1 X2]. apply IH2 in X2 as [X2 X3]. split; [constructor; [lia|exact X2]|]. split; [lia|exact X3].
      * intros [X [Y1 Y2]]. inversion X as [|? ? ? ? X1 X2]. constructor; [lia|]. apply IH2. auto.
    + intros [|i idx] E; [discriminate|]. injection E as E. cbn [shift place]. specialize (IH3 idx E). lia.
Qed.

Lemma place_app a : forall s b t, length a = length s -> place (a ++ b) (s ++ t) = place a s + place b t.
Proof. induction a as [|i a IH]; intros [|u s] b t H; try discriminate; [reflexivity|]. injection H as H. cbn. rewrite IH by exact H. lia. Qed.
Lemma place_rev a : forall s, length a = length s -> place (rev a) (rev s) = place a s.
Proof.
  induction a as [|i a IH]; intros [|u s] H; try discriminate; [reflexivity|]. injection H as H. cbn [rev place].
  rewrite place_app by (rewrite !rev_length; exact H). rewrite IH by exact H. cbn. lia.
Qed.
Lemma fits_rev idx e : fits idx e -> fits (rev idx) (rev e).
Proof. intros H. induction H as [|i x r q Hi H IH]; [constructor|]. cbn. apply Forall2_app; [exact IH|]. constructor; [exact Hi|constructor]. Qed.

Lemma place_sum idx : forall s, length idx = length s ->
  place idx s = list_sum (map (fun d => nth d idx 0 * nth d s 0) (seq 0 (length s))).
Proof.
  induction idx as [|i r IH]; intros [|t q] H; try discriminate; [reflexivity|]. injection H as H. cbn [place length seq map list_sum fold_right nth].
  f_equal. rewrite IH by exact H. rewrite <- seq_shift, map_map. reflexivity.
Qed.
Lemma place_pick axes : forall idx s, place (pick axes idx) (pick axes s) = list_sum (map (fun d => nth d idx 0 * nth d s 0) axes).
Proof. induction axes as [|a axes IH]; intros idx s; [reflexivity|]. cbn [pick map place list_sum fold_right]. f_equal. apply IH. Qed.
Lemma sum_perm l k : Permutation l k -> list_sum l = list_sum k.
Proof. intros H. induction H as [|x l k H IH|x y l|l k m H IH H2 IH2]; unfold list_sum in *; cbn [fold_right] in *; lia. Qed.
Lemma fits_nth idx e : length idx = length e -> (fits idx e <-> forall d, d < length e -> nth d idx 0 < nth d e 0).
Proof.
  revert e. induction idx as [|i r IH]; intros [|x q] H; try discriminate.
  - split; [intros _ d Hd; cbn in Hd; lia|constructor].
  - injection H as H. split.
    + intros X [|d] Hd; inversion X as [|? ? ? ? X1 X2]; [exact X1|]. cbn. apply IH; [exact H|exact X2|cbn in Hd; lia].
    + intros X. constructor; [apply (X 0); cbn; lia|]. apply IH; [exact H|]. intros d Hd. apply (X (S d)). cbn. lia.
Qed.
Lemma nth_pick axes l d : d < length axes -> nth d (pick axes l) 0 = nth (nth d axes 0) l 0.
Proof.
  intros H. unfold pick. rewrite (nth_indep _ 0 (nth 0 l 0)) by (rewrite map_length; exact H). apply (map_nth (fun a => nth a l 0)).
Qed.
