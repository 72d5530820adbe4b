(** Canonical Huffman codes: the decoder tables and the bit-by-bit decoding loop against the codes of the specification. *)
From Coq Require Import List NArith ZArith Arith Bool Lia ZifyBool ZifyNat ZifyN.
From Verif Require Import Base CompModel CompSpec CompBits.
Import ListNotations.
Local Open Scope N_scope.

(** Number of symbols with length [w]. *)
Definition cnt (w : nat) (lens : list nat) : nat := length (filter (Nat.eqb w) lens).
(** Number of symbols with a non-zero length below [w]. *)
Definition below (w : nat) (lens : list nat) : nat := length (filter (fun l => negb (l =? 0)%nat && (l <? w)%nat) lens).
(** Code space used by lengths up to [w], in units of 2^-w. *)
Fixpoint space (w : nat) (lens : list nat) : N :=
  match lens with
  | [] => 0
  | l :: r => (if (l =? 0)%nat || (w <? l)%nat then 0 else 2 ^ N.of_nat (w - l)) + space w r
  end.
Definition firstOf (w : nat) (lens : list nat) : N := match w with O => 0 | S v => 2 * space v lens end.
Lemma firstOf_pred w lens : w <> 0%nat -> firstOf w lens = 2 * space (w - 1) lens.
Proof. destruct w as [|v]; [congruence|]. intros _. cbn [firstOf]. replace (S v - 1)%nat with v by lia. reflexivity. Qed.
Definition rank (lens : list nat) (s : nat) : nat := cnt (nth s lens 0%nat) (firstn s lens).

Lemma cnt_cons w l r : cnt w (l :: r) = ((if (w =? l)%nat then 1 else 0) + cnt w r)%nat.
Proof. unfold cnt. cbn [filter]. destruct (w =? l)%nat; reflexivity. Qed.
Lemma cnt_app w a b : cnt w (a ++ b) = (cnt w a + cnt w b)%nat.
Proof. unfold cnt. rewrite filter_app, app_length. reflexivity. Qed.
Lemma below_cons w l r : below w (l :: r) = ((if negb (l =? 0)%nat && (l <? w)%nat then 1 else 0) + below w r)%nat.
Proof. unfold below. cbn [filter]. destruct (negb (l =? 0)%nat && (l <? w)%nat); reflexivity. Qed.
Lemma below_S w lens : (1 <= w)%nat -> below (S w) lens = (below w lens + cnt w lens)%nat.
Proof.
  intros Hw. induction lens as [|l r IH]; [reflexivity|]. rewrite !below_cons, cnt_cons, IH.
  destruct (Nat.eqb_spec l 0), (Nat.ltb_spec l w), (Nat.ltb_spec l (S w)), (Nat.eqb_spec w l); cbn [negb andb]; lia.
Qed.
Lemma below_1 lens : below 1 lens = 0%nat.
Proof.
  induction lens as [|l r IH]; [reflexivity|]. rewrite below_cons, IH.
  destruct (Nat.eqb_spec l 0), (Nat.ltb_spec l 1); cbn [negb andb]; lia.
Qed.
Lemma below_mono v w lens : (v <= w)%nat -> (below v lens <= below w lens)%nat.
Proof.
  intros H. induction lens as [|l r IH]; [reflexivity|]. rewrite !below_cons.
  destruct (Nat.eqb_spec l 0), (Nat.ltb_spec l w), (Nat.ltb_spec l v); cbn [negb andb]; lia.
Qed.
Lemma below_disjoint v w lens : (1 <= v)%nat -> (v < w)%nat -> (below v lens + cnt v lens <= below w lens)%nat.
Proof. intros Hv H. rewrite <- below_S by exact Hv. apply below_mono. lia. Qed.
Lemma below_le w lens : (below w lens <= length lens)%nat.
Proof. induction lens as [|l r IH]; [reflexivity|]. rewrite below_cons. cbn [length]. destruct (negb (l =? 0)%nat && (l <? w)%nat); lia. Qed.

Lemma pow2_S n : 2 ^ N.of_nat (S n) = 2 * 2 ^ N.of_nat n.
Proof. rewrite Nat2N.inj_succ. apply N.pow_succ_r'. Qed.
Lemma space_S w lens : space (S w) lens = 2 * space w lens + N.of_nat (cnt (S w) lens).
Proof.
  induction lens as [|l r IH]; [reflexivity|]. cbn [space]. rewrite IH, cnt_cons.
  destruct (Nat.eqb_spec l 0), (Nat.ltb_spec w l), (Nat.ltb_spec (S w) l), (Nat.eqb_spec (S w) l); cbn [orb]; try lia.
  - replace (S w - l)%nat with 0%nat by lia. change (2 ^ N.of_nat 0) with 1. lia.
  - replace (S w - l)%nat with (S (w - l)) by lia. rewrite pow2_S. lia.
Qed.
Lemma space_0 lens : space 0 lens = 0.
Proof.
  induction lens as [|l r IH]; [reflexivity|]. cbn [space]. rewrite IH.
  destruct (Nat.eqb_spec l 0), (Nat.ltb_spec 0 l); cbn [orb]; lia.
Qed.
Lemma space_first w lens : (1 <= w)%nat -> space w lens = firstOf w lens + N.of_nat (cnt w lens).
Proof. destruct w as [|w]; [lia|]. intros _. apply space_S. Qed.
Lemma space_scale v w lens : (v <= w)%nat -> space v lens * 2 ^ N.of_nat (w - v) <= space w lens.
Proof.
  intros H. remember (w - v)%nat as k eqn:Ek. revert w H Ek. induction k as [|k IH]; intros w H Ek.
  - replace w with v by lia. change (2 ^ N.of_nat 0) with 1. lia.
  - destruct w as [|w]; [lia|]. rewrite space_S, pow2_S. specialize (IH w ltac:(lia) ltac:(lia)). lia.
Qed.
Lemma kraft_space M lens : Forall (fun l => (l <= M)%nat) lens -> kraft M lens = space M lens.
Proof.
  induction lens as [|l r IH]; intros H; [reflexivity|]. inversion H as [|? ? Hl Hr]; subst.
  unfold kraft in *. cbn [fold_right space]. rewrite (IH Hr). destruct (Nat.eqb_spec l 0), (Nat.ltb_spec M l); cbn [orb]; try lia.
Qed.
Lemma space_le_pow M lens w : (w <= M)%nat -> space M lens <= 2 ^ N.of_nat M -> space w lens <= 2 ^ N.of_nat w.
Proof.
  intros Hw H. pose proof (space_scale w M lens Hw) as Hs.
  assert (Hp : 2 ^ N.of_nat M = 2 ^ N.of_nat w * 2 ^ N.of_nat (M - w)) by (rewrite <- N.pow_add_r; f_equal; lia).
  rewrite Hp in H. pose proof (pow2_pos (N.of_nat (M - w))). nia.
Qed.

Lemma space_sat M lens : Forall (fun l => (l <= M)%nat) lens -> forall k, space (M + k) lens = space M lens * 2 ^ N.of_nat k.
Proof.
  intros H k. induction k as [|k IH].
  - rewrite Nat.add_0_r. change (2 ^ N.of_nat 0) with 1. lia.
  - rewrite Nat.add_succ_r, space_S, IH, pow2_S.
    assert (Hc : cnt (S (M + k)) lens = 0%nat).
    { clear IH. induction lens as [|l r IHl]; [reflexivity|]. inversion H; subst. rewrite cnt_cons, IHl by assumption.
      destruct (Nat.eqb_spec (S (M + k)) l); lia. }
    rewrite Hc. lia.
Qed.

Lemma sum_seq_nth {A} (f : A -> N) (l : list A) d :
  fold_right (fun i acc => f (nth i l d) + acc) 0 (seq 0 (length l)) = fold_right (fun x acc => f x + acc) 0 l.
Proof.
  induction l as [|x l IH]; [reflexivity|]. cbn [length seq fold_right nth]. rewrite <- seq_shift. f_equal. rewrite <- IH.
  generalize (seq 0 (length l)). intros is. induction is as [|i is IHi]; [reflexivity|]. cbn [map fold_right nth]. rewrite IHi. reflexivity.
Qed.
Lemma sum_add {A} (f g : A -> N) l :
  fold_right (fun x acc => (f x + g x) + acc) 0 l = fold_right (fun x acc => f x + acc) 0 l + fold_right (fun x acc => g x + acc) 0 l.
Proof. induction l as [|x l IH]; [reflexivity|]. cbn [fold_right]. rewrite IH. lia. Qed.
Lemma sum_ext {A} (f g : A -> N) l : (forall x, In x l -> f x = g x) ->
  fold_right (fun x acc => f x + acc) 0 l = fold_right (fun x acc => g x + acc) 0 l.
Proof. induction l as [|x l IH]; intros H; [reflexivity|]. cbn [fold_right]. rewrite IH by (intros; apply H; right; assumption). rewrite (H x) by (left; reflexivity). reflexivity. Qed.
Lemma sum_rank w lens : forall s,
  fold_right (fun i acc => (if (nth i lens 0 =? w)%nat && (i <? s)%nat then 1 else 0) + acc) 0 (seq 0 (length lens)) = N.of_nat (cnt w (firstn s lens)).
Proof.
  induction lens as [|l r IH]; intros s.
  - rewrite firstn_nil. reflexivity.
  - cbn [length seq fold_right nth]. rewrite <- seq_shift.
    assert (E : forall js, fold_right (fun i acc => (if (nth i (l :: r) 0 =? w)%nat && (i <? s)%nat then 1 else 0) + acc) 0 (map S js)
              = fold_right (fun i acc => (if (nth i r 0 =? w)%nat && (i <? pred s)%nat then 1 else 0) + acc) 0 js).
    { intros js. induction js as [|j js IHj]; [reflexivity|]. cbn [map fold_right]. rewrite IHj. cbn [nth].
      destruct s as [|s]; cbn [pred].
      - destruct (Nat.ltb_spec (S j) 0), (Nat.ltb_spec j 0); try lia; reflexivity.
      - destruct (Nat.ltb_spec (S j) (S s)), (Nat.ltb_spec j s); try lia; reflexivity. }
    rewrite E, IH. destruct s as [|s]; cbn [pred].
    + destruct (Nat.ltb_spec 0 0); [lia|]. rewrite andb_false_r. cbn [firstn]. reflexivity.
    + cbn [firstn]. rewrite cnt_cons. destruct (Nat.ltb_spec 0 (S s)); [|lia]. rewrite andb_true_r.
      rewrite (Nat.eqb_sym w l). destruct (l =? w)%nat; lia.
Qed.

(** The canonical code of the specification in closed form. *)
Lemma codeValue_eq lens s : hasCode lens s -> codeValue lens s = firstOf (nth s lens 0%nat) lens + N.of_nat (rank lens s).
Proof.
  unfold hasCode, rank, codeValue. intros Hc. set (l := nth s lens 0%nat) in *.
  rewrite <- sum_rank.
  transitivity (fold_right (fun i acc => (if negb (nth i lens 0 =? 0)%nat && (nth i lens 0 <? l)%nat then 2 ^ N.of_nat (l - nth i lens 0%nat) else 0) + acc) 0 (seq 0 (length lens))
    + fold_right (fun i acc => (if (nth i lens 0 =? l)%nat && (i <? s)%nat then 1 else 0) + acc) 0 (seq 0 (length lens))).
  - rewrite <- (sum_add (fun i => if negb (nth i lens 0 =? 0)%nat && (nth i lens 0 <? l)%nat then 2 ^ N.of_nat (l - nth i lens 0%nat) else 0)
                        (fun i => if (nth i lens 0 =? l)%nat && (i <? s)%nat then 1 else 0)).
    apply sum_ext. intros i _. unfold precedes. fold l.
    destruct (Nat.eqb_spec (nth i lens 0%nat) 0) as [E|E], (Nat.ltb_spec (nth i lens 0%nat) l) as [Hl|Hl], (Nat.eqb_spec (nth i lens 0%nat) l) as [E2|E2], (i <? s)%nat;
      cbn [negb andb orb]; try lia.
    rewrite E2, Nat.sub_diag. reflexivity.
  - f_equal. rewrite (sum_seq_nth (fun x => if negb (x =? 0)%nat && (x <? l)%nat then 2 ^ N.of_nat (l - x) else 0)).
    clearbody l. destruct l as [|v]; [lia|]. cbn [firstOf]. clear.
    induction lens as [|x r IH]; [reflexivity|]. cbn [fold_right space]. rewrite IH.
    destruct (Nat.eqb_spec x 0), (Nat.ltb_spec x (S v)), (Nat.ltb_spec v x); cbn [negb andb orb]; try lia.
    replace (S v - x)%nat with (S (v - x)) by lia. rewrite pow2_S. lia.
Qed.
Lemma rank_lt lens s : hasCode lens s -> (rank lens s < cnt (nth s lens 0%nat) lens)%nat.
Proof.
  unfold hasCode, rank. intros H. destruct (nth_in_or_default s lens 0%nat) as [Hi|Hd]; [|congruence].
  assert (Hs : (s < length lens)%nat). { destruct (le_lt_dec (length lens) s) as [Hl|Hl]; [|exact Hl]. rewrite nth_overflow in H by exact Hl. congruence. }
  remember (nth s lens 0%nat) as w eqn:Ew. rewrite <- (firstn_skipn s lens) at 2. rewrite cnt_app.
  destruct (skipn s lens) as [|x t] eqn:E.
  - apply (f_equal (@length nat)) in E. rewrite skipn_length in E. cbn in E. lia.
  - assert (x = w). { rewrite Ew. rewrite <- (firstn_skipn s lens), app_nth2; rewrite firstn_length, Nat.min_l by lia; [|lia]. rewrite E, Nat.sub_diag. reflexivity. }
    subst x. rewrite cnt_cons, Nat.eqb_refl. lia.
Qed.
Lemma rank_surj w lens : forall j, (j < cnt w lens)%nat -> exists s, (s < length lens)%nat /\ nth s lens 0%nat = w /\ rank lens s = j.
Proof.
  induction lens as [|l r IH] using rev_ind; intros j Hj; [cbn in Hj; lia|].
  rewrite cnt_app, cnt_cons in Hj. destruct (le_lt_dec (cnt w r) j) as [H|H].
  - destruct (Nat.eqb_spec w l) as [E|E]; [|cbn in Hj; lia]. exists (length r). rewrite app_length. cbn [length].
    split; [lia|]. unfold rank. rewrite app_nth2, Nat.sub_diag by lia. cbn [nth]. split; [congruence|].
    rewrite firstn_app, Nat.sub_diag, firstn_all. cbn [firstn]. rewrite app_nil_r. subst l. cbn in Hj. lia.
  - destruct (IH _ H) as (s & Hs & Hn & Hr). exists s. rewrite app_length. split; [lia|]. unfold rank in *.
    rewrite app_nth1 by exact Hs. split; [exact Hn|]. rewrite firstn_app. replace (s - length r)%nat with 0%nat by lia.
    cbn [firstn]. rewrite app_nil_r. exact Hr.
Qed.

Lemma code_bound M lens s : hasCode lens s -> (nth s lens 0 <= M)%nat -> space M lens <= 2 ^ N.of_nat M ->
  codeValue lens s < 2 ^ N.of_nat (nth s lens 0%nat).
Proof.
  intros Hc Hl Hs. rewrite codeValue_eq by exact Hc. pose proof (rank_lt _ _ Hc). unfold hasCode in Hc.
  pose proof (space_le_pow _ _ _ Hl Hs) as H2. rewrite space_first in H2 by lia. lia.
Qed.

(** * Most significant bit first *)
Lemma msb_S k c : msb (S k) c = N.testbit c (N.of_nat k) :: msb k c.
Proof.
  unfold msb. replace (S k) with (k + 1)%nat by lia. rewrite lsb_app, rev_app_distr.
  change (lsb 1 (N.shiftr c (N.of_nat k))) with [N.testbit (N.shiftr c (N.of_nat k)) 0]. cbn [rev app]. f_equal.
  rewrite N.shiftr_spec by lia. f_equal.
Qed.
Lemma msb_snoc w c b : msb (S w) (2 * c + bit b) = msb w c ++ [b].
Proof.
  unfold msb. rewrite lsb_S. cbn [rev]. f_equal.
  - f_equal. f_equal. rewrite N.shiftr_div_pow2. change (2 ^ 1) with 2. rewrite N.mul_comm, N.div_add_l by lia.
    destruct b; cbn [bit]; rewrite N.div_small; lia.
  - f_equal. rewrite N.bit0_odd, N.odd_add, N.odd_mul. destruct b; reflexivity.
Qed.
Lemma lor_bit code b : N.lor (N.shiftl code 1) (bit b) = 2 * code + bit b.
Proof.
  rewrite N.lor_comm, lor_shiftl_add; [change (2 ^ 1) with 2; lia|]. change (2 ^ 1) with 2. destruct b; cbn [bit]; lia.
Qed.
Lemma shiftr_step c k : 2 * N.shiftr c (N.of_nat (S k)) + bit (N.testbit c (N.of_nat k)) = N.shiftr c (N.of_nat k).
Proof.
  assert (E : N.shiftr c (N.of_nat (S k)) = N.div2 (N.shiftr c (N.of_nat k))).
  { rewrite N.div2_spec, N.shiftr_shiftr. f_equal. lia. }
  rewrite E. rewrite (N.div2_odd (N.shiftr c (N.of_nat k))) at 2. f_equal.
  rewrite <- N.bit0_odd, N.shiftr_spec by lia. rewrite N.add_0_l. destruct (N.testbit c (N.of_nat k)); reflexivity.
Qed.

(** * Decoding one symbol *)
Record decOk (lens : list nat) (d : HuffmanDecoder) : Prop := {
  dk_counts : forall w, (1 <= w <= hmax d)%nat -> nth_error (hcounts d) w = Some (cnt w lens);
  dk_symbols : forall s, hasCode lens s -> nth_error (hsymbols d) (below (nth s lens 0%nat) lens + rank lens s) = Some s;
  dk_max : forall s, (nth s lens 0 <= hmax d)%nat;
  dk_space : forall w, space w lens <= 2 ^ N.of_nat w }.

Lemma decode_complete_loop lens d s : decOk lens d -> hasCode lens s ->
  forall k r rest, rok r -> (1 <= k <= nth s lens 0)%nat -> rbitsOf r = msb k (codeValue lens s) ++ rest ->
  let w := (nth s lens 0 - k + 1)%nat in
  exists r', decodeSymbolLoop (hmax d - (w - 1)) w (N.shiftr (codeValue lens s) (N.of_nat k)) (firstOf w lens) (below w lens) d r = Ok (s, r')
    /\ rok r' /\ rbitsOf r' = rest /\ rinput r' = rinput r /\ offset r' = (offset r + k)%nat.
Proof.
  intros Hd Hc. pose proof (dk_max _ _ Hd s) as Hmax. set (l := nth s lens 0%nat) in *. set (c := codeValue lens s) in *.
  assert (Hl0 : l <> 0%nat) by exact Hc.
  assert (Ec : c = firstOf l lens + N.of_nat (rank lens s)) by (apply codeValue_eq; exact Hc).
  pose proof (rank_lt _ _ Hc) as Hr. fold l in Hr.
  induction k as [|k IH]; intros r rest Hrok Hk Hbits; cbn zeta; [lia|].
  set (w := (l - S k + 1)%nat). rewrite msb_S in Hbits. cbn [app] in Hbits.
  pose proof (nextBit_spec r Hrok) as Hnb. rewrite Hbits in Hnb. destruct Hnb as (r1 & E1 & Hr1 & Hb1 & Hi1 & Ho1).
  replace (hmax d - (w - 1))%nat with (S (hmax d - w))%nat by lia.
  cbn [decodeSymbolLoop]. rewrite E1. rewrite lor_bit, shiftr_step.
  unfold aget. rewrite (dk_counts _ _ Hd w) by lia. cbn [bind].
  destruct k as [|k].
  - assert (Ew : w = l) by lia. change (N.of_nat 0) with 0. rewrite N.shiftr_0_r, Ew.
    destruct (N.leb_spec (firstOf l lens) c); [|lia]. destruct (N.ltb_spec (c - firstOf l lens) (N.of_nat (cnt l lens))); [|lia].
    cbn [andb]. replace (N.to_nat (c - firstOf l lens)) with (rank lens s) by lia.
    pose proof (dk_symbols _ _ Hd s Hc) as Hs. fold l in Hs. rewrite Hs. cbn [bind].
    exists r1. change (msb 0 c) with (@nil bool) in Hb1. cbn [app] in Hb1. split; [reflexivity|]. split; [exact Hr1|]. split; [exact Hb1|]. split; [exact Hi1|lia].
  - assert (Hge : firstOf w lens + N.of_nat (cnt w lens) <= N.shiftr c (N.of_nat (S k))).
    { rewrite <- space_first by lia. rewrite N.shiftr_div_pow2. apply N.div_le_lower_bound; [apply N.pow_nonzero; discriminate|].
      rewrite firstOf_pred in Ec by exact Hl0.
      pose proof (space_scale w (l - 1) lens ltac:(lia)) as Hss. replace (S k) with (S (l - 1 - w)) by lia. rewrite pow2_S. lia. }
    destruct (N.ltb_spec (N.shiftr c (N.of_nat (S k)) - firstOf w lens) (N.of_nat (cnt w lens))); [lia|].
    rewrite andb_false_r.
    destruct (IH r1 rest Hr1 ltac:(lia) Hb1) as (r' & E & H1 & H2 & H3 & H4).
    replace (l - S k + 1)%nat with (S w) in E by lia.
    replace (hmax d - (S w - 1))%nat with (hmax d - w)%nat in E by lia.
    rewrite <- (below_S w) by lia.
    replace (N.shiftl (firstOf w lens + N.of_nat (cnt w lens)) 1) with (firstOf (S w) lens).
    2:{ cbn [firstOf]. rewrite <- space_first by lia. rewrite N.shiftl_mul_pow2. change (2 ^ 1) with 2. lia. }
    exists r'. split; [exact E|]. split; [exact H1|]. split; [exact H2|]. split; [congruence|lia].
Qed.
Lemma decodeSymbol_complete lens d s r rest : decOk lens d -> hasCode lens s -> rok r -> rbitsOf r = codeword lens s ++ rest ->
  exists r', decodeSymbol d r = Ok (s, r') /\ rok r' /\ rbitsOf r' = rest /\ rinput r' = rinput r /\ offset r' = (offset r + nth s lens 0)%nat.
Proof.
  intros Hd Hc Hr Hb. pose proof Hc as Hc'. unfold hasCode in Hc'.
  destruct (decode_complete_loop lens d s Hd Hc (nth s lens 0%nat) r rest Hr ltac:(lia) Hb) as (r' & E & H).
  exists r'. split; [|exact H]. unfold decodeSymbol. rewrite <- E.
  replace (nth s lens 0 - nth s lens 0 + 1)%nat with 1%nat by lia. rewrite below_1. cbn [firstOf]. rewrite space_0.
  replace (N.shiftr (codeValue lens s) (N.of_nat (nth s lens 0%nat))) with 0; [f_equal; lia|].
  symmetry. rewrite N.shiftr_div_pow2. apply N.div_small. apply (code_bound (nth s lens 0%nat)); [exact Hc|lia|apply (dk_space _ _ Hd)].
Qed.

Definition decodeResult (lens : list nat) (r : BitReader) (x : res (nat * BitReader)) : Prop :=
  match x with
  | Ok (s, r') => hasCode lens s /\ rok r' /\ rbitsOf r = codeword lens s ++ rbitsOf r' /\ rinput r' = rinput r /\
                  offset r' = (offset r + nth s lens 0)%nat
  | Err e => e = truncatedInput \/ e = invalidCode
  | _ => False
  end.
Lemma decode_sound_loop lens d r0 : decOk lens d -> forall k w code pre r, rok r -> (k = hmax d - (w - 1))%nat -> (1 <= w <= S (hmax d))%nat ->
  pre = msb (w - 1) code -> code < 2 ^ N.of_nat (w - 1) -> rbitsOf r0 = pre ++ rbitsOf r -> rinput r = rinput r0 -> offset r = (offset r0 + (w - 1))%nat ->
  decodeResult lens r0 (decodeSymbolLoop k w code (firstOf w lens) (below w lens) d r).
Proof.
  intros Hd k. induction k as [|k IH]; intros w code pre r Hr Hk Hw Hpre Hcode Hbits Hin Hoff; cbn [decodeSymbolLoop]; [right; reflexivity|].
  pose proof (nextBit_spec r Hr) as Hnb. destruct (rbitsOf r) as [|b rest] eqn:Eb.
  - rewrite Hnb. left; reflexivity.
  - destruct Hnb as (r1 & E1 & Hr1 & Hb1 & Hi1 & Ho1). rewrite E1, lor_bit.
    unfold aget. rewrite (dk_counts _ _ Hd w) by lia. cbn [bind].
    assert (Hpre' : msb w (2 * code + bit b) = pre ++ [b]).
    { destruct w as [|w]; [lia|]. rewrite msb_snoc. replace (S w - 1)%nat with w in Hpre by lia. rewrite Hpre. reflexivity. }
    assert (Hcode' : 2 * code + bit b < 2 ^ N.of_nat w).
    { destruct w as [|w]; [lia|]. replace (S w - 1)%nat with w in Hcode by lia. rewrite pow2_S. destruct b; cbn [bit]; lia. }
    destruct (N.leb_spec (firstOf w lens) (2 * code + bit b)) as [Hf|Hf]; cbn [andb].
    + destruct (N.ltb_spec (2 * code + bit b - firstOf w lens) (N.of_nat (cnt w lens))) as [Hlt|Hge].
      * destruct (rank_surj w lens (N.to_nat (2 * code + bit b - firstOf w lens)) ltac:(lia)) as (s & Hs & Hn & Hrk).
        assert (Hc : hasCode lens s) by (unfold hasCode; lia).
        pose proof (dk_symbols _ _ Hd s Hc) as Hsym. rewrite Hn, Hrk in Hsym. rewrite Hsym. cbn [bind decodeResult].
        split; [exact Hc|]. split; [exact Hr1|]. split; [|split; [congruence|rewrite Hn; lia]].
        rewrite Hb1, Hbits. unfold codeword. rewrite Hn, codeValue_eq by exact Hc. rewrite Hn, Hrk.
        replace (firstOf w lens + N.of_nat (N.to_nat (2 * code + bit b - firstOf w lens))) with (2 * code + bit b) by lia.
        rewrite Hpre', <- app_assoc. reflexivity.
      * rewrite <- below_S by lia.
        replace (N.shiftl (firstOf w lens + N.of_nat (cnt w lens)) 1) with (firstOf (S w) lens).
        2:{ cbn [firstOf]. rewrite <- space_first by lia. rewrite N.shiftl_mul_pow2. change (2 ^ 1) with 2. lia. }
        apply (IH (S w) _ (pre ++ [b])); try assumption; try lia; try congruence.
        -- replace (S w - 1)%nat with w by lia. congruence.
        -- replace (S w - 1)%nat with w by lia. exact Hcode'.
        -- rewrite Hbits, Hb1, <- app_assoc. reflexivity.
    + rewrite <- below_S by lia.
      replace (N.shiftl (firstOf w lens + N.of_nat (cnt w lens)) 1) with (firstOf (S w) lens).
      2:{ cbn [firstOf]. rewrite <- space_first by lia. rewrite N.shiftl_mul_pow2. change (2 ^ 1) with 2. lia. }
      apply (IH (S w) _ (pre ++ [b])); try assumption; try lia; try congruence.
      -- replace (S w - 1)%nat with w by lia. congruence.
      -- replace (S w - 1)%nat with w by lia. exact Hcode'.
      -- rewrite Hbits, Hb1, <- app_assoc. reflexivity.
Qed.
Lemma decodeSymbol_sound lens d r : decOk lens d -> rok r -> decodeResult lens r (decodeSymbol d r).
Proof.
  intros Hd Hr. unfold decodeSymbol.
  pose proof (decode_sound_loop lens d r Hd (hmax d) 1 0 [] r Hr ltac:(lia) ltac:(lia) eq_refl ltac:(reflexivity) eq_refl eq_refl ltac:(lia)) as H.
  rewrite below_1 in H. cbn [firstOf] in H. rewrite space_0 in H. exact H.
Qed.

(** * Building the tables *)
Definition nonzero (lens : list nat) : nat := length (filter (fun l => negb (l =? 0)%nat) lens).
Fixpoint maxLen (lens : list nat) : nat := match lens with [] => 0%nat | l :: r => Nat.max l (maxLen r) end.
Lemma maxLen_ge lens s : (nth s lens 0 <= maxLen lens)%nat.
Proof. revert s; induction lens as [|l r IH]; intros [|s]; cbn [nth maxLen]; try lia. specialize (IH s). lia. Qed.

Lemma countLengths_spec M : forall post pre counts mw used, length counts = S M ->
  (forall w, (1 <= w <= M)%nat -> nth_error counts w = Some (cnt w pre)) -> nth_error counts 0 = Some 0%nat ->
  mw = maxLen pre -> used = nonzero pre ->
  (Forall (fun l => (l <= M)%nat) post /\
   exists counts', countLengths M post counts mw used = Ok (counts', Nat.max mw (maxLen post), nonzero (pre ++ post)) /\ length counts' = S M /\
     (forall w, (1 <= w <= M)%nat -> nth_error counts' w = Some (cnt w (pre ++ post))) /\ nth_error counts' 0 = Some 0%nat) \/
  (~ Forall (fun l => (l <= M)%nat) post /\ countLengths M post counts mw used = Err invalidHuffmanTree).
Proof.
  induction post as [|l post IH]; intros pre counts mw used Hlen Hcnt H0 Hmw Hused; cbn [countLengths].
  - left. split; [constructor|]. exists counts. rewrite app_nil_r. cbn [maxLen]. rewrite Nat.max_0_r. subst used. auto.
  - destruct (Nat.ltb_spec M l) as [Hl|Hl].
    + right. split; [|reflexivity]. intros H. inversion H; subst. lia.
    + assert (Eapp : forall x, pre ++ x :: post = (pre ++ [x]) ++ post) by (intros; rewrite <- app_assoc; reflexivity).
      assert (Hmx : forall a, maxLen (pre ++ [a]) = Nat.max (maxLen pre) a).
      { intros a. clear. induction pre as [|p pre IHp]; cbn [app maxLen]; [lia|]. rewrite IHp. lia. }
      destruct (Nat.eqb_spec l 0) as [E|E].
      * subst l. destruct (IH (pre ++ [0%nat]) counts mw used) as [(H1 & counts' & H2)|(H1 & H2)].
        -- exact Hlen.
        -- intros w Hw. rewrite cnt_app, cnt_cons. destruct (Nat.eqb_spec w 0); [lia|]. cbn. rewrite !Nat.add_0_r. apply Hcnt, Hw.
        -- exact H0.
        -- rewrite Hmx. lia.
        -- subst used. unfold nonzero. rewrite filter_app, app_length. cbn. lia.
        -- left. split; [constructor; [lia|exact H1]|]. exists counts'. rewrite Eapp. cbn [maxLen]. rewrite Nat.max_0_l. exact H2.
        -- right. split; [|exact H2]. intros Hbad. inversion Hbad; subst. auto.
      * unfold aget, aset. rewrite (Hcnt l) by lia. cbn [bind]. destruct (Nat.ltb_spec l (length counts)); [|lia]. cbn [bind].
        destruct (IH (pre ++ [l]) (upd counts l (S (cnt l pre))) (Nat.max mw l) (S used)) as [(H1 & counts' & H2)|(H1 & H2)].
        -- rewrite length_upd. exact Hlen.
        -- intros w Hw. rewrite cnt_app, cnt_cons. cbn [cnt filter length]. destruct (Nat.eqb_spec w l) as [->|Hne].
           ++ rewrite nth_upd_same' by lia. f_equal. unfold cnt. cbn. lia.
           ++ rewrite nth_upd_other by congruence. rewrite Hcnt by exact Hw. f_equal. unfold cnt. cbn. lia.
        -- rewrite nth_upd_other by congruence. exact H0.
        -- rewrite Hmx. lia.
        -- subst used. unfold nonzero. rewrite filter_app, app_length. cbn [filter]. destruct (Nat.eqb_spec l 0); [lia|]. cbn. lia.
        -- left. split; [constructor; [lia|exact H1]|]. exists counts'. rewrite Eapp. cbn [maxLen]. rewrite Nat.max_assoc. exact H2.
        -- right. split; [|exact H2]. intros Hbad. inversion Hbad; subst. auto.
Qed.

Lemma remainingSpace_spec M ls counts : (forall w, (1 <= w <= M)%nat -> nth_error counts w = Some (cnt w ls)) ->
  forall k w, (w + k = S M)%nat -> (1 <= w)%nat -> space (w - 1) ls <= 2 ^ N.of_nat (w - 1) ->
  (space M ls <= 2 ^ N.of_nat M /\
   remainingSpace (seq w k) counts (Z.of_N (2 ^ N.of_nat (w - 1)) - Z.of_N (space (w - 1) ls)) = Ok (Z.of_N (2 ^ N.of_nat M) - Z.of_N (space M ls))%Z) \/
  (2 ^ N.of_nat M < space M ls /\
   remainingSpace (seq w k) counts (Z.of_N (2 ^ N.of_nat (w - 1)) - Z.of_N (space (w - 1) ls)) = Err invalidHuffmanTree).
Proof.
  intros Hc k. induction k as [|k IH]; intros w Hw H1 Hs; cbn [seq remainingSpace].
  - left. replace (w - 1)%nat with M in * by lia. split; [exact Hs|reflexivity].
  - unfold aget. rewrite (Hc w) by lia. cbn [bind].
    destruct w as [|v]; [lia|]. replace (S v - 1)%nat with v in * by lia.
    pose proof (space_S v ls) as HS. pose proof (pow2_S v) as HP.
    destruct (Z.ltb_spec (2 * (Z.of_N (2 ^ N.of_nat v) - Z.of_N (space v ls)) - Z.of_nat (cnt (S v) ls)) 0) as [Hneg|Hpos].
    + right. split; [|reflexivity]. destruct (N.lt_ge_cases (2 ^ N.of_nat M) (space M ls)) as [H|H]; [exact H|].
      pose proof (space_le_pow M ls (S v) ltac:(lia) H). lia.
    + assert (E : (2 * (Z.of_N (2 ^ N.of_nat v) - Z.of_N (space v ls)) - Z.of_nat (cnt (S v) ls))%Z
                = (Z.of_N (2 ^ N.of_nat (S v)) - Z.of_N (space (S v) ls))%Z) by lia.
      rewrite E. replace (S v)%nat with (S (S v) - 1)%nat at 3 6 by lia.
      specialize (IH (S (S v)) ltac:(lia) ltac:(lia)). replace (S (S v) - 1)%nat with (S v) in * by lia. apply IH. lia.
Qed.

Fixpoint sumTo (counts : list nat) (w : nat) : nat := match counts, w with c :: r, S v => (c + sumTo r v)%nat | _, _ => 0%nat end.
Lemma startIndex_nth counts : forall run w, (w < length counts)%nat -> nth_error (startIndex counts run) w = Some (run + sumTo counts w)%nat.
Proof.
  induction counts as [|c r IH]; intros run [|w] H; cbn [startIndex nth_error sumTo length] in *; try lia.
  - f_equal. lia.
  - rewrite IH by lia. f_equal. lia.
Qed.
Lemma startIndex_length counts run : length (startIndex counts run) = length counts.
Proof. revert run; induction counts as [|c r IH]; intros run; cbn [startIndex length]; [reflexivity|]. rewrite IH. reflexivity. Qed.
Lemma sumTo_S counts : forall w c, nth_error counts w = Some c -> sumTo counts (S w) = (sumTo counts w + c)%nat.
Proof.
  induction counts as [|x r IH]; intros [|w] c H; cbn [nth_error] in H; try discriminate.
  - injection H as ->. cbn [sumTo]. destruct r; cbn [sumTo]; lia.
  - change (sumTo (x :: r) (S (S w))) with (x + sumTo r (S w))%nat. rewrite (IH _ _ H). cbn [sumTo]. lia.
Qed.
Lemma sumTo_below M ls counts : (forall w, (1 <= w <= M)%nat -> nth_error counts w = Some (cnt w ls)) -> nth_error counts 0 = Some 0%nat ->
  forall w, (w <= M)%nat -> sumTo counts (S w) = below (S w) ls.
Proof.
  intros Hc H0 w. induction w as [|w IH]; intros Hw.
  - rewrite below_1. rewrite (sumTo_S _ _ _ H0). destruct counts; reflexivity.
  - rewrite (sumTo_S _ _ _ (Hc (S w) ltac:(lia))), IH by lia. rewrite <- below_S by lia. reflexivity.
Qed.

Lemma cnt_prefix_le w a b : (cnt w a <= cnt w (a ++ b))%nat.
Proof. rewrite cnt_app. lia. Qed.
Lemma placeSymbols_spec M ls n : Forall (fun l => (l <= M)%nat) ls -> (below (S M) ls <= n)%nat ->
  forall post pre next symbols, ls = pre ++ post -> length next = S M -> length symbols = n ->
  (forall w, (1 <= w <= M)%nat -> nth_error next w = Some (below w ls + cnt w pre)%nat) ->
  (forall s, (s < length pre)%nat -> hasCode ls s -> nth_error symbols (below (nth s ls 0%nat) ls + rank ls s) = Some s) ->
  exists symbols', placeSymbols post (length pre) next symbols = Ok symbols' /\
    (forall s, hasCode ls s -> nth_error symbols' (below (nth s ls 0%nat) ls + rank ls s) = Some s).
Proof.
  intros Hf Hn. induction post as [|w post IH]; intros pre next symbols E Hln Hls Hnext Hsym; cbn [placeSymbols].
  - exists symbols. split; [reflexivity|]. intros s Hs. apply Hsym; [|exact Hs].
    rewrite app_nil_r in E. subst ls. destruct (le_lt_dec (length pre) s) as [H|H]; [|exact H]. exfalso. apply Hs. apply nth_overflow, H.
  - assert (Ew : nth (length pre) ls 0%nat = w) by (rewrite E, app_nth2, Nat.sub_diag by lia; reflexivity).
    assert (Hw : (w <= M)%nat) by (rewrite E in Hf; apply Forall_app in Hf; destruct Hf as [_ Hf]; inversion Hf; assumption).
    assert (Er : rank ls (length pre) = cnt w pre).
    { unfold rank. rewrite Ew, E, firstn_app, Nat.sub_diag, firstn_all. cbn [firstn]. rewrite app_nil_r. reflexivity. }
    assert (El : S (length pre) = length (pre ++ [w])) by (rewrite app_length; cbn; lia).
    assert (Ea : ls = (pre ++ [w]) ++ post) by (rewrite <- app_assoc; exact E).
    destruct (Nat.eqb_spec w 0) as [E0|E0].
    + rewrite El. apply IH; try assumption.
      * intros v Hv. rewrite cnt_app, cnt_cons. destruct (Nat.eqb_spec v w); [lia|]. cbn. rewrite !Nat.add_0_r. apply Hnext, Hv.
      * intros s Hs Hc. apply Hsym; [|exact Hc]. rewrite app_length in Hs. cbn [length] in Hs.
        destruct (Nat.eq_dec s (length pre)) as [->|Hne]; [|lia]. exfalso. apply Hc. rewrite Ew. exact E0.
    + assert (Hcw : (cnt w pre < cnt w ls)%nat) by (rewrite Ea, !cnt_app, cnt_cons, Nat.eqb_refl; lia).
      assert (Hidx : (below w ls + cnt w pre < n)%nat).
      { pose proof (below_disjoint w (S M) ls ltac:(lia) ltac:(lia)). lia. }
      unfold aget, aset. rewrite (Hnext w) by lia. cbn [bind]. rewrite Hls.
      destruct (Nat.ltb_spec (below w ls + cnt w pre) n) as [_|]; [|lia]. cbn [bind].
      rewrite Hln. destruct (Nat.ltb_spec w (S M)) as [_|]; [|lia]. cbn [bind]. rewrite El. apply IH; try assumption.
      * rewrite length_upd. exact Hln.
      * rewrite length_upd. exact Hls.
      * intros v Hv. rewrite cnt_app, cnt_cons. destruct (Nat.eqb_spec v w) as [->|Hne].
        -- rewrite nth_upd_same' by lia. f_equal. unfold cnt at 3. cbn. lia.
        -- rewrite nth_upd_other by congruence. rewrite Hnext by exact Hv. f_equal. unfold cnt at 3. cbn. lia.
      * intros s Hs Hc. rewrite app_length in Hs. cbn [length] in Hs. destruct (Nat.eq_dec s (length pre)) as [->|Hne].
        -- rewrite Ew, Er. apply nth_upd_same'. lia.
        -- rewrite nth_upd_other; [apply Hsym; [lia|exact Hc]|].
           pose proof (rank_lt _ _ Hc) as Hrk. set (v := nth s ls 0%nat) in *.
           assert (Hv0 : v <> 0%nat) by exact Hc.
           destruct (Nat.lt_trichotomy v w) as [Hvw|[Hvw|Hvw]].
           ++ pose proof (below_disjoint v w ls ltac:(lia) Hvw). lia.
           ++ assert (rank ls s < cnt w pre)%nat; [|rewrite Hvw; lia]. rewrite <- Er. unfold rank. fold v. rewrite Ew, Hvw.
              assert (Hs' : (s < length pre)%nat) by lia.
              assert (Ef : firstn (length pre) ls = pre) by (rewrite E, firstn_app, Nat.sub_diag, firstn_all; cbn [firstn]; apply app_nil_r).
              rewrite Ef.
              assert (Ef2 : firstn s ls = firstn s pre) by (rewrite E, firstn_app; replace (s - length pre)%nat with 0%nat by lia; cbn [firstn]; apply app_nil_r).
              rewrite Ef2. rewrite <- (firstn_skipn s pre) at 2. rewrite cnt_app.
              assert (Hnth : nth s pre 0%nat = w) by (rewrite <- Hvw; unfold v; rewrite E, app_nth1 by exact Hs'; reflexivity).
              destruct (skipn s pre) as [|x t] eqn:Es; [apply (f_equal (@length nat)) in Es; rewrite skipn_length in Es; cbn in Es; lia|].
              assert (x = w). { rewrite <- Hnth. rewrite <- (firstn_skipn s pre), app_nth2; rewrite firstn_length, Nat.min_l by lia; [|lia]. rewrite Es, Nat.sub_diag. reflexivity. }
              subst x. rewrite cnt_cons, Nat.eqb_refl. lia.
           ++ pose proof (below_disjoint w v ls ltac:(lia) Hvw). lia.
Qed.

Lemma nonzero_below M ls : Forall (fun l => (l <= M)%nat) ls -> nonzero ls = below (S M) ls.
Proof.
  induction ls as [|l r IH]; intros H; [reflexivity|]. inversion H; subst. unfold nonzero in *. cbn [filter].
  rewrite below_cons, <- IH by assumption. destruct (Nat.eqb_spec l 0), (Nat.ltb_spec l (S M)); cbn [negb andb length]; lia.
Qed.
Lemma nonzero_0 ls : nonzero ls = 0%nat <-> unused ls.
Proof.
  unfold unused. split.
  - induction ls as [|l r IH]; intros H s; [destruct s; reflexivity|]. unfold nonzero in *. cbn [filter] in H.
    destruct (Nat.eqb_spec l 0) as [E|E]; cbn [negb length] in H; [|lia]. destruct s as [|s]; cbn [nth]; [exact E|apply IH, H].
  - induction ls as [|l r IH]; intros H; [reflexivity|]. unfold nonzero in *. cbn [filter].
    rewrite (H 0%nat : l = 0%nat). cbn [Nat.eqb negb]. apply IH. intros s. apply (H (S s)).
Qed.
Lemma Forall_nth_le M ls : Forall (fun l => (l <= M)%nat) ls <-> forall s, (nth s ls 0 <= M)%nat.
Proof.
  split.
  - intros H s. destruct (nth_in_or_default s ls 0%nat) as [Hi| ->]; [|lia]. eapply Forall_forall in H; eassumption.
  - intros H. apply Forall_forall. intros x Hx. apply (In_nth _ _ 0%nat) in Hx. destruct Hx as (i & _ & <-). apply H.
Qed.
Lemma space_upTo1 ls : (forall s, (nth s ls 0 <= 1)%nat) -> forall k, space (S k) ls = N.of_nat (cnt 1 ls) * 2 ^ N.of_nat k.
Proof.
  intros H k. pose proof (space_sat 1 ls) as Hs. change (S k) with (1 + k)%nat. rewrite Hs by (apply Forall_nth_le, H).
  f_equal. rewrite (space_S 0), space_0. lia.
Qed.
Lemma single_iff ls : single ls <-> (forall s, (nth s ls 0 <= 1)%nat) /\ cnt 1 ls = 1%nat.
Proof.
  split.
  - intros (s & Hs & Ho). split.
    + intros s'. destruct (Nat.eq_dec s' s) as [->|Hne]; [lia|]. rewrite Ho by exact Hne. lia.
    + revert s Hs Ho. induction ls as [|l r IH]; intros s Hs Ho; [destruct s; discriminate|]. rewrite cnt_cons. destruct s as [|s].
      * cbn [nth] in Hs. subst l. cbn [Nat.eqb].
        assert (E : cnt 1 r = 0%nat); [|lia].
        assert (Hz : forall i, nth i r 0%nat = 0%nat) by (intros i; apply (Ho (S i)); lia). clear -Hz.
        induction r as [|x r IHr]; [reflexivity|]. rewrite cnt_cons, IHr by (intros i; apply (Hz (S i))).
        rewrite (Hz 0%nat : x = 0%nat). reflexivity.
      * cbn [nth] in Hs. pose proof (Ho 0%nat ltac:(lia)) as H0. cbn [nth] in H0. subst l. cbn [Nat.eqb]. apply (IH s Hs).
        intros i Hi. apply (Ho (S i)). lia.
  - intros [Hle Hc]. destruct (rank_surj 1 ls 0 ltac:(lia)) as (s & Hs & Hn & Hr). exists s. split; [exact Hn|].
    intros s' Hne. specialize (Hle s'). destruct (nth s' ls 0%nat) as [|[|v]] eqn:E; [reflexivity| |lia]. exfalso.
    assert (Hc' : hasCode ls s') by (unfold hasCode; lia). pose proof (rank_lt _ _ Hc') as H1. rewrite E, Hc in H1.
    assert (Hr' : rank ls s' = 0%nat) by lia. unfold rank in Hr, Hr'. rewrite Hn in Hr. rewrite E in Hr'.
    assert (forall a b, (a < b)%nat -> nth a ls 0%nat = 1%nat -> (b <= length ls)%nat -> cnt 1 (firstn b ls) <> 0%nat) as Hx.
    { clear. intros a b Hab Ha Hb. rewrite <- (firstn_skipn a ls), firstn_app, cnt_app.
      rewrite firstn_length, Nat.min_l by lia. destruct (skipn a ls) as [|x t] eqn:Es; [apply (f_equal (@length nat)) in Es; rewrite skipn_length in Es; cbn in Es; lia|].
      assert (x = 1%nat). { rewrite <- Ha. rewrite <- (firstn_skipn a ls), app_nth2; rewrite firstn_length, Nat.min_l by lia; [|lia]. rewrite Es, Nat.sub_diag. reflexivity. }
      subst x. destruct (b - a)%nat as [|k] eqn:Eb; [lia|]. cbn [firstn]. rewrite cnt_cons. cbn [Nat.eqb]. lia. }
    assert (Hs' : (s' < length ls)%nat). { destruct (le_lt_dec (length ls) s') as [Hl|Hl]; [|exact Hl]. rewrite nth_overflow in E by exact Hl. discriminate. }
    destruct (Nat.lt_trichotomy s s') as [H|[H|H]]; [apply (Hx s s'); try assumption; lia|congruence|apply (Hx s' s); try assumption; lia].
Qed.

(** The trees makeDecoder accepts. *)
Definition validTree (M : nat) (policy : DecoderPolicy) (ls : list nat) : Prop :=
  complete M ls \/ (allowIncomplete policy = true /\ single ls) \/ (allowEmpty policy = true /\ unused ls).
Lemma makeDecoder_spec n M lengths sc policy : (1 <= M)%nat -> (sc <= length lengths)%nat -> (sc <= n)%nat ->
  (validTree M policy (firstn sc lengths) /\ exists d, makeDecoder n M lengths sc policy = Ok d /\ decOk (firstn sc lengths) d /\ (hmax d <= M)%nat) \/
  (~ validTree M policy (firstn sc lengths) /\ makeDecoder n M lengths sc policy = Err invalidHuffmanTree).
Proof.
  intros HM Hsc Hn. unfold makeDecoder. destruct (Nat.ltb_spec (length lengths) sc); [lia|].
  assert (Hll : (length (firstn sc lengths) <= n)%nat) by (rewrite firstn_length; lia).
  set (ls := firstn sc lengths) in *. clearbody ls.
  assert (Hrep : forall w, (w <= M)%nat -> nth_error (repeat 0%nat (S M)) w = Some 0%nat).
  { intros w Hw. apply nth_error_repeat. lia. }
  destruct (countLengths_spec M ls [] (repeat 0%nat (S M)) 0 0) as [(Hf & counts & E & Hlc & Hc & H0)|(Hf & E)].
  - apply repeat_length.
  - intros w Hw. apply Hrep. lia.
  - apply Hrep. lia.
  - reflexivity.
  - reflexivity.
  - cbn [app] in E, Hc. rewrite E. cbn [bind]. rewrite Nat.max_0_l in *.
    assert (HM' : (maxLen ls <= M)%nat).
    { clear -Hf. induction Hf as [|x l Hx Hf IH]; cbn [maxLen]; lia. }
    destruct (Nat.eqb_spec (nonzero ls) 0) as [Hz|Hz].
    + apply nonzero_0 in Hz. destruct (allowEmpty policy) eqn:Ep.
      * left. split; [right; right; auto|]. eexists. split; [reflexivity|].
        assert (Hmx : maxLen ls = 0%nat).
        { clear -Hz. induction ls as [|l r IH]; [reflexivity|]. cbn [maxLen]. rewrite IH by (intros s; apply (Hz (S s))). rewrite (Hz 0%nat : l = 0%nat). reflexivity. }
        split; [|cbn [hmax]; lia].
        constructor; cbn [hmax hcounts hsymbols].
        -- rewrite Hmx. intros; lia.
        -- intros s Hs. exfalso. apply Hs, Hz.
        -- intros s. rewrite (Hz s). lia.
        -- intros w. assert (Hs0 : space w ls = 0); [|rewrite Hs0; pose proof (pow2_pos (N.of_nat w)); lia].
           clear -Hz. induction ls as [|l r IH]; [reflexivity|]. cbn [space]. rewrite IH by (intros s; apply (Hz (S s))). rewrite (Hz 0%nat : l = 0%nat). reflexivity.
      * right. split; [|reflexivity]. intros [[_ Hk]|[(_ & s & Hs & _)|(Hp & _)]].
        -- rewrite kraft_space in Hk by exact Hf. assert (Hs0 : space M ls = 0).
           { clear -Hz. induction ls as [|l r IH]; [reflexivity|]. cbn [space]. rewrite IH by (intros s; apply (Hz (S s))). rewrite (Hz 0%nat : l = 0%nat). reflexivity. }
           pose proof (pow2_pos (N.of_nat M)). lia.
        -- rewrite (Hz s) in Hs. discriminate.
        -- congruence.
    + assert (Hnu : ~ unused ls) by (intros Hu; apply nonzero_0 in Hu; contradiction).
      pose proof (remainingSpace_spec M ls counts Hc M 1 ltac:(lia) ltac:(lia)) as HR.
      replace (1 - 1)%nat with 0%nat in HR by lia. rewrite space_0 in HR. change (2 ^ N.of_nat 0) with 1 in HR.
      specialize (HR ltac:(lia)). change (Z.of_N 1 - Z.of_N 0)%Z with 1%Z in HR.
      assert (Hb : (below (S M) ls <= n)%nat) by (pose proof (below_le (S M) ls); lia).
      assert (Hplace : forall ltac_dummy : unit, space M ls <= 2 ^ N.of_nat M ->
        exists d, (let* symbols := placeSymbols ls 0 (startIndex counts 0) (repeat 0%nat n) in
                   Ok {| hcounts := counts; hsymbols := symbols; hmax := maxLen ls |}) = Ok d /\ decOk ls d /\ (hmax d <= M)%nat).
      { intros _ Hsp. destruct (placeSymbols_spec M ls n Hf Hb ls [] (startIndex counts 0) (repeat 0%nat n)) as (symbols & Es & Hs).
        - reflexivity.
        - rewrite startIndex_length. exact Hlc.
        - apply repeat_length.
        - intros w Hw. rewrite startIndex_nth by lia. f_equal. cbn [cnt filter length]. rewrite Nat.add_0_r, Nat.add_0_l.
          destruct w as [|w]; [lia|]. apply (sumTo_below M); try assumption. lia.
        - intros s Hs. cbn in Hs. lia.
        - cbn [length] in Es. rewrite Es. cbn [bind]. eexists. split; [reflexivity|]. split; [|cbn [hmax]; exact HM'].
          constructor; cbn [hmax hcounts hsymbols].
          + intros w Hw. apply Hc. lia.
          + exact Hs.
          + apply maxLen_ge.
          + intros w. destruct (le_lt_dec w M) as [Hw|Hw]; [apply (space_le_pow M); assumption|].
            replace w with (M + (w - M))%nat by lia. rewrite space_sat by exact Hf. rewrite Nat2N.inj_add, N.pow_add_r.
            apply N.mul_le_mono_r. exact Hsp. }
      destruct HR as [(Hsp & ER)|(Hsp & ER)]; rewrite ER; cbn [bind].
      * destruct (Z.ltb_spec 0 (Z.of_N (2 ^ N.of_nat M) - Z.of_N (space M ls))) as [Hrem|Hrem]; cbn [andb].
        -- assert (Hnc : ~ complete M ls) by (intros [_ Hk]; rewrite kraft_space in Hk by exact Hf; lia).
           destruct (allowIncomplete policy) eqn:Ep; cbn [negb orb].
           ++ destruct (Nat.eqb_spec (maxLen ls) 1) as [Hm|Hm]; cbn [negb].
              ** left. split; [|apply (Hplace tt), Hsp]. right; left. split; [exact Ep|]. apply single_iff.
                 assert (Hle1 : forall s, (nth s ls 0 <= 1)%nat) by (intros s; rewrite <- Hm; apply maxLen_ge).
                 split; [exact Hle1|]. destruct M as [|M']; [lia|]. rewrite (space_upTo1 ls Hle1), pow2_S in Hrem.
                 assert (Hnz : cnt 1 ls <> 0%nat).
                 { intros Hc0. apply Hz. rewrite (nonzero_below 1) by (apply Forall_nth_le, Hle1). rewrite below_S, below_1, Hc0 by lia. reflexivity. }
                 pose proof (pow2_pos (N.of_nat M')). nia.
              ** right. split; [|reflexivity]. intros [H1|[(_ & H1)|(_ & H1)]]; [contradiction| |contradiction].
                 apply single_iff in H1. destruct H1 as [H1 H2]. apply Hm. clear -H1 H2.
                 induction ls as [|l r IH]; [discriminate|]. cbn [maxLen]. rewrite cnt_cons in H2. pose proof (H1 0%nat : (l <= 1)%nat) as Hl.
                 destruct (Nat.eqb_spec 1 l) as [E|E].
                 --- assert (Hr : (maxLen r <= 1)%nat); [|lia]. assert (Hr1 : forall s, (nth s r 0 <= 1)%nat) by (intros s; apply (H1 (S s))). clear -Hr1.
                     induction r as [|x r IHr]; cbn [maxLen]; [lia|]. pose proof (Hr1 0%nat : (x <= 1)%nat). specialize (IHr (fun s => Hr1 (S s))). lia.
                 --- rewrite IH; [lia|intros s; apply (H1 (S s))|lia].
           ++ right. split; [|reflexivity]. intros [H1|[(H1 & _)|(_ & H1)]]; [contradiction|congruence|contradiction].
        -- left. split; [|apply (Hplace tt), Hsp]. left. split; [exact Hf|]. rewrite kraft_space by exact Hf. lia.
      * right. split; [|reflexivity]. intros [[_ Hk]|[(_ & H1)|(_ & H1)]]; [rewrite kraft_space in Hk by exact Hf; lia| |contradiction].
        apply single_iff in H1. destruct H1 as [H1 H2]. destruct M as [|M']; [lia|]. rewrite (space_upTo1 ls H1), H2, pow2_S in Hsp.
        pose proof (pow2_pos (N.of_nat M')). lia.
  - rewrite E. cbn [bind]. right. split; [|reflexivity]. intros [[H1 _]|[(_ & H1)|(_ & H1)]].
    + contradiction.
    + apply single_iff in H1. apply Hf, Forall_nth_le. intros s. destruct H1 as [H1 _]. specialize (H1 s). lia.
    + apply Hf, Forall_nth_le. intros s. rewrite (H1 s). lia.
Qed.
