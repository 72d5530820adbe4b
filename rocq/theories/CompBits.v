(** Bit lists, the bit writer and the bit reader. *)
From Coq Require Import List NArith ZArith Arith Bool Lia ZifyBool ZifyNat ZifyN.
From Verif Require Import Base CompModel CompSpec.
Import ListNotations.
Local Open Scope N_scope.

Lemma length_lsb w x : length (lsb w x) = w.
Proof. unfold lsb. rewrite map_length, seq_length. reflexivity. Qed.
Lemma length_msb w x : length (msb w x) = w.
Proof. unfold msb. rewrite rev_length, length_lsb. reflexivity. Qed.
Lemma lsb_S w x : lsb (S w) x = N.testbit x 0 :: lsb w (N.shiftr x 1).
Proof.
  unfold lsb. cbn [seq map]. f_equal. rewrite <- seq_shift, map_map. apply map_ext. intros i.
  rewrite N.shiftr_spec by lia. f_equal. lia.
Qed.
Lemma lsb_app a b x : lsb (a + b) x = lsb a x ++ lsb b (N.shiftr x (N.of_nat a)).
Proof.
  revert x; induction a as [|a IH]; intros x; cbn [Nat.add app].
  - unfold lsb at 2. cbn [seq map app]. rewrite N.shiftr_0_r. reflexivity.
  - rewrite !lsb_S. cbn [app]. rewrite IH, N.shiftr_shiftr. replace (1 + N.of_nat a) with (N.of_nat (S a)) by lia. reflexivity.
Qed.
Lemma lsb_ext w x y : (forall i, (i < w)%nat -> N.testbit x (N.of_nat i) = N.testbit y (N.of_nat i)) -> lsb w x = lsb w y.
Proof. intros H. unfold lsb. apply map_ext_in. intros i Hi. apply in_seq in Hi. apply H. lia. Qed.
Lemma testbit_small x n i : x < 2 ^ n -> n <= i -> N.testbit x i = false.
Proof.
  intros H Hi. rewrite <- (N.mod_small x (2 ^ n)) by exact H. apply N.mod_pow2_bits_high. exact Hi.
Qed.
Lemma lsb_inj w x y : x < 2 ^ N.of_nat w -> y < 2 ^ N.of_nat w -> lsb w x = lsb w y -> x = y.
Proof.
  revert x y; induction w as [|w IH]; intros x y Hx Hy H.
  - change (2 ^ N.of_nat 0) with 1 in *. lia.
  - rewrite !lsb_S in H. injection H as H0 H.
    assert (Hp : 2 ^ N.of_nat (S w) = 2 * 2 ^ N.of_nat w) by (rewrite Nat2N.inj_succ, N.pow_succ_r'; reflexivity).
    apply IH in H.
    + change (N.div2 x = N.div2 y) in H. rewrite (N.div2_odd x), (N.div2_odd y), H, <- !N.bit0_odd, H0. reflexivity.
    + rewrite N.div2_spec, N.shiftr_div_pow2. change (2 ^ 1) with 2. apply N.div_lt_upper_bound; lia.
    + rewrite N.div2_spec, N.shiftr_div_pow2. change (2 ^ 1) with 2. apply N.div_lt_upper_bound; lia.
Qed.
Lemma bitsOf_app a b : bitsOf (a ++ b) = bitsOf a ++ bitsOf b.
Proof. apply flat_map_app. Qed.
Lemma length_bitsOf l : length (bitsOf l) = (8 * length l)%nat.
Proof. induction l as [|x l IH]; [reflexivity|]. unfold bitsOf in *. cbn [flat_map]. rewrite app_length, length_lsb, IH. cbn [length]. lia. Qed.
Lemma bitsOf_inj a b : octets a -> octets b -> bitsOf a = bitsOf b -> a = b.
Proof.
  revert b; induction a as [|x a IH]; intros [|y b] Ha Hb H; try reflexivity.
  - apply (f_equal (@length bool)) in H. rewrite !length_bitsOf in H. cbn [length] in H. lia.
  - apply (f_equal (@length bool)) in H. rewrite !length_bitsOf in H. cbn [length] in H. lia.
  - inversion Ha as [|? ? Hx Ha' ]; inversion Hb as [|? ? Hy Hb']; subst.
    unfold bitsOf in H. cbn [flat_map] in H.
    assert (H1 : lsb 8 x = lsb 8 y).
    { apply (f_equal (firstn 8)) in H. rewrite !firstn_app, !firstn_all2 in H by (rewrite length_lsb; lia).
      rewrite !length_lsb in H. cbn [Nat.sub firstn] in H. rewrite !app_nil_r in H. exact H. }
    rewrite H1 in H. apply app_inv_head in H.
    f_equal; [apply (lsb_inj 8); assumption|apply IH; assumption].
Qed.

Lemma lor_shiftl_add x y n : x < 2 ^ n -> N.lor x (N.shiftl y n) = x + y * 2 ^ n.
Proof.
  intros H. rewrite N.shiftl_mul_pow2. apply N.bits_inj. intros i.
  rewrite <- N.lxor_lor.
  - rewrite <- N.add_nocarry_lxor; [reflexivity|].
    apply N.bits_inj. intros j. rewrite N.land_spec, N.bits_0.
    destruct (N.lt_ge_cases j n) as [Hj|Hj].
    + rewrite N.mul_pow2_bits_low by exact Hj. apply andb_false_r.
    + rewrite (testbit_small x n j H Hj). reflexivity.
  - apply N.bits_inj. intros j. rewrite N.land_spec, N.bits_0.
    destruct (N.lt_ge_cases j n) as [Hj|Hj].
    + rewrite N.mul_pow2_bits_low by exact Hj. apply andb_false_r.
    + rewrite (testbit_small x n j H Hj). reflexivity.
Qed.
Lemma lsb_lor a b x y : x < 2 ^ N.of_nat a -> lsb (a + b) (N.lor x (N.shiftl y (N.of_nat a))) = lsb a x ++ lsb b y.
Proof.
  intros H. rewrite lsb_app. f_equal.
  - apply lsb_ext. intros i Hi. rewrite N.lor_spec, N.shiftl_spec_low by lia. apply orb_false_r.
  - f_equal. apply N.bits_inj. intros i. rewrite N.shiftr_spec by lia. rewrite N.lor_spec, (testbit_small x _ _ H) by lia.
    rewrite N.shiftl_spec_high by lia. cbn [orb]. f_equal. lia.
Qed.
Lemma lor_bound x y a b : x < 2 ^ N.of_nat a -> y < 2 ^ N.of_nat b -> N.lor x (N.shiftl y (N.of_nat a)) < 2 ^ N.of_nat (a + b).
Proof.
  intros Hx Hy. rewrite lor_shiftl_add by exact Hx. rewrite Nat2N.inj_add, N.pow_add_r.
  assert ((y + 1) * 2 ^ N.of_nat a <= 2 ^ N.of_nat b * 2 ^ N.of_nat a) by (apply N.mul_le_mono_r; lia). lia.
Qed.
Lemma pow2_pos n : 0 < 2 ^ n.
Proof. apply N.neq_0_lt_0, N.pow_nonzero. discriminate. Qed.
Lemma pow2_le a b : (a <= b)%nat -> 2 ^ N.of_nat a <= 2 ^ N.of_nat b.
Proof. intros H. apply N.pow_le_mono_r; lia. Qed.
Lemma shiftr_bound x a b : x < 2 ^ N.of_nat (a + b) -> N.shiftr x (N.of_nat a) < 2 ^ N.of_nat b.
Proof.
  intros H. rewrite N.shiftr_div_pow2. apply N.div_lt_upper_bound; [apply N.pow_nonzero; discriminate|].
  rewrite <- N.pow_add_r, <- Nat2N.inj_add. exact H.
Qed.
Lemma land_ones_bound x n : N.land x (N.ones n) < 2 ^ n.
Proof. rewrite N.land_ones. apply N.mod_lt, N.pow_nonzero. discriminate. Qed.
Lemma lsb_land w x : lsb w (N.land x (N.ones (N.of_nat w))) = lsb w x.
Proof.
  apply lsb_ext. intros i Hi. rewrite N.land_spec, N.ones_spec_low by lia. apply andb_true_r.
Qed.
Lemma tr_small w x : x < 2 ^ w -> tr w x = x.
Proof. intros H. unfold tr. apply N.mod_small, H. Qed.

(** * The bit writer *)
Definition wok (w : BitWriter) : Prop := (wcount w < 8)%nat /\ wbits w < 2 ^ N.of_nat (wcount w) /\ octets (wout w).
Definition wbitsOf (w : BitWriter) : list bool := bitsOf (wout w) ++ lsb (wcount w) (wbits w).

Lemma drainBits_spec fuel w : (wcount w <= fuel)%nat -> wbits w < 2 ^ N.of_nat (wcount w) -> octets (wout w) ->
  wok (drainBits fuel w) /\ wbitsOf (drainBits fuel w) = wbitsOf w.
Proof.
  revert w; induction fuel as [|fuel IH]; intros w Hc Hb Ho; cbn [drainBits].
  - split; [|reflexivity]. repeat split; try assumption. lia.
  - destruct (Nat.leb_spec 8 (wcount w)) as [H8|H8].
    + remember {| wout := wout w ++ [N.land (wbits w) 255]; wbits := N.shiftr (wbits w) 8; wcount := wcount w - 8 |} as w' eqn:Ew.
      assert (H : wok (drainBits fuel w') /\ wbitsOf (drainBits fuel w') = wbitsOf w').
      { apply IH; subst w'; cbn [wcount wbits wout].
        - lia.
        - change 8 with (N.of_nat 8). apply shiftr_bound. replace (8 + (wcount w - 8))%nat with (wcount w) by lia. exact Hb.
        - apply Forall_app. split; [exact Ho|]. constructor; [|constructor].
          change 255 with (N.ones 8). change 256 with (2 ^ 8). apply land_ones_bound. }
      destruct H as [H1 H2]. split; [exact H1|]. rewrite H2. subst w'. unfold wbitsOf. cbn [wout wbits wcount].
      rewrite bitsOf_app, <- app_assoc. f_equal. unfold bitsOf at 1. cbn [flat_map]. rewrite app_nil_r.
      change 255 with (N.ones (N.of_nat 8)). rewrite lsb_land.
      replace (wcount w) with (8 + (wcount w - 8))%nat at 2 by lia. rewrite lsb_app. reflexivity.
    + split; [|reflexivity]. repeat split; assumption.
Qed.

(** What the writer calls mean: bits appended at bit position [p]. *)
Definition opOk (o : op) : Prop :=
  match o with WBits v n => (n <= 32)%nat /\ v < 2 ^ N.of_nat n | WAlign => True | WBytes l => octets l end.

Lemma exec_bits w v n : wok w -> (n <= 32)%nat -> v < 2 ^ N.of_nat n ->
  wok (execOp w (WBits v n)) /\ wbitsOf (execOp w (WBits v n)) = wbitsOf w ++ lsb n v.
Proof.
  intros (Hc & Hb & Ho) Hn Hv. cbn [execOp].
  assert (Ht : tr 64 (N.shiftl v (N.of_nat (wcount w))) = N.shiftl v (N.of_nat (wcount w))).
  { apply tr_small. rewrite N.shiftl_mul_pow2. change 64 with (N.of_nat 64).
    apply N.lt_le_trans with (2 ^ N.of_nat n * 2 ^ N.of_nat (wcount w)).
    - apply N.mul_lt_mono_pos_r; [apply pow2_pos|exact Hv].
    - rewrite <- N.pow_add_r. apply N.pow_le_mono_r; lia. }
  rewrite Ht. clear Ht.
  set (w' := {| wout := wout w; wbits := N.lor (wbits w) (N.shiftl v (N.of_nat (wcount w))); wcount := wcount w + n |}).
  destruct (drainBits_spec (wcount w + n) w') as [H1 H2]; subst w'; cbn [wcount wbits wout].
  - lia.
  - apply lor_bound; assumption.
  - exact Ho.
  - split; [exact H1|]. rewrite H2. unfold wbitsOf. cbn [wcount wbits wout]. rewrite <- app_assoc. f_equal.
    apply lsb_lor. exact Hb.
Qed.
Definition padOf (n : nat) : nat := ((8 - n mod 8) mod 8)%nat.
Lemma lsb_zero n : lsb n 0 = repeat false n.
Proof. induction n as [|n IH]; [reflexivity|]. rewrite lsb_S. cbn [repeat]. f_equal. exact IH. Qed.
Lemma lsb_pad a b x : x < 2 ^ N.of_nat a -> lsb (a + b) x = lsb a x ++ repeat false b.
Proof.
  intros H. rewrite <- lsb_zero, lsb_app. do 2 f_equal. rewrite N.shiftr_div_pow2. apply N.div_small, H.
Qed.
Lemma length_wbits w : length (wbitsOf w) = (8 * length (wout w) + wcount w)%nat.
Proof. unfold wbitsOf. rewrite app_length, length_bitsOf, length_lsb. reflexivity. Qed.
Lemma exec_align w : wok w ->
  wok (execOp w WAlign) /\ wcount (execOp w WAlign) = 0%nat /\
  wbitsOf (execOp w WAlign) = wbitsOf w ++ repeat false (padOf (length (wbitsOf w))).
Proof.
  intros (Hc & Hb & Ho). cbn [execOp]. rewrite length_wbits.
  assert (Hp : padOf (8 * length (wout w) + wcount w) = padOf (wcount w)).
  { unfold padOf. do 2 f_equal. rewrite Nat.add_comm, Nat.mul_comm, Nat.mod_add by lia. reflexivity. }
  rewrite Hp. destruct (Nat.eqb_spec (wcount w) 0) as [E|E].
  - split; [repeat split; assumption|]. split; [exact E|]. rewrite E. cbn [padOf repeat]. unfold padOf. cbn [Nat.modulo Nat.divmod Nat.sub fst snd].
    cbn [repeat]. rewrite app_nil_r. reflexivity.
  - split; [|split; [reflexivity|]].
    + split; [|split]; cbn [wcount wbits wout]; [lia| |].
      * change (2 ^ N.of_nat 0) with 1. lia.
      * apply Forall_app. split; [exact Ho|]. constructor; [|constructor]. change 255 with (N.ones 8). change 256 with (2 ^ 8). apply land_ones_bound.
    + unfold wbitsOf. cbn [wcount wbits wout]. rewrite bitsOf_app. unfold bitsOf at 2. cbn [flat_map]. rewrite app_nil_r.
      change (lsb 0 0) with (@nil bool). rewrite app_nil_r, <- app_assoc. f_equal.
      change 255 with (N.ones (N.of_nat 8)). rewrite lsb_land.
      replace 8%nat with (wcount w + padOf (wcount w))%nat at 1.
      2:{ unfold padOf. rewrite (Nat.mod_small (wcount w)), (Nat.mod_small (8 - wcount w)) by lia. lia. }
      apply lsb_pad, Hb.
Qed.
Lemma exec_bytes w l : wok w -> wcount w = 0%nat -> octets l ->
  wok (execOp w (WBytes l)) /\ wcount (execOp w (WBytes l)) = 0%nat /\ wbitsOf (execOp w (WBytes l)) = wbitsOf w ++ bitsOf l.
Proof.
  intros (Hc & Hb & Ho) H0 Hl. cbn [execOp wcount]. split; [|split; [exact H0|]].
  - repeat split; cbn [wcount wbits wout]; try assumption. apply Forall_app. split; assumption.
  - unfold wbitsOf. cbn [wcount wbits wout]. rewrite H0. change (lsb 0 (wbits w)) with (@nil bool). rewrite !app_nil_r. apply bitsOf_app.
Qed.
Lemma exec_app w a b : exec w (a ++ b) = exec (exec w a) b.
Proof. unfold exec. apply fold_left_app. Qed.
Lemma exec_cons w a b : exec w (a :: b) = exec (execOp w a) b.
Proof. reflexivity. Qed.
(** A run of writeBits calls. *)
Definition opBits (o : op) : list bool := match o with WBits v n => lsb n v | _ => [] end.
Definition isBits (o : op) : Prop := match o with WBits v n => (n <= 32)%nat /\ v < 2 ^ N.of_nat n | _ => False end.
Lemma exec_allbits ops : forall w, wok w -> Forall isBits ops -> wok (exec w ops) /\ wbitsOf (exec w ops) = wbitsOf w ++ flat_map opBits ops.
Proof.
  induction ops as [|o ops IH]; intros w Hw Ho; cbn [flat_map].
  - split; [exact Hw|]. unfold exec. cbn [fold_left]. rewrite app_nil_r. reflexivity.
  - inversion Ho as [|? ? H1 H2]; subst. destruct o as [v n| |l]; cbn [isBits] in H1; try contradiction.
    destruct (exec_bits w v n Hw (proj1 H1) (proj2 H1)) as [Hw' Hb]. rewrite exec_cons.
    destruct (IH _ Hw' H2) as [H3 H4]. split; [exact H3|]. rewrite H4, Hb, <- app_assoc. reflexivity.
Qed.

(** * The bit reader *)
Definition rok (r : BitReader) : Prop :=
  octets (rinput r) /\ (rpos r <= length (rinput r))%nat /\ (rcount r < 8)%nat /\ rbits r < 2 ^ N.of_nat (rcount r) /\
  (rcount r <= 8 * rpos r)%nat.
Definition rbitsOf (r : BitReader) : list bool := lsb (rcount r) (rbits r) ++ bitsOf (skipn (rpos r) (rinput r)).
Definition offset (r : BitReader) : nat := (8 * rpos r - rcount r)%nat.

Lemma length_rbits r : (rpos r <= length (rinput r))%nat -> length (rbitsOf r) = available r.
Proof. intros H. unfold rbitsOf, available. rewrite app_length, length_lsb, length_bitsOf, skipn_length. reflexivity. Qed.
Lemma skipn_nth {A} (l : list A) i x : nth_error l i = Some x -> skipn i l = x :: skipn (S i) l.
Proof. revert i; induction l as [|y l IH]; intros [|i] H; cbn in H; try discriminate; [inversion H; reflexivity|]. apply IH, H. Qed.

Lemma fill_spec fuel width : forall r, octets (rinput r) -> (rpos r <= length (rinput r))%nat -> rbits r < 2 ^ N.of_nat (rcount r) ->
  (width <= rcount r + 8 * fuel)%nat -> (8 * fuel < width + 8 + 8 * width)%nat ->
  match fill fuel width r with
  | Some r' => (width <= rcount r')%nat /\ (rcount r' < width + 8 \/ rcount r' = rcount r)%nat /\ rinput r' = rinput r /\
               (rpos r <= rpos r' <= length (rinput r))%nat /\ rbits r' < 2 ^ N.of_nat (rcount r') /\ rbitsOf r' = rbitsOf r /\
               (8 * Z.of_nat (rpos r') - Z.of_nat (rcount r') = 8 * Z.of_nat (rpos r) - Z.of_nat (rcount r))%Z /\ (rcount r <= rcount r')%nat
  | None => (length (rbitsOf r) < width)%nat
  end.
Proof.
  induction fuel as [|fuel IH]; intros r Ho Hp Hb Hf Hf2; cbn [fill].
  - destruct (Nat.leb_spec width (rcount r)) as [H|H]; [|lia]. repeat split; auto; lia.
  - destruct (Nat.leb_spec width (rcount r)) as [H|H]; [repeat split; auto; lia|].
    destruct (nth_error (rinput r) (rpos r)) as [b|] eqn:E.
    + assert (Hlt : (rpos r < length (rinput r))%nat) by (apply nth_error_Some; congruence).
      assert (Hb8 : b < 256) by (eapply Forall_forall in Ho; [exact Ho|]; eapply nth_error_In; eassumption).
      set (r1 := {| rinput := rinput r; rpos := S (rpos r); rbits := N.lor (rbits r) (N.shiftl b (N.of_nat (rcount r))); rcount := rcount r + 8 |}).
      assert (Hbits : rbitsOf r1 = rbitsOf r).
      { unfold rbitsOf, r1. cbn [rinput rpos rbits rcount]. rewrite (lsb_lor _ _ _ _ Hb), <- app_assoc. f_equal.
        rewrite (skipn_nth _ _ _ E). reflexivity. }
      assert (E1 : rinput r1 = rinput r) by reflexivity. assert (E2 : rpos r1 = S (rpos r)) by reflexivity.
      assert (E3 : rcount r1 = (rcount r + 8)%nat) by reflexivity.
      assert (Hb1 : rbits r1 < 2 ^ N.of_nat (rcount r1)) by (apply (lor_bound _ _ _ 8); [exact Hb|exact Hb8]).
      clearbody r1. specialize (IH r1). rewrite E1, E2 in IH. specialize (IH Ho ltac:(lia) Hb1 ltac:(lia) ltac:(lia)).
      destruct (fill fuel width r1) as [r2|].
      * rewrite Hbits in IH. destruct IH as (I1 & I2 & I3 & I4 & I5 & I6 & I7 & I8).
        repeat split; try assumption; try lia.
      * rewrite <- Hbits. exact IH.
    + apply nth_error_None in E. unfold rbitsOf. rewrite skipn_all2 by lia. rewrite app_length, length_lsb. cbn. lia.
Qed.

Lemma readBits_ok n r : rok r -> (n <= 32)%nat -> (n <= length (rbitsOf r))%nat ->
  exists v r', readBits n r = Ok (v, r') /\ rok r' /\ v < 2 ^ N.of_nat n /\ rbitsOf r = lsb n v ++ rbitsOf r' /\
               rinput r' = rinput r /\ offset r' = (offset r + n)%nat.
Proof.
  intros (Ho & Hp & Hc & Hb & Hq) Hn Hl. unfold readBits. destruct (Nat.ltb_spec 32 n) as [H|_]; [lia|].
  pose proof (fill_spec n n r Ho Hp Hb ltac:(lia) ltac:(lia)) as H. destruct (fill n n r) as [r'|]; [|lia].
  destruct H as (H1 & H2 & H3 & H4 & H5 & H6 & H7 & H8).
  eexists. eexists. split; [reflexivity|]. cbn [rinput rpos rbits rcount].
  assert (Hcl : (rcount r' - n < 8)%nat) by lia.
  split; [|split; [|split; [|split]]].
  - repeat split; cbn [rinput rpos rbits rcount].
    + rewrite H3. exact Ho.
    + rewrite H3. lia.
    + exact Hcl.
    + apply shiftr_bound. replace (n + (rcount r' - n))%nat with (rcount r') by lia. exact H5.
    + lia.
  - apply land_ones_bound.
  - rewrite <- H6. unfold rbitsOf. cbn [rinput rpos rbits rcount]. rewrite lsb_land, app_assoc. f_equal.
    rewrite <- lsb_app. f_equal. lia.
  - exact H3.
  - unfold offset. cbn [rpos rcount]. lia.
Qed.
Lemma readBits_short n r : rok r -> (n <= 32)%nat -> (length (rbitsOf r) < n)%nat -> readBits n r = Err truncatedInput.
Proof.
  intros (Ho & Hp & Hc & Hb & Hq) Hn Hl. unfold readBits. destruct (Nat.ltb_spec 32 n) as [H|_]; [lia|].
  pose proof (fill_spec n n r Ho Hp Hb ltac:(lia) ltac:(lia)) as H. destruct (fill n n r) as [r'|]; [|reflexivity].
  destruct H as (H1 & H2 & H3 & H4 & H5 & H6 & H7 & H8).
  apply (f_equal (@length bool)) in H6. unfold rbitsOf in H6 at 1. rewrite app_length, length_lsb in H6. lia.
Qed.
Lemma app_eq_len {A} (a b c d : list A) : length a = length c -> a ++ b = c ++ d -> a = c /\ b = d.
Proof.
  revert c; induction a as [|x a IH]; intros [|y c] Hl H; cbn in *; try discriminate; [auto|].
  injection H as -> H. injection Hl as Hl. destruct (IH _ Hl H) as [-> ->]. auto.
Qed.
Lemma readBits_eq n r v rest : rok r -> (n <= 32)%nat -> v < 2 ^ N.of_nat n -> rbitsOf r = lsb n v ++ rest ->
  exists r', readBits n r = Ok (v, r') /\ rok r' /\ rbitsOf r' = rest /\ rinput r' = rinput r /\ offset r' = (offset r + n)%nat.
Proof.
  intros Hr Hn Hv H. destruct (readBits_ok n r Hr Hn) as (v' & r' & E & Hr' & Hv' & Hb & Hi & Hof).
  { rewrite H, app_length, length_lsb. lia. }
  rewrite H in Hb. apply app_eq_len in Hb; [|rewrite !length_lsb; reflexivity]. destruct Hb as [Hb1 Hb2].
  apply lsb_inj in Hb1; [|assumption|assumption]. subst v'. exists r'. auto.
Qed.
Lemma readBits_inv n r v r' : rok r -> (n <= 32)%nat -> readBits n r = Ok (v, r') ->
  rok r' /\ v < 2 ^ N.of_nat n /\ rbitsOf r = lsb n v ++ rbitsOf r' /\ rinput r' = rinput r /\ offset r' = (offset r + n)%nat.
Proof.
  intros Hr Hn H. destruct (le_lt_dec n (length (rbitsOf r))) as [Hl|Hl].
  - destruct (readBits_ok n r Hr Hn Hl) as (v' & r'' & E & H1 & H2 & H3 & H4 & H5). rewrite E in H. injection H as <- <-. auto.
  - rewrite readBits_short in H by assumption. discriminate.
Qed.

Definition bit (b : bool) : N := if b then 1 else 0.
Lemma nextBit_spec r : rok r ->
  match rbitsOf r with
  | [] => nextBit r = None
  | b :: rest => exists r', nextBit r = Some (bit b, r') /\ rok r' /\ rbitsOf r' = rest /\ rinput r' = rinput r /\ offset r' = (offset r + 1)%nat
  end.
Proof.
  intros (Ho & Hp & Hc & Hb & Hq). unfold nextBit.
  pose proof (fill_spec 1 1 r Ho Hp Hb ltac:(lia) ltac:(lia)) as H. destruct (fill 1 1 r) as [r'|].
  - destruct H as (H1 & H2 & H3 & H4 & H5 & H6 & H7 & H8). rewrite <- H6. unfold rbitsOf at 1.
    destruct (rcount r') as [|c] eqn:Ec; [lia|]. rewrite lsb_S. cbn [app]. eexists. split; [|split; [|split; [|split]]].
    + do 2 f_equal. change 1 with (N.ones 1). rewrite N.land_ones.
      change (2 ^ 1) with 2. rewrite <- N.bit0_mod. unfold bit, N.b2n. destruct (N.testbit (rbits r') 0); reflexivity.
    + repeat split; cbn [rinput rpos rbits rcount].
      * rewrite H3. exact Ho.
      * rewrite H3. lia.
      * lia.
      * change 1 with (N.of_nat 1). apply shiftr_bound. replace (1 + (S c - 1))%nat with (S c) by lia. exact H5.
      * lia.
    + unfold rbitsOf. cbn [rinput rpos rbits rcount]. replace (S c - 1)%nat with c by lia. reflexivity.
    + exact H3.
    + unfold offset. cbn [rpos rcount]. lia.
  - destruct (rbitsOf r); [reflexivity|cbn in H; lia].
Qed.

Lemma alignReader_spec r : rok r ->
  rok (alignReader r) /\ rcount (alignReader r) = 0%nat /\ rinput (alignReader r) = rinput r /\ rpos (alignReader r) = rpos r /\
  rbitsOf r = lsb (rcount r) (rbits r) ++ rbitsOf (alignReader r).
Proof.
  intros (Ho & Hp & Hc & Hb & Hq). unfold alignReader. rewrite Nat.mod_small by exact Hc.
  assert (E : N.shiftr (rbits r) (N.of_nat (rcount r)) = 0) by (rewrite N.shiftr_div_pow2; apply N.div_small, Hb).
  rewrite E, Nat.sub_diag. repeat split; cbn [rinput rpos rbits rcount]; try assumption; try lia.
Qed.
