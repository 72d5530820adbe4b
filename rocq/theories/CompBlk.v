(** Block headers, stored blocks, the block loop and whole DEFLATE streams. *)
From Coq Require Import List NArith ZArith Arith Bool Lia ZifyBool ZifyNat ZifyN.
From Verif Require Import Base CompModel CompSpec CompBits CompHuff CompDec.
Import ListNotations.
Local Open Scope N_scope.

(** * The code length code *)
Lemma order_nodup : NoDup sendOrder.
Proof. unfold sendOrder. repeat (constructor; [cbn [In]; lia|]). constructor. Qed.
Lemma order_eq : kCodeLengthOrder = sendOrder.
Proof. reflexivity. Qed.
Lemma order_lt i : (i < 19)%nat -> (nth i sendOrder 0 < 19)%nat.
Proof.
  intros H. assert (E : forallb (fun i => (nth i sendOrder 0 <? 19)%nat) (seq 0 19) = true) by (vm_compute; reflexivity).
  rewrite forallb_forall in E. specialize (E i ltac:(apply in_seq; lia)). apply Nat.ltb_lt in E. exact E.
Qed.
Lemma order_surj s : (s < 19)%nat -> exists i, (i < 19)%nat /\ nth i sendOrder 0%nat = s.
Proof.
  intros H. assert (E : forallb (fun s => existsb (fun i => (nth i sendOrder 0 =? s)%nat) (seq 0 19)) (seq 0 19) = true) by (vm_compute; reflexivity).
  rewrite forallb_forall in E. specialize (E s ltac:(apply in_seq; lia)). apply existsb_exists in E. destruct E as (i & Hi & E).
  apply in_seq in Hi. apply Nat.eqb_eq in E. exists i. split; [lia|exact E].
Qed.
Lemma order_inj i j : (i < 19)%nat -> (j < 19)%nat -> nth i sendOrder 0%nat = nth j sendOrder 0%nat -> i = j.
Proof. intros Hi Hj E. pose proof order_nodup as H. rewrite NoDup_nth in H. apply H; [exact Hi|exact Hj|exact E]. Qed.
Lemma firstn_order_S k : (k < 19)%nat -> firstn (S k) sendOrder = firstn k sendOrder ++ [nth k sendOrder 0%nat].
Proof.
  intros H. generalize (eq_refl : length sendOrder = 19%nat). generalize sendOrder. intros l Hl. revert k H. rewrite <- Hl. clear Hl.
  induction l as [|x l IH]; intros [|k] H; cbn [length] in H; try lia; [reflexivity|]. rewrite !firstn_cons. cbn [nth app]. rewrite <- IH by lia. reflexivity.
Qed.
Lemma codeLengthBits_S cl k : (k < 19)%nat ->
  codeLengthBits cl (S k) = codeLengthBits cl k ++ lsb 3 (N.of_nat (nth (nth k sendOrder 0%nat) cl 0%nat)).
Proof. intros H. unfold codeLengthBits. rewrite firstn_order_S, flat_map_app by exact H. cbn [flat_map]. rewrite app_nil_r. reflexivity. Qed.
Lemma codeLengthBits_ext cl cl' k : (k <= 19)%nat -> (forall i, (i < k)%nat -> nth (nth i sendOrder 0%nat) cl 0%nat = nth (nth i sendOrder 0%nat) cl' 0%nat) ->
  codeLengthBits cl k = codeLengthBits cl' k.
Proof.
  induction k as [|k IH]; intros Hk H; [reflexivity|]. rewrite !codeLengthBits_S by lia. rewrite IH by (intros; try apply H; lia). rewrite H by lia. reflexivity.
Qed.
Lemma nth_upd_eq (l : list nat) i v : (i < length l)%nat -> nth i (upd l i v) 0%nat = v.
Proof. intros H. apply nth_error_nth with (d := 0%nat). apply nth_upd_same'. exact H. Qed.
Lemma nth_upd_ne (l : list nat) i j v : i <> j -> nth j (upd l i v) 0%nat = nth j l 0%nat.
Proof.
  intros H. pose proof (nth_upd_other l i j v H) as E. destruct (nth_error l j) as [x|] eqn:E1.
  - rewrite (nth_error_nth _ _ _ E1). apply nth_error_nth with (d := 0%nat) in E. exact E.
  - apply nth_error_None in E1. apply nth_error_None in E. rewrite !nth_overflow by assumption. reflexivity.
Qed.

Lemma rcl_sound n : forall k cl r r0, (k + n <= 19)%nat -> length cl = 19%nat -> rok r -> adv r0 r (codeLengthBits cl k) ->
  (forall i, (k <= i < 19)%nat -> nth (nth i sendOrder 0%nat) cl 0%nat = 0%nat) ->
  match readCodeLengths (seq k n) cl r with
  | Ok (cl', r') => length cl' = 19%nat /\ adv r0 r' (codeLengthBits cl' (k + n)) /\
                    (forall i, (k + n <= i < 19)%nat -> nth (nth i sendOrder 0%nat) cl' 0%nat = 0%nat)
  | Err e => e = truncatedInput | _ => False end.
Proof.
  induction n as [|n IH]; intros k cl r r0 Hk Hl Hr Ha Hz; cbn [seq readCodeLengths].
  - rewrite Nat.add_0_r. auto.
  - pose proof (read_sound 3 r Hr ltac:(lia)) as Hs. destruct (readBits 3 r) as [[v r']|e| |]; cbn [bind]; try exact Hs.
    destruct Hs as [Hv Ha']. rewrite order_eq. unfold aget, aset.
    assert (E : nth_error sendOrder k = Some (nth k sendOrder 0%nat)) by (apply nth_error_nth'; cbn; lia).
    rewrite E. cbn [bind]. pose proof (order_lt k ltac:(lia)) as Ho. rewrite Hl.
    destruct (Nat.ltb_spec (nth k sendOrder 0%nat) 19) as [_|]; [|lia]. cbn [bind].
    specialize (IH (S k) (upd cl (nth k sendOrder 0%nat) (N.to_nat v)) r' r0 ltac:(lia)).
    replace (S k + n)%nat with (k + S n)%nat in IH by lia. apply IH.
    + rewrite length_upd. exact Hl.
    + exact (adv_rok _ _ _ Ha').
    + rewrite codeLengthBits_S by lia. eapply adv_trans.
      * rewrite (codeLengthBits_ext _ cl); [exact Ha|lia|]. intros i Hi. apply nth_upd_ne. intros Hc. apply order_inj in Hc; lia.
      * rewrite nth_upd_eq by lia. rewrite N2Nat.id. exact Ha'.
    + intros i Hi. rewrite nth_upd_ne; [apply Hz; lia|]. intros Hc. apply order_inj in Hc; lia.
Qed.
Lemma rcl_enough n : forall k cl r, (k + n <= 19)%nat -> length cl = 19%nat -> rok r -> (3 * n <= length (rbitsOf r))%nat ->
  exists x, readCodeLengths (seq k n) cl r = Ok x.
Proof.
  induction n as [|n IH]; intros k cl r Hk Hl Hr Hb; cbn [seq readCodeLengths]; [eauto|].
  destruct (readBits_ok 3 r Hr ltac:(lia) ltac:(lia)) as (v & r' & E & Hr' & _ & Hbits & _). rewrite E. cbn [bind].
  rewrite order_eq. unfold aget, aset.
  assert (En : nth_error sendOrder k = Some (nth k sendOrder 0%nat)) by (apply nth_error_nth'; cbn; lia).
  rewrite En. cbn [bind]. pose proof (order_lt k ltac:(lia)) as Ho. rewrite Hl.
  destruct (Nat.ltb_spec (nth k sendOrder 0%nat) 19) as [_|]; [|lia]. cbn [bind]. apply IH; [lia|rewrite length_upd; exact Hl|exact Hr'|].
  apply (f_equal (@length bool)) in Hbits. rewrite app_length, length_lsb in Hbits. lia.
Qed.
Lemma length_clBits cl k : (k <= 19)%nat -> length (codeLengthBits cl k) = (3 * k)%nat.
Proof. induction k as [|k IH]; intros H; [reflexivity|]. rewrite codeLengthBits_S by lia. rewrite app_length, length_lsb, IH; lia. Qed.
Lemma clBits_inj cl cl' k : (k <= 19)%nat -> (forall s, (nth s cl 0 < 8)%nat) -> (forall s, (nth s cl' 0 < 8)%nat) ->
  codeLengthBits cl k = codeLengthBits cl' k -> forall i, (i < k)%nat -> nth (nth i sendOrder 0%nat) cl 0%nat = nth (nth i sendOrder 0%nat) cl' 0%nat.
Proof.
  induction k as [|k IH]; intros Hk H8 H8' E i Hi; [lia|]. rewrite !codeLengthBits_S in E by lia.
  apply app_eq_len in E; [|rewrite !length_clBits by lia; reflexivity]. destruct E as [E1 E2].
  destruct (Nat.eq_dec i k) as [->|Hne]; [|apply IH; try assumption; lia].
  apply lsb_inj in E2; [lia| |]; [specialize (H8 (nth k sendOrder 0%nat))|specialize (H8' (nth k sendOrder 0%nat))]; change (2 ^ N.of_nat 3) with 8; lia.
Qed.
(** Lengths read with three bits are below eight. *)
Lemma rcl_small n : forall k cl r x, readCodeLengths (seq k n) cl r = Ok x -> rok r -> (forall s, (nth s cl 0 < 8)%nat) -> (forall s, (nth s (fst x) 0 < 8)%nat).
Proof.
  induction n as [|n IH]; intros k cl r x E Hr H8; cbn [seq readCodeLengths] in E.
  - injection E as <-. exact H8.
  - pose proof (read_sound 3 r Hr ltac:(lia)) as Hs. destruct (readBits 3 r) as [[v r']|e| |]; cbn [bind] in E; try discriminate.
    destruct Hs as [Hv Ha']. unfold aget, aset in E. destruct (nth_error kCodeLengthOrder k) as [slot|]; cbn [bind] in E; [|discriminate].
    destruct (Nat.ltb_spec slot (length cl)) as [Hs|]; cbn [bind] in E; [|discriminate].
    eapply IH; [exact E|exact (adv_rok _ _ _ Ha')|]. intros s. destruct (Nat.eq_dec slot s) as [->|Hne].
    + rewrite nth_upd_eq by exact Hs. change (2 ^ N.of_nat 3) with 8 in Hv. lia.
    + rewrite nth_upd_ne by exact Hne. apply H8.
Qed.
Lemma rcl_complete cl nc r rest : (nc <= 19)%nat -> length cl = 19%nat -> (forall s, (nth s cl 0 < 8)%nat) ->
  (forall i, (nc <= i < 19)%nat -> nth (nth i sendOrder 0%nat) cl 0%nat = 0%nat) -> rok r -> rbitsOf r = codeLengthBits cl nc ++ rest ->
  exists r', readCodeLengths (seq 0 nc) (repeat 0%nat 19) r = Ok (cl, r') /\ adv r r' (codeLengthBits cl nc).
Proof.
  intros Hn Hl H8 Hz Hr E.
  assert (Hrep : forall s, nth s (repeat 0%nat 19) 0%nat = 0%nat) by (intros s; apply nth_repeat).
  destruct (rcl_enough nc 0 (repeat 0%nat 19) r ltac:(lia) eq_refl Hr) as ([cl' r'] & E').
  { rewrite E, app_length, length_clBits by lia. lia. }
  pose proof (rcl_sound nc 0 (repeat 0%nat 19) r r ltac:(lia) eq_refl Hr (adv_refl r Hr) ltac:(intros; apply Hrep)) as Hs.
  rewrite E' in Hs. destruct Hs as (Hl' & Ha & Hz'). cbn [Nat.add] in Ha, Hz'.
  pose proof (rcl_small _ _ _ _ _ E' Hr ltac:(intros; rewrite Hrep; lia)) as H8'. cbn [fst] in H8'.
  pose proof (proj1 (proj2 Ha)) as Eb. rewrite E in Eb. apply app_eq_len in Eb; [|rewrite !length_clBits by lia; reflexivity]. destruct Eb as [Eb _].
  assert (cl' = cl); [|subst cl'; eauto].
  apply nth_ext with (d := 0%nat) (d' := 0%nat); [congruence|]. intros s Hs. rewrite Hl' in Hs. destruct (order_surj s Hs) as (i & Hi & <-).
  destruct (le_lt_dec nc i) as [H|H]; [rewrite Hz, Hz' by lia; reflexivity|]. symmetry. apply (clBits_inj cl cl' nc); assumption.
Qed.

(** * The code lengths of a dynamic block *)
Lemma fillLengths_spec n : forall l i v, (i + n <= length l)%nat ->
  exists l', fillLengths n l i v = Ok l' /\ length l' = length l /\ firstn (i + n) l' = firstn i l ++ repeat v n.
Proof.
  induction n as [|n IH]; intros l i v H; cbn [fillLengths repeat].
  - exists l. rewrite Nat.add_0_r, app_nil_r. auto.
  - unfold aset. destruct (Nat.ltb_spec i (length l)) as [Hi|]; [|lia]. cbn [bind].
    destruct (IH (upd l i v) (S i) v ltac:(rewrite length_upd; lia)) as (l' & E & H1 & H2). exists l'. split; [exact E|].
    rewrite length_upd in H1. split; [exact H1|]. replace (i + S n)%nat with (S i + n)%nat by lia. rewrite H2, firstn_upd_snoc by exact Hi.
    rewrite <- app_assoc. reflexivity.
Qed.
Lemma firstn_snoc {A} (l : list A) i d : (i < length l)%nat -> firstn (S i) l = firstn i l ++ [nth i l d].
Proof.
  revert i; induction l as [|x l IH]; intros [|i] H; cbn [length] in H; try lia; [reflexivity|]. rewrite !firstn_cons. cbn [nth app]. rewrite <- IH by lia. reflexivity.
Qed.

Lemma rl_sound cl d total : decOk cl d -> length cl = 19%nat -> forall fuel lengths index r, rok r -> (length (rbitsOf r) < fuel)%nat ->
  (index <= total <= length lengths)%nat ->
  match readLengths fuel d total lengths index r with
  | Ok (l', r') => exists bs, lengthsBits cl total (firstn index lengths) (firstn total l') bs /\ adv r r' bs /\ length l' = length lengths
  | Err _ => True | _ => False end.
Proof.
  intros Hd Hcl fuel. induction fuel as [|fuel IH]; intros lengths index r Hr Hf Hi; [lia|]. cbn [readLengths].
  destruct (Nat.leb_spec total index) as [Ht|Ht].
  - exists []. replace index with total by lia. split; [constructor; rewrite firstn_length; lia|]. split; [apply adv_refl, Hr|reflexivity].
  - pose proof (sym_sound cl d r Hd Hr) as H1. destruct (decodeSymbol d r) as [[s r1]|e| |]; cbn [bind]; try contradiction; [|exact I].
    destruct H1 as [Hc Ha]. pose proof (adv_len _ _ _ Ha) as Hlen. pose proof (codeword_nonempty _ _ Hc) as Hne.
    assert (Hs19 : (s < 19)%nat). { destruct (le_lt_dec 19 s) as [H|H]; [|exact H]. exfalso. apply Hc. apply nth_overflow. lia. }
    destruct (Nat.leb_spec s 15) as [Hs|Hs].
    + unfold aset. destruct (Nat.ltb_spec index (length lengths)) as [Hx|]; [|lia]. cbn [bind].
      specialize (IH (upd lengths index s) (S index) r1 (adv_rok _ _ _ Ha) ltac:(lia)). rewrite length_upd in IH. specialize (IH ltac:(lia)).
      destruct (readLengths fuel d total (upd lengths index s) (S index) r1) as [[l' r']|e| |]; try exact IH.
      destruct IH as (bs & Hb & Ha' & Hl'). exists (codeword cl s ++ bs). split; [|split; [eapply adv_trans; eassumption|exact Hl']].
      rewrite firstn_upd_snoc in Hb by exact Hx. apply lb_len; try assumption. rewrite firstn_length. lia.
    + assert (Hgen : forall value base bits, (bits <= 32)%nat -> (1 <= base)%nat ->
         (forall e l' bs, e < 2 ^ N.of_nat bits -> (index + (base + N.to_nat e) <= total)%nat ->
            lengthsBits cl total (firstn index lengths ++ repeat value (base + N.to_nat e)) l' bs ->
            lengthsBits cl total (firstn index lengths) l' (codeword cl s ++ lsb bits e ++ bs)) ->
         match (let* (extra, r2) := readBits bits r1 in
                let repeat := (base + N.to_nat extra)%nat in
                if (total - index <? repeat)%nat then Err invalidHuffmanTree
                else let* l' := fillLengths repeat lengths index value in readLengths fuel d total l' (index + repeat) r2) with
         | Ok (l', r') => exists bs, lengthsBits cl total (firstn index lengths) (firstn total l') bs /\ adv r r' bs /\ length l' = length lengths
         | Err _ => True | _ => False end).
      { intros value base bits Hbits Hbase Hstep. pose proof (read_sound bits r1 (adv_rok _ _ _ Ha) Hbits) as H2.
        destruct (readBits bits r1) as [[e r2]|e| |]; cbn [bind]; try contradiction; [|exact I]. destruct H2 as [He Ha2].
        destruct (Nat.ltb_spec (total - index) (base + N.to_nat e)) as [Hbad|Hok]; [exact I|].
        destruct (fillLengths_spec (base + N.to_nat e) lengths index value ltac:(lia)) as (l1 & E1 & Hl1 & Hf1). rewrite E1. cbn [bind].
        pose proof (adv_len _ _ _ Ha2) as Hlen2.
        specialize (IH l1 (index + (base + N.to_nat e))%nat r2 (adv_rok _ _ _ Ha2) ltac:(lia) ltac:(lia)).
        destruct (readLengths fuel d total l1 (index + (base + N.to_nat e)) r2) as [[l' r']|e'| |]; try exact IH.
        destruct IH as (bs & Hb & Ha' & Hl'). exists (codeword cl s ++ lsb bits e ++ bs). split; [|split; [|congruence]].
        - apply Hstep; [exact He|lia|]. rewrite Hf1 in Hb. exact Hb.
        - eapply adv_trans; [exact Ha|]. eapply adv_trans; eassumption. }
      destruct (Nat.eqb_spec s 16) as [->|Hs16].
      * destruct (Nat.eqb_spec index 0) as [|Hi0]; [exact I|]. unfold aget.
        rewrite (nth_error_nth' lengths 0%nat (n := index - 1)) by lia. cbn [bind].
        apply Hgen; [lia|lia|]. intros e l' bs He Hle Hb.
        assert (Esnoc : firstn index lengths = firstn (index - 1) lengths ++ [nth (index - 1) lengths 0%nat]).
        { replace index with (S (index - 1)) at 1 by lia. apply firstn_snoc. lia. }
        rewrite Esnoc in Hb |- *. apply lb_prev; [exact Hc|exact He| |exact Hb]. rewrite firstn_length. lia.
      * destruct (Nat.eqb_spec s 17) as [->|Hs17].
        -- cbn [bind]. apply Hgen; [lia|lia|]. intros e l' bs He Hle Hb. apply lb_zero3; [exact Hc|exact He| |exact Hb]. rewrite firstn_length. lia.
        -- destruct (Nat.eqb_spec s 18) as [->|Hs18]; [|lia]. cbn [bind]. apply Hgen; [lia|lia|]. intros e l' bs He Hle Hb.
           apply lb_zero11; [exact Hc|exact He| |exact Hb]. rewrite firstn_length. lia.
Qed.

Lemma rl_complete cl d total : decOk cl d -> forall sofar all bs, lengthsBits cl total sofar all bs ->
  forall fuel lengths r rest, rok r -> firstn (length sofar) lengths = sofar -> (length sofar <= total <= length lengths)%nat ->
  rbitsOf r = bs ++ rest -> (length (rbitsOf r) < fuel)%nat ->
  exists l' r', readLengths fuel d total lengths (length sofar) r = Ok (l', r') /\ firstn total l' = all /\ adv r r' bs /\ length l' = length lengths.
Proof.
  intros Hd sofar all bs Hb.
  assert (Hfill : forall (sofar : list nat) value n bits e s (all : list nat) bs, hasCode cl s -> (bits <= 32)%nat -> e < 2 ^ N.of_nat bits ->
    (length sofar + n <= total)%nat ->
    (forall fuel lengths r rest, rok r -> firstn (length (sofar ++ repeat value n)) lengths = sofar ++ repeat value n ->
      (length (sofar ++ repeat value n) <= total <= length lengths)%nat -> rbitsOf r = bs ++ rest -> (length (rbitsOf r) < fuel)%nat ->
      exists l' r', readLengths fuel d total lengths (length (sofar ++ repeat value n)) r = Ok (l', r') /\ firstn total l' = all /\ adv r r' bs /\ length l' = length lengths) ->
    forall fuel lengths r rest, rok r -> firstn (length sofar) lengths = sofar -> (length sofar <= total <= length lengths)%nat ->
      rbitsOf r = (codeword cl s ++ lsb bits e ++ bs) ++ rest -> (length (rbitsOf r) < S fuel)%nat ->
      exists r1 r2 l1, decodeSymbol d r = Ok (s, r1) /\ readBits bits r1 = Ok (e, r2) /\ fillLengths n lengths (length sofar) value = Ok l1 /\
        exists l' r', readLengths fuel d total l1 (length sofar + n) r2 = Ok (l', r') /\ firstn total l' = all /\
                      adv r r' (codeword cl s ++ lsb bits e ++ bs) /\ length l' = length lengths).
  { intros sofar0 value n bits e s all0 bs0 Hc Hbits He Hn IH fuel lengths r rest Hr Hf Hi E Hfu. rewrite <- !app_assoc in E.
    destruct (sym_complete cl d s r _ Hd Hc Hr E) as (r1 & E1 & Ha). pose proof (adv_rest _ _ _ _ Ha E) as F1.
    destruct (read_complete bits r1 e _ (adv_rok _ _ _ Ha) Hbits He F1) as (r2 & E2 & Ha2). pose proof (adv_rest _ _ _ _ Ha2 F1) as F2.
    destruct (fillLengths_spec n lengths (length sofar0) value ltac:(lia)) as (l1 & E3 & Hl1 & Hf1). rewrite Hf in Hf1.
    exists r1, r2, l1. split; [exact E1|]. split; [exact E2|]. split; [exact E3|].
    pose proof (adv_len _ _ _ Ha). pose proof (adv_len _ _ _ Ha2). pose proof (codeword_nonempty _ _ Hc).
    assert (Elen : length (sofar0 ++ repeat value n) = (length sofar0 + n)%nat) by (rewrite app_length, repeat_length; reflexivity).
    specialize (IH fuel l1 r2 rest (adv_rok _ _ _ Ha2)). rewrite Elen in IH.
    destruct IH as (l' & r' & E' & Hall & Ha' & Hl'); try assumption; try lia.
    exists l', r'. split; [exact E'|]. split; [exact Hall|]. split; [|congruence]. eapply adv_trans; [exact Ha|]. eapply adv_trans; eassumption. }
  induction Hb as [all Hall|sofar l all bs Hlt Hl Hc Hb IH|sofar l e all bs Hc He Hle Hb IH|sofar e all bs Hc He Hle Hb IH|sofar e all bs Hc He Hle Hb IH];
    intros fuel lengths r rest Hr Hf Hi E Hfu; (destruct fuel as [|fuel]; [lia|]); cbn [readLengths].
  - destruct (Nat.leb_spec total (length all)) as [_|]; [|lia]. exists lengths, r. split; [reflexivity|]. rewrite <- Hall. split; [exact Hf|].
    split; [apply adv_refl, Hr|reflexivity].
  - destruct (Nat.leb_spec total (length sofar)) as [|_]; [lia|]. rewrite <- app_assoc in E.
    destruct (sym_complete cl d l r _ Hd Hc Hr E) as (r1 & E1 & Ha). pose proof (adv_rest _ _ _ _ Ha E) as F1. rewrite E1. cbn [bind].
    destruct (Nat.leb_spec l 15) as [_|]; [|lia]. unfold aset. destruct (Nat.ltb_spec (length sofar) (length lengths)) as [Hx|]; [|lia]. cbn [bind].
    pose proof (adv_len _ _ _ Ha). pose proof (codeword_nonempty _ _ Hc).
    assert (Elen : length (sofar ++ [l]) = S (length sofar)) by (rewrite app_length; cbn; lia).
    specialize (IH fuel (upd lengths (length sofar) l) r1 rest (adv_rok _ _ _ Ha)). rewrite Elen in IH.
    rewrite firstn_upd_snoc, Hf, length_upd in IH by exact Hx.
    destruct (IH eq_refl ltac:(lia) F1 ltac:(lia)) as (l' & r' & E' & H1 & H2 & H3).
    exists l', r'. split; [exact E'|]. split; [exact H1|]. split; [eapply adv_trans; eassumption|exact H3].
  - assert (Elen : length (sofar ++ [l]) = S (length sofar)) by (rewrite app_length; cbn; lia).
    destruct (Nat.leb_spec total (length (sofar ++ [l]))) as [|_]; [lia|].
    destruct (Hfill (sofar ++ [l]) l (3 + N.to_nat e)%nat 2%nat e 16%nat all bs Hc ltac:(lia) He ltac:(lia) IH fuel lengths r rest Hr Hf Hi E Hfu)
      as (r1 & r2 & l1 & E1 & E2 & E3 & l' & r' & E4 & Hres).
    rewrite E1. cbn [bind]. change (16 <=? 15)%nat with false. change (16 =? 16)%nat with true. cbn iota.
    destruct (Nat.eqb_spec (length (sofar ++ [l])) 0) as [|_]; [lia|]. unfold aget.
    assert (Eg : nth_error lengths (length (sofar ++ [l]) - 1) = Some l).
    { rewrite <- (firstn_skipn (length (sofar ++ [l])) lengths), Hf. rewrite nth_error_app1 by lia. rewrite nth_error_app2 by lia.
      replace (length (sofar ++ [l]) - 1 - length sofar)%nat with 0%nat by lia. reflexivity. }
    rewrite Eg. cbn [bind]. rewrite E2. cbn [bind]. destruct (Nat.ltb_spec (total - length (sofar ++ [l])) (3 + N.to_nat e)) as [|_]; [lia|].
    rewrite E3. cbn [bind]. exists l', r'. split; [exact E4|exact Hres].
  - destruct (Nat.leb_spec total (length sofar)) as [|_]; [lia|].
    destruct (Hfill sofar 0%nat (3 + N.to_nat e)%nat 3%nat e 17%nat all bs Hc ltac:(lia) He ltac:(lia) IH fuel lengths r rest Hr Hf Hi E Hfu)
      as (r1 & r2 & l1 & E1 & E2 & E3 & l' & r' & E4 & Hres).
    rewrite E1. cbn [bind]. change (17 <=? 15)%nat with false. change (17 =? 16)%nat with false. change (17 =? 17)%nat with true. cbn iota. cbn [bind].
    rewrite E2. cbn [bind]. destruct (Nat.ltb_spec (total - length sofar) (3 + N.to_nat e)) as [|_]; [lia|].
    rewrite E3. cbn [bind]. exists l', r'. split; [exact E4|exact Hres].
  - destruct (Nat.leb_spec total (length sofar)) as [|_]; [lia|].
    destruct (Hfill sofar 0%nat (11 + N.to_nat e)%nat 7%nat e 18%nat all bs Hc ltac:(lia) He ltac:(lia) IH fuel lengths r rest Hr Hf Hi E Hfu)
      as (r1 & r2 & l1 & E1 & E2 & E3 & l' & r' & E4 & Hres).
    rewrite E1. cbn [bind]. change (18 <=? 15)%nat with false. change (18 =? 16)%nat with false. change (18 =? 17)%nat with false. change (18 =? 18)%nat with true.
    cbn iota. cbn [bind].
    rewrite E2. cbn [bind]. destruct (Nat.ltb_spec (total - length sofar) (11 + N.to_nat e)) as [|_]; [lia|].
    rewrite E3. cbn [bind]. exists l', r'. split; [exact E4|exact Hres].
Qed.

(** * Dynamic blocks *)
Lemma firstn_copyInto n k l : (k <= length l)%nat -> firstn k (copyInto n l) = firstn k l.
Proof. intros H. unfold copyInto. rewrite firstn_app. replace (k - length l)%nat with 0%nat by lia. cbn [firstn]. apply app_nil_r. Qed.
Lemma length_copyInto n l : (length l <= n)%nat -> length (copyInto n l) = n.
Proof. intros H. unfold copyInto. rewrite app_length, repeat_length. lia. Qed.
Definition litOk (ls : list nat) : Prop := hasCode ls 256 /\ (complete 15 ls \/ single ls).
Definition distOk (ls : list nat) : Prop := complete 15 ls \/ single ls \/ unused ls.
Lemma dynamicDecoders_spec lengths nl nd : (length lengths = 320)%nat -> (257 <= nl <= 286)%nat -> (1 <= nd <= 30)%nat ->
  let lens := firstn (nl + nd) lengths in
  match dynamicDecoders lengths nl nd with
  | Ok (ld, dd) => litOk (firstn nl lens) /\ distOk (skipn nl lens) /\ decOk (firstn nl lens) ld /\ decOk (skipn nl lens) dd
  | Err _ => ~ (litOk (firstn nl lens) /\ distOk (skipn nl lens)) | _ => False end.
Proof.
  intros Hl Hnl Hnd lens. unfold dynamicDecoders. destruct (Nat.ltb_spec (length lengths) (nl + nd)) as [|_]; [lia|].
  assert (El : firstn nl lens = firstn nl lengths) by (unfold lens; rewrite firstn_firstn, Nat.min_l by lia; reflexivity).
  assert (Ed : skipn nl lens = firstn nd (skipn nl lengths)) by (unfold lens; rewrite firstn_skipn_comm; reflexivity).
  rewrite El, Ed. clear lens El Ed.
  assert (L1 : length (firstn nl lengths) = nl) by (rewrite firstn_length; lia).
  assert (L2 : length (firstn nd (skipn nl lengths)) = nd) by (rewrite firstn_length, skipn_length; lia).
  set (ls := firstn nl lengths) in *. set (ds := firstn nd (skipn nl lengths)) in *. clearbody ls ds.
  assert (E256 : nth_error (copyInto 288 ls) 256 = Some (nth 256 ls 0%nat)).
  { unfold copyInto. rewrite nth_error_app1 by lia. apply nth_error_nth'. lia. }
  unfold aget. rewrite E256. cbn [bind]. destruct (Nat.eqb_spec (nth 256 ls 0%nat) 0) as [H0|H0].
  - intros [[Hc _] _]. exact (Hc H0).
  - destruct (makeDecoder_spec 288 15 (copyInto 288 ls) nl defaultPolicy) as [(Hv & ld & E1 & Hd1 & _)|(Hv & E1)].
    + lia.
    + rewrite length_copyInto; lia.
    + lia.
    + rewrite E1. cbn [bind]. rewrite firstn_copyInto, firstn_all2 in Hv, Hd1 by lia.
      destruct (makeDecoder_spec 32 15 (copyInto 32 ds) nd distancePolicy) as [(Hv2 & dd & E2 & Hd2 & _)|(Hv2 & E2)].
      * lia.
      * rewrite length_copyInto; lia.
      * lia.
      * rewrite E2. cbn [bind]. rewrite firstn_copyInto, firstn_all2 in Hv2, Hd2 by lia.
        split; [split; [exact H0|]|split; [|split; assumption]].
        -- destruct Hv as [H|[(_ & H)|(H & _)]]; [left; exact H|right; exact H|discriminate].
        -- destruct Hv2 as [H|[(_ & H)|(_ & H)]]; [left; exact H|right; left; exact H|right; right; exact H].
      * rewrite E2. cbn [bind]. rewrite firstn_copyInto, firstn_all2 in Hv2 by lia. intros [_ Hdk]. apply Hv2.
        destruct Hdk as [H|[H|H]]; [left; exact H|right; left; split; [reflexivity|exact H]|right; right; split; [reflexivity|exact H]].
    + rewrite E1. cbn [bind]. rewrite firstn_copyInto, firstn_all2 in Hv by lia. intros [[_ Hlk] _]. apply Hv.
      destruct Hlk as [H|H]; [left; exact H|right; left; split; [reflexivity|exact H]].
Qed.

Lemma clDecoder_spec cl : length cl = 19%nat ->
  (complete 7 cl /\ exists d, makeDecoder 19 7 cl 19 codeLengthPolicy = Ok d /\ decOk cl d) \/
  (~ complete 7 cl /\ makeDecoder 19 7 cl 19 codeLengthPolicy = Err invalidHuffmanTree).
Proof.
  intros Hl. destruct (makeDecoder_spec 19 7 cl 19 codeLengthPolicy ltac:(lia) ltac:(lia) ltac:(lia)) as [(Hv & d & E & Hd & _)|(Hv & E)];
    rewrite firstn_all2 in * by lia.
  - left. split; [|eauto]. destruct Hv as [H|[(H & _)|(H & _)]]; [exact H|discriminate|discriminate].
  - right. split; [|exact E]. intros H. apply Hv. left. exact H.
Qed.

Definition kindDyn : N := 2.
Lemma dyn_sound r o pre out : rok r -> rep o pre out ->
  match decodeDynamicBlock r o with
  | Ok (r', o') => exists bs out', block (offset r) out bs 2 out' /\ adv r r' bs /\ rep o' pre out' /\ sameKind o o'
  | Err _ => True | _ => False end.
Proof.
  intros Hr Ho. unfold decodeDynamicBlock.
  pose proof (read_sound 5 r Hr ltac:(lia)) as H1. destruct (readBits 5 r) as [[lb r1]|e| |]; cbn [bind]; try contradiction; [|exact I]. destruct H1 as [B1 A1].
  pose proof (read_sound 5 r1 (adv_rok _ _ _ A1) ltac:(lia)) as H2. destruct (readBits 5 r1) as [[db r2]|e| |]; cbn [bind]; try contradiction; [|exact I]. destruct H2 as [B2 A2].
  pose proof (read_sound 4 r2 (adv_rok _ _ _ A2) ltac:(lia)) as H3. destruct (readBits 4 r2) as [[cb r3]|e| |]; cbn [bind]; try contradiction; [|exact I]. destruct H3 as [B3 A3].
  change (2 ^ N.of_nat 5) with 32 in *. change (2 ^ N.of_nat 4) with 16 in *.
  set (nl := (N.to_nat lb + 257)%nat). set (nd := (N.to_nat db + 1)%nat). set (nc := (N.to_nat cb + 4)%nat).
  destruct (Nat.ltb_spec 286 nl) as [|Hnl]; cbn [orb]; [exact I|]. destruct (Nat.ltb_spec 30 nd) as [|Hnd]; [exact I|].
  pose proof (rcl_sound nc 0 (repeat 0%nat 19) r3 r3 ltac:(lia) eq_refl (adv_rok _ _ _ A3) (adv_refl r3 (adv_rok _ _ _ A3)) ltac:(intros; apply nth_repeat)) as H4.
  destruct (readCodeLengths (seq 0 nc) (repeat 0%nat 19) r3) as [[cl r4]|e| |]; cbn [bind]; try contradiction; [|exact I].
  destruct H4 as (Hcl & A4 & Hz). cbn [Nat.add] in A4, Hz.
  destruct (clDecoder_spec cl Hcl) as [(Hcomp & cld & E5 & Hcd)|(_ & E5)]; rewrite E5; cbn [bind]; [|exact I].
  pose proof (rl_sound cl cld (nl + nd) Hcd Hcl (S (available r4)) (repeat 0%nat 320) 0 r4 (adv_rok _ _ _ A4)) as H6.
  rewrite length_rbits in H6 by apply (adv_rok _ _ _ A4). rewrite repeat_length in H6. specialize (H6 ltac:(lia) ltac:(lia)).
  destruct (readLengths (S (available r4)) cld (nl + nd) (repeat 0%nat 320) 0 r4) as [[lengths r5]|e| |]; cbn [bind]; try contradiction; [|exact I].
  destruct H6 as (hs & Hh & A5 & Hl5). cbn [firstn] in Hh.
  pose proof (dynamicDecoders_spec lengths nl nd Hl5 ltac:(lia) ltac:(lia)) as H7. cbn zeta in H7.
  destruct (dynamicDecoders lengths nl nd) as [[ld dd]|e| |]; cbn [bind]; try contradiction; [|exact I].
  destruct H7 as ((Hc256 & Hlit) & Hdist & Hld & Hdd). set (lens := firstn (nl + nd) lengths) in *.
  pose proof (dcb_sound _ _ ld dd Hld Hdd (S (available r5)) r5 o pre out (adv_rok _ _ _ A5) Ho) as H8.
  rewrite length_rbits in H8 by apply (adv_rok _ _ _ A5). specialize (H8 ltac:(lia)).
  destruct (decodeCompressedBlock (S (available r5)) ld dd r5 o) as [[r' o']|e| |]; try exact H8.
  destruct H8 as (ts & bs & out' & Hb & Hx & A6 & Hp & Hk).
  exists (lsb 5 (N.of_nat (nl - 257)) ++ lsb 5 (N.of_nat (nd - 1)) ++ lsb 4 (N.of_nat (nc - 4)) ++ codeLengthBits cl nc ++ hs ++ bs), out'.
  split; [|split; [|split; assumption]].
  - apply (bl_dynamic _ _ nl nd nc cl lens ts hs bs out'); try assumption; lia.
  - replace (N.of_nat (nl - 257)) with lb by lia. replace (N.of_nat (nd - 1)) with db by lia. replace (N.of_nat (nc - 4)) with cb by lia.
    repeat (eapply adv_trans; [eassumption|]). exact A6.
Qed.
Lemma dyn_complete off r o pre out bs out' rest : block off out bs 2 out' -> rok r -> rep o pre out -> bytesN (pre ++ out') <= cap o ->
  rbitsOf r = bs ++ rest ->
  exists r' o', decodeDynamicBlock r o = Ok (r', o') /\ adv r r' bs /\ rep o' pre out' /\ sameKind o o'.
Proof.
  intros Hb Hr Ho Hroom E. inversion Hb as [| |? ? nl nd nc cl lens ts hs bs0 ? Hnl Hnd Hnc Hcl Hz Hcomp Hh Hc256 Hlit Hdist Hbody Hx]; subst; clear Hb.
  unfold decodeDynamicBlock. rewrite <- !app_assoc in E.
  destruct (read_complete 5 r (N.of_nat (nl - 257)) _ Hr ltac:(lia) ltac:(change (2 ^ N.of_nat 5) with 32; lia) E) as (r1 & E1 & A1). rewrite E1. cbn [bind]. pose proof (adv_rest _ _ _ _ A1 E) as F1.
  destruct (read_complete 5 r1 (N.of_nat (nd - 1)) _ (adv_rok _ _ _ A1) ltac:(lia) ltac:(change (2 ^ N.of_nat 5) with 32; lia) F1) as (r2 & E2 & A2). rewrite E2. cbn [bind]. pose proof (adv_rest _ _ _ _ A2 F1) as F2.
  destruct (read_complete 4 r2 (N.of_nat (nc - 4)) _ (adv_rok _ _ _ A2) ltac:(lia) ltac:(change (2 ^ N.of_nat 4) with 16; lia) F2) as (r3 & E3 & A3). rewrite E3. cbn [bind]. pose proof (adv_rest _ _ _ _ A3 F2) as F3.
  replace (N.to_nat (N.of_nat (nl - 257)) + 257)%nat with nl by lia. replace (N.to_nat (N.of_nat (nd - 1)) + 1)%nat with nd by lia.
  replace (N.to_nat (N.of_nat (nc - 4)) + 4)%nat with nc by lia.
  destruct (Nat.ltb_spec 286 nl) as [|_]; [lia|]. destruct (Nat.ltb_spec 30 nd) as [|_]; [lia|]. cbn [orb].
  assert (H8 : forall s, (nth s cl 0 < 8)%nat) by (intros s; destruct Hcomp as [Hf _]; rewrite Forall_nth_le in Hf; specialize (Hf s); lia).
  destruct (rcl_complete cl nc r3 _ ltac:(lia) Hcl H8 Hz (adv_rok _ _ _ A3) F3) as (r4 & E4 & A4).
  rewrite E4. cbn [bind]. pose proof (adv_rest _ _ _ _ A4 F3) as F4.
  destruct (clDecoder_spec cl Hcl) as [(_ & cld & E5 & Hcd)|(Hbad & _)]; [|contradiction]. rewrite E5. cbn [bind].
  assert (Hl4 : (length (rbitsOf r4) < S (available r4))%nat) by (rewrite length_rbits by apply (adv_rok _ _ _ A4); lia).
  destruct (rl_complete cl cld (nl + nd) Hcd [] lens hs Hh (S (available r4)) (repeat 0%nat 320) r4 _ (adv_rok _ _ _ A4) eq_refl
              ltac:(rewrite repeat_length; cbn [length]; lia) F4 Hl4) as (lengths & r5 & E6 & Hall & A5 & Hl5).
  cbn [length] in E6. rewrite E6. cbn [bind]. pose proof (adv_rest _ _ _ _ A5 F4) as F5. rewrite repeat_length in Hl5.
  pose proof (dynamicDecoders_spec lengths nl nd Hl5 ltac:(lia) ltac:(lia)) as H7. cbn zeta in H7. rewrite Hall in H7.
  destruct (dynamicDecoders lengths nl nd) as [[ld dd]|e| |]; cbn [bind]; try contradiction.
  2:{ exfalso. apply H7. split; [split; assumption|exact Hdist]. }
  destruct H7 as (_ & _ & Hld & Hdd).
  destruct (dcb_complete _ _ ld dd Hld Hdd ts bs0 Hbody (S (available r5)) r5 o pre out out' rest Hx (adv_rok _ _ _ A5) Ho Hroom F5) as (r' & o' & E8 & A6 & Hp & Hk).
  { rewrite length_rbits by apply (adv_rok _ _ _ A5). lia. }
  exists r', o'. split; [exact E8|]. split; [|split; assumption].
  repeat (eapply adv_trans; [eassumption|]). exact A6.
Qed.

(** * Fixed blocks *)
Lemma fixedLit_eq : fixedLiteralLengths = fixedLitLens.
Proof. vm_compute. reflexivity. Qed.
Lemma fixedDist_eq : fixedDistanceLengths = fixedDistLens.
Proof. vm_compute. reflexivity. Qed.
Lemma fixedDecoders : exists ld dd, kFixedLiteralDecoder = Ok ld /\ kFixedDistanceDecoder = Ok dd /\ decOk fixedLitLens ld /\ decOk fixedDistLens dd.
Proof.
  assert (L1 : length fixedLiteralLengths = 288%nat) by (vm_compute; reflexivity).
  assert (L2 : length fixedDistanceLengths = 32%nat) by (vm_compute; reflexivity).
  destruct (makeDecoder_spec 288 15 fixedLiteralLengths 288 defaultPolicy ltac:(lia) ltac:(lia) ltac:(lia)) as [(_ & ld & E1 & H1 & _)|(Hbad & _)].
  2:{ exfalso. apply Hbad. left. rewrite firstn_all2 by lia. split.
      - apply Forall_forall. intros x Hx. assert (E : forallb (fun x => (x <=? 15)%nat) fixedLiteralLengths = true) by (vm_compute; reflexivity).
        rewrite forallb_forall in E. apply Nat.leb_le. apply E, Hx.
      - vm_compute. reflexivity. }
  destruct (makeDecoder_spec 32 15 fixedDistanceLengths 32 defaultPolicy ltac:(lia) ltac:(lia) ltac:(lia)) as [(_ & dd & E2 & H2 & _)|(Hbad & _)].
  2:{ exfalso. apply Hbad. left. rewrite firstn_all2 by lia. split.
      - apply Forall_forall. intros x Hx. assert (E : forallb (fun x => (x <=? 15)%nat) fixedDistanceLengths = true) by (vm_compute; reflexivity).
        rewrite forallb_forall in E. apply Nat.leb_le. apply E, Hx.
      - vm_compute. reflexivity. }
  rewrite firstn_all2 in H1, H2 by lia. rewrite fixedLit_eq in H1. rewrite fixedDist_eq in H2. exists ld, dd. auto.
Qed.

(** * Stored blocks *)
Lemma octets_app a b : octets (a ++ b) <-> octets a /\ octets b.
Proof. apply Forall_app. Qed.
Lemma stored_sound n : forall r o pre out, rok r -> rep o pre out ->
  match readStored n r o with
  | Ok (r', o') => exists data, length data = n /\ octets data /\ adv r r' (bitsOf data) /\ rep o' pre (out ++ data) /\ sameKind o o'
  | Err _ => True | _ => False end.
Proof.
  induction n as [|n IH]; intros r o pre out Hr Ho; cbn [readStored].
  - exists []. rewrite app_nil_r. split; [reflexivity|]. split; [constructor|]. split; [apply adv_refl, Hr|]. split; [exact Ho|apply sameKind_refl].
  - pose proof (read_sound 8 r Hr ltac:(lia)) as H1. destruct (readBits 8 r) as [[v r1]|e| |]; cbn [bind]; try contradiction; [|exact I]. destruct H1 as [B1 A1].
    destruct (append_spec o pre out v Ho) as [(_ & o' & E & Ho' & Hk)|(_ & e & E & _)]; rewrite E; cbn [bind]; [|exact I].
    specialize (IH r1 o' pre _ (adv_rok _ _ _ A1) Ho'). destruct (readStored n r1 o') as [[r' o'']|e| |]; try exact IH.
    destruct IH as (data & Hl & Hd & Ha & Hp & Hk'). exists (v :: data). split; [cbn; lia|]. split; [constructor; assumption|].
    split; [change (bitsOf (v :: data)) with (lsb 8 v ++ bitsOf data); eapply adv_trans; eassumption|].
    rewrite <- app_assoc in Hp. split; [exact Hp|eapply sameKind_trans; eassumption].
Qed.
Lemma stored_complete data : forall r o pre out rest, octets data -> rok r -> rep o pre out -> bytesN (pre ++ out ++ data) <= cap o ->
  rbitsOf r = bitsOf data ++ rest ->
  exists r' o', readStored (length data) r o = Ok (r', o') /\ adv r r' (bitsOf data) /\ rep o' pre (out ++ data) /\ sameKind o o'.
Proof.
  induction data as [|v data IH]; intros r o pre out rest Hd Hr Ho Hroom E; cbn [length readStored].
  - exists r, o. rewrite app_nil_r. split; [reflexivity|]. split; [apply adv_refl, Hr|]. split; [exact Ho|apply sameKind_refl].
  - inversion Hd as [|? ? Hv Hd']; subst. change (bitsOf (v :: data)) with (lsb 8 v ++ bitsOf data) in *. rewrite <- app_assoc in E.
    destruct (read_complete 8 r v _ Hr ltac:(lia) Hv E) as (r1 & E1 & A1). rewrite E1. cbn [bind].
    destruct (append_spec o pre out v Ho) as [(_ & o' & Eo & Ho' & Hk)|(Hbad & _)].
    2:{ unfold bytesN in *. rewrite !app_length in *. cbn [length] in *. lia. }
    rewrite Eo. cbn [bind].
    destruct (IH r1 o' pre (out ++ [v]) rest Hd' (adv_rok _ _ _ A1) Ho') as (r' & o'' & E' & A' & Hp & Hk').
    + rewrite (proj1 Hk), <- app_assoc. exact Hroom.
    + eapply adv_rest; eassumption.
    + exists r', o''. split; [exact E'|]. split; [eapply adv_trans; eassumption|]. rewrite <- app_assoc in Hp. split; [exact Hp|eapply sameKind_trans; eassumption].
Qed.
Lemma align_adv r : rok r -> adv r (alignReader r) (lsb (rcount r) (rbits r)) /\ rcount (alignReader r) = 0%nat /\ rpos (alignReader r) = rpos r.
Proof.
  intros Hr. destruct (alignReader_spec r Hr) as (H1 & H2 & H3 & H4 & H5). split; [|auto].
  split; [exact H1|]. split; [exact H5|]. split; [exact H3|]. rewrite length_lsb. unfold offset. rewrite H2, H4.
  destruct Hr as (_ & _ & _ & _ & Hq). lia.
Qed.
Lemma storedBlock_sound r o pre out : rok r -> rep o pre out ->
  match decodeStoredBlock r o with
  | Ok (r', o') => exists bs out', block (offset r) out bs 0 out' /\ adv r r' bs /\ rep o' pre out' /\ sameKind o o'
  | Err _ => True | _ => False end.
Proof.
  intros Hr Ho. unfold decodeStoredBlock. destruct (align_adv r Hr) as (A0 & Hc0 & Hp0).
  pose proof (read_sound 16 _ (adv_rok _ _ _ A0) ltac:(lia)) as H1. destruct (readBits 16 (alignReader r)) as [[len r1]|e| |]; cbn [bind]; try contradiction; [|exact I]. destruct H1 as [B1 A1].
  pose proof (read_sound 16 _ (adv_rok _ _ _ A1) ltac:(lia)) as H2. destruct (readBits 16 r1) as [[com r2]|e| |]; cbn [bind]; try contradiction; [|exact I]. destruct H2 as [B2 A2].
  change (N.of_nat 16) with 16 in *. rewrite !tr_small by assumption. change (2 ^ 16) with 65536 in *.
  destruct (N.eqb_spec (65535 - len) com) as [Hcom|]; cbn [negb]; [|exact I].
  pose proof (stored_sound (N.to_nat len) r2 o pre out (adv_rok _ _ _ A2) Ho) as H3.
  destruct (readStored (N.to_nat len) r2 o) as [[r' o']|e| |]; try exact H3.
  destruct H3 as (data & Hl & Hd & A3 & Hp & Hk). pose proof Hr as (Hoct & Hpos & Hcnt & Hbits & Hq).
  exists (lsb (rcount r) (rbits r) ++ lsb 16 (N.of_nat (length data)) ++ lsb 16 (65535 - N.of_nat (length data)) ++ bitsOf data), (out ++ data).
  split; [|split; [|split; assumption]].
  - apply bl_stored; [rewrite length_lsb; exact Hcnt| |exact Hd|lia]. rewrite length_lsb. unfold offset.
    replace (8 * rpos r - rcount r + rcount r)%nat with (rpos r * 8)%nat by lia. apply Nat.mod_mul. lia.
  - replace (N.of_nat (length data)) with len by lia. rewrite Hcom. repeat (eapply adv_trans; [eassumption|]). exact A3.
Qed.
Lemma storedBlock_complete r o pre out bs out' rest : block (offset r) out bs 0 out' -> rok r -> rep o pre out -> bytesN (pre ++ out') <= cap o ->
  rbitsOf r = bs ++ rest ->
  exists r' o', decodeStoredBlock r o = Ok (r', o') /\ adv r r' bs /\ rep o' pre out' /\ sameKind o o'.
Proof.
  intros Hb Hr Ho Hroom E. inversion Hb as [? ? pad data Hpad Hmod Hd Hlen| |]; subst; clear Hb.
  unfold decodeStoredBlock. destruct (align_adv r Hr) as (A0 & Hc0 & Hp0). pose proof Hr as (Hoct & Hpos & Hcnt & Hbits & Hq).
  assert (Hpl : length pad = rcount r).
  { unfold offset in Hmod. apply Nat.mod_divides in Hmod; [|lia]. destruct Hmod as (q & Hmod). lia. }
  rewrite <- !app_assoc in E. pose proof (proj1 (proj2 A0)) as E0. rewrite E in E0. apply app_eq_len in E0; [|rewrite length_lsb; exact Hpl].
  destruct E0 as [Ep F0]. symmetry in F0.
  destruct (read_complete 16 _ (N.of_nat (length data)) _ (adv_rok _ _ _ A0) ltac:(lia) ltac:(change (2 ^ N.of_nat 16) with 65536; lia) F0) as (r1 & E1 & A1). rewrite E1. cbn [bind]. pose proof (adv_rest _ _ _ _ A1 F0) as F1.
  destruct (read_complete 16 _ (65535 - N.of_nat (length data)) _ (adv_rok _ _ _ A1) ltac:(lia) ltac:(change (2 ^ N.of_nat 16) with 65536; lia) F1) as (r2 & E2 & A2). rewrite E2. cbn [bind]. pose proof (adv_rest _ _ _ _ A2 F1) as F2.
  rewrite !tr_small by (change (2 ^ 16) with 65536; lia). rewrite N.eqb_refl. cbn [negb]. rewrite Nat2N.id.
  destruct (stored_complete data r2 o pre out rest Hd (adv_rok _ _ _ A2) Ho Hroom F2) as (r' & o' & E3 & A3 & Hp & Hk).
  exists r', o'. split; [exact E3|]. split; [|split; assumption]. rewrite Ep. repeat (eapply adv_trans; [eassumption|]). exact A3.
Qed.

(** * The block loop *)
Lemma oneBlock_sound r o pre out (k : N) : rok r -> rep o pre out ->
  match (if k =? 0 then decodeStoredBlock r o
         else if k =? 1 then
           let* ld := kFixedLiteralDecoder in let* dd := kFixedDistanceDecoder in
           decodeCompressedBlock (S (available r)) ld dd r o
         else if k =? 2 then decodeDynamicBlock r o
         else Err invalidBlockType) with
  | Ok (r', o') => exists bs out', block (offset r) out bs k out' /\ adv r r' bs /\ rep o' pre out' /\ sameKind o o'
  | Err _ => True | _ => False end.
Proof.
  intros Hr Ho. destruct (N.eqb_spec k 0) as [->|H0]; [apply storedBlock_sound; assumption|].
  destruct (N.eqb_spec k 1) as [->|H1].
  - destruct fixedDecoders as (ld & dd & E1 & E2 & Hl & Hd). rewrite E1, E2. cbn [bind].
    pose proof (dcb_sound _ _ ld dd Hl Hd (S (available r)) r o pre out Hr Ho) as H. rewrite length_rbits in H by apply Hr. specialize (H ltac:(lia)).
    destruct (decodeCompressedBlock (S (available r)) ld dd r o) as [[r' o']|e| |]; try exact H.
    destruct H as (ts & bs & out' & Hb & Hx & Ha & Hp & Hk). exists bs, out'. split; [econstructor; eassumption|]. auto.
  - destruct (N.eqb_spec k 2) as [->|H2]; [apply dyn_sound; assumption|exact I].
Qed.
Lemma oneBlock_complete r o pre out bs k out' rest : block (offset r) out bs k out' -> rok r -> rep o pre out -> bytesN (pre ++ out') <= cap o ->
  rbitsOf r = bs ++ rest ->
  exists r' o', (if k =? 0 then decodeStoredBlock r o
         else if k =? 1 then
           let* ld := kFixedLiteralDecoder in let* dd := kFixedDistanceDecoder in
           decodeCompressedBlock (S (available r)) ld dd r o
         else if k =? 2 then decodeDynamicBlock r o
         else Err invalidBlockType) = Ok (r', o') /\ adv r r' bs /\ rep o' pre out' /\ sameKind o o'.
Proof.
  intros Hb Hr Ho Hroom E. assert (Hk : k = 0 \/ k = 1 \/ k = 2) by (inversion Hb; auto). destruct Hk as [ -> | [ -> | -> ] ].
  - eapply storedBlock_complete; eassumption.
  - inversion Hb as [|? ? ts ? ? Hbody Hx|]; subst. change (1 =? 0) with false. change (1 =? 1) with true. cbn iota.
    destruct fixedDecoders as (ld & dd & E1 & E2 & Hl & Hd). rewrite E1, E2. cbn [bind].
    eapply dcb_complete; try eassumption. rewrite length_rbits by apply Hr. lia.
  - eapply dyn_complete; eassumption.
Qed.
Lemma blocks_len off out bs out' : blocks off out bs out' -> (length out <= length out')%nat.
Proof.
  assert (Hb : forall off out bs k out', block off out bs k out' -> (length out <= length out')%nat).
  { intros ? ? ? ? ? H. inversion H; subst; [rewrite app_length; lia|eapply expand_len; eassumption|eapply expand_len; eassumption]. }
  induction 1 as [? ? ? ? ? H|? ? ? ? ? ? ? H1 H2 IH]; [eapply Hb, H|]. apply Hb in H1. lia.
Qed.
Lemma decodeBlocks_sound fuel : forall r o pre out, rok r -> rep o pre out -> (length (rbitsOf r) < fuel)%nat ->
  match decodeBlocks fuel r o with
  | Ok (r', o') => exists bs out', blocks (offset r) out bs out' /\ adv r r' bs /\ rep o' pre out' /\ sameKind o o'
  | Err _ => True | _ => False end.
Proof.
  induction fuel as [|fuel IH]; intros r o pre out Hr Ho Hf; [lia|]. cbn [decodeBlocks].
  pose proof (read_sound 1 r Hr ltac:(lia)) as H1. destruct (readBits 1 r) as [[f r1]|e| |]; cbn [bind]; try contradiction; [|exact I]. destruct H1 as [B1 A1].
  pose proof (read_sound 2 _ (adv_rok _ _ _ A1) ltac:(lia)) as H2. destruct (readBits 2 r1) as [[k r2]|e| |]; cbn [bind]; try contradiction; [|exact I]. destruct H2 as [B2 A2].
  change (2 ^ N.of_nat 1) with 2 in *.
  pose proof (oneBlock_sound r2 o pre out k (adv_rok _ _ _ A2) Ho) as H3.
  match goal with |- context [bind ?x _] => destruct x as [[r3 o3]|e| |] end; cbn [bind]; try contradiction; [|exact I].
  destruct H3 as (bs & out1 & Hb & A3 & Hp & Hk).
  assert (Eoff : offset r2 = (offset r + 3)%nat).
  { pose proof (proj2 (proj2 (proj2 A1))) as O1. pose proof (proj2 (proj2 (proj2 A2))) as O2. rewrite length_lsb in *. lia. }
  rewrite Eoff in Hb. pose proof (adv_len _ _ _ A1) as L1. pose proof (adv_len _ _ _ A2) as L2. pose proof (adv_len _ _ _ A3) as L3. rewrite length_lsb in *.
  destruct (N.eqb_spec f 0) as [->|Hf0].
  - specialize (IH r3 o3 pre out1 (adv_rok _ _ _ A3) Hp ltac:(lia)). destruct (decodeBlocks fuel r3 o3) as [[r' o']|e| |]; try exact IH.
    destruct IH as (bs' & out' & Hbs & A4 & Hp' & Hk'). exists (lsb 1 0 ++ lsb 2 k ++ bs ++ bs'), out'.
    split; [|split; [repeat (eapply adv_trans; [eassumption|]); exact A4|split; [exact Hp'|eapply sameKind_trans; eassumption]]].
    apply bs_more with (out1 := out1); [exact Hb|]. pose proof (proj2 (proj2 (proj2 A3))) as O3. rewrite O3, Eoff in Hbs. exact Hbs.
  - replace f with 1 in A1 by lia. exists (lsb 1 1 ++ lsb 2 k ++ bs), out1.
    split; [constructor; exact Hb|]. split; [repeat (eapply adv_trans; [eassumption|]); exact A3|auto].
Qed.
Lemma block_kind off out bs k out' : block off out bs k out' -> k < 4.
Proof. intros H. inversion H; lia. Qed.
Lemma decodeBlocks_complete off out bs out' : blocks off out bs out' ->
  forall fuel r o pre rest, off = offset r -> rok r -> rep o pre out -> bytesN (pre ++ out') <= cap o -> rbitsOf r = bs ++ rest -> (length (rbitsOf r) < fuel)%nat ->
  exists r' o', decodeBlocks fuel r o = Ok (r', o') /\ adv r r' bs /\ rep o' pre out' /\ sameKind o o'.
Proof.
  induction 1 as [off out k bs out' Hb|off out k bs out1 bs' out' Hb Hbs IH]; intros fuel r o pre rest Hoff Hr Ho Hroom E Hf;
    (destruct fuel as [|fuel]; [lia|]); cbn [decodeBlocks]; rewrite <- !app_assoc in E; pose proof (block_kind _ _ _ _ _ Hb) as Hk4.
  - destruct (read_complete 1 r 1 _ Hr ltac:(lia) ltac:(reflexivity) E) as (r1 & E1 & A1). rewrite E1. cbn [bind]. pose proof (adv_rest _ _ _ _ A1 E) as F1.
    destruct (read_complete 2 r1 k _ (adv_rok _ _ _ A1) ltac:(lia) ltac:(change (2 ^ N.of_nat 2) with 4; lia) F1) as (r2 & E2 & A2). rewrite E2. cbn [bind]. pose proof (adv_rest _ _ _ _ A2 F1) as F2.
    assert (Eoff : offset r2 = (off + 3)%nat).
    { pose proof (proj2 (proj2 (proj2 A1))) as O1. pose proof (proj2 (proj2 (proj2 A2))) as O2. rewrite length_lsb in *. lia. }
    rewrite <- Eoff in Hb. destruct (oneBlock_complete r2 o pre out bs k out' rest Hb (adv_rok _ _ _ A2) Ho Hroom F2) as (r3 & o3 & E3 & A3 & Hp & Hk).
    rewrite E3. cbn [bind]. exists r3, o3. split; [reflexivity|]. split; [repeat (eapply adv_trans; [eassumption|]); exact A3|auto].
  - destruct (read_complete 1 r 0 _ Hr ltac:(lia) ltac:(reflexivity) E) as (r1 & E1 & A1). rewrite E1. cbn [bind]. pose proof (adv_rest _ _ _ _ A1 E) as F1.
    destruct (read_complete 2 r1 k _ (adv_rok _ _ _ A1) ltac:(lia) ltac:(change (2 ^ N.of_nat 2) with 4; lia) F1) as (r2 & E2 & A2). rewrite E2. cbn [bind]. pose proof (adv_rest _ _ _ _ A2 F1) as F2.
    assert (Eoff : offset r2 = (off + 3)%nat).
    { pose proof (proj2 (proj2 (proj2 A1))) as O1. pose proof (proj2 (proj2 (proj2 A2))) as O2. rewrite length_lsb in *. lia. }
    pose proof (blocks_len _ _ _ _ Hbs) as Hlen.
    rewrite <- Eoff in Hb. destruct (oneBlock_complete r2 o pre out bs k out1 (bs' ++ rest) Hb (adv_rok _ _ _ A2) Ho) as (r3 & o3 & E3 & A3 & Hp & Hk).
    { unfold bytesN in *. rewrite app_length in *. lia. }
    { exact F2. }
    rewrite E3. cbn [bind]. change (0 =? 0) with true. cbn iota.
    pose proof (adv_len _ _ _ A1) as L1. pose proof (adv_len _ _ _ A2) as L2. pose proof (adv_len _ _ _ A3) as L3. rewrite length_lsb in *.
    destruct (IH fuel r3 o3 pre rest) as (r' & o' & E4 & A4 & Hp' & Hk').
    + pose proof (proj2 (proj2 (proj2 A3))) as O3. lia.
    + exact (adv_rok _ _ _ A3).
    + exact Hp.
    + rewrite (proj1 Hk). exact Hroom.
    + eapply adv_rest; eassumption.
    + lia.
    + exists r', o'. split; [exact E4|]. split; [repeat (eapply adv_trans; [eassumption|]); exact A4|]. split; [exact Hp'|eapply sameKind_trans; eassumption].
Qed.

(** * Whole streams *)
Definition start (input : list N) : BitReader := {| rinput := input; rpos := 0; rbits := 0; rcount := 0 |}.
Lemma start_ok input : octets input -> rok (start input) /\ rbitsOf (start input) = bitsOf input /\ offset (start input) = 0%nat.
Proof. intros H. split; [|split; reflexivity]. unfold rok, start; cbn. repeat split; try lia. exact H. Qed.

Lemma blocks_nonempty off out bs out' : blocks off out bs out' -> (3 <= length bs)%nat.
Proof. destruct 1; rewrite !app_length, !length_lsb; lia. Qed.
Lemma consumed_bytes input r' bs : octets input -> adv (start input) r' bs ->
  (rpos (alignReader r') <= length input)%nat /\ exists pad, bitsOf (firstn (rpos (alignReader r')) input) = bs ++ pad /\ (length pad < 8)%nat.
Proof.
  intros Hi (Hr & Hb & Hin & Hof). destruct (start_ok input Hi) as (_ & Hs & Ho). rewrite Hs in Hb. rewrite Ho in Hof.
  cbn [start rinput] in Hin. pose proof Hr as (H1 & H2 & H3 & H4 & H5). destruct (alignReader_spec r' Hr) as (_ & _ & _ & Hp & _). rewrite Hp.
  split; [congruence|]. exists (lsb (rcount r') (rbits r')). split; [|rewrite length_lsb; exact H3].
  rewrite <- (firstn_skipn (rpos r') input), bitsOf_app in Hb at 1. unfold rbitsOf in Hb. rewrite Hin, app_assoc in Hb.
  apply app_inv_tail in Hb. exact Hb.
Qed.
Theorem decodeDeflate_sound input o pre out : octets input -> rep o pre out ->
  match decodeDeflate input o with
  | Ok (n, o') => (n <= length input)%nat /\ exists data, Deflate (firstn n input) data /\ rep o' (pre ++ out) data /\ sameKind o o'
  | Err _ => True | _ => False end.
Proof.
  intros Hi Ho. unfold decodeDeflate. fold (start input). destruct (start_ok input Hi) as (Hr & Hs & Hof). destruct (rep_reset o pre out Ho) as [Ho' Hk].
  pose proof (decodeBlocks_sound (S (available (start input))) (start input) (resetHistory o) (pre ++ out) [] Hr Ho') as H.
  rewrite length_rbits in H by apply Hr. specialize (H ltac:(lia)).
  destruct (decodeBlocks (S (available (start input))) (start input) (resetHistory o)) as [[r' o']|e| |]; cbn [bind]; try exact H.
  destruct H as (bs & data & Hb & Ha & Hp & Hk'). destruct (consumed_bytes input r' bs Hi Ha) as (Hn & pad & Hpad & Hl).
  split; [exact Hn|]. exists data. split; [|split; [exact Hp|eapply sameKind_trans; eassumption]]. exists bs, pad. rewrite Hof in Hb. auto.
Qed.
Theorem decodeDeflate_complete input n data o pre out : octets input -> (n <= length input)%nat -> Deflate (firstn n input) data -> rep o pre out ->
  bytesN (pre ++ out ++ data) <= cap o ->
  exists o', decodeDeflate input o = Ok (n, o') /\ rep o' (pre ++ out) data /\ sameKind o o'.
Proof.
  intros Hi Hn (bs & pad & Hb & Hl & Hbs) Ho Hroom. unfold decodeDeflate. fold (start input).
  destruct (start_ok input Hi) as (Hr & Hs & Hof). destruct (rep_reset o pre out Ho) as [Ho' Hk].
  assert (E : rbitsOf (start input) = bs ++ (pad ++ bitsOf (skipn n input))).
  { rewrite Hs, app_assoc, <- Hb, <- bitsOf_app, firstn_skipn. reflexivity. }
  assert (Hroom' : bytesN ((pre ++ out) ++ data) <= cap (resetHistory o)) by (rewrite (proj1 Hk), <- app_assoc; exact Hroom).
  assert (Hfu : (length (rbitsOf (start input)) < S (available (start input)))%nat) by (rewrite length_rbits by apply Hr; lia).
  destruct (decodeBlocks_complete _ _ _ _ Hbs (S (available (start input))) (start input) (resetHistory o) (pre ++ out) _ (eq_sym Hof) Hr Ho' Hroom' E Hfu)
    as (r' & o' & E' & Ha & Hp & Hk').
  rewrite E'. cbn [bind]. exists o'. split; [|split; [exact Hp|eapply sameKind_trans; eassumption]].
  destruct (consumed_bytes input r' bs Hi Ha) as (Hn' & pad' & Hpad' & Hl').
  apply (f_equal (@length bool)) in Hb. apply (f_equal (@length bool)) in Hpad'. rewrite length_bitsOf, app_length, firstn_length in *.
  do 2 f_equal. lia.
Qed.
