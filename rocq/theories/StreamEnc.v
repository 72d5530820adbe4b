(** The streaming compressor: its blocks make one stream; its calls queue the same blocks however they are cut. *)
From Coq Require Import List NArith Arith Bool Lia ZifyBool ZifyNat ZifyN.
From Verif Require Import Base CompModel CompSpec CompBits CompDec CompWrap CompTop CompTok CompEnc CompOut CompBlk StreamModel StreamRd StreamOut StreamEncModel.
Import ListNotations.
Local Open Scope N_scope.

(** * Appending to what the writer already holds *)
Lemma drainBits_app a : forall fuel o b n,
  drainBits fuel {| wout := a ++ o; wbits := b; wcount := n |} =
  let w := drainBits fuel {| wout := o; wbits := b; wcount := n |} in {| wout := a ++ wout w; wbits := wbits w; wcount := wcount w |}.
Proof.
  induction fuel as [|k IH]; intros o b n; cbn [drainBits wout wbits wcount]; [reflexivity|].
  destruct (8 <=? n)%nat; [|reflexivity]. rewrite <- app_assoc. apply IH.
Qed.
Lemma execOp_app a o b n x :
  execOp {| wout := a ++ o; wbits := b; wcount := n |} x =
  let w := execOp {| wout := o; wbits := b; wcount := n |} x in {| wout := a ++ wout w; wbits := wbits w; wcount := wcount w |}.
Proof.
  destruct x; cbn [execOp wout wbits wcount].
  - apply drainBits_app.
  - destruct (n =? 0)%nat; cbn [wout wbits wcount]; rewrite <- ?app_assoc; reflexivity.
  - cbn zeta. cbn [wout wbits wcount]. rewrite <- app_assoc. reflexivity.
Qed.
Lemma exec_app a ops : forall o b n,
  exec {| wout := a ++ o; wbits := b; wcount := n |} ops =
  let w := exec {| wout := o; wbits := b; wcount := n |} ops in {| wout := a ++ wout w; wbits := wbits w; wcount := wcount w |}.
Proof.
  induction ops as [|x ops IH]; intros o b n; [reflexivity|]. change (exec ?w (x :: ops)) with (exec (execOp w x) ops).
  rewrite execOp_app. cbn zeta. rewrite IH. destruct (execOp {| wout := o; wbits := b; wcount := n |} x); reflexivity.
Qed.
(** * Matches into bytes before the window *)
Lemma lzCopy_prefix p : forall n d out, (1 <= d)%nat -> (d <= length out)%nat -> lzCopy n d (p ++ out) = p ++ lzCopy n d out.
Proof.
  induction n as [|n IH]; intros d out H1 H2; cbn [lzCopy]; [reflexivity|].
  replace (length (p ++ out) - d)%nat with (length p + (length out - d))%nat by (rewrite app_length; lia).
  rewrite app_nth2_plus, <- app_assoc. apply IH; [exact H1|]. rewrite app_length. cbn [length]. lia.
Qed.
Lemma expand_prefix p a ts b : expand a ts b -> expand (p ++ a) ts (p ++ b).
Proof.
  induction 1 as [out|out x ts res _ IH|out len dist ts res H1 H2 _ IH].
  - constructor.
  - constructor. rewrite <- app_assoc. exact IH.
  - constructor; [exact H1|rewrite app_length; lia|]. rewrite lzCopy_prefix by lia. exact IH.
Qed.

(** * Blocks *)
(** * Size of one block *)
Definition plainOp (o : op) : Prop := match o with WBits _ _ => True | _ => False end.
Lemma plain_length ops : Forall plainOp ops -> forall a b, length (sbits a ops) = length (sbits b ops).
Proof.
  induction 1 as [|o ops Ho _ IH]; intros a b; [reflexivity|]. destruct o; try contradiction. cbn [sbits sem]. rewrite !app_length, !length_lsb. f_equal. apply IH.
Qed.
Lemma plain_flat {A} (g : A -> list op) l : (forall x, Forall plainOp (g x)) -> Forall plainOp (flat_map g l).
Proof. intros H. induction l; [constructor|]. cbn [flat_map]. apply Forall_app. auto. Qed.
Lemma plain_fixed ts : Forall plainOp (emitTokensFixed ts).
Proof.
  unfold emitTokensFixed. apply Forall_app. split; [|repeat constructor]. apply plain_flat. intros t. unfold emitTokenFixed. destruct (isLiteral t); repeat constructor.
Qed.
Lemma plain_dynamic ts c : Forall plainOp (emitTokensDynamic ts c).
Proof.
  unfold emitTokensDynamic. apply Forall_app. split; [|repeat constructor]. apply plain_flat. intros t. unfold emitTokenDynamic. destruct (isLiteral t); repeat constructor.
Qed.
Lemma counted_bits ops (final : bool) off : Forall plainOp ops -> let o := ops ++ (if final then [WAlign] else []) in
  N.of_nat (length (sbits off o)) <= 8 * countedSize o + 7.
Proof.
  intros H. cbn zeta. rewrite countedSize_sem, !sbits_app, !app_length, (plain_length ops H off 0). rewrite Nat.add_0_l. set (k := length (sbits 0 ops)).
  assert (Hdiv : forall n : nat, N.of_nat n <= 8 * (N.of_nat n / 8) + 7) by (intros n; pose proof (N.div_mod (N.of_nat n) 8 ltac:(discriminate)); pose proof (N.mod_lt (N.of_nat n) 8 ltac:(discriminate)); lia).
  destruct final; [|cbn [sbits length]; rewrite Nat.add_0_r; apply Hdiv].
  cbn [sbits sem]. rewrite !app_nil_r, !repeat_length. destruct (padOf_spec (off + k)) as [P1 P2]. destruct (padOf_spec k) as [P3 P4].
  assert (E : N.of_nat (k + padOf k) = 8 * (N.of_nat (k + padOf k) / 8)).
  { pose proof (N.div_mod (N.of_nat (k + padOf k)) 8 ltac:(discriminate)) as D. change 8 with (N.of_nat 8) in D at 3. rewrite <- Nat2N.inj_mod, P4 in D. lia. }
  lia.
Qed.
Lemma block_size P ts final off : octets P -> bytesN P <= 65535 ->
  (length (sbits off (emitDeflate P ts (makeDynamicCoding ts) (selectEncoding (bytesN P) ts (makeDynamicCoding ts) final) final)) <= 8 * length P + 47)%nat.
Proof.
  intros Ho Hl. generalize (makeDynamicCoding ts). intros c.
  assert (Hfix : N.of_nat (length (sbits off (emitFixedDeflate ts final))) <= 8 * countedSize (emitFixedDeflate ts final) + 7).
  { unfold emitFixedDeflate. rewrite app_assoc. apply counted_bits. apply Forall_app. split; [repeat constructor|apply plain_fixed]. }
  assert (Hdyn : N.of_nat (length (sbits off (emitDynamicDeflate ts c final))) <= 8 * countedSize (emitDynamicDeflate ts c final) + 7).
  { unfold emitDynamicDeflate. rewrite !app_assoc. apply counted_bits. apply Forall_app. split; [|apply plain_dynamic]. apply Forall_app. split; [apply Forall_app; split; [repeat constructor|]|].
    - generalize (seq 0 (dclCount c)). intros l. induction l; cbn [map]; constructor; [exact I|assumption].
    - apply plain_flat. intros t. repeat constructor. }
  unfold selectEncoding. rewrite (storedCount_one _ Hl). destruct (N.ltb_spec (bytesN P + 5 * 1) (N.min (countedSize (emitFixedDeflate ts final)) (countedSize (emitDynamicDeflate ts c final)))) as [H|H].
  - cbn [emitDeflate]. clear Hfix Hdyn H. unfold emitStoredDeflate. cbn [emitStored]. unfold kMaxStoredBlock. rewrite N.min_l by exact Hl. rewrite N.eqb_refl.
    rewrite (tr_small 16 (bytesN P)) by (change (2 ^ 16) with 65536; lia). unfold bytesN at 3. rewrite Nat2N.id, firstn_all. rewrite app_nil_r.
    change ([WBits (b2n (final && true)) 1; WBits 0 2; WAlign] ++ putLittle16 (bytesN P) ++ putLittle16 (65535 - bytesN P) ++ [WBytes P]) with (storedHead (final && true) (bytesN P) P).
    destruct (storedHead_spec (final && true) P off Ho ltac:(lia)) as (pad & P1 & _ & _ & P4). rewrite P4, !app_length, !length_lsb, length_bitsOf. lia.
  - unfold bytesN in *. destruct (countedSize (emitDynamicDeflate ts c final) <? countedSize (emitFixedDeflate ts final)) eqn:E; cbn [emitDeflate]; lia.
Qed.

Section Blocks.
Variables (level : Level) (B : nat).
Hypothesis HB : (1 <= B)%nat /\ N.of_nat B <= 65535.
(** The bits written so far are whole blocks for [E]; the window is a suffix of [E]. *)
Definition encOk (hdr : list N) (e : Enc) (q E : list N) : Prop :=
  exists o, q = hdr ++ o /\ let w := {| wout := o; wbits := ebits e; wcount := ecount e |} in
    wok w /\ continues 0 [] (wbitsOf w) E /\ (exists dropped, E = dropped ++ ewin e) /\
    ehist e = length (ewin e) /\ bytesN (ewin e) <= kWindowSize /\ ebase e <= eidx e <= ebase e + bytesN (ewin e).
Definition addInput (e : Enc) (l : list N) : Enc :=
  {| ewin := ewin e ++ l; ehist := ehist e; ebase := ebase e; eidx := eidx e; echains := echains e; ebits := ebits e; ecount := ecount e |}.
Lemma enc_init hdr : encOk hdr encInit hdr [].
Proof.
  exists []. rewrite app_nil_r. split; [reflexivity|]. cbn zeta. cbn [encInit ewin ehist ebase eidx ebits ecount]. split; [split; [cbn; lia|split; [cbn; lia|constructor]]|].
  split; [intros rest out2 H; exact H|]. split; [exists []; reflexivity|]. split; [reflexivity|]. unfold bytesN; cbn [length]. unfold kWindowSize. lia.
Qed.
Lemma queue_spec hdr e q E P final : encOk hdr e q E -> octets E -> octets P -> (length P <= B)%nat ->
  exists e' q', queueBlock level B (addInput e P) final q = Ok (e', q') /\
    (forall a b, q = a ++ b -> exists q2, queueBlock level B (addInput e P) final b = Ok (e', q2) /\ q' = a ++ q2) /\
    (final = false -> encOk hdr e' q' (E ++ P)) /\
    (final = true -> exists body, q' = hdr ++ body /\ octets body /\ Deflate body (E ++ P)) /\
    (8 * length q' + ecount e' <= 8 * length q + ecount e + 8 * length P + 47)%nat.
Proof.
  intros (o & -> & Hw & Hc & (dropped & Ed) & Hh & Hs & Hi) HE HP Hl. cbn zeta in *.
  unfold queueBlock. cbn [addInput ewin ehist ebase eidx echains ebits ecount].
  assert (Hg : (kWindowSize + N.of_nat B <? bytesN (ewin e ++ P)) || (eidx e <? ebase e) || (length (ewin e ++ P) <? ehist e)%nat = false).
  { rewrite Hh, app_length. unfold bytesN, kWindowSize in *. rewrite app_length.
    apply orb_false_intro; [apply orb_false_intro|]; [apply N.ltb_ge; lia|apply N.ltb_ge; lia|apply Nat.ltb_ge; lia]. }
  rewrite Hg. clear Hg. rewrite Hh. rewrite skipn_app, skipn_all, Nat.sub_diag. cbn [skipn app].
  set (r := tokenize level (ewin e ++ P) (ebase e) (eidx e - ebase e) (N.of_nat (length (ewin e))) (kWindowSize + N.of_nat B) (echains e)).
  assert (Hwin : octets (ewin e)) by (rewrite Ed in HE; apply octets_app in HE; apply HE).
  assert (HWP : octets (ewin e ++ P)) by (apply octets_app; auto).
  destruct (tokenize_spec level (ewin e ++ P) (ebase e) (eidx e - ebase e) (N.of_nat (length (ewin e))) (kWindowSize + N.of_nat B) (echains e) HWP) as (T1 & T2 & T3);
    [unfold bytesN; rewrite app_length; lia|]. cbn zeta in T1, T2, T3. fold r in T1, T2, T3.
  rewrite Nat2N.id, firstn_app, firstn_all, Nat.sub_diag in T1. cbn [firstn] in T1. rewrite app_nil_r in T1.
  apply (expand_prefix dropped) in T1. rewrite app_assoc, <- Ed in T1.
  assert (T4 : N.of_nat (length (fst r)) + 1 < 2 ^ 32).
  { change (2 ^ 32) with 4294967296. unfold bytesN in T3. rewrite app_length in T3. lia. }
  set (enc := selectEncoding (bytesN P) (fst r) (makeDynamicCoding (fst r)) final).
  set (w0 := {| wout := o; wbits := ebits e; wcount := ecount e |}) in *.
  destruct (emit_spec P E (E ++ P) (fst r) HP T2 T4 T1 eq_refl enc final (length (wbitsOf w0))) as (F1 & F2 & F3). cbn zeta in F1, F2, F3.
  set (ops := emitDeflate P (fst r) (makeDynamicCoding (fst r)) enc final) in *. destruct (exec_sem ops w0 Hw F1) as [X1 X2].
  rewrite exec_app. fold w0. cbn zeta. cbn [wout wbits wcount]. set (w' := exec w0 ops) in *.
  set (idx := ebase e + (if (2 <=? length (ewin e ++ P))%nat then bytesN (ewin e ++ P) - 2 else 0)).
  eexists. eexists. split; [reflexivity|]. split; [|split; [|split]].
  - intros a b Hab. assert (Ew : exec {| wout := a ++ b; wbits := ebits e; wcount := ecount e |} ops = {| wout := hdr ++ wout w'; wbits := wbits w'; wcount := wcount w' |}).
    { rewrite <- Hab, exec_app. fold w0. cbn zeta. fold w'. reflexivity. }
    rewrite exec_app in Ew. cbn zeta in Ew. injection Ew as E1 E2 E3. exists (wout (exec {| wout := b; wbits := ebits e; wcount := ecount e |} ops)).
    split; [|symmetry; exact E1]. rewrite E2, E3. reflexivity.
  - intros Hf. exists (wout w'). split; [reflexivity|]. cbn zeta.
    assert (Hc' : continues 0 [] (wbitsOf w0 ++ sbits (length (wbitsOf w0)) ops) (E ++ P)).
    { intros rest out2 H. rewrite <- app_assoc. apply Hc. rewrite Nat.add_0_l. apply (F3 Hf). rewrite app_length, Nat.add_0_l in H. exact H. }
    rewrite <- X2 in Hc'. unfold slideWindow. cbn [ewin ehist ebase eidx echains ebits ecount].
    assert (Ew : {| wout := wout w'; wbits := wbits w'; wcount := wcount w' |} = w') by (destruct w'; reflexivity).
    destruct (Nat.ltb_spec (N.to_nat kWindowSize) (length (ewin e ++ P))) as [Hd|Hd]; cbn [ewin ehist ebase eidx ebits ecount]; rewrite Ew; (split; [exact X1|]); (split; [exact Hc'|]).
    + split; [exists (dropped ++ firstn (length (ewin e ++ P) - N.to_nat kWindowSize) (ewin e ++ P)); rewrite Ed, <- !app_assoc, firstn_skipn; reflexivity|].
      split; [rewrite skipn_length; lia|]. unfold idx, bytesN, kWindowSize in *. rewrite skipn_length. destruct (Nat.leb_spec 2 (length (ewin e ++ P))); lia.
    + split; [exists dropped; rewrite Ed, <- app_assoc; reflexivity|]. split; [reflexivity|]. unfold idx, bytesN, kWindowSize in *. destruct (Nat.leb_spec 2 (length (ewin e ++ P))); lia.
  - intros Hf. exists (wout w'). split; [reflexivity|]. destruct (F2 Hf) as (b & pad & B1 & B2 & B3 & B4). pose proof X1 as (X3 & X4 & X5). split; [exact X5|].
    assert (Ez : wcount w' = 0%nat).
    { assert (Hlen : length (wbitsOf w') = (8 * length (wout w') + wcount w')%nat) by (unfold wbitsOf; rewrite app_length, length_bitsOf, length_lsb; reflexivity).
      rewrite X2, app_length in Hlen. rewrite Hlen in B4. rewrite Nat.mul_comm, Nat.add_comm, Nat.mod_add, Nat.mod_small in B4 by lia. exact B4. }
    exists (wbitsOf w0 ++ b), pad. split; [|split; [exact B2|]].
    + rewrite <- app_assoc, <- B1, <- X2. unfold wbitsOf. rewrite Ez. cbn [lsb seq map]. rewrite app_nil_r. reflexivity.
    + apply Hc. rewrite Nat.add_0_l. exact B3.
  - assert (Hbits : forall w, length (wbitsOf w) = (8 * length (wout w) + wcount w)%nat) by (intros w; unfold wbitsOf; rewrite app_length, length_bitsOf, length_lsb; reflexivity).
    pose proof (block_size P (fst r) final (length (wbitsOf w0)) HP ltac:(unfold bytesN; lia)) as Hsz. fold enc ops in Hsz.
    apply (f_equal (@length bool)) in X2. rewrite app_length in X2. set (k := length (sbits (length (wbitsOf w0)) ops)) in X2, Hsz. clearbody k. rewrite !Hbits in X2. rewrite !app_length.
    match goal with |- (_ + ?x <= _)%nat => assert (Ee : x = wcount w') end.
    { unfold slideWindow. cbn [ewin]. destruct (N.to_nat kWindowSize <? _)%nat; reflexivity. }
    rewrite Ee. subst w0. cbn [wout wcount] in *. lia.
Qed.
End Blocks.
Lemma framed_encodes W f level body data : octets data -> octets body -> Deflate body data ->
  Encodes f (fst (framing W data f level) ++ body ++ snd (framing W data f level)) data.
Proof.
  intros Ho Hb D5. destruct f; cbn [framing fst snd Encodes app] in *.
  - rewrite app_nil_r. exact D5.
  - assert (Ha : adler32 data < 2 ^ 32) by (rewrite adler32_spec by exact Ho; apply adlerSpec_lt).
    unfold Encodes. exists (N.shiftr (zlibHeader level) 8), (N.land (zlibHeader level) 0xff), body, (adler32 data). split; [reflexivity|]. split; [exact Ha|].
    split; [destruct level; reflexivity|]. split; [destruct level; vm_compute; discriminate|]. split; [destruct level; reflexivity|]. split; [destruct level; reflexivity|]. split; [exact D5|]. unfold adlerRight. apply adler32_spec, Ho.
  - apply gz_one. exists (gzipHeader level), body, (computeCrc32 W data). split; [reflexivity|]. split; [apply crc_lt, Ho|]. split; [|split; [exact D5|apply (crc_iff W); [exact Ho|reflexivity]]].
    exists 0, [0; 0; 0; 0; match level with fast => 4 | best => 2 | balanced => 0 end; 255], [], [], [], []. split; [destruct level; reflexivity|]. split; [reflexivity|]. repeat split; reflexivity.
Qed.

Lemma slide_pending e : pendingBytes (slideWindow e) = 0%nat.
Proof. unfold slideWindow, pendingBytes. destruct (Nat.ltb_spec (N.to_nat kWindowSize) (length (ewin e))); cbn [ewin ehist]; rewrite ?skipn_length; lia. Qed.
Lemma queue_pending level B e final q : match queueBlock level B e final q with Ok (e', _) => pendingBytes e' = 0%nat | _ => True end.
Proof. unfold queueBlock. destruct (_ || _); [exact I|]. apply slide_pending. Qed.

(** * Calls *)
Definition sumsOf (l : list N) : Sums := {| kcrc := crcOf l; kadler := adlerSums l; ksize := bytesN l mod 2 ^ 32 |}.
Lemma note_spec a b : octets a -> octets b -> noteInput (sumsOf a) b = sumsOf (a ++ b).
Proof.
  intros Ha Hb. unfold noteInput, sumsOf. cbn [kcrc kadler ksize]. rewrite crc_app, adler_app by assumption. f_equal.
  unfold tr. rewrite bytesN_app. rewrite <- N.add_mod by (apply N.pow_nonzero; discriminate). reflexivity.
Qed.
Lemma header_framing W f level data : headerBytes f level = fst (framing W data f level).
Proof. destruct f; [reflexivity|destruct level; reflexivity|destruct level; reflexivity]. Qed.
Lemma little32_le v : little32 v = le 4 v.
Proof.
  unfold little32. cbn [map le]. change 0xff with (N.ones 8). rewrite !N.land_ones, !N.shiftr_div_pow2. change (2 ^ 8) with 256. change (2 ^ 0) with 1. rewrite N.div_1_r.
  rewrite !N.div_div by discriminate. reflexivity.
Qed.
Lemma big32_le v : big32 v = rev (le 4 v).
Proof. rewrite <- little32_le. reflexivity. Qed.
Lemma trailer_framing W f level data : octets data -> trailerBytes f (sumsOf data) = snd (framing W data f level).
Proof.
  intros Ho. destruct f; cbn [trailerBytes framing snd sumsOf kcrc kadler ksize]; [reflexivity| |].
  - rewrite big32_le. do 2 f_equal. unfold adler32. rewrite updateAdler_spec by (try exact Ho; lia). reflexivity.
  - rewrite !little32_le. rewrite (crc_compute W data Ho). reflexivity.
Qed.
Lemma firstn_add {A} (l : list A) a b : firstn (a + b) l = firstn a l ++ firstn b (skipn a l).
Proof. revert l. induction a as [|a IH]; intros l; [reflexivity|]. destruct l; [rewrite skipn_nil, !firstn_nil; reflexivity|]. cbn. rewrite IH. reflexivity. Qed.
Lemma skip_more {A} (l : list A) : forall a b, skipn a (skipn b l) = skipn (b + a) l.
Proof. intros a b. revert l. induction b as [|b IH]; intros l; [reflexivity|]. destruct l; [rewrite !skipn_nil; reflexivity|apply IH]. Qed.
Lemma add_nil e : addInput e [] = e.
Proof. destruct e. unfold addInput. cbn. rewrite app_nil_r. reflexivity. Qed.
Lemma add_add e a b : addInput (addInput e a) b = addInput e (a ++ b).
Proof. unfold addInput. cbn [ewin ehist ebase eidx echains ebits ecount]. rewrite app_assoc. reflexivity. Qed.

Section Calls.
Variables (inp : list N) (f : Format) (level : Level) (B : nat).
Hypothesis Hinp : octets inp.
Hypothesis HB : (1 <= B)%nat /\ N.of_nat B <= 65535.
Let size := length inp.
(** After [j] full blocks: the encoder, and everything that was queued. *)
Inductive reach : nat -> Enc -> list N -> Prop :=
| re_0 : reach 0 encInit (headerBytes f level)
| re_S j e q e' q' : reach j e q -> (S j * B <= size)%nat ->
    queueBlock level B (addInput e (firstn B (skipn (j * B) inp))) false q = Ok (e', q') -> reach (S j) e' q'.
(** All that is queued when the rest follows as the last block. *)
Definition whole (j : nat) (q : list N) : Prop :=
  exists e q1 e' q2, reach j e q1 /\ (j * B <= size)%nat /\ (size - j * B <= B)%nat /\
    queueBlock level B (addInput e (skipn (j * B) inp)) true q1 = Ok (e', q2) /\ q = q2 ++ trailerBytes f (sumsOf inp).
Lemma octets_part a b : octets (firstn a (skipn b inp)). Proof. apply octets_firstn, octets_skipn, Hinp. Qed.
Lemma reach_ok j e q : reach j e q -> encOk (headerBytes f level) e q (firstn (j * B) inp) /\ (j * B <= size)%nat.
Proof.
  induction 1 as [|j e q e' q' _ [IH _] Hl E]; [split; [apply (enc_init B HB)|apply Nat.le_0_l]|]. split; [|exact Hl].
  destruct (queue_spec level B HB _ _ _ _ (firstn B (skipn (j * B) inp)) false IH (octets_firstn _ _ Hinp) (octets_part _ _)) as (e2 & q2 & E2 & _ & H & _ & _); [rewrite firstn_length; lia|].
  rewrite E in E2. injection E2 as -> ->. specialize (H eq_refl). rewrite <- firstn_add in H. replace (S j * B)%nat with (j * B + B)%nat by lia. exact H.
Qed.
Lemma reach_fun j : forall e q e' q', reach j e q -> reach j e' q' -> e = e' /\ q = q'.
Proof.
  induction j as [|j IH]; intros e q e' q' H H'; inversion H; subst; inversion H'; subst; [auto|].
  match goal with H1 : reach j ?e1 ?q1, H2 : reach j ?e2 ?q2 |- _ => destruct (IH _ _ _ _ H1 H2) as [-> ->] end. split; congruence.
Qed.
Lemma whole_fun j q q' : whole j q -> whole j q' -> q = q'.
Proof.
  intros (e & q1 & e' & q2 & R & _ & _ & E & ->) (e3 & q3 & e4 & q4 & R' & _ & _ & E' & ->). destruct (reach_fun _ _ _ _ _ R R') as [-> ->]. congruence.
Qed.
Lemma whole_encodes j q : whole j q -> octets q /\ Encodes f q inp.
Proof.
  intros (e & q1 & e' & q2 & R & H1 & H2 & E & ->). destruct (reach_ok _ _ _ R) as [Hok _].
  destruct (queue_spec level B HB _ _ _ _ (skipn (j * B) inp) true Hok (octets_firstn _ _ Hinp) (octets_skipn _ _ Hinp)) as (e2 & q3 & E2 & _ & _ & H & _); [rewrite skipn_length; fold size; lia|].
  rewrite E in E2. injection E2 as -> ->. destruct (H eq_refl) as (body & -> & Hb & HD). rewrite firstn_skipn in HD.
  rewrite (header_framing 1 f level inp), (trailer_framing 1 f level inp Hinp), <- app_assoc.
  split; [|apply framed_encodes; assumption]. destruct (framing_ok 1 inp f level) as (O1 & O2 & _). apply octets_app. split; [exact O1|]. apply octets_app. auto.
Qed.

(** [t] bytes of the input consumed, [out] produced by all calls so far. *)
Definition running (t : nat) (out : list N) (c : Cmp) : Prop :=
  (cfmt c = f /\ clvl c = level /\ cblock c = B) /\ (t <= size)%nat /\ csums c = sumsOf (firstn t inp) /\ (cppos c <= length (cpend c))%nat /\ cstarted c = true /\
  exists X, out = X ++ firstn (cppos c) (cpend c) /\
    (cfinal c = false -> cfinished c = false /\ exists j e, reach j e (X ++ cpend c) /\ (j * B <= t <= j * B + B)%nat /\ cenc c = addInput e (skipn (j * B) (firstn t inp))) /\
    (cfinal c = true -> t = size /\ exists j, whole j (X ++ cpend c)) /\
    (cfinished c = true -> cfinal c = true /\ cpend c = []).
Lemma drain_ok t out c room d c1 : running t out c -> drain c room = (d, c1) ->
  running t (out ++ d) c1 /\ (length d <= room)%nat /\ ((length d < room)%nat -> cpend c1 = [] /\ cppos c1 = 0%nat) /\
  cenc c1 = cenc c /\ cfinal c1 = cfinal c /\ cfinished c1 = cfinished c.
Proof.
  intros (Hp & Ht & Hs & Hpos & Hst & X & Ho & H1 & H2 & H3) E. unfold drain in E.
  assert (Hd : d = firstn (Nat.min room (length (cpend c) - cppos c)) (skipn (cppos c) (cpend c))) by (destruct (_ =? _)%nat; congruence).
  assert (Hlen : length d = Nat.min room (length (cpend c) - cppos c)) by (rewrite Hd, firstn_length, skipn_length; lia).
  assert (Hsplit : firstn (cppos c) (cpend c) ++ d = firstn (cppos c + length d) (cpend c)) by (rewrite Hlen, firstn_add, <- Hd; reflexivity).
  rewrite <- Hlen in E. destruct (Nat.eqb_spec (cppos c + length d) (length (cpend c))) as [Ee|Ee].
  - assert (c1 = setPend c [] 0) by congruence. subst c1. split; [|split; [lia|split; [auto|auto]]].
    split; [exact Hp|]. split; [exact Ht|]. split; [exact Hs|]. split; [apply Nat.le_0_l|]. split; [exact Hst|]. exists (X ++ cpend c).
    cbn [setPend cppos cpend cfinal cfinished cenc firstn]. rewrite Ho, <- !app_assoc, Hsplit, Ee, firstn_all. rewrite !app_nil_r. split; [reflexivity|]. split; [exact H1|]. split; [exact H2|].
    intros Hf. split; [apply H3, Hf|reflexivity].
  - assert (c1 = setPend c (cpend c) (cppos c + length d)) by congruence. subst c1. split; [|split; [lia|split; [intros; exfalso; lia|auto]]].
    split; [exact Hp|]. split; [exact Ht|]. split; [exact Hs|]. split; [cbn [setPend cppos cpend]; lia|]. split; [exact Hst|]. exists X.
    cbn [setPend cppos cpend cfinal cfinished cenc]. rewrite Ho, <- app_assoc, Hsplit. auto.
Qed.
Definition cmeas (c : Cmp) (input : list N) (used : nat) : nat := (2 * (length input - used) + pendingBytes (cenc c) + (if cfinal c then 0 else 1))%nat.
Definition cloopOk (cur : nat) (p0 input : list N) (room : nat) (fin : bool) (x : res (Cmp * nat * list N)) : Prop :=
  exists c' used' out', x = Ok (c', used', out') /\ running (cur + used') (p0 ++ out') c' /\ (used' <= length input)%nat /\ (length out' <= room)%nat /\
    (length out' = room \/ (used' = length input /\ cpend c' = [] /\ cfinished c' = fin \/ cfinished c' = true)).
Lemma pend_add e P q E : encOk q e E P -> forall l, pendingBytes (addInput e l) = length l.
Proof. intros (o & _ & _ & _ & _ & Hh & _) l. unfold pendingBytes, addInput. cbn [ewin ehist]. rewrite app_length. lia. Qed.
Lemma part_len a b : (a <= b)%nat -> (b <= size)%nat -> length (skipn a (firstn b inp)) = (b - a)%nat.
Proof. intros H1 H2. rewrite skipn_length, firstn_length. fold size. lia. Qed.

Section Call.
Variables (cur n room : nat) (fin : bool) (p0 : list N).
Let input := firstn n (skipn cur inp).
Hypothesis Hcur : (cur <= size)%nat.
Hypothesis Hfin : fin = true -> (size <= cur + n)%nat.
Lemma input_len : (cur + length input <= size)%nat.
Proof. unfold input. rewrite firstn_length, skipn_length. fold size. lia. Qed.
Lemma input_end : fin = true -> (cur + length input = size)%nat.
Proof. intros H. specialize (Hfin H). unfold input. rewrite firstn_length, skipn_length. fold size. lia. Qed.
(** Queue the last block. *)
Lemma last_ok t X c j e : (t = size)%nat -> cfmt c = f -> clvl c = level -> cblock c = B -> csums c = sumsOf (firstn t inp) -> cstarted c = true ->
  cpend c = [] -> cppos c = 0%nat -> cfinished c = false -> reach j e X -> (j * B <= t <= j * B + B)%nat -> cenc c = addInput e (skipn (j * B) (firstn t inp)) ->
  exists e' p, queueBlock (clvl c) (cblock c) (cenc c) true (cpend c) = Ok (e', p) /\
    running t X (setFlags3 (setPend (setEnc c e') (p ++ trailerBytes (cfmt c) (csums c)) (cppos c)) (cstarted c) true (cfinished c)).
Proof.
  intros Et E1 E2 E3 E4 E5 E6 E7 E8 R Hj Ee. destruct (reach_ok _ _ _ R) as [Hok _].
  destruct (queue_spec level B HB _ _ _ _ (skipn (j * B) (firstn t inp)) true Hok (octets_firstn _ _ Hinp)) as (e' & q' & Q1 & Q2 & _ & _).
  { apply octets_skipn, octets_firstn, Hinp. } { rewrite part_len by lia. lia. }
  destruct (Q2 X []) as (p & Q3 & Q4); [rewrite app_nil_r; reflexivity|]. exists e', p. rewrite E2, E3, Ee, E6. split; [exact Q3|].
  split; [auto|]. split; [lia|]. split; [exact E4|]. split; [rewrite E7; apply Nat.le_0_l|]. split; [exact E5|]. exists X.
  cbn [setFlags3 setPend setEnc cppos cpend cfinal cfinished cenc]. rewrite E7. cbn [firstn]. rewrite app_nil_r. split; [reflexivity|]. split; [discriminate|]. split; [|rewrite E8; discriminate].
  intros _. split; [exact Et|]. exists j, e, X, e', q'. split; [exact R|]. split; [lia|]. split; [lia|]. subst t. rewrite firstn_all2 in Q1 by (fold size; lia). split; [exact Q1|].
  rewrite E4, Q4, app_assoc, E1. rewrite firstn_all2 by (fold size; lia). reflexivity.
Qed.
Lemma cloop_ok : forall fuel c used out, running (cur + used) (p0 ++ out) c -> cfinished c = false -> (used <= length input)%nat -> (length out <= room)%nat ->
  (cmeas c input used < fuel)%nat -> cloopOk cur p0 input room fin (cloop fuel c input room fin used out).
Proof.
  pose proof input_len as Hil. pose proof input_end as Hie.
  induction fuel as [|k IH]; intros c used out Hr Hnf Hu Hro Hm; [lia|]. cbn [cloop]. destruct (drain c (room - length out)) as [d c1] eqn:Ed.
  destruct (drain_ok _ _ _ _ _ _ Hr Ed) as (Hr1 & Hd1 & Hd2 & Hd3 & Hd4 & Hd5). clear Hr Ed. rewrite <- app_assoc in Hr1.
  assert (Hm1 : (cmeas c1 input used < S k)%nat) by (unfold cmeas in *; rewrite Hd3, Hd4; exact Hm). clear Hm.
  set (out1 := out ++ d) in *. assert (Hl1 : (length out1 = length out + length d)%nat) by (unfold out1; apply app_length).
  destruct (Nat.eqb_spec (length out1) room) as [Er|Er].
  { exists c1, used, out1. split; [reflexivity|]. split; [exact Hr1|]. split; [exact Hu|]. split; [lia|]. left. exact Er. }
  destruct (Hd2 ltac:(lia)) as [Hp0 Hpp]. clear Hd2. assert (Hro1 : (length out1 <= room)%nat) by lia. rewrite <- Hd5 in Hnf. clear Hd1 Hd3 Hd4 Hd5 Hl1. clearbody out1.
  pose proof Hr1 as ((F1 & F2 & F3) & Ht & Hs & Hpos & Hst & X & Ho & H1 & H2 & H3). rewrite Hp0, Hpp in *. cbn [firstn] in Ho. rewrite !app_nil_r in *.
  destruct (cfinal c1) eqn:Ef.
  { cbn [length Nat.eqb]. exists (setFlags3 c1 (cstarted c1) true true), used, out1. split; [reflexivity|]. split; [|split; [exact Hu|split; [lia|]]].
    - split; [auto|]. split; [exact Ht|]. split; [exact Hs|]. cbn [setFlags3 cppos cpend cstarted cfinal cfinished]. rewrite Hp0, Hpp. split; [cbn; lia|]. split; [exact Hst|].
      exists X. cbn [firstn]. rewrite app_nil_r. split; [exact Ho|]. split; [discriminate|]. split; [intros _; apply H2; reflexivity|auto].
    - right. right. reflexivity. }
  destruct (H1 eq_refl) as (_ & j & e & R & Hj & He). destruct (reach_ok _ _ _ R) as [Hok Hjs]. pose proof (pend_add _ _ _ _ Hok) as Hpa.
  assert (HpB : pendingBytes (cenc c1) = (cur + used - j * B)%nat) by (rewrite He, Hpa, part_len by lia; reflexivity).
  rewrite F3, HpB.
  destruct (Nat.eqb_spec (cur + used - j * B) B) as [Eb|Eb].
  - destruct (fin && (used =? length input)%nat) eqn:Efb.
    + apply andb_prop in Efb. destruct Efb as [Ef1 Ef2]. apply Nat.eqb_eq in Ef2. pose proof (Hie Ef1) as Hend.
      destruct (last_ok (cur + used) X c1 j e ltac:(lia) F1 F2 F3 Hs Hst Hp0 Hpp Hnf R Hj He) as (e' & p & Q1 & Q2). rewrite F3, Hp0 in Q1. rewrite Hpp in Q2. rewrite ?Hp0. rewrite Q1. cbn [bind].
      apply IH; [rewrite Ho; exact Q2|exact Hnf|exact Hu|exact Hro1|]. unfold cmeas in *. cbn [setFlags3 setPend setEnc cenc cfinal] in *. rewrite Ef, HpB in Hm1.
      assert (Hz : (pendingBytes e' = 0)%nat).
      { pose proof (queue_pending (clvl c1) B (cenc c1) true []) as Hz. rewrite Q1 in Hz. exact Hz. }
      rewrite Hz. lia.
    + destruct (queue_spec level B HB _ _ _ _ (firstn B (skipn (j * B) inp)) false Hok (octets_firstn _ _ Hinp) (octets_part _ _)) as (e' & q' & Q1 & Q2 & Q5 & _); [rewrite firstn_length; lia|].
      destruct (Q2 X []) as (p & Q3 & Q4); [rewrite app_nil_r; reflexivity|].
      assert (Ech : skipn (j * B) (firstn (cur + used) inp) = firstn B (skipn (j * B) inp)).
      { replace (cur + used)%nat with (j * B + B)%nat by lia. rewrite firstn_add, skipn_app, skipn_all2 by (rewrite firstn_length; lia). rewrite firstn_length. fold size.
        replace (j * B - Nat.min (j * B) size)%nat with 0%nat by lia. reflexivity. }
      rewrite He, Ech, F2. rewrite Q3. cbn [bind].
      assert (R' : reach (S j) e' (X ++ p)) by (rewrite <- Q4; eapply re_S; [exact R|lia|exact Q1]).
      assert (Hz : pendingBytes e' = 0%nat).
      { pose proof (pend_add _ _ _ _ (proj1 (reach_ok _ _ _ R')) []) as Hz. rewrite add_nil in Hz. exact Hz. }
      apply IH; [|exact Hnf|exact Hu|exact Hro1|unfold cmeas in *; cbn [setPend setEnc cenc cfinal] in *; rewrite Ef, HpB in Hm1; rewrite Ef, Hz; lia].
      split; [auto|]. split; [exact Ht|]. split; [exact Hs|]. cbn [setPend setEnc cppos cpend cstarted cfinal cfinished cenc]. split; [lia|]. split; [exact Hst|].
      exists X. cbn [firstn]. rewrite app_nil_r. split; [exact Ho|]. split; [|rewrite Ef, Hnf; split; discriminate]. intros _. split; [exact Hnf|]. exists (S j), e'. split; [exact R'|]. split; [lia|].
      rewrite skipn_all2 by (rewrite firstn_length; lia). rewrite add_nil. reflexivity.
  - destruct (Nat.ltb_spec used (length input)) as [Hlt|Hlt].
    + set (count := Nat.min (length input - used) (B - (cur + used - j * B))). assert (Hc : (1 <= count)%nat) by (unfold count; lia). assert (Hc2 : (used + count <= length input)%nat) by (unfold count; lia).
      assert (Hc3 : (cur + used + count <= j * B + B)%nat) by (unfold count; lia). clearbody count.
      assert (Ech : firstn count (skipn used input) = firstn count (skipn (cur + used) inp)).
      { unfold input. rewrite skipn_firstn_comm, skip_more, firstn_firstn. f_equal. unfold input in Hc2. rewrite firstn_length in Hc2. lia. }
      rewrite Ech. set (chunk := firstn count (skipn (cur + used) inp)). assert (Hcl : length chunk = count) by (unfold chunk; rewrite firstn_length, skipn_length; fold size; lia).
      assert (Epre : firstn (cur + (used + count)) inp = firstn (cur + used) inp ++ chunk) by (rewrite Nat.add_assoc, firstn_add; reflexivity).
      fold (addInput (cenc c1) chunk). apply IH; [|exact Hnf|exact Hc2|exact Hro1|].
      * split; [auto|]. split; [lia|]. split.
        -- cbn [setSums setEnc csums]. rewrite Hs, note_spec, Epre; [reflexivity|apply octets_firstn, Hinp|apply octets_part].
        -- cbn [setSums setEnc cppos cpend cstarted cfinal cfinished cenc]. rewrite Hp0, Hpp. split; [cbn; lia|]. split; [exact Hst|]. exists X. cbn [firstn]. rewrite !app_nil_r. split; [exact Ho|].
           split; [|rewrite Ef, Hnf; split; discriminate]. intros _. split; [exact Hnf|]. exists j, e. split; [exact R|]. split; [lia|].
           rewrite He, add_add, Epre. rewrite (skipn_app _ (firstn (cur + used) inp) chunk). rewrite firstn_length. fold size. replace (j * B - Nat.min (cur + used) size)%nat with 0%nat by lia. reflexivity.
      * unfold cmeas in *. cbn [setSums setEnc cenc cfinal] in *. rewrite Ef in *. rewrite HpB in Hm1. rewrite He, add_add, Hpa, app_length, part_len, Hcl by lia. lia.
    + assert (C : fin = true \/ fin = false) by (destruct fin; auto). destruct C as [Ef1|Ef1]; rewrite Ef1.
      * pose proof (Hie Ef1) as Hend. destruct (last_ok (cur + used) X c1 j e ltac:(lia) F1 F2 F3 Hs Hst Hp0 Hpp Hnf R Hj He) as (e' & p & Q1 & Q2). rewrite F3, Hp0 in Q1. rewrite Hpp in Q2. rewrite ?Hp0. rewrite Q1. cbn [bind].
        rewrite Ef1 in IH. apply IH; [rewrite Ho; exact Q2|exact Hnf|exact Hu|exact Hro1|]. unfold cmeas in *. cbn [setFlags3 setPend setEnc cenc cfinal] in *. rewrite Ef, HpB in Hm1.
        assert (Hz : (pendingBytes e' = 0)%nat).
        { pose proof (queue_pending (clvl c1) B (cenc c1) true []) as Hz. rewrite Q1 in Hz. exact Hz. }
        rewrite Hz. lia.
      * exists c1, used, out1. split; [reflexivity|]. split; [exact Hr1|]. split; [exact Hu|]. split; [exact Hro1|]. right. left. split; [lia|]. split; [exact Hp0|]. exact Hnf.
Qed.
End Call.
(** * Sizes *)
Lemma reach_size j e q : reach j e q -> (8 * length q + ecount e <= 8 * length (headerBytes f level) + j * (8 * B + 47))%nat.
Proof.
  induction 1 as [|j e q e' q' R IH Hl E]; [cbn [encInit ecount]; lia|]. destruct (reach_ok _ _ _ R) as [Hok _].
  destruct (queue_spec level B HB _ _ _ _ (firstn B (skipn (j * B) inp)) false Hok (octets_firstn _ _ Hinp) (octets_part _ _)) as (e2 & q2 & E2 & _ & _ & _ & H); [rewrite firstn_length; lia|].
  rewrite E in E2. injection E2 as -> ->. rewrite firstn_length in H. lia.
Qed.
Definition framingBytes : nat := match f with rawDeflate => 0 | zlib => 6 | gzip => 18 end.
Lemma framing_bytes s : (length (headerBytes f level) + length (trailerBytes f s) = framingBytes)%nat.
Proof. unfold framingBytes. destruct f; reflexivity. Qed.
Definition streamBound : nat := (size + 6 * (size / B + 1) + framingBytes)%nat.
Lemma blocks_le j : (j * B <= size)%nat -> (j <= size / B)%nat.
Proof. intros H. apply Nat.div_le_lower_bound; lia. Qed.
Lemma reach_bound j e q : reach j e q -> (length q <= streamBound)%nat.
Proof.
  intros R. pose proof (reach_size _ _ _ R) as H. destruct (reach_ok _ _ _ R) as [_ Hj]. pose proof (blocks_le _ Hj) as Hb. pose proof (framing_bytes (sumsOf [])) as Hf. unfold streamBound. nia.
Qed.
Lemma whole_bound j q : whole j q -> (length q <= streamBound)%nat.
Proof.
  intros (e & q1 & e' & q2 & R & H1 & H2 & E & ->). pose proof (reach_size _ _ _ R) as H. destruct (reach_ok _ _ _ R) as [Hok Hj]. pose proof (blocks_le _ Hj) as Hb.
  destruct (queue_spec level B HB _ _ _ _ (skipn (j * B) inp) true Hok (octets_firstn _ _ Hinp) (octets_skipn _ _ Hinp)) as (e2 & q3 & E2 & _ & _ & _ & Hs); [rewrite skipn_length; fold size; lia|].
  rewrite E in E2. injection E2 as -> ->. rewrite skipn_length in Hs. fold size in Hs. rewrite app_length. pose proof (framing_bytes (sumsOf inp)) as Hf. unfold streamBound. nia.
Qed.
Lemma running_bound t out c : running t out c -> (length out <= streamBound)%nat.
Proof.
  intros (_ & _ & _ & Hp & _ & X & -> & H1 & H2 & _). assert (Hle : (length (X ++ firstn (cppos c) (cpend c)) <= length (X ++ cpend c))%nat) by (rewrite !app_length, firstn_length; lia).
  destruct (cfinal c); [destruct (H2 eq_refl) as (_ & j & Hw); pose proof (whole_bound _ _ Hw); lia|]. destruct (H1 eq_refl) as (_ & j & e & R & _). pose proof (reach_bound _ _ _ R). lia.
Qed.

(** * One call *)
Definition cready (t : nat) (out : list N) (c : Cmp) : Prop :=
  running t out c \/ (t = 0%nat /\ out = [] /\ exists bb, B = N.to_nat (N.min (N.max bb 1) kMaxStoredBlock) /\ c = cmpReset f level bb).
Definition compOk (t n : nat) (out : list N) (room : nat) (fin : bool) (x : Cmp * res StreamResult) : Prop :=
  exists c' s, x = (c', Ok s) /\ running (t + consumed s) (out ++ produced s) c' /\ (consumed s <= length (firstn n (skipn t inp)))%nat /\ (length (produced s) <= room)%nat /\
    (status s = done <-> cfinished c' = true) /\ (status s = done -> (t + consumed s = size)%nat /\ exists j, whole j (out ++ produced s)) /\
    (status s <> done -> length (produced s) = room \/ (consumed s = length (firstn n (skipn t inp)) /\ fin = false /\ status s = needInput)) /\
    (status s = needOutput -> length (produced s) = room).
Lemma comp_ok t n out room fin c : cready t out c -> (fin = true -> (size <= t + n)%nat) -> compOk t n out room fin (compressStep c (firstn n (skipn t inp)) room fin).
Proof.
  intros Hr Hfin. unfold compressStep. destruct (cfinished c) eqn:Ec.
  - destruct Hr as [Hr|(_ & _ & bb & _ & ->)]; [|discriminate]. pose proof Hr as (_ & _ & _ & _ & _ & X & Ho & _ & H2 & H3). destruct (H3 Ec) as [Ef Ep]. destruct (H2 Ef) as [Et (j & Hw)].
    rewrite skipn_all2 by (fold size; lia). rewrite firstn_nil. do 2 eexists. split; [reflexivity|]. cbn [consumed produced status length]. rewrite Nat.add_0_r, app_nil_r. split; [exact Hr|].
    split; [lia|]. split; [lia|]. split; [split; auto|]. split; [intros _; split; [exact Et|]|split; [congruence|discriminate]]. exists j. rewrite Ep in *. rewrite Ho, firstn_nil. exact Hw.
  - set (c1 := if cstarted c then c else _). assert (Hc1 : running t out c1 /\ cfinished c1 = false).
    { destruct Hr as [Hr|(-> & -> & bb & EB & ->)].
      - assert (Es : cstarted c = true) by apply Hr. unfold c1. rewrite Es. auto.
      - unfold c1. cbn [cmpReset cstarted]. split; [|reflexivity]. split; [split; [reflexivity|split; [reflexivity|symmetry; exact EB]]|]. split; [apply Nat.le_0_l|]. split; [reflexivity|].
        split; [apply Nat.le_0_l|]. split; [reflexivity|]. exists []. cbn [setFlags3 setPend cmpReset cpend cppos cfinal cfinished cenc app firstn]. split; [reflexivity|]. split; [|split; discriminate].
        intros _. split; [reflexivity|]. exists 0%nat, encInit. split; [constructor|]. split; [lia|]. reflexivity. }
    destruct Hc1 as [Hc1 Hn]. clearbody c1. clear Hr Ec. assert (Hts : (t <= size)%nat) by apply Hc1.
    destruct (cloop_ok t n room fin out Hts Hfin (cmpFuel c1 (firstn n (skipn t inp))) c1 0 []) as (c' & used & o & E & R & Hu & Hl & Hwhy).
    { rewrite Nat.add_0_r, app_nil_r. exact Hc1. } { exact Hn. } { lia. } { cbn; lia. } { unfold cmpFuel, cmeas. destruct (cfinal c1); lia. }
    rewrite E. do 2 eexists. split; [reflexivity|]. cbn [consumed produced status]. split; [exact R|]. split; [exact Hu|]. split; [exact Hl|].
    pose proof R as (_ & _ & _ & Hpos & _ & X & Ho & _ & H2 & H3). destruct (cfinished c') eqn:Ef.
    + destruct (H3 eq_refl) as [Ef2 Ep]. destruct (H2 Ef2) as [Et (j & Hw)]. split; [split; auto|]. split; [intros _|split; [congruence|discriminate]]. split; [exact Et|]. exists j. rewrite Ep in *. rewrite Ho, firstn_nil. exact Hw.
    + assert (Hd : forall b : bool, (if b then needOutput else needInput) <> done) by (intros [|]; discriminate). split; [split; [intros H; contradiction (Hd _ H)|discriminate]|].
      split; [intros H; contradiction (Hd _ H)|]. split.
      * intros _. destruct Hwhy as [H|[(H & Hp0 & H4)|H]]; [left; exact H| |discriminate]. right. split; [exact H|]. split; [symmetry; exact H4|]. rewrite Hp0. cbn [length]. destruct (cppos c'); reflexivity.
      * destruct Hwhy as [H|[(H & Hp0 & H4)|H]]; [intros _; exact H| |discriminate]. rewrite Hp0. cbn [length]. destruct (cppos c'); discriminate.
Qed.
End Calls.
