(** Further facts about property maps: maps in fixed storage, the merge of tag maps, and long runs of insertions. *)
From Coq Require Import List NArith Bool Lia Permutation ZifyBool ZifyNat ZifyN.
From Verif Require Import Base WireModel WireProofs ChunkModel ChunkSpec ChunkPoolProofs ValueMapModel ValueMapSpec ValueMapPool ValueMapInv ValueMapGrow ValueMapProofs.
Import ListNotations.
Local Open Scope N_scope.

(** *** Fixed storage *)
Definition frame (m m' : vmap) : Prop :=
  fixed m' = fixed m /\ blobId m' = blobId m /\ cap m' = cap m /\ ecap m' = ecap m /\ poff m' = poff m /\ pcap m' = pcap m /\
  (forall x, cap m <= x -> mem m' x = mem m x).
Lemma frame_refl m : frame m m. Proof. unfold frame. auto 10. Qed.
Lemma frame_trans a b c : frame a b -> frame b c -> frame a c.
Proof.
  intros (A1 & A2 & A3 & A4 & A5 & A6 & A7) (B1 & B2 & B3 & B4 & B5 & B6 & B7).
  split; [congruence|]. split; [congruence|]. split; [congruence|]. split; [congruence|]. split; [congruence|]. split; [congruence|].
  intros x Hx. rewrite B7 by lia. apply A7. exact Hx.
Qed.
Lemma frame_fixed m m' : frame m m' -> fixed m = true -> fixed m' = true. Proof. intros (A & _) H. congruence. Qed.
Lemma frame_entries m es : frame m (setEntries m es). Proof. unfold frame. cbn. auto 10. Qed.
Lemma frame_used m u : frame m (setUsed m u). Proof. unfold frame. cbn. auto 10. Qed.
Lemma frame_fhead m u : frame m (setFhead m u). Proof. unfold frame. cbn. auto 10. Qed.
Lemma frame_mark m : frame m (markOverflow m). Proof. unfold frame. cbn. auto 10. Qed.
Lemma frame_put m off l m' : put m off l = Ok m' -> frame m m'.
Proof.
  unfold put. destruct (N.leb_spec (off + len l) (cap m)) as [L|L]; [|discriminate]. intros E. injection E as <-. unfold frame. cbn. repeat split.
  intros x Hx. apply wr_out. right. lia.
Qed.
Lemma bind_ok {A B} (x : res A) (f : A -> res B) y : bind x f = Ok y -> exists a, x = Ok a /\ f a = Ok y.
Proof. destruct x; cbn; intros H; try discriminate. eauto. Qed.
Ltac inv_bind H := apply bind_ok in H; let a := fresh "a" in let E := fresh "E" in destruct H as (a & E & H).
Lemma frame_push m off l m' : freeListPush m off l = Ok m' -> frame m m'.
Proof.
  unfold freeListPush. destruct (l <? 8); [intros E; injection E as <-; apply frame_refl|]. intros H. inv_bind H. injection H as <-.
  eapply frame_trans; [eapply frame_put; eassumption|apply frame_fhead].
Qed.
Lemma frame_pop fuel : forall m bytes prev cur r, popLoop fuel m bytes prev cur = Ok r -> frame m (fst r).
Proof.
  induction fuel as [|f IH]; intros m bytes prev cur r; cbn [popLoop]; (destruct (cur =? 0); [intros E; injection E as <-; apply frame_refl|]); [intros E; injection E as <-; apply frame_refl|].
  destruct (cap m <? cur + 8); [discriminate|]. destruct (bytes <=? dec (rd (mem m) cur 4)); [|apply IH]. intros H. inv_bind H. inv_bind H. injection H as <-. cbn [fst].
  eapply frame_trans with a.
  - destruct (prev =? 0); [injection E as <-; apply frame_fhead|eapply frame_put; eassumption].
  - destruct (8 <=? _) in E0; [eapply frame_push; eassumption|injection E0 as <-; apply frame_refl].
Qed.
Lemma frame_popfit m bytes r : freeListPopFit m bytes = Ok r -> frame m (fst r).
Proof. unfold freeListPopFit. destruct (_ || _); [intros E; injection E as <-; apply frame_refl|apply frame_pop]. Qed.
Lemma frame_grow m n p s m' : fixed m = true -> grow m n p s = Ok m' -> frame m m'.
Proof. intros F. unfold grow. rewrite F. intros E. injection E as <-. apply frame_mark. Qed.
Lemma frame_reserve m n r : fixed m = true -> reserveRecord m n = Ok r -> frame m (fst r).
Proof.
  intros F H. unfold reserveRecord in H. inv_bind H. pose proof (frame_popfit _ _ _ E) as P. destruct a as [m1 [off|]]; cbn [fst] in P; [injection H as <-; exact P|].
  destruct (_ <? n); [injection H as <-; eapply frame_trans; [exact P|apply frame_mark]|]. pose proof (frame_fixed _ _ P F) as F1.
  destruct (_ <? _) in H.
  - rewrite F1 in H. injection H as <-. eapply frame_trans; [exact P|apply frame_mark].
  - inv_bind H. injection H as <-. cbn [fst]. eapply frame_trans; [exact P|]. eapply frame_trans; [|apply frame_used]. destruct (0 <? _) in E0; [eapply frame_put; eassumption|injection E0 as <-; apply frame_refl].
Qed.
Lemma frame_record m vt ct fl c r : fixed m = true -> appendValueRecord m vt ct fl c = Ok r -> frame m (fst r).
Proof.
  intros F H. unfold appendValueRecord in H. destruct (W32 <=? _); [discriminate|]. inv_bind H. pose proof (frame_reserve _ _ _ F E) as P. destruct a as [m1 [off|]]; [|injection H as <-; exact P].
  inv_bind H. injection H as <-. cbn [fst] in *. eapply frame_trans; [exact P|eapply frame_put; eassumption].
Qed.
Lemma frame_payload m c x r : fixed m = true -> appendPayload m c x = Ok r -> frame m (fst r).
Proof.
  intros F H. unfold appendPayload in H. destruct (W32 <=? _); [discriminate|]. inv_bind H. pose proof (frame_popfit _ _ _ E) as P. destruct a as [m1 [off|]]; cbn [fst] in P.
  - inv_bind H. injection H as <-. eapply frame_trans; [exact P|eapply frame_put; eassumption].
  - destruct (_ <? _) in H; [injection H as <-; eapply frame_trans; [exact P|apply frame_mark]|]. pose proof (frame_fixed _ _ P F) as F1. destruct (_ <? _) in H.
    + rewrite F1 in H. injection H as <-. eapply frame_trans; [exact P|apply frame_mark].
    + inv_bind H. injection H as <-. cbn [fst]. eapply frame_trans; [exact P|]. eapply frame_trans; [eapply frame_put; eassumption|apply frame_used].
Qed.
Lemma frame_store m i vt ct fl ef pl c r : fixed m = true -> storeAt m i vt ct fl ef pl c = Ok r -> frame m (fst r).
Proof.
  intros F H. unfold storeAt in H. destruct (nth_error (entries m) i) as [e0|]; [|discriminate]. inv_bind H. pose proof (frame_record _ _ _ _ _ _ F E) as P. destruct a as [m1 [off|]]; cbn [fst] in P; [|injection H as <-; exact P].
  destruct (nth_error (entries m1) i) as [e1|]; [|discriminate]. destruct (_ && _) in H.
  - inv_bind H. injection H as <-. cbn [fst]. eapply frame_trans; [exact P|]. eapply frame_trans; [apply frame_entries|eapply frame_push; eassumption].
  - injection H as <-. cbn [fst]. eapply frame_trans; [exact P|apply frame_entries].
Qed.
Lemma frame_assign m i v al r : fixed m = true -> assignValueAt m i v al = Ok r -> frame m (fst r).
Proof.
  intros F H. unfold assignValueAt in H. destruct (nth_error (entries m) i) as [e|]; [|discriminate].
  destruct v; try (eapply frame_store; eassumption); [destruct (_ && _) in H|destruct (_ && _) in H|]; try (eapply frame_store; eassumption); try (injection H as <-; apply frame_refl);
    inv_bind H; injection H as <-; cbn [fst]; (eapply frame_trans; [eapply frame_put; eassumption|apply frame_entries]).
Qed.
Lemma frame_insert m k v al r : fixed m = true -> insertNew m k v al = Ok r -> frame m (fst r).
Proof.
  intros F H. unfold insertNew in H. inv_bind H. assert (P : frame m (fst a)).
  { unfold ensureEntrySlot in E. destruct (_ <=? _); [|injection E as <-; apply frame_refl]. rewrite F in E. injection E as <-. apply frame_mark. }
  destruct a as [m1 ok]. cbn [fst] in P. destruct ok; cbn [negb] in H; [|injection H as <-; exact P]. pose proof (frame_fixed _ _ P F) as F1. inv_bind H. inv_bind H.
  assert (Q : frame m (fst a0)).
  { destruct (negb _) in E1; [injection E1 as <-; exact P|]. destruct (_ <=? _) in E1; [injection E1 as <-; exact P|]. inv_bind E1. pose proof (frame_payload _ _ _ _ F1 E2) as Q. destruct a1 as [m2 [off|]]; cbn [fst] in Q.
    - inv_bind E1. injection E1 as <-. cbn [fst]. eapply frame_trans; eassumption.
    - injection E1 as <-. cbn [fst]. eapply frame_trans; eassumption. }
  destruct a0 as [m2 [e|]]; cbn [fst] in Q; [|injection H as <-; exact Q]. pose proof (frame_fixed _ _ Q F) as F2. destruct (_ && _) in H; [discriminate|]. destruct (_ =? _) in H.
  - injection H as <-. cbn [fst]. eapply frame_trans; [exact Q|apply frame_entries].
  - inv_bind H. pose proof (frame_assign (setEntries m2 (entries m2 ++ [e])) _ _ _ _ F2 E2) as X. destruct a0 as [m3 ok3]. cbn [fst] in X. assert (Y : frame m m3) by (eapply frame_trans; [exact Q|]; eapply frame_trans; [apply frame_entries|exact X]). destruct ok3.
    + inv_bind H. injection H as <-. exact Y.
    + injection H as <-. cbn [fst]. eapply frame_trans; [exact Y|apply frame_entries].
Qed.
Lemma frame_exec m o r : fixed m = true -> exec m o = Ok r -> frame m (fst r).
Proof.
  intros F H. destruct o; cbn [exec] in H.
  - unfold emplace in H. destruct (find m k); [injection H as <-; apply frame_refl|]. inv_bind H. pose proof (frame_insert _ _ _ _ _ F E) as P. destruct a as [m1 ok]. injection H as <-. exact P.
  - unfold insertOrAssign in H. destruct (find m k) as [i|]; inv_bind H; [pose proof (frame_assign _ _ _ _ _ F E) as P|pose proof (frame_insert _ _ _ _ _ F E) as P]; destruct a as [m1 ok]; injection H as <-; exact P.
  - inv_bind H. injection H as <-. cbn [fst]. unfold erase in E. destruct (find m k) as [i|]; [|injection E as <-; apply frame_refl]. inv_bind E. injection E as <-. cbn [fst]. unfold eraseAt in E0. destruct (nth_error (entries m) i) as [e|]; [|discriminate].
    inv_bind E0. inv_bind E0. injection E0 as <-. eapply frame_trans; [|apply frame_entries]. unfold reclaimEntry in E. inv_bind E. match goal with X : (if _ then freeListPush m _ _ else _) = Ok ?y |- _ => apply frame_trans with y; [clear E; rename X into E0|clear X] end.
    + destruct (_ && _) in E0; [eapply frame_push; eassumption|injection E0 as <-; apply frame_refl].
    + destruct (_ =? _) in E; [eapply frame_push; eassumption|injection E as <-; apply frame_refl].
  - inv_bind H. injection H as <-. cbn [fst]. unfold clear in E. inv_bind E. injection E as <-. eapply frame_trans; [apply frame_entries|]. eapply frame_trans; [apply frame_used|apply frame_fhead].
  - inv_bind H. injection H as <-. cbn [fst]. unfold reserve in E. destruct (_ || _); [eapply frame_grow; eassumption|injection E as <-; apply frame_refl].
  - inv_bind H. injection H as <-. cbn [fst]. eapply frame_grow; eassumption.
Qed.

(** *** Merging tag maps *)
Lemma raw_ok mm e : wfVal mm e -> goodValue (rawValue mm e) /\ shown (rawValue mm e) = itemOf mm e /\ (rawValue mm e = VMono -> itemOf mm e = Empty).
Proof.
  intros W. unfold rawValue, itemOf. destruct W as [W|(V1 & V2 & V3 & V4 & V5 & V6)].
  - rewrite W. cbn. auto.
  - rewrite V1, (proj2 (N.eqb_neq _ 0) V2). cbn [andb negb goodValue shown]. split; [destruct V6 as (_ & _ & V6); rewrite V5; exact V6|split; [|discriminate]]. rewrite V4. rewrite padded_fit; [reflexivity|].
      unfold len at 1. rewrite rd_len, N2Nat.id. pose proof (atr_range (ePLen e)) as A. pose proof (atr_mod (ePLen e)) as B. pose proof (N.div_mod (alignToRecord (ePLen e)) 16 ltac:(lia)) as D.
      replace (alignToRecord (ePLen e) - 8) with (8 + (alignToRecord (ePLen e) / 16 - 1) * 16) by lia. rewrite N.mod_add by lia. reflexivity.
Qed.

Lemma assoc_app k (a b : smap) : assoc k (a ++ b) = match assoc k a with Some v => Some v | None => assoc k b end.
Proof. induction a as [|[k' v'] a IH]; cbn [app assoc]; [reflexivity|]. destruct (list_eq_dec N.eq_dec k' k); [reflexivity|exact IH]. Qed.
Lemma assoc_replace_other k k2 v (s : smap) : k <> k2 -> assoc k2 (replace k v s) = assoc k2 s.
Proof. intros N. induction s as [|[k' v'] s IH]; cbn [replace assoc]; [reflexivity|]. destruct (list_eq_dec N.eq_dec k' k); cbn [assoc]; destruct (list_eq_dec N.eq_dec k' k2); congruence || exact IH. Qed.
Lemma assoc_replace_same k v (s : smap) : assoc k s <> None -> assoc k (replace k v s) = Some v.
Proof. induction s as [|[k' v'] s IH]; cbn [replace assoc]; [congruence|]. destruct (list_eq_dec N.eq_dec k' k) as [E|E]; cbn [assoc]; destruct (list_eq_dec N.eq_dec k' k); try contradiction; auto. Qed.
Lemma assoc_without_other k k2 (s : smap) : k <> k2 -> assoc k2 (without k s) = assoc k2 s.
Proof. intros N. induction s as [|[k' v'] s IH]; cbn [without assoc]; [reflexivity|]. destruct (list_eq_dec N.eq_dec k' k); cbn [assoc]; destruct (list_eq_dec N.eq_dec k' k2); congruence || exact IH. Qed.
Lemma fst_replace k v (s : smap) : map fst (replace k v s) = map fst s.
Proof. induction s as [|[k' v'] s IH]; cbn [replace map]; [reflexivity|]. destruct (list_eq_dec N.eq_dec k' k); cbn [map fst]; congruence. Qed.
Definition keyOf (o : op) : option key := match o with OEmplace k _ _ | OAssign k _ _ | OErase k => Some k | _ => None end.
Lemma after_other s o r k : keyOf o <> Some k -> o <> OClear -> assoc k (after s o r) = assoc k s.
Proof.
  intros H C. assert (X : assoc k (apply s o) = assoc k s).
  { destruct o as [k' v al|k' v al|k'| |n p|]; cbn [apply keyOf] in *; try reflexivity; try congruence.
    - destruct (assoc k' s); [reflexivity|]. rewrite assoc_app. cbn [assoc]. destruct (list_eq_dec N.eq_dec k' k); [congruence|]. destruct (assoc k s); reflexivity.
    - destruct (assoc k' s); [apply assoc_replace_other; congruence|]. rewrite assoc_app. cbn [assoc]. destruct (list_eq_dec N.eq_dec k' k); [congruence|]. destruct (assoc k s); reflexivity.
    - apply assoc_without_other. congruence. }
  destruct r; cbn [after]; auto.
Qed.
Lemma after_assign s k v al r : r <> Refused -> assoc k (after s (OAssign k v al) r) = Some (shown v).
Proof.
  intros H. assert (X : assoc k (apply s (OAssign k v al)) = Some (shown v)).
  { cbn [apply]. destruct (assoc k s) as [w|] eqn:E; [apply assoc_replace_same; congruence|]. rewrite assoc_app, E. cbn [assoc]. destruct (list_eq_dec N.eq_dec k k); congruence. }
  destruct r; cbn [after]; congruence.
Qed.
Lemma len_after_assign s k v al r : len (after s (OAssign k v al) r) <= len s + 1 /\ map fst (after s (OAssign k v al) r) = map fst s ++ match r, assoc k s with Refused, _ | _, Some _ => [] | _, None => [k] end.
Proof.
  assert (X : len (apply s (OAssign k v al)) <= len s + 1 /\ map fst (apply s (OAssign k v al)) = map fst s ++ match assoc k s with Some _ => [] | None => [k] end).
  { cbn [apply]. destruct (assoc k s). - rewrite fst_replace, app_nil_r. split; [|reflexivity]. unfold len. rewrite <- (map_length fst), fst_replace, map_length. lia. - rewrite map_app. unfold len. rewrite app_length. cbn. split; [lia|reflexivity]. }
  destruct r; cbn [after]; [exact X|exact X|]. rewrite app_nil_r. split; [lia|reflexivity].
Qed.

Definition clash (src d : smap) : Prop := exists k, assoc k src = Some Empty /\ assoc k d <> None.
Lemma update_loop src es : forall dest d, Forall (wfE src) es -> NoDup (map (readKey src) es) -> reach dest d -> len d + len es <= 43690 -> ~ clash (map (obs src) es) d ->
  updateLoop src es dest = Limit \/ exists m' rs s', updateLoop src es dest = Ok (m', rs) /\ reach m' s' /\ fixed m' = fixed dest /\
    (forall k, assoc k s' = assoc k d \/ assoc k s' = assoc k (map (obs src) es)) /\
    (forall k, assoc k (map (obs src) es) = None -> assoc k s' = assoc k d) /\
    (~ In Refused rs -> (forall k, assoc k (map (obs src) es) <> None -> assoc k s' = assoc k (map (obs src) es)) /\
       map fst s' = map fst d ++ filter (fun k => match assoc k d with None => true | Some _ => false end) (map fst (map (obs src) es))) /\
    (In Refused rs -> fixed dest = true \/ exists mid smid o, reach mid smid /\ In o (map (fun e => OAssign (readKey src e) (rawValue src e) false) es) /\ W32 <= pused mid + bytesOfOp o + 64).
Proof.
  induction es as [|e es IH]; intros dest d W ND R L C; cbn [updateLoop].
  - right. exists dest, [], d. cbn [map filter]. rewrite app_nil_r. split; [reflexivity|]. split; [exact R|]. split; [reflexivity|]. split; [auto|]. split; [auto|]. split; [|intros []]. intros _. split; [intros k H; contradiction H; reflexivity|reflexivity].
  - inversion W as [|? ? W1 W2]; subst. cbn [map] in ND. inversion ND as [|? ? N1 N2]; subst. destruct (raw_ok src e (proj2 W1)) as (G & Sh & Mo). set (k := readKey src e) in *. set (v := rawValue src e) in *.
    destruct (reach_inv false _ dest d ltac:(discriminate) R) as (fr & I & It).
    assert (Lg : legal d (OAssign k v false)).
    { cbn [legal]. rewrite WireProofs.len_cons in L. split; [exact G|]. split; [split; [lia|intros _; lia]|]. split; [discriminate|]. intros X. destruct (assoc k d) eqn:A; [exfalso|reflexivity]. apply C. exists k. cbn [map]. unfold obs at 1. fold k. cbn [assoc]. destruct (list_eq_dec N.eq_dec k k); [|congruence]. rewrite Mo by exact X. split; congruence. }
    rewrite <- It in Lg. destruct (step_ok dest fr (OAssign k v false) I Lg ltac:(discriminate)) as [E|(m1 & r & fr1 & E & I1 & It1 & An & Fx & Rf)]; cbn [exec] in E; rewrite E; cbn [bind fst snd]; [left; reflexivity|].
    rewrite It in *. assert (R1 : reach m1 (after d (OAssign k v false) r)) by (eapply reach_step; [exact R|exact Logic.I|exact Lg|exact E]). set (d1 := after d (OAssign k v false) r) in *.
    assert (Other : forall k2, k2 <> k -> assoc k2 d1 = assoc k2 d) by (intros k2 H; apply after_other; [cbn; congruence|discriminate]).
    destruct (len_after_assign d k v false r) as [Ld Fd]. fold d1 in Ld, Fd.
    assert (Nk : assoc k (map (obs src) es) = None) by (apply assoc_none; rewrite map_map; exact N1).
    destruct (IH m1 d1 W2 N2 R1) as [X|(m' & rs & s' & X & R' & F' & P1 & P2 & P3 & P4)].
    { rewrite WireProofs.len_cons in L. lia. }
    { intros (k2 & A & B). destruct (list_eq_dec N.eq_dec k2 k) as [ -> |Nk2]; [congruence|]. rewrite Other in B by exact Nk2. apply C. exists k2. cbn [map]. unfold obs at 1. fold k. cbn [assoc]. destruct (list_eq_dec N.eq_dec k k2); [congruence|]. auto. }
    + rewrite X. left. reflexivity.
    + rewrite X. cbn [bind fst snd]. right. exists m', (r :: rs), s'. split; [reflexivity|]. split; [exact R'|]. split; [congruence|]. assert (Oe : obs src e = (k, shown v)) by (unfold obs; fold k; rewrite Sh; reflexivity). cbn [map]. rewrite Oe. cbn [map fst assoc].
      assert (Hk : assoc k s' = assoc k d1) by (apply P2; exact Nk).
      assert (Hr : r <> Refused -> assoc k d1 = Some (shown v)) by (apply after_assign).
      split; [|split; [|split]].
      * intros k2. destruct (list_eq_dec N.eq_dec k k2) as [ <- |Nk2]; [|rewrite <- Other by congruence; apply P1]. rewrite Hk. destruct r; [right; apply Hr; discriminate|right; apply Hr; discriminate|left; reflexivity].
      * intros k2. destruct (list_eq_dec N.eq_dec k k2) as [ <- |Nk2]; [discriminate|]. rewrite <- (Other k2) by congruence. apply P2.
      * intros H. assert (Hr' : r <> Refused) by (intros Q; apply H; left; exact Q). destruct (P3 ltac:(intros Q; apply H; right; exact Q)) as [Q1 Q2]. split.
        -- intros k2. destruct (list_eq_dec N.eq_dec k k2) as [ <- |Nk2]; [intros _; rewrite Hk; auto|apply Q1].
        -- rewrite Q2, Fd, <- app_assoc. f_equal.
           assert (Fe : filter (fun k0 => match assoc k0 d1 with Some _ => false | None => true end) (map fst (map (obs src) es)) = filter (fun k0 => match assoc k0 d with Some _ => false | None => true end) (map fst (map (obs src) es))).
           { apply filter_ext_in. intros k2 Hk2. rewrite Other; [reflexivity|]. intros ->. apply assoc_none in Nk. auto. }
           rewrite Fe. cbn [filter]. destruct r, (assoc k d); congruence || reflexivity.
      * intros [H|H].
        -- rewrite <- Fx. destruct (Rf H) as [Q|Q]; [left; exact Q|right]. exists m1, d1, (OAssign k v false). split; [exact R1|]. split; [left; reflexivity|exact Q].
        -- destruct (P4 H) as [Q|(mid & smid & o & Q1 & Q2 & Q3)]; [left; congruence|right]. exists mid, smid, o. split; [exact Q1|]. split; [right; exact Q2|exact Q3].
Qed.

(** *** Long runs of insertions: short keys with empty values use no pool. *)
Definition akey (n : nat) : key := 0 :: enc 4 (N.of_nat n).
Definition aent (n : nat) : entry := setKey zeroEntry kInlineKeyId (inlineImg (akey n)).
Definition bare (m : vmap) (n : nat) : Prop :=
  fixed m = false /\ entries m = map aent (seq 0 n) /\ pused m = 0 /\ pcap m = 0 /\ fhead m = 0 /\ cap m = poff m /\ ecap m < 65536 /\ 32 + 48 * ecap m <= poff m.
Lemma aent_key n : readInline (aent n) = akey n. Proof. apply inline_read; [reflexivity|]. cbn. lia. Qed.
Lemma akey_inj a b : N.of_nat a < W32 -> N.of_nat b < W32 -> akey a = akey b -> a = b.
Proof. intros A B H. assert (E : enc 4 (N.of_nat a) = enc 4 (N.of_nat b)) by (unfold akey in H; congruence). apply (f_equal dec) in E. rewrite !dec_enc4 in E by assumption. lia. Qed.
Lemma find_bare mm n k l : (forall i, In i l -> akey i <> k) -> lookupId k = 0 -> findFrom n mm k (map aent l) = None.
Proof.
  revert n. induction l as [|i l IH]; intros n H Z; cbn [map findFrom]; [reflexivity|]. unfold matches. rewrite Z, aent_key. cbn [aent setKey eKeyId].
  change (kInlineKeyId =? kSpilledKeyId) with false. change (0 =? 0) with true. cbn [negb andb orb]. rewrite orb_false_r. change (kInlineKeyId =? kInlineKeyId) with true. cbn [andb].
  destruct (keyEq (akey i) k) eqn:E; [apply keyEq_true in E; exfalso; apply (H i); [left; reflexivity|exact E]|]. apply IH; [|exact Z]. intros j Hj. apply H. right. exact Hj.
Qed.
Lemma bare_absent m n k : bare m n -> (forall i, (i < n)%nat -> akey i <> k) -> lookupId k = 0 -> find m k = None.
Proof. intros (_ & E & _) H Z. unfold find. rewrite E. apply find_bare; [|exact Z]. intros i Hi. apply in_seq in Hi. apply H. lia. Qed.
Lemma bare_len m n : bare m n -> len (entries m) = N.of_nat n.
Proof. intros (_ & E & _). rewrite E. unfold len. rewrite map_length, seq_length. reflexivity. Qed.
Lemma rebase_bare a b l : map (rebaseE a b) (map aent l) = map aent l.
Proof. rewrite map_map. apply map_ext. intros i. reflexivity. Qed.
(** Growing such a map. *)
Lemma rebaseLoop0 f t a b mm : rebaseLoop f t a b mm 0 = Ok mm. Proof. destruct f; reflexivity. Qed.
Lemma grow_bare m n req tp : bare m n -> N.of_nat n < 65536 -> req < 70000 -> tp < 1000 -> let te := N.max (N.max req (N.of_nat n)) (N.max (ecap m + ecap m / 2) 8) in
  exists m', grow m req tp false = Ok m' /\ entries m' = entries m /\ fixed m' = false /\ pused m' = 0 /\ pcap m' = tp /\ fhead m' = 0 /\ cap m' = poff m' + tp /\ poff m' = 32 + 48 * te /\ ecap m' = te mod 65536 /\ te <= 100000.
Proof.
  intros B Hn Hr Hp te. pose proof (bare_len m n B) as L. destruct B as (B1 & B2 & B3 & B4 & B5 & B6 & B7 & B8). unfold grow. rewrite B1, L, B3, B4, B5, B6. fold te.
  replace (N.max (N.max tp 0) (0 + 0 / 2)) with tp by (change (0 + 0 / 2) with 0; lia).
  assert (Ht : te <= 100000). { unfold te. pose proof (N.div_mod (ecap m) 2 ltac:(lia)). lia. }
  rewrite (proj2 (N.leb_gt W32 _)) by (unfold W32; lia). rewrite (proj2 (N.ltb_ge (poff m) (poff m + 0))) by lia. unfold rebase. change (0 =? 0) with true. cbn iota. rewrite rebaseLoop0. cbn [bind].
  rewrite sentinel_ok. { cbn [bind]. eexists. split; [reflexivity|]. cbn [entries fixed pused pcap fhead cap poff ecap]. rewrite B2, rebase_bare. change (2 ^ 16) with 65536. auto 12. }
  cbn [ecap poff]. pose proof (N.mod_le te (2 ^ 16) ltac:(discriminate)). lia.
Qed.
(** One more short key with the empty value. *)
Lemma bare_insert_fits m n : bare m n -> N.of_nat n + 1 < ecap m -> emplace m (akey n) VMono false = Ok (setEntries m (entries m ++ [aent n]), Inserted) /\ bare (setEntries m (entries m ++ [aent n])) (S n).
Proof.
  intros B H. pose proof (bare_len m n B) as L. pose proof B as (B1 & B2 & B3 & B4 & B5 & B6 & B7 & B8).
  assert (F : find m (akey n) = None) by (apply (bare_absent m n); [exact B| |reflexivity]; intros i Hi E; apply akey_inj in E; unfold W32; lia).
  split.
  - unfold emplace. rewrite F. unfold insertNew, ensureEntrySlot. rewrite L, (proj2 (N.leb_gt _ _)) by exact H. cbn [bind negb]. unfold slot at 1. rewrite L, (proj2 (N.leb_le _ _)) by lia. cbn [bind].
    change (lookupId (akey n) =? 0) with true. change (len (akey n) <=? kMaxInlineKeyLength) with true. cbn [negb bind andb]. change (2 ^ 16) with 65536. rewrite (proj2 (N.eqb_neq _ _)) by lia.
    fold (aent n). unfold assignValueAt. cbn [setEntries entries]. rewrite nth_error_app2, PeanoNat.Nat.sub_diag by lia. cbn [nth_error bind]. rewrite sentinel_ok by (cbn [ecap poff]; exact B8). reflexivity.
  - unfold bare. cbn [setEntries fixed entries pused pcap fhead cap ecap poff]. rewrite B2, seq_S, map_app. auto 12.
Qed.
Lemma bare_insert m n : bare m n -> N.of_nat n < 65535 -> exists m', emplace m (akey n) VMono false = Ok (m', Inserted) /\ bare m' (S n).
Proof.
  intros B H. destruct (N.ltb_spec (N.of_nat n + 1) (ecap m)) as [L1|L1]; [destruct (bare_insert_fits m n B L1); eauto|].
  pose proof (bare_len m n B) as L. assert (F : find m (akey n) = None) by (apply (bare_absent m n); [exact B| |reflexivity]; intros i Hi E; apply akey_inj in E; unfold W32; lia).
  destruct (grow_bare m n (N.of_nat n + 2) 0 B ltac:(lia) ltac:(lia) ltac:(lia)) as (m' & E & G1 & G2 & G3 & G4 & G5 & G6 & G7 & G8 & G9). set (te := N.max _ _) in *.
  pose proof B as (B1 & B2 & B3 & B4 & B5 & B6 & B7 & B8). pose proof (N.mod_le te 65536 ltac:(discriminate)) as M.
  exists (setEntries m' (entries m' ++ [aent n])). split.
  - unfold emplace. rewrite F. unfold insertNew, ensureEntrySlot. rewrite L, B1, B3, (proj2 (N.leb_le _ _)) by exact L1. rewrite E. cbn [bind negb]. rewrite G1. unfold slot at 1. rewrite L, (proj2 (N.leb_le _ _)) by lia. cbn [bind].
    change (lookupId (akey n) =? 0) with true. change (len (akey n) <=? kMaxInlineKeyLength) with true. cbn [negb bind andb]. change (2 ^ 16) with 65536. rewrite (proj2 (N.eqb_neq _ _)) by lia.
    fold (aent n). rewrite G1. unfold assignValueAt. cbn [setEntries entries]. rewrite nth_error_app2, PeanoNat.Nat.sub_diag by lia. cbn [nth_error bind]. rewrite sentinel_ok by (cbn [setEntries ecap poff]; lia). reflexivity.
  - unfold bare. cbn [setEntries fixed entries pused pcap fhead cap ecap poff]. rewrite G1, B2, seq_S, map_app. pose proof (N.mod_lt te 65536 ltac:(discriminate)). split; [exact G2|]. split; [reflexivity|]. split; [exact G3|]. split; [exact G4|]. split; [exact G5|]. split; [lia|]. split; lia.
Qed.
Definition fresh8 : vmap :=
  {| fixed := false; blobId := 0; cap := 416; ecap := 8; entries := []; poff := 416; pused := 0; pcap := 0; fhead := 0; over := false; mem := fun _ => 0; junk := fun _ => 0 |}.
Lemma fresh8_reach P : reachBy P fresh8 []. Proof. apply (reach_new _ 8 0 (fun _ => 0)). reflexivity. Qed.
Lemma bare_step m s n : reach m s -> bare m n -> N.of_nat n < 65535 -> exists m' s', emplace m (akey n) VMono false = Ok (m', Inserted) /\ bare m' (S n) /\ reach m' s'.
Proof.
  intros R B H. destruct (bare_insert m n B H) as (m' & E & B'). exists m', (after s (OEmplace (akey n) VMono false) Inserted). split; [exact E|]. split; [exact B'|].
  apply reach_step with m; [exact R|exact Logic.I| |exact E]. destruct (reach_inv false _ m s ltac:(discriminate) R) as (fr & I & <-).
  cbn [legal goodValue]. split; [exact Logic.I|]. split; [|discriminate]. unfold room, longKey. replace (len (iterate m)) with (N.of_nat n). { split; [exact H|]. intros [_ Q]. cbn in Q. lia. }
  rewrite <- (bare_len m n B). unfold len, iterate. rewrite map_length. reflexivity.
Qed.
Lemma bare_reach n : N.of_nat n <= 65535 -> exists m s, reach m s /\ bare m n.
Proof.
  induction n as [|n IH]; intros H.
  - exists fresh8, []. split; [apply fresh8_reach|]. unfold bare. cbn [fresh8 fixed entries pused pcap fhead cap ecap poff]. repeat (split; [reflexivity || lia|]). lia.
  - destruct IH as (m & s & R & B); [lia|]. destruct (bare_step m s n R B ltac:(lia)) as (m' & s' & _ & B' & R'). eauto.
Qed.
Lemma bare_reach_from m0 s0 : reach m0 s0 -> bare m0 0 -> forall n, N.of_nat n + 1 <= ecap m0 -> exists m s, reach m s /\ bare m n /\ ecap m = ecap m0.
Proof.
  intros R0 B0. induction n as [|n IH]; intros H; [eauto|]. destruct IH as (m & s & R & B & Ec); [lia|]. pose proof B0 as (_ & _ & _ & _ & _ & _ & Q & _).
  destruct (bare_insert_fits m n B ltac:(lia)) as [E B']. destruct (bare_step m s n R B ltac:(lia)) as (m' & s' & E' & _ & R'). rewrite E in E'. injection E' as <-. eauto.
Qed.
Lemma bare_size m s n : reach m s -> bare m n -> len s = N.of_nat n.
Proof. intros R B. destruct (reach_inv false _ m s ltac:(discriminate) R) as (fr & I & <-). rewrite <- (bare_len m n B). unfold len, iterate. rewrite map_length. reflexivity. Qed.
(** The 65536th key. *)
Lemma last_insert m n : bare m n -> N.of_nat n = 65535 -> exists m', emplace m (akey n) VMono false = Ok (m', Inserted) /\ iterate m' = [].
Proof.
  intros B H. pose proof (bare_len m n B) as L. assert (F : find m (akey n) = None) by (apply (bare_absent m n); [exact B| |reflexivity]; intros i Hi E; apply akey_inj in E; unfold W32; lia).
  destruct (grow_bare m n (N.of_nat n + 2) 0 B ltac:(lia) ltac:(lia) ltac:(lia)) as (m' & E & G1 & G2 & G3 & G4 & G5 & G6 & G7 & G8 & G9). set (te := N.max _ _) in *.
  pose proof B as (B1 & B2 & B3 & B4 & B5 & B6 & B7 & B8).
  exists (setEntries m' []). split; [|reflexivity]. unfold emplace. rewrite F. unfold insertNew, ensureEntrySlot. rewrite L, B1, B3, (proj2 (N.leb_le _ _)) by lia. rewrite E. cbn [bind negb]. rewrite G1. unfold slot at 1. rewrite L, (proj2 (N.leb_le _ _)) by lia. cbn [bind].
  change (lookupId (akey n) =? 0) with true. change (len (akey n) <=? kMaxInlineKeyLength) with true. cbn [negb bind andb]. change (2 ^ 16) with 65536. rewrite (proj2 (N.eqb_eq _ _)) by lia. reflexivity.
Qed.
(** A long key as the 43691st, in a table of 43691 slots. *)
Definition bigKey : key := repeat 7 36.
Lemma long_insert m n : bare m n -> N.of_nat n = 43690 -> ecap m = 43691 -> emplace m bigKey VMono false = Bad.
Proof.
  intros B H Ec. pose proof (bare_len m n B) as L. assert (F : find m bigKey = None) by (apply (bare_absent m n); [exact B| |reflexivity]; intros i Hi E; discriminate E).
  destruct (grow_bare m n (N.of_nat n + 2) 0 B ltac:(lia) ltac:(lia) ltac:(lia)) as (m' & E & G1 & G2 & G3 & G4 & G5 & G6 & G7 & G8 & G9).
  rewrite Ec, H in G7, G8. change (N.max (N.max (43690 + 2) 43690) (N.max (43691 + 43691 / 2) 8)) with 65536 in G7, G8. change (65536 mod 65536) with 0 in G8.
  pose proof B as (B1 & B2 & B3 & B4 & B5 & B6 & B7 & B8).
  assert (B' : bare m' n). { unfold bare. rewrite G1, G8. split; [exact G2|]. split; [exact B2|]. split; [exact G3|]. split; [exact G4|]. split; [exact G5|]. split; [lia|]. split; lia. }
  destruct (grow_bare m' n (N.of_nat n) 37 B' ltac:(lia) ltac:(lia) ltac:(lia)) as (m2 & E2 & K1 & K2 & K3 & K4 & K5 & K6 & K7 & K8 & K9).
  rewrite G8, H in K7. change (N.max (N.max 43690 43690) (N.max (0 + 0 / 2) 8)) with 43690 in K7.
  unfold emplace. rewrite F. unfold insertNew, ensureEntrySlot. rewrite L, B1, B3, (proj2 (N.leb_le _ _)) by lia. rewrite E. cbn [bind negb]. rewrite G1. unfold slot at 1. rewrite L, (proj2 (N.leb_le _ _)) by lia. cbn [bind].
  change (lookupId bigKey =? 0) with true. change (len bigKey <=? kMaxInlineKeyLength) with false. cbn [negb]. unfold appendPayload. change (len bigKey + 1) with 37. change (W32 <=? 37) with false. unfold freeListPopFit. rewrite G5. change (0 =? 0) with true. cbn [orb bind].
  rewrite G3, G4, G2, G1, L. change (W32 - 1 - 0 <? 37) with false. change (0 <? 0 + 37) with true. cbn iota. change (0 + 37) with 37. rewrite E2. cbn [bind]. rewrite K3. unfold put. change (len (bigKey ++ zeros 1)) with 37. rewrite (proj2 (N.leb_le _ _)) by lia. cbn [bind].
  unfold slot. cbn [setUsed setMem poff]. rewrite K7, (proj2 (N.leb_gt _ _)) by lia. reflexivity.
Qed.
