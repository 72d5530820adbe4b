(** The property map refines the association list. *)
From Coq Require Import List NArith Lia Bool Permutation ZifyBool ZifyN ZifyNat.
From Verif Require Import WireModel WireProofs ChunkModel ChunkSpec ChunkPoolProofs ChunkProofs AllocProofs ValueMapModel BlobModel ValueMapSpec ValueMapPool ValueMapInv BlobImage ValueMapGrow Base.
Import ListNotations.
Local Open Scope N_scope.

(** *** Lists *)
Lemma upd_split {A} (l : list A) i x v : nth_error l i = Some x -> exists l1 l2, l = l1 ++ x :: l2 /\ length l1 = i /\ upd l i v = l1 ++ v :: l2.
Proof.
  intros H. apply nth_error_split in H. destruct H as (l1 & l2 & -> & <-). exists l1, l2. split; [reflexivity|]. split; [reflexivity|].
  induction l1 as [|y l1 IH]; cbn [app length upd]; [reflexivity|]. rewrite IH. reflexivity.
Qed.
Lemma removeAt_split {A} (l1 l2 : list A) x : removeAt (length l1) (l1 ++ x :: l2) = l1 ++ l2.
Proof. unfold removeAt. rewrite firstn_app, PeanoNat.Nat.sub_diag, firstn_all. cbn [firstn]. rewrite app_nil_r. f_equal. replace (S (length l1)) with (length (l1 ++ [x])) by (rewrite app_length; cbn; lia). change (l1 ++ x :: l2) with (l1 ++ [x] ++ l2). rewrite app_assoc, skipn_app, skipn_all, PeanoNat.Nat.sub_diag. reflexivity. Qed.
Lemma map_upd {A B} (f : A -> B) l i v : map f (upd l i v) = upd (map f l) i (f v).
Proof. revert i. induction l as [|x l IH]; intros [|i]; cbn [map upd]; try reflexivity. rewrite IH. reflexivity. Qed.
Lemma assoc_mid k v (s1 s2 : smap) : ~ In k (map fst s1) -> assoc k (s1 ++ (k, v) :: s2) = Some v.
Proof.
  induction s1 as [|[k' v'] s1 IH]; intros H; cbn [app assoc map In fst] in *.
  - destruct (list_eq_dec N.eq_dec k k); congruence.
  - destruct (list_eq_dec N.eq_dec k' k); [exfalso; auto|]. apply IH. auto.
Qed.
Lemma replace_mid k v w (s1 s2 : smap) : ~ In k (map fst s1) -> replace k w (s1 ++ (k, v) :: s2) = s1 ++ (k, w) :: s2.
Proof.
  induction s1 as [|[k' v'] s1 IH]; intros H; cbn [app replace map In fst] in *.
  - destruct (list_eq_dec N.eq_dec k k); congruence.
  - destruct (list_eq_dec N.eq_dec k' k); [exfalso; auto|]. rewrite IH by auto. reflexivity.
Qed.
Lemma without_mid k v (s1 s2 : smap) : ~ In k (map fst s1) -> without k (s1 ++ (k, v) :: s2) = s1 ++ s2.
Proof.
  induction s1 as [|[k' v'] s1 IH]; intros H; cbn [app without map In fst] in *.
  - destruct (list_eq_dec N.eq_dec k k); congruence.
  - destruct (list_eq_dec N.eq_dec k' k); [exfalso; auto|]. rewrite IH by auto. reflexivity.
Qed.
Lemma assoc_none k (s : smap) : assoc k s = None <-> ~ In k (map fst s).
Proof.
  induction s as [|[k' v'] s IH]; cbn [assoc map In fst]; [tauto|]. destruct (list_eq_dec N.eq_dec k' k); [subst; split; [discriminate|tauto]|]. rewrite IH. tauto.
Qed.
Lemma without_none k (s : smap) : assoc k s = None -> without k s = s.
Proof. induction s as [|[k' v'] s IH]; cbn [assoc without]; [reflexivity|]. destruct (list_eq_dec N.eq_dec k' k); [discriminate|]. intros H. rewrite IH by exact H. reflexivity. Qed.

(** *** find *)
Lemma find_from mm k l : Forall (wfE mm) l -> forall i, match findFrom i mm k l with
  | None => ~ In k (map (readKey mm) l)
  | Some j => exists l1 e l2, l = l1 ++ e :: l2 /\ j = (i + length l1)%nat /\ readKey mm e = k /\ ~ In k (map (readKey mm) l1)
  end.
Proof.
  induction l as [|e l IH]; intros W i; cbn [findFrom]; [intros []|]. inversion W as [|? ? W1 W2]; subst. destruct (matches mm k e) eqn:E.
  - exists [], e, l. cbn [app length map In]. split; [reflexivity|]. split; [lia|]. split; [apply matches_key; [apply W1|exact E]|tauto].
  - assert (N : readKey mm e <> k). { intros X. apply (matches_key mm e k) in X; [congruence|apply W1]. }
    specialize (IH W2 (S i)). destruct (findFrom (S i) mm k l) as [j|].
    + destruct IH as (l1 & e' & l2 & -> & -> & E2 & N2). exists (e :: l1), e', l2. split; [reflexivity|]. split; [cbn [length]; lia|]. split; [exact E2|]. cbn [map In]. tauto.
    + cbn [map In]. tauto.
Qed.
Lemma fst_iterate m : map fst (iterate m) = map (readKey (mem m)) (entries m).
Proof. unfold iterate. rewrite map_map. reflexivity. Qed.
Section Alignment.
Context {al : bool}.
Local Notation Inv := (Inv (al := al)).
Lemma find_none m k ex fr : Inv m ex fr -> find m k = None -> assoc k (iterate m) = None /\ ~ In k (map (readKey (mem m)) (entries m)).
Proof.
  intros I E. pose proof (find_from (mem m) k (entries m) (i_ent _ _ _ I) 0) as F. unfold find in E. rewrite E in F. split; [|exact F]. apply assoc_none. rewrite fst_iterate. exact F.
Qed.
Lemma find_some m k i ex fr : Inv m ex fr -> find m k = Some i -> exists l1 e l2, entries m = l1 ++ e :: l2 /\ i = length l1 /\ nth_error (entries m) i = Some e /\ readKey (mem m) e = k /\
  iterate m = map (obs (mem m)) l1 ++ (k, itemOf (mem m) e) :: map (obs (mem m)) l2 /\ ~ In k (map fst (map (obs (mem m)) l1)) /\ assoc k (iterate m) = Some (itemOf (mem m) e).
Proof.
  intros I E. pose proof (find_from (mem m) k (entries m) (i_ent _ _ _ I) 0) as F. unfold find in E. rewrite E in F. destruct F as (l1 & e & l2 & El & Ei & Ek & N). cbn [Nat.add] in Ei.
  assert (N' : ~ In k (map fst (map (obs (mem m)) l1))) by (rewrite map_map; exact N).
  assert (It : iterate m = map (obs (mem m)) l1 ++ (k, itemOf (mem m) e) :: map (obs (mem m)) l2). { rewrite iterate_obs, El, map_app. cbn [map]. unfold obs at 2. rewrite Ek. reflexivity. }
  exists l1, e, l2. split; [exact El|]. split; [exact Ei|]. split. { rewrite El, Ei, nth_error_app2, PeanoNat.Nat.sub_diag by lia. reflexivity. }
  split; [exact Ek|]. split; [exact It|]. split; [exact N'|]. rewrite It. apply assoc_mid. exact N'.
Qed.
Lemma lookup_assoc m k ex fr : Inv m ex fr -> lookup m k = assoc k (iterate m).
Proof.
  intros I. unfold lookup. destruct (find m k) as [i|] eqn:E.
  - destruct (find_some m k i ex fr I E) as (l1 & e & l2 & _ & _ & -> & _ & _ & _ & ->). reflexivity.
  - destruct (find_none m k ex fr I E) as [-> _]. reflexivity.
Qed.

(** *** Changing entries *)
Lemma inv_entries m ex fr es ex' : Inv m ex fr -> 32 + 48 * len es <= poff m -> len es < 65536 -> Forall (wfE (mem m)) es -> NoDup (map (readKey (mem m)) es) ->
  Permutation (ex ++ inUse m) (ex' ++ flat_map regs es) -> Inv (setEntries m es) ex' fr.
Proof.
  intros I L C W N P. assert (Perm : Permutation (ex ++ inUse m ++ fr) (ex' ++ flat_map regs es ++ fr)) by (rewrite !app_assoc; apply Permutation_app_tail; exact P).
  destruct I. constructor; cbn [setEntries ecap poff pcap cap pused entries mem fhead]; auto.
  - tauto.
  - rewrite Forall_forall in *. intros b Hb. apply i_in. eapply Permutation_in; [symmetry; exact Perm|exact Hb].
  - eapply pairwise_perm; [exact Perm|]. assumption.
  - intros Ha. destruct (i_al Ha) as (A1 & A2 & A3). split; [|auto]. rewrite Forall_forall in *. intros b Hb. apply A1. eapply Permutation_in; [symmetry; exact Perm|exact Hb].
Qed.
Lemma upd_entry m ex fr i e e' ex' : Inv m ex fr -> nth_error (entries m) i = Some e -> wfE (mem m) e' -> readKey (mem m) e' = readKey (mem m) e -> Permutation (ex ++ regs e) (ex' ++ regs e') ->
  Inv (setEntries m (upd (entries m) i e')) ex' fr /\ iterate (setEntries m (upd (entries m) i e')) = upd (iterate m) i (obs (mem m) e').
Proof.
  intros I H W K P. destruct (upd_split _ _ _ e' H) as (l1 & l2 & E & Ei & Eu). split.
  - apply (inv_entries m ex fr); [exact I|unfold len; rewrite length_upd; apply (i_slots _ _ _ I)|unfold len; rewrite length_upd; apply (i_cnt _ _ _ I)|..].
    + pose proof (i_ent _ _ _ I) as F. rewrite Eu. rewrite E in F. apply Forall_app in F. destruct F as [F1 F2]. inversion F2; subst. apply Forall_app. auto.
    + pose proof (i_keys _ _ _ I) as F. rewrite E, map_app in F. cbn [map] in F. rewrite Eu, map_app. cbn [map]. rewrite K. exact F.
    + unfold inUse. rewrite Eu, E, !flat_map_app. cbn [flat_map]. transitivity ((ex ++ regs e) ++ flat_map regs l1 ++ flat_map regs l2).
      * rewrite <- app_assoc. apply Permutation_app_head. apply Permutation_app_swap_app.
      * rewrite P, <- app_assoc. apply Permutation_app_head. apply Permutation_app_swap_app.
  - rewrite !iterate_obs. cbn [setEntries entries mem]. apply map_upd.
Qed.

Lemma push_entries m es o l : freeListPush (setEntries m es) o l = bind (freeListPush m o l) (fun m1 => Ok (setEntries m1 es)).
Proof. unfold freeListPush, put. destruct (l <? 8); [reflexivity|]. cbn [setEntries cap fhead]. destruct (_ <=? _); reflexivity. Qed.
Lemma push_keeps_entries m o l m' : freeListPush m o l = Ok m' -> entries m' = entries m.
Proof. unfold freeListPush, put. destruct (l <? 8); [congruence|]. destruct (_ <=? _); cbn [bind]; [|discriminate]. intros E. injection E as <-. reflexivity. Qed.

(** *** Records *)
Lemma image_read mm o vt ct fl c : rd mm o (N.to_nat (alignToRecord (8 + len c))) = recImage vt ct fl c -> 8 + len c + 15 < W32 ->
  dec (rd mm o 4) = alignToRecord (8 + len c) /\ mm (o + 4) = vt /\ mm (o + 5) = ct /\ mm (o + 6) = fl /\ mm (o + 7) = 8 /\
  rd mm (o + 8) (N.to_nat (alignToRecord (8 + len c) - 8)) = c ++ zeros (alignToRecord (8 + len c) - 8 - len c).
Proof.
  intros H L. pose proof (atr_up (8 + len c) L) as A. pose proof (atr_range (8 + len c)) as A2. set (rs := alignToRecord (8 + len c)) in *.
  replace (N.to_nat rs) with (4 + (1 + (1 + (1 + (1 + N.to_nat (rs - 8))))))%nat in H by lia. rewrite !rd_app in H. unfold recImage, recHeader in H. fold rs in H. cbn zeta in H.
  assert (X : forall (a b a' b' : list N), length a = length a' -> a ++ b = a' ++ b' -> a = a' /\ b = b').
  { clear. induction a as [|x a IH]; intros b [|y a'] b' L E; try discriminate; [auto|]. cbn in *. injection E as -> E. injection L as L. destruct (IH b a' b' L E) as [ -> -> ]. auto. }
  rewrite <- !app_assoc in H. cbn [app] in H. apply X in H; [|apply rd_len]. destruct H as [H1 H2]. cbn [rd app] in H2. injection H2 as H3 H4 H5 H6 H7.
  rewrite H1. split; [apply dec_enc4; lia|]. replace (o + 5) with (o + 4 + 1) by lia. replace (o + 6) with (o + 4 + 1 + 1) by lia. replace (o + 7) with (o + 4 + 1 + 1 + 1) by lia. replace (o + 8) with (o + 4 + 1 + 1 + 1 + 1) by lia.
  change (N.of_nat 4) with 4 in *. change (N.of_nat 1) with 1 in *. auto.
Qed.
Lemma trim_pad s n : ~ In 0 s -> 0 < n -> trim (s ++ zeros n) = s.
Proof.
  intros H Hn. induction s as [|b s IH]; cbn [app trim].
  - unfold zeros. replace (N.to_nat n) with (S (N.to_nat (n - 1))) by lia. reflexivity.
  - destruct (N.eqb_spec b 0) as [E|E]; [exfalso; apply H; left; exact E|]. f_equal. apply IH. intros X. apply H. right. exact X.
Qed.
Lemma trim_zeros c n : trim (c ++ zeros n) = trim c.
Proof. induction c as [|b c IH]; cbn [app trim]; [|rewrite IH; reflexivity]. unfold zeros. destruct (N.to_nat n); reflexivity. Qed.
Lemma padded_val c : 8 + len c + 15 < W32 -> padded c = c ++ zeros (alignToRecord (8 + len c) - 8 - len c).
Proof.
  intros H. unfold padded, zeros. do 3 f_equal. rewrite atr_val by exact H. rewrite (proj2 (N.eqb_neq _ 0)) by lia. set (x := 8 + len c). assert (Hx : 8 + len c = x) by reflexivity. clearbody x.
  pose proof (N.div_mod x 16 ltac:(lia)) as D. pose proof (N.mod_lt x 16 ltac:(lia)) as D2. set (q := x / 16) in *. set (r := x mod 16) in *. clearbody q r.
  destruct (N.eq_dec r 0) as [E|E].
  - subst r. rewrite N.sub_0_r. change (16 mod 16) with 0. assert ((x + 15) / 16 = q) by (symmetry; apply (N.div_unique _ 16 q 15); lia). lia.
  - rewrite N.mod_small by lia. assert ((x + 15) / 16 = q + 1) by (symmetry; apply (N.div_unique _ 16 (q + 1) (r - 1)); lia). lia.
Qed.

Definition oldRec (e : entry) : list block := if hasOffset (eFlags e) then [(ePOff e, alignToRecord (ePLen e))] else [].
Definition keyBlk (e : entry) : list block := if eKeyId e =? kSpilledKeyId then [(spillOff e, spillLen e + 1)] else [].
Lemma regs_parts e : regs e = oldRec e ++ keyBlk e. Proof. reflexivity. Qed.
Lemma nth_obs m i e : nth_error (entries m) i = Some e -> nth_error (iterate m) i = Some (obs (mem m) e).
Proof. intros H. rewrite iterate_obs. apply map_nth_error. exact H. Qed.
Lemma wf_rec mm e : wfE mm e -> hasOffset (eFlags e) = true -> ePOff e <> 0 /\ 8 <= ePLen e <= alignToRecord (ePLen e) /\ dec (rd mm (ePOff e) 4) = alignToRecord (ePLen e) /\ mm (ePOff e + 4) = eVT e /\
   shapeOf (eFlags e) (eVT e) (mm (ePOff e + 5)) (mm (ePOff e + 6)) (mm (ePOff e + 7)).
Proof. intros [_ [Z|(_ & V)]] H; [rewrite Z in H; discriminate H|]. exact V. Qed.
(** The entry of a moved map. *)
Lemma moved_entry m m1 i e ex1 fr1 : moved m m1 -> Inv m1 ex1 fr1 -> nth_error (entries m) i = Some e ->
  exists e1, nth_error (entries m1) i = Some e1 /\ e1 = rebaseE (poff m) (poff m1) e /\ wfE (mem m1) e1 /\ obs (mem m1) e1 = obs (mem m) e /\ (blobId m1 = blobId m -> e1 = e).
Proof.
  intros (M1 & M2 & M3 & M4 & _) I1 H. exists (rebaseE (poff m) (poff m1) e). assert (N : nth_error (entries m1) i = Some (rebaseE (poff m) (poff m1) e)) by (rewrite M3; apply map_nth_error; exact H).
  split; [exact N|]. split; [reflexivity|]. split; [pose proof (i_ent _ _ _ I1) as W; rewrite Forall_forall in W; apply W; eapply nth_error_In; exact N|]. split.
  - apply nth_obs in N. apply nth_obs in H. unfold sameObs in M1. rewrite M1, H in N. congruence.
  - intros B. rewrite (M4 B) in N. congruence.
Qed.
Definition showData (vt ct : N) (c : list N) : list N := if (vt =? 14) && (ct =? 2) then trim c else padded c.
Lemma pl_up pl (c : list N) : 8 <= pl <= len c + 24 -> alignToRecord pl = alignToRecord (8 + len c) -> 8 + len c + 15 < W32 -> 8 <= pl <= alignToRecord pl.
Proof.
  intros H E L. split; [lia|]. destruct (N.lt_ge_cases (pl + 15) W32) as [A|A]; [apply atr_up; exact A|]. rewrite W32_val in *.
  assert (A16 : alignToRecord pl = 16). { unfold alignToRecord, add32. rewrite W32_val. replace ((pl + 15) mod 4294967296) with (pl + 15 - 4294967296) by (rewrite <- (N.mod_small (pl + 15 - 4294967296) 4294967296) at 1 by lia; rewrite <- (N.mod_add (pl + 15 - 4294967296) 1 4294967296) by lia; f_equal; lia). rewrite ldiff15, N.div_small by lia. reflexivity. }
  pose proof (atr_up (8 + len c) ltac:(rewrite W32_val; lia)). lia.
Qed.
Lemma store_ok m fr i e vt ct fl ef pl c : Inv m [] fr -> nth_error (entries m) i = Some e -> hasOffset ef = true -> 8 <= pl <= len c + 24 -> alignToRecord pl = alignToRecord (8 + len c) ->
  shapeOf ef vt ct fl 8 ->
  storeAt m i vt ct fl ef pl c = Limit \/ (storeAt m i vt ct fl ef pl c = Ok (markOverflow m, false) /\ cannot m (len c + 24)) \/
  exists m' fr', storeAt m i vt ct fl ef pl c = Ok (m', true) /\ Inv m' [] fr' /\ iterate m' = upd (iterate m) i (readKey (mem m) e, Item vt ct fl (showData vt ct c)) /\
    fixed m' = fixed m /\ len (entries m') = len (entries m).
Proof.
  intros I He Hf Hp Ha Hc. unfold storeAt. rewrite He. destruct (append_record m fr vt ct fl c I) as [E|[[E X]|(m1 & o & fr1 & E & I1 & M1 & R & L)]]; rewrite E; cbn [bind]; [left; reflexivity|right; left; auto|right; right].
  destruct (moved_entry m m1 i e _ _ M1 I1 He) as (e1 & N1 & E1 & W1 & O1 & B1). rewrite N1.
  destruct (inv_block m1 _ fr1 (o, alignToRecord (8 + len c)) I1) as (Q1 & Q2 & Q3 & Q4); [left; reflexivity|]. cbn [fst snd] in Q1, Q2, Q3, Q4.
  destruct (image_read (mem m1) o vt ct fl c R ltac:(lia)) as (R1 & R2 & R3 & R4 & R7 & R5).
  set (e' := setVal e1 vt ef o pl). set (m2 := setEntries m1 (upd (entries m1) i e')).
  assert (Ke : readKey (mem m1) e' = readKey (mem m1) e1) by reflexivity.
  assert (We : wfE (mem m1) e'). { split; [exact (proj1 W1)|]. right. cbn [e' setVal eFlags ePOff ePLen eVT]. rewrite R1, R2, R3, R4, R7. split; [exact Hf|]. split; [lia|]. split; [apply (pl_up pl c); [lia|exact Ha|lia]|]. rewrite Ha. auto. }
  assert (It : itemOf (mem m1) e' = Item vt ct fl (showData vt ct c)).
  { unfold itemOf. cbn [e' setVal eFlags ePOff]. rewrite Hf, (proj2 (N.eqb_neq o 0)) by lia. cbn [andb negb]. rewrite R1, R2, R3, R4, R5. unfold showData. change tString with 14. change cString with 2. rewrite trim_zeros, <- padded_val by lia. reflexivity. }
  destruct (upd_entry m1 [(o, alignToRecord (8 + len c))] fr1 i e1 e' (oldRec e1) I1 N1 We Ke) as [I2 It2].
  { rewrite !regs_parts. change (keyBlk e') with (keyBlk e1). unfold oldRec at 3. cbn [e' setVal eFlags ePOff ePLen]. rewrite Hf, Ha. apply Permutation_app_swap_app. }
  fold m2 in I2, It2. assert (Iter : iterate m2 = upd (iterate m) i (readKey (mem m) e, Item vt ct fl (showData vt ct c))).
  { rewrite It2. unfold obs. rewrite Ke, It. destruct M1 as (S1 & _). unfold sameObs in S1. rewrite S1. injection O1 as -> _. reflexivity. }
  assert (Fx : fixed m2 = fixed m) by (cbn [m2 setEntries fixed]; destruct M1 as (_ & Fx & _); exact Fx).
  assert (Lm : len (entries m2) = len (entries m)). { cbn [m2 setEntries entries]. unfold len. rewrite length_upd. destruct M1 as (_ & _ & M1 & _). rewrite M1, map_length. reflexivity. }
  assert (Fl : eFlags e1 = eFlags e) by (rewrite E1; apply rebaseE_flags). assert (Pl : ePLen e1 = ePLen e) by (rewrite E1; apply rebaseE_len).
  unfold oldRec in I2. rewrite Fl, Pl in I2. destruct (hasOffset (eFlags e)) eqn:Ho.
  - destruct (wf_rec (mem m1) e1 W1) as (_ & V & _); [rewrite Fl; exact Ho|]. rewrite Pl in V. rewrite (proj2 (N.ltb_lt 0 _)) by lia. cbn [andb].
    assert (Old : (if blobId m2 =? blobId m then ePOff e else poff m2 + (ePOff e - poff m)) = ePOff e1).
    { cbn [m2 setEntries blobId poff]. destruct (N.eqb_spec (blobId m1) (blobId m)) as [B|B]; [rewrite (B1 B); reflexivity|]. rewrite E1. symmetry. apply rebaseE_off. exact Ho. }
    rewrite Old. pose proof (atr_range (ePLen e)) as A. destruct (push_ok m2 _ _ _ I2) as (m3 & E3 & I3 & O3 & S3 & _); [cbn [snd]; lia|]. cbn [fst snd] in E3. rewrite E3. cbn [bind].
    exists m3. eexists. split; [reflexivity|]. split; [exact I3|]. destruct S3 as (S1 & _ & _ & _ & S5 & _). split; [unfold sameObs in O3; congruence|]. split; [congruence|]. rewrite S5. exact Lm.
  - cbn [andb]. exists m2, fr1. auto.
Qed.

(** Changing the record of an entry in place. *)
Lemma in_place m fr i e mm' e' : Inv m [] fr -> nth_error (entries m) i = Some e -> hasOffset (eFlags e) = true ->
  (forall x, x < ePOff e \/ ePOff e + alignToRecord (ePLen e) <= x -> mm' x = mem m x) -> eKeyId e' = eKeyId e -> eInline e' = eInline e ->
  oldRec e' = oldRec e -> wfVal mm' e' ->
  Inv (setEntries (setMem m mm') (upd (entries m) i e')) [] fr /\ iterate (setEntries (setMem m mm') (upd (entries m) i e')) = upd (iterate m) i (readKey (mem m) e, itemOf mm' e').
Proof.
  intros I He Hf Hm K1 K2 Ho W. destruct (upd_split _ _ _ e' He) as (l1 & l2 & E & Ei & Eu). pose proof (i_pair _ _ _ I) as P. pose proof (i_in _ _ _ I) as F. pose proof (i_ent _ _ _ I) as We. cbn [app] in P, F.
  assert (Ek : keyBlk e' = keyBlk e) by (unfold keyBlk, spillOff, spillLen; rewrite K1, K2; reflexivity).
  assert (U : inUse m = flat_map regs l1 ++ (oldRec e ++ keyBlk e) ++ flat_map regs l2). { unfold inUse. rewrite E, flat_map_app. reflexivity. }
  assert (Or : oldRec e = [(ePOff e, alignToRecord (ePLen e))]) by (unfold oldRec; rewrite Hf; reflexivity).
  assert (D : forall b, In b (flat_map regs l1 ++ keyBlk e ++ flat_map regs l2 ++ fr) -> sameIn b (mem m) mm').
  { intros b Hb x Hx. apply Hm. rewrite U in P. assert (Perm : Permutation ((flat_map regs l1 ++ (oldRec e ++ keyBlk e) ++ flat_map regs l2) ++ fr) (oldRec e ++ flat_map regs l1 ++ keyBlk e ++ flat_map regs l2 ++ fr)).
    { rewrite <- !app_assoc. apply Permutation_app_swap_app. }
    pose proof (pairwise_perm _ _ Perm P) as Q. rewrite Or in Q. cbn [app] in Q. apply pairwise_cons in Q. destruct Q as [Q _]. rewrite Forall_forall in Q. specialize (Q b Hb). unfold disjoint in Q. cbn [fst snd] in Q. lia. }
  assert (Lo : forall b, In b (inUse m) -> fst b < W32). { intros b Hb. destruct (inv_block m [] fr b I) as (_ & _ & _ & X); [cbn [app]; apply in_or_app; left; exact Hb|]. lia. }
  assert (Oth : forall l, (forall e0, In e0 l -> In e0 (entries m)) -> (forall e0 b, In e0 l -> In b (regs e0) -> In b (flat_map regs l1 ++ keyBlk e ++ flat_map regs l2 ++ fr)) -> Forall (wfE mm') l /\ map (obs mm') l = map (obs (mem m)) l).
  { intros l Hl Hr. rewrite Forall_forall in We. assert (G : forall e0, In e0 l -> wfE mm' e0 /\ obs mm' e0 = obs (mem m) e0).
    { intros e0 H0. apply entry_same; [apply We; auto|..]; apply Forall_forall; intros b Hb; [apply Lo; apply in_flat_map; exists e0; auto|apply D; eapply Hr; eauto]. }
    split; [apply Forall_forall; intros e0 H0; apply G; exact H0|]. apply map_ext_in. intros e0 H0. apply G. exact H0. }
  destruct (Oth l1) as [O1 O2]. { intros e0 H0. rewrite E. apply in_or_app. left. exact H0. } { intros e0 b H0 Hb. apply in_or_app. left. apply in_flat_map. eauto. }
  destruct (Oth l2) as [O3 O4]. { intros e0 H0. rewrite E. apply in_or_app. right. right. exact H0. } { intros e0 b H0 Hb. apply in_or_app. right. apply in_or_app. right. apply in_or_app. left. apply in_flat_map. eauto. }
  assert (Wk : wfKey (mem m) e). { rewrite Forall_forall in We. apply We. eapply nth_error_In. exact He. }
  assert (Kx : wfKey mm' e' /\ readKey mm' e' = readKey (mem m) e).
  { assert (Rs : eKeyId e = kSpilledKeyId -> rd mm' (spillOff e) (N.to_nat (spillLen e)) = rd (mem m) (spillOff e) (N.to_nat (spillLen e))).
    { intros K. apply rd_ext. intros x Hx. apply (D (spillOff e, spillLen e + 1)); [|cbn [fst snd]; lia]. apply in_or_app. right. apply in_or_app. left. unfold keyBlk. rewrite (proj2 (N.eqb_eq _ _) K). left. reflexivity. }
    split.
    - unfold wfKey in *. rewrite K1, K2. destruct Wk as [Wk|[Wk|(Wk & o & l & W1 & W2 & W3 & W4 & W5)]]; [left; exact Wk|right; left; exact Wk|right; right]. split; [exact Wk|]. exists o, l. destruct (spilled_fields e o l W1 W2 W3) as [S1 S2]. specialize (Rs Wk). rewrite S1, S2 in Rs. rewrite Rs. auto 6.
    - unfold readKey, readInline, readSpilled, spillOff, spillLen in *. rewrite K1, K2. destruct (eKeyId e =? kInlineKeyId); [reflexivity|]. destruct (N.eqb_spec (eKeyId e) kSpilledKeyId) as [K|K]; [|reflexivity]. apply Rs. exact K. }
  destruct Kx as [Kx1 Kx2]. split.
  - assert (Re : regs e' = regs e) by (rewrite !regs_parts; congruence).
    assert (U2 : inUse (setEntries (setMem m mm') (upd (entries m) i e')) = inUse m). { unfold inUse. cbn [setEntries setMem entries]. rewrite Eu, E, !flat_map_app. cbn [flat_map]. rewrite Re. reflexivity. }
    destruct I as [i_slots0 i_size0 i_cnt0 i_chain0 i_min0 i_in0 i_pair0 i_ent0 i_keys0 i_al0]. constructor; cbn [app]; rewrite ?U2; cbn [setEntries setMem ecap poff pcap cap pused entries mem fhead]; unfold len; rewrite ?length_upd; auto.
    + apply (fchain_ext (mem m)); [|exact i_chain0]. intros b Hb x Hx. apply (D b); [apply in_or_app; right; apply in_or_app; right; apply in_or_app; right; exact Hb|]. rewrite Forall_forall in i_min0. specialize (i_min0 b Hb). cbn beta in i_min0. cbn [hdr fst snd] in Hx. lia.
    + rewrite Eu. apply Forall_app. split; [exact O1|]. constructor; [split; assumption|exact O3].
    + assert (X : map (readKey mm') (upd (entries m) i e') = map (readKey (mem m)) (entries m)).
      { rewrite Eu, E, !map_app. cbn [map]. rewrite Kx2. assert (Y : forall mm l, map (readKey mm) l = map fst (map (obs mm) l)) by (intros; rewrite map_map; reflexivity). rewrite !Y, O2, O4. reflexivity. }
      rewrite X. exact i_keys0.
  - rewrite !iterate_obs. cbn [setEntries setMem entries mem]. rewrite Eu, E, !map_app. cbn [map]. rewrite O2, O4. unfold obs at 2. rewrite Kx2. rewrite <- Ei, <- (map_length (obs (mem m)) l1).
    generalize (map (obs (mem m)) l1) as q. clear. induction q as [|a q IH]; cbn [app length upd]; [reflexivity|]. rewrite <- IH. reflexivity.
Qed.

(** *** Assigning a value *)
Definition assigned (m m' : vmap) (i : nat) (e : entry) (v : value) : Prop :=
  iterate m' = upd (iterate m) i (readKey (mem m) e, shown v) /\ fixed m' = fixed m /\ len (entries m') = len (entries m).
Lemma upd_same {A} (l : list A) i x : nth_error l i = Some x -> upd l i x = l.
Proof. revert i. induction l as [|y l IH]; intros [|i] H; cbn in *; try discriminate; [congruence|]. rewrite IH by exact H. reflexivity. Qed.
Lemma padded_fit c : len c mod 16 = 8 -> padded c = c.
Proof.
  intros H. unfold padded. replace ((8 + len c) mod 16) with 0. { cbn. apply app_nil_r. }
  symmetry. pose proof (N.div_mod (len c) 16 ltac:(lia)) as D. apply N.mod_divide; [lia|]. exists (len c / 16 + 1). lia.
Qed.
Lemma rec_block m fr i e : Inv m [] fr -> nth_error (entries m) i = Some e -> hasOffset (eFlags e) = true ->
  32 <= ePOff e /\ ePOff e + alignToRecord (ePLen e) <= cap m /\ ePOff e + alignToRecord (ePLen e) < W32 /\ wfE (mem m) e.
Proof.
  intros I He Ho. assert (In e (entries m)) as Hi by (eapply nth_error_In; exact He). pose proof (i_ent _ _ _ I) as W. rewrite Forall_forall in W. specialize (W e Hi).
  destruct (inv_block m [] fr (ePOff e, alignToRecord (ePLen e)) I) as (B1 & B2 & B3 & B4); [|cbn [fst snd] in *; auto]. eapply inv_reg; [exact I|exact Hi|]. unfold regs. rewrite Ho. left. reflexivity.
Qed.
Lemma assign_ok m fr i e v alias : Inv m [] fr -> nth_error (entries m) i = Some e -> goodValue v -> (v = VMono -> eFlags e = 0) ->
  assignValueAt m i v alias = Limit \/ (assignValueAt m i v alias = Ok (markOverflow m, false) /\ cannot m (weight v + 24)) \/
  exists m' fr', assignValueAt m i v alias = Ok (m', true) /\ Inv m' [] fr' /\ assigned m m' i e v.
Proof.
  intros I He G Hm. unfold assignValueAt. rewrite He. cbn zeta. destruct v as [vt ct b|b|b|s|vt b|vt ct fl c|]; cbn [goodValue weight shown] in *.
  - destruct G as (G1 & G2 & G3). assert (Ns : showData vt ct b = b). { unfold showData. rewrite (proj2 (N.eqb_neq vt 14)) by lia. cbn [andb]. apply padded_fit. rewrite G3. reflexivity. }
    destruct (hasOffset (eFlags e)) eqn:Ho; cbn [andb]; [|].
    2:{ destruct (store_ok m fr i e vt ct 0 fOffset 16 b I He eq_refl) as [E|[E|(m' & fr' & E & I' & It & Fx & L)]]; [lia|rewrite G3; reflexivity|rewrite G2; apply shape_scalar; reflexivity|left; exact E|right; left; exact E|right; right]. exists m', fr'. rewrite Ns in It. unfold assigned. cbn [shown]. auto. }
    destruct (negb (ePOff e =? 0) && plain (eFlags e) && (eVT e =? vt) && (alignToRecord (ePLen e) =? 16)) eqn:C.
    2:{ destruct (store_ok m fr i e vt ct 0 fOffset 16 b I He eq_refl) as [E|[E|(m' & fr' & E & I' & It & Fx & L)]]; [lia|rewrite G3; reflexivity|rewrite G2; apply shape_scalar; reflexivity|left; exact E|right; left; exact E|right; right]. exists m', fr'. rewrite Ns in It. unfold assigned. cbn [shown]. auto. }
    rewrite !andb_true_iff, !N.eqb_eq in C. destruct C as (((C1 & C2) & C3) & C4). right. right.
    destruct (rec_block m fr i e I He Ho) as (B1 & B2 & B3 & W). rewrite C4 in B2, B3. destruct (wf_rec _ _ W Ho) as (V1 & V2 & V3 & V4 & V5). destruct (shape_plain _ _ _ _ _ V5 C2) as [V6 V7].
    unfold put. rewrite G3, (proj2 (N.leb_le _ _)) by lia. cbn [bind]. set (mm' := wr (mem m) (ePOff e + 8) b). set (e' := setVal e (eVT e) (eFlags e) (ePOff e) 16).
    assert (Out : forall x, x < ePOff e + 8 \/ ePOff e + 16 <= x -> mm' x = mem m x) by (intros x Hx; apply wr_out; rewrite G3; lia).
    assert (R4 : rd mm' (ePOff e) 4 = rd (mem m) (ePOff e) 4) by (apply rd_ext; intros x Hx; apply Out; lia).
    assert (R8 : rd mm' (ePOff e + 8) 8 = b). { assert (Lb : length b = 8%nat) by (unfold len in G3; lia). rewrite <- Lb. apply rd_wr. }
    destruct (in_place m fr i e mm' e' I He Ho) as [I' It'].
    + rewrite C4. intros x Hx. apply Out. lia.
    + reflexivity.
    + reflexivity.
    + unfold oldRec. cbn [e' setVal eFlags ePOff ePLen]. rewrite Ho, C4. reflexivity.
    + right. cbn [e' setVal eFlags ePOff ePLen eVT]. rewrite R4, !Out by lia. rewrite V3, C4. assert (8 <= 16 <= alignToRecord 16) by (change (alignToRecord 16) with 16; lia). auto 10.
    + exists (setEntries (setMem m mm') (upd (entries m) i e')), fr. split; [reflexivity|]. split; [exact I'|]. unfold assigned. split; [|split; [reflexivity|cbn [setEntries entries]; unfold len; rewrite length_upd; reflexivity]].
      rewrite It'. do 2 f_equal. unfold itemOf. cbn [e' setVal eFlags ePOff shown]. rewrite Ho, (proj2 (N.eqb_neq _ 0) V1). cbn [andb negb]. rewrite R4, V3, C4, !Out by lia. rewrite V4, V6, V7. change (N.to_nat (16 - 8)) with 8%nat. rewrite R8, C3, <- G2.
      change tString with 14. rewrite (proj2 (N.eqb_neq vt 14)) by lia. reflexivity.
  - destruct (store_ok m fr i e tComplex64 cComplex 0 fOffset (8 + len b) b I He eq_refl) as [E|[E|(m' & fr' & E & I' & It & Fx & L)]]; [lia|reflexivity|apply shape_scalar; reflexivity|left; exact E|right; left; exact E|right; right]. exists m', fr'. unfold assigned. auto.
  - destruct (store_ok m fr i e tValue cMap 0 (fOffset + fNested) (8 + len b) b I He eq_refl) as [E|[E|(m' & fr' & E & I' & It & Fx & L)]]; [lia|reflexivity|repeat split; right; left; split; reflexivity|left; exact E|right; left; exact E|right; right]. exists m', fr'. unfold assigned. auto.
  - assert (Stored : storeAt m i tString cString 0 fOffset (8 + len s + 1) (s ++ [0]) = Limit \/ (storeAt m i tString cString 0 fOffset (8 + len s + 1) (s ++ [0]) = Ok (markOverflow m, false) /\ cannot m (len s + 1 + 24)) \/
      exists m' fr', storeAt m i tString cString 0 fOffset (8 + len s + 1) (s ++ [0]) = Ok (m', true) /\ Inv m' [] fr' /\ assigned m m' i e (VString s)).
    { assert (Ls : len (s ++ [0]) = len s + 1) by (rewrite len_app; reflexivity).
      destruct (store_ok m fr i e tString cString 0 fOffset (8 + len s + 1) (s ++ [0]) I He eq_refl) as [E|[E|(m' & fr' & E & I' & It & Fx & L)]]; [lia|rewrite Ls; f_equal; lia|apply (shape_scalar 14); reflexivity|left; exact E|right; left; rewrite Ls in E; exact E|right; right].
      exists m', fr'. unfold assigned. split; [exact E|]. split; [exact I'|]. split; [|auto]. rewrite It. do 2 f_equal. cbn [shown]. unfold showData. change tString with 14. change cString with 2. cbn [N.eqb Pos.eqb andb]. f_equal. apply (trim_pad s 1); [exact G|lia]. }
    destruct (hasOffset (eFlags e)) eqn:Ho; cbn [andb]; [|exact Stored].
    destruct (negb (ePOff e =? 0) && plain (eFlags e) && (eVT e =? tString) && negb alias && (8 + len s + 1 <=? alignToRecord (ePLen e))) eqn:C; [|exact Stored]. clear Stored.
    rewrite !andb_true_iff, !N.eqb_eq, N.leb_le in C. destruct C as ((((C1 & C2) & C3) & C4) & C5). right. right.
    destruct (rec_block m fr i e I He Ho) as (B1 & B2 & B3 & W). destruct (wf_rec _ _ W Ho) as (V1 & V2 & V3 & V4 & V5). pose proof (atr_range (ePLen e)) as A. pose proof (atr_mod (ePLen e)) as A2. set (rs := alignToRecord (ePLen e)) in *.
    set (c := s ++ zeros (rs - 8 - len s)). assert (Lc : 8 + len c = rs) by (unfold c; rewrite len_app, len_zeros; lia). assert (Ar : alignToRecord rs = rs) by (apply atr_id; lia).
    assert (Im : recHeader rs tString cString 0 ++ s ++ zeros (rs - 8 - len s) = recImage tString cString 0 c).
    { unfold recImage. rewrite Lc, Ar. cbn zeta. replace (rs - 8 - len c) with 0 by lia. change (zeros 0) with (@nil N). rewrite app_nil_r. reflexivity. }
    fold c in Im. rewrite Im. assert (Li : len (recImage tString cString 0 c) = rs). { unfold recImage. cbn zeta. rewrite !len_app, len_recHeader, len_zeros, Lc, Ar. lia. }
    unfold put. rewrite Li, (proj2 (N.leb_le _ _)) by lia. cbn [bind]. set (mm' := wr (mem m) (ePOff e) (recImage tString cString 0 c)). set (e' := setVal e tString fOffset (ePOff e) rs).
    assert (R : rd mm' (ePOff e) (N.to_nat (alignToRecord (8 + len c))) = recImage tString cString 0 c). { rewrite Lc, Ar, <- Li at 1. rewrite to_nat_len. apply rd_wr. }
    destruct (image_read mm' (ePOff e) tString cString 0 c R ltac:(lia)) as (R1 & R2 & R3 & R4 & R7 & R5). rewrite Lc, Ar in R1, R5.
    destruct (in_place m fr i e mm' e' I He Ho) as [I' It'].
    + fold rs. intros x Hx. apply wr_out. rewrite Li. lia.
    + reflexivity.
    + reflexivity.
    + unfold oldRec. cbn [e' setVal eFlags ePOff ePLen]. rewrite Ho, Ar. reflexivity.
    + right. cbn [e' setVal eFlags ePOff ePLen eVT]. rewrite R1, R2, R3, R4, R7, Ar. split; [reflexivity|]. split; [lia|]. split; [lia|]. split; [reflexivity|]. split; [reflexivity|]. apply (shape_scalar 14). reflexivity.
    + exists (setEntries (setMem m mm') (upd (entries m) i e')), fr. split; [reflexivity|]. split; [exact I'|]. unfold assigned. split; [|split; [reflexivity|cbn [setEntries entries]; unfold len; rewrite length_upd; reflexivity]].
      rewrite It'. do 2 f_equal. unfold itemOf. cbn [e' setVal eFlags ePOff shown]. change (hasOffset fOffset) with true. rewrite (proj2 (N.eqb_neq _ 0) V1). cbn [andb negb]. rewrite R1, R2, R3, R4, R5.
      change tString with 14. change cString with 2. cbn [N.eqb Pos.eqb andb]. f_equal. rewrite trim_zeros. unfold c. apply trim_pad; [exact G|lia].
  - destruct (store_ok m fr i e vt cTensor fTensor (fOffset + fTensor) (8 + len b) b I He eq_refl) as [E|[E|(m' & fr' & E & I' & It & Fx & L)]]; [lia|reflexivity|apply shape_tensor|left; exact E|right; left; exact E|right; right]. exists m', fr'. unfold assigned. split; [exact E|]. split; [exact I'|]. split; [|auto].
    rewrite It. do 2 f_equal. cbn [shown]. unfold showData. change cTensor with 3. cbn [N.eqb Pos.eqb andb]. rewrite andb_false_r. reflexivity.
  - rename G into G2. set (ef := fOffset + (if (vt =? tValue) && (ct =? cMap) then fNested else 0) + (if ct =? cTensor then fTensor else 0)).
    assert (Hf : hasOffset ef = true) by (unfold ef; destruct ((vt =? tValue) && (ct =? cMap)), (ct =? cTensor); reflexivity).
    assert (Hpl : shapeOf ef vt ct fl 8) by (split; [reflexivity|]; split; [unfold ef, flagsOf, fOffset; reflexivity|exact G2]).
    destruct (store_ok m fr i e vt ct fl ef (8 + len c) c I He Hf) as [E|[E|(m' & fr' & E & I' & It & Fx & L)]]; [lia|reflexivity|exact Hpl|left; exact E|right; left; exact E|right; right]. exists m', fr'. unfold assigned. split; [exact E|]. split; [exact I'|]. split; [|auto].
    exact It.
  - right. right. exists m, fr. split; [reflexivity|]. split; [exact I|]. unfold assigned. split; [|auto]. symmetry. apply upd_same. rewrite (nth_obs m i e He). unfold obs, itemOf. rewrite (Hm eq_refl). reflexivity.
Qed.

(** *** Inserting *)
Lemma moved_len m m' : moved m m' -> len (entries m') = len (entries m).
Proof. intros (_ & _ & E & _). rewrite E. unfold len. rewrite map_length. reflexivity. Qed.
Lemma slot_ok m i : 32 + 48 * (i + 1) <= poff m -> slot m i = Ok tt.
Proof. intros H. unfold slot. rewrite (proj2 (N.leb_le _ _)) by exact H. reflexivity. Qed.
Lemma ensure_ok m fr : Inv m [] fr -> ensureEntrySlot m = Limit \/ (ensureEntrySlot m = Ok (markOverflow m, false) /\ fixed m = true) \/
  exists m1 fr1, ensureEntrySlot m = Ok (m1, true) /\ Inv m1 [] fr1 /\ moved m m1 /\ 32 + 48 * (len (entries m) + 1) <= poff m1 /\ (len (entries m) < 43690 -> len (entries m) + 1 <= ecap m1) /\
    (blobId m1 <> blobId m -> ecap m <= len (entries m) + 1).
Proof.
  intros I. unfold ensureEntrySlot. destruct (i_slots _ _ _ I) as [L1 L2]. destruct (N.leb_spec (ecap m) (len (entries m) + 1)) as [L|L].
  - destruct (fixed m) eqn:Hf; [right; left; auto|]. destruct (grow_ok m fr (len (entries m) + 2) (pused m) false I Hf) as [G|(m1 & fr1 & G & I1 & M1 & U1 & P1 & Q1 & _ & B1 & _ & E1)]; rewrite G; cbn [bind]; [left; reflexivity|right; right].
    exists m1, fr1. split; [reflexivity|]. split; [exact I1|]. split; [exact M1|]. split; [lia|]. split; [|auto]. intros Hs. assert (len (entries m) + 2 <= ecap m1); [apply E1|lia].
    assert (ecap m + ecap m / 2 < 65536); [|lia]. assert (ecap m / 2 <= 43690 / 2) by (apply N.div_le_mono; lia). change (43690 / 2) with 21845 in *. lia.
  - right. right. exists m, fr. split; [reflexivity|]. split; [exact I|]. split; [apply (shape_moved m m [] fr I (shape_refl m)); reflexivity|]. split; [lia|]. split; [lia|]. congruence.
Qed.
Definition freshEntry (k : key) (o : N) : entry :=
  if negb (lookupId k =? 0) then setKey zeroEntry (lookupId k) (eInline zeroEntry)
  else if len k <=? kMaxInlineKeyLength then setKey zeroEntry kInlineKeyId (inlineImg k) else setKey zeroEntry kSpilledKeyId (spillImg o (len k)).
Lemma fresh_flags k o : eFlags (freshEntry k o) = 0.
Proof. unfold freshEntry. destruct (negb _); [reflexivity|]. destruct (_ <=? _); reflexivity. Qed.
Lemma fresh_short mm k o : ~ longKey k -> wfE mm (freshEntry k o) /\ readKey mm (freshEntry k o) = k /\ regs (freshEntry k o) = [].
Proof.
  intros H. unfold freshEntry. destruct (N.eqb_spec (lookupId k) 0) as [E|E]; cbn [negb].
  - destruct (N.leb_spec (len k) kMaxInlineKeyLength) as [L|L]; [|exfalso; apply H; split; [exact E|exact L]]. unfold kMaxInlineKeyLength in L. set (e := setKey zeroEntry kInlineKeyId (inlineImg k)). split; [split; [|left; reflexivity]|split].
    + right. left. split; [reflexivity|]. exists k. auto.
    + unfold readKey. change (eKeyId e) with kInlineKeyId. change (kInlineKeyId =? kInlineKeyId) with true. cbn iota. apply inline_read; [reflexivity|exact L].
    + reflexivity.
  - destruct (lookupId_spec k) as [Z|[Z1 Z2]]; [congruence|]. set (e := setKey zeroEntry (lookupId k) (eInline zeroEntry)). split; [split; [left; exact Z1|left; reflexivity]|split].
    + rewrite readKey_canon by exact Z1. exact Z2.
    + rewrite regs_nospill; [reflexivity|]. cbn [e setKey eKeyId]. change (len kCanonical) with 22 in Z1. unfold kSpilledKeyId. lia.
Qed.
Lemma fresh_long mm k o : longKey k -> o < W32 -> len k < W32 -> rd mm o (length k) = k -> wfE mm (freshEntry k o) /\ readKey mm (freshEntry k o) = k /\ regs (freshEntry k o) = [(o, len k + 1)].
Proof.
  intros [H1 H2] Ho Hl R. unfold freshEntry. rewrite H1. cbn [N.eqb negb]. rewrite (proj2 (N.leb_gt _ _)) by exact H2. set (e := setKey zeroEntry kSpilledKeyId (spillImg o (len k))).
  destruct (spilled_fields e o (len k) eq_refl Ho Hl) as [S1 S2]. assert (R' : rd mm o (N.to_nat (len k)) = k) by (rewrite to_nat_len; exact R). split; [split; [|left; reflexivity]|split].
  - right. right. split; [reflexivity|]. exists o, (len k). rewrite R'. auto 8.
  - unfold readKey. change (eKeyId e) with kSpilledKeyId. change (kSpilledKeyId =? kInlineKeyId) with false. change (kSpilledKeyId =? kSpilledKeyId) with true. cbn iota. unfold readSpilled. rewrite S1, S2. exact R'.
  - unfold regs. change (hasOffset (eFlags e)) with false. change (eKeyId e =? kSpilledKeyId) with true. rewrite S1, S2. reflexivity.
Qed.
Definition longB (k : key) : bool := (lookupId k =? 0) && negb (len k <=? kMaxInlineKeyLength).
Lemma longB_true k : longB k = true <-> longKey k.
Proof. unfold longB, longKey. rewrite andb_true_iff, N.eqb_eq, negb_true_iff, N.leb_gt. reflexivity. Qed.

(** The second half of an insertion: the key is stored, the value is not. *)
Lemma commit_ok m ex fr k v alias o : Inv m ex fr -> wfE (mem m) (freshEntry k o) -> readKey (mem m) (freshEntry k o) = k -> regs (freshEntry k o) = ex -> ~ In k (map (readKey (mem m)) (entries m)) ->
  32 + 48 * (len (entries m) + 1) <= poff m -> len (entries m) + 1 < 65536 -> goodValue v ->
  let run := bind (assignValueAt (setEntries m (entries m ++ [freshEntry k o])) (length (entries m)) v alias)
               (fun r => let (m3, ok3) := r : vmap * bool in if ok3 then bind (sentinel m3) (fun _ => Ok (m3, true)) else Ok (setEntries m3 (removelast (entries m3)), false)) in
  run = Limit \/ (exists m' fr', run = Ok (m', false) /\ Inv m' [] fr' /\ sameObs m m' /\ fixed m' = fixed m /\ cannot m' (weight v + 24)) \/
  exists m' fr', run = Ok (m', true) /\ Inv m' [] fr' /\ iterate m' = iterate m ++ [(k, shown v)] /\ fixed m' = fixed m.
Proof.
  intros I W K R N Ls Lc G run. set (e := freshEntry k o) in *. set (m1 := setEntries m (entries m ++ [e])) in *.
  assert (I1 : Inv m1 [] fr).
  { apply (inv_entries m ex fr); [exact I|rewrite len_app; change (len [e]) with 1; lia|rewrite len_app; change (len [e]) with 1; lia|..].
    - apply Forall_app. split; [apply (i_ent _ _ _ I)|constructor; [exact W|constructor]].
    - rewrite map_app. cbn [map]. rewrite K. pose proof (i_keys _ _ _ I) as ND. apply (Permutation_NoDup (l := k :: map (readKey (mem m)) (entries m))); [|constructor; assumption]. apply Permutation_cons_append.
    - rewrite flat_map_app. cbn [flat_map app]. rewrite R, app_nil_r. apply Permutation_app_comm. }
  assert (N1 : nth_error (entries m1) (length (entries m)) = Some e). { cbn [m1 setEntries entries]. rewrite nth_error_app2, PeanoNat.Nat.sub_diag by lia. reflexivity. }
  assert (It1 : iterate m1 = iterate m ++ [(k, Empty)]). { rewrite !iterate_obs. cbn [m1 setEntries entries mem]. rewrite map_app. cbn [map]. unfold obs at 2. rewrite K. unfold itemOf. unfold e. rewrite fresh_flags. reflexivity. }
  destruct (assign_ok m1 fr _ e v alias I1 N1 G) as [E|[[E X]|(m2 & fr2 & E & I2 & A1 & A2 & A3)]]; [intros _; apply fresh_flags| | |]; unfold run; rewrite E; cbn [bind].
  - left. reflexivity.
  - right. left. eexists. exists fr. split; [reflexivity|]. cbn [markOverflow entries]. change (entries m1) with (entries m ++ [e]). rewrite removelast_last.
    split; [|split; [|split; [reflexivity|exact X]]].
    + destruct (mark_ok m ex fr I) as [I3 _]. clear - I3. induction ex as [|b ex IH]; [|apply IH; eapply drop_ok; exact I3].
      destruct I3; constructor; assumption.
    + unfold sameObs. rewrite !iterate_obs. reflexivity.
  - right. right. rewrite (sentinel_ok m2) by apply (i_slots _ _ _ I2). cbn [bind]. exists m2, fr2. split; [reflexivity|]. split; [exact I2|]. split; [|exact A2].
    change (mem m1) with (mem m) in A1. rewrite A1, K, It1. rewrite <- (map_length (obs (mem m)) (entries m)), <- iterate_obs. generalize (iterate m) as q. clear. induction q as [|a q IH]; cbn [app length upd]; [reflexivity|]. rewrite IH. reflexivity.
Qed.
Lemma keys_moved m m' : sameObs m m' -> map (readKey (mem m')) (entries m') = map (readKey (mem m)) (entries m).
Proof. intros H. rewrite <- !fst_iterate. f_equal. exact H. Qed.
Lemma insert_ok m fr k v alias : Inv m [] fr -> find m k = None -> goodValue v -> room (iterate m) k -> alias = false -> (al = true -> ~ longKey k) ->
  insertNew m k v alias = Limit \/ (exists m' fr', insertNew m k v alias = Ok (m', false) /\ Inv m' [] fr' /\ sameObs m m' /\ fixed m' = fixed m /\ cannot m' (len k + weight v + 32)) \/
  exists m' fr', insertNew m k v alias = Ok (m', true) /\ Inv m' [] fr' /\ iterate m' = iterate m ++ [(k, shown v)] /\ fixed m' = fixed m.
Proof.
  intros I F G [R1 R2] -> Hal. destruct (find_none m k [] fr I F) as [_ Nk]. assert (Ll : len (iterate m) = len (entries m)) by (rewrite iterate_obs; unfold len; rewrite map_length; reflexivity). rewrite Ll in R1, R2.
  unfold insertNew. destruct (ensure_ok m fr I) as [E|[[E X]|(m1 & fr1 & E & I1 & M1 & S1 & C1 & _)]]; rewrite E; cbn [bind negb].
  - left. reflexivity.
  - right. left. destruct (mark_ok m [] fr I) as [I' K']. exists (markOverflow m), fr. split; [reflexivity|]. split; [exact I'|]. split; [apply K'|]. split; [reflexivity|left; exact X].
  - pose proof (moved_len m m1 M1) as L1. rewrite (slot_ok m1) by lia. cbn [bind andb].
    assert (Fx1 : fixed m1 = fixed m) by apply M1. assert (O1 : sameObs m m1) by apply M1.
    assert (Nk1 : ~ In k (map (readKey (mem m1)) (entries m1))) by (rewrite (keys_moved m m1 O1); exact Nk).
    rewrite (proj2 (N.eqb_neq (len (entries m1) + 1) (2 ^ 16))) by (change (2 ^ 16) with 65536; lia).
    assert (Done : forall m2 ex2 fr2 o, moved m1 m2 -> Inv m2 ex2 fr2 -> wfE (mem m2) (freshEntry k o) -> readKey (mem m2) (freshEntry k o) = k -> regs (freshEntry k o) = ex2 -> 32 + 48 * (len (entries m) + 1) <= poff m2 ->
      let run := bind (assignValueAt (setEntries m2 (entries m2 ++ [freshEntry k o])) (length (entries m2)) v false)
               (fun r => let (m3, ok3) := r : vmap * bool in if ok3 then bind (sentinel m3) (fun _ => Ok (m3, true)) else Ok (setEntries m3 (removelast (entries m3)), false)) in
      run = Limit \/ (exists m' fr', run = Ok (m', false) /\ Inv m' [] fr' /\ sameObs m m' /\ fixed m' = fixed m /\ cannot m' (len k + weight v + 32)) \/
      exists m' fr', run = Ok (m', true) /\ Inv m' [] fr' /\ iterate m' = iterate m ++ [(k, shown v)] /\ fixed m' = fixed m).
    { intros m2 ex2 fr2 o M2 I2 W2 K2 Rg S2 run. pose proof (moved_len m1 m2 M2) as L2. assert (O2 : sameObs m1 m2) by apply M2. assert (Fx2 : fixed m2 = fixed m1) by apply M2.
      destruct (commit_ok m2 ex2 fr2 k v false o I2 W2 K2 Rg) as [Q|[(m' & fr' & Q & Q1 & Q2 & Q3 & Q4)|(m' & fr' & Q & Q1 & Q2 & Q3)]].
      - rewrite (keys_moved m1 m2 O2). exact Nk1.
      - lia.
      - lia.
      - exact G.
      - left. exact Q.
      - right. left. exists m', fr'. split; [exact Q|]. split; [exact Q1|]. unfold sameObs in *. split; [congruence|]. split; [congruence|]. destruct Q4 as [Q4|Q4]; [left; exact Q4|right; lia].
      - right. right. exists m', fr'. split; [exact Q|]. split; [exact Q1|]. unfold sameObs in *. split; congruence. }
    destruct (longB k) eqn:Lg.
    + apply longB_true in Lg. assert (Ha : al = false) by (destruct al; [exfalso; apply (Hal eq_refl); exact Lg|reflexivity]). destruct (Lg) as [Lg1 Lg2]. rewrite Lg1. cbn [N.eqb negb]. rewrite (proj2 (N.leb_gt (len k) kMaxInlineKeyLength)) by exact Lg2.
      destruct (append_payload m1 fr1 k 1 I1 ltac:(lia) Ha) as [P|[[P X]|(m2 & o & fr2 & P & I2 & M2 & Rd & Lk & Sl)]]; rewrite P; cbn [bind].
      * left. reflexivity.
      * right. left. destruct (mark_ok m1 [] fr1 I1) as [I' K']. exists (markOverflow m1), fr1. split; [reflexivity|]. split; [exact I'|]. destruct K' as (K1 & K2 & _). unfold sameObs in *. split; [congruence|]. split; [congruence|].
        destruct X as [X|X]; [left; exact X|right; cbn [markOverflow pused]; lia].
      * specialize (R2 Lg). specialize (C1 R2). rewrite (slot_ok m2) by lia. cbn [bind].
        destruct (inv_block m2 _ fr2 (o, len k + 1) I2 (or_introl eq_refl)) as (B1 & B2 & B3 & B4). cbn [fst snd] in B1, B2, B3, B4.
        destruct (fresh_long (mem m2) k o Lg ltac:(lia) ltac:(lia) Rd) as (W2 & K2 & Rg2).
        pose proof (Done m2 _ fr2 o M2 I2 W2 K2 Rg2 ltac:(lia)) as D. unfold freshEntry in D. rewrite Lg1 in D. cbn [N.eqb negb] in D. rewrite (proj2 (N.leb_gt (len k) kMaxInlineKeyLength)) in D by exact Lg2. exact D.
    + assert (Ns : ~ longKey k) by (intros X; apply longB_true in X; congruence). destruct (fresh_short (mem m1) k 0 Ns) as (W2 & K2 & Rg2).
      pose proof (Done m1 [] fr1 0 ltac:(apply (shape_moved m1 m1 [] fr1 I1 (shape_refl m1)); reflexivity) I1 W2 K2 Rg2 ltac:(lia)) as D. unfold freshEntry in D.
      destruct (N.eqb_spec (lookupId k) 0) as [Z|Z]; cbn [negb bind] in *; [|exact D]. destruct (N.leb_spec (len k) kMaxInlineKeyLength) as [Z2|Z2]; cbn [bind]; [exact D|]. exfalso. apply Ns. split; assumption.
Qed.

(** *** Removing *)
Lemma reclaim_ok m e fr : Inv m (regs e) fr -> (hasOffset (eFlags e) = true -> 0 < ePLen e) -> (eKeyId e = kSpilledKeyId -> 34 < spillLen e) ->
  exists m' fr', reclaimEntry m e = Ok m' /\ Inv m' [] fr' /\ sameObs m m' /\ shape m m'.
Proof.
  intros I H1 H2. unfold reclaimEntry. rewrite regs_parts in I.
  assert (S : exists m1 fr1, (if hasOffset (eFlags e) && (0 <? ePLen e) then freeListPush m (ePOff e) (alignToRecord (ePLen e)) else Ok m) = Ok m1 /\ Inv m1 (keyBlk e) fr1 /\ sameObs m m1 /\ shape m m1).
  { unfold oldRec in I. destruct (hasOffset (eFlags e)) eqn:Ho.
    - rewrite (proj2 (N.ltb_lt 0 _) (H1 eq_refl)). cbn [andb]. cbn [app] in I. pose proof (atr_range (ePLen e)). destruct (push_ok m _ _ _ I) as (m1 & E & I1 & O1 & S1 & _); [cbn [snd]; lia|]. cbn [fst snd] in E. rewrite E. exists m1. eexists. split; [reflexivity|]. split; [exact I1|]. split; [exact O1|exact S1].
    - exists m, fr. split; [reflexivity|]. split; [exact I|]. split; [reflexivity|apply shape_refl]. }
  destruct S as (m1 & fr1 & E & I1 & O1 & S1). rewrite E. cbn [bind]. unfold keyBlk in I1. destruct (N.eqb_spec (eKeyId e) kSpilledKeyId) as [K|K].
  - specialize (H2 K). destruct (push_ok m1 _ _ _ I1) as (m2 & E2 & I2 & O2 & S2 & _); [cbn [snd]; lia|]. cbn [fst snd] in E2. exists m2. eexists. split; [exact E2|]. split; [exact I2|]. split; [unfold sameObs in *; congruence|]. eapply shape_trans; eassumption.
  - exists m1, fr1. split; [reflexivity|]. split; [exact I1|]. split; assumption.
Qed.
Lemma reclaim_entries m es e : reclaimEntry (setEntries m es) e = bind (reclaimEntry m e) (fun m1 => Ok (setEntries m1 es)).
Proof.
  unfold reclaimEntry. destruct (hasOffset (eFlags e) && (0 <? ePLen e)).
  - rewrite push_entries. destruct (freeListPush m (ePOff e) (alignToRecord (ePLen e))) as [m1| |]; cbn [bind]; [|reflexivity|reflexivity]. destruct (eKeyId e =? kSpilledKeyId); [|reflexivity]. apply push_entries.
  - cbn [bind]. destruct (eKeyId e =? kSpilledKeyId); [|reflexivity]. apply push_entries.
Qed.
Lemma reclaim_same m e m' : reclaimEntry m e = Ok m' -> entries m' = entries m.
Proof.
  unfold reclaimEntry. destruct (hasOffset (eFlags e) && (0 <? ePLen e)); cbn [bind].
  - destruct (freeListPush m (ePOff e) (alignToRecord (ePLen e))) as [m1| |] eqn:E; cbn [bind]; try discriminate. apply push_keeps_entries in E. destruct (eKeyId e =? kSpilledKeyId); [|congruence]. intros H. apply push_keeps_entries in H. congruence.
  - destruct (eKeyId e =? kSpilledKeyId); [|congruence]. apply push_keeps_entries.
Qed.
Lemma erase_ok m fr i e : Inv m [] fr -> nth_error (entries m) i = Some e -> exists m' fr', eraseAt m i = Ok m' /\ Inv m' [] fr' /\ iterate m' = removeAt i (iterate m) /\ fixed m' = fixed m.
Proof.
  intros I He. unfold eraseAt. rewrite He. destruct (nth_error_split _ _ He) as (l1 & l2 & El & Ei). pose proof (i_ent _ _ _ I) as W. pose proof (i_keys _ _ _ I) as K.
  assert (Rm : removeAt i (entries m) = l1 ++ l2) by (rewrite El, <- Ei; apply removeAt_split). set (m0 := setEntries m (l1 ++ l2)).
  assert (Ln : len (l1 ++ l2) < len (entries m)) by (rewrite El; unfold len; rewrite !app_length; cbn [length]; lia).
  assert (I0 : Inv m0 (regs e) fr).
  { destruct (i_slots _ _ _ I) as [L1 L2]. pose proof (i_cnt _ _ _ I) as C. apply (inv_entries m [] fr); [exact I|lia|lia|..].
    - rewrite El in W. apply Forall_app in W. destruct W as [W1 W2]. inversion W2; subst. apply Forall_app. auto.
    - rewrite El, map_app in K. cbn [map] in K. rewrite map_app. eapply NoDup_remove_1. exact K.
    - cbn [app]. unfold inUse. rewrite El, !flat_map_app. cbn [flat_map]. apply Permutation_app_swap_app. }
  assert (We : wfE (mem m) e) by (rewrite Forall_forall in W; apply W; eapply nth_error_In; exact He).
  destruct (reclaim_ok m0 e fr I0) as (m1 & fr1 & E & I1 & O1 & S1).
  { intros Ho. destruct (wf_rec _ _ We Ho) as (_ & V & _). lia. }
  { intros Hk. destruct (wf_spill _ _ (proj1 We) Hk) as (_ & _ & _ & V & _). exact V. }
  unfold m0 in E. rewrite reclaim_entries in E. destruct (reclaimEntry m e) as [m2| |] eqn:E2; cbn [bind] in E; try discriminate. injection E as E. cbn [bind]. rewrite (reclaim_same _ _ _ E2), Rm, E.
  rewrite (sentinel_ok m1) by apply (i_slots _ _ _ I1). cbn [bind]. exists m1, fr1. split; [reflexivity|]. split; [exact I1|]. split; [|apply S1].
  unfold sameObs in O1. rewrite O1. rewrite !iterate_obs. cbn [m0 setEntries entries mem]. rewrite El, !map_app. cbn [map]. rewrite <- Ei, <- (map_length (obs (mem m)) l1), removeAt_split. reflexivity.
Qed.
Lemma empty_inv m : entries m = [] -> fhead m = 0 -> 32 + 48 * ecap m <= poff m -> poff m + pcap m <= cap m -> cap m < W32 -> pused m <= pcap m -> (al = true -> poff m mod 16 = 0) -> pused m = 0 -> Inv m [] [].
Proof.
  intros E F H1 H2 H3 H4 H5 H6. constructor; unfold inUse; rewrite ?E; cbn [app flat_map map fchain]; auto; try (constructor; fail).
  - change (len (@nil entry)) with 0. lia.
  - intros Ha. rewrite H6. auto.
Qed.
Lemma clear_ok m ex fr : Inv m ex fr -> exists m', clear m = Ok m' /\ Inv m' [] [] /\ iterate m' = [] /\ fixed m' = fixed m.
Proof.
  intros I. unfold clear. set (m1 := setFhead (setUsed (setEntries m []) 0) 0). destruct (i_slots _ _ _ I) as [L1 L2]. destruct (i_size _ _ _ I) as (Z1 & Z2 & Z3).
  assert (I1 : Inv m1 [] []). { apply empty_inv; cbn [m1 setFhead setUsed setEntries entries fhead ecap poff pcap cap pused]; auto; try lia. intros Ha. apply (i_al _ _ _ I Ha). }
  rewrite (sentinel_ok m1) by exact L1. cbn [bind]. exists m1. split; [reflexivity|]. split; [exact I1|]. split; reflexivity.
Qed.
Lemma resize_ok m fr req np sh : Inv m [] fr -> grow m req np sh = Limit \/ exists m' fr', grow m req np sh = Ok m' /\ Inv m' [] fr' /\ sameObs m m' /\ fixed m' = fixed m.
Proof.
  intros I. destruct (fixed m) eqn:Hf.
  - right. unfold grow. rewrite Hf. destruct (mark_ok m [] fr I) as [I' K']. exists (markOverflow m), fr. split; [reflexivity|]. split; [exact I'|]. split; [apply K'|exact Hf].
  - destruct (grow_ok m fr req np sh I Hf) as [G|(m' & fr' & G & I' & M' & _)]; [left; exact G|right]. exists m', fr'. split; [exact G|]. split; [exact I'|]. split; [apply M'|]. rewrite <- Hf. apply M'.
Qed.

(** *** The refinement *)
(** Bytes an operation brings. *)
Definition refusedWhy (m : vmap) (o : op) (r : outcome) : Prop :=
  match o with OEmplace _ _ _ | OAssign _ _ _ => r = Refused -> fixed m = true \/ W32 <= pused m + bytesOfOp o + 64 | _ => True end.
Lemma cannot_weaken m a b : cannot m a -> a <= b -> fixed m = true \/ W32 <= pused m + b + 32.
Proof. intros [H|H] L; [left; exact H|right; lia]. Qed.
Lemma upd_mid {A} (l1 l2 : list A) x v : upd (l1 ++ x :: l2) (length l1) v = l1 ++ v :: l2.
Proof. induction l1 as [|a l1 IH]; cbn [app length upd]; [reflexivity|]. rewrite IH. reflexivity. Qed.
Theorem step_ok m fr o : Inv m [] fr -> legal (iterate m) o -> (al = true -> shortKeys o) -> exec m o = Limit \/
  exists m' r fr', exec m o = Ok (m', r) /\ Inv m' [] fr' /\ iterate m' = after (iterate m) o r /\ answers (iterate m) o r /\ fixed m' = fixed m /\ refusedWhy m' o r.
Proof.
  intros I L Hs. destruct o as [k v ali|k v ali|k| |n p|]; cbn [exec legal after apply answers refusedWhy bytesOfOp shortKeys] in *.
  - destruct L as (G & R & A). unfold emplace. destruct (find m k) as [i|] eqn:F.
    + destruct (find_some m k i [] fr I F) as (_ & e & _ & _ & _ & _ & _ & _ & _ & As). right. exists m, Existing, fr. cbn [after apply]. rewrite As. split; [reflexivity|]. split; [exact I|]. repeat split; discriminate.
    + destruct (find_none m k [] fr I F) as [As _]. assert (ali = false) as Al by (destruct ali; [exfalso; apply (A eq_refl); exact As|reflexivity]).
      destruct (insert_ok m fr k v ali I F G R Al Hs) as [E|[(m' & fr' & E & I' & O' & Fx & X)|(m' & fr' & E & I' & It & Fx)]]; rewrite E; cbn [bind]; [left; reflexivity|right|right].
      * exists m', Refused, fr'. split; [reflexivity|]. split; [exact I'|]. split; [exact O'|]. split; [exact Logic.I|]. split; [exact Fx|]. intros _. destruct (cannot_weaken _ _ (len k + weight v + 32) X ltac:(lia)) as [Y|Y]; [left; exact Y|right; lia].
      * exists m', Inserted, fr'. cbn [after apply]. rewrite As. split; [reflexivity|]. split; [exact I'|]. split; [exact It|]. split; [reflexivity|]. split; [exact Fx|]. discriminate.
  - destruct L as (G & R & A & Mo). unfold insertOrAssign. destruct (find m k) as [i|] eqn:F.
    + destruct (find_some m k i [] fr I F) as (l1 & e & l2 & El & Ei & Ne & Ke & It & Ni & As). assert (Hv : v = VMono -> eFlags e = 0) by (intros X; specialize (Mo X); congruence).
      destruct (assign_ok m fr i e v ali I Ne G Hv) as [E|[[E X]|(m' & fr' & E & I' & A1 & A2 & A3)]]; rewrite E; cbn [bind]; [left; reflexivity|right|right].
      * destruct (mark_ok m [] fr I) as [I' K']. exists (markOverflow m), Refused, fr. split; [reflexivity|]. split; [exact I'|]. split; [apply K'|]. split; [exact Logic.I|]. split; [reflexivity|]. intros _. destruct X as [X|X]; [left; exact X|right; cbn [markOverflow pused]; lia].
      * exists m', Existing, fr'. cbn [after apply]. rewrite As. split; [reflexivity|]. split; [exact I'|]. split; [|split; [discriminate|split; [exact A2|discriminate]]].
        rewrite A1, Ke, It. rewrite Ei, <- (map_length (obs (mem m)) l1). rewrite upd_mid, replace_mid by exact Ni. reflexivity.
    + destruct (find_none m k [] fr I F) as [As _]. assert (ali = false) as Al by (destruct ali; [exfalso; apply (A eq_refl); exact As|reflexivity]).
      destruct (insert_ok m fr k v ali I F G R Al Hs) as [E|[(m' & fr' & E & I' & O' & Fx & X)|(m' & fr' & E & I' & It & Fx)]]; rewrite E; cbn [bind]; [left; reflexivity|right|right].
      * exists m', Refused, fr'. split; [reflexivity|]. split; [exact I'|]. split; [exact O'|]. split; [exact Logic.I|]. split; [exact Fx|]. intros _. destruct (cannot_weaken _ _ (len k + weight v + 32) X ltac:(lia)) as [Y|Y]; [left; exact Y|right; lia].
      * exists m', Inserted, fr'. cbn [after apply]. rewrite As. split; [reflexivity|]. split; [exact I'|]. split; [exact It|]. split; [reflexivity|]. split; [exact Fx|]. discriminate.
  - right. unfold erase. destruct (find m k) as [i|] eqn:F.
    + destruct (find_some m k i [] fr I F) as (l1 & e & l2 & El & Ei & Ne & Ke & It & Ni & As). destruct (erase_ok m fr i e I Ne) as (m' & fr' & E & I' & It' & Fx). rewrite E. cbn [bind fst snd].
      exists m', Existing, fr'. split; [reflexivity|]. split; [exact I'|]. split; [|split; [congruence|auto]]. cbn [after apply]. rewrite It', It. rewrite Ei, <- (map_length (obs (mem m)) l1), removeAt_split, without_mid by exact Ni. reflexivity.
    + destruct (find_none m k [] fr I F) as [As _]. cbn [bind fst snd]. exists m, Refused, fr. split; [reflexivity|]. split; [exact I|]. auto.
  - right. destruct (clear_ok m [] fr I) as (m' & E & I' & It & Fx). rewrite E. cbn [bind]. exists m', Existing, []. split; [reflexivity|]. split; [exact I'|]. auto.
  - unfold reserve. destruct (_ || _).
    + destruct (resize_ok m fr (N.max (n + 1) (len (entries m) + 1)) p false I) as [E|(m' & fr' & E & I' & O' & Fx)]; rewrite E; cbn [bind]; [left; reflexivity|right]. exists m', Existing, fr'. split; [reflexivity|]. split; [exact I'|]. auto.
    + right. cbn [bind]. exists m, Existing, fr. split; [reflexivity|]. split; [exact I|]. auto.
  - unfold shrinkToFit. destruct (resize_ok m fr (len (entries m)) (pused m) true I) as [E|(m' & fr' & E & I' & O' & Fx)]; rewrite E; cbn [bind]; [left; reflexivity|right]. exists m', Existing, fr'. split; [reflexivity|]. split; [exact I'|]. auto.
Qed.

Lemma new_ok n p jk m : allocateBlob n p jk = Ok m -> Inv m [] [] /\ iterate m = [].
Proof.
  unfold allocateBlob. destruct (N.leb_spec W32 (32 + 48 * n + p)) as [L|L]; [discriminate|]. set (m0 := {| fixed := false |}). assert (Hm : n mod 2 ^ 16 <= n) by (apply N.mod_le; discriminate).
  rewrite (sentinel_ok m0) by (cbn [m0 ecap poff]; lia). cbn [bind]. intros E. injection E as <-. split; [|reflexivity]. apply empty_inv; cbn [m0 entries fhead ecap poff pcap cap pused]; auto; lia.
Qed.
Lemma at_ok size n p jk m : makeAt size n p jk = Some m -> Inv m [] [] /\ iterate m = [] /\ fixed m = true.
Proof.
  unfold makeAt. destruct ((n =? 0) || (2 ^ 16 - 1 <? n)) eqn:C; [discriminate|]. destruct ((W32 - 1 <? 32 + 48 * n + p) || (size <? 32 + 48 * n + p)) eqn:D; [discriminate|]. apply orb_false_iff in C, D. destruct C as [C1 C2], D as [D1 D2]. apply N.eqb_neq in C1. apply N.ltb_ge in C2, D1, D2.
  assert (W32 <> 0) by discriminate. set (m0 := {| fixed := true |}). intros E. assert (X : m = m0) by congruence. subst m. split; [|split; reflexivity]. apply empty_inv; cbn [m0 entries fhead ecap poff pcap cap pused]; auto; lia.
Qed.
Lemma copy_ok m fr jk : Inv m [] fr -> Inv (copyOf m jk) [] fr /\ iterate (copyOf m jk) = iterate m.
Proof. intros I. split; [destruct I; constructor; assumption|reflexivity]. Qed.
Lemma assignMap_ok d frd m fr : Inv d [] frd -> Inv m [] fr -> Inv (assignMap d m) [] fr /\ iterate (assignMap d m) = iterate m.
Proof.
  intros Id I. unfold assignMap. destruct (N.leb_spec (cap m) (cap d)) as [L|L]; [|apply copy_ok; exact I].
  set (mm := fun x => if x <? cap m then mem m x else mem d x). assert (S : forall x, x < cap m -> mm x = mem m x) by (intros x Hx; unfold mm; rewrite (proj2 (N.ltb_lt _ _)) by exact Hx; reflexivity).
  destruct (inv_change m [] fr (setMem m mm) [] fr I) as [I1 O1].
  - unfold shape. cbn. auto 12.
  - intros b Hb x Hx. cbn [setMem mem]. apply S. destruct (inv_block m [] fr b I) as (_ & _ & B & _); [cbn [app]; apply in_or_app; left; exact Hb|]. lia.
  - cbn [setMem mem fhead]. apply (fchain_ext (mem m)); [|apply (i_chain _ _ _ I)]. intros b Hb x Hx. apply S. pose proof (i_min _ _ _ I) as M. rewrite Forall_forall in M. specialize (M b Hb). cbn beta in M. cbn [hdr fst snd] in Hx.
    destruct (inv_block m [] fr b I) as (_ & _ & B & _); [cbn [app]; apply in_or_app; right; exact Hb|]. lia.
  - apply (i_min _ _ _ I).
  - cbn [app]. pose proof (i_in _ _ _ I) as F. cbn [app] in F. apply Forall_app in F. tauto.
  - apply (i_pair _ _ _ I).
  - intros Ha. destruct (i_al _ _ _ I Ha) as (A1 & _). cbn [app] in *. rewrite Forall_app in A1. tauto.
  - split; [|exact O1]. destruct (i_size _ _ _ Id) as (_ & Zd & _). destruct I1. constructor; cbn [app setMem ecap poff pcap cap pused entries mem fhead] in *; auto. lia.
Qed.
End Alignment.
Theorem reach_inv al (P : op -> Prop) m s : (al = true -> forall o, P o -> shortKeys o) -> reachBy P m s -> exists fr, Inv (al := al) m [] fr /\ iterate m = s.
Proof.
  intros HP. induction 1 as [n p jk m E|size n p jk m E|m s jk R (fr & I & It)|d sd m s Rd (frd & Id & Itd) R (fr & I & It) Fd Fm|m s a jk m' R (fr & I & It) E|m s o m' r R (fr & I & It) Po L E].
  - destruct (new_ok (al := al) n p jk m E) as [I It]. eauto.
  - destruct (at_ok (al := al) size n p jk m E) as (I & It & _). eauto.
  - destruct (copy_ok m fr jk I) as [I' It']. exists fr. split; [exact I'|congruence].
  - destruct (assignMap_ok d frd m fr Id I) as [I' It']. exists fr. split; [exact I'|congruence].
  - apply fromBlob_some in E. subst m'. destruct (restored m fr a jk I) as [I' It']. exists fr. split; [exact I'|congruence].
  - subst s. destruct (step_ok m fr o I L (fun Ha => HP Ha o Po)) as [X|(m2 & r2 & fr2 & X & I2 & It2 & _)]; rewrite X in E; [discriminate|]. injection E as <- <-. eauto.
Qed.
