(** Invariant of the property map; the free list and growing. *)
From Coq Require Import List NArith Lia Bool Permutation ZifyBool ZifyN ZifyNat.
From Verif Require Import Base WireModel WireProofs ChunkModel ChunkSpec ChunkPoolProofs ChunkProofs AllocProofs ValueMapModel ValueMapSpec ValueMapPool.
Import ListNotations.
Local Open Scope N_scope.

(** *** Keys *)
Lemma keyEq_true a b : keyEq a b = true <-> a = b.
Proof. unfold keyEq. destruct (list_eq_dec N.eq_dec a b); split; congruence. Qed.
Lemma idFrom_spec l k : forall i, 0 < i -> idFrom i l k = 0 \/ (i <= idFrom i l k < i + len l /\ nth (N.to_nat (idFrom i l k - i)) l [] = k).
Proof.
  induction l as [|n l IH]; intros i Hi; cbn [idFrom]; [auto|]. destruct (keyEq n k) eqn:E.
  - right. rewrite ChunkPoolProofs.len_cons, N.sub_diag. split; [lia|]. apply keyEq_true in E. exact E.
  - destruct (IH (i + 1) ltac:(lia)) as [Z|[Z1 Z2]]; [left; exact Z|right]. rewrite ChunkPoolProofs.len_cons. split; [lia|].
    replace (N.to_nat (idFrom (i + 1) l k - i)) with (S (N.to_nat (idFrom (i + 1) l k - (i + 1)))) by lia. exact Z2.
Qed.
Lemma lookupId_spec k : lookupId k = 0 \/ (1 <= lookupId k <= len kCanonical /\ nth (N.to_nat (lookupId k - 1)) kCanonical [] = k).
Proof.
  assert (X : lookupId k = 0 \/ lookupId k = idFrom 1 kCanonical k).
  { unfold lookupId. repeat (match goal with |- context [match ?x with _ => _ end] => destruct x end; auto). }
  destruct X as [X|X]; [left; exact X|]. rewrite X. destruct (idFrom_spec kCanonical k 1 ltac:(lia)) as [Z|[Z1 Z2]]; [left; exact Z|right]. split; [lia|exact Z2].
Qed.
Lemma canonical_ids : forallb (fun i => lookupId (nth i kCanonical []) =? N.of_nat i + 1) (seq 0 22) = true.
Proof. vm_compute. reflexivity. Qed.
Lemma lookupId_nth i : 1 <= i <= len kCanonical -> lookupId (nth (N.to_nat (i - 1)) kCanonical []) = i.
Proof.
  intros H. change (len kCanonical) with 22 in H. pose proof canonical_ids as C. rewrite forallb_forall in C. specialize (C (N.to_nat (i - 1))). rewrite in_seq in C. specialize (C ltac:(lia)). apply N.eqb_eq in C. lia.
Qed.

(** *** Entries *)
Definition wfKey (mm : memory) (e : entry) : Prop :=
  1 <= eKeyId e <= len kCanonical \/
  (eKeyId e = kInlineKeyId /\ exists k, eInline e = inlineImg k /\ len k <= 34 /\ lookupId k = 0) \/
  (eKeyId e = kSpilledKeyId /\ exists o l, eInline e = spillImg o l /\ o < W32 /\ l < W32 /\ 34 < l /\ lookupId (rd mm o (N.to_nat l)) = 0).
(** How entry flags, value type, container type, record flags and payload offset of the record go together. *)
Definition flagsOf (vt ct : N) : N := 2 + (if (vt =? 15) && (ct =? 4) then 8 else 0) + (if ct =? 3 then 16 else 0).
Definition shapeOf (fl vt ct rf po : N) : Prop := po = 8 /\ fl = flagsOf vt ct /\ (ct = 3 \/ (ct = 4 /\ vt = 15) \/ (ct = containerOf vt /\ rf = 0)).
Lemma shape_plain fl vt ct rf po : shapeOf fl vt ct rf po -> plain fl = true -> ct = containerOf vt /\ rf = 0.
Proof.
  intros (_ & -> & [ -> |[[ -> -> ]|H]]) P; [|discriminate P|exact H]. exfalso. revert P. unfold flagsOf. change (3 =? 4) with false. rewrite andb_false_r. cbn. discriminate.
Qed.
Lemma shape_scalar vt rf : rf = 0 -> shapeOf 2 vt (containerOf vt) rf 8.
Proof.
  intros R. split; [reflexivity|]. split; [|right; right; auto]. unfold flagsOf, containerOf. destruct (vt =? 14) eqn:E; [rewrite andb_false_r; reflexivity|]. destruct ((vt =? 12) || (vt =? 13)); rewrite andb_false_r; reflexivity.
Qed.
Lemma shape_tensor vt rf : shapeOf 18 vt 3 rf 8.
Proof. split; [reflexivity|]. split; [|left; reflexivity]. unfold flagsOf. change (3 =? 4) with false. rewrite andb_false_r. reflexivity. Qed.
Definition wfVal (mm : memory) (e : entry) : Prop :=
  eFlags e = 0 \/
  (hasOffset (eFlags e) = true /\ ePOff e <> 0 /\ 8 <= ePLen e <= alignToRecord (ePLen e) /\ dec (rd mm (ePOff e) 4) = alignToRecord (ePLen e) /\ mm (ePOff e + 4) = eVT e /\
   shapeOf (eFlags e) (eVT e) (mm (ePOff e + 5)) (mm (ePOff e + 6)) (mm (ePOff e + 7))).
Definition wfE (mm : memory) (e : entry) : Prop := wfKey mm e /\ wfVal mm e.
Definition obs (mm : memory) (e : entry) : key * item := (readKey mm e, itemOf mm e).
Lemma iterate_obs m : iterate m = map (obs (mem m)) (entries m). Proof. reflexivity. Qed.

Lemma spill_read o l z : o < W32 -> l < W32 -> dec (firstn 4 (enc 4 o ++ enc 4 l ++ z)) = o /\ dec (firstn 4 (skipn 4 (enc 4 o ++ enc 4 l ++ z))) = l.
Proof. intros Ho Hl. split; [change (firstn 4 (enc 4 o ++ enc 4 l ++ z)) with (enc 4 o)|change (firstn 4 (skipn 4 (enc 4 o ++ enc 4 l ++ z))) with (enc 4 l)]; apply dec_enc4; assumption. Qed.
Lemma spilled_fields e o l : eInline e = spillImg o l -> o < W32 -> l < W32 -> spillOff e = o /\ spillLen e = l.
Proof. intros E Ho Hl. unfold spillOff, spillLen. rewrite E. apply spill_read; assumption. Qed.
Lemma inline_read e k : eInline e = inlineImg k -> len k <= 34 -> readInline e = k.
Proof.
  intros E L. unfold readInline. rewrite E. unfold inlineImg. rewrite N.mod_small by lia. rewrite to_nat_len, firstn_app, firstn_all, PeanoNat.Nat.sub_diag. cbn [firstn]. apply app_nil_r.
Qed.
Lemma readKey_canon mm e : 1 <= eKeyId e <= len kCanonical -> readKey mm e = nth (N.to_nat (eKeyId e - 1)) kCanonical [].
Proof.
  intros H. unfold readKey. change (len kCanonical) with 22 in *. unfold kInlineKeyId, kSpilledKeyId.
  rewrite (proj2 (N.eqb_neq _ 0x8000)), (proj2 (N.eqb_neq _ 0x8001)), (proj2 (N.eqb_neq _ 0)), (proj2 (N.leb_le _ 22)) by lia. reflexivity.
Qed.
Lemma matches_key mm e k : wfKey mm e -> matches mm k e = true <-> readKey mm e = k.
Proof.
  intros H. unfold matches. destruct H as [H|[(H & k0 & E & L & Z)|(H & o & l & E & Ho & Hl & L & Z)]].
  - rewrite (readKey_canon mm e H). change (len kCanonical) with 22 in *. unfold kInlineKeyId, kSpilledKeyId.
    rewrite (proj2 (N.eqb_neq (eKeyId e) 0x8000)), (proj2 (N.eqb_neq (eKeyId e) 0x8001)) by lia. cbn [andb orb]. rewrite !orb_false_r, andb_true_iff, negb_true_iff, N.eqb_neq, N.eqb_eq. split.
    + intros [H1 H2]. destruct (lookupId_spec k) as [Z|[_ Z]]; [congruence|]. rewrite H2. exact Z.
    + intros <-. rewrite lookupId_nth by exact H. lia.
  - assert (R : readKey mm e = k0) by (unfold readKey; rewrite H; cbn [N.eqb]; change (kInlineKeyId =? kInlineKeyId) with true; cbn iota; apply inline_read; assumption). rewrite R, H.
    change (kInlineKeyId =? kInlineKeyId) with true. change (kInlineKeyId =? kSpilledKeyId) with false. rewrite (inline_read e k0 E L). cbn [andb]. rewrite orb_false_r, orb_true_iff, andb_true_iff, keyEq_true. split; [|auto].
    intros [[_ H2]|H2]; [|exact H2]. apply N.eqb_eq in H2. destruct (lookupId_spec k) as [Z'|[Z' _]]; [rewrite Z' in H2; discriminate H2|]. change (len kCanonical) with 22 in Z'. rewrite <- H2 in Z'. unfold kInlineKeyId in Z'. lia.
  - assert (R : readKey mm e = readSpilled mm e) by (unfold readKey; rewrite H; reflexivity). rewrite R, H.
    change (kSpilledKeyId =? kInlineKeyId) with false. change (kSpilledKeyId =? kSpilledKeyId) with true. cbn [andb]. rewrite orb_false_r, orb_true_iff, andb_true_iff, keyEq_true. split; [|auto].
    intros [[_ H2]|H2]; [|exact H2]. apply N.eqb_eq in H2. destruct (lookupId_spec k) as [Z'|[Z' _]]; [rewrite Z' in H2; discriminate H2|]. change (len kCanonical) with 22 in Z'. rewrite <- H2 in Z'. unfold kSpilledKeyId in Z'. lia.
Qed.

(** An entry copied to another place reads the same. *)
Definition shiftB (old new : N) (b : block) : block := (new + (fst b - old), snd b).
Definition copiedTo (old new : N) (mm mm' : memory) (b : block) : Prop := forall x, fst b <= x < fst b + snd b -> mm' (new + (x - old)) = mm x.
Lemma regs_nospill e : eKeyId e <> kSpilledKeyId -> regs e = if hasOffset (eFlags e) then [(ePOff e, alignToRecord (ePLen e))] else [].
Proof. intros H. unfold regs. rewrite (proj2 (N.eqb_neq _ _) H). apply app_nil_r. Qed.
Lemma wf_spill mm e : wfKey mm e -> eKeyId e = kSpilledKeyId -> eInline e = spillImg (spillOff e) (spillLen e) /\ spillOff e < W32 /\ spillLen e < W32 /\ 34 < spillLen e /\ lookupId (readSpilled mm e) = 0.
Proof.
  intros H K. destruct H as [H|[(H & _)|(_ & o & l & E & Ho & Hl & L & Z)]].
  - rewrite K in H. change (len kCanonical) with 22 in H. unfold kSpilledKeyId in H. lia.
  - rewrite K in H. discriminate H.
  - destruct (spilled_fields e o l E Ho Hl) as [E1 E2]. unfold readSpilled. rewrite E1, E2. auto.
Qed.
Lemma rebaseE_key old new e : eKeyId (rebaseE old new e) = eKeyId e. Proof. unfold rebaseE. destruct (hasOffset (eFlags e)), (eKeyId e =? kSpilledKeyId); reflexivity. Qed.
Lemma rebaseE_flags old new e : eFlags (rebaseE old new e) = eFlags e. Proof. unfold rebaseE. destruct (hasOffset (eFlags e)), (eKeyId e =? kSpilledKeyId); reflexivity. Qed.
Lemma rebaseE_vt old new e : eVT (rebaseE old new e) = eVT e. Proof. unfold rebaseE. destruct (hasOffset (eFlags e)), (eKeyId e =? kSpilledKeyId); reflexivity. Qed.
Lemma rebaseE_len old new e : ePLen (rebaseE old new e) = ePLen e. Proof. unfold rebaseE. destruct (hasOffset (eFlags e)), (eKeyId e =? kSpilledKeyId); reflexivity. Qed.
Lemma rebaseE_off old new e : hasOffset (eFlags e) = true -> ePOff (rebaseE old new e) = new + (ePOff e - old). Proof. intros H. unfold rebaseE. rewrite H. destruct (eKeyId e =? kSpilledKeyId); reflexivity. Qed.
Lemma rebaseE_inline old new e : eKeyId e <> kSpilledKeyId -> eInline (rebaseE old new e) = eInline e. Proof. intros H. unfold rebaseE. rewrite (proj2 (N.eqb_neq _ _) H). destruct (hasOffset (eFlags e)); reflexivity. Qed.
Lemma rebaseE_spill old new e : eKeyId e = kSpilledKeyId -> eInline (rebaseE old new e) = spillImg (new + (spillOff e - old)) (spillLen e).
Proof. intros H. unfold rebaseE. rewrite H. change (kSpilledKeyId =? kSpilledKeyId) with true. destruct (hasOffset (eFlags e)); reflexivity. Qed.

Lemma regs_shift old new mm e : wfE mm e -> Forall (fun b => new + (fst b - old) < W32) (regs e) -> regs (rebaseE old new e) = map (shiftB old new) (regs e).
Proof.
  intros [WK WV] F. unfold regs in *. rewrite rebaseE_flags, rebaseE_key, rebaseE_len, map_app. f_equal.
  - destruct (hasOffset (eFlags e)) eqn:H; [|reflexivity]. rewrite rebaseE_off by exact H. reflexivity.
  - destruct (N.eqb_spec (eKeyId e) kSpilledKeyId) as [K|K]; [|reflexivity]. destruct (wf_spill mm e WK K) as (E & H1 & H2 & _). apply Forall_app in F. destruct F as [_ F]. inversion F as [|? ? F1 _]; subst. cbn [fst] in F1.
    destruct (spilled_fields (rebaseE old new e) _ _ (rebaseE_spill old new e K) F1 H2) as [ -> -> ]. reflexivity.
Qed.
Lemma entry_shift old new mm mm' e : wfE mm e -> Forall (fun b => old <= fst b /\ new + (fst b - old) < W32) (regs e) -> (old = new \/ 0 < new) -> Forall (copiedTo old new mm mm') (regs e) ->
  wfE mm' (rebaseE old new e) /\ obs mm' (rebaseE old new e) = obs mm e.
Proof.
  intros [WK WV] F Hn C.
  assert (K : wfKey mm' (rebaseE old new e) /\ readKey mm' (rebaseE old new e) = readKey mm e).
  { destruct (N.eq_dec (eKeyId e) kSpilledKeyId) as [K|K].
    - destruct (wf_spill mm e WK K) as (E & H1 & H2 & H3 & H4). unfold regs in F, C. rewrite (proj2 (N.eqb_eq _ _) K) in F, C. apply Forall_app in F, C. destruct F as [_ F], C as [_ C].
      inversion F as [|? ? F1 _]; subst. inversion C as [|? ? C1 _]; subst. cbn [fst snd] in F1. destruct F1 as [F0 F1].
      destruct (spilled_fields (rebaseE old new e) _ _ (rebaseE_spill old new e K) F1 H2) as [E1 E2].
      assert (R : rd mm' (new + (spillOff e - old)) (N.to_nat (spillLen e)) = rd mm (spillOff e) (N.to_nat (spillLen e))).
      { apply rd_shift. intros i Hi. unfold copiedTo in C1. cbn [fst snd] in C1. rewrite <- (C1 (spillOff e + i)) by lia. f_equal. lia. }
      split.
      + right. right. rewrite rebaseE_key. split; [exact K|]. exists (new + (spillOff e - old)), (spillLen e). rewrite R. split; [apply rebaseE_spill; exact K|]. unfold readSpilled in H4. auto.
      + unfold readKey. rewrite rebaseE_key, K. change (kSpilledKeyId =? kInlineKeyId) with false. change (kSpilledKeyId =? kSpilledKeyId) with true. cbn iota. unfold readSpilled. rewrite E1, E2. exact R.
    - split.
      + destruct WK as [WK|[(WK & k & W1 & W2 & W3)|(WK & _)]]; [left; rewrite rebaseE_key; exact WK|right; left; rewrite rebaseE_key, rebaseE_inline by exact K; eauto|congruence].
      + unfold readKey, readInline. rewrite rebaseE_key, rebaseE_inline by exact K. rewrite (proj2 (N.eqb_neq _ _) K). reflexivity. }
  destruct K as [K1 K2]. destruct WV as [WV|(V1 & V2 & V3 & V4 & V5 & V6)].
  - split; [split; [exact K1|left; rewrite rebaseE_flags; exact WV]|]. unfold obs. f_equal; [exact K2|]. unfold itemOf. rewrite rebaseE_flags, WV. reflexivity.
  - unfold regs in F, C. rewrite V1 in F, C. apply Forall_app in F, C. destruct F as [F _], C as [C _]. inversion F as [|? ? F1 _]; subst. inversion C as [|? ? C1 _]; subst. cbn [fst snd] in F1. unfold copiedTo in C1. cbn [fst snd] in C1. destruct F1 as [F0 F1].
    pose proof (atr_range (ePLen e)) as A. set (o' := new + (ePOff e - old)) in *.
    assert (B : forall i, i < alignToRecord (ePLen e) -> mm' (o' + i) = mm (ePOff e + i)). { intros i Hi. rewrite <- (C1 (ePOff e + i)) by lia. f_equal. unfold o'. lia. }
    assert (Ho : o' <> 0) by (unfold o'; lia).
    assert (R4 : rd mm' o' 4 = rd mm (ePOff e) 4) by (apply rd_shift; intros i Hi; apply B; lia).
    split.
    + split; [exact K1|]. right. rewrite rebaseE_flags, rebaseE_len, rebaseE_vt, rebaseE_off by exact V1. fold o'. rewrite R4, !B by lia. auto 10.
    + unfold obs. f_equal; [exact K2|]. unfold itemOf. rewrite rebaseE_flags, rebaseE_off by exact V1. fold o'. rewrite R4, V4, !B by lia.
      rewrite (proj2 (N.eqb_neq _ 0) Ho), (proj2 (N.eqb_neq _ 0) V2). rewrite V1. cbn [andb negb].
      replace (rd mm' (o' + 8) (N.to_nat (alignToRecord (ePLen e) - 8))) with (rd mm (ePOff e + 8) (N.to_nat (alignToRecord (ePLen e) - 8))); [reflexivity|].
      symmetry. apply rd_shift. intros i Hi. rewrite <- !N.add_assoc. apply B. lia.
Qed.
Lemma rebaseE_id p mm e : wfE mm e -> Forall (fun b => p <= fst b) (regs e) -> rebaseE p p e = e.
Proof.
  intros [WK WV] F. unfold rebaseE. unfold regs in F. apply Forall_app in F. destruct F as [F1 F2]. destruct e as [o l k v f i]. cbn [eFlags eKeyId eVT ePOff ePLen] in *.
  assert (Ho : hasOffset f = true -> p + (o - p) = o). { intros H. rewrite H in F1. inversion F1 as [|? ? F _]; subst. cbn [fst] in F. lia. }
  destruct (N.eqb_spec k kSpilledKeyId) as [K|K].
  - destruct (wf_spill mm _ WK K) as (E & _). inversion F2 as [|? ? F _]; subst. cbn [fst] in F. set (e := {| ePOff := o; ePLen := l; eKeyId := kSpilledKeyId; eVT := v; eFlags := f; eInline := i |}) in *.
    replace (p + (spillOff e - p)) with (spillOff e) by lia. rewrite <- E. subst e. destruct (hasOffset f); unfold setKey, setVal; cbn; [rewrite Ho by reflexivity|]; reflexivity.
  - destruct (hasOffset f); unfold setVal; cbn; [rewrite Ho by reflexivity|]; reflexivity.
Qed.
Lemma entry_same mm mm' e : wfE mm e -> Forall (fun b => fst b < W32) (regs e) -> Forall (fun b => sameIn b mm mm') (regs e) -> wfE mm' e /\ obs mm' e = obs mm e.
Proof.
  intros W L S. pose proof (rebaseE_id 0 mm e W) as R. rewrite <- R at 1 2; [|apply Forall_forall; intros; lia]. apply (entry_shift 0 0 mm mm' e W); [|left; reflexivity|].
  - rewrite Forall_forall in *. intros b Hb. specialize (L b Hb). cbn beta in L. lia.
  - rewrite Forall_forall in *. intros b Hb x Hx. rewrite N.sub_0_r, N.add_0_l. apply (S b Hb). exact Hx.
Qed.

(** *** The invariant.  [ex]: blocks taken by the operation in progress; [fr]: the free chunks. *)
Definition inUse (m : vmap) : list block := flat_map regs (entries m).
(** [al]: whether every block is known to be aligned to 16 bytes. *)
Definition aligned (b : block) : Prop := fst b mod 16 = 0 /\ snd b mod 16 = 0.
Section Alignment.
Context {al : bool}.
Record Inv (m : vmap) (ex fr : list block) : Prop := {
  i_slots : 32 + 48 * ecap m <= poff m /\ 32 + 48 * len (entries m) <= poff m;
  i_size : poff m + pcap m <= cap m /\ cap m < W32 /\ pused m <= pcap m;
  i_cnt : len (entries m) < 65536;
  i_chain : fchain (mem m) (fhead m) fr;
  i_min : Forall (fun c => 8 <= snd c) fr;
  i_in : Forall (inPool m) (ex ++ inUse m ++ fr);
  i_pair : pairwise (ex ++ inUse m ++ fr);
  i_ent : Forall (wfE (mem m)) (entries m);
  i_keys : NoDup (map (readKey (mem m)) (entries m));
  i_al : al = true -> Forall aligned (ex ++ inUse m ++ fr) /\ poff m mod 16 = 0 /\ pused m mod 16 = 0 }.

Lemma inv_block m ex fr b : Inv m ex fr -> In b (ex ++ inUse m ++ fr) -> 32 <= fst b /\ poff m <= fst b /\ fst b + snd b <= cap m /\ fst b + snd b < W32.
Proof.
  intros I H. pose proof (i_in _ _ _ I) as F. rewrite Forall_forall in F. destruct (F b H) as [F1 F2]. destruct (i_size _ _ _ I) as (S1 & S2 & S3). destruct (i_slots _ _ _ I). lia.
Qed.
Lemma inv_reg m ex fr e b : Inv m ex fr -> In e (entries m) -> In b (regs e) -> In b (ex ++ inUse m ++ fr).
Proof. intros I He Hb. apply in_or_app. right. apply in_or_app. left. apply in_flat_map. eauto. Qed.
(** Entries survive writes that avoid their blocks. *)
Lemma entries_same m ex fr mm' : Inv m ex fr -> (forall b, In b (inUse m) -> sameIn b (mem m) mm') ->
  Forall (wfE mm') (entries m) /\ map (obs mm') (entries m) = map (obs (mem m)) (entries m) /\ map (readKey mm') (entries m) = map (readKey (mem m)) (entries m).
Proof.
  intros I H. pose proof (i_ent _ _ _ I) as W. rewrite Forall_forall in W.
  assert (G : forall e, In e (entries m) -> wfE mm' e /\ obs mm' e = obs (mem m) e).
  { intros e He. apply entry_same; [apply W; exact He|..]; apply Forall_forall; intros b Hb.
    - destruct (inv_block m ex fr b I (inv_reg m ex fr e b I He Hb)) as (_ & _ & _ & X). lia.
    - apply H. apply in_flat_map. eauto. }
  split; [apply Forall_forall; intros e He; apply G; exact He|]. split; apply map_ext_in; intros e He; destruct (G e He) as [_ E]; [exact E|injection E; auto].
Qed.

(** Everything but memory and free list is the same. *)
Definition shape (m m' : vmap) : Prop :=
  fixed m' = fixed m /\ blobId m' = blobId m /\ cap m' = cap m /\ ecap m' = ecap m /\ entries m' = entries m /\ poff m' = poff m /\
  pused m' = pused m /\ pcap m' = pcap m /\ over m' = over m /\ junk m' = junk m.
Lemma shape_refl m : shape m m. Proof. unfold shape. auto 12. Qed.
Lemma shape_trans a b c : shape a b -> shape b c -> shape a c. Proof. unfold shape. intuition congruence. Qed.
Definition sameObs (m m' : vmap) : Prop := iterate m' = iterate m.

(** Rearranging blocks and changing memory outside the entries' blocks. *)
Lemma inv_change m ex fr m' ex' fr' : Inv m ex fr -> shape m m' -> (forall b, In b (inUse m) -> sameIn b (mem m) (mem m')) ->
  fchain (mem m') (fhead m') fr' -> Forall (fun c => 8 <= snd c) fr' -> Forall (inPool m) (ex' ++ fr') -> pairwise (ex' ++ inUse m ++ fr') -> (al = true -> Forall aligned (ex' ++ fr')) -> Inv m' ex' fr' /\ sameObs m m'.
Proof.
  intros I (S1 & S2 & S3 & S4 & S5 & S6 & S7 & S8 & S9 & S10) H C M F P Al. destruct (entries_same m ex fr (mem m') I H) as (E1 & E2 & E3).
  assert (U : inUse m' = inUse m) by (unfold inUse; rewrite S5; reflexivity).
  split; [|unfold sameObs; rewrite !iterate_obs, S5; exact E2].
  destruct I. constructor; rewrite ?S3, ?S4, ?S5, ?S6, ?S7, ?S8, ?U; auto.
  - apply Forall_app in F. destruct F as [F1 F2]. rewrite !Forall_app in i_in0. destruct i_in0 as (_ & F3 & _). rewrite !Forall_app. unfold inPool in *. rewrite S6, S7. auto.
  - rewrite E3. exact i_keys0.
  - intros Ha. destruct (i_al0 Ha) as (A1 & A2 & A3). split; [|auto]. rewrite !Forall_app in A1. specialize (Al Ha). rewrite Forall_app in Al. rewrite !Forall_app. tauto.
Qed.

Lemma wr_same mm a l b : disjoint (a, len l) b -> sameIn b mm (wr mm a l).
Proof. intros D x Hx. apply wr_out. unfold disjoint in D. cbn [fst snd] in D. lia. Qed.
Lemma disjoint_sub a n b c : disjoint b c -> fst b <= a -> a + n <= fst b + snd b -> disjoint (a, n) c.
Proof. unfold disjoint. cbn [fst snd]. lia. Qed.
Lemma disjoint_hdr b c : disjoint b c -> 8 <= snd c -> disjoint b (hdr c). Proof. unfold disjoint, hdr. cbn [fst snd]. lia. Qed.

(** Writing into a block of the operation. *)
Lemma put_ok m b ex fr off l : Inv m (b :: ex) fr -> fst b <= off -> off + len l <= fst b + snd b ->
  put m off l = Ok (setMem m (wr (mem m) off l)) /\ Inv (setMem m (wr (mem m) off l)) (b :: ex) fr /\ sameObs m (setMem m (wr (mem m) off l)).
Proof.
  intros I H1 H2. destruct (inv_block m (b :: ex) fr b I (or_introl eq_refl)) as (B1 & B2 & B3 & B4). unfold put. rewrite (proj2 (N.leb_le _ _)) by lia. split; [reflexivity|].
  pose proof (i_pair _ _ _ I) as P. pose proof P as P'. cbn [app] in P'. apply pairwise_cons in P'. destruct P' as [P1 _]. rewrite Forall_forall in P1.
  apply (inv_change m (b :: ex) fr); [exact I|unfold shape; cbn; auto 12|..].
  - intros c Hc. cbn [mem setMem]. apply wr_same. apply (disjoint_sub off (len l) b); [|exact H1|exact H2]. apply P1. apply in_or_app. right. apply in_or_app. left. exact Hc.
  - cbn [mem fhead setMem]. apply (fchain_ext (mem m)); [|apply (i_chain _ _ _ I)]. intros c Hc. apply wr_same. apply disjoint_hdr; [|pose proof (i_min _ _ _ I) as M; rewrite Forall_forall in M; apply (M c Hc)].
    apply (disjoint_sub off (len l) b); [|exact H1|exact H2]. apply P1. apply in_or_app. right. apply in_or_app. right. exact Hc.
  - apply (i_min _ _ _ I).
  - pose proof (i_in _ _ _ I) as F. rewrite !Forall_app in F. rewrite Forall_app. tauto.
  - exact P.
  - intros Ha. destruct (i_al _ _ _ I Ha) as (A1 & _). rewrite !Forall_app in A1. rewrite Forall_app. tauto.
Qed.

(** Returning a block. *)
Lemma pairwise_move (A B C : list block) b : pairwise ((b :: A) ++ B ++ C) <-> pairwise (A ++ B ++ b :: C).
Proof.
  assert (P : Permutation ((b :: A) ++ B ++ C) (A ++ B ++ b :: C)) by (cbn [app]; rewrite !app_assoc; apply Permutation_cons_app; reflexivity).
  split; [apply pairwise_perm; exact P|apply pairwise_perm; symmetry; exact P].
Qed.
Lemma push_ok m b ex fr : Inv m (b :: ex) fr -> 8 <= snd b -> exists m', freeListPush m (fst b) (snd b) = Ok m' /\ Inv m' ex (b :: fr) /\ sameObs m m' /\ shape m m' /\
  (forall x, x < fst b \/ fst b + 8 <= x -> mem m' x = mem m x).
Proof.
  intros I H8. destruct (inv_block m (b :: ex) fr b I (or_introl eq_refl)) as (B1 & B2 & B3 & B4).
  unfold freeListPush. rewrite (proj2 (N.ltb_ge _ _)) by lia. set (img := enc 4 (snd b) ++ enc 4 (fhead m)).
  assert (L : len img = 8) by reflexivity.
  destruct (put_ok m b ex fr (fst b) img I) as (E & I1 & O1); [lia|lia|]. rewrite E. cbn [bind]. eexists. split; [reflexivity|].
  set (m1 := setMem m (wr (mem m) (fst b) img)) in *.
  assert (Hh : fhead m < W32).
  { pose proof (i_chain _ _ _ I) as C. destruct fr as [|c fr]; cbn [fchain] in C; [rewrite C; reflexivity|]. destruct C as (-> & _). destruct (inv_block m (b :: ex) (c :: fr) c I) as (_ & _ & _ & X); [|lia]. apply in_or_app. right. apply in_or_app. right. left. reflexivity. }
  assert (R : inUse m1 = inUse m) by reflexivity.
  destruct (inv_change m1 (b :: ex) fr (setFhead m1 (fst b)) ex (b :: fr) I1) as [I2 O2].
  - unfold shape. cbn. auto 12.
  - intros c _ x _. reflexivity.
  - cbn [fhead setFhead mem fchain]. split; [reflexivity|]. split; [lia|]. change (mem m1) with (wr (mem m) (fst b) img). split.
    + pose proof (rd_wr_mid (mem m) (fst b) [] (enc 4 (snd b)) (enc 4 (fhead m))) as X. cbn [app] in X. change (len (@nil N)) with 0 in X. rewrite N.add_0_r in X. change (length (enc 4 (snd b))) with 4%nat in X. fold img in X. rewrite X. apply dec_enc4. lia.
    + pose proof (rd_wr_mid (mem m) (fst b) (enc 4 (snd b)) (enc 4 (fhead m)) []) as X. rewrite app_nil_r in X. change (length (enc 4 (fhead m))) with 4%nat in X. change (len (enc 4 (snd b))) with 4 in X. fold img in X. rewrite X, dec_enc4 by exact Hh. exact (i_chain _ _ _ I1).
  - constructor; [exact H8|apply (i_min _ _ _ I)].
  - pose proof (i_in _ _ _ I) as F. cbn [app] in F. inversion F as [|? ? F1 F2]; subst. rewrite !Forall_app in F2. rewrite Forall_app. destruct F2 as (F2 & F3 & F4). split; [exact F2|constructor; [exact F1|exact F4]].
  - rewrite R. apply pairwise_move. exact (i_pair _ _ _ I).
  - intros Ha. destruct (i_al _ _ _ I Ha) as (A1 & _). cbn [app] in A1. inversion A1 as [|? ? A2 A3]; subst. rewrite !Forall_app in A3. rewrite Forall_app. split; [tauto|]. constructor; [exact A2|tauto].
  - split; [exact I2|]. split; [unfold sameObs in *; congruence|]. split; [unfold shape; cbn; auto 12|]. intros x Hx. cbn [mem setFhead]. change (mem m1) with (wr (mem m) (fst b) img). apply wr_out. rewrite L. lia.
Qed.

(** Taking the blocks of a free chunk: the first [n] bytes go to the operation. *)
Lemma pairwise_split A b n : pairwise (b :: A) -> n <= snd b -> pairwise ((fst b, n) :: (fst b + n, snd b - n) :: A).
Proof.
  intros P H. apply pairwise_cons in P. destruct P as [P1 P2]. apply pairwise_cons. split.
  - constructor; [unfold disjoint; cbn [fst snd]; lia|]. eapply Forall_impl; [|exact P1]. intros c D. unfold disjoint in *. cbn [fst snd]. lia.
  - apply pairwise_cons. split; [|exact P2]. eapply Forall_impl; [|exact P1]. intros c D. unfold disjoint in *. cbn [fst snd]. lia.
Qed.
Lemma fchain_head mm h fr : fchain mm h fr -> h = match fr with [] => 0 | b :: _ => fst b end.
Proof. destruct fr as [|b fr]; cbn [fchain]; [auto|]. intros (H & _). exact H. Qed.
Lemma fchain_app_tail mm pre b post : forall h, fchain mm h (pre ++ b :: post) -> fchain mm (dec (rd mm (fst b + 4) 4)) post.
Proof. induction pre as [|a pre IH]; intros h C; cbn [app fchain] in C; [tauto|]. destruct C as (_ & _ & _ & C). eauto. Qed.
Lemma fchain_at mm pre b post : forall h, fchain mm h (pre ++ b :: post) -> fst b <> 0 /\ dec (rd mm (fst b) 4) = snd b.
Proof. induction pre as [|a pre IH]; intros h C; cbn [app fchain] in C; [tauto|]. destruct C as (_ & _ & _ & C). eauto. Qed.

Definition prevOf (pre : list block) : N := fst (last pre (0, 0)).
Definition headOf (l : list block) : N := match l with [] => 0 | b :: _ => fst b end.
Lemma remove_ok m ex pre b post : Inv m ex (pre ++ b :: post) -> let nx := dec (rd (mem m) (fst b + 4) 4) in
  exists m', (if prevOf pre =? 0 then Ok (setFhead m nx) else put m (prevOf pre + 4) (enc 4 nx)) = Ok m' /\ Inv m' (b :: ex) (pre ++ post) /\ sameObs m m' /\ shape m m'.
Proof.
  intros I. cbn zeta. set (nx := dec (rd (mem m) (fst b + 4) 4)). pose proof (i_chain _ _ _ I) as C. pose proof (i_min _ _ _ I) as M. pose proof (i_in _ _ _ I) as F. pose proof (i_pair _ _ _ I) as P.
  assert (Perm : Permutation (ex ++ inUse m ++ pre ++ b :: post) ((b :: ex) ++ inUse m ++ pre ++ post)).
  { cbn [app]. rewrite !app_assoc. symmetry. apply (Permutation_cons_app _ post). reflexivity. }
  pose proof (pairwise_perm _ _ Perm P) as P'. assert (F' : Forall (inPool m) ((b :: ex) ++ pre ++ post)).
  { rewrite Forall_forall in F |- *. intros c Hc. apply F. eapply Permutation_in; [symmetry; exact Perm|]. apply in_app_or in Hc. apply in_or_app. destruct Hc as [Hc|Hc]; [left; exact Hc|right]. apply in_or_app. right. exact Hc. }
  assert (Al' : al = true -> Forall aligned ((b :: ex) ++ pre ++ post)).
  { intros Ha. destruct (i_al _ _ _ I Ha) as (A1 & _). rewrite Forall_forall in A1 |- *. intros c Hc. apply A1. eapply Permutation_in; [symmetry; exact Perm|]. apply in_app_or in Hc. apply in_or_app. destruct Hc as [Hc|Hc]; [left; exact Hc|right]. apply in_or_app. right. exact Hc. }
  assert (M' : Forall (fun c => 8 <= snd c) (pre ++ post)). { rewrite Forall_app in M |- *. destruct M as [M1 M2]. inversion M2; subst. auto. }
  pose proof (fchain_app_tail _ _ _ _ _ C) as Ct. fold nx in Ct.
  assert (Hnx : nx < W32). { rewrite (fchain_head _ _ _ Ct). destruct post as [|c post]; [reflexivity|]. destruct (inv_block m ex _ c I) as (_ & _ & _ & X); [|lia]. apply in_or_app. right. apply in_or_app. right. apply in_or_app. right. right. left. reflexivity. }
  destruct pre as [|a pre0].
  - change (prevOf []) with 0. cbn [N.eqb]. eexists. split; [reflexivity|]. assert (Sh : shape m (setFhead m nx)) by (unfold shape; cbn; auto 12).
    destruct (inv_change m ex ([] ++ b :: post) (setFhead m nx) (b :: ex) ([] ++ post) I Sh) as [I1 O1]; auto. intros c _ x _. reflexivity.
  - destruct (@exists_last _ (a :: pre0)) as (pre' & p & Ep); [discriminate|]. rewrite Ep in *. clear Ep a pre0. unfold prevOf. rewrite last_last.
    assert (Ip : In p (ex ++ inUse m ++ (pre' ++ [p]) ++ b :: post)). { apply in_or_app. right. apply in_or_app. right. apply in_or_app. left. apply in_elt. }
    assert (Mp : 8 <= snd p). { rewrite Forall_forall in M. apply (M p). apply in_or_app. left. apply in_elt. }
    destruct (inv_block m ex _ p I Ip) as (B1 & B2 & B3 & B4). rewrite (proj2 (N.eqb_neq _ 0)) by lia. unfold put. rewrite ChunkPoolProofs.len_enc. rewrite (proj2 (N.leb_le _ _)) by lia. eexists. split; [reflexivity|].
    set (m1 := setMem m _). assert (Sh : shape m m1) by (unfold shape; cbn; auto 12).
    destruct (inv_change m ex ((pre' ++ [p]) ++ b :: post) m1 (b :: ex) ((pre' ++ [p]) ++ post) I Sh) as [I1 O1]; auto.
    + intros c Hc. cbn [m1 mem setMem]. apply wr_same. rewrite ChunkPoolProofs.len_enc. apply (disjoint_sub (fst p + 4) _ p); [|lia|lia].
      assert (Permp : Permutation (ex ++ inUse m ++ (pre' ++ [p]) ++ b :: post) (p :: ex ++ inUse m ++ pre' ++ b :: post)).
      { rewrite !app_assoc. symmetry. rewrite <- (app_assoc (_ ++ pre') [p]). cbn [app]. apply (Permutation_cons_app _ (b :: post)). rewrite <- !app_assoc. reflexivity. }
      pose proof (pairwise_perm _ _ Permp P) as Q. apply pairwise_cons in Q. destruct Q as [Q _]. rewrite Forall_forall in Q. apply Q. apply in_or_app. right. apply in_or_app. left. exact Hc.
    + cbn [m1 mem setMem fhead]. rewrite <- app_assoc in C, P, M |- *. cbn [app] in C, P, M |- *. apply fchain_unlink; [exact C| |exact M|exact Hnx].
      rewrite app_assoc in P. apply pairwise_app in P. tauto.
Qed.
Lemma inv_ex m ex fr ex' : Inv m ex fr -> Forall (inPool m) ex' -> pairwise (ex' ++ inUse m ++ fr) -> (al = true -> Forall aligned ex') -> Inv m ex' fr.
Proof.
  intros I F P Al. destruct (inv_change m ex fr m ex' fr I (shape_refl m)) as [I1 _]; auto.
  - intros b _ x _. reflexivity.
  - apply (i_chain _ _ _ I).
  - apply (i_min _ _ _ I).
  - apply Forall_app. split; [exact F|]. pose proof (i_in _ _ _ I) as F'. rewrite !Forall_app in F'. tauto.
  - intros Ha. destruct (i_al _ _ _ I Ha) as (A1 & _). rewrite !Forall_app in A1. rewrite Forall_app. split; [apply Al; exact Ha|tauto].
Qed.
Lemma cut_ok m b ex fr n : Inv m (b :: ex) fr -> n <= snd b -> (al = true -> n mod 16 = 0) -> Inv m ((fst b + n, snd b - n) :: (fst b, n) :: ex) fr /\ Inv m ((fst b, n) :: ex) fr.
Proof.
  intros I H Hn. assert (Al : al = true -> Forall aligned ex /\ aligned (fst b, n) /\ aligned (fst b + n, snd b - n)).
  { intros Ha. specialize (Hn Ha). destruct (i_al _ _ _ I Ha) as (A1 & _). cbn [app] in A1. inversion A1 as [|? ? A2 A3]; subst. rewrite Forall_app in A3. destruct A2 as [A4 A5]. split; [tauto|]. unfold aligned. cbn [fst snd].
    pose proof (mul16 _ Hn). pose proof (mul16 _ A4). pose proof (mul16 _ A5). split; [auto|]. split; apply N.mod_divide; try discriminate; [exists (fst b / 16 + n / 16)|exists (snd b / 16 - n / 16)]; lia. }
  pose proof (i_pair _ _ _ I) as P. cbn [app] in P. apply (pairwise_split _ b n) in P; [|exact H]. pose proof (i_in _ _ _ I) as F. rewrite !Forall_app in F. destruct F as (F & _). inversion F as [|? ? F1 F2]; subst.
  assert (A1 : inPool m (fst b, n)) by (unfold inPool in *; cbn [fst snd]; lia). assert (A2 : inPool m (fst b + n, snd b - n)) by (unfold inPool in *; cbn [fst snd]; lia). split.
  - apply (inv_ex m (b :: ex)); [exact I|auto|cbn [app]|]. { eapply pairwise_perm; [|exact P]. apply perm_swap. } intros Ha. destruct (Al Ha) as (X1 & X2 & X3). auto.
  - apply (inv_ex m (b :: ex)); [exact I|auto|cbn [app]|]. { apply pairwise_cons in P. destruct P as [P1 P2]. apply pairwise_cons in P2. apply pairwise_cons. split; [|tauto]. inversion P1; assumption. } intros Ha. destruct (Al Ha) as (X1 & X2 & X3). auto.
Qed.
Lemma drop_ok m b ex fr : Inv m (b :: ex) fr -> Inv m ex fr.
Proof.
  intros I. apply (inv_ex m (b :: ex)); [exact I|..].
  - pose proof (i_in _ _ _ I) as F. rewrite !Forall_app in F. destruct F as (F & _). inversion F; assumption.
  - pose proof (i_pair _ _ _ I) as P. cbn [app] in P. apply pairwise_cons in P. tauto.
  - intros Ha. destruct (i_al _ _ _ I Ha) as (A1 & _). cbn [app] in A1. inversion A1 as [|? ? A2 A3]; subst. rewrite Forall_app in A3. tauto.
Qed.
Lemma pop_loop bytes ex : 0 < bytes -> (al = true -> bytes mod 16 = 0) -> forall fuel m pre post, Inv m ex (pre ++ post) -> exists m' r, popLoop fuel m bytes (prevOf pre) (headOf post) = Ok (m', r) /\ shape m m' /\ sameObs m m' /\
  match r with None => m' = m | Some o => exists fr', Inv m' ((o, bytes) :: ex) fr' end.
Proof.
  intros Hb Ha. induction fuel as [|f IH]; intros m pre post I.
  - exists m, None. cbn [popLoop]. destruct (headOf post =? 0); repeat split.
  - destruct post as [|b post]; cbn [headOf popLoop].
    { exists m, None. repeat split. }
    pose proof (i_chain _ _ _ I) as C. destruct (fchain_at _ _ _ _ _ C) as [C1 C2]. pose proof (fchain_app_tail _ _ _ _ _ C) as C3.
    assert (Ib : In b (ex ++ inUse m ++ pre ++ b :: post)). { apply in_or_app. right. apply in_or_app. right. apply in_elt. }
    assert (Mb : 8 <= snd b). { pose proof (i_min _ _ _ I) as M. rewrite Forall_forall in M. apply (M b). apply in_elt. }
    destruct (inv_block m ex _ b I Ib) as (B1 & B2 & B3 & B4).
    rewrite (proj2 (N.eqb_neq _ 0) C1), (proj2 (N.ltb_ge _ _)) by lia. rewrite C2. destruct (N.leb_spec bytes (snd b)) as [L|L].
    + destruct (remove_ok m ex pre b post I) as (m1 & E1 & I1 & O1 & S1). rewrite E1. cbn [bind]. destruct (cut_ok m1 b ex _ bytes I1 L Ha) as [I2 I3]. destruct (N.leb_spec 8 (snd b - bytes)) as [L8|L8].
      * destruct (push_ok m1 _ _ _ I2 L8) as (m2 & E2 & I4 & O2 & S2 & _). cbn [fst snd] in E2. rewrite E2. cbn [bind]. exists m2, (Some (fst b)). split; [reflexivity|]. split; [eapply shape_trans; eassumption|]. split; [unfold sameObs in *; congruence|]. eauto.
      * cbn [bind]. exists m1, (Some (fst b)). repeat split; try apply S1; eauto.
    + specialize (IH m (pre ++ [b]) post). rewrite <- app_assoc in IH. specialize (IH I). unfold prevOf in IH at 1. rewrite last_last in IH. rewrite (fchain_head _ _ _ C3). exact IH.
Qed.
Lemma popfit_ok m ex fr bytes : Inv m ex fr -> 0 < bytes -> (al = true -> bytes mod 16 = 0) -> exists m' r, freeListPopFit m bytes = Ok (m', r) /\ shape m m' /\ sameObs m m' /\
  match r with None => m' = m | Some o => exists fr', Inv m' ((o, bytes) :: ex) fr' end.
Proof.
  intros I Hb Ha. unfold freeListPopFit. destruct ((fhead m =? 0) || (bytes =? 0)); [exists m, None; repeat split|].
  rewrite (fchain_head _ _ _ (i_chain _ _ _ I)). apply (pop_loop bytes ex Hb Ha (N.to_nat (cap m / 8 + 1)) m [] fr I).
Qed.
End Alignment.
