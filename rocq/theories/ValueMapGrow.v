(** Growing the property map, and taking space from the pool. *)
From Coq Require Import List NArith Lia Bool Permutation ZifyBool ZifyN ZifyNat.
From Verif Require Import Base WireModel WireProofs ChunkModel ChunkSpec ChunkPoolProofs ChunkProofs AllocProofs ValueMapModel ValueMapSpec ValueMapPool ValueMapInv.
Import ListNotations.
Local Open Scope N_scope.

(** *** Rewriting the links of a copied free list *)
Fixpoint prechain (mm : memory) (old new cur : N) (fr : list block) : Prop :=
  match fr with
  | [] => cur = 0
  | b :: r => cur = new + (fst b - old) /\ cur <> 0 /\ dec (rd mm cur 4) = snd b /\ prechain mm old new (rebase old new (dec (rd mm (cur + 4) 4))) r
  end.
Lemma prechain_ext mm mm' old new fr : forall cur, (forall b, In b fr -> sameIn (hdr (shiftB old new b)) mm mm') -> prechain mm old new cur fr -> prechain mm' old new cur fr.
Proof.
  induction fr as [|b fr IH]; intros cur H C; [exact C|]. cbn [prechain] in *. destruct C as (C1 & C2 & C3 & C4).
  assert (S : sameIn (hdr (shiftB old new b)) mm mm') by (apply H; left; reflexivity). unfold sameIn, hdr, shiftB in S. cbn [fst snd] in S. rewrite <- C1 in S.
  split; [exact C1|]. split; [exact C2|]. split.
  - rewrite <- C3. f_equal. apply rd_ext. intros x Hx. apply S. lia.
  - rewrite (rd_ext mm mm') by (intros x Hx; apply S; lia). apply IH; [|exact C4]. intros c Hc. apply H. right. exact Hc.
Qed.
Lemma disjoint_shift old new a b : old <= fst a -> old <= fst b -> disjoint a b -> disjoint (shiftB old new a) (shiftB old new b).
Proof. unfold disjoint, shiftB. cbn [fst snd]. lia. Qed.
Lemma pairwise_shift old new l : Forall (fun b => old <= fst b) l -> pairwise l -> pairwise (map (shiftB old new) l).
Proof.
  induction l as [|b l IH]; intros F P; [exact P|]. cbn [map]. inversion F as [|? ? F1 F2]; subst. apply pairwise_cons in P. destruct P as [P1 P2]. apply pairwise_cons. split; [|apply IH; assumption].
  apply Forall_forall. intros c Hc. apply in_map_iff in Hc. destruct Hc as (c' & <- & Hc). rewrite Forall_forall in P1, F2. apply disjoint_shift; auto.
Qed.

Lemma rebase_loop total old new fr : total <= W32 -> forall fuel mm cur, (length fr <= fuel)%nat -> prechain mm old new cur fr -> pairwise (map (shiftB old new) fr) ->
  Forall (fun b => 8 <= snd b) fr -> Forall (fun b => new + (fst b - old) + snd b <= total) fr ->
  (forall b, In b fr -> rebase old new (dec (rd mm (new + (fst b - old) + 4) 4)) < W32) ->
  exists mm', rebaseLoop fuel total old new mm cur = Ok mm' /\ fchain mm' cur (map (shiftB old new) fr) /\
  (forall x, (forall b, In b fr -> ~ (new + (fst b - old) <= x < new + (fst b - old) + 8)) -> mm' x = mm x).
Proof.
  intros Ht. induction fr as [|b fr IH]; intros fuel mm cur Lf C P M T N.
  - cbn [prechain] in C. subst. exists mm. destruct fuel; repeat split.
  - cbn [prechain] in C. destruct C as (C1 & C2 & C3 & C4). destruct fuel as [|f]; cbn [length] in Lf; [lia|]. cbn [rebaseLoop]. inversion M as [|? ? M1 M2]; inversion T as [|? ? T1 T2]; subst x l x0 l0.
    rewrite (proj2 (N.eqb_neq _ 0) C2), (proj2 (N.ltb_ge _ _)) by lia. set (nx := rebase old new (dec (rd mm (cur + 4) 4))) in *.
    assert (Hn : nx < W32). { unfold nx. rewrite C1. apply N. left. reflexivity. }
    destruct (write_next mm (cur, 0) nx Hn) as (W1 & W2 & W3). cbn [fst] in W1, W2, W3. set (mm1 := wr mm (cur + 4) (enc 4 nx)) in *.
    cbn [map] in P. apply pairwise_cons in P. destruct P as [P1 P2]. rewrite Forall_forall in P1.
    assert (Out : forall c, In c fr -> forall x, new + (fst c - old) <= x < new + (fst c - old) + 8 -> x < cur \/ cur + 8 <= x).
    { intros c Hc x Hx. specialize (P1 _ (in_map (shiftB old new) _ _ Hc)). rewrite Forall_forall in M2. specialize (M2 c Hc). cbn beta in M2. unfold disjoint, shiftB in P1. cbn [fst snd] in P1. lia. }
    destruct (IH f mm1 nx) as (mm2 & E & F & O).
    + lia.
    + apply (prechain_ext mm); [|exact C4]. intros c Hc x Hx. unfold hdr, shiftB in Hx. cbn [fst snd] in Hx. apply W3. specialize (Out c Hc x Hx). lia.
    + exact P2.
    + exact M2.
    + exact T2.
    + intros c Hc. rewrite (rd_ext mm mm1); [apply N; right; exact Hc|]. intros x Hx. apply W3. specialize (Out c Hc x). lia.
    + exists mm2. split; [exact E|].
      assert (S2 : forall x, cur <= x < cur + 8 -> mm2 x = mm1 x). { intros x Hx. apply O. intros c Hc Hx2. specialize (Out c Hc x Hx2). lia. }
      split.
      * cbn [map fchain]. unfold shiftB at 1 2 3 4 5. cbn [fst snd]. rewrite <- C1. split; [reflexivity|]. split; [exact C2|]. split.
        -- rewrite <- C3, <- W1. f_equal. apply rd_ext. intros x Hx. apply S2. lia.
        -- rewrite (rd_ext mm1 mm2) by (intros x Hx; apply S2; lia). rewrite W2. exact F.
      * intros x Hx. rewrite O by (intros c Hc; apply Hx; right; exact Hc). apply W3. specialize (Hx b (or_introl eq_refl)). lia.
Qed.

(** *** Growing *)
(** [m'] is [m], possibly in another blob: entries keep their places relative to the pool. *)
Definition moved (m m' : vmap) : Prop :=
  sameObs m m' /\ fixed m' = fixed m /\ entries m' = map (rebaseE (poff m) (poff m')) (entries m) /\ (blobId m' = blobId m -> entries m' = entries m) /\
  pused m <= pused m' /\ (fixed m = true -> blobId m' = blobId m /\ cap m' = cap m /\ poff m' = poff m /\ ecap m' = ecap m /\ pcap m' = pcap m) /\ junk m' = junk m /\ blobId m <= blobId m'.
Section Alignment.
Context {al : bool}.
Local Notation Inv := (Inv (al := al)).
Lemma entries_id m ex fr : Inv m ex fr -> map (rebaseE (poff m) (poff m)) (entries m) = entries m.
Proof.
  intros I. rewrite <- (map_id (entries m)) at 2. apply map_ext_in. intros e He. pose proof (i_ent _ _ _ I) as W. rewrite Forall_forall in W. apply (rebaseE_id _ (mem m)); [apply W; exact He|].
  apply Forall_forall. intros b Hb. destruct (inv_block m ex fr b I (inv_reg m ex fr e b I He Hb)) as (_ & X & _). exact X.
Qed.
Lemma shape_moved m m' ex fr : Inv m ex fr -> shape m m' -> sameObs m m' -> moved m m'.
Proof.
  intros I (S1 & S2 & S3 & S4 & S5 & S6 & S7 & S8 & S9 & S10) O. unfold moved. rewrite S1, S2, S3, S4, S5, S6, S7, S8, S10, (entries_id m ex fr I). repeat split; auto; lia.
Qed.
Lemma sentinel_ok m : 32 + 48 * ecap m <= poff m -> sentinel m = Ok tt.
Proof.
  intros H. unfold sentinel. destruct (N.ltb_spec (len (entries m)) (ecap m)); [|reflexivity]. unfold slot. rewrite (proj2 (N.leb_le _ _)) by lia. reflexivity.
Qed.
Lemma flat_map_shift old new mm l : Forall (wfE mm) l -> Forall (fun e => Forall (fun b => new + (fst b - old) < W32) (regs e)) l ->
  flat_map regs (map (rebaseE old new) l) = map (shiftB old new) (flat_map regs l).
Proof.
  induction l as [|e l IH]; intros W F; [reflexivity|]. inversion W; inversion F; subst. cbn [map flat_map]. rewrite map_app, IH, (regs_shift old new mm) by assumption. reflexivity.
Qed.
Lemma grow_ok m fr req np sh : Inv m [] fr -> fixed m = false -> grow m req np sh = Limit \/
  exists m' fr', grow m req np sh = Ok m' /\ Inv m' [] fr' /\ moved m m' /\ pused m' = pused m /\ np <= pcap m' /\ 32 + 48 * req <= poff m' /\ over m' = over m /\
    blobId m' = blobId m + 1 /\ (sh = false -> 32 + 48 * ecap m <= poff m') /\
    (N.max (N.max req (len (entries m))) (N.max (ecap m + ecap m / 2) 8) < 65536 -> req <= ecap m').
Proof.
  intros I Hf. unfold grow. rewrite Hf.
  set (te0 := N.max req (len (entries m))). set (te := if sh then te0 else N.max te0 (N.max (ecap m + ecap m / 2) 8)).
  set (tp0 := N.max np (pused m)). set (tp := if sh then tp0 else N.max tp0 (pcap m + pcap m / 2)). cbn zeta.
  assert (Hte2 : te <= N.max te0 (N.max (ecap m + ecap m / 2) 8)) by (unfold te; destruct sh; lia). assert (Hte3 : sh = false -> ecap m <= te) by (unfold te; intros ->; lia). assert (Hte : te0 <= te) by (unfold te; destruct sh; lia). assert (Htp : tp0 <= tp) by (unfold tp; destruct sh; lia). unfold te0 in Hte, Hte2. unfold tp0 in Htp. clearbody te tp. subst te0 tp0.
  set (new := 32 + 48 * te). set (total := new + tp). destruct (N.leb_spec W32 total) as [L|L]; [left; reflexivity|right].
  destruct (i_size _ _ _ I) as (Z1 & Z2 & Z3). destruct (i_slots _ _ _ I) as [L1 L2].
  rewrite (proj2 (N.ltb_ge _ _)) by lia. set (copied := fun x => if (new <=? x) && (x <? new + pused m) then mem m (poff m + (x - new)) else junk m x).
  pose proof (i_in _ _ _ I) as F. cbn [app] in F. pose proof (i_pair _ _ _ I) as P. cbn [app] in P. pose proof (i_min _ _ _ I) as M. pose proof (i_chain _ _ _ I) as C.
  assert (Cp : forall b, inPool m b -> copiedTo (poff m) new (mem m) copied b).
  { intros b [B1 B2] x Hx. unfold copied. rewrite (proj2 (N.leb_le _ _)), (proj2 (N.ltb_lt _ _)) by lia. cbn [andb]. f_equal. lia. }
  assert (Fr : Forall (inPool m) fr) by (rewrite Forall_app in F; tauto).
  assert (Pre : forall h l, Forall (inPool m) l -> Forall (fun c => 8 <= snd c) l -> fchain (mem m) h l -> prechain copied (poff m) new (rebase (poff m) new h) l).
  { intros h l. revert h. induction l as [|b l IH]; intros h Fl Ml Cl; cbn [fchain prechain] in *; [subst h; reflexivity|]. destruct Cl as (Cl1 & Cl2 & Cl3 & Cl4). inversion Fl as [|? ? Fl1 Fl2]; inversion Ml as [|? ? Ml1 Ml2]; subst x l0 x0 l1.
    assert (R : rebase (poff m) new h = new + (fst b - poff m)). { unfold rebase. subst h. rewrite (proj2 (N.eqb_neq _ 0) Cl2). reflexivity. }
    pose proof (Cp b Fl1) as Cb. unfold copiedTo in Cb. destruct Fl1 as [Fa Fb]. rewrite R. split; [reflexivity|]. split; [unfold new; lia|]. split.
    - rewrite <- Cl3. f_equal. apply rd_shift. intros i Hi. rewrite <- Cb by lia. f_equal. lia.
    - replace (rd copied (new + (fst b - poff m) + 4) 4) with (rd (mem m) (fst b + 4) 4); [apply IH; assumption|]. symmetry. apply rd_shift. intros i Hi. rewrite <- Cb by lia. f_equal. lia. }
  assert (Old : Forall (fun b => poff m <= fst b) (inUse m ++ fr)). { eapply Forall_impl; [|exact F]. intros b [B _]. exact B. }
  assert (Ps : pairwise (map (shiftB (poff m) new) (inUse m ++ fr))) by (apply pairwise_shift; assumption).
  destruct (rebase_loop total (poff m) new fr ltac:(lia) (N.to_nat (cap m / 8 + 1)) copied (rebase (poff m) new (fhead m))) as (mm & E & Fc & O).
  - pose proof (blocks_fit (cap m) fr) as B. unfold len in B. apply pairwise_app in P. assert (Forall (fun b => fst b + snd b <= cap m) fr) by (eapply Forall_impl; [|exact Fr]; intros b [B1 B2]; lia). specialize (B ltac:(tauto) M ltac:(assumption)). lia.
  - apply Pre; assumption.
  - rewrite map_app in Ps. apply pairwise_app in Ps. tauto.
  - exact M.
  - eapply Forall_impl; [|exact Fr]. intros b [B1 B2]. lia.
  - (* each link is 0 or the place of a chunk *)
    intros b Hb. destruct (in_split b fr Hb) as (f1 & f2 & Ef). subst fr. rewrite Forall_forall in Fr, M. pose proof (Fr b Hb) as Ib. pose proof (M b Hb) as Mb. cbn beta in Mb. pose proof (Cp b Ib) as Cb. unfold copiedTo in Cb.
    replace (rd copied (new + (fst b - poff m) + 4) 4) with (rd (mem m) (fst b + 4) 4). 2:{ symmetry. apply rd_shift. intros i Hi. destruct Ib. rewrite <- Cb by lia. f_equal. lia. }
    pose proof (fchain_app_tail _ _ _ _ _ C) as Ct. rewrite (fchain_head _ _ _ Ct). destruct f2 as [|c f2]; [reflexivity|]. unfold rebase. destruct (fst c =? 0); [reflexivity|].
    destruct (Fr c) as [B1 B2]; [apply in_or_app; right; right; left; reflexivity|]. lia.
  - rewrite E. cbn [bind].
    assert (Same : forall b, In b (inUse m) -> copiedTo (poff m) new (mem m) mm b).
    { intros b Hb x Hx. rewrite O. { apply (Cp b); [|exact Hx]. rewrite Forall_forall in F. apply F. apply in_or_app. left. exact Hb. }
      intros c Hc Hx2. rewrite map_app in Ps. apply pairwise_app in Ps. destruct Ps as (_ & _ & D). specialize (D _ _ (in_map (shiftB (poff m) new) _ _ Hb) (in_map (shiftB (poff m) new) _ _ Hc)).
      rewrite Forall_forall in M. specialize (M c Hc). cbn beta in M. rewrite Forall_forall in Old. pose proof (Old b (in_or_app _ _ _ (or_introl Hb))). cbn beta in *. unfold disjoint, shiftB in D. cbn [fst snd] in D. lia. }
    pose proof (i_ent _ _ _ I) as W.
    assert (Sm : Forall (fun e => Forall (fun b => new + (fst b - poff m) < W32) (regs e)) (entries m)).
    { apply Forall_forall. intros e He. apply Forall_forall. intros b Hb. rewrite Forall_forall in F. destruct (F b) as [B1 B2]; [apply in_or_app; left; apply in_flat_map; eauto|]. lia. }
    assert (Ent : forall e, In e (entries m) -> wfE mm (rebaseE (poff m) new e) /\ obs mm (rebaseE (poff m) new e) = obs (mem m) e).
    { intros e He. rewrite Forall_forall in W, Sm. apply (entry_shift (poff m) new (mem m)); [apply W; exact He| |right; unfold new; lia|].
      - apply Forall_forall. intros b Hb. split; [|specialize (Sm e He); rewrite Forall_forall in Sm; apply Sm; exact Hb]. rewrite Forall_forall in Old. apply (Old b). apply in_or_app. left. apply in_flat_map. eauto.
      - apply Forall_forall. intros b Hb. apply Same. apply in_flat_map. eauto. }
    set (m' := {| fixed := false; blobId := blobId m + 1; cap := total; ecap := te mod 2 ^ 16; entries := map (rebaseE (poff m) new) (entries m); poff := new; pused := pused m; pcap := tp; fhead := rebase (poff m) new (fhead m); over := over m; mem := mm; junk := junk m |}).
    assert (Hm : te mod 2 ^ 16 <= te) by (apply N.mod_le; discriminate).
    rewrite (sentinel_ok m') by (cbn [m' ecap poff]; unfold new; lia). cbn [bind]. exists m', (map (shiftB (poff m) new) fr). split; [reflexivity|].
    assert (Lm : len (map (rebaseE (poff m) new) (entries m)) = len (entries m)) by (unfold len; rewrite map_length; reflexivity).
    assert (U : inUse m' = map (shiftB (poff m) new) (inUse m)) by (unfold inUse; cbn [m' entries]; apply (flat_map_shift (poff m) new (mem m)); assumption).
    assert (Ob : map (obs mm) (map (rebaseE (poff m) new) (entries m)) = map (obs (mem m)) (entries m)). { rewrite map_map. apply map_ext_in. intros e He. apply Ent. exact He. }
    split; [|split].
    + constructor; cbn [app]; rewrite ?U, <- ?map_app; cbn [m' ecap poff pcap cap entries pused mem fhead].
      * rewrite Lm. unfold new. lia.
      * unfold total. lia.
      * rewrite Lm. apply (i_cnt _ _ _ I).
      * exact Fc.
      * apply Forall_forall. intros b Hb. apply in_map_iff in Hb. destruct Hb as (c & <- & Hc). rewrite Forall_forall in M. apply (M c Hc).
      * apply Forall_forall. intros b Hb. apply in_map_iff in Hb. destruct Hb as (c & <- & Hc). rewrite Forall_forall in F. destruct (F c Hc) as [B1 B2]. unfold inPool, shiftB. cbn [m' poff pused fst snd]. lia.
      * exact Ps.
      * apply Forall_forall. intros e He. apply in_map_iff in He. destruct He as (e0 & <- & He). apply Ent. exact He.
      * assert (X : map (readKey mm) (map (rebaseE (poff m) new) (entries m)) = map (readKey (mem m)) (entries m)).
        { rewrite map_map. apply map_ext_in. intros e He. destruct (Ent e He) as [_ Eo]. injection Eo. auto. }
        rewrite X. apply (i_keys _ _ _ I).
      * intros Ha. destruct (i_al _ _ _ I Ha) as (A1 & A2 & A3). cbn [app] in A1. assert (Hn : new mod 16 = 0) by (apply N.mod_divide; [discriminate|]; exists (2 + 3 * te); unfold new; lia). split; [|auto].
        apply Forall_forall. intros b Hb. apply in_map_iff in Hb. destruct Hb as (c & <- & Hc). rewrite Forall_forall in A1, Old. destruct (A1 c Hc) as [A4 A5]. specialize (Old c Hc). cbn beta in Old. split; cbn [shiftB fst snd]; [|exact A5].
        pose proof (mul16 _ Hn). pose proof (mul16 _ A2). pose proof (mul16 _ A4). apply N.mod_divide; [discriminate|]. exists (new / 16 + (fst c / 16 - poff m / 16)). lia.
    + unfold moved, sameObs. rewrite !iterate_obs. cbn [m' fixed entries mem poff blobId pused junk]. rewrite Ob, Hf. repeat split; try discriminate; lia.
    + cbn [m' pused pcap poff over blobId ecap]. unfold new. split; [reflexivity|]. split; [lia|]. split; [lia|]. split; [reflexivity|]. split; [reflexivity|]. split; [intros Es; specialize (Hte3 Es); lia|]. intros Hs. rewrite N.mod_small; [lia|]. change (2 ^ 16) with 65536. lia.
Qed.

(** *** Space for records and keys *)
Definition keeps (m m' : vmap) : Prop :=
  sameObs m m' /\ fixed m' = fixed m /\ entries m' = entries m /\ poff m' = poff m /\ blobId m' = blobId m /\ cap m' = cap m /\ ecap m' = ecap m /\
  pcap m' = pcap m /\ junk m' = junk m /\ pused m <= pused m'.
Lemma shape_keeps m m' : shape m m' -> sameObs m m' -> keeps m m'.
Proof. intros (S1 & S2 & S3 & S4 & S5 & S6 & S7 & S8 & S9 & S10) O. unfold keeps. rewrite S7. repeat split; auto; lia. Qed.
Lemma keeps_trans a b c : keeps a b -> keeps b c -> keeps a c.
Proof. unfold keeps, sameObs. intros (A1 & A2 & A3 & A4 & A5 & A6 & A7 & A8 & A9 & A10) (B1 & B2 & B3 & B4 & B5 & B6 & B7 & B8 & B9 & B10). repeat split; try congruence. lia. Qed.
Lemma moved_keeps a b c : moved a b -> keeps b c -> moved a c.
Proof.
  intros (A1 & A2 & A3 & A4 & A5 & A6 & A7 & A8) (B1 & B2 & B3 & B4 & B5 & B6 & B7 & B8 & B9 & B10). unfold moved, sameObs in *.
  rewrite B1, B2, B3, B4, B5, B6, B7, B8, B9. repeat split; auto; try lia; apply A6; assumption.
Qed.
Lemma keeps_moved m m' ex fr : Inv m ex fr -> keeps m m' -> moved m m'.
Proof.
  intros I K. apply (moved_keeps m m); [|exact K]. apply (shape_moved m m ex fr I (shape_refl m)). reflexivity.
Qed.

(** Bytes of the pool that are not in use yet. *)
Lemma put_tail m ex fr off l : Inv m ex fr -> poff m + pused m <= off -> off + len l <= cap m ->
  put m off l = Ok (setMem m (wr (mem m) off l)) /\ Inv (setMem m (wr (mem m) off l)) ex fr /\ keeps m (setMem m (wr (mem m) off l)).
Proof.
  intros I H1 H2. unfold put. rewrite (proj2 (N.leb_le _ _)) by lia. split; [reflexivity|].
  assert (Sh : shape m (setMem m (wr (mem m) off l))) by (unfold shape; cbn; auto 12).
  pose proof (i_in _ _ _ I) as F. assert (D : forall b, In b (ex ++ inUse m ++ fr) -> forall x, fst b <= x < fst b + snd b -> wr (mem m) off l x = mem m x).
  { intros b Hb x Hx. rewrite Forall_forall in F. destruct (F b Hb) as [_ B]. apply wr_out. lia. }
  destruct (inv_change m ex fr (setMem m (wr (mem m) off l)) ex fr I Sh) as [I1 O1].
  - intros b Hb x Hx. cbn [mem setMem]. apply (D b); [|exact Hx]. apply in_or_app. right. apply in_or_app. left. exact Hb.
  - cbn [mem fhead setMem]. apply (fchain_ext (mem m)); [|apply (i_chain _ _ _ I)]. intros b Hb x Hx. pose proof (i_min _ _ _ I) as M. rewrite Forall_forall in M. specialize (M b Hb). cbn beta in M. cbn [hdr fst snd] in Hx.
    apply (D b); [|lia]. apply in_or_app. right. apply in_or_app. right. exact Hb.
  - apply (i_min _ _ _ I).
  - rewrite !Forall_app in F. rewrite Forall_app. tauto.
  - apply (i_pair _ _ _ I).
  - intros Ha. destruct (i_al _ _ _ I Ha) as (A1 & _). rewrite !Forall_app in A1. rewrite Forall_app. tauto.
  - split; [exact I1|]. apply shape_keeps; assumption.
Qed.
Lemma take_ok m ex fr a n : Inv m ex fr -> pused m <= a -> a + n <= pcap m -> (al = true -> a mod 16 = 0 /\ n mod 16 = 0) -> Inv (setUsed m (a + n)) ((poff m + a, n) :: ex) fr /\ keeps m (setUsed m (a + n)).
Proof.
  intros I H1 H2 Hal. split; [|unfold keeps, sameObs; cbn; repeat split; lia]. pose proof (i_in _ _ _ I) as F. rewrite Forall_forall in F. destruct I. constructor; cbn [setUsed poff pcap cap pused ecap entries mem fhead]; auto.
  - lia.
  - cbn [app]. constructor; [unfold inPool; cbn [setUsed poff pused fst snd]; lia|]. apply Forall_forall. intros b Hb. destruct (F b Hb). unfold inPool. cbn [setUsed poff pused]. lia.
  - cbn [app]. apply pairwise_cons. split; [|exact i_pair]. apply Forall_forall. intros b Hb. destruct (F b Hb). unfold disjoint. cbn [fst snd]. lia.
  - intros Ha. destruct (Hal Ha) as [H3 H4]. destruct (i_al Ha) as (A1 & A2 & A3). pose proof (mul16 _ H3). pose proof (mul16 _ H4). pose proof (mul16 _ A2). split; [|split; [exact A2|apply N.mod_divide; [discriminate|]; exists (a / 16 + n / 16); lia]].
    cbn [app]. constructor; [|exact A1]. split; cbn [fst snd]; [apply N.mod_divide; [discriminate|]; exists (poff m / 16 + a / 16); lia|exact H4].
Qed.
Lemma mark_ok m ex fr : Inv m ex fr -> Inv (markOverflow m) ex fr /\ keeps m (markOverflow m).
Proof. intros I. split; [destruct I; constructor; auto|unfold keeps, sameObs; cbn; repeat split; lia]. Qed.

(** Why space can be refused: the storage is the caller's, or offsets would not fit 32 bits. *)
Definition cannot (m : vmap) (n : N) : Prop := fixed m = true \/ W32 <= pused m + n + 32.
Lemma reserve_record m fr rs : Inv m [] fr -> 0 < rs -> rs mod 16 = 0 -> reserveRecord m rs = Limit \/ (reserveRecord m rs = Ok (markOverflow m, None) /\ cannot m rs) \/
  exists m' o fr', reserveRecord m rs = Ok (m', Some o) /\ Inv m' [(o, rs)] fr' /\ moved m m'.
Proof.
  intros I H Hr. unfold reserveRecord. destruct (popfit_ok m [] fr rs I H (fun _ => Hr)) as (m1 & r & E & S & O & R). rewrite E. cbn [bind]. destruct r as [o|].
  - right. right. destruct R as (fr' & I'). exists m1, o, fr'. split; [reflexivity|]. split; [exact I'|]. apply (shape_moved m m1 [] fr); assumption.
  - subst m1. destruct (i_size _ _ _ I) as (Z1 & Z2 & Z3). destruct (i_slots _ _ _ I) as [L1 L2]. destruct (round_ok (pused m)) as [R1 R2]; [lia|]. set (al0 := roundUp16 (pused m)) in *.
    destruct (N.ltb_spec (W32 - 1 - al0) rs) as [L|L]; [right; left; split; [reflexivity|right; lia]|].
    assert (Go : forall m2 fr2, Inv m2 [] fr2 -> moved m m2 -> pused m2 = pused m -> al0 + rs <= pcap m2 ->
      exists m' o fr', bind (if 0 <? al0 - pused m then put m2 (poff m2 + pused m) (zeros (al0 - pused m)) else Ok m2) (fun m3 => Ok (setUsed m3 (al0 + rs), Some (poff m3 + al0))) = Ok (m', Some o) /\ Inv m' [(o, rs)] fr' /\ moved m m').
    { intros m2 fr2 I2 M2 U2 P2. destruct (i_size _ _ _ I2) as (Y1 & Y2 & Y3). destruct (N.ltb_spec 0 (al0 - pused m)) as [L3|L3].
      - destruct (put_tail m2 [] fr2 (poff m2 + pused m) (zeros (al0 - pused m)) I2) as (E3 & I3 & K3); [lia|rewrite len_zeros; lia|]. rewrite E3. cbn [bind]. destruct (take_ok _ [] fr2 al0 rs I3) as [I4 K4]; [cbn [setMem pused]; lia|cbn [setMem pcap]; lia|auto|].
        do 3 eexists. split; [reflexivity|]. split; [exact I4|]. apply (moved_keeps m m2); [exact M2|]. eapply keeps_trans; eassumption.
      - cbn [bind]. destruct (take_ok m2 [] fr2 al0 rs I2) as [I4 K4]; [lia|lia|auto|]. do 3 eexists. split; [reflexivity|]. split; [exact I4|]. apply (moved_keeps m m2); assumption. }
    destruct (N.ltb_spec (pcap m) (al0 + rs)) as [L4|L4].
    + destruct (fixed m) eqn:Hf; [right; left; split; [reflexivity|left; exact Hf]|]. destruct (grow_ok m fr (len (entries m)) (al0 + rs) false I Hf) as [G|(m2 & fr2 & G & I2 & M2 & U2 & P2 & _)]; rewrite G; cbn [bind]; [left; reflexivity|].
      right. right. apply (Go m2 fr2); assumption.
    + right. right. apply (Go m fr); [exact I| |reflexivity|exact L4]. apply (shape_moved m m [] fr I (shape_refl m)). reflexivity.
Qed.
Definition recImage (vt ct fl : N) (content : list N) : list N :=
  let recSize := alignToRecord (8 + len content) in recHeader recSize vt ct fl ++ content ++ zeros (recSize - 8 - len content).
Lemma len_recHeader s vt ct fl : len (recHeader s vt ct fl) = 8. Proof. reflexivity. Qed.
Lemma append_record m fr vt ct fl c : Inv m [] fr -> appendValueRecord m vt ct fl c = Limit \/ (appendValueRecord m vt ct fl c = Ok (markOverflow m, None) /\ cannot m (len c + 24)) \/
  exists m' o fr', appendValueRecord m vt ct fl c = Ok (m', Some o) /\ Inv m' [(o, alignToRecord (8 + len c))] fr' /\ moved m m' /\
    rd (mem m') o (N.to_nat (alignToRecord (8 + len c))) = recImage vt ct fl c /\ len c + 32 < W32.
Proof.
  intros I. unfold appendValueRecord. destruct (N.leb_spec W32 (len c + 32)) as [L|L]; [left; reflexivity|]. cbn zeta. set (rs := alignToRecord (8 + len c)).
  assert (A : 8 + len c <= rs) by (apply atr_up; lia). pose proof (atr_range (8 + len c)) as A2. fold rs in A2.
  assert (A3 : rs <= len c + 24). { unfold rs. rewrite atr_val by lia. rewrite (proj2 (N.eqb_neq _ 0)) by lia. pose proof (div16 (8 + len c + 15)). lia. }
  destruct (reserve_record m fr rs I) as [E|[[E X]|(m1 & o & fr1 & E & I1 & M1)]]; [lia|apply atr_mod| | |]; rewrite E; cbn [bind]; [left; reflexivity|right; left; split; [reflexivity|destruct X; [left; assumption|right; lia]]|right; right].
  assert (Ln : len (recImage vt ct fl c) = rs). { unfold recImage. cbn zeta. rewrite !len_app, len_recHeader, len_zeros. fold rs. lia. }
  change (recHeader rs vt ct fl ++ c ++ zeros (rs - 8 - len c)) with (recImage vt ct fl c).
  destruct (put_ok m1 (o, rs) [] fr1 o (recImage vt ct fl c) I1) as (E2 & I2 & O2); [cbn [fst]; lia|cbn [fst snd]; lia|]. rewrite E2. cbn [bind]. do 3 eexists. split; [reflexivity|]. split; [exact I2|]. split.
  - apply (moved_keeps m m1); [exact M1|]. apply shape_keeps; [unfold shape; cbn; auto 12|exact O2].
  - split; [|exact L]. cbn [mem setMem]. rewrite <- Ln. rewrite to_nat_len. apply rd_wr.
Qed.
Lemma append_payload m fr src extra : Inv m [] fr -> 0 < len src + extra -> al = false -> appendPayload m src extra = Limit \/ (appendPayload m src extra = Ok (markOverflow m, None) /\ cannot m (len src + extra)) \/
  exists m' o fr', appendPayload m src extra = Ok (m', Some o) /\ Inv m' [(o, len src + extra)] fr' /\ moved m m' /\ rd (mem m') o (length src) = src /\ len src + extra < W32 /\ 32 + 48 * ecap m <= poff m'.
Proof.
  intros I H Hal. assert (Hx : forall P : Prop, al = true -> P) by (intros P Ha; congruence). unfold appendPayload. destruct (N.leb_spec W32 (len src + extra)) as [L|L]; [left; reflexivity|]. cbn zeta. set (n := len src + extra) in *.
  assert (Ln : len (src ++ zeros extra) = n) by (rewrite len_app, len_zeros; reflexivity).
  assert (Rd : forall mm o, rd (wr mm o (src ++ zeros extra)) o (length src) = src).
  { intros mm o. pose proof (rd_wr_mid mm o [] src (zeros extra)) as R. cbn [app] in R. change (len (@nil N)) with 0 in R. rewrite N.add_0_r in R. exact R. }
  destruct (popfit_ok m [] fr n I H (Hx _)) as (m1 & r & E & S & O & R). rewrite E. cbn [bind]. destruct r as [o|].
  - right. right. destruct R as (fr' & I'). destruct (put_ok m1 (o, n) [] fr' o (src ++ zeros extra) I') as (E2 & I2 & O2); [cbn [fst]; lia|cbn [fst snd]; lia|]. rewrite E2. cbn [bind]. do 3 eexists. split; [reflexivity|]. split; [exact I2|]. split; [|split; [apply Rd|split; [exact L|]]].
    2:{ cbn [setMem poff]. destruct S as (S1 & S2 & S3 & S4 & S5 & S6 & _). rewrite S6. apply (i_slots _ _ _ I). }
    apply (moved_keeps m m1); [apply (shape_moved m m1 [] fr); assumption|]. apply shape_keeps; [unfold shape; cbn; auto 12|exact O2].
  - subst m1. destruct (i_size _ _ _ I) as (Z1 & Z2 & Z3). destruct (i_slots _ _ _ I) as [L1 L2].
    destruct (N.ltb_spec (W32 - 1 - pused m) n) as [L3|L3]; [right; left; split; [reflexivity|right; lia]|].
    assert (Go : forall m2 fr2, Inv m2 [] fr2 -> moved m m2 -> pused m2 = pused m -> pused m + n <= pcap m2 -> 32 + 48 * ecap m <= poff m2 ->
      exists m' o fr', bind (put m2 (poff m2 + pused m2) (src ++ zeros extra)) (fun m3 => Ok (setUsed m3 (pused m3 + n), Some (poff m2 + pused m2))) = Ok (m', Some o) /\ Inv m' [(o, n)] fr' /\ moved m m' /\ rd (mem m') o (length src) = src /\ n < W32 /\ 32 + 48 * ecap m <= poff m').
    { intros m2 fr2 I2 M2 U2 P2 Q2. destruct (i_size _ _ _ I2) as (Y1 & Y2 & Y3). destruct (put_tail m2 [] fr2 (poff m2 + pused m2) (src ++ zeros extra) I2) as (E3 & I3 & K3); [lia|lia|]. rewrite E3. cbn [bind].
      destruct (take_ok _ [] fr2 (pused m2) n I3) as [I4 K4]; [cbn [setMem pused]; lia|cbn [setMem pcap]; lia|apply Hx|]. do 3 eexists. split; [reflexivity|]. split; [exact I4|]. split; [|split; [apply Rd|split; [exact L|exact Q2]]].
      apply (moved_keeps m m2); [exact M2|]. eapply keeps_trans; eassumption. }
    destruct (N.ltb_spec (pcap m) (pused m + n)) as [L4|L4].
    + destruct (fixed m) eqn:Hf; [right; left; split; [reflexivity|left; exact Hf]|]. destruct (grow_ok m fr (len (entries m)) (pused m + n) false I Hf) as [G|(m2 & fr2 & G & I2 & M2 & U2 & P2 & _ & _ & _ & Q2 & _)]; rewrite G; cbn [bind]; [left; reflexivity|].
      right. right. apply (Go m2 fr2); auto.
    + right. right. apply (Go m fr); [exact I| |reflexivity|exact L4|exact L1]. apply (shape_moved m m [] fr I (shape_refl m)). reflexivity.
Qed.
End Alignment.
