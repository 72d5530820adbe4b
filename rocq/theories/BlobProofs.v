(** Proofs about the byte image of a property map. *)
From Coq Require Import List NArith Bool Lia ZifyBool ZifyNat ZifyN.
From Verif Require Import WireModel WireProofs ChunkModel ChunkSpec ChunkPoolProofs ChunkProofs ValueMapModel BlobModel ValueMapSpec ValueMapPool ValueMapInv BlobImage ValueMapProofs BlobSpec Base.
Import ListNotations.
Local Open Scope N_scope.

Lemma dec1 x : dec [x] = x. Proof. cbn [dec]. lia. Qed.
Lemma get_ok mm a n off k : off + N.of_nat k <= n -> get mm a n off k = VOk (dec (rd mm (a + off) k)).
Proof. intros H. unfold get. rewrite (proj2 (N.leb_le _ _) H). reflexivity. Qed.
Lemma part_ok {A} n off k (r : vres A) x : part n off k r = VOk x -> off + k <= n /\ r = VOk x. Proof. unfold part. destruct (N.leb_spec (off + k) n); [auto|discriminate]. Qed.
Lemma part_in {A} n off k (r : vres A) : off + k <= n -> part n off k r = r. Proof. intros H. unfold part. rewrite (proj2 (N.leb_le _ _) H). reflexivity. Qed.
Lemma check_true {A} c (k : vres A) : c = true -> check c k = k. Proof. intros ->. reflexivity. Qed.
Lemma check_ok {A} c (k : vres A) x : check c k = VOk x -> c = true /\ k = VOk x. Proof. destruct c; [auto|discriminate]. Qed.
Lemma vbind_ok {A B} (e : vres A) (f : A -> vres B) y : vbind e f = VOk y -> exists x, e = VOk x /\ f x = VOk y.
Proof. destruct e; cbn [vbind]; [eauto|discriminate|discriminate]. Qed.
Lemma get_val mm a n off k x : get mm a n off k = VOk x -> x = dec (rd mm (a + off) k) /\ off + N.of_nat k <= n.
Proof. unfold get. destruct (N.leb_spec (off + N.of_nat k) n); [|discriminate]. intros H'. injection H' as <-. auto. Qed.

Lemma validate_S f mm t d a n : validate (S f) mm t d a n =
  if t then validateTensor (fun t' a' n' => validate f mm t' (d + 1) a' n') mm d a n else validateMap (fun t' a' n' => validate f mm t' (d + 1) a' n') mm d a n.
Proof. reflexivity. Qed.
Lemma validateBlob_eq mm a n : validateBlob mm a n = validateMap (fun t' a' n' => validate 33 mm t' (0 + 1) a' n') mm 0 a n.
Proof. exact (validate_S 33 mm false 0 a n). Qed.

(** *** Well-formed maps are accepted *)
Lemma loop_ok one n : forall i, (forall j, j < N.of_nat n -> exists c, one (i + j) = VOk c) -> exists c, entriesLoop one n i = VOk c.
Proof.
  induction n as [|n IH]; intros i H; cbn [entriesLoop]; [eauto|]. destruct (H 0 ltac:(lia)) as [c E]. rewrite N.add_0_r in E. rewrite E. cbn [vbind].
  destruct (IH (i + 1)) as [d E']; [|rewrite E'; cbn [vbind]; eauto]. intros j Hj. destruct (H (1 + j) ltac:(lia)) as [d E']. exists d. rewrite <- E'. f_equal. lia.
Qed.
Lemma loop_all one n : forall i c, entriesLoop one n i = VOk c -> forall j, j < N.of_nat n -> exists d, one (i + j) = VOk d.
Proof.
  induction n as [|n IH]; intros i c H j Hj; [lia|]. cbn [entriesLoop] in H. apply vbind_ok in H. destruct H as (x & E & H). apply vbind_ok in H. destruct H as (y & E' & _).
  destruct (N.eq_dec j 0) as [ -> |Hn]; [rewrite N.add_0_r; eauto|]. destruct (IH _ _ E' (j - 1) ltac:(lia)) as [d D]. exists d. rewrite <- D. f_equal. lia.
Qed.
Lemma walk_ok mm a n ts po fr : forall fuel h, (length fr <= fuel)%nat -> ts <= n -> 8 <= ts -> fchain (fun x => mm (a + x)) h fr -> Forall (fun b => 8 <= snd b /\ po <= fst b /\ fst b + snd b <= ts) fr ->
  exists c, freeWalk fuel mm a n ts po h = VOk c.
Proof.
  induction fr as [|b fr IH]; intros fuel h L T T8 C F; cbn [fchain] in C.
  - rewrite C. destruct fuel; exists 0; reflexivity.
  - destruct C as (-> & C0 & C1 & C2). inversion F as [|? ? (F1 & F2 & F3) F']; subst. destruct fuel as [|fuel]; [cbn [length] in L; lia|]. cbn [freeWalk]. rewrite (proj2 (N.eqb_neq _ 0) C0).
    assert (R : forall x k, rd (fun y => mm (a + y)) x k = rd mm (a + x) k) by (intros x k; apply rd_shift; intros i _; f_equal; lia). rewrite R in C1, C2.
    rewrite check_true by lia. rewrite !get_ok by lia. cbn [vbind]. rewrite C1. rewrite check_true by lia. replace (a + fst b + 4) with (a + (fst b + 4)) in C2 by lia.
    destruct (IH fuel (dec (rd mm (a + (fst b + 4)) 4))) as [c E]; [cbn [length] in L; lia|exact T|exact T8|exact C2|exact F'|]. rewrite E. cbn [vbind]. eauto.
Qed.

Lemma nth_parse mm n : forall a j, (j < n)%nat -> nth_error (parseEntries mm a n) j = Some (parseEntry mm (a + 48 * N.of_nat j)).
Proof.
  induction n as [|n IH]; intros a j H; [lia|]. destruct j as [|j]; cbn [parseEntries nth_error]; [rewrite N.mul_0_r, N.add_0_r; reflexivity|]. rewrite IH by lia. do 2 f_equal. lia.
Qed.
Lemma entry_at m a j e : len (entries m) < 2 ^ 16 -> nth_error (entries m) j = Some e -> parseEntry (blobImage m a) (a + 32 + 48 * N.of_nat j) = norm e.
Proof.
  intros H Hj. pose proof (parsed m a (mem m) H) as P. cbn [parse entries] in P. rewrite h_count, N.mod_small in P by exact H. rewrite to_nat_len in P.
  assert (L : (j < length (entries m))%nat) by (apply nth_error_Some; congruence). pose proof (nth_parse (blobImage m a) (length (entries m)) (a + 32) j L) as X. rewrite P, nth_error_map, Hj in X. cbn [option_map] in X. congruence.
Qed.
Lemma rd_first mm a n k : (n <= k)%nat -> firstn n (rd mm a k) = rd mm a n.
Proof. intros H. replace k with (n + (k - n))%nat by lia. rewrite rd_app, firstn_app, firstn_all2 by (rewrite rd_len; lia). rewrite rd_len, PeanoNat.Nat.sub_diag, firstn_O. apply app_nil_r. Qed.
Lemma rd_skip mm a n k : (n <= k)%nat -> skipn n (rd mm a k) = rd mm (a + N.of_nat n) (k - n).
Proof. intros H. replace k with (n + (k - n))%nat at 1 by lia. rewrite rd_app, skipn_app, skipn_all2 by (rewrite rd_len; lia). rewrite rd_len, PeanoNat.Nat.sub_diag, skipn_O. reflexivity. Qed.
Lemma parse_spill mm a : spillOff (parseEntry mm a) = dec (rd mm (a + 12) 4) /\ spillLen (parseEntry mm a) = dec (rd mm (a + 16) 4).
Proof.
  unfold spillOff, spillLen, parseEntry. cbn [eInline]. rewrite rd_first by lia. split; [reflexivity|]. rewrite rd_skip by lia. rewrite rd_first by lia. f_equal. f_equal. change (N.of_nat 4) with 4. lia.
Qed.
Lemma parse_inline mm a k : eInline (parseEntry mm a) = inlineImg k -> mm (a + 12) = len k mod 256.
Proof. cbn [parseEntry eInline]. intros H. apply (f_equal (fun l => hd 0 l)) in H. exact H. Qed.

(** What the validator sees of an entry. *)
Definition entryCheck (sub : bool -> N -> N -> vres N) (mm : memory) (depth a n ts po : N) (E : entry) (inl : N) : vres N :=
  vbind (if N.testbit (eFlags E) 1 then
          check ((po <=? ePOff E) && (ePOff E <=? ts) && (ePLen E <=? ts - ePOff E))
          (check (8 <=? ePLen E)
           (vbind (get mm a n (ePOff E) 4) (fun rs =>
            check (rs =? alignToRecord (ePLen E))
            (vbind (get mm a n (ePOff E + 7) 1) (fun rp =>
             check ((rp =? 8) && (eVT E <=? 15))
              (if N.testbit (eFlags E) 3 || N.testbit (eFlags E) 4 then
                 check (depth + 1 <? kMaxDecodeDepth)
                 (check (8 + (if N.testbit (eFlags E) 3 then 32 else 8) <=? ePLen E) (part n (ePOff E + 8) (ePLen E - 8) (sub (negb (N.testbit (eFlags E) 3)) (a + ePOff E + 8) (ePLen E - 8))))
               else VOk 0))))))
        else VOk 0) (fun x =>
  vbind (if eKeyId E =? kInlineKeyId then check (inl <=? kMaxInlineKeyLength) (VOk 0)
        else if eKeyId E =? kSpilledKeyId then
          check ((po <=? spillOff E) && (spillOff E <=? ts) && (spillLen E <=? ts - spillOff E)) (VOk 0)
        else VOk 0) (fun y => VOk (1 + x + y))).
Lemma entry_check sub mm depth a n ts po i : 32 + 48 * i + 48 <= n ->
  validateEntry sub mm depth a n ts po i = entryCheck sub mm depth a n ts po (parseEntry mm (a + 32 + 48 * i)) (mm (a + 32 + 48 * i + 12)).
Proof.
  intros H. unfold validateEntry, entryCheck. set (e := 32 + 48 * i) in *. replace (a + 32 + 48 * i) with (a + e) by (unfold e; lia). rewrite (get_ok _ _ _ (e + 11) 1), (get_ok _ _ _ e 4), (get_ok _ _ _ (e + 4) 4), (get_ok _ _ _ (e + 8) 2), (get_ok _ _ _ (e + 10) 1) by lia. cbn [vbind].
  destruct (parse_spill mm (a + e)) as [S1 S2]. rewrite S1, S2. cbn [parseEntry ePOff ePLen eKeyId eVT eFlags]. rewrite (get_ok _ _ _ (e + 12) 1), (get_ok _ _ _ (e + 12) 4), (get_ok _ _ _ (e + 16) 4) by lia. cbn [vbind]. cbn [rd]. rewrite !dec1, !N.add_assoc. reflexivity.
Qed.

Section Alignment.
Context {al : bool}.
Notation Inv := (Inv (al := al)).
Lemma reg_in m fr e b : Inv m [] fr -> In e (entries m) -> In b (regs e) -> poff m <= fst b /\ fst b + snd b <= poff m + pcap m.
Proof.
  intros I He Hb. pose proof (i_in _ _ _ I) as F. rewrite Forall_forall in F. destruct (F b (inv_reg m [] fr e b I He Hb)) as [F1 F2]. destruct (i_size _ _ _ I) as (S1 & S2 & S3). lia.
Qed.
Lemma accepted m fr a : Inv m [] fr -> a mod 16 = 0 -> Forall plainItem (map snd (iterate m)) -> exists c, validateBlob (blobImage m a) a (blobSize m) = VOk c.
Proof.
  intros I Ha P. pose proof (i_size _ _ _ I) as (S1 & S2 & S3). pose proof (i_slots _ _ _ I) as (L1 & L2). pose proof (i_cnt _ _ _ I) as Cn. pose proof (fhead_small _ _ _ I) as Fh.
  rewrite validateBlob_eq. set (sub := fun (t : bool) a' n' => validate 33 (blobImage m a) t (0 + 1) a' n'). clearbody sub. unfold validateMap, blobSize. set (n := poff m + pcap m).
  assert (N32 : 32 <= n) by (unfold n; lia). rewrite check_true by lia. rewrite (check_true (a mod 16 =? 0)) by lia.
  rewrite (get_ok _ _ _ 0 4), (get_ok _ _ _ 4 1), (get_ok _ _ _ 12 4), (get_ok _ _ _ 16 4), (get_ok _ _ _ 6 2), (get_ok _ _ _ 28 4) by lia. cbn [vbind]. rewrite h_magic, h_version. rewrite check_true by reflexivity.
  rewrite h_total, h_poff, h_count, h_fhead. change (2 ^ 32) with W32. rewrite !N.mod_small by (try exact Cn; lia). fold n. rewrite check_true by lia. rewrite check_true by lia. rewrite to_nat_len.
  destruct (loop_ok (validateEntry sub (blobImage m a) 0 a n n (poff m)) (length (entries m)) 0) as [c1 E1].
  { intros j Hj. rewrite N.add_0_l. rewrite entry_check by (unfold n, len in *; lia).
    destruct (nth_error (entries m) (N.to_nat j)) as [e|] eqn:He; [|apply nth_error_None in He; lia]. pose proof (entry_at m a _ e Cn He) as Pe. rewrite N2Nat.id in Pe. pose proof (parse_inline (blobImage m a) (a + 32 + 48 * j)) as Pi. rewrite Pe in *.
    apply nth_error_In in He. pose proof (i_ent _ _ _ I) as W. rewrite Forall_forall in W. specialize (W e He). destruct (norm_ok (mem m) e W (regs_small _ _ _ _ I He)) as (W' & O' & R'). pose proof (fun b (Hb : In b (regs (norm e))) => reg_in m fr e b I He (eq_ind _ (In b) Hb _ R')) as Rg.
    assert (Pl : plainItem (itemOf (mem m) (norm e))). { unfold obs in O'. injection O' as _ ->. rewrite Forall_forall in P. apply P. apply in_map_iff. exists (obs (mem m) e). split; [reflexivity|]. rewrite iterate_obs. apply in_map. exact He. }
    clear W O' R' Pe. generalize dependent (norm e). intros E Pi [WK WV] Rg Pl. unfold entryCheck.
    assert (X : exists x, (if N.testbit (eFlags E) 1 then
          check ((poff m <=? ePOff E) && (ePOff E <=? n) && (ePLen E <=? n - ePOff E))
          (check (8 <=? ePLen E)
           (vbind (get (blobImage m a) a n (ePOff E) 4) (fun rs =>
            check (rs =? alignToRecord (ePLen E))
            (vbind (get (blobImage m a) a n (ePOff E + 7) 1) (fun rp =>
             check ((rp =? 8) && (eVT E <=? 15))
              (if N.testbit (eFlags E) 3 || N.testbit (eFlags E) 4 then
                 check (0 + 1 <? kMaxDecodeDepth)
                 (check (8 + (if N.testbit (eFlags E) 3 then 32 else 8) <=? ePLen E) (part n (ePOff E + 8) (ePLen E - 8) (sub (negb (N.testbit (eFlags E) 3)) (a + ePOff E + 8) (ePLen E - 8))))
               else VOk 0)))))) else VOk 0) = VOk x).
    { destruct (N.testbit (eFlags E) 1) eqn:Fl; [|eauto]. destruct WV as [WV|(V1 & V2 & V3 & V4 & V5 & V6)]; [rewrite WV in Fl; discriminate Fl|]. destruct (Rg (ePOff E, alignToRecord (ePLen E))) as [B1 B2]; [unfold regs, hasOffset; rewrite Fl; left; reflexivity|]. cbn [fst snd] in B1, B2. fold n in B2.
      pose proof (atr_range (ePLen E)) as Ar. rewrite check_true by lia. rewrite check_true by lia. rewrite !get_ok by lia. cbn [vbind]. rewrite !image_pool_rd by lia. rewrite V4. rewrite check_true by lia. cbn [rd]. rewrite dec1.
      destruct V6 as (V7 & V8 & V9). unfold plainItem, itemOf in Pl. unfold hasOffset in Pl. rewrite Fl, (proj2 (N.eqb_neq _ 0) V2) in Pl. cbn [negb andb] in Pl. destruct Pl as (P1 & P2 & P3). rewrite V5 in P1. rewrite check_true by lia.
      assert (Z : eFlags E = 2). { rewrite V8. unfold flagsOf. rewrite (proj2 (N.eqb_neq _ 3) P2), (proj2 (N.eqb_neq _ 4) P3), andb_false_r. reflexivity. } rewrite Z. cbn. eauto. }
    destruct X as [x X]. rewrite X. clear X. cbn [vbind].
    assert (Y : exists y, (if eKeyId E =? kInlineKeyId then check (blobImage m a (a + 32 + 48 * j + 12) <=? kMaxInlineKeyLength) (VOk 0)
        else if eKeyId E =? kSpilledKeyId then
          check ((poff m <=? spillOff E) && (spillOff E <=? n) && (spillLen E <=? n - spillOff E)) (VOk 0)
        else VOk 0) = VOk y).
    { destruct (N.eqb_spec (eKeyId E) kInlineKeyId) as [K|K].
      - destruct WK as [WK|[(_ & k & WK & Lk & _)|(WK & _)]]; [rewrite K in WK; change (len kCanonical) with 22 in WK; unfold kInlineKeyId in WK; lia| |rewrite K in WK; discriminate WK].
        rewrite (Pi k WK), N.mod_small by lia. unfold kMaxInlineKeyLength. rewrite check_true by lia. eauto.
      - destruct (N.eqb_spec (eKeyId E) kSpilledKeyId) as [K'|K']; [|eauto]. destruct (Rg (spillOff E, spillLen E + 1)) as [B1 B2]; [unfold regs; rewrite K'; change (kSpilledKeyId =? kSpilledKeyId) with true; apply in_or_app; right; left; reflexivity|]. cbn [fst snd] in B1, B2. fold n in B2.
        rewrite check_true by lia. eauto. }
    destruct Y as [y Y]. rewrite Y. cbn [vbind]. eauto. }
  rewrite E1. cbn [vbind].
  assert (Fi : forall b, In b fr -> 8 <= snd b /\ poff m <= fst b /\ fst b + snd b <= n).
  { intros b Hb. pose proof (i_min _ _ _ I) as M. rewrite Forall_forall in M. specialize (M b Hb). pose proof (i_in _ _ _ I) as F. rewrite Forall_forall in F. destruct (F b) as [F1 F2]; [cbn [app]; apply in_or_app; right; exact Hb|]. unfold n. lia. }
  destruct (walk_ok (blobImage m a) a n n (poff m) fr (N.to_nat (n / 8 + 1)) (fhead m)) as [c2 E2].
  - pose proof (i_pair _ _ _ I) as Pw. cbn [app] in Pw. apply pairwise_app in Pw. destruct Pw as (_ & Pw & _). pose proof (blocks_fit n fr Pw (i_min _ _ _ I)) as B. unfold len in B. assert (X : Forall (fun b => fst b + snd b <= n) fr) by (apply Forall_forall; intros b Hb; apply (Fi b Hb)). specialize (B X). lia.
  - lia.
  - lia.
  - apply (fchain_ext (mem m)); [|apply (i_chain _ _ _ I)]. intros b Hb x Hx. apply image_pool. destruct (Fi b Hb) as (F1 & F2 & F3). unfold hdr in Hx. cbn [fst snd] in Hx. lia.
  - apply Forall_forall. exact Fi.
  - rewrite E2. cbn [vbind]. eauto.
Qed.
End Alignment.

(** *** Maps that contain maps are rejected *)
Lemma rejected m fr a c : Inv (al := true) m [] fr -> Exists nestedItem (map snd (iterate m)) -> validateBlob (blobImage m a) a (blobSize m) <> VOk c.
Proof.
  intros I P H. pose proof (i_size _ _ _ I) as (S1 & S2 & S3). pose proof (i_slots _ _ _ I) as (L1 & L2). pose proof (i_cnt _ _ _ I) as Cn.
  apply Exists_exists in P. destruct P as (it & Hit & P). apply in_map_iff in Hit. destruct Hit as ((k & it') & E & Hit). cbn [snd] in E. subst it'. rewrite iterate_obs in Hit. apply in_map_iff in Hit. destruct Hit as (e & Eo & He).
  rewrite validateBlob_eq in H. unfold validateMap in H. apply check_ok in H. destruct H as [N32 H]. apply check_ok in H. destruct H as [Al H]. apply N.eqb_eq in Al.
  apply vbind_ok in H. destruct H as (mg & _ & H). apply vbind_ok in H. destruct H as (ver & _ & H). apply check_ok in H. destruct H as [_ H].
  apply vbind_ok in H. destruct H as (ts & Gt & H). apply vbind_ok in H. destruct H as (po & Gp & H). apply vbind_ok in H. destruct H as (cnt & Gc & H). apply vbind_ok in H. destruct H as (fh & _ & H).
  apply check_ok in H. destruct H as [C1 H]. apply check_ok in H. destruct H as [C2 H]. apply vbind_ok in H. destruct H as (x & Lo & _).
  apply get_val in Gc. destruct Gc as [Gc _]. rewrite h_count, N.mod_small in Gc by exact Cn. subst cnt. rewrite to_nat_len in Lo.
  destruct (In_nth_error _ _ He) as [j Hj]. assert (Lj : (j < length (entries m))%nat) by (apply nth_error_Some; congruence).
  destruct (loop_all _ _ _ _ Lo (N.of_nat j) ltac:(lia)) as [d D]. rewrite entry_check in D by (unfold len in *; lia). rewrite (N.add_0_l (N.of_nat j)) in D. rewrite (entry_at m a j e Cn Hj) in D.
  pose proof (i_ent _ _ _ I) as W. rewrite Forall_forall in W. specialize (W e He). destruct (norm_ok (mem m) e W (regs_small _ _ _ _ I He)) as (W' & O' & R').
  unfold obs in O', Eo. injection O' as _ O'. injection Eo as _ Eo. rewrite <- O' in Eo. subst it. unfold nestedItem, itemOf in P. destruct (hasOffset (eFlags (norm e)) && negb (ePOff (norm e) =? 0)) eqn:Ho; [|destruct P]. apply andb_true_iff in Ho. destruct Ho as [Ho _].
  destruct W' as [_ [W'|(V1 & V2 & V3 & V4 & V5 & V6)]]; [rewrite W' in Ho; discriminate Ho|]. destruct P as [P1 P2]. rewrite V5 in P1. destruct V6 as (_ & V6 & _). rewrite P1, P2 in V6. change (flagsOf 15 4) with 10 in V6.
  destruct (i_al _ _ _ I eq_refl) as (A & _). rewrite Forall_forall in A. destruct (A (ePOff (norm e), alignToRecord (ePLen (norm e)))) as [A1 _]. { eapply inv_reg; [exact I|exact He|]. rewrite <- R'. unfold regs. rewrite Ho. left. reflexivity. }
  cbn [fst] in A1. unfold entryCheck in D. rewrite V6 in D. change (N.testbit 10 1) with true in D. change (N.testbit 10 3) with true in D. cbn [orb negb] in D. apply vbind_ok in D. destruct D as (y & D & _). apply check_ok in D. destruct D as [_ D]. apply check_ok in D. destruct D as [_ D].
  apply vbind_ok in D. destruct D as (rs & _ & D). apply check_ok in D. destruct D as [_ D]. apply vbind_ok in D. destruct D as (rp & _ & D). apply check_ok in D. destruct D as [_ D]. apply check_ok in D. destruct D as [_ D]. apply check_ok in D. destruct D as [_ D].
  apply part_ok in D. destruct D as [_ D]. rewrite (validate_S 32) in D. unfold validateMap in D. apply check_ok in D. destruct D as [_ D]. apply check_ok in D. destruct D as [D _]. apply N.eqb_eq in D.
  pose proof (N.div_mod a 16 ltac:(lia)) as Q1. pose proof (N.div_mod (ePOff (norm e)) 16 ltac:(lia)) as Q2. rewrite Al in Q1. rewrite A1 in Q2.
  assert (Q3 : a + ePOff (norm e) + 8 = 8 + (a / 16 + ePOff (norm e) / 16) * 16) by lia. rewrite Q3, N.mod_add in D by lia. discriminate D.
Qed.

(** *** The validator stays inside its input *)
Lemma check_nb {A} c (k : vres A) : (c = true -> k <> VBad) -> check c k <> VBad. Proof. destruct c; [auto|discriminate]. Qed.
Lemma bind_nb {A B} (e : vres A) (f : A -> vres B) : e <> VBad -> (forall x, e = VOk x -> f x <> VBad) -> vbind e f <> VBad.
Proof. destruct e; cbn [vbind]; [auto|discriminate|congruence]. Qed.
Lemma get_nb mm a n off k : off + N.of_nat k <= n -> get mm a n off k <> VBad. Proof. intros H. rewrite get_ok by exact H. discriminate. Qed.
Lemma elems_safe sub mm a n : (forall t a' n', sub t a' n' <> VBad) -> forall count off, off <= n -> elemsLoop sub mm a n count off <> VBad.
Proof.
  intros S. induction count as [|count IH]; intros off H; cbn [elemsLoop]; [discriminate|]. apply check_nb. intros C. apply N.leb_le in C.
  apply bind_nb; [apply get_nb; lia|]. intros pl _. apply bind_nb; [apply get_nb; lia|]. intros vt _. apply bind_nb; [apply get_nb; lia|]. intros fl _. apply check_nb. intros C2. apply N.leb_le in C2.
  apply bind_nb; [rewrite part_in by lia; destruct (N.testbit fl 4); [apply S|destruct (_ && _); [apply S|discriminate]]|]. intros x _. apply bind_nb; [|intros; discriminate]. apply IH.
  pose proof (N.le_min_r (padElement pl) ((n - (off + 16)) mod 2 ^ 32)). pose proof (N.mod_le (n - (off + 16)) (2 ^ 32) ltac:(discriminate)). lia.
Qed.
Lemma walk_safe mm a n ts po : 8 <= ts -> ts <= n -> forall fuel cur, freeWalk fuel mm a n ts po cur <> VBad.
Proof.
  intros T T'. induction fuel as [|fuel IH]; intros cur; cbn [freeWalk]; destruct (cur =? 0); try discriminate. apply check_nb. intros C.
  apply bind_nb; [apply get_nb; lia|]. intros l _. apply bind_nb; [apply get_nb; lia|]. intros nx _. apply check_nb. intros _. apply bind_nb; [apply IH|intros; discriminate].
Qed.
Lemma loop_safe one n : forall i, (forall j, i <= j < i + N.of_nat n -> one j <> VBad) -> entriesLoop one n i <> VBad.
Proof.
  induction n as [|n IH]; intros i H; cbn [entriesLoop]; [discriminate|]. apply bind_nb; [apply H; lia|]. intros x _. apply bind_nb; [|intros; discriminate]. apply IH. intros j Hj. apply H. lia.
Qed.
Lemma tensor_safe sub mm depth a n : (depth < 32 -> forall t a' n', sub t a' n' <> VBad) -> validateTensor sub mm depth a n <> VBad.
Proof.
  intros S. unfold validateTensor. apply check_nb. intros C. apply N.ltb_lt in C. apply check_nb. intros C8. apply N.leb_le in C8. apply bind_nb; [apply get_nb; lia|]. intros vt _. apply bind_nb; [apply get_nb; lia|]. intros rank _. apply bind_nb; [apply get_nb; lia|]. intros ef _.
  apply check_nb. intros _. apply bind_nb; [apply get_nb; lia|]. intros cnt _. apply check_nb. intros _. apply check_nb. intros Ce. apply N.leb_le in Ce. apply check_nb. intros _. rewrite part_in by lia. destruct (N.testbit ef 0).
  - apply elems_safe; [apply S; exact C|lia].
  - apply check_nb. intros _. apply check_nb. intros _. discriminate.
Qed.
Lemma entry_safe sub mm depth a n ts po i : (depth + 1 < 32 -> forall t a' n', sub t a' n' <> VBad) -> 32 + 48 * i + 48 <= n -> ts <= n -> validateEntry sub mm depth a n ts po i <> VBad.
Proof.
  intros S H T. rewrite entry_check by exact H. unfold entryCheck. set (E := parseEntry mm (a + 32 + 48 * i)). clearbody E. apply bind_nb.
  - destruct (N.testbit (eFlags E) 1); [|discriminate]. apply check_nb. intros C1. apply check_nb. intros C2. apply bind_nb; [apply get_nb; lia|]. intros rs _. apply check_nb. intros _. apply bind_nb; [apply get_nb; lia|]. intros rp _. apply check_nb. intros _.
    destruct (_ || _); [|discriminate]. apply check_nb. intros C3. apply N.ltb_lt in C3. apply check_nb. intros C4. rewrite part_in by lia. apply S. exact C3.
  - intros x _. apply bind_nb; [|intros; discriminate]. destruct (_ =? _); [apply check_nb; discriminate|]. destruct (_ =? _); [apply check_nb; discriminate|discriminate].
Qed.
Lemma map_safe sub mm depth a n : (depth + 1 < 32 -> forall t a' n', sub t a' n' <> VBad) -> validateMap sub mm depth a n <> VBad.
Proof.
  intros S. unfold validateMap. apply check_nb. intros C. apply N.leb_le in C. apply check_nb. intros _. apply bind_nb; [apply get_nb; lia|]. intros mg _. apply bind_nb; [apply get_nb; lia|]. intros ver _. apply check_nb. intros _.
  apply bind_nb; [apply get_nb; lia|]. intros ts _. apply bind_nb; [apply get_nb; lia|]. intros po _. apply bind_nb; [apply get_nb; lia|]. intros cnt _. apply bind_nb; [apply get_nb; lia|]. intros fh _. apply check_nb. intros C1. apply check_nb. intros C2.
  apply bind_nb; [apply loop_safe; intros j Hj; apply entry_safe; [exact S|lia|lia]|]. intros x _. apply bind_nb; [apply walk_safe; lia|intros; discriminate].
Qed.
Lemma validate_safe mm : forall fuel t depth a n, depth <= 32 -> 34 <= N.of_nat fuel + depth -> validate fuel mm t depth a n <> VBad.
Proof.
  induction fuel as [|fuel IH]; intros t depth a n D F; [lia|]. rewrite validate_S. destruct t.
  - apply tensor_safe. intros D' t a' n'. apply IH; lia.
  - apply map_safe. intros D' t a' n'. apply IH; lia.
Qed.
