(** A map read back from its own bytes. *)
From Coq Require Import List NArith Bool Lia ZifyBool ZifyNat ZifyN.
From Verif Require Import WireModel WireProofs ChunkModel ChunkSpec ChunkPoolProofs ChunkProofs ValueMapModel BlobModel ValueMapSpec ValueMapPool ValueMapInv Base.
Import ListNotations.
Local Open Scope N_scope.

Definition live (m : vmap) : list N := headerBytes m ++ flat_map entryBytes (entries m).
Lemma len_header m : len (headerBytes m) = 32. Proof. reflexivity. Qed.
Lemma len_entry e : len (entryBytes e) = 48.
Proof.
  unfold entryBytes. rewrite !len_app, !WireProofs.len_enc. assert (H : len (firstn 36 (eInline e ++ zeros 36)) = 36).
  { unfold len. rewrite firstn_length, app_length. unfold zeros. rewrite repeat_length. change (N.to_nat 36) with 36%nat. lia. }
  rewrite H. reflexivity.
Qed.
Lemma len_entries l : len (flat_map entryBytes l) = 48 * len l.
Proof. induction l as [|e l IH]; [reflexivity|]. cbn [flat_map]. rewrite len_app, IH, len_entry, WireProofs.len_cons. lia. Qed.
Lemma len_live m : len (live m) = 32 + 48 * len (entries m). Proof. unfold live. rewrite len_app, len_header, len_entries. reflexivity. Qed.

Lemma image_at m a x : blobImage m a (a + x) = wr (mem m) 0 (live m) x.
Proof. unfold blobImage. fold (live m). f_equal. lia. Qed.
Lemma image_pool m a x : 32 + 48 * len (entries m) <= x -> blobImage m a (a + x) = mem m x.
Proof. intros H. rewrite image_at. apply wr_out. rewrite len_live. lia. Qed.
Lemma image_rd m a off k : rd (blobImage m a) (a + off) k = rd (wr (mem m) 0 (live m)) off k.
Proof. apply rd_shift. intros i _. rewrite <- N.add_assoc. apply image_at. Qed.
Lemma image_part m a pre x post : live m = pre ++ x ++ post -> rd (blobImage m a) (a + len pre) (length x) = x.
Proof. intros E. rewrite image_rd, E. apply (rd_wr_mid (mem m) 0 pre x post). Qed.
Lemma image_pool_rd m a off k : 32 + 48 * len (entries m) <= off -> rd (blobImage m a) (a + off) k = rd (mem m) off k.
Proof. intros H. apply rd_shift. intros i _. rewrite <- N.add_assoc. apply image_pool. lia. Qed.

(** The header. *)
Section Header.
Variables (m : vmap) (a : N).
Let post := flat_map entryBytes (entries m).
Let ov := if over m then 1 else 0.
Lemma h_magic : dec (rd (blobImage m a) (a + 0) 4) = dec [71; 82; 52; 77].
Proof. pose proof (image_part m a [] [71; 82; 52; 77] (skipn 4 (headerBytes m) ++ post) eq_refl) as H. change (len []) with 0 in H. cbn [length] in H. rewrite H. reflexivity. Qed.
Lemma h_version : dec (rd (blobImage m a) (a + 4) 1) = 1.
Proof. pose proof (image_part m a [71; 82; 52; 77] [1] (skipn 5 (headerBytes m) ++ post) eq_refl) as H. change (len [71; 82; 52; 77]) with 4 in H. cbn [length] in H. rewrite H. reflexivity. Qed.
Lemma h_flags : blobImage m a (a + 5) = ov.
Proof. pose proof (image_part m a [71; 82; 52; 77; 1] [ov] (skipn 6 (headerBytes m) ++ post) eq_refl) as H. change (len [71; 82; 52; 77; 1]) with 5 in H. cbn [length rd] in H. congruence. Qed.
Lemma h_count : dec (rd (blobImage m a) (a + 6) 2) = len (entries m) mod 2 ^ 16.
Proof. pose proof (image_part m a [71; 82; 52; 77; 1; ov] (enc 2 (len (entries m))) (skipn 8 (headerBytes m) ++ post) eq_refl) as H. change (len [71; 82; 52; 77; 1; ov]) with 6 in H. change (length (enc 2 (len (entries m)))) with 2%nat in H. rewrite H. apply dec_enc. Qed.
Lemma h_ecap : dec (rd (blobImage m a) (a + 8) 2) = ecap m mod 2 ^ 16.
Proof. pose proof (image_part m a ([71; 82; 52; 77; 1; ov] ++ enc 2 (len (entries m))) (enc 2 (ecap m)) (skipn 10 (headerBytes m) ++ post) eq_refl) as H. match type of H with context [a + len ?X] => change (len X) with 8 in H end. change (length (enc 2 _)) with 2%nat in H. rewrite H. apply dec_enc. Qed.
Let pre12 := [71; 82; 52; 77; 1; ov] ++ enc 2 (len (entries m)) ++ enc 2 (ecap m) ++ [0; 0].
Lemma h_total : dec (rd (blobImage m a) (a + 12) 4) = (poff m + pcap m) mod 2 ^ 32.
Proof. pose proof (image_part m a pre12 (enc 4 (poff m + pcap m)) (skipn 16 (headerBytes m) ++ post) eq_refl) as H. change (len pre12) with 12 in H. change (length (enc 4 _)) with 4%nat in H. rewrite H. apply dec_enc. Qed.
Lemma h_poff : dec (rd (blobImage m a) (a + 16) 4) = poff m mod 2 ^ 32.
Proof. pose proof (image_part m a (pre12 ++ enc 4 (poff m + pcap m)) (enc 4 (poff m)) (skipn 20 (headerBytes m) ++ post) eq_refl) as H. match type of H with context [a + len ?X] => change (len X) with 16 in H end. change (length (enc 4 _)) with 4%nat in H. rewrite H. apply dec_enc. Qed.
Lemma h_pused : dec (rd (blobImage m a) (a + 20) 4) = pused m mod 2 ^ 32.
Proof. pose proof (image_part m a (pre12 ++ enc 4 (poff m + pcap m) ++ enc 4 (poff m)) (enc 4 (pused m)) (skipn 24 (headerBytes m) ++ post) eq_refl) as H. match type of H with context [a + len ?X] => change (len X) with 20 in H end. change (length (enc 4 _)) with 4%nat in H. rewrite H. apply dec_enc. Qed.
Lemma h_pcap : dec (rd (blobImage m a) (a + 24) 4) = pcap m mod 2 ^ 32.
Proof. pose proof (image_part m a (pre12 ++ enc 4 (poff m + pcap m) ++ enc 4 (poff m) ++ enc 4 (pused m)) (enc 4 (pcap m)) (skipn 28 (headerBytes m) ++ post) eq_refl) as H. match type of H with context [a + len ?X] => change (len X) with 24 in H end. change (length (enc 4 _)) with 4%nat in H. rewrite H. apply dec_enc. Qed.
Lemma h_fhead : dec (rd (blobImage m a) (a + 28) 4) = fhead m mod 2 ^ 32.
Proof. pose proof (image_part m a (pre12 ++ enc 4 (poff m + pcap m) ++ enc 4 (poff m) ++ enc 4 (pused m) ++ enc 4 (pcap m)) (enc 4 (fhead m)) post eq_refl) as H. match type of H with context [a + len ?X] => change (len X) with 28 in H end. change (length (enc 4 _)) with 4%nat in H. rewrite H. apply dec_enc. Qed.
End Header.

(** The entries: what is left of an entry after writing and reading. *)
Definition norm (e : entry) : entry :=
  {| ePOff := ePOff e mod 2 ^ 32; ePLen := ePLen e mod 2 ^ 32; eKeyId := eKeyId e mod 2 ^ 16; eVT := eVT e; eFlags := eFlags e; eInline := firstn 36 (eInline e ++ zeros 36) |}.
Lemma parse_entry mm a e : rd mm a 48 = entryBytes e -> parseEntry mm a = norm e.
Proof.
  intros H. unfold entryBytes in H. change 48%nat with (4 + (4 + (2 + (2 + 36))))%nat in H. rewrite !rd_app in H.
  assert (X : forall (x y x' y' : list N), length x = length x' -> x ++ y = x' ++ y' -> x = x' /\ y = y').
  { clear. induction x as [|v x IH]; intros y [|w x'] y' L E; try discriminate; [auto|]. cbn in *. injection E as -> E. injection L as L. destruct (IH y x' y' L E) as [ -> -> ]. auto. }
  apply X in H; [|apply rd_len]. destruct H as [H1 H]. apply X in H; [|apply rd_len]. destruct H as [H2 H]. apply X in H; [|apply rd_len]. destruct H as [H3 H].
  apply X in H; [|reflexivity]. destruct H as [H4 H5]. cbn [rd] in H4. assert (H6 : mm (a + N.of_nat 4 + N.of_nat 4 + N.of_nat 2) = eVT e /\ mm (a + N.of_nat 4 + N.of_nat 4 + N.of_nat 2 + 1) = eFlags e) by (clear - H4; injection H4 as A B; split; [exact A|exact B]). destruct H6 as [H6 H7]. clear H4 X.
  rewrite <- !N.add_assoc in *. change (N.of_nat 4) with 4 in *. change (N.of_nat 2) with 2 in *. change (4 + (4 + (2 + 1))) with 11 in *. change (4 + (4 + (2 + 2))) with 12 in *. change (4 + (4 + 2)) with 10 in *. change (4 + 4) with 8 in *.
  unfold parseEntry, norm. rewrite H1, H2, H3, H5, H6, H7, !dec_enc. reflexivity.
Qed.
Lemma parse_entries mm l : forall a, rd mm a (length (flat_map entryBytes l)) = flat_map entryBytes l -> parseEntries mm a (length l) = map norm l.
Proof.
  induction l as [|e l IH]; intros a H; [reflexivity|]. cbn [flat_map] in H. rewrite app_length, rd_app in H. assert (L : length (entryBytes e) = 48%nat) by (pose proof (len_entry e) as X; unfold len in X; lia).
  assert (X : forall (x y x' y' : list N), length x = length x' -> x ++ y = x' ++ y' -> x = x' /\ y = y').
  { clear. induction x as [|v x IH]; intros y [|w x'] y' L E; try discriminate; [auto|]. cbn in *. injection E as -> E. injection L as L. destruct (IH y x' y' L E) as [ -> -> ]. auto. }
  apply X in H; [|apply rd_len]. destruct H as [H1 H2]. rewrite L in H1, H2. cbn [length parseEntries map]. rewrite (parse_entry mm a e H1). f_equal. apply IH. exact H2.
Qed.
Lemma parsed m a jk : len (entries m) < 2 ^ 16 -> entries (parse (blobImage m a) a jk) = map norm (entries m).
Proof.
  intros H. cbn [parse entries]. rewrite h_count, N.mod_small by exact H. rewrite to_nat_len. apply parse_entries.
  pose proof (image_part m a (headerBytes m) (flat_map entryBytes (entries m)) []) as P. rewrite app_nil_r in P. rewrite len_header in P. apply P. reflexivity.
Qed.

(** Normalised entries are as good as the originals. *)
Lemma inline36 i : length i = 36%nat -> firstn 36 (i ++ zeros 36) = i.
Proof. intros H. rewrite <- H at 1. rewrite firstn_app, PeanoNat.Nat.sub_diag, firstn_O, app_nil_r. apply firstn_all. Qed.
Lemma norm_key mm e : wfKey mm e -> eKeyId (norm e) = eKeyId e /\ (eKeyId e = kInlineKeyId \/ eKeyId e = kSpilledKeyId -> eInline (norm e) = eInline e).
Proof.
  intros W. assert (K : eKeyId e < 2 ^ 16). { change (2 ^ 16) with 65536. destruct W as [W|[(W & _)|(W & _)]]; [change (len kCanonical) with 22 in W; lia|rewrite W; reflexivity|rewrite W; reflexivity]. }
  cbn [norm eKeyId eInline]. rewrite N.mod_small by exact K. split; [reflexivity|]. intros H. apply inline36. destruct W as [W|[(W & k & E & L & _)|(W & o & l & E & _)]].
  - change (len kCanonical) with 22 in W. unfold kInlineKeyId, kSpilledKeyId in H. lia.
  - rewrite E. unfold inlineImg, zeros. cbn [length]. rewrite app_length, repeat_length. unfold len in *. lia.
  - rewrite E. unfold spillImg, zeros. rewrite !app_length, !enc_length, repeat_length. reflexivity.
Qed.
Lemma norm_ok mm e : wfE mm e -> Forall (fun b => fst b < W32) (regs e) -> wfE mm (norm e) /\ obs mm (norm e) = obs mm e /\ regs (norm e) = regs e.
Proof.
  intros [WK WV] F. destruct (norm_key mm e WK) as [K1 K2]. unfold regs in F.
  assert (V : hasOffset (eFlags e) = true -> ePOff (norm e) = ePOff e /\ ePLen (norm e) = ePLen e).
  { intros H. rewrite H in F. inversion F as [|? ? F1 _]; subst. cbn [fst] in F1. destruct WV as [WV|(_ & V2 & V3 & _)]; [rewrite WV in H; discriminate H|]. cbn [norm ePOff ePLen]. change (2 ^ 32) with W32. pose proof (atr_range (ePLen e)). rewrite !N.mod_small by lia. auto. }
  assert (Sp : eKeyId e = kSpilledKeyId -> spillOff (norm e) = spillOff e /\ spillLen (norm e) = spillLen e). { intros H. unfold spillOff, spillLen. rewrite K2 by (right; exact H). auto. }
  assert (Rk : readKey mm (norm e) = readKey mm e).
  { unfold readKey, readInline, readSpilled. rewrite K1. destruct (N.eqb_spec (eKeyId e) kInlineKeyId) as [H|H]; [rewrite K2 by auto; reflexivity|]. destruct (N.eqb_spec (eKeyId e) kSpilledKeyId) as [H'|H']; [|reflexivity]. destruct (Sp H') as [ -> -> ]. reflexivity. }
  split; [split|split].
  - destruct WK as [W|[(W & k & E & L & Z)|(W & o & l & E & Z)]]; [left; rewrite K1; exact W|right; left; rewrite K1, K2 by auto; eauto|right; right; rewrite K1, K2 by auto; eauto].
  - destruct WV as [W|(V1 & V2)]; [left; exact W|right]. destruct (V V1) as [E1 E2]. rewrite E1, E2. exact (conj V1 V2).
  - unfold obs. f_equal; [exact Rk|]. unfold itemOf. change (eFlags (norm e)) with (eFlags e). destruct (hasOffset (eFlags e)) eqn:H; [|reflexivity]. destruct (V eq_refl) as [ -> _ ]. reflexivity.
  - unfold regs. change (eFlags (norm e)) with (eFlags e). rewrite K1. f_equal.
    + destruct (hasOffset (eFlags e)) eqn:H; [|reflexivity]. destruct (V eq_refl) as [ -> -> ]. reflexivity.
    + destruct (N.eqb_spec (eKeyId e) kSpilledKeyId) as [H|H]; [|reflexivity]. destruct (Sp H) as [ -> -> ]. reflexivity.
Qed.

Section Alignment.
Context {al : bool}.
Notation Inv := (Inv (al := al)).
Lemma regs_small m ex fr e : Inv m ex fr -> In e (entries m) -> Forall (fun b => fst b < W32) (regs e).
Proof. intros I He. apply Forall_forall. intros b Hb. destruct (inv_block m ex fr b I (inv_reg m ex fr e b I He Hb)) as (_ & _ & _ & X). lia. Qed.
Lemma fhead_small m ex fr : Inv m ex fr -> fhead m < W32.
Proof.
  intros I. pose proof (i_chain _ _ _ I) as C. rewrite (fchain_head _ _ _ C). destruct fr as [|b fr]; [rewrite W32_val; lia|]. destruct (inv_block m ex (b :: fr) b I) as (_ & _ & _ & X); [apply in_or_app; right; apply in_or_app; right; left; reflexivity|]. lia.
Qed.
Lemma map_ext_Forall {A B} (f g : A -> B) l : (forall x, In x l -> f x = g x) -> map f l = map g l. Proof. apply map_ext_in. Qed.
Lemma restored m fr a jk : Inv m [] fr -> Inv (parse (blobImage m a) a jk) [] fr /\ iterate (parse (blobImage m a) a jk) = iterate m.
Proof.
  intros I. pose proof (i_size _ _ _ I) as (S1 & S2 & S3). pose proof (i_slots _ _ _ I) as (L1 & L2). pose proof (i_cnt _ _ _ I) as Cn. pose proof (fhead_small _ _ _ I) as Fh. set (m' := parse (blobImage m a) a jk).
  assert (Ee : entries m' = map norm (entries m)) by (apply parsed; exact Cn).
  assert (Em : forall x, 32 + 48 * len (entries m) <= x -> mem m' x = mem m x) by (intros x Hx; apply image_pool; exact Hx).
  assert (Ep : poff m' = poff m). { cbn [m' parse poff]. rewrite h_poff. apply N.mod_small. change (2 ^ 32) with W32. lia. }
  assert (Eu : pused m' = pused m). { cbn [m' parse pused]. rewrite h_pused. apply N.mod_small. change (2 ^ 32) with W32. lia. }
  assert (Ec : pcap m' = pcap m). { cbn [m' parse pcap]. rewrite h_pcap. apply N.mod_small. change (2 ^ 32) with W32. lia. }
  assert (Et : cap m' = poff m + pcap m). { cbn [m' parse cap]. rewrite h_total. apply N.mod_small. change (2 ^ 32) with W32. lia. }
  assert (Ef : fhead m' = fhead m). { cbn [m' parse fhead]. rewrite h_fhead. apply N.mod_small. exact Fh. }
  assert (Eq : ecap m' <= ecap m). { cbn [m' parse ecap]. rewrite h_ecap. apply N.mod_le. discriminate. }
  assert (Ln : len (entries m') = len (entries m)) by (rewrite Ee; unfold len; rewrite map_length; reflexivity).
  destruct (entries_same m [] fr (mem m') I) as (X1 & X2 & X3).
  { intros b Hb x Hx. apply Em. destruct (inv_block m [] fr b I) as (_ & B & _); [cbn [app]; apply in_or_app; left; exact Hb|]. lia. }
  rewrite Forall_forall in X1.
  assert (Nk : forall e, In e (entries m) -> wfE (mem m') (norm e) /\ obs (mem m') (norm e) = obs (mem m') e /\ regs (norm e) = regs e) by (intros e He; apply norm_ok; [apply X1; exact He|eapply regs_small; eassumption]).
  assert (Ob : map (obs (mem m')) (entries m') = map (obs (mem m)) (entries m)). { rewrite Ee, map_map, <- X2. apply map_ext_in. intros e He. apply (Nk e He). }
  assert (Us : inUse m' = inUse m). { unfold inUse. rewrite Ee. clear - Nk. induction (entries m) as [|e l IH]; [reflexivity|]. cbn [map flat_map]. rewrite IH by (intros; apply Nk; right; assumption). f_equal. apply (Nk e). left. reflexivity. }
  split; [|rewrite !iterate_obs; exact Ob].
  constructor; rewrite ?Ep, ?Eu, ?Ec, ?Et, ?Ef, ?Ln, ?Us.
  - lia.
  - lia.
  - exact Cn.
  - apply (fchain_ext (mem m)); [|apply (i_chain _ _ _ I)]. intros b Hb x Hx. apply Em. destruct (inv_block m [] fr b I) as (_ & B & _); [cbn [app]; apply in_or_app; right; exact Hb|]. unfold hdr in Hx. cbn [fst snd] in Hx. lia.
  - apply (i_min _ _ _ I).
  - pose proof (i_in _ _ _ I) as F. eapply Forall_impl; [|exact F]. intros b. unfold inPool. rewrite Ep, Eu. auto.
  - apply (i_pair _ _ _ I).
  - rewrite Ee. apply Forall_forall. intros e' He'. apply in_map_iff in He'. destruct He' as (e & <- & He). apply (Nk e He).
  - replace (map (readKey (mem m')) (entries m')) with (map fst (map (obs (mem m')) (entries m'))) by (rewrite map_map; reflexivity). rewrite Ob, map_map. apply (i_keys _ _ _ I).
  - intros Ha. apply (i_al _ _ _ I Ha).
Qed.
End Alignment.

Lemma fromBlob_some mm a n jk m : fromBlob mm a n jk = Some m -> m = parse mm a jk.
Proof. unfold fromBlob. generalize (parse mm a jk) (validateBlob mm a n). intros p [x| |] H; [congruence|discriminate H|discriminate H]. Qed.
