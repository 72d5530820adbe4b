(** Proofs about the framed stream and the record prefix. *)
From Coq Require Import List Arith NArith Bool Lia.
From Verif Require Import CrcModel CrcSpec CrcProofs CrcProps WireModel WireSpec.
Import ListNotations.
Local Open Scope N_scope.

(** *** byte strings *)
Lemma len_app {A} (a b : list A) : len (a ++ b) = len a + len b.
Proof. unfold len. rewrite app_length. lia. Qed.
Lemma len_cons {A} (a : A) b : len (a :: b) = 1 + len b.
Proof. unfold len. cbn [length]. lia. Qed.
Lemma len_nil {A} : len (@nil A) = 0. Proof. reflexivity. Qed.
Lemma to_nat_len {A} (l : list A) : N.to_nat (len l) = length l. Proof. unfold len. lia. Qed.
Lemma enc_length n : forall x, length (enc n x) = n.
Proof. induction n as [|n IH]; intros x; [reflexivity|]. cbn [enc length]. rewrite IH. reflexivity. Qed.
Lemma len_enc n x : len (enc n x) = N.of_nat n. Proof. unfold len. rewrite enc_length. reflexivity. Qed.
Lemma dec_enc n : forall x, dec (enc n x) = x mod 256 ^ N.of_nat n.
Proof.
  induction n as [|n IH]; intros x; [cbn [enc dec]; rewrite N.mod_1_r; reflexivity|].
  cbn [enc dec]. rewrite IH. replace (256 ^ N.of_nat (S n)) with (256 * 256 ^ N.of_nat n) by (rewrite Nat2N.inj_succ, N.pow_succ_r by lia; lia).
  rewrite N.mod_mul_r by (try lia; apply N.pow_nonzero; lia). lia.
Qed.
Lemma octets_app a b : octets (a ++ b) <-> octets a /\ octets b. Proof. apply Forall_app. Qed.
Lemma octets_enc n : forall x, octets (enc n x).
Proof. induction n as [|n IH]; intros x; [constructor|]. cbn [enc]. constructor; [apply N.mod_lt; lia|apply IH]. Qed.
Lemma enc_dec l : octets l -> enc (length l) (dec l) = l.
Proof.
  induction 1 as [|b l Hb Hl IH]; [reflexivity|]. cbn [length enc dec]. f_equal.
  - rewrite (N.mul_comm 256), N.mod_add by lia. apply N.mod_small. exact Hb.
  - rewrite (N.mul_comm 256), N.div_add by lia. rewrite N.div_small by exact Hb. exact IH.
Qed.
Lemma dec_lt l : octets l -> dec l < 256 ^ len l.
Proof.
  induction 1 as [|b l Hb Hl IH]; [cbn; lia|]. cbn [dec]. rewrite len_cons.
  replace (256 ^ (1 + len l)) with (256 * 256 ^ len l) by (rewrite N.add_1_l, N.pow_succ_r by lia; lia). lia.
Qed.
Lemma view_mid a b c : view (a ++ b ++ c) (len a) (len b) = b.
Proof. unfold view. rewrite !to_nat_len, skipn_app, skipn_all, Nat.sub_diag. cbn [app skipn]. rewrite firstn_app, firstn_all, Nat.sub_diag. cbn [firstn]. apply app_nil_r. Qed.
Lemma sub_mid a b c n m : n = len a -> m = len b -> sub (a ++ b ++ c) n m = Some b.
Proof. intros -> ->. unfold sub. rewrite !len_app. destruct (N.leb_spec (len a + len b) (len a + (len b + len c))); [|lia]. f_equal. apply view_mid. Qed.
Lemma sub_view l p n : sub l p n = if p + n <=? len l then Some (view l p n) else None. Proof. reflexivity. Qed.
Lemma put_mid a b c v n : n = len a -> len v = len b -> put (a ++ b ++ c) n v = Some (a ++ v ++ c).
Proof.
  intros -> Hv. unfold put. rewrite !len_app, Hv. destruct (N.leb_spec (len a + len b) (len a + (len b + len c))); [|lia]. f_equal.
  rewrite to_nat_len, firstn_app, firstn_all, Nat.sub_diag. cbn [firstn]. rewrite app_nil_r. f_equal. f_equal.
  rewrite N2Nat.inj_add, !to_nat_len, skipn_app, skipn_all2 by lia. cbn [app]. replace (length a + length b - length a)%nat with (length b) by lia.
  rewrite skipn_app, skipn_all, Nat.sub_diag. reflexivity.
Qed.
Lemma view_len l p n : p + n <= len l -> len (view l p n) = n.
Proof. intros H. unfold view. unfold len in *. rewrite firstn_length, skipn_length. lia. Qed.
Lemma skipn_skipn' {A} (l : list A) : forall a b, skipn a (skipn b l) = skipn (b + a) l.
Proof. induction l as [|x l IH]; intros a b; [rewrite !skipn_nil; reflexivity|]. destruct b; [reflexivity|]. cbn. apply IH. Qed.
Lemma view_view l p n q m : q + m <= n -> view (view l p n) q m = view l (p + q) m.
Proof.
  intros H. unfold view. rewrite skipn_firstn_comm, firstn_firstn, skipn_skipn'. rewrite N2Nat.inj_add. f_equal. lia.
Qed.
Lemma octets_view l p n : octets l -> octets (view l p n).
Proof.
  intros H. unfold view. apply Forall_forall. intros x Hx. apply (proj1 (Forall_forall _ _) H). rewrite <- (firstn_skipn (N.to_nat p) l). apply in_or_app. right.
  rewrite <- (firstn_skipn (N.to_nat n) (skipn (N.to_nat p) l)). apply in_or_app. left. exact Hx.
Qed.
Lemma view_split l p n m : view l p (n + m) = view l p n ++ view l (p + n) m.
Proof.
  unfold view. rewrite !N2Nat.inj_add. rewrite <- skipn_skipn'. set (x := skipn (N.to_nat p) l).
  rewrite <- (firstn_skipn (N.to_nat n) x) at 1. rewrite firstn_app. 
  rewrite firstn_firstn. replace (Nat.min (N.to_nat n + N.to_nat m) (N.to_nat n)) with (N.to_nat n) by lia. f_equal.
  destruct (Nat.le_gt_cases (N.to_nat n) (length x)) as [H|H].
  - rewrite firstn_length. f_equal. lia.
  - rewrite (skipn_all2 x) by lia. rewrite !firstn_nil. reflexivity.
Qed.
Lemma view_all l : view l 0 (len l) = l.
Proof. unfold view. rewrite to_nat_len. cbn [skipn N.to_nat]. apply firstn_all. Qed.

(** *** the checksum *)
Lemma frameCrc_compute W a p : octets a -> octets p -> frameCrc W a p = compute CASTAGNOLI W (a ++ p) /\ frameCrc W a p < 2 ^ 32.
Proof.
  intros Ha Hp. destruct (flavour_good CASTAGNOLI 0x1EDC6F41) as (G & _ & _ & _ & _); [cbn; auto|].
  assert (E : compute CASTAGNOLI W (a ++ p) = frameCrc W a p).
  { rewrite (proj1 (compute_eq CASTAGNOLI G W (a ++ p) (bytes_lt _ (proj2 (octets_app a p) (conj Ha Hp))))). unfold frameCrc. f_equal.
    assert (Hi : init CASTAGNOLI < 2 ^ width CASTAGNOLI) by (cbn; lia).
    destruct (C28_incremental CASTAGNOLI W W W (init CASTAGNOLI) a p (or_introl G) Hi Ha Hp) as (E1 & E2 & E3).
    rewrite E3, <- E2. reflexivity. }
  split; [symmetry; exact E|]. rewrite <- E. change 32 with (width CASTAGNOLI).
  unfold compute, trunc. rewrite N.land_ones. apply N.mod_lt. apply N.pow_nonzero. discriminate.
Qed.

(** *** envelopes *)
Definition goodEnv (e : envelope) : Prop := fsize e < 2 ^ 32 /\ fseq e < 2 ^ 64 /\ fcrc e < 2 ^ 32.
Lemma envImage_length e : length (envImage e) = 16%nat. Proof. unfold envImage. rewrite !app_length, !enc_length. reflexivity. Qed.
Lemma len_envImage e : len (envImage e) = 16. Proof. unfold len. rewrite envImage_length. reflexivity. Qed.
Lemma envImage_octets e : octets (envImage e). Proof. unfold envImage. rewrite !octets_app. auto using octets_enc. Qed.
Lemma env_parts e : firstn 4 (envImage e) = enc 4 (fsize e) /\ firstn 8 (skipn 4 (envImage e)) = enc 8 (fseq e) /\ firstn 4 (skipn 12 (envImage e)) = enc 4 (fcrc e).
Proof. repeat split; reflexivity. Qed.
Lemma readEnv_at a e c : goodEnv e -> readEnv (a ++ envImage e ++ c) (len a) = Some e.
Proof.
  intros (H1 & H2 & H3). unfold readEnv. rewrite (sub_mid a (envImage e) c) by (rewrite ?len_envImage; reflexivity).
  destruct (env_parts e) as (-> & -> & ->). rewrite !dec_enc. change (256 ^ N.of_nat 4) with (2 ^ 32). change (256 ^ N.of_nat 8) with (2 ^ 64).
  rewrite !N.mod_small by assumption. destruct e; reflexivity.
Qed.
Definition zeroCrc (e : envelope) : envelope := {| fsize := fsize e; fseq := fseq e; fcrc := 0 |}.
Lemma put_crc e : put (envImage e) crcOffset (enc 4 0) = Some (envImage (zeroCrc e)).
Proof. reflexivity. Qed.

(** The status the reader assigns. *)
Definition stat (W : nat) (fl seq : N) (e : envelope) (p : list N) : status :=
  if N.testbit fl 0 && negb (frameCrc W (envImage (zeroCrc e)) p =? fcrc e) then SBadCrc else if fseq e =? seq then SOk else SBadSequence.

Definition at_ (b : list N) (cur fl seq : N) : reader := {| rbytes := b; rcur := cur; rflags := fl; rnext := seq |}.

Lemma usub_le a b : b <= a -> usub a b = a - b. Proof. intros H. unfold usub. destruct (N.leb_spec b a); [reflexivity|lia]. Qed.

Lemma next_frame W a e p c fl seq : goodEnv e -> fsize e = len p ->
  next W (at_ (a ++ (envImage e ++ p) ++ c) (len a) fl seq) =
  Some (at_ (a ++ (envImage e ++ p) ++ c) (len (a ++ envImage e ++ p)) fl ((seq + 1) mod 2 ^ 64),
        Some {| fenv := e; fpos := len a + 16; flen := len p; fstat := stat W fl seq e p |}).
Proof.
  intros G Hp. unfold next. cbn [rbytes rcur rflags rnext at_]. rewrite !len_app, len_envImage.
  destruct (N.leb_spec (len a + (16 + len p + len c)) (len a)); [lia|].
  rewrite <- app_assoc, readEnv_at by exact G. cbv zeta. change envBytes with 16.
  rewrite usub_le by lia. rewrite Hp. destruct (N.ltb_spec (len a + (16 + len p + len c) - (len a + 16)) (len p)); [lia|].
  replace (a ++ envImage e ++ p ++ c) with ((a ++ envImage e) ++ p ++ c) at 1 by (rewrite <- app_assoc; reflexivity).
  rewrite (sub_mid (a ++ envImage e) p c) by (rewrite ?len_app, ?len_envImage; reflexivity).
  rewrite (sub_mid a (envImage e) (p ++ c)) by (rewrite ?len_envImage; reflexivity). rewrite put_crc.
  unfold stat. replace (len a + (16 + len p)) with (len a + 16 + len p) by lia.
  destruct (N.testbit fl 0); [destruct (frameCrc W (envImage (zeroCrc e)) p =? fcrc e)|]; cbn [andb negb]; reflexivity.
Qed.

Lemma next_end W b cur fl seq : len b <= cur -> next W (at_ b cur fl seq) = Some (at_ b cur fl seq, None).
Proof. intros H. unfold next. cbn [rbytes rcur at_]. destruct (N.leb_spec (len b) cur); [reflexivity|lia]. Qed.

(** *** the writer *)
Section Writer.
Variable W : nat.
Definition envFor (fl seq : N) (p : list N) : envelope :=
  let env := {| fsize := len p mod 2 ^ 32; fseq := seq; fcrc := 0 |} in
  if N.testbit fl 0 then {| fsize := fsize env; fseq := fseq env; fcrc := frameCrc W (envImage env) p |} else env.
Definition img (fl seq : N) (p : list N) : list N := envImage (envFor fl seq p) ++ p.
Fixpoint body (fl seq : N) (ps : list (list N)) : list N :=
  match ps with [] => [] | p :: r => img fl seq p ++ body fl ((seq + 1) mod 2 ^ 64) r end.
Fixpoint expect (fl pos seq : N) (ps : list (list N)) : list frame :=
  match ps with
  | [] => []
  | p :: r => {| fenv := envFor fl seq p; fpos := pos + 16; flen := len p; fstat := SOk |} :: expect fl (pos + 16 + len p) ((seq + 1) mod 2 ^ 64) r
  end.
Fixpoint seqAfter (seq : N) (ps : list (list N)) : N := match ps with [] => seq | _ :: r => seqAfter ((seq + 1) mod 2 ^ 64) r end.

Lemma write_frames ps : forall w, whdr w = true ->
  fold_left (writeFrame W) ps w = {| wflags := wflags w; wseq := seqAfter (wseq w) ps; whdr := true; wout := wout w ++ body (wflags w) (wseq w) ps |}.
Proof.
  induction ps as [|p ps IH]; intros [fl seq h out] Hh; cbn [whdr] in Hh; subst h; [cbn; rewrite app_nil_r; reflexivity|].
  cbn [fold_left]. rewrite IH by reflexivity. cbn [writeFrame whdr wflags wseq wout seqAfter body].
  unfold img, envFor. cbn [fsize fseq]. rewrite <- !app_assoc. reflexivity.
Qed.

Definition goodPayload (p : list N) : Prop := octets p /\ len p < 2 ^ 32.
Lemma envFor_good fl seq p : goodPayload p -> seq < 2 ^ 64 -> goodEnv (envFor fl seq p) /\ fsize (envFor fl seq p) = len p /\
  (forall s, stat W fl s (envFor fl seq p) p = if seq =? s then SOk else SBadSequence).
Proof.
  intros [Ho Hp] Hs. unfold envFor. rewrite N.mod_small by exact Hp. 
  destruct (frameCrc_compute W (envImage {| fsize := len p; fseq := seq; fcrc := 0 |}) p (envImage_octets _) Ho) as [_ L].
  destruct (N.testbit fl 0) eqn:E; unfold goodEnv, stat, zeroCrc; rewrite E; cbn [fsize fseq fcrc].
  - rewrite N.eqb_refl. cbn [negb andb]. repeat split; try assumption.
  - cbn [andb]. repeat split; try assumption; reflexivity.
Qed.
Lemma img_len fl seq p : len (img fl seq p) = 16 + len p.
Proof. unfold img. rewrite len_app, len_envImage. reflexivity. Qed.
Lemma succ_lt s : (s + 1) mod 2 ^ 64 < 2 ^ 64. Proof. apply N.mod_lt. apply N.pow_nonzero. lia. Qed.

Lemma read_frames ps : forall fl seq a c n, Forall goodPayload ps -> seq < 2 ^ 64 ->
  readAll W (length ps + n) (at_ (a ++ body fl seq ps ++ c) (len a) fl seq) =
  match readAll W n (at_ (a ++ body fl seq ps ++ c) (len (a ++ body fl seq ps)) fl (seqAfter seq ps)) with
  | None => None | Some fs => Some (expect fl (len a) seq ps ++ fs) end.
Proof.
  induction ps as [|p ps IH]; intros fl seq a c n HF Hs.
  - cbn [length Nat.add body seqAfter expect app]. rewrite app_nil_r. destruct (readAll W n _); reflexivity.
  - inversion HF as [|? ? Hp HF']; subst. cbn [length Nat.add readAll body]. destruct (envFor_good fl seq p Hp Hs) as (G & E & St).
    unfold img at 1 2. rewrite <- !app_assoc. rewrite (app_assoc (envImage _) p). rewrite next_frame by assumption.
    rewrite St, N.eqb_refl. fold (img fl seq p). rewrite (app_assoc a (img fl seq p)).
    rewrite IH by (try assumption; apply succ_lt). cbn [seqAfter expect].
    rewrite !app_assoc. destruct (readAll W n _); [|reflexivity]. cbn [app]. rewrite len_app, img_len, N.add_assoc. reflexivity.
Qed.
Lemma expect_length ps : forall fl pos seq, length (expect fl pos seq ps) = length ps.
Proof. induction ps as [|p ps IH]; intros; [reflexivity|]. cbn. rewrite IH. reflexivity. Qed.
Lemma expect_app ps qs : forall fl pos seq, expect fl pos seq (ps ++ qs) = expect fl pos seq ps ++ expect fl (pos + len (body fl seq ps)) (seqAfter seq ps) qs.
Proof.
  induction ps as [|p ps IH]; intros fl pos seq; cbn [app expect body seqAfter]; [rewrite N.add_0_r; reflexivity|].
  rewrite IH, len_app, img_len. do 3 f_equal. lia.
Qed.
Lemma body_app ps qs : forall fl seq, body fl seq (ps ++ qs) = body fl seq ps ++ body fl (seqAfter seq ps) qs.
Proof. induction ps as [|p ps IH]; intros fl seq; [reflexivity|]. cbn [app body seqAfter]. rewrite IH, app_assoc. reflexivity. Qed.
Lemma seqAfter_lt ps : forall s, s < 2 ^ 64 -> seqAfter s ps < 2 ^ 64.
Proof. induction ps as [|p ps IH]; intros s H; [exact H|]. cbn [seqAfter]. apply IH, succ_lt. Qed.
Lemma seqAfter_eq ps : forall s, s < 2 ^ 64 -> seqAfter s ps = (s + len ps) mod 2 ^ 64.
Proof.
  induction ps as [|p ps IH]; intros s H; cbn [seqAfter]; [rewrite len_nil, N.add_0_r, N.mod_small by exact H; reflexivity|].
  rewrite IH by apply succ_lt. rewrite len_cons, N.add_mod_idemp_l by (apply N.pow_nonzero; lia). f_equal. lia.
Qed.
Lemma expect_nth ps : forall fl pos seq k f, nth_error (expect fl pos seq ps) k = Some f ->
  exists ps1 p ps2, ps = ps1 ++ p :: ps2 /\ length ps1 = k /\ fenv f = envFor fl (seqAfter seq ps1) p /\ fpos f = pos + len (body fl seq ps1) + 16 /\ flen f = len p /\ fstat f = SOk.
Proof.
  induction ps as [|p ps IH]; intros fl pos seq [|k] f H; cbn [expect nth_error] in H; try discriminate.
  - injection H as <-. exists [], p, ps. cbn. repeat split; lia.
  - destruct (IH _ _ _ _ _ H) as (ps1 & q & ps2 & -> & <- & E1 & E2 & E3 & E4). exists (p :: ps1), q, ps2. cbn [app length body seqAfter].
    repeat split; try assumption. rewrite E2, len_app, img_len. lia.
Qed.
Lemma expect_view ps : forall fl a c seq, map (payloadOf (a ++ body fl seq ps ++ c)) (expect fl (len a) seq ps) = ps.
Proof.
  induction ps as [|p ps IH]; intros fl a c seq; [reflexivity|]. cbn [expect map body]. f_equal.
  - unfold payloadOf. cbn [fpos flen]. unfold img. rewrite <- !app_assoc. rewrite app_assoc.
    replace (len a + 16) with (len (a ++ envImage (envFor fl seq p))) by (rewrite len_app, len_envImage; reflexivity). apply view_mid.
  - rewrite <- app_assoc, (app_assoc a). replace (len a + 16 + len p) with (len (a ++ img fl seq p)) by (rewrite len_app, img_len; lia). apply IH.
Qed.

(** *** headers *)
Lemma header_read fl c r : fl < 2 ^ 16 -> begin r (headerImage fl ++ c) = (at_ (headerImage fl ++ c) 8 fl 0, Some fl).
Proof.
  intros H. unfold begin, readStreamHeader. rewrite len_app. change (len (headerImage fl)) with 8. destruct (N.ltb_spec (8 + len c) headerBytes) as [L|L]; [unfold headerBytes in L; lia|].
  change (firstn 4 (headerImage fl ++ c)) with magic. destruct (list_eq_dec N.eq_dec magic magic) as [_|E]; [|congruence].
  change (firstn 2 (skipn 4 (headerImage fl ++ c))) with (enc 2 versionV1). change (firstn 2 (skipn 6 (headerImage fl ++ c))) with (enc 2 fl).
  rewrite !dec_enc. change (256 ^ N.of_nat 2) with (2 ^ 16). change (versionV1 mod 2 ^ 16 =? versionV1) with true. rewrite N.mod_small by exact H. reflexivity.
Qed.

Definition written (fl : N) (ps : list (list N)) : list N := wout (fold_left (writeFrame W) ps (writeHeader (newWriter fl []))).
Lemma written_eq fl ps : written fl ps = headerImage fl ++ body fl 0 ps.
Proof. unfold written. rewrite write_frames by reflexivity. reflexivity. Qed.
Lemma written_auto fl p ps : wout (fold_left (writeFrame W) (p :: ps) (newWriter fl [])) = written fl (p :: ps).
Proof. reflexivity. Qed.

Lemma readAll_end n b cur fl seq : len b <= cur -> readAll W (S n) (at_ b cur fl seq) = Some [].
Proof. intros H. cbn [readAll]. rewrite next_end by exact H. reflexivity. Qed.

Lemma round_trip fl ps n r : fl < 2 ^ 16 -> Forall goodPayload ps ->
  snd (begin r (written fl ps)) = Some fl /\ readAll W (length ps + S n) (fst (begin r (written fl ps))) = Some (expect fl 8 0 ps).
Proof.
  intros Hf HF. rewrite written_eq, header_read by exact Hf. split; [reflexivity|]. cbn [fst].
  pose proof (read_frames ps fl 0 (headerImage fl) [] (S n) HF eq_refl) as R. rewrite app_nil_r in R.
  change (len (headerImage fl)) with 8 in R. rewrite R. rewrite readAll_end by lia. rewrite app_nil_r. reflexivity.
Qed.
End Writer.

(** *** arbitrary input *)
Lemma firstn_view l n : firstn n l = view l 0 (N.of_nat n).
Proof. unfold view. rewrite Nat2N.id. reflexivity. Qed.
Lemma firstn_skipn_view l n m : firstn n (skipn m l) = view l (N.of_nat m) (N.of_nat n).
Proof. unfold view. rewrite !Nat2N.id. reflexivity. Qed.
Lemma readEnv_view b pos : pos + 16 <= len b ->
  readEnv b pos = Some {| fsize := u b pos 4; fseq := u b (pos + 4) 8; fcrc := u b (pos + 12) 4 |}.
Proof.
  intros H. unfold readEnv. rewrite sub_view. change envBytes with 16. destruct (N.leb_spec (pos + 16) (len b)); [|lia].
  rewrite firstn_view, !firstn_skipn_view, !view_view by (cbn; lia). rewrite N.add_0_r. reflexivity.
Qed.
Lemma readEnv_none b pos : len b < pos + 16 -> readEnv b pos = None.
Proof. intros H. unfold readEnv. rewrite sub_view. change envBytes with 16. destruct (N.leb_spec (pos + 16) (len b)); [lia|reflexivity]. Qed.

Lemma reads_tile W b fl : octets b -> forall n pos seq, len b < pos + N.of_nat (S n) ->
  exists fs, readAll W (S n) (at_ b pos fl seq) = Some fs /\ tiles W b (N.testbit fl 0) pos seq fs.
Proof.
  intros Ho. induction n as [|n IH]; intros pos seq Hn.
    - exists []. rewrite readAll_end by lia. split; [reflexivity|]. apply tiles_end. lia.
    - destruct (N.le_gt_cases (len b) pos) as [L|L]; [exists []; rewrite readAll_end by lia; split; [reflexivity|apply tiles_end; lia]|].
      change (readAll W (S (S n))) with (fun r => match next W r with None => None | Some (_, None) => Some [] | Some (r', Some f) => match readAll W (S n) r' with None => None | Some fs => Some (f :: fs) end end).
      cbv beta. unfold next. cbn [rbytes rcur rflags rnext at_].
      destruct (N.leb_spec (len b) pos); [lia|]. clear H.
      destruct (N.le_gt_cases (pos + 16) (len b)) as [L1|L1].
      2:{ rewrite readEnv_none by exact L1. fold (at_ b (len b) fl seq). rewrite readAll_end by lia. eexists. split; [reflexivity|]. apply tiles_cut; auto. }
      rewrite readEnv_view by exact L1. cbv zeta. cbn [fsize fseq fcrc]. change envBytes with 16. rewrite usub_le by exact L1.
      destruct (N.ltb_spec (len b - (pos + 16)) (u b pos 4)) as [L2|L2].
      + fold (at_ b (len b) fl seq). rewrite readAll_end by lia. eexists. split; [reflexivity|]. apply tiles_cut; auto. right. lia.
      + rewrite (sub_view b (pos + 16)), (sub_view b pos 16). destruct (N.leb_spec (pos + 16 + u b pos 4) (len b)) as [_|]; [|lia].
        destruct (N.leb_spec (pos + 16) (len b)) as [_|]; [|lia].
        assert (P : put (view b pos 16) crcOffset (enc 4 0) = Some (view b pos 12 ++ [0; 0; 0; 0])).
        { change 16 with (12 + 4). rewrite (view_split b pos 12 4). rewrite <- (app_nil_r (view b (pos + 12) 4)).
          rewrite (put_mid (view b pos 12) (view b (pos + 12) 4) []); rewrite ?view_len by lia; reflexivity. }
        rewrite P. 
        assert (C : frameCrc W (view b pos 12 ++ [0; 0; 0; 0]) (view b (pos + 16) (u b pos 4)) = checksum W b pos (u b pos 4)).
        { unfold checksum. rewrite (app_assoc (view b pos 12)). apply frameCrc_compute; [|apply octets_view, Ho]. apply octets_app. split; [apply octets_view, Ho|repeat constructor]. }
        rewrite C. clear C P.
        destruct (IH (pos + 16 + u b pos 4) ((seq + 1) mod 2 ^ 64)) as (fs & R & T); [lia|].
        fold (at_ b (pos + 16 + u b pos 4) fl ((seq + 1) mod 2 ^ 64)).
        set (st := if N.testbit fl 0 && negb (checksum W b pos (u b pos 4) =? u b (pos + 12) 4) then SBadCrc else if u b (pos + 4) 8 =? seq then SOk else SBadSequence).
        exists ({| fenv := {| fsize := u b pos 4; fseq := u b (pos + 4) 8; fcrc := u b (pos + 12) 4 |}; fpos := pos + 16; flen := u b pos 4; fstat := st |} :: fs).
        split.
        * destruct (N.testbit fl 0); cbn [andb] in st; [destruct (checksum W b pos (u b pos 4) =? u b (pos + 12) 4); cbn [negb] in st|]; rewrite R; reflexivity.
        * apply tiles_frame; cbn [flen fpos fenv fsize fseq fcrc fstat]; try reflexivity; [lia|exact T].
Qed.

Lemma begin_cases r b : begin r b = (at_ b 0 (rflags r) (rnext r), None) \/ exists fl, begin r b = (at_ b 8 fl 0, Some fl).
Proof. unfold begin. destruct (readStreamHeader b); [right; eexists|left]; reflexivity. Qed.

(** *** cut streams *)
Definition fend (f : frame) : N := fpos f + flen f.
Lemma expect_fend W ps : forall fl pos seq f, In f (expect W fl pos seq ps) -> pos + 16 <= fend f.
Proof.
  induction ps as [|p ps IH]; intros fl pos seq f H; [destruct H|]. cbn [expect] in H. destruct H as [<-|H]; [unfold fend; cbn [fpos flen]; lia|].
  specialize (IH _ _ _ _ H). lia.
Qed.
Lemma len_firstn {A} k (l : list A) : k <= len l -> len (firstn (N.to_nat k) l) = k.
Proof. unfold len. rewrite firstn_length. lia. Qed.
Lemma firstn_app_ge {A} k (x y : list A) : len x <= k -> firstn (N.to_nat k) (x ++ y) = x ++ firstn (N.to_nat (k - len x)) y.
Proof. intros H. rewrite firstn_app. unfold len in *. rewrite firstn_all2 by lia. f_equal. f_equal. lia. Qed.
Lemma firstn_app_lt {A} k (x y : list A) : k <= len x -> firstn (N.to_nat k) (x ++ y) = firstn (N.to_nat k) x.
Proof. intros H. rewrite firstn_app. unfold len in *. replace (N.to_nat k - length x)%nat with 0%nat by lia. cbn [firstn]. apply app_nil_r. Qed.
Lemma view_firstn l k p n : p + n <= k -> k <= len l -> view (firstn (N.to_nat k) l) p n = view l p n.
Proof.
  intros H H2. change (firstn (N.to_nat k) l) with (view l 0 k). rewrite view_view by exact H. reflexivity.
Qed.

Lemma next_cut W a e p fl seq k : goodEnv e -> fsize e = len p -> 0 < k -> k < 16 + len p ->
  exists f, fstat f = STruncated /\ flen f = 0 /\
    next W (at_ (a ++ firstn (N.to_nat k) (envImage e ++ p)) (len a) fl seq) =
    Some (at_ (a ++ firstn (N.to_nat k) (envImage e ++ p)) (len (a ++ firstn (N.to_nat k) (envImage e ++ p))) fl seq, Some f).
Proof.
  intros G Hp H0 Hk. unfold next. cbn [rbytes rcur rflags rnext at_].
  assert (L : len (a ++ firstn (N.to_nat k) (envImage e ++ p)) = len a + k) by (rewrite len_app, len_firstn by (rewrite len_app, len_envImage; lia); reflexivity).
  rewrite L. destruct (N.leb_spec (len a + k) (len a)); [lia|].
  destruct (N.lt_ge_cases k 16) as [K|K].
  - rewrite readEnv_none by (rewrite L; lia). eexists. split; [|split; [|reflexivity]]; reflexivity.
  - rewrite firstn_app_ge in * by (rewrite len_envImage; exact K). rewrite readEnv_at by exact G. cbv zeta. change envBytes with 16.
    rewrite usub_le by lia. rewrite Hp. destruct (N.ltb_spec (len a + k - (len a + 16)) (len p)); [|lia].
    eexists. split; [|split; [|reflexivity]]; reflexivity.
Qed.

Lemma filter_none {A} (f : A -> bool) l : (forall x, In x l -> f x = false) -> filter f l = [].
Proof. induction l as [|x l IH]; intros H; [reflexivity|]. cbn. rewrite (H x) by (left; reflexivity). apply IH. intros y Hy. apply H. right. exact Hy. Qed.

Lemma read_cut W ps : forall fl seq a k n, Forall goodPayload ps -> seq < 2 ^ 64 -> k <= len (body W fl seq ps) ->
  exists tail, readAll W (length ps + S (S n)) (at_ (a ++ firstn (N.to_nat k) (body W fl seq ps)) (len a) fl seq) =
    Some (filter (fun f => fend f <=? len a + k) (expect W fl (len a) seq ps) ++ tail) /\
    (tail = [] /\ (k = 0 \/ exists f, In f (expect W fl (len a) seq ps) /\ fend f = len a + k) \/
     (exists f, tail = [f] /\ fstat f = STruncated /\ flen f = 0) /\ k <> 0 /\ forall f, In f (expect W fl (len a) seq ps) -> fend f <> len a + k).
Proof.
  induction ps as [|p ps IH]; intros fl seq a k n HF Hs Hk.
  - cbn [body] in *. rewrite len_nil in Hk. exists []. assert (k = 0) by lia. subst k. split; [|left; auto].
    cbn [length Nat.add expect filter app N.to_nat firstn]. apply readAll_end. rewrite app_nil_r. lia.
  - inversion HF as [|? ? Hp HF']; subst. destruct (envFor_good W fl seq p Hp Hs) as (G & E & St). cbn [body] in *. cbn [length Nat.add expect].
    destruct (N.le_gt_cases (16 + len p) k) as [L|L].
    + rewrite firstn_app_ge by (rewrite img_len; exact L). rewrite img_len. cbn [readAll]. unfold img. rewrite next_frame by assumption. rewrite St, N.eqb_refl. fold (img W fl seq p). rewrite (app_assoc a (img W fl seq p)).
      rewrite len_app, img_len in Hk. destruct (IH fl ((seq + 1) mod 2 ^ 64) (a ++ img W fl seq p) (k - (16 + len p)) n HF' (succ_lt seq)) as (tail & R & T); [lia|].
      exists tail. rewrite R. rewrite len_app, img_len in *. replace (len a + (16 + len p) + (k - (16 + len p))) with (len a + k) in * by lia.
      rewrite N.add_assoc in *. split.
      * cbn [filter fend fpos flen]. unfold fend at 2. cbn [fpos flen]. destruct (N.leb_spec (len a + 16 + len p) (len a + k)); [reflexivity|lia].
      * destruct T as [[-> T]|(T1 & T2 & T3)].
        -- left. split; [reflexivity|]. destruct T as [T|(f & T1 & T2)]; [right; eexists; split; [left; reflexivity|]; unfold fend; cbn [fpos flen]; lia|].
           right. exists f. split; [right; exact T1|exact T2].
        -- right. split; [exact T1|]. split; [lia|]. intros f [<-|Hf]; [unfold fend; cbn [fpos flen]; lia|]. apply T3, Hf.
    + rewrite firstn_app_lt by (rewrite img_len; lia). 
      assert (X : filter (fun f => fend f <=? len a + k) ({| fenv := envFor W fl seq p; fpos := len a + 16; flen := len p; fstat := SOk |} :: expect W fl (len a + 16 + len p) ((seq + 1) mod 2 ^ 64) ps) = []).
      { apply filter_none. intros f [<-|Hf]; [unfold fend; cbn [fpos flen]|apply expect_fend in Hf]; apply N.leb_gt; lia. }
      rewrite X. destruct (N.eq_dec k 0) as [ -> |K0].
      * exists []. split; [|left; auto]. rewrite app_nil_r. rewrite Nat.add_succ_r. cbn [N.to_nat firstn]. rewrite app_nil_r. change (S (length ps + S n)) with (S (length ps + S n)). apply readAll_end. lia.
      * destruct (next_cut W a (envFor W fl seq p) p fl seq k G E) as (f & F1 & F2 & F3); [lia|lia|].
        exists [f]. split.
        -- cbn [readAll]. unfold img. rewrite F3. rewrite Nat.add_succ_r. rewrite readAll_end by lia. reflexivity.
        -- right. split; [exists f; auto|]. split; [exact K0|]. intros g [<-|Hg]; [unfold fend; cbn [fpos flen]|apply expect_fend in Hg]; lia.
Qed.

(** *** damaged streams *)
Lemma read_damaged W fl ps1 e p ps2 n : Forall goodPayload ps1 -> Forall goodPayload ps2 -> goodEnv e -> fsize e = len p -> forall a seq, seq < 2 ^ 64 ->
  readAll W (length ps1 + S (length ps2 + S n)) (at_ (a ++ body W fl seq ps1 ++ (envImage e ++ p) ++ body W fl (seqAfter seq (p :: ps1)) ps2) (len a) fl seq) =
  Some (expect W fl (len a) seq ps1 ++ {| fenv := e; fpos := len a + len (body W fl seq ps1) + 16; flen := len p; fstat := stat W fl (seqAfter seq ps1) e p |} ::
        expect W fl (len a + len (body W fl seq ps1) + 16 + len p) (seqAfter seq (p :: ps1)) ps2).
Proof.
  intros H1 H2 G E a seq Hs. assert (S1 : seqAfter seq (p :: ps1) = (seqAfter seq ps1 + 1) mod 2 ^ 64).
  { rewrite !seqAfter_eq by exact Hs. rewrite len_cons, N.add_mod_idemp_l by (apply N.pow_nonzero; discriminate). f_equal. rewrite (N.add_comm 1), N.add_assoc. reflexivity. }
  rewrite read_frames by assumption. cbn [readAll]. rewrite !(app_assoc a (body W fl seq ps1)). rewrite next_frame by assumption.
  set (a' := (a ++ body W fl seq ps1) ++ envImage e ++ p). 
  replace ((a ++ body W fl seq ps1) ++ (envImage e ++ p) ++ body W fl (seqAfter seq (p :: ps1)) ps2) with (a' ++ body W fl (seqAfter seq (p :: ps1)) ps2 ++ []) by (unfold a'; rewrite app_nil_r, <- !app_assoc; reflexivity).
  rewrite <- S1. pose proof (read_frames W ps2 fl (seqAfter seq (p :: ps1)) a' [] (S n) H2 (seqAfter_lt _ _ Hs)) as R. rewrite R. clear R.
  rewrite readAll_end by (rewrite app_nil_r; lia). rewrite app_nil_r. unfold a'. rewrite !len_app, len_envImage. rewrite !N.add_assoc. reflexivity.
Qed.

(** Four damaged bytes change the checksum. *)
Lemma crc_window W a l1 d1 d2 l2 b : octets a -> octets l1 -> octets d1 -> octets d2 -> octets l2 -> octets b -> len d1 = len d2 -> len d1 <= 4 -> d1 <> d2 ->
  compute CASTAGNOLI W (a ++ (l1 ++ d1 ++ l2) ++ b) <> compute CASTAGNOLI W (a ++ (l1 ++ d2 ++ l2) ++ b).
Proof.
  intros. replace (a ++ (l1 ++ d1 ++ l2) ++ b) with ((a ++ l1) ++ d1 ++ (l2 ++ b)) by (rewrite <- !app_assoc; reflexivity).
  replace (a ++ (l1 ++ d2 ++ l2) ++ b) with ((a ++ l1) ++ d2 ++ (l2 ++ b)) by (rewrite <- !app_assoc; reflexivity).
  unfold len in *. apply (C29_damaged_bytes CASTAGNOLI 0x1EDC6F41); rewrite ?octets_app; auto; [cbn; auto|lia|change (width CASTAGNOLI) with 32; lia].
Qed.

(** Cutting a list around a window. *)
Lemma window (l : list N) off n : off + n <= len l -> exists l1 d l2, l = l1 ++ d ++ l2 /\ len l1 = off /\ len d = n.
Proof.
  intros H. exists (view l 0 off), (view l off n), (view l (off + n) (len l - (off + n))). rewrite !view_len by lia. split; [|auto].
  rewrite <- view_split. replace (n + (len l - (off + n))) with (len l - off) by lia. 
  rewrite <- (N.add_0_l off) at 2. rewrite <- view_split. replace (off + (len l - off)) with (len l) by lia. symmetry. apply view_all.
Qed.
Lemma put_in a l b off d : off + len d <= len l -> exists l1 d1 l2, l = l1 ++ d1 ++ l2 /\ len l1 = off /\ len d1 = len d /\ put (a ++ l ++ b) (len a + off) d = Some (a ++ (l1 ++ d ++ l2) ++ b).
Proof.
  intros H. destruct (window l off (len d) H) as (l1 & d1 & l2 & E & E1 & E2). exists l1, d1, l2. repeat split; try assumption. subst l.
  replace (a ++ (l1 ++ d1 ++ l2) ++ b) with ((a ++ l1) ++ d1 ++ (l2 ++ b)) by (rewrite <- !app_assoc; reflexivity).
  rewrite (put_mid (a ++ l1) d1 (l2 ++ b)); [f_equal; rewrite <- !app_assoc; reflexivity|rewrite len_app, E1; reflexivity|lia].
Qed.

Lemma dec_inj a b : octets a -> octets b -> length a = length b -> dec a = dec b -> a = b.
Proof. intros Ha Hb L E. rewrite <- (enc_dec a Ha), <- (enc_dec b Hb), L, E. reflexivity. Qed.

Lemma damaged W fl ps1 p ps2 off d2 s' : N.testbit fl 0 = true -> Forall goodPayload (ps1 ++ p :: ps2) -> octets d2 ->
  let s := headerImage fl ++ body W fl 0 (ps1 ++ p :: ps2) in
  let fp := 8 + len (body W fl 0 ps1) + 16 in
  put s off d2 = Some s' -> s' <> s ->
  fp <= off /\ off + len d2 <= fp + len p /\ len d2 <= 4 \/
  fp <= off + 12 /\ off + len d2 + 4 <= fp /\ len d2 <= 4 \/
  fp <= off + 4 /\ off + len d2 <= fp ->
  exists e' p', s' = headerImage fl ++ body W fl 0 ps1 ++ (envImage e' ++ p') ++ body W fl (seqAfter 0 (p :: ps1)) ps2 /\ goodEnv e' /\ fsize e' = len p' /\ len p' = len p /\
    stat W fl (seqAfter 0 ps1) e' p' = SBadCrc.
Proof.
  intros Hc HF Hd s fp Hput Hne Hwhere. apply Forall_app in HF. destruct HF as [H1 H2]. inversion H2 as [|? ? Hp H3]; subst. clear H2.
  assert (Hs : seqAfter 0 ps1 < 2 ^ 64) by (apply seqAfter_lt; reflexivity).
  destruct (envFor_good W fl (seqAfter 0 ps1) p Hp Hs) as (G & E & St). pose proof Hp as [Ho Hl].
  set (sq := seqAfter 0 ps1) in *. set (e := envFor W fl sq p) in *.
  set (b1 := headerImage fl ++ body W fl 0 ps1). set (b2 := body W fl (seqAfter 0 (p :: ps1)) ps2).
  assert (S1 : seqAfter 0 (p :: ps1) = (sq + 1) mod 2 ^ 64).
  { unfold sq. rewrite !seqAfter_eq by reflexivity. rewrite len_cons, N.add_mod_idemp_l by (apply N.pow_nonzero; discriminate). f_equal. rewrite (N.add_comm 1), N.add_assoc. reflexivity. }
  assert (Es : s = b1 ++ (enc 4 (fsize e) ++ enc 8 (fseq e) ++ enc 4 (fcrc e) ++ p) ++ b2).
  { unfold s, b1, b2. rewrite body_app. cbn [body]. fold sq. rewrite <- S1. unfold img. fold e. unfold envImage. rewrite <- !app_assoc. reflexivity. }
  assert (Lb1 : len b1 = 8 + len (body W fl 0 ps1)) by (unfold b1; rewrite len_app; reflexivity).
  assert (Ecrc : fcrc e = compute CASTAGNOLI W (envImage (zeroCrc e) ++ p) /\ fseq e = sq).
  { unfold e, envFor. rewrite Hc. split; [|reflexivity]. apply frameCrc_compute; [apply envImage_octets|exact Ho]. }
  destruct Ecrc as [Ecrc Eseq].
  assert (Bad : forall e' p', octets p' -> compute CASTAGNOLI W (envImage (zeroCrc e') ++ p') <> fcrc e' -> stat W fl sq e' p' = SBadCrc).
  { intros e' p' Ho' Hn. unfold stat. rewrite Hc. destruct (frameCrc_compute W (envImage (zeroCrc e')) p' (envImage_octets _) Ho') as [-> _].
    apply N.eqb_neq in Hn. rewrite Hn. reflexivity. }
  destruct Hwhere as [(A1 & A2 & A3)|[(A1 & A2 & A3)|(A1 & A2)]].
  - (* payload *)
    assert (Es2 : s = (b1 ++ envImage e) ++ p ++ b2) by (rewrite Es; unfold envImage; rewrite <- !app_assoc; reflexivity).
    assert (Lb : len (b1 ++ envImage e) = fp) by (rewrite len_app, len_envImage, Lb1; reflexivity).
    destruct (put_in (b1 ++ envImage e) p b2 (off - fp) d2) as (l1 & d1 & l2 & P1 & P2 & P3 & P4); [lia|].
    rewrite Lb, <- Es2 in P4. replace (fp + (off - fp)) with off in P4 by lia. match type of P4 with _ = Some ?z => assert (s' = z) by congruence; subst s' end.
    assert (Ho2 : octets l1 /\ octets d1 /\ octets l2) by (rewrite P1 in Ho; rewrite !octets_app in Ho; exact Ho). destruct Ho2 as (O1 & O2 & O3).
    exists e, (l1 ++ d2 ++ l2). assert (Lp : len (l1 ++ d2 ++ l2) = len p) by (rewrite P1, !len_app; lia).
    split; [unfold b1; rewrite <- !app_assoc; reflexivity|]. split; [exact G|]. split; [rewrite Lp; exact E|]. split; [exact Lp|].
    + apply Bad; [rewrite !octets_app; auto|]. rewrite Ecrc, P1. rewrite <- (app_nil_r (l1 ++ d2 ++ l2)), <- (app_nil_r (l1 ++ d1 ++ l2)).
      apply crc_window; [apply envImage_octets|exact O1|exact Hd|exact O2|exact O3|apply Forall_nil|lia|lia|]. intros ->. apply Hne. rewrite Es2, P1. reflexivity.
  - (* sequence number *)
    assert (Es2 : s = (b1 ++ enc 4 (fsize e)) ++ enc 8 (fseq e) ++ (enc 4 (fcrc e) ++ p ++ b2)) by (rewrite Es, <- !app_assoc; reflexivity).
    assert (Lb : len (b1 ++ enc 4 (fsize e)) + 12 = fp) by (rewrite len_app, len_enc, Lb1; unfold fp; lia).
    destruct (put_in (b1 ++ enc 4 (fsize e)) (enc 8 (fseq e)) (enc 4 (fcrc e) ++ p ++ b2) (off + 12 - fp) d2) as (l1 & d1 & l2 & P1 & P2 & P3 & P4); [rewrite len_enc; lia|].
    rewrite <- Es2 in P4. replace (len (b1 ++ enc 4 (fsize e)) + (off + 12 - fp)) with off in P4 by lia. match type of P4 with _ = Some ?z => assert (s' = z) by congruence; subst s' end.
    assert (Ho2 : octets l1 /\ octets d1 /\ octets l2) by (pose proof (octets_enc 8 (fseq e)) as X; rewrite P1 in X; rewrite !octets_app in X; exact X). destruct Ho2 as (O1 & O2 & O3).
    assert (O4 : octets (l1 ++ d2 ++ l2)) by (rewrite !octets_app; auto).
    assert (L8 : length (l1 ++ d2 ++ l2) = 8%nat) by (pose proof (enc_length 8 (fseq e)) as X; rewrite P1 in X; unfold len in *; rewrite !app_length in *; lia).
    assert (En : enc 8 (dec (l1 ++ d2 ++ l2)) = l1 ++ d2 ++ l2) by (rewrite <- L8; apply enc_dec; exact O4).
    exists {| fsize := fsize e; fseq := dec (l1 ++ d2 ++ l2); fcrc := fcrc e |}, p.
    split; [unfold b1, envImage; cbn [fsize fseq fcrc]; rewrite En; rewrite <- !app_assoc; reflexivity|].
    split; [|split; [exact E|split; [reflexivity|]]].
    + pose proof (dec_lt _ O4) as X. unfold len in X. rewrite L8 in X. destruct G as (G1 & G2 & G3). unfold goodEnv. cbn [fsize fseq fcrc]. auto.
    + apply Bad; [exact Ho|]. cbn [fcrc]. rewrite Ecrc. unfold envImage, zeroCrc. cbn [fsize fseq fcrc]. rewrite En, P1. rewrite <- !app_assoc.
      intros X. revert X. rewrite (app_assoc d2), (app_assoc l1), (app_assoc d1), (app_assoc l1 (d1 ++ l2)). apply crc_window; [apply octets_enc|exact O1|exact Hd|exact O2|exact O3|apply octets_app; auto using octets_enc|lia|lia|]. intros ->. apply Hne. rewrite Es2, P1. reflexivity.
  - (* checksum *)
    assert (Es2 : s = (b1 ++ enc 4 (fsize e) ++ enc 8 (fseq e)) ++ enc 4 (fcrc e) ++ (p ++ b2)) by (rewrite Es, <- !app_assoc; reflexivity).
    assert (Lb : len (b1 ++ enc 4 (fsize e) ++ enc 8 (fseq e)) + 4 = fp) by (rewrite !len_app, !len_enc, Lb1; unfold fp; lia).
    destruct (put_in (b1 ++ enc 4 (fsize e) ++ enc 8 (fseq e)) (enc 4 (fcrc e)) (p ++ b2) (off + 4 - fp) d2) as (l1 & d1 & l2 & P1 & P2 & P3 & P4); [rewrite len_enc; lia|].
    rewrite <- Es2 in P4. replace (len (b1 ++ enc 4 (fsize e) ++ enc 8 (fseq e)) + (off + 4 - fp)) with off in P4 by lia. match type of P4 with _ = Some ?z => assert (s' = z) by congruence; subst s' end.
    assert (Ho2 : octets l1 /\ octets d1 /\ octets l2) by (pose proof (octets_enc 4 (fcrc e)) as X; rewrite P1 in X; rewrite !octets_app in X; exact X). destruct Ho2 as (O1 & O2 & O3).
    assert (O4 : octets (l1 ++ d2 ++ l2)) by (rewrite !octets_app; auto).
    assert (L8 : length (l1 ++ d2 ++ l2) = 4%nat) by (pose proof (enc_length 4 (fcrc e)) as X; rewrite P1 in X; unfold len in *; rewrite !app_length in *; lia).
    assert (En : enc 4 (dec (l1 ++ d2 ++ l2)) = l1 ++ d2 ++ l2) by (rewrite <- L8; apply enc_dec; exact O4).
    exists {| fsize := fsize e; fseq := fseq e; fcrc := dec (l1 ++ d2 ++ l2) |}, p.
    split; [unfold b1, envImage; cbn [fsize fseq fcrc]; rewrite En; rewrite <- !app_assoc; reflexivity|].
    split; [|split; [exact E|split; [reflexivity|]]].
    + pose proof (dec_lt _ O4) as X. unfold len in X. rewrite L8 in X. destruct G as (G1 & G2 & G3). unfold goodEnv. cbn [fsize fseq fcrc]. auto.
    + apply Bad; [exact Ho|]. cbn [fcrc]. change (zeroCrc _) with (zeroCrc e). rewrite <- Ecrc. intros X.
      assert (Y : enc 4 (fcrc e) = l1 ++ d2 ++ l2) by (rewrite X; exact En). apply Hne. rewrite Es2, Y. rewrite <- !app_assoc. reflexivity.
Qed.

(** *** record prefix *)
Lemma put_front b c v : len v = len b -> put (b ++ c) 0 v = Some (v ++ c).
Proof. intros H. exact (put_mid [] b c v 0 eq_refl H). Qed.
Lemma sub_front b c n : n = len b -> sub (b ++ c) 0 n = Some b.
Proof. intros H. exact (sub_mid [] b c 0 n eq_refl H). Qed.
Lemma split_at {A} (l : list A) k : k <= len l -> exists x y, l = x ++ y /\ len x = k.
Proof. intros H. exists (firstn (N.to_nat k) l), (skipn (N.to_nat k) l). rewrite firstn_skipn, len_firstn by exact H. auto. Qed.
Lemma len1 {A} (l : list A) : len l = 1 -> exists x, l = [x].
Proof. unfold len. destruct l as [|x [|y l]]; cbn [length]; intros H; try lia. exists x. reflexivity. Qed.

Lemma byteAt_mid a b c n : n = len a -> byteAt (a ++ b :: c) n = Some b.
Proof. intros H. unfold byteAt. change (a ++ b :: c) with (a ++ [b] ++ c). rewrite (sub_mid a [b] c n 1 H) by reflexivity. reflexivity. Qed.

Lemma prefix_split (h : list N) : 8 <= len h -> exists s b4 b5 b6 b7 r, h = s ++ b4 :: b5 :: b6 :: b7 :: r /\ len s = 4.
Proof.
  intros H. destruct h as [|x0 [|x1 [|x2 [|x3 [|b4 [|b5 [|b6 [|b7 r]]]]]]]]; unfold len in H; cbn [length] in H; try lia.
  exists [x0; x1; x2; x3], b4, b5, b6, b7, r. split; reflexivity.
Qed.
Lemma header_sized h size vt ct fl po : 8 <= len h ->
  writeHeaderSized h size vt ct fl po = Some (enc 4 size ++ vt :: ct :: fl :: po :: skipn 8 h).
Proof.
  intros H. destruct (prefix_split h H) as (s & b4 & b5 & b6 & b7 & r & -> & L). unfold writeHeaderSized, setElementSize.
  rewrite (put_front s (b4 :: b5 :: b6 :: b7 :: r) (enc 4 size)) by (rewrite len_enc, L; reflexivity).
  set (z := enc 4 size). assert (Lz : 4 = len z) by (unfold z; rewrite len_enc; reflexivity).
  change (z ++ b4 :: b5 :: b6 :: b7 :: r) with (z ++ [b4] ++ b5 :: b6 :: b7 :: r).
  rewrite (put_mid z [b4] (b5 :: b6 :: b7 :: r) [vt] 4 Lz eq_refl). cbn [app].
  replace (z ++ vt :: b5 :: b6 :: b7 :: r) with ((z ++ [vt]) ++ [b5] ++ b6 :: b7 :: r) by (rewrite <- app_assoc; reflexivity).
  rewrite (put_mid (z ++ [vt]) [b5] (b6 :: b7 :: r) [ct] 5) by (rewrite ?len_app, <- ?Lz; reflexivity).
  replace ((z ++ [vt]) ++ [ct] ++ b6 :: b7 :: r) with ((z ++ [vt; ct]) ++ [b6] ++ b7 :: r) by (rewrite <- !app_assoc; reflexivity).
  rewrite (put_mid (z ++ [vt; ct]) [b6] (b7 :: r) [fl] 6) by (rewrite ?len_app, <- ?Lz; reflexivity).
  replace ((z ++ [vt; ct]) ++ [fl] ++ b7 :: r) with ((z ++ [vt; ct; fl]) ++ [b7] ++ r) by (rewrite <- !app_assoc; reflexivity).
  rewrite (put_mid (z ++ [vt; ct; fl]) [b7] r [po] 7) by (rewrite ?len_app, <- ?Lz; reflexivity). f_equal. rewrite <- !app_assoc. cbn [app].
  do 5 f_equal. rewrite skipn_app. unfold len in L. rewrite (skipn_all2 s) by lia. replace (8 - length s)%nat with 4%nat by lia. reflexivity.
Qed.
Lemma header_fields s b4 b5 b6 b7 r : octets s -> len s = 4 -> let h := s ++ b4 :: b5 :: b6 :: b7 :: r in
  elementSize h = Some (dec s) /\ valueType h = Some b4 /\ containerType h = Some b5 /\ flags h = Some b6 /\ payloadOffset h = Some b7.
Proof.
  intros Ho L h. unfold h. unfold elementSize, valueType, containerType, flags, payloadOffset. rewrite (sub_front s (b4 :: b5 :: b6 :: b7 :: r) 4) by (symmetry; exact L).
  rewrite (byteAt_mid s b4 (b5 :: b6 :: b7 :: r)) by (symmetry; exact L).
  replace (s ++ b4 :: b5 :: b6 :: b7 :: r) with ((s ++ [b4]) ++ b5 :: b6 :: b7 :: r) by (rewrite <- app_assoc; reflexivity).
  rewrite (byteAt_mid (s ++ [b4]) b5) by (rewrite len_app, L; reflexivity).
  replace ((s ++ [b4]) ++ b5 :: b6 :: b7 :: r) with ((s ++ [b4; b5]) ++ b6 :: b7 :: r) by (rewrite <- !app_assoc; reflexivity).
  rewrite (byteAt_mid (s ++ [b4; b5]) b6) by (rewrite len_app, L; reflexivity).
  replace ((s ++ [b4; b5]) ++ b6 :: b7 :: r) with ((s ++ [b4; b5; b6]) ++ b7 :: r) by (rewrite <- !app_assoc; reflexivity).
  rewrite (byteAt_mid (s ++ [b4; b5; b6]) b7) by (rewrite len_app, L; reflexivity). auto.
Qed.

(** *** annotations *)
Lemma annotationBytes_len a : len (annotationBytes a) = annotationByteSize a.
Proof. unfold annotationBytes, annotationByteSize. rewrite !len_cons, !len_app, !len_cons, !len_app, !len_cons, len_nil. lia. Qed.
Lemma enc2 x : x < 65536 -> enc 2 x = [x mod 256; x / 256].
Proof. intros H. cbn [enc]. f_equal. f_equal. apply N.mod_small. apply N.div_lt_upper_bound; lia. Qed.

Lemma annotation_written out a : annotationFits a -> annotationByteSize a <= len out ->
  writeAnnotation out a = Some (annotationBytes a ++ skipn (N.to_nat (annotationByteSize a)) out, Some (annotationByteSize a)).
Proof.
  intros (H1 & H2 & H3) H. unfold writeAnnotation. destruct (N.ltb_spec 0xFF (len (quantity a))); [lia|]. destruct (N.ltb_spec 0xFF (len (unit_ a))); [lia|].
  destruct (N.ltb_spec 0xFFFF (len (description a))); [lia|]. cbn [orb]. destruct (N.ltb_spec (len out) (annotationByteSize a)); [lia|]. clear H0 H4 H5 H6.
  destruct (split_at out (annotationByteSize a) H) as (x & rest & -> & Lx).
  replace (skipn (N.to_nat (annotationByteSize a)) (x ++ rest)) with rest.
  2:{ rewrite skipn_app. unfold len in Lx. rewrite (skipn_all2 x) by lia. replace (N.to_nat (annotationByteSize a) - length x)%nat with 0%nat by lia. reflexivity. }
  unfold annotationByteSize in *. destruct a as [q un d]. cbn [quantity unit_ description] in *. 
  set (lq := len q) in *. set (lu := len un) in *. set (ld := len d) in *.
  destruct (split_at x 1) as (x0 & y0 & -> & L0); [lia|]. rewrite len_app, L0 in Lx.
  destruct (split_at y0 lq) as (x1 & y1 & -> & L1); [lia|]. rewrite len_app, L1 in Lx.
  destruct (split_at y1 1) as (x2 & y2 & -> & L2); [lia|]. rewrite len_app, L2 in Lx.
  destruct (split_at y2 lu) as (x3 & y3 & -> & L3); [lia|]. rewrite len_app, L3 in Lx.
  destruct (split_at y3 2) as (x4 & x5 & -> & L4); [lia|]. rewrite len_app, L4 in Lx. assert (L5 : len x5 = ld) by lia. clear Lx H.
  rewrite <- !app_assoc. rewrite (put_front x0 _ [lq]) by (rewrite L0; reflexivity).
  rewrite (put_mid [lq] x1 _ q 1) by (rewrite ?L1; reflexivity).
  rewrite (app_assoc [lq] q). rewrite (put_mid ([lq] ++ q) x2 _ [lu]) by (rewrite ?len_app, ?L2; reflexivity).
  rewrite (app_assoc ([lq] ++ q) [lu]). rewrite (put_mid (([lq] ++ q) ++ [lu]) x3 _ un) by (rewrite ?len_app, ?L3; fold lq lu; reflexivity).
  rewrite (app_assoc (([lq] ++ q) ++ [lu]) un). rewrite (put_mid ((([lq] ++ q) ++ [lu]) ++ un) x4 _ (enc 2 ld)) by (rewrite ?len_app, ?len_enc, ?L4; fold lq lu; reflexivity).
  rewrite (app_assoc ((([lq] ++ q) ++ [lu]) ++ un) (enc 2 ld)). rewrite (put_mid (((([lq] ++ q) ++ [lu]) ++ un) ++ enc 2 ld) x5 _ d) by (rewrite ?len_app, ?len_enc, ?L5; fold lq lu; reflexivity).
  f_equal. rewrite enc2 by assumption. f_equal.
  - unfold annotationBytes. cbn [quantity unit_ description]. fold lq lu ld. rewrite <- !app_assoc. cbn [app]. rewrite <- !app_assoc. cbn [app]. rewrite <- !app_assoc. reflexivity.
Qed.

Lemma annotation_refused out a : ~ (annotationFits a /\ annotationByteSize a <= len out) -> writeAnnotation out a = Some (out, None).
Proof.
  intros H. unfold writeAnnotation, annotationFits in *. destruct (N.ltb_spec 0xFF (len (quantity a))); [reflexivity|]. destruct (N.ltb_spec 0xFF (len (unit_ a))); [reflexivity|].
  destruct (N.ltb_spec 0xFFFF (len (description a))); [reflexivity|]. cbn [orb]. destruct (N.ltb_spec (len out) (annotationByteSize a)); [reflexivity|]. exfalso. apply H. lia.
Qed.

Lemma annotation_read a rest : annotationFits a -> readAnnotation (annotationBytes a ++ rest) = Some (Some (a, annotationByteSize a)).
Proof.
  intros (H1 & H2 & H3). unfold readAnnotation. rewrite len_app, annotationBytes_len. unfold annotationByteSize. destruct a as [q un d]. unfold annotationBytes. cbn [quantity unit_ description] in *.
  set (lq := len q) in *. set (lu := len un) in *. set (ld := len d) in *.
  replace ((lq :: q ++ lu :: un ++ [ld mod 256; ld / 256] ++ d) ++ rest) with ([] ++ lq :: q ++ [lu] ++ un ++ [ld mod 256; ld / 256] ++ d ++ rest) by (cbn [app]; rewrite <- !app_assoc; cbn [app]; rewrite <- !app_assoc; reflexivity).
  set (r5 := d ++ rest). set (r4 := [ld mod 256; ld / 256] ++ r5). set (r3 := un ++ r4). set (r2 := [lu] ++ r3). set (r1 := q ++ r2).
  destruct (N.ltb_spec (1 + lq + 1 + lu + 2 + ld + len rest) 1); [lia|]. rewrite (byteAt_mid [] lq r1 0 eq_refl).
  destruct (N.ltb_spec (1 + lq + 1 + lu + 2 + ld + len rest) (1 + lq)); [lia|]. cbn [app]. change (lq :: r1) with ([lq] ++ q ++ r2). rewrite (sub_mid [lq] q r2) by reflexivity. cbv zeta.
  destruct (N.ltb_spec (1 + lq + 1 + lu + 2 + ld + len rest) (1 + lq + 1)); [lia|]. rewrite (app_assoc [lq] q r2).
  rewrite (byteAt_mid ([lq] ++ q) lu r3) by (rewrite len_app; reflexivity).
  destruct (N.ltb_spec (1 + lq + 1 + lu + 2 + ld + len rest) (1 + lq + 1 + lu)); [lia|].
  unfold r2. rewrite (app_assoc ([lq] ++ q) [lu] r3). unfold r3. rewrite (sub_mid (([lq] ++ q) ++ [lu]) un r4) by (rewrite ?len_app; reflexivity).
  destruct (N.ltb_spec (1 + lq + 1 + lu + 2 + ld + len rest) (1 + lq + 1 + lu + 2)); [lia|].
  rewrite (app_assoc (([lq] ++ q) ++ [lu]) un r4). unfold r4. rewrite (sub_mid ((([lq] ++ q) ++ [lu]) ++ un) [ld mod 256; ld / 256] r5) by (rewrite ?len_app; reflexivity).
  rewrite <- enc2, dec_enc by assumption. change (256 ^ N.of_nat 2) with 65536. rewrite (N.mod_small ld) by assumption.
  destruct (N.ltb_spec (1 + lq + 1 + lu + 2 + ld + len rest) (1 + lq + 1 + lu + 2 + ld)); [lia|].
  rewrite (app_assoc ((([lq] ++ q) ++ [lu]) ++ un) (enc 2 ld) r5). unfold r5. rewrite (sub_mid (((([lq] ++ q) ++ [lu]) ++ un) ++ enc 2 ld) d rest) by (rewrite ?len_app; reflexivity).
  reflexivity.
Qed.

Lemma byteAt_some b p : p < len b -> exists x, byteAt b p = Some x /\ view b p 1 = [x].
Proof.
  intros H. unfold byteAt. rewrite sub_view. destruct (N.leb_spec (p + 1) (len b)); [|lia].
  destruct (len1 (view b p 1)) as [x E]; [apply view_len; lia|]. exists x. rewrite E. auto.
Qed.

Lemma annotation_total b : octets b -> readAnnotation b = Some None \/
  exists a rest, b = annotationBytes a ++ rest /\ annotationFits a /\ readAnnotation b = Some (Some (a, annotationByteSize a)).
Proof.
  intros Ho. destruct (readAnnotation b) as [[[a n]|]|] eqn:E; [right|left; reflexivity|exfalso].
  - exists a, (skipn (N.to_nat n) b). unfold readAnnotation in E. cbv zeta in E.
    destruct (N.ltb_spec (len b) 1) as [|L1]; [discriminate|]. destruct (byteAt_some b 0) as (q & Eq & Vq); [lia|]. rewrite Eq in E.
    destruct (N.ltb_spec (len b) (1 + q)) as [|L2]; [discriminate|]. rewrite sub_view in E. destruct (N.leb_spec (1 + q) (len b)); [|discriminate].
    destruct (N.ltb_spec (len b) (1 + q + 1)) as [|L3]; [discriminate|]. destruct (byteAt_some b (1 + q)) as (x & Ex & Vx); [lia|]. rewrite Ex in E.
    destruct (N.ltb_spec (len b) (1 + q + 1 + x)) as [|L4]; [discriminate|]. rewrite sub_view in E. destruct (N.leb_spec (1 + q + 1 + x) (len b)); [|discriminate].
    destruct (N.ltb_spec (len b) (1 + q + 1 + x + 2)) as [|L5]; [discriminate|]. rewrite sub_view in E. destruct (N.leb_spec (1 + q + 1 + x + 2) (len b)); [|discriminate].
    set (d := dec (view b (1 + q + 1 + x) 2)) in *.
    destruct (N.ltb_spec (len b) (1 + q + 1 + x + 2 + d)) as [|L6]; [discriminate|]. rewrite sub_view in E. destruct (N.leb_spec (1 + q + 1 + x + 2 + d) (len b)); [|discriminate].
    match type of E with Some (Some (?z, ?m)) = _ => assert (Ea : a = z) by congruence; assert (En : n = m) by congruence; subst a n end. clear E.
    assert (Q1 : q < 256) by (pose proof (octets_view b 0 1 Ho) as X; rewrite Vq in X; inversion X; assumption).
    assert (X1 : x < 256) by (pose proof (octets_view b (1 + q) 1 Ho) as X; rewrite Vx in X; inversion X; assumption).
    assert (V2 : view b (1 + q + 1 + x) 2 = [d mod 256; d / 256] /\ d < 65536).
    { assert (L : length (view b (1 + q + 1 + x) 2) = 2%nat) by (pose proof (view_len b (1 + q + 1 + x) 2 ltac:(lia)) as X; unfold len in X; lia).
      pose proof (dec_lt _ (octets_view b (1 + q + 1 + x) 2 Ho)) as D. rewrite view_len in D by lia. fold d in D. change (256 ^ 2) with 65536 in D.
      split; [|exact D]. rewrite <- enc2 by exact D. unfold d. rewrite <- L. symmetry. apply enc_dec, octets_view, Ho. }
    destruct V2 as [V2 D].
    assert (F : annotationFits {| quantity := view b 1 q; unit_ := view b (1 + q + 1) x; description := view b (1 + q + 1 + x + 2) d |}).
    { unfold annotationFits. cbn [quantity unit_ description]. rewrite !view_len by lia. auto. }
    assert (Sz : annotationByteSize {| quantity := view b 1 q; unit_ := view b (1 + q + 1) x; description := view b (1 + q + 1 + x + 2) d |} = 1 + q + 1 + x + 2 + d).
    { unfold annotationByteSize. cbn [quantity unit_ description]. rewrite !view_len by lia. lia. }
    split; [|split; [exact F|rewrite Sz; reflexivity]].
    rewrite <- (firstn_skipn (N.to_nat (1 + q + 1 + x + 2 + d)) b) at 1. f_equal.
    change (firstn _ b) with (view b 0 (1 + q + 1 + x + 2 + d)). unfold annotationBytes. cbn [quantity unit_ description]. rewrite !view_len by lia.
    rewrite <- V2. rewrite (view_split b 0 (1 + q + 1 + x + 2) d), (view_split b 0 (1 + q + 1 + x) 2), (view_split b 0 (1 + q + 1) x), (view_split b 0 (1 + q) 1), (view_split b 0 1 q), Vq.
    rewrite !N.add_0_l, Vx. rewrite <- !app_assoc. reflexivity.
  - unfold readAnnotation in E. cbv zeta in E.
    destruct (N.ltb_spec (len b) 1) as [|L1]; [discriminate|]. destruct (byteAt_some b 0) as (q & Eq & Vq); [lia|]. rewrite Eq in E.
    destruct (N.ltb_spec (len b) (1 + q)) as [|L2]; [discriminate|]. rewrite sub_view in E. destruct (N.leb_spec (1 + q) (len b)); [|lia].
    destruct (N.ltb_spec (len b) (1 + q + 1)) as [|L3]; [discriminate|]. destruct (byteAt_some b (1 + q)) as (x & Ex & Vx); [lia|]. rewrite Ex in E.
    destruct (N.ltb_spec (len b) (1 + q + 1 + x)) as [|L4]; [discriminate|]. rewrite sub_view in E. destruct (N.leb_spec (1 + q + 1 + x) (len b)); [|lia].
    destruct (N.ltb_spec (len b) (1 + q + 1 + x + 2)) as [|L5]; [discriminate|]. rewrite sub_view in E. destruct (N.leb_spec (1 + q + 1 + x + 2) (len b)); [|lia].
    set (d := dec (view b (1 + q + 1 + x) 2)) in *.
    destruct (N.ltb_spec (len b) (1 + q + 1 + x + 2 + d)) as [|L6]; [discriminate|]. rewrite sub_view in E. destruct (N.leb_spec (1 + q + 1 + x + 2 + d) (len b)); [discriminate|lia].
Qed.
