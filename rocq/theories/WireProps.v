(** Properties C30-C33: framed byte streams, record prefix and annotations. *)
From Coq Require Import List Arith NArith Bool Lia.
From Verif Require Import CrcModel CrcSpec CrcProofs CrcProps WireModel WireSpec WireProofs.
Import ListNotations.
Local Open Scope N_scope.

(** A writer with the given flags emits the header and then the payloads. *)
Definition stream (W : nat) (fl : N) (ps : list (list N)) : list N :=
  wout (fold_left (writeFrame W) ps (writeHeader (newWriter fl []))).
(** A client opens the buffer (with a reader in any state) and reads until the end. *)
Definition opened (r : reader) (b : list N) : reader := fst (begin r b).
Definition shortPayloads (ps : list (list N)) : Prop := Forall (fun p => octets p /\ len p < 2 ^ 32) ps.

(** C30: the payloads come back in order, all marked Ok, with consecutive sequence numbers, then the stream ends.  The
    explicit header may be omitted when there is at least one frame. *)
Theorem C30_round_trip W fl ps r n : fl < 2 ^ 16 -> shortPayloads ps ->
  snd (begin r (stream W fl ps)) = Some fl /\
  (exists fs, readAll W (length ps + S n) (opened r (stream W fl ps)) = Some fs /\ map (payloadOf (stream W fl ps)) fs = ps /\
     (forall k f, nth_error fs k = Some f -> fstat f = SOk /\ fseq (fenv f) = N.of_nat k mod 2 ^ 64)) /\
  (ps <> [] -> wout (fold_left (writeFrame W) ps (newWriter fl [])) = stream W fl ps).
Proof.
  intros Hf Hp. destruct (round_trip W fl ps n r Hf Hp) as [A B]. split; [exact A|]. split.
  - exists (expect W fl 8 0 ps). split; [exact B|]. change (stream W fl ps) with (written W fl ps). rewrite written_eq. split.
    + pose proof (expect_view W ps fl (headerImage fl) [] 0) as V. rewrite app_nil_r in V. exact V.
    + intros k f E. destruct (expect_nth W ps fl 8 0 k f E) as (ps1 & p & ps2 & _ & <- & E1 & _ & _ & E2). split; [exact E2|].
      rewrite E1. unfold envFor. assert (X : seqAfter 0 ps1 = N.of_nat (length ps1) mod 2 ^ 64) by (rewrite seqAfter_eq by reflexivity; reflexivity).
      destruct (N.testbit fl 0); exact X.
  - destruct ps as [|p ps]; [congruence|]. intros _. apply written_auto.
Qed.
Print Assumptions C30_round_trip.

(** A header written later, by a writer that wrote any number of streams before, starts a new stream: what follows it is the
    stream a new writer would emit, numbering included. *)
Lemma frames_from W : forall ps w w', wflags w = wflags w' -> wseq w = wseq w' -> whdr w = true -> whdr w' = true ->
  exists x, wout (fold_left (writeFrame W) ps w) = wout w ++ x /\ wout (fold_left (writeFrame W) ps w') = wout w' ++ x.
Proof.
  induction ps as [|p ps IH]; intros w w' E1 E2 E3 E4; cbn [fold_left]; [exists []; rewrite !app_nil_r; auto|].
  destruct (IH (writeFrame W w p) (writeFrame W w' p)) as (x & X1 & X2).
  - unfold writeFrame. rewrite E3, E4. exact E1.
  - unfold writeFrame. rewrite E3, E4. cbn [wseq]. rewrite E2. reflexivity.
  - reflexivity.
  - reflexivity.
  - rewrite X1, X2. unfold writeFrame. rewrite E3, E4, E1, E2. cbn [wout]. rewrite <- !app_assoc. eexists. split; reflexivity.
Qed.
Theorem C30_restart W w ps : wout (fold_left (writeFrame W) ps (writeHeader w)) = wout w ++ stream W (wflags w) ps.
Proof.
  destruct (frames_from W ps (writeHeader w) (writeHeader (newWriter (wflags w) []))) as (x & X1 & X2); try reflexivity.
  unfold stream. rewrite X1, X2. cbn [writeHeader newWriter wout wflags app]. rewrite <- app_assoc. reflexivity.
Qed.
Print Assumptions C30_restart.
Example C30_restart_case : let w := fold_left (writeFrame 16) [[1]; [2]] (newWriter 1 []) in wseq w = 2 /\ len (wout w) = 42 /\
  skipn 42 (wout (fold_left (writeFrame 16) [[3]] (writeHeader w))) = stream 16 1 [[3]].
Proof. vm_compute. repeat split. Qed.

Example C30_case : shortPayloads [[1; 2; 3]; []; [255]] /\
  (match readAll 16 4 (opened newReader (stream 16 1 [[1; 2; 3]; []; [255]])) with
   | Some fs => map (payloadOf (stream 16 1 [[1; 2; 3]; []; [255]])) fs = [[1; 2; 3]; []; [255]] /\ length (stream 16 1 [[1; 2; 3]; []; [255]]) = 60%nat
   | None => False end).
Proof. split; [repeat constructor|vm_compute; split; reflexivity]. Qed.

(** The bound on the payload is needed: a payload of exactly 4 GiB is read back as an empty frame marked Ok. *)
Theorem C30_4GiB_payload_lost W p r : octets p -> len p = 2 ^ 32 ->
  exists r' f, next W (opened r (stream W 0 [p])) = Some (r', Some f) /\ fstat f = SOk /\ payloadOf (stream W 0 [p]) f = [].
Proof.
  intros Ho Hl. change (stream W 0 [p]) with (written W 0 [p]). unfold opened. rewrite written_eq, header_read by reflexivity. cbn [fst body].
  unfold img, envFor. cbn [N.testbit]. rewrite Hl. change (2 ^ 32 mod 2 ^ 32) with 0. set (e := {| fsize := 0; fseq := 0; fcrc := 0 |}).
  rewrite app_nil_r. replace (envImage e ++ p) with ((envImage e ++ []) ++ p) by (rewrite app_nil_r; reflexivity). change 8 with (len (headerImage 0)).
  rewrite (next_frame W (headerImage 0) e [] p 0 0); [|repeat split|reflexivity]. do 2 eexists. split; [reflexivity|]. split; reflexivity.
Qed.
Print Assumptions C30_4GiB_payload_lost.
Example C30_4GiB_case : octets (repeat 7 (N.to_nat (2 ^ 32))) /\ len (repeat 7 (N.to_nat (2 ^ 32))) = 2 ^ 32.
Proof. split; [|unfold len; rewrite repeat_length; apply N2Nat.id]. apply Forall_forall. intros x Hx. apply repeat_spec in Hx. subst x. reflexivity. Qed.

(** C31: on any bytes, from any reader state, reading terminates without an access outside the buffer, and what it
    returns is exactly the tiling of the buffer by frames. *)
Theorem C31_safe_and_faithful W r : octets (rbytes r) ->
  exists fs, readAll W (S (length (rbytes r))) r = Some fs /\ tiles W (rbytes r) (N.testbit (rflags r) 0) (rcur r) (rnext r) fs.
Proof. intros Ho. destruct r as [b cur fl seq]. apply (reads_tile W b fl Ho). cbn [rbytes]. unfold len. lia. Qed.
Print Assumptions C31_safe_and_faithful.

(** What the tiling means for one frame: it lies in the buffer, and an Ok frame carries the expected sequence number and,
    on streams with checksums, the CRC32C of its bytes. *)
Theorem C31_frames W b crc pos seq fs k f : tiles W b crc pos seq fs -> nth_error fs k = Some f -> seq < 2 ^ 64 ->
  (fstat f = STruncated -> flen f = 0 /\ S k = length fs) /\
  (fstat f <> STruncated -> pos + 16 <= fpos f /\ fpos f + flen f <= len b /\ flen f = u b (fpos f - 16) 4) /\
  (fstat f = SOk -> u b (fpos f - 12) 8 = (seq + N.of_nat k) mod 2 ^ 64 /\ (crc = true -> u b (fpos f - 4) 4 = checksum W b (fpos f - 16) (flen f))).
Proof.
  intros T. revert k. induction T as [pos seq H|pos seq g H1 H2 H3 H4|pos seq g fs H1 H2 H3 H4 H5 H6 H7 T IH]; intros k E Hs.
  - destruct k; discriminate.
  - destruct k as [|[|k]]; try discriminate. injection E as <-. rewrite H3. split; [auto|]. split; congruence.
  - destruct k as [|k].
    + injection E as <-. split; [rewrite H7; destruct (crc && _); [discriminate|]; destruct (_ =? seq); discriminate|].
      replace (fpos g - 16) with pos by lia. replace (fpos g - 12) with (pos + 4) by lia. replace (fpos g - 4) with (pos + 12) by lia.
      split; [intros _; split; [lia|split; [lia|exact H1]]|]. rewrite H7. intros X.
      destruct crc; cbn [andb] in X.
      * destruct (N.eqb_spec (checksum W b pos (flen g)) (u b (pos + 12) 4)) as [C|C]; cbn [negb] in X; [|discriminate].
        destruct (N.eqb_spec (u b (pos + 4) 8) seq) as [S|S]; [|discriminate]. rewrite N.add_0_r, N.mod_small by exact Hs. auto.
      * destruct (N.eqb_spec (u b (pos + 4) 8) seq) as [S|S]; [|discriminate]. rewrite N.add_0_r, N.mod_small by exact Hs. split; [exact S|discriminate].
    + cbn [nth_error] in E. destruct (IH k E (succ_lt seq)) as (A & B & C). split; [|split].
      * intros X. destruct (A X). split; [assumption|]. cbn [length]. congruence.
      * intros X. destruct (B X) as (B1 & B2). split; [lia|exact B2].
      * intros X. destruct (C X) as (C1 & C2). split; [|exact C2]. rewrite C1, N.add_mod_idemp_l by (apply N.pow_nonzero; discriminate). f_equal. lia.
Qed.
Print Assumptions C31_frames.

(** A buffer is accepted exactly when it starts with a version 1 header; the flags are the header's. *)
Theorem C31_header r b fl : octets b ->
  (snd (begin r b) = Some fl <-> fl < 2 ^ 16 /\ exists rest, b = [0x47; 0x52; 0x34; 0x57; 1; 0] ++ [fl mod 256; fl / 256] ++ rest).
Proof.
  intros Ho. split.
  - intros H. unfold begin, readStreamHeader in H. destruct (N.ltb_spec (len b) headerBytes) as [L|L]; [discriminate|]. unfold headerBytes in L.
    destruct b as [|x0 [|x1 [|x2 [|x3 [|x4 [|x5 [|x6 [|x7 r0]]]]]]]]; unfold len in L; cbn [length] in L; try lia. cbn [firstn skipn] in H.
    destruct (list_eq_dec N.eq_dec [x0; x1; x2; x3] magic) as [M|M]; [|discriminate]. injection M as -> -> -> ->.
    destruct (N.eqb_spec (dec [x4; x5]) versionV1) as [V|V]; [|discriminate].
    rewrite (app_assoc [71; 82; 52; 87]) || idtac. assert (O : octets [x4; x5] /\ octets [x6; x7]).
    { unfold octets in *. repeat match goal with X : Forall _ (_ :: _) |- _ => inversion X; clear X; subst end. repeat constructor; assumption. }
    destruct O as [O1 O2]. assert (E1 : [x4; x5] = [1; 0]) by (apply dec_inj; [exact O1|repeat constructor|reflexivity|exact V]). injection E1 as -> ->.
    assert (E : fl = dec [x6; x7]) by (cbn [snd] in H; congruence). pose proof (dec_lt _ O2) as D. rewrite <- E in D. change (256 ^ len [x6; x7]) with (2 ^ 16) in D.
    split; [exact D|]. exists r0. rewrite <- enc2 by exact D. rewrite E. pose proof (enc_dec _ O2) as X. cbn [length] in X. rewrite X. reflexivity.
  - intros [Hf (rest & ->)]. rewrite <- enc2 by exact Hf. change ([71; 82; 52; 87; 1; 0] ++ enc 2 fl ++ rest) with (headerImage fl ++ rest). rewrite header_read by exact Hf. reflexivity.
Qed.
Print Assumptions C31_header.

(** Hostile bytes: a frame that claims 4 GiB, after one good frame without payload. *)
Example C31_case :
  let b := [0x47; 0x52; 0x34; 0x57; 1; 0; 0; 0] ++ repeat 0 16 ++ [255; 255; 255; 255] ++ repeat 0 20 in
  octets b /\ snd (begin newReader b) = Some 0 /\
  option_map (map (fun f => (fstat f, fpos f, flen f))) (readAll 16 60 (opened newReader b)) = Some [(SOk, 24, 0); (STruncated, 0, 0)].
Proof. cbv zeta. split; [repeat constructor|vm_compute; split; reflexivity]. Qed.

(** C32, cuts: a stream cut after [k] bytes yields exactly the complete frames before the cut, then one truncation report
    unless the cut falls on a frame boundary; a cut inside the stream header is refused. *)
Theorem C32_cut W fl ps r n k : fl < 2 ^ 16 -> shortPayloads ps -> k <= len (stream W fl ps) ->
  let cut := firstn (N.to_nat k) (stream W fl ps) in
  exists fs, readAll W (length ps + S n) (opened r (stream W fl ps)) = Some fs /\
  (k < 8 -> snd (begin r cut) = None) /\
  (8 <= k -> snd (begin r cut) = Some fl /\
    exists tail, readAll W (length ps + S (S n)) (opened r cut) = Some (filter (fun f => fpos f + flen f <=? k) fs ++ tail) /\
     (tail = [] /\ (k = 8 \/ exists f, In f fs /\ fpos f + flen f = k) \/
      (exists f, tail = [f] /\ fstat f = STruncated /\ flen f = 0) /\ k <> 8 /\ forall f, In f fs -> fpos f + flen f <> k)).
Proof.
  intros Hf Hp Hk cut. exists (expect W fl 8 0 ps). split; [exact (proj2 (round_trip W fl ps n r Hf Hp))|].
  unfold cut in *. change (stream W fl ps) with (written W fl ps) in *. rewrite written_eq in *. split.
  - intros L. unfold begin, readStreamHeader. destruct (N.ltb_spec (len (firstn (N.to_nat k) (headerImage fl ++ body W fl 0 ps))) headerBytes) as [_|X]; [reflexivity|].
    rewrite len_firstn in X by exact Hk. unfold headerBytes in X. lia.
  - intros L. rewrite firstn_app_ge by exact L. unfold opened. rewrite header_read by exact Hf. split; [reflexivity|]. cbn [fst].
    change (len (headerImage fl)) with 8 in *. rewrite len_app in Hk. change (len (headerImage fl)) with 8 in Hk.
    destruct (read_cut W ps fl 0 (headerImage fl) (k - 8) n Hp eq_refl) as (tail & R & T); [lia|].
    change (len (headerImage fl)) with 8 in R, T. replace (8 + (k - 8)) with k in R, T by lia. exists tail. split; [exact R|].
    destruct T as [[T1 T2]|(T1 & T2 & T3)]; [left|right].
    + split; [exact T1|]. destruct T2 as [T2|T2]; [left; lia|right; exact T2].
    + split; [exact T1|]. split; [lia|exact T3].
Qed.
Print Assumptions C32_cut.

Example C32_cut_case : option_map (map (fun f => (fstat f, flen f))) (readAll 16 9 (opened newReader (firstn 44 (stream 16 1 [[1; 2; 3]; [4; 5]])))) = Some [(SOk, 3); (STruncated, 0)].
Proof. vm_compute. reflexivity. Qed.

(** C32, damage: on a stream with checksums, overwriting at most four consecutive bytes of a payload or of a sequence
    number, or any bytes of a checksum field, marks exactly that frame as corrupt and changes nothing else. *)
Theorem C32_damage W fl ps r n fs k f off d s' : fl < 2 ^ 16 -> N.testbit fl 0 = true -> shortPayloads ps -> octets d ->
  readAll W (length ps + S n) (opened r (stream W fl ps)) = Some fs -> nth_error fs k = Some f ->
  put (stream W fl ps) off d = Some s' -> s' <> stream W fl ps ->
  fpos f <= off /\ off + len d <= fpos f + flen f /\ len d <= 4 \/
  fpos f <= off + 12 /\ off + len d + 4 <= fpos f /\ len d <= 4 \/
  fpos f <= off + 4 /\ off + len d <= fpos f ->
  exists f', readAll W (length ps + S n) (opened r s') = Some (firstn k fs ++ f' :: skipn (S k) fs) /\
    fstat f' = SBadCrc /\ fpos f' = fpos f /\ flen f' = flen f.
Proof.
  intros Hf Hc Hp Hd R Ek Hput Hne Hw. pose proof (proj2 (round_trip W fl ps n r Hf Hp)) as R0. change (fst (begin r (written W fl ps))) with (opened r (stream W fl ps)) in R0. rewrite R in R0. assert (fs = expect W fl 8 0 ps) by congruence. subst fs. clear R R0.
  destruct (expect_nth W ps fl 8 0 k f Ek) as (ps1 & p & ps2 & -> & <- & E1 & E2 & E3 & E4).
  change (stream W fl (ps1 ++ p :: ps2)) with (written W fl (ps1 ++ p :: ps2)) in *. rewrite written_eq in *.
  rewrite E2, E3 in Hw. destruct (damaged W fl ps1 p ps2 off d s' Hc Hp Hd Hput Hne Hw) as (e' & p' & -> & G & S1 & S2 & S3).
  apply Forall_app in Hp. destruct Hp as [Hp1 Hp2]. inversion Hp2 as [|? ? _ Hp3]; subst.
  unfold opened. rewrite header_read by exact Hf. cbn [fst].
  replace (length (ps1 ++ p :: ps2) + S n)%nat with (length ps1 + S (length ps2 + S n))%nat by (rewrite app_length; cbn [length]; lia).
  replace (seqAfter 0 (p :: ps1)) with (seqAfter 0 (p' :: ps1)) by reflexivity.
  pose proof (read_damaged W fl ps1 e' p' ps2 n Hp1 Hp3 G S1 (headerImage fl) 0 eq_refl) as R. change (len (headerImage fl)) with 8 in R. rewrite R. clear R.
  exists {| fenv := e'; fpos := 8 + len (body W fl 0 ps1) + 16; flen := len p'; fstat := stat W fl (seqAfter 0 ps1) e' p' |}. split; [|split; [exact S3|split; [rewrite E2; reflexivity|rewrite E3; exact S2]]].
  f_equal. rewrite expect_app. cbn [expect]. set (x := expect W fl 8 0 ps1). assert (Lx : length ps1 = length x) by (symmetry; apply expect_length). rewrite Lx.
  rewrite firstn_app, firstn_all, Nat.sub_diag. cbn [firstn]. rewrite app_nil_r. f_equal.
  rewrite skipn_app, skipn_all2 by lia. replace (S (length x) - length x)%nat with 1%nat by lia. cbn [app skipn].
  f_equal. rewrite S2. f_equal. rewrite !seqAfter_eq by reflexivity. rewrite len_cons, N.add_mod_idemp_l by (apply N.pow_nonzero; discriminate). f_equal. lia.
Qed.
Print Assumptions C32_damage.

(** A single flipped payload bit. *)
Theorem C32_bit_flip W fl ps r n fs k f off j x s' : fl < 2 ^ 16 -> N.testbit fl 0 = true -> shortPayloads ps ->
  readAll W (length ps + S n) (opened r (stream W fl ps)) = Some fs -> nth_error fs k = Some f ->
  fpos f <= off < fpos f + flen f -> sub (stream W fl ps) off 1 = Some [x] -> j < 8 ->
  put (stream W fl ps) off [N.lxor x (2 ^ j)] = Some s' ->
  exists f', readAll W (length ps + S n) (opened r s') = Some (firstn k fs ++ f' :: skipn (S k) fs) /\ fstat f' = SBadCrc.
Proof.
  intros Hf Hc Hp R Ek Hoff Hsub Hj Hput.
  assert (Hx : x < 256).
  { change (stream W fl ps) with (written W fl ps) in Hsub. rewrite sub_view in Hsub. destruct (off + 1 <=? _); [|discriminate]. injection Hsub as Hv.
    assert (Ho : octets (view (written W fl ps) off 1)).
    { apply octets_view. rewrite written_eq. apply octets_app. split; [unfold headerImage; rewrite !octets_app; repeat split; try apply octets_enc; repeat constructor|].
      clear - Hp. generalize 0. induction Hp as [|p ps [Ho _] Hp IH]; intros s; [constructor|]. cbn [body]. unfold img. rewrite !octets_app. auto using envImage_octets. }
    rewrite Hv in Ho. inversion Ho. assumption. }
  assert (F2 : fit 8 (2 ^ j)) by (apply fit_lt; apply N.pow_lt_mono_r; lia).
  assert (Fx : octets [N.lxor x (2 ^ j)]).
  { constructor; [|constructor]. rewrite <- (trunc_fit 8 (N.lxor x (2 ^ j))) by (apply fit_lxor; [apply fit_lt; exact Hx|exact F2]). unfold trunc. rewrite N.land_ones. apply N.mod_lt. discriminate. }
  destruct (C32_damage W fl ps r n fs k f off [N.lxor x (2 ^ j)] s' Hf Hc Hp Fx R Ek Hput) as (f' & R' & S & _).
  - intros E. rewrite sub_view in Hsub. unfold put in Hput. change (len [N.lxor x (2 ^ j)]) with 1 in Hput. destruct (N.leb_spec (off + 1) (len (stream W fl ps))) as [L|L]; [|discriminate].
    injection Hsub as Hv. injection Hput as Hput. rewrite <- Hput in E. 
    assert (X : view (firstn (N.to_nat off) (stream W fl ps) ++ [N.lxor x (2 ^ j)] ++ skipn (N.to_nat (off + 1)) (stream W fl ps)) off 1 = [N.lxor x (2 ^ j)]).
    { pose proof (view_mid (firstn (N.to_nat off) (stream W fl ps)) [N.lxor x (2 ^ j)] (skipn (N.to_nat (off + 1)) (stream W fl ps))) as V.
      rewrite len_firstn in V by lia. exact V. }
    cbn [app] in E, X. rewrite E, Hv in X. injection X as X. apply (f_equal (N.lxor x)) in X. rewrite <- N.lxor_assoc, !N.lxor_nilpotent, N.lxor_0_l in X. symmetry in X. revert X. apply N.pow_nonzero. discriminate.
  - left. change (len [N.lxor x (2 ^ j)]) with 1. lia.
  - exists f'. auto.
Qed.
Print Assumptions C32_bit_flip.

(** A damaged payload byte, a damaged sequence number and a damaged checksum in the second of three frames. *)
Definition three : list N := stream 16 1 [[1; 2; 3]; [4; 5]; [6]].
Definition statuses (b : list N) := option_map (map (fun f => (fstat f, flen f))) (readAll 16 4 (opened newReader b)).
Example C32_damage_case :
  option_map (map fpos) (readAll 16 4 (opened newReader three)) = Some [24; 43; 61] /\
  match put three 44 [9], put three 31 [1; 1; 1; 1], put three 39 [0; 0; 0; 0] with
  | Some a, Some b, Some c => statuses a = Some [(SOk, 3); (SBadCrc, 2); (SOk, 1)] /\ statuses b = statuses a /\ statuses c = statuses a
  | _, _, _ => False
  end.
Proof. vm_compute. repeat split. Qed.

(** C33, prefix: every field is returned as written, and bytes behind the prefix are untouched. *)
Theorem C33_prefix h size vt ct fl po : 8 <= len h -> size < 2 ^ 32 -> exists h', writeHeaderSized h size vt ct fl po = Some h' /\
  elementSize h' = Some size /\ valueType h' = Some vt /\ containerType h' = Some ct /\ flags h' = Some fl /\ payloadOffset h' = Some po /\
  len h' = len h /\ skipn 8 h' = skipn 8 h.
Proof.
  intros Hh Hs. exists (enc 4 size ++ vt :: ct :: fl :: po :: skipn 8 h). split; [apply header_sized; exact Hh|].
  destruct (header_fields (enc 4 size) vt ct fl po (skipn 8 h) (octets_enc 4 size) (len_enc 4 size)) as (A & B & C & D & E).
  repeat (split; [assumption || (rewrite A, dec_enc, N.mod_small by exact Hs; reflexivity)|]). split; [|reflexivity].
  rewrite len_app, len_enc, !len_cons. unfold len in *. rewrite skipn_length. lia.
Qed.
Print Assumptions C33_prefix.

(** Changing the size field leaves the other fields alone. *)
Theorem C33_size_field h h' size : 8 <= len h -> octets h -> size < 2 ^ 32 -> setElementSize h size = Some h' ->
  elementSize h' = Some size /\ valueType h' = valueType h /\ containerType h' = containerType h /\ flags h' = flags h /\ payloadOffset h' = payloadOffset h /\ skipn 4 h' = skipn 4 h.
Proof.
  intros Hh Ho Hs E. destruct (prefix_split h Hh) as (s & b4 & b5 & b6 & b7 & r & -> & L). unfold setElementSize in E.
  rewrite put_front in E by (rewrite len_enc, L; reflexivity). assert (E' : h' = enc 4 size ++ b4 :: b5 :: b6 :: b7 :: r) by congruence. subst h'. clear E.
  apply octets_app in Ho. destruct Ho as [Ho _].
  destruct (header_fields s b4 b5 b6 b7 r Ho L) as (_ & -> & -> & -> & ->). destruct (header_fields (enc 4 size) b4 b5 b6 b7 r (octets_enc 4 size) (len_enc 4 size)) as (-> & -> & -> & -> & ->).
  rewrite dec_enc, N.mod_small by exact Hs. repeat split. unfold len in L. rewrite !skipn_app, (skipn_all2 s) by lia. replace (4 - length s)%nat with 0%nat by lia. reflexivity.
Qed.
Print Assumptions C33_size_field.

(** C33, annotations: written exactly when they fit, read back unchanged (whatever follows them). *)
Theorem C33_annotation_round_trip out a more :
  (annotationFits a /\ annotationByteSize a <= len out ->
   exists out', writeAnnotation out a = Some (out', Some (annotationByteSize a)) /\ len out' = len out /\
     skipn (N.to_nat (annotationByteSize a)) out' = skipn (N.to_nat (annotationByteSize a)) out /\
     readAnnotation (out' ++ more) = Some (Some (a, annotationByteSize a))) /\
  (~ (annotationFits a /\ annotationByteSize a <= len out) -> writeAnnotation out a = Some (out, None)).
Proof.
  split; [|apply annotation_refused]. intros [Hf Hl]. eexists. split; [apply annotation_written; assumption|]. split; [|split].
  - rewrite len_app, annotationBytes_len. unfold len in *. rewrite skipn_length. lia.
  - rewrite skipn_app. rewrite <- (annotationBytes_len a), to_nat_len, skipn_all, Nat.sub_diag. reflexivity.
  - rewrite <- app_assoc. apply annotation_read. exact Hf.
Qed.
Print Assumptions C33_annotation_round_trip.

(** Any bytes: no access outside, and what is accepted is the encoding of what is returned. *)
Theorem C33_annotation_any_input b : octets b -> readAnnotation b = Some None \/
  exists a rest, b = annotationBytes a ++ rest /\ annotationFits a /\ readAnnotation b = Some (Some (a, annotationByteSize a)).
Proof. apply annotation_total. Qed.
Print Assumptions C33_annotation_any_input.

(** Every proper prefix of an encoding is rejected. *)
Theorem C33_annotation_truncated a k : annotationFits a -> octets (annotationBytes a) -> k < annotationByteSize a ->
  readAnnotation (firstn (N.to_nat k) (annotationBytes a)) = Some None.
Proof.
  intros Hf Ho Hk. destruct (annotation_total (firstn (N.to_nat k) (annotationBytes a))) as [E|(a' & rest & E1 & F & E2)]; [|exact E|exfalso].
  - apply Forall_forall. intros x Hx. apply (proj1 (Forall_forall _ _) Ho). rewrite <- (firstn_skipn (N.to_nat k)). apply in_or_app. auto.
  - pose proof (annotation_read a' (rest ++ skipn (N.to_nat k) (annotationBytes a)) F) as R. rewrite app_assoc, <- E1, firstn_skipn in R.
    pose proof (annotation_read a [] Hf) as R2. rewrite app_nil_r, R in R2. assert (a' = a) by congruence. subst a'.
    apply (f_equal len) in E1. rewrite len_app, len_firstn in E1; rewrite annotationBytes_len in *; lia.
Qed.
Print Assumptions C33_annotation_truncated.

Definition volts : annotation := {| quantity := [86; 111; 108]; unit_ := [86]; description := [] |}.
Example C33_case : annotationFits volts /\ octets (annotationBytes volts) /\
  writeAnnotation (repeat 7 10) volts = Some ([3; 86; 111; 108; 1; 86; 0; 0; 7; 7], Some 8) /\
  readAnnotation [3; 86; 111; 108; 1; 86; 0; 0; 7; 7] = Some (Some (volts, 8)) /\ readAnnotation [3; 86; 111; 108; 1; 86; 9; 0; 7] = Some None /\
  writeHeaderSized (repeat 7 10) 513 1 2 3 8 = Some [1; 2; 0; 0; 1; 2; 3; 8; 7; 7].
Proof. split; [repeat split|]. split; [repeat constructor|]. vm_compute. repeat split. Qed.
