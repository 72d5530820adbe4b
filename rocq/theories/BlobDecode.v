(** Decoding accepted bytes stays inside them. *)
From Coq Require Import List NArith Bool Lia ZifyBool ZifyNat ZifyN.
From Verif Require Import WireModel WireProofs ChunkModel ChunkSpec ChunkPoolProofs ChunkProofs ValueMapModel BlobModel ValueMapSpec ValueMapPool ValueMapInv BlobImage ValueMapProofs BlobSpec BlobProofs Base.
Import ListNotations.
Local Open Scope N_scope.

Lemma inside_in s a n a' n' x : a <= a' -> a' + n' <= a + n -> inside s a' n' x -> inside s a n x.
Proof. destruct x; cbn [inside]; lia. Qed.
Lemma all_inside s a n a' n' l : a <= a' -> a' + n' <= a + n -> Forall (inside s a' n') l -> Forall (inside s a n) l.
Proof. intros A B. apply Forall_impl. intros x. apply inside_in; assumption. Qed.
Lemma elem_small vt : elemSize vt <= 16 /\ (vt <> 13 -> elemSize vt <= 8).
Proof.
  unfold elemSize. destruct (N.lt_ge_cases vt 14) as [H|H].
  - assert (X : In vt [0;1;2;3;4;5;6;7;8;9;10;11;12;13]) by (cbn [In]; lia). cbn [In] in X. repeat (destruct X as [ <- |X]; [split; [vm_compute; discriminate|intros; vm_compute; try discriminate; congruence]|]). destruct X.
  - rewrite nth_overflow by (cbn [length]; lia). lia.
Qed.

Section Bytes.
Variable mm : memory.
Hypothesis bytes : forall x, mm x < 256.
Lemma dec_small k : forall a, dec (rd mm a k) < 256 ^ N.of_nat k.
Proof.
  induction k as [|k IH]; intros a; cbn [rd dec]; [cbn; lia|]. rewrite Nnat.Nat2N.inj_succ, N.pow_succ_r'. specialize (IH (a + 1)). specialize (bytes a). lia.
Qed.
Lemma u4 a : u mm a 4 < 2 ^ 32. Proof. exact (dec_small 4 a). Qed.
Lemma magic_rank a : dec (rd mm a 4) = dec [71; 82; 52; 77] -> mm (a + 1) = 82.
Proof.
  cbn [rd dec]. intros H. pose proof (bytes a). pose proof (bytes (a + 1)). pose proof (bytes (a + 1 + 1)). pose proof (bytes (a + 1 + 1 + 1)). lia.
Qed.

(** Decoding with [f] levels left keeps inside what the validator accepted. *)
Definition entryGood (f : nat) : Prop := forall g sd d d' a n ts po e inl c, d' <= 32 -> 34 <= N.of_nat f + d' -> ts <= n ->
  entryCheck (fun t a' n' => validate g mm t sd a' n') mm d a n ts po (parseEntry mm e) inl = VOk c -> Forall (inside 8 a n) (decode f mm false d' a e).
Definition elemGood (f : nat) : Prop := forall g d d' x e c, d' <= 32 -> 34 <= N.of_nat f + d' ->
  (if N.testbit (mm (e + 13)) 4 then validate g mm true d (e + 16) (u mm (e + 8) 4)
   else if (mm (e + 12) =? 15) && N.testbit (mm (e + 13)) 3 then validate g mm false d (e + 16) (u mm (e + 8) 4) else VOk 0) = VOk c ->
  Forall (inside 8 (e + 16) (u mm (e + 8) 4)) (decode f mm true d' x e).

Lemma entries_inside f sub sd d d' a n ts po : d' <= 32 -> 34 <= N.of_nat f + d' -> ts <= n -> po <= ts -> entryGood f -> (exists g, sub = fun t a' n' => validate g mm t sd a' n') -> forall count i c,
  32 + 48 * (i + N.of_nat count) <= po -> entriesLoop (validateEntry sub mm d a n ts po) count i = VOk c -> Forall (inside 8 a n) (decodeEntries (decode f mm false d') mm a count i).
Proof.
  intros Hd Hf T P G [g Eg]. induction count as [|count IH]; intros i c H V; cbn [decodeEntries]; [constructor|]. cbn [entriesLoop] in V. apply vbind_ok in V. destruct V as (x & V & W). apply vbind_ok in W. destruct W as (y & W & _).
  rewrite entry_check in V by lia. set (e := a + 32 + 48 * i) in *. apply Forall_app. split; [|apply Forall_app; split].
  - unfold entryCheck in V. apply vbind_ok in V. destruct V as (x' & _ & V). apply vbind_ok in V. destruct V as (y' & V & _). destruct (parse_spill mm e) as [S1 S2]. rewrite S1, S2 in V. cbn [parseEntry eKeyId] in V. unfold u.
    destruct (dec (rd mm (e + 8) 2) =? kInlineKeyId).
    + apply check_ok in V. destruct V as [V _]. apply N.leb_le in V. unfold kMaxInlineKeyLength in V. constructor; [|constructor]. cbn [inside]. unfold e in *. lia.
    + destruct (dec (rd mm (e + 8) 2) =? kSpilledKeyId); [|constructor]. apply check_ok in V. destruct V as [V _]. constructor; [|constructor]. cbn [inside]. lia.
  - subst sub. eapply G; [exact Hd|exact Hf|exact T|exact V].
  - eapply IH; [|exact W]. lia.
Qed.
Lemma map_inside f g sd d d' a n c : d' <= 32 -> 34 <= N.of_nat f + d' -> entryGood f -> validateMap (fun t a' n' => validate g mm t sd a' n') mm d a n = VOk c ->
  Forall (inside 8 a n) (decodeEntries (decode f mm false d') mm a (N.to_nat (u mm (a + 6) 2)) 0) /\ 32 + 48 * u mm (a + 6) 2 <= n /\ dec (rd mm (a + 0) 4) = dec [71; 82; 52; 77].
Proof.
  intros Hd Hf G H. unfold validateMap in H. apply check_ok in H. destruct H as [N32 H]. apply check_ok in H. destruct H as [Al H].
  apply vbind_ok in H. destruct H as (mg & M & H). apply vbind_ok in H. destruct H as (ver & _ & H). apply check_ok in H. destruct H as [Mv H].
  apply vbind_ok in H. destruct H as (ts & Gt & H). apply vbind_ok in H. destruct H as (po & Gp & H). apply vbind_ok in H. destruct H as (cnt & Gc & H). apply vbind_ok in H. destruct H as (fh & _ & H).
  apply check_ok in H. destruct H as [C1 H]. apply check_ok in H. destruct H as [C2 H]. apply vbind_ok in H. destruct H as (x & Lo & _).
  apply get_val in Gc. destruct Gc as [Gc _]. apply get_val in M. destruct M as [M _]. unfold u. rewrite <- Gc. split; [|split; [lia|rewrite <- M; lia]].
  eapply entries_inside; [exact Hd|exact Hf| | |exact G|eexists; reflexivity| |exact Lo]; lia.
Qed.
Lemma elems_inside f g d d' a n : d' <= 32 -> 34 <= N.of_nat f + d' -> n < 2 ^ 32 -> elemGood f -> forall x count off c, off <= n ->
  elemsLoop (fun t a' n' => validate g mm t d a' n') mm a n count off = VOk c -> Forall (inside 8 a n) (decodeElems (decode f mm true d' x) mm a n count off).
Proof.
  intros Hd Hf Hn G x. induction count as [|count IH]; intros off c Ho V; cbn [decodeElems]; [constructor|]. cbn [elemsLoop] in V. apply check_ok in V. destruct V as [C V]. apply N.leb_le in C.
  rewrite !get_ok in V by lia. cbn [vbind] in V. apply check_ok in V. destruct V as [C2 V]. apply N.leb_le in C2. apply vbind_ok in V. destruct V as (x1 & V1 & V). apply vbind_ok in V. destruct V as (x2 & V2 & _).
  rewrite (proj2 (N.ltb_ge n (off + 16))) by lia. rewrite N.add_assoc in C2, V1, V2. change (dec (rd mm (a + off + 8) 4)) with (u mm (a + off + 8) 4) in *. rewrite (proj2 (N.ltb_ge (n - (off + 16)) (u mm (a + off + 8) 4))) by lia.
  constructor; [cbn [inside]; lia|]. apply Forall_app. rewrite part_in in V1 by lia. cbn [rd] in V1. rewrite !dec1, !N.add_assoc in V1. split.
  - apply (all_inside 8 a n (a + off + 16) (u mm (a + off + 8) 4)); [lia|lia|]. eapply G; [exact Hd|exact Hf|exact V1].
  - rewrite (N.mod_small (n - (off + 16))) in V2 by lia. eapply IH; [|exact V2]. lia.
Qed.
Lemma tensor_inside f g sd d d' a n c x : d' <= 32 -> 34 <= N.of_nat f + d' -> n < 2 ^ 32 -> elemGood f -> validateTensor (fun t a' n' => validate g mm t sd a' n') mm d a n = VOk c ->
  Forall (inside 8 a n) (decodeTensor (decode f mm true d' x) mm a n).
Proof.
  intros Hd Hf Hn G V. unfold validateTensor in V. apply check_ok in V. destruct V as [_ V]. apply check_ok in V. destruct V as [C8 V]. apply N.leb_le in C8. rewrite !get_ok in V by lia. cbn [vbind] in V. cbn [rd] in V. rewrite !dec1, N.add_0_r in V.
  apply check_ok in V. destruct V as [Cr V]. apply check_ok in V. destruct V as [Cc V]. apply check_ok in V. destruct V as [Ce V]. apply check_ok in V. destruct V as [Cv V]. apply part_ok in V. destruct V as [Cp V].
  unfold decodeTensor. destruct (n <? 8); [constructor|]. constructor; [cbn [inside]; lia|]. destruct (_ || _ || _); [constructor|]. set (rank := mm (a + 1)) in *. set (o := 8 + extentsBytes rank) in *.
  assert (Er : 4 * rank <= extentsBytes rank). { unfold extentsBytes. pose proof (N.div_mod (4 * rank + 7) 8 ltac:(lia)). pose proof (N.mod_lt (4 * rank + 7) 8 ltac:(lia)). lia. }
  constructor; [cbn [inside]; lia|]. destruct (mm a =? 15) eqn:E15.
  - destruct (N.testbit (mm (a + 2)) 0) eqn:Ev; [|constructor]. apply (all_inside 8 a n (a + o) (n - o)); [lia|lia|]. eapply elems_inside; [exact Hd|exact Hf|lia|exact G|lia|exact V].
  - destruct (elemSize (mm a) =? 0) eqn:Es; [constructor|]. destruct (N.testbit (mm (a + 2)) 0) eqn:Ev; [constructor|]. apply check_ok in V. destruct V as [_ V]. apply check_ok in V. destruct V as [V _]. apply N.leb_le in V.
    destruct (_ && _); [constructor|]. constructor; [|constructor; [exact Logic.I|constructor]]. cbn [inside]. unfold u. pose proof (N.mul_div_le (n - o) (elemSize (mm a)) ltac:(lia)) as X.
    assert (elemSize (mm a) * dec (rd mm (a + 4) 4) <= elemSize (mm a) * ((n - o) / elemSize (mm a))) by (apply N.mul_le_mono_l; exact V). lia.
Qed.
Lemma decode_S f isElem depth a e : decode (S f) mm isElem depth a e =
      let fl := if isElem then mm (e + 13) else mm (e + 11) in
      let vt := if isElem then mm (e + 12) else mm (e + 10) in
      let off := u mm e 4 in
      let pl := u mm (e + 4) 4 in
      let base := if isElem then e + 16 else a + off + 8 in
      let n := if isElem then u mm (e + 8) 4 else if 8 <? pl then pl - 8 else 0 in
      if negb isElem && (negb (N.testbit fl 1) || (off =? 0)) then []
      else if N.testbit fl 4 then
        if kMaxDecodeDepth <=? depth then [] else decodeTensor (decode f mm true (depth + 1) a) mm base n
      else if N.testbit fl 3 && (negb isElem || (vt =? 15)) then
        if kMaxDecodeDepth <=? depth then [] else decodeMap (decode f mm false (depth + 1)) mm base n
      else if vt =? 14 then [Read base n]
      else if vt =? 13 then if n <? 16 then [] else [Read base 16]
      else if isElem || (elemSize vt =? 0) then []
      else [Scalar base (elemSize vt)].
Proof. reflexivity. Qed.
Lemma decode_map f g d d' a n c : d' < 32 -> 34 <= N.of_nat (S f) + d' -> entryGood f -> validate g mm false d a n = VOk c ->
  Forall (inside 8 a n) (decodeMap (decode f mm false (d' + 1)) mm a n) /\ (32 <= n -> mm (a + 1) = 82).
Proof.
  intros Hd Hf G V. destruct g as [|g]; [discriminate V|]. rewrite validate_S in V. destruct (map_inside f g (d + 1) d (d' + 1) a n c) as (M1 & M2 & M3); [lia|lia|exact G|exact V|].
  split; [|intros _; apply magic_rank; rewrite <- M3; do 2 f_equal; lia].
  unfold decodeMap. destruct (N.ltb_spec n 32) as [N32|N32]; [constructor|]. constructor; [cbn [inside]; lia|]. destruct (n <? 32 + 48 * u mm (a + 6) 2); [constructor|]. constructor; [cbn [inside]; lia|exact M1].
Qed.
Lemma decode_tensor f g d d' a n c x : d' < 32 -> 34 <= N.of_nat (S f) + d' -> n < 2 ^ 32 -> elemGood f -> validate g mm true d a n = VOk c ->
  Forall (inside 8 a n) (decodeTensor (decode f mm true (d' + 1) x) mm a n).
Proof.
  intros Hd Hf Hn G V. destruct g as [|g]; [discriminate V|]. rewrite validate_S in V. eapply tensor_inside; [| |exact Hn|exact G|exact V]; lia.
Qed.
Lemma all_good f : entryGood f /\ elemGood f.
Proof.
  induction f as [|f [IE IL]]; [split; [intros g sd d d' a n ts po e inl c H1 H2; exfalso; lia|intros g d d' x e c H1 H2; exfalso; lia]|]. split.
  - intros g sd d d' a n ts po e inl c Hd Hf Ht V. rewrite decode_S. cbn [negb andb]. cbv zeta. unfold entryCheck in V. apply vbind_ok in V. destruct V as (x & V & _). cbn [parseEntry eFlags ePOff ePLen eVT] in V. fold (u mm e 4) in V. fold (u mm (e + 4) 4) in V.
    pose proof (u4 (e + 4)) as Up. set (fl := mm (e + 11)) in *. set (vt := mm (e + 10)) in *. set (off := u mm e 4) in *. set (pl := u mm (e + 4) 4) in *. destruct (N.testbit fl 1); cbn [negb orb]; [|constructor]. destruct (off =? 0); [constructor|].
    apply check_ok in V. destruct V as [C1 V]. apply check_ok in V. destruct V as [C2 V]. apply vbind_ok in V. destruct V as (rs & _ & V). apply check_ok in V. destruct V as [_ V]. apply vbind_ok in V. destruct V as (rp & _ & V). apply check_ok in V. destruct V as [_ V].
    destruct (N.testbit fl 4) eqn:F4; [|destruct (N.testbit fl 3) eqn:F3]; cbn [orb andb negb] in V |- *.
    + destruct (N.leb_spec kMaxDecodeDepth d') as [D|D]; [constructor|]. unfold kMaxDecodeDepth in D. rewrite orb_true_r in V. apply check_ok in V. destruct V as [_ V]. apply check_ok in V. destruct V as [C3 V]. apply part_ok in V. destruct V as [C4 V].
      destruct (N.testbit fl 3) eqn:F3; cbn [negb] in V.
      * apply N.leb_le in C3. rewrite (proj2 (N.ltb_lt 8 pl)) by lia. destruct (decode_map f g sd d' _ _ _ D Hf IE V) as [_ R]. specialize (R ltac:(lia)). apply (all_inside 8 a n (a + off + 8) (pl - 8)); [lia|lia|].
        unfold decodeTensor. rewrite (proj2 (N.ltb_ge (pl - 8) 8)) by lia. constructor; [cbn [inside]; lia|]. rewrite R. change (kMaxTensorRank <? 82) with true. constructor.
      * apply N.leb_le in C3. rewrite (proj2 (N.ltb_lt 8 pl)) by lia. apply (all_inside 8 a n (a + off + 8) (pl - 8)); [lia|lia|]. eapply decode_tensor; [exact D|exact Hf|lia|exact IL|exact V].
    + destruct (N.leb_spec kMaxDecodeDepth d') as [D|D]; [constructor|]. unfold kMaxDecodeDepth in D. apply check_ok in V. destruct V as [_ V]. apply check_ok in V. destruct V as [C3 V]. apply part_ok in V. destruct V as [C4 V]. apply N.leb_le in C3. rewrite (proj2 (N.ltb_lt 8 pl)) by lia.
      apply (all_inside 8 a n (a + off + 8) (pl - 8)); [lia|lia|]. eapply decode_map; [exact D|exact Hf|exact IE|exact V].
    + clear V. destruct (vt =? 14); [constructor; [|constructor]; cbn [inside]; destruct (N.ltb_spec 8 pl); lia|]. destruct (N.eqb_spec vt 13) as [E|E].
      * destruct (N.ltb_spec 8 pl) as [P|P]; [|constructor]. destruct (N.ltb_spec (pl - 8) 16) as [Q|Q]; [constructor|]. constructor; [cbn [inside]; lia|constructor].
      * cbn [orb]. destruct (elemSize vt =? 0); [constructor|]. constructor; [|constructor]. cbn [inside]. pose proof (proj2 (elem_small vt) E). lia.
  - intros g d d' x e c Hd Hf V. rewrite decode_S. cbn [negb andb orb]. cbv zeta. pose proof (u4 (e + 8)) as Up. set (n := u mm (e + 8) 4) in *. destruct (N.testbit (mm (e + 13)) 4).
    + destruct (N.leb_spec kMaxDecodeDepth d') as [D|D]; [constructor|]. eapply decode_tensor; [exact D|exact Hf|exact Up|exact IL|exact V].
    + rewrite (andb_comm (N.testbit (mm (e + 13)) 3)). destruct ((mm (e + 12) =? 15) && N.testbit (mm (e + 13)) 3).
      * destruct (N.leb_spec kMaxDecodeDepth d') as [D|D]; [constructor|]. eapply decode_map; [exact D|exact Hf|exact IE|exact V].
      * destruct (mm (e + 12) =? 14); [constructor; [cbn [inside]; lia|constructor]|]. destruct (mm (e + 12) =? 13); [|constructor]. destruct (N.ltb_spec n 16); [constructor|]. constructor; [cbn [inside]; lia|constructor].
Qed.
Lemma decodeAll_inside a n c : validateBlob mm a n = VOk c -> Forall (inside 8 a n) (decodeAll mm a).
Proof.
  intros V. rewrite validateBlob_eq in V. unfold decodeAll. apply (map_inside 34 33 (0 + 1) 0 0 a n c); [lia|lia|apply all_good|exact V].
Qed.
End Bytes.
