(** Properties of the byte image of a property map: C44, C45, C52. *)
From Coq Require Import String.
From Coq Require Import List NArith Bool Lia ZifyBool ZifyNat ZifyN.
From Verif Require Import WireModel WireProofs ChunkModel ChunkSpec ChunkPoolProofs ChunkProofs ValueMapModel BlobModel ValueMapSpec ValueMapPool ValueMapInv BlobImage ValueMapGrow ValueMapProofs ValueMapMore ValueMapProps BlobSpec BlobProofs BlobDecode BlobBomb Base.
Import ListNotations.
Local Open Scope N_scope.

(** ** C44: the bytes of a map are accepted back.

    For maps of scalars, complex numbers, strings and empty values, built through the public interface: reading the bytes of the map
    at an aligned address succeeds, and the result is again a map with the same contents, to which C41 and the others apply.
    Missing: tensors. *)
Theorem C44_plain_partial : forall m s a jk, reach m s -> a mod 16 = 0 -> Forall plainItem (map snd s) ->
  exists m', fromBlob (blobImage m a) a (blobSize m) jk = Some m' /\ reach m' s /\ iterate m' = s /\ forall k, lookup m' k = lookup m k.
Proof.
  intros m s a jk R Ha P. destruct (reach_inv false _ m s ltac:(discriminate) R) as (fr & I & It). subst s. destruct (accepted m fr a I Ha P) as [c V].
  assert (E : fromBlob (blobImage m a) a (blobSize m) jk = Some (parse (blobImage m a) a jk)) by (unfold fromBlob; rewrite V; reflexivity).
  exists (parse (blobImage m a) a jk). split; [exact E|]. assert (R' : reach (parse (blobImage m a) a jk) (iterate m)) by (eapply reach_blob; [exact R|exact E]). split; [exact R'|].
  destruct (C41_refines _ _ R') as (A1 & _ & A2). destruct (C41_refines _ _ R) as (_ & _ & B2). split; [exact A1|]. intros k. rewrite A2, B2. reflexivity.
Qed.
Print Assumptions C44_plain_partial.
Definition isPlain (i : item) : bool := match i with Empty => true | Item vt ct _ _ => (vt <=? 15) && negb (ct =? 3) && negb (ct =? 4) end.
Lemma isPlain_ok l : forallb isPlain l = true -> Forall plainItem l.
Proof. intros H. apply Forall_forall. intros x Hx. rewrite forallb_forall in H. specialize (H x Hx). destruct x; cbn [plainItem isPlain] in *; [exact Logic.I|lia]. Qed.
(** Four values, one key too long for the entry, one replaced and one erased: the free list and the pool are in use. *)
Definition plainRun : list op :=
  [OEmplace (K "a") (i32 5) false; OEmplace longA (VString (repeat 65 100)) false; OEmplace (K "b") (str "xyz") false; OEmplace (K "e") VMono false; OEmplace (K "c") (VWide (repeat 7 16)) false; OAssign (K "b") (VString (repeat 66 50)) false; OErase longA].
Example C44_case : exists m s, reach m s /\ Forall plainItem (map snd s) /\ len s = 4 /\ fhead m <> 0 /\ blobSize m = 3308.
Proof.
  destruct (run_view (fun _ => True) (fun m s => (forallb isPlain (map snd s), len s, negb (fhead m =? 0), blobSize m)) plainRun (true, 4, true, 3308) (all_true _)) as (m & s & R & E); [vm_compute; reflexivity|].
  exists m, s. split; [exact R|]. injection E as E1 E2 E3 E4. split; [apply isPlain_ok; exact E1|]. split; [exact E2|]. split; [|exact E4]. apply negb_true_iff, N.eqb_neq in E3. exact E3.
Qed.
(** Maps that contain a map are never accepted, wherever the bytes are put: the nested blob lies 8 bytes behind an aligned
    record, and validation demands that it is aligned itself. *)
Theorem C44_refuted : forall m s a jk, reachBy shortKeys m s -> Exists nestedItem (map snd s) -> fromBlob (blobImage m a) a (blobSize m) jk = None.
Proof.
  intros m s a jk R P. destruct (reach_inv true shortKeys m s (fun _ o H => H) R) as (fr & I & It). subst s. pose proof (rejected m fr a) as X. unfold fromBlob. destruct (validateBlob (blobImage m a) a (blobSize m)) as [c| |]; [|reflexivity|reflexivity]. destruct (X c I P eq_refl).
Qed.
Print Assumptions C44_refuted.
Definition nestedRun : list op := [OEmplace (K "a") (i32 5) false; OEmplace (K "sub") (VMap (headerBytes fresh8)) false].
Lemma short_a v al : shortKeys (OEmplace (K "a") v al). Proof. intros [_ H]. vm_compute in H. discriminate H. Qed.
Lemma short_sub v al : shortKeys (OEmplace (K "sub") v al). Proof. intros [_ H]. vm_compute in H. discriminate H. Qed.
Example C44_nested_case : exists m s, reachBy shortKeys m s /\ Exists nestedItem (map snd s).
Proof.
  destruct (run_view shortKeys (fun m s => match s with [_; (_, Item vt ct _ _)] => Some (vt, ct) | _ => None end) nestedRun (Some (15, 4))) as (m & s & R & E); [repeat constructor; [apply short_a|apply short_sub]|vm_compute; reflexivity|].
  exists m, s. split; [exact R|]. destruct s as [|[k1 i1] [|[k2 [|vt ct f d]] [|]]]; try discriminate E. injection E as -> ->. cbn [map snd]. right. left. cbn [nestedItem]. auto.
Qed.

(** ** C45: hostile bytes.

    Whatever the bytes: validation ends, and reads nothing outside the span it was given. *)
Theorem C45_validator : forall mm a n, validateBlob mm a n <> VBad.
Proof. intros mm a n. apply validate_safe; vm_compute; discriminate. Qed.
Print Assumptions C45_validator.
(** When validation accepts, decoding all keys and values of the map, to any depth, ends and reads only inside the bytes that were
    given, but for scalars, which may be read up to 8 bytes beyond the end.  Missing: that, the sizes of decoded tensors, and changes to the
    accepted map; all three are refuted below. *)
Theorem C45_decode_partial : forall mm a n c, (forall x, mm x < 256) -> validateBlob mm a n = VOk c -> Forall (inside 8 a n) (decodeAll mm a).
Proof. intros mm a n c B V. eapply decodeAll_inside; eassumption. Qed.
Print Assumptions C45_decode_partial.

(** *** Hostile blobs *)
(** A 64 bit integer whose record has no content, at the end of the blob. *)
Definition shortScalar : list N := hdrBytes 1 1 88 80 8 8 0 ++ entBytes 80 8 1 5 2 ++ enc 4 16 ++ [5; 0; 0; 8].
(** A nested map with a string, a tensor and a long key inside: accepted, and decoding looks at all of it. *)
Definition richInner : list N := hdrBytes 2 2 208 128 80 80 0 ++ entBytes 128 13 2 14 2 ++ (enc 4 144 ++ enc 4 32 ++ enc 2 0x8001 ++ [10; 18] ++ enc 4 176 ++ enc 4 8 ++ zeros 28) ++
  enc 4 16 ++ [14; 2; 0; 8] ++ [104; 101; 108; 108; 111] ++ zeros 3 ++ enc 4 32 ++ [10; 3; 16; 8] ++ [10; 1; 0; 0] ++ enc 4 2 ++ enc 4 2 ++ zeros 4 ++ zeros 8 ++ repeat 97 8 ++ zeros 24.
Definition richBlob : list N := hdrBytes 1 1 304 80 224 224 0 ++ entBytes 88 216 1 15 10 ++ zeros 8 ++ enc 4 224 ++ [15; 4; 0; 8] ++ richInner.
Example C45_case : exists c, (forall x, place richBlob 4096 x < 256) /\ validateBlob (place richBlob 4096) 4096 (len richBlob) = VOk c /\ len (decodeAll (place richBlob 4096) 4096) = 8.
Proof. exists 6. split; [apply place_bytes; vm_compute; reflexivity|]. split; [vm_compute; reflexivity|]. vm_compute. reflexivity. Qed.
(** Accepted bytes of which decoding reads 8 bytes behind the end. *)
Theorem C45_scalar_refuted : exists mm a n c, (forall x, mm x < 256) /\ validateBlob mm a n = VOk c /\ ~ Forall (inside 0 a n) (decodeAll mm a).
Proof.
  exists (place shortScalar 4096), 4096, 88, 2. split; [apply place_bytes; vm_compute; reflexivity|]. split; [vm_compute; reflexivity|]. assert (E : decodeAll (place shortScalar 4096) 4096 = [Scalar 4184 8]) by (vm_compute; reflexivity).
  rewrite E. intros F. inversion F as [|? ? X _]; subst. cbn [inside] in X. lia.
Qed.
Print Assumptions C45_scalar_refuted.
(** Accepted bytes of which decoding a tensor writes 16 bytes into storage for 4: the element count is never compared with the
    extents. *)
Definition badTensor : list N := hdrBytes 1 1 120 80 40 40 0 ++ entBytes 80 40 1 10 18 ++ enc 4 48 ++ [10; 3; 16; 8] ++ [10; 1; 0; 0] ++ enc 4 4 ++ enc 4 1 ++ zeros 4 ++ zeros 16.
Theorem C45_tensor_refuted : exists mm a n c, (forall x, mm x < 256) /\ validateBlob mm a n = VOk c /\ ~ Forall fits (decodeAll mm a).
Proof.
  exists (place badTensor 4096), 4096, 120, 3. split; [apply place_bytes; vm_compute; reflexivity|]. split; [vm_compute; reflexivity|]. assert (E : In (Fill 4 16) (decodeAll (place badTensor 4096) 4096)) by (vm_compute; auto).
  intros F. rewrite Forall_forall in F. specialize (F _ E). cbn [fits] in F. lia.
Qed.
Print Assumptions C45_tensor_refuted.
(** Accepted bytes, 48 of them, that claim room for eight entries: inserting into the map writes behind its storage. *)
Definition badSlots : list N := hdrBytes 0 8 48 32 0 16 0 ++ zeros 16.
Theorem C45_insert_refuted : exists mm a n jk m k v, (forall x, mm x < 256) /\ fromBlob mm a n jk = Some m /\ goodValue v /\ exec m (OEmplace k v false) = Bad.
Proof.
  exists (place badSlots 4096), 4096, 48, (fun _ => 0). eexists. exists (K "a"), (i32 5). split; [apply place_bytes; vm_compute; reflexivity|]. split; [unfold fromBlob; assert (E : validateBlob (place badSlots 4096) 4096 48 = VOk 1) by (vm_compute; reflexivity); rewrite E; reflexivity|].
  split; [apply goodB_ok; vm_compute; reflexivity|]. vm_compute. reflexivity.
Qed.
Print Assumptions C45_insert_refuted.

(** ** C52: time to validate.

    Bytes that are accepted and hold neither maps nor tensors: no more entries and free chunks are examined than there are bytes. *)
Theorem C52_flat_partial : forall mm a n c, validateBlob mm a n = VOk c ->
  (forall i, i < dec (rd mm (a + 6) 2) -> N.testbit (mm (a + 32 + 48 * i + 11)) 3 = false /\ N.testbit (mm (a + 32 + 48 * i + 11)) 4 = false) -> c <= n.
Proof. intros mm a n c V F. eapply flat_cost; eassumption. Qed.
Print Assumptions C52_flat_partial.
Example C52_flat_case : exists c, validateBlob (place shortScalar 4096) 4096 88 = VOk c /\ dec (rd (place shortScalar 4096) (4096 + 6) 2) = 1 /\ place shortScalar 4096 (4096 + 32 + 11) = 2.
Proof. eexists. split; [vm_compute; reflexivity|]. split; vm_compute; reflexivity. Qed.
(** With maps, not so. A blob of 32 + 144 k bytes that is accepted after examining at least 2^k entries, for every k up to 31 (4496 bytes, 2^31 entries): both entries of every
    map in it point to the same nested map. *)
Theorem C52_refuted : forall k, (k <= 31)%nat -> exists l, len l = 32 + 144 * N.of_nat k /\ (forall a x, place l a x < 256) /\
  forall a, a mod 16 = 0 -> exists c, validateBlob (place l a) a (len l) = VOk c /\ 2 ^ N.of_nat k <= c.
Proof.
  intros k Hk. exists (bomb k). split; [apply len_bomb|]. split.
  - intros a. apply place_bytes. apply forallb_forall. intros x Hx. apply N.ltb_lt. exact (proj1 (Forall_forall _ _) (bomb_bytes k) x Hx).
  - intros a Ha. apply (bomb_cost k Hk 34 0); [lia|lia|exact Ha|]. apply rd_wr.
Qed.
Print Assumptions C52_refuted.
Example C52_case : exists c, validateBlob (place (bomb 8) 4096) 4096 (len (bomb 8)) = VOk c /\ len (bomb 8) = 1184 /\ c = 1021.
Proof. eexists. split; [vm_compute; reflexivity|]. split; vm_compute; reflexivity. Qed.
