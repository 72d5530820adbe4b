(** Small blobs that take long to validate. *)
From Coq Require Import List NArith Bool Lia ZifyBool ZifyNat ZifyN.
From Verif Require Import CrcProps WireModel WireProofs ChunkModel ChunkSpec ChunkPoolProofs ChunkProofs ValueMapModel BlobModel ValueMapSpec ValueMapPool ValueMapInv BlobImage ValueMapProofs BlobSpec BlobProofs Base.
Import ListNotations.
Local Open Scope N_scope.

Lemma place_bytes l a : forallb (fun x => x <? 256) l = true -> forall x, place l a x < 256.
Proof.
  intros H x. unfold place, wr. destruct (_ && _); [|reflexivity]. destruct (nth_in_or_default (N.to_nat (x - a)) l 0) as [E| -> ]; [|reflexivity]. rewrite forallb_forall in H. specialize (H _ E). lia.
Qed.

(** A map of two entries that both hold the map [inner]. *)
Definition twice (inner : list N) : list N :=
  hdrBytes 2 2 (144 + len inner) 128 (16 + len inner) (16 + len inner) 0 ++ entBytes 136 (8 + len inner) 1 15 10 ++ entBytes 136 (8 + len inner) 2 15 10 ++
  zeros 8 ++ enc 4 (alignToRecord (8 + len inner)) ++ [15; 4; 0; 8] ++ inner.
Fixpoint bomb (k : nat) : list N := match k with O => hdrBytes 0 0 32 32 0 0 0 | S k' => twice (bomb k') end.
Lemma len_twice l : len (twice l) = 144 + len l.
Proof. unfold twice, hdrBytes, entBytes. rewrite !len_app, !WireProofs.len_enc, !len_zeros. unfold len at 1 2 3 4 5. cbn [length]. lia. Qed.
Lemma len_bomb k : len (bomb k) = 32 + 144 * N.of_nat k.
Proof. induction k as [|k IH]; [reflexivity|]. cbn [bomb]. rewrite len_twice, IH. lia. Qed.
Lemma bomb_bytes k : Forall (fun b => b < 256) (bomb k).
Proof.
  induction k as [|k IH]; cbn [bomb]; unfold twice, hdrBytes, entBytes; rewrite !Forall_app; repeat split; try apply octets_enc; try exact IH; try (unfold zeros; apply Forall_forall; intros x Hx; apply repeat_spec in Hx; subst x; reflexivity); repeat constructor.
Qed.
Lemma rd_part mm a L pre x post : rd mm a (length L) = L -> L = pre ++ x ++ post -> rd mm (a + len pre) (length x) = x.
Proof.
  intros H E. rewrite E in H. rewrite !app_length, rd_app, rd_app in H.
  assert (X : forall (x y x' y' : list N), length x = length x' -> x ++ y = x' ++ y' -> x = x' /\ y = y').
  { clear. induction x as [|v x IH]; intros y [|w x'] y' L E; try discriminate; [auto|]. cbn in *. injection E as -> E. injection L as L. destruct (IH y x' y' L E) as [ -> -> ]. auto. }
  apply X in H; [|apply rd_len]. destruct H as [_ H]. apply X in H; [|apply rd_len]. destruct H as [H _]. exact H.
Qed.
Definition ent (pl key : N) : entry := {| ePOff := 136; ePLen := pl; eKeyId := key; eVT := 15; eFlags := 10; eInline := zeros 36 |}.
Lemma ent_bytes pl key : entryBytes (ent pl key) = entBytes 136 pl key 15 10. Proof. reflexivity. Qed.
Lemma bomb_cost k : (k <= 31)%nat -> forall fuel depth a mm, (k < fuel)%nat -> N.of_nat k + depth < 32 -> a mod 16 = 0 -> rd mm a (length (bomb k)) = bomb k ->
  exists c, validate fuel mm false depth a (len (bomb k)) = VOk c /\ 2 ^ N.of_nat k <= c.
Proof.
  induction k as [|k IH]; intros Hk fuel depth a mm Hf Hd Ha R.
  - destruct fuel as [|fuel]; [lia|]. rewrite validate_S. unfold validateMap. change (len (bomb 0)) with 32. rewrite check_true by reflexivity. rewrite (check_true (a mod 16 =? 0)) by lia. rewrite !get_ok by (vm_compute; discriminate). cbn [vbind].
    pose proof (rd_part mm a (bomb 0) [] [71; 82; 52; 77] (skipn 4 (bomb 0)) R eq_refl) as R0. pose proof (rd_part mm a (bomb 0) (firstn 4 (bomb 0)) [1] (skipn 5 (bomb 0)) R eq_refl) as R4.
    pose proof (rd_part mm a (bomb 0) (firstn 12 (bomb 0)) (enc 4 32) (skipn 16 (bomb 0)) R eq_refl) as R12. pose proof (rd_part mm a (bomb 0) (firstn 16 (bomb 0)) (enc 4 32) (skipn 20 (bomb 0)) R eq_refl) as R16.
    pose proof (rd_part mm a (bomb 0) (firstn 6 (bomb 0)) (enc 2 0) (skipn 8 (bomb 0)) R eq_refl) as R6. pose proof (rd_part mm a (bomb 0) (firstn 28 (bomb 0)) (enc 4 0) [] R eq_refl) as R28.
    change (len (firstn 4 (bomb 0))) with 4 in R4. change (len (firstn 12 (bomb 0))) with 12 in R12. change (len (firstn 16 (bomb 0))) with 16 in R16. change (len (firstn 6 (bomb 0))) with 6 in R6. change (len (firstn 28 (bomb 0))) with 28 in R28. change (len []) with 0 in R0.
    change (length (enc 4 32)) with 4%nat in *. change (length (enc 2 0)) with 2%nat in *. change (length (enc 4 0)) with 4%nat in *. change (length [71; 82; 52; 77]) with 4%nat in *. change (length [1]) with 1%nat in *. rewrite R0, R4, R12, R16, R6, R28. exists 1. split; [vm_compute; reflexivity|]. vm_compute. discriminate.
  - cbn [bomb] in *. pose proof (len_bomb k) as Lk. set (inner := bomb k) in *. set (L := len inner) in *. assert (Lt : L <= 32 + 144 * 31) by lia. destruct fuel as [|fuel]; [lia|]. rewrite validate_S. rewrite len_twice. fold L.
    set (post := entBytes 136 (8 + L) 1 15 10 ++ entBytes 136 (8 + L) 2 15 10 ++ zeros 8 ++ enc 4 (alignToRecord (8 + L)) ++ [15; 4; 0; 8] ++ inner).
    set (h := hdrBytes 2 2 (144 + L) 128 (16 + L) (16 + L) 0). assert (Et : twice inner = h ++ post) by reflexivity.
    assert (Hp : forall i n x, h = firstn i h ++ x ++ skipn (i + n) h -> length x = n -> len (firstn i h) = N.of_nat i -> rd mm (a + N.of_nat i) n = x).
    { intros i n x E Lx Li. rewrite <- Li, <- Lx. apply (rd_part mm a (twice inner) (firstn i h) x (skipn (i + n) h ++ post) R). rewrite Et. rewrite E at 1. rewrite <- !app_assoc. reflexivity. }
    pose proof (Hp 0%nat 4%nat [71; 82; 52; 77] eq_refl eq_refl eq_refl) as R0. pose proof (Hp 4%nat 1%nat [1] eq_refl eq_refl eq_refl) as R4. pose proof (Hp 12%nat 4%nat (enc 4 (144 + L)) eq_refl eq_refl eq_refl) as R12.
    pose proof (Hp 16%nat 4%nat (enc 4 128) eq_refl eq_refl eq_refl) as R16. pose proof (Hp 6%nat 2%nat (enc 2 2) eq_refl eq_refl eq_refl) as R6. pose proof (Hp 28%nat 4%nat (enc 4 0) eq_refl eq_refl eq_refl) as R28. clear Hp.
    change (N.of_nat 0) with 0 in R0. change (N.of_nat 4) with 4 in R4. change (N.of_nat 12) with 12 in R12. change (N.of_nat 16) with 16 in R16. change (N.of_nat 6) with 6 in R6. change (N.of_nat 28) with 28 in R28.
    assert (Lent : forall key, length (entBytes 136 (8 + L) key 15 10) = 48%nat) by reflexivity.
    assert (E1 : parseEntry mm (a + 32) = norm (ent (8 + L) 1)). { apply parse_entry. rewrite ent_bytes. exact (rd_part mm a (twice inner) h (entBytes 136 (8 + L) 1 15 10) (skipn 48 post) R eq_refl). }
    assert (E2 : parseEntry mm (a + 80) = norm (ent (8 + L) 2)). { apply parse_entry. rewrite ent_bytes. exact (rd_part mm a (twice inner) (h ++ entBytes 136 (8 + L) 1 15 10) (entBytes 136 (8 + L) 2 15 10) (skipn 96 post) R eq_refl). }
    assert (E3 : rd mm (a + 136) 4 = enc 4 (alignToRecord (8 + L))). { exact (rd_part mm a (twice inner) (h ++ entBytes 136 (8 + L) 1 15 10 ++ entBytes 136 (8 + L) 2 15 10 ++ zeros 8) (enc 4 (alignToRecord (8 + L))) (skipn 108 post) R eq_refl). }
    assert (E4 : rd mm (a + 143) 1 = [8]). { exact (rd_part mm a (twice inner) (h ++ entBytes 136 (8 + L) 1 15 10 ++ entBytes 136 (8 + L) 2 15 10 ++ zeros 8 ++ enc 4 (alignToRecord (8 + L)) ++ [15; 4; 0]) [8] inner R eq_refl). }
    assert (E5 : rd mm (a + 144) (length inner) = inner). { refine (rd_part mm a (twice inner) (h ++ entBytes 136 (8 + L) 1 15 10 ++ entBytes 136 (8 + L) 2 15 10 ++ zeros 8 ++ enc 4 (alignToRecord (8 + L)) ++ [15; 4; 0; 8]) inner [] R _). rewrite app_nil_r. reflexivity. }
    assert (A144 : (a + 144) mod 16 = 0) by (replace (a + 144) with (a + 9 * 16) by lia; rewrite N.mod_add by lia; exact Ha).
    destruct (IH ltac:(lia) fuel (depth + 1) (a + 144) mm ltac:(lia) ltac:(lia) A144 E5) as (c & V & Vc). clear R IH.
    assert (One : forall i key, (key = 1 \/ key = 2) -> 32 + 48 * i + 48 <= 144 + L -> parseEntry mm (a + 32 + 48 * i) = norm (ent (8 + L) key) ->
      validateEntry (fun t a' n' => validate fuel mm t (depth + 1) a' n') mm depth a (144 + L) (144 + L) 128 i = VOk (1 + c)).
    { intros i key Kk Hi P. rewrite entry_check by exact Hi. rewrite P. unfold entryCheck, norm, ent. cbn [eFlags ePOff ePLen eVT eKeyId]. change (N.testbit 10 1) with true. change (N.testbit 10 3) with true. change (N.testbit 10 4) with false. change (136 mod 2 ^ 32) with 136. change (2 ^ 32) with W32. rewrite (N.mod_small (8 + L)) by (rewrite W32_val; lia). cbn [orb negb].
      rewrite check_true by lia. rewrite check_true by lia. rewrite !get_ok by lia. cbn [vbind]. rewrite E3. change (136 + 7) with 143. rewrite E4, dec1, dec_enc4 by apply atr_range. rewrite N.eqb_refl. cbn [check]. change ((8 =? 8) && (15 <=? 15)) with true. cbn [check].
      unfold kMaxDecodeDepth. rewrite check_true by lia. rewrite check_true by lia. rewrite part_in by lia. replace (a + 136 + 8) with (a + 144) by lia. replace (8 + L - 8) with L by lia. unfold L, inner in *. rewrite V. cbn [vbind].
      rewrite (N.mod_small key) by (destruct Kk; subst; reflexivity). unfold kInlineKeyId, kSpilledKeyId. rewrite (proj2 (N.eqb_neq key _)), (proj2 (N.eqb_neq key _)) by (destruct Kk; subst; discriminate). cbn [vbind]. f_equal. lia. }
    unfold validateMap. rewrite check_true by lia. rewrite (check_true (a mod 16 =? 0)) by lia. rewrite (get_ok _ _ _ 0 4), (get_ok _ _ _ 4 1), (get_ok _ _ _ 12 4), (get_ok _ _ _ 16 4), (get_ok _ _ _ 6 2), (get_ok _ _ _ 28 4) by lia. cbn [vbind].
    rewrite R0, R4, R12, R16, R6, R28. rewrite dec_enc4 by (rewrite W32_val; lia). change (dec (enc 4 128)) with 128. change (dec (enc 2 2)) with 2. change (dec (enc 4 0)) with 0. rewrite check_true by reflexivity. rewrite check_true by lia. rewrite check_true by reflexivity.
    change (N.to_nat 2) with 2%nat. cbn [entriesLoop]. change (0 + 1) with 1. rewrite (One 0 1) by (auto; try lia; rewrite N.mul_0_r, N.add_0_r; exact E1). cbn [vbind]. rewrite (One 1 2) by (auto; try lia; rewrite N.mul_1_r; rewrite <- N.add_assoc; exact E2). cbn [vbind].
    exists (1 + (1 + c + (1 + c + 0)) + 0). split.
    + destruct (N.to_nat ((144 + L) / 8 + 1)); reflexivity.
    + rewrite Nnat.Nat2N.inj_succ, N.pow_succ_r'. lia.
Qed.

(** *** Without nesting *)
Lemma walk_cost mm a n ts po : forall fuel cur c, freeWalk fuel mm a n ts po cur = VOk c -> c <= N.of_nat fuel.
Proof.
  induction fuel as [|fuel IH]; intros cur c H; cbn [freeWalk] in H; destruct (cur =? 0); try discriminate H; try (injection H as <-; lia). apply check_ok in H. destruct H as [_ H]. apply vbind_ok in H. destruct H as (l & _ & H). apply vbind_ok in H. destruct H as (nx & _ & H). apply check_ok in H. destruct H as [_ H].
  apply vbind_ok in H. destruct H as (x & W & H). specialize (IH _ _ W). assert (c = 1 + x) by congruence. lia.
Qed.
Lemma loop_cost one n : forall i c, entriesLoop one n i = VOk c -> (forall j x, i <= j < i + N.of_nat n -> one j = VOk x -> x = 1) -> c = N.of_nat n.
Proof.
  induction n as [|n IH]; intros i c H F; cbn [entriesLoop] in H; [injection H as <-; reflexivity|]. apply vbind_ok in H. destruct H as (x & E & H). apply vbind_ok in H. destruct H as (y & L & H). assert (Hc : c = x + y) by congruence. rewrite Hc.
  rewrite (F i x ltac:(lia) E), (IH _ _ L); [lia|]. intros j z Hj. apply F. lia.
Qed.
Lemma flat_cost mm a n c : validateBlob mm a n = VOk c ->
  (forall i, i < dec (rd mm (a + 6) 2) -> N.testbit (mm (a + 32 + 48 * i + 11)) 3 = false /\ N.testbit (mm (a + 32 + 48 * i + 11)) 4 = false) -> c <= n.
Proof.
  intros H F. rewrite validateBlob_eq in H. set (sub := fun t' a' n' => validate 33 mm t' (0 + 1) a' n') in H. clearbody sub. unfold validateMap in H. apply check_ok in H. destruct H as [N32 H]. apply check_ok in H. destruct H as [Al H].
  apply vbind_ok in H. destruct H as (mg & M & H). apply vbind_ok in H. destruct H as (ver & _ & H). apply check_ok in H. destruct H as [Mv H].
  apply vbind_ok in H. destruct H as (ts & Gt & H). apply vbind_ok in H. destruct H as (po & Gp & H). apply vbind_ok in H. destruct H as (cnt & Gc & H). apply vbind_ok in H. destruct H as (fh & _ & H).
  apply check_ok in H. destruct H as [C1 H]. apply check_ok in H. destruct H as [C2 H]. apply vbind_ok in H. destruct H as (x & Lo & H). apply vbind_ok in H. destruct H as (y & Wo & H). assert (Hc : c = 1 + x + y) by congruence. apply get_val in Gc. destruct Gc as [Gc _].
  apply walk_cost in Wo. apply loop_cost in Lo.
  - pose proof (N.div_mod ts 8 ltac:(lia)). lia.
  - intros j z Hj V. rewrite entry_check in V by lia. rewrite <- Gc in F. destruct (F j ltac:(lia)) as [F3 F4]. unfold entryCheck in V. apply vbind_ok in V. destruct V as (p & V1 & V). apply vbind_ok in V. destruct V as (q & V2 & V). assert (Hz : z = 1 + p + q) by congruence.
    assert (P : p = 0). { cbn [parseEntry eFlags] in V1. rewrite F3, F4 in V1. destruct (N.testbit (mm (a + 32 + 48 * j + 11)) 1); [|congruence]. apply check_ok in V1. destruct V1 as [_ V1]. apply check_ok in V1. destruct V1 as [_ V1]. apply vbind_ok in V1. destruct V1 as (r & _ & V1). apply check_ok in V1. destruct V1 as [_ V1].
      apply vbind_ok in V1. destruct V1 as (r' & _ & V1). apply check_ok in V1. destruct V1 as [_ V1]. cbn [orb] in V1. congruence. }
    assert (Q : q = 0). { destruct (_ =? kInlineKeyId); [apply check_ok in V2; destruct V2; congruence|]. destruct (_ =? kSpilledKeyId); [apply check_ok in V2; destruct V2; congruence|congruence]. }
    lia.
Qed.
